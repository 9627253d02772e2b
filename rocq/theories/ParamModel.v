(** Model of parameters given by formulas: mp2p_icp_map/src/Parameterizable.cpp and
    mp2p_icp_map/include/mp2p_icp/Parameterizable.h.

    Simplifications:
    - values are rationals [Q] (no rounding but that of [fl], no NaN, no infinity);
    - a formula is whatever the expression library of MRPT (CRuntimeCompiledExpression, on top of
      exprtk, not part of /repo) makes of a text: it may be malformed ([wf]), it mentions variables
      ([fvars]), and it has a value for given values of them ([fval]).  Reserved words and
      case-insensitivity of exprtk are left out.  The library keeps references to the variables, so
      that evaluating uses their values at that moment;
    - an expression object on which compile() threw evaluates to some number [junk] that has nothing
      to do with the formula (exprtk: an empty expression, NaN);
    - there is one ParameterSource; objects and memory cells have numbers; nobody else writes to a
      cell that is the target of a parameter. *)
From Coq Require Import String Qround.
From Verif Require Import Base.
Open Scope nat_scope.

Section Param.
Variable F : Type.                                (* formulas, as texts *)
Variable wf : F -> bool.
Variable fvars : F -> list string.
Variable fval : F -> (string -> Q) -> Q.
Variable fl : Q -> Q.                             (* static_cast<float> *)
Variable junk : Q.

(** the alternatives of the variant of pointers, Parameterizable.h 37 *)
Inductive Kind := KDouble | KFloat | KUint32.
(** truncation towards zero *)
Definition trunc (v : Q) : Z := if Qle_bool 0 v then Qfloor v else (- Qfloor (- v))%Z.
(** static_cast<T>(double): outside of its range the conversion to uint32_t is undefined *)
Definition cast (k : Kind) (v : Q) : res Q :=
  match k with
  | KDouble => Ok v
  | KFloat => Ok (fl v)
  | KUint32 => if ((0 <=? trunc v) && (trunc v <? 4294967296))%Z then Ok (inject_Z (trunc v)) else UB
  end.

(** Parameterizable.h 32-40, internal::InfoPerParam.  [compiled]: no value, a compiled expression, or an
    expression object whose compile() threw. *)
Inductive Comp := NotYet | Compiled | Broken.
Record Info := mkInfo { i_expr : F; i_kind : Kind; i_tgt : nat; i_comp : Comp; i_const : bool; i_eval : bool }.

(** a Parameterizable: [declParameters_] is a std::vector, whose elements move when it grows:
    [o_gen] counts the reallocations. *)
Record Obj := mkObj { o_params : list Info; o_cap : nat; o_gen : nat }.
(** a pointer to the parameter [idx] of object [o], taken when its vector had been reallocated [gen] times *)
Record Ptr := mkPtr { p_obj : nat; p_gen : nat; p_idx : nat }.

Record World := mkW {
  w_objs : nat -> Obj;
  w_vars : list (string * Q);          (* ParameterSource::variables_ *)
  w_att : list Ptr;                    (* ParameterSource::attachedDeclParameters_ *)
  w_mem : nat -> Q }.

Definition obj0 : Obj := mkObj [] 0 0.
Definition world0 : World := mkW (fun _ => obj0) [] [] (fun _ => 0%Q).

Inductive out := Done | Thrown | Undef.

Definition set_obj (w : World) (o : nat) (b : Obj) : World :=
  mkW (fun x => if x =? o then b else w_objs w x) (w_vars w) (w_att w) (w_mem w).
Definition set_mem (w : World) (t : nat) (v : Q) : World :=
  mkW (w_objs w) (w_vars w) (w_att w) (fun x => if x =? t then v else w_mem w x).
Definition set_param (w : World) (p : Ptr) (i : Info) : World :=
  let b := w_objs w (p_obj p) in
  set_obj w (p_obj p) (mkObj (upd (o_params b) (p_idx p) i) (o_cap b) (o_gen b)).
Definition deref (w : World) (p : Ptr) : option Info :=
  let b := w_objs w (p_obj p) in
  if o_gen b =? p_gen p then nth_error (o_params b) (p_idx p) else None.

Fixpoint vfind (l : list (string * Q)) (x : string) : option Q :=
  match l with [] => None | (y, v) :: r => if String.eqb y x then Some v else vfind r x end.
Fixpoint vset (l : list (string * Q)) (x : string) (v : Q) : list (string * Q) :=
  match l with [] => [(x, v)] | (y, u) :: r => if String.eqb y x then (y, v) :: r else (y, u) :: vset r x v end.
Definition env (l : list (string * Q)) (x : string) : Q := match vfind l x with Some v => v | None => 0%Q end.

(** MRPT compile(): every variable of the formula must be known *)
Definition compiles (f : F) (l : list (string * Q)) : bool :=
  wf f && forallb (fun x => match vfind l x with Some _ => true | None => false end) (fvars f).
Definition no_env : string -> Q := fun _ => 0%Q.

(** libstdc++ vector::emplace_back: doubles its capacity when full *)
Definition grow (b : Obj) : Obj :=
  if List.length (o_params b) <? o_cap b then b
  else mkObj (o_params b) (if o_cap b =? 0 then 1 else 2 * o_cap b) (S (o_gen b)).

(** Parameterizable.cpp 108-136, parseAndDeclareParameter *)
Definition declare (w : World) (o : nat) (f : F) (k : Kind) (t : nat) : World * out :=
  let b := grow (w_objs w o) in
  let put i := mkObj (o_params b ++ [i]) (o_cap b) (o_gen b) in
  if compiles f [] then
    match cast k (fval f no_env) with
    | Ok v => (set_mem (set_obj w o (put (mkInfo f k t Compiled true true))) t v, Done)
    | _ => (w, Undef)
    end
  else (set_obj w o (put (mkInfo f k t NotYet false false)), Done).

(** std::to_string of a double or a float ("%f": six decimals, to nearest, ties to even), in millionths;
    an unsigned integer is printed in full *)
Definition millionths (v : Q) : Z :=
  let x := (v * inject_Z 1000000)%Q in
  let f := Qfloor x in
  let r := (x - inject_Z f)%Q in
  if negb (Qle_bool (1 # 2) r) then f
  else if negb (Qle_bool r (1 # 2)) then (f + 1)%Z
  else if Z.even f then f else (f + 1)%Z.
Definition printed (k : Kind) (v : Q) : Q :=
  match k with KUint32 => v | _ => (inject_Z (millionths v) / inject_Z 1000000)%Q end.
(** Parameterizable.h 169-174, DECLARE_PARAMETER_(IN_)OPT: the formula of the configuration or, if the key is not
    there, the text of the present value of the variable ([num]: the formula that such a text is) *)
Definition declare_opt (num : Q -> F) (w : World) (o : nat) (given : option F) (k : Kind) (t : nat) : World * out :=
  declare w o (match given with Some f => f | None => num (printed k (w_mem w t)) end) k t.

(** Parameterizable.cpp 23-31, ParameterSource::attach: inserts the address of every parameter *)
Definition ptr_eqb (p q : Ptr) : bool := (p_obj p =? p_obj q) && (p_gen p =? p_gen q) && (p_idx p =? p_idx q).
Definition attach (w : World) (o : nat) : World :=
  let b := w_objs w o in
  let ps := map (fun i => mkPtr o (o_gen b) i) (seq 0 (List.length (o_params b))) in
  mkW (w_objs w) (w_vars w) (w_att w ++ filter (fun p => negb (existsb (ptr_eqb p) (w_att w))) ps) (w_mem w).

(** Parameterizable.h 60-70, updateVariable *)
Definition update (w : World) (x : string) (v : Q) : World := mkW (w_objs w) (vset (w_vars w) x v) (w_att w) (w_mem w).

(** Parameterizable.cpp 53-68: compile what is not compiled yet *)
Fixpoint compile_all (w : World) (ps : list Ptr) : World * out :=
  match ps with
  | [] => (w, Done)
  | p :: r =>
      match deref w p with
      | None => (w, Undef)
      | Some i =>
          if i_const i then compile_all w r else
          match i_comp i with
          | NotYet =>
              if compiles (i_expr i) (w_vars w)
              then compile_all (set_param w p (mkInfo (i_expr i) (i_kind i) (i_tgt i) Compiled (i_const i) (i_eval i))) r
              else (set_param w p (mkInfo (i_expr i) (i_kind i) (i_tgt i) Broken (i_const i) (i_eval i)), Thrown)
          | _ => compile_all w r
          end
      end
  end.

(** Parameterizable.cpp 70-105: evaluate and store *)
Fixpoint eval_all (w : World) (ps : list Ptr) : World * out :=
  match ps with
  | [] => (w, Done)
  | p :: r =>
      match deref w p with
      | None => (w, Undef)
      | Some i =>
          if i_const i then eval_all w r else
          let val := match i_comp i with Compiled => Some (fval (i_expr i) (env (w_vars w))) | Broken => Some junk | NotYet => None end in
          match val with
          | None => (w, Undef)
          | Some v =>
              match cast (i_kind i) v with
              | Ok c => eval_all (set_param (set_mem w (i_tgt i) c) p (mkInfo (i_expr i) (i_kind i) (i_tgt i) (i_comp i) (i_const i) true)) r
              | _ => (w, Undef)
              end
          end
      end
  end.

(** Parameterizable.cpp 47-106, ParameterSource::realize.  [order]: a std::set of pointers is visited by
    increasing address, which can be any order. *)
Definition realize (w : World) (order : list Ptr) : World * out :=
  match compile_all w order with
  | (w', Done) => eval_all w' order
  | r => r
  end.

(** Parameterizable.cpp 153-176, checkAllParametersAreRealized *)
Definition check (w : World) (o : nat) : out :=
  if forallb i_eval (o_params (w_objs w o)) then Done else Thrown.

(** Parameterizable.cpp 178-188, unrealizeParameters *)
Definition unrealize (w : World) (o : nat) : World :=
  let b := w_objs w o in
  set_obj w o (mkObj (map (fun i => if i_const i then i else mkInfo (i_expr i) (i_kind i) (i_tgt i) (i_comp i) (i_const i) false) (o_params b))
    (o_cap b) (o_gen b)).

(** ** Histories of calls.  A call may throw; the program goes on with the state it left. *)
Inductive Op :=
| ODeclare (o : nat) (f : F) (k : Kind) (t : nat)
| OAttach (o : nat)
| OUpdate (x : string) (v : Q)
| ORealize
| OUnrealize (o : nat)
| OCheck (o : nat).

Inductive step : World -> Op -> out -> World -> Prop :=
| st_declare : forall w o f k t w' r, declare w o f k t = (w', r) -> step w (ODeclare o f k t) r w'
| st_attach : forall w o, step w (OAttach o) Done (attach w o)
| st_update : forall w x v, step w (OUpdate x v) Done (update w x v)
| st_realize : forall w order w' r, NoDup order -> (forall p, In p order <-> In p (w_att w)) -> realize w order = (w', r) -> step w ORealize r w'
| st_unrealize : forall w o, step w (OUnrealize o) Done (unrealize w o)
| st_check : forall w o, step w (OCheck o) (check w o) w.

(** [hist w h w']: the calls [h], in order, with their outcomes; the last one may be undefined *)
Inductive run : World -> list (Op * out) -> World -> Prop :=
| run_nil : forall w, run w [] w
| run_snoc : forall w h w1 op r w2, run w h w1 -> Forall (fun e => snd e <> Undef) h -> step w1 op r w2 -> run w (h ++ [(op, r)]) w2.
End Param.
