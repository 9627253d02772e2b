(** Model of mp2p_icp_filters/src/FilterDeskew.cpp.  Simplifications: those of FilterModel.v, and
    - a rotation is any function on triples of numbers; [so3exp] is mrpt Lie::SO<3>::exp,
      [find_closest] is mrpt::containers::find_closest: neither is part of /repo;
    - what reconstruct_poses_around_reference_time() of the velocity buffer returns is a parameter
      of the configuration (VelocityModel.v models it);
    - the parallel loop runs its iterations' accesses to memory in any interleaving, one access at
      a time (sequential consistency; C49_iterations_never_conflict shows there are no data races). *)
From Coq Require Import String.
From Verif Require Import Base FilterModel.
Open Scope nat_scope.

Definition Q3 := (Q * Q * Q)%type.
Definition Rot := Q3 -> Q3.

Section Deskew.
Variable so3exp : Q3 -> Rot.
Variable find_closest : list (Q * Rot) -> Q -> option Rot.

Record DCfg := mkDk {
  dk_in : Name; dk_out : Name;
  dk_class : option Cls;              (* output_layer_class; None: not a known point cloud class *)
  dk_silent : bool; dk_skip : bool; dk_precise : bool;
  dk_twist : option (Q3 * Q3);        (* linear, angular *)
  dk_source : option (Q -> outc (list (Q * Rot)));   (* attached source: its reconstruction, given the time span *)
  dk_realized : bool }.

Definition scale3 (v : Q3) (t : Q) : Q3 := let '(a, b, c) := v in ((a * t)%Q, (b * t)%Q, (c * t)%Q).
Definition add3 (v w : Q3) : Q3 := let '(a, b, c) := v in let '(x, y, z) := w in ((a + x)%Q, (b + y)%Q, (c + z)%Q).

(** FilterDeskew.cpp 218-260: the corrected coordinates of a point with time [t].  [poses]:
    interpolated_relative_poses; [tw]: constant_twist. *)
Definition correct (precise : bool) (poses : option (list (Q * Rot))) (tw : Q3 * Q3) (t : Q) (p : Q3) : Q3 :=
  match (if precise then poses else None) with
  | Some tr =>
      match find_closest tr t with
      | Some r => add3 (r p) (scale3 (fst tw) t)
      | None => p
      end
  | None => add3 (so3exp (scale3 (snd tw) t) p) (scale3 (fst tw) t)
  end.

(** ** The loop body, FilterDeskew.cpp 207-268, as a list of accesses to memory *)
Inductive Acc := RdX | RdY | RdZ | TestZero | RdT | WrX | WrY | WrZ | RdI | WrI | RdR | WrR | WrT.
Record Regs := mkRegs { rx : Q; ry : Q; rz : Q; rt : Q; ri : Q; rr : Z }.
Definition regs0 : Regs := mkRegs 0 0 0 0 0 0.

(** the accesses of an iteration; the optional fields are copied if both clouds have them *)
Definition program (ci co : Cls) : list Acc :=
  [RdX; RdY; RdZ; TestZero; RdT; WrX; WrY; WrZ] ++
  (if has_I ci && has_I co then [RdI; WrI] else []) ++
  (if has_R ci && has_R co then [RdR; WrR] else []) ++
  (if has_T ci && has_T co then [RdT; WrT] else []).

Record Job := mkJob {
  jb_n0 : nat;                    (* size of the output before *)
  jb_n : nat;
  jb_src : option (list Pt);      (* the input points; None: the input is the output layer itself *)
  jb_ci : Cls; jb_co : Cls;
  jb_corr : Q -> Q3 -> Q3 }.

Definition is_zero (r : Regs) : bool := Qeq_bool (rx r) 0 && Qeq_bool (ry r) 0 && Qeq_bool (rz r) 0.

(** one access of an iteration whose input point is [p] and whose output point is [q] *)
Definition access (corr : Q -> Q3 -> Q3) (a : Acc) (rest : list Acc) (r : Regs) (p q : Pt) : list Acc * Regs * Pt :=
  let c := corr (rt r) (rx r, ry r, rz r) in
  match a with
  | RdX => (rest, mkRegs (px p) (ry r) (rz r) (rt r) (ri r) (rr r), q)
  | RdY => (rest, mkRegs (rx r) (py p) (rz r) (rt r) (ri r) (rr r), q)
  | RdZ => (rest, mkRegs (rx r) (ry r) (pz p) (rt r) (ri r) (rr r), q)
  | TestZero => (if is_zero r then [] else rest, r, q)
  | RdT => (rest, mkRegs (rx r) (ry r) (rz r) (p_time p) (ri r) (rr r), q)
  | WrX => (rest, r, mkPt (fst (fst c)) (py q) (pz q) (p_int q) (p_ring q) (p_time q))
  | WrY => (rest, r, mkPt (px q) (snd (fst c)) (pz q) (p_int q) (p_ring q) (p_time q))
  | WrZ => (rest, r, mkPt (px q) (py q) (snd c) (p_int q) (p_ring q) (p_time q))
  | RdI => (rest, mkRegs (rx r) (ry r) (rz r) (rt r) (p_int p) (rr r), q)
  | WrI => (rest, r, mkPt (px q) (py q) (pz q) (ri r) (p_ring q) (p_time q))
  | RdR => (rest, mkRegs (rx r) (ry r) (rz r) (rt r) (ri r) (p_ring p), q)
  | WrR => (rest, r, mkPt (px q) (py q) (pz q) (p_int q) (rr r) (p_time q))
  | WrT => (rest, r, mkPt (px q) (py q) (pz q) (p_int q) (p_ring q) (rt r))
  end.

(** the points of the output layer, and what is left to do of every iteration *)
Record LState := mkLS { ls_mem : list Pt; ls_its : nat -> list Acc * Regs }.
Definition src_at (j : Job) (mem : list Pt) (i : nat) : option Pt :=
  match jb_src j with Some l => nth_error l i | None => nth_error mem i end.

(** one iteration makes one access; an access outside of a buffer is undefined *)
Inductive lstep (j : Job) : LState -> option LState -> Prop :=
| ls_access : forall s i a rest r p q rest' r' q',
    i < jb_n j -> ls_its s i = (a :: rest, r) ->
    src_at j (ls_mem s) i = Some p -> nth_error (ls_mem s) (jb_n0 j + i) = Some q ->
    access (jb_corr j) a rest r p q = (rest', r', q') ->
    lstep j s (Some (mkLS (upd (ls_mem s) (jb_n0 j + i) q') (fun k => if k =? i then (rest', r') else ls_its s k)))
| ls_bad : forall s i a rest r,
    i < jb_n j -> ls_its s i = (a :: rest, r) ->
    (src_at j (ls_mem s) i = None \/ nth_error (ls_mem s) (jb_n0 j + i) = None) ->
    lstep j s None.
Inductive lsteps (j : Job) : LState -> option LState -> Prop :=
| lss_refl : forall s, lsteps j s (Some s)
| lss_step : forall s s' r, lstep j s (Some s') -> lsteps j s' r -> lsteps j s r
| lss_bad : forall s, lstep j s None -> lsteps j s None.
Definition start (j : Job) (mem : list Pt) : LState := mkLS mem (fun _ => (program (jb_ci j) (jb_co j), regs0)).
Definition finished (j : Job) (s : LState) : Prop := forall i, i < jb_n j -> fst (ls_its s i) = [].

(** ** The filter *)

(** mrpt CPointsMap::resize: new points have every field zero *)
Definition blank : Pt := mkPt 0 0 0 0 0 0.

(** GetOrCreatePointLayer.cpp 23-63 with a class name that may be unknown *)
Definition get_or_create_class (n : Name) (c : option Cls) : M bool := fun m =>
  match c with
  | Some c => get_or_create n false c m
  | None => if String.eqb n "" then (m, Exc) else match lfind m n with Some (LPts _) => (m, Val true) | _ => (m, Exc) end
  end.

(** FilterDeskew.cpp 132-135: for each i < n, outPc->insertPointFrom(inPc, i): when the input is the output, the
    points read are still the old ones, since points are added at the end *)
Definition copy_all (c : DCfg) (ic : Cloud) : M unit := route_list (cl_pts ic) (fun _ => dk_out c).

Definition min_max (ts : list Q) : Q * Q :=
  (match fold_left min_step ts None with Some v => v | None => 0%Q end, match fold_left max_step ts None with Some v => v | None => 0%Q end).

(** FilterDeskew.cpp 122-199: the input has points *)
Definition prelude_body (c : DCfg) (ic : Cloud) : M (option Job) :=
  if negb (has_T (cl_cls ic)) || dk_skip c then
    if dk_silent c || dk_skip c then do _ <- copy_all c ic; ret None else throw
  else
    fun m =>
    match lfind m (dk_out c) with
    | Some (LPts oc) =>
      let n := List.length (cl_pts ic) in
      let m1 := lset m (dk_out c) (LPts (mkCloud (cl_cls oc) (cl_pts oc ++ repeat blank n))) in
      let job corr := Some (mkJob (List.length (cl_pts oc)) n (if String.eqb (dk_in c) (dk_out c) then None else Some (cl_pts ic)) (cl_cls ic) (cl_cls oc) corr) in
      (if dk_precise c then
         match dk_source c with
         | None => throw
         | Some recon =>
             let '(mn, mx) := min_max (map p_time (cl_pts ic)) in
             match recon (mx - mn)%Q with
             | Val [] => ret (job (correct true None ((0, 0, 0)%Q, (0, 0, 0)%Q)))
             | Val tr => ret (job (correct true (Some tr) ((0, 0, 0)%Q, (0, 0, 0)%Q)))
             | Exc => throw
             | Undef => ubm
             | Spin => fun m => (m, Spin)
             end
         end
       else match dk_twist c with
            | None => throw
            | Some tw => ret (job (correct false None tw))
            end) m1
    | _ => (m, Undef)
    end.

(** FilterDeskew.cpp 69-199, up to the loop *)
Definition prelude (c : DCfg) : M (option Job) :=
  do _ <- massert (dk_realized c);
  do _ <- massert (negb (String.eqb (dk_out c) ""));
  do _ <- get_or_create_class (dk_out c) (dk_class c);
  do _ <- massert (negb (String.eqb (dk_in c) ""));
  fun m =>
  match lfind m (dk_in c) with
  | None => (m, Exc)
  | Some LNull => (m, Undef)
  | Some l =>
    match map_to_points l with
    | None => (m, Exc)
    | Some ic => match cl_pts ic with [] => (m, Val None) | _ => prelude_body c ic m end
    end
  end.

(** FilterDeskew.cpp 69-275, FilterDeskew::filter *)
Inductive deskew (c : DCfg) (m : Layers) : Layers -> outc unit -> Prop :=
| dk_return : forall m', prelude c m = (m', Val None) -> deskew c m m' (Val tt)
| dk_throw : forall m', prelude c m = (m', Exc) -> deskew c m m' Exc
| dk_undef : forall m', prelude c m = (m', Undef) -> deskew c m m' Undef
| dk_spin : forall m', prelude c m = (m', Spin) -> deskew c m m' Spin
| dk_loop : forall m1 j oc s, prelude c m = (m1, Val (Some j)) -> lfind m1 (dk_out c) = Some (LPts oc) ->
    lsteps j (start j (cl_pts oc)) (Some s) -> finished j s ->
    deskew c m (lset m1 (dk_out c) (LPts (mkCloud (cl_cls oc) (ls_mem s)))) (Val tt)
| dk_loop_bad : forall m1 j oc, prelude c m = (m1, Val (Some j)) -> lfind m1 (dk_out c) = Some (LPts oc) ->
    lsteps j (start j (cl_pts oc)) None -> deskew c m m1 Undef.
End Deskew.
