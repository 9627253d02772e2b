(** C39, C101-C103: parameters given by formulas. *)
From Coq Require Import String Qround.
From Verif Require Import Base ParamModel.
Open Scope nat_scope.

Section ParamP.
Variable F : Type.
Variable wf : F -> bool.
Variable fvars : F -> list string.
Variable fval : F -> (string -> Q) -> Q.
Variable fl : Q -> Q.
Variable junk : Q.
Notation Hist := (list (Op F * out)).
Notation World := (World F).
Notation Info := (Info F).
Notation run := (run F wf fvars fval fl junk (world0 F)).
Notation step := (step F wf fvars fval fl junk).
Notation cast := (cast fl).
Notation deref := (deref F).
Notation compiles := (compiles F wf fvars).

(** ** Specification, in terms of the calls made so far *)

(** the parameters declared so far, in order: object, formula, type and address of the variable *)
Record Decl := mkDecl { d_obj : nat; d_expr : F; d_kind : Kind; d_tgt : nat }.
Definition decl_of (e : Op F * out) : list Decl :=
  match e with (ODeclare _ o f k t, Done) => [mkDecl o f k t] | _ => [] end.
Definition decls (h : Hist) : list Decl := flat_map decl_of h.
Definition params_of (h : Hist) (o : nat) : list Decl := filter (fun d => d_obj d =? o) (decls h).
(** the value a variable was last given *)
Definition latest (h : Hist) (x : string) : option Q :=
  fold_left (fun v (e : Op F * out) => match e with (OUpdate _ y u, _) => if String.eqb y x then Some u else v | _ => v end) h None.
Definition value_now (h : Hist) (x : string) : Q := match latest h x with Some v => v | None => 0%Q end.
(** a formula without variables *)
Definition constant (f : F) : Prop := wf f = true /\ fvars f = [].
(** the value of a formula depends on its variables only *)
Definition reads_only : Prop := forall f e e', (forall x, In x (fvars f) -> e x = e' x) -> fval f e = fval f e'.
Definition attached (h : Hist) (o : nat) : Prop := exists r, In (OAttach F o, r) h.
(** no object gets new parameters once it has been attached *)
Definition stable (h : Hist) : Prop :=
  forall h1 h2 o r f k t r', h = h1 ++ h2 -> In (OAttach F o, r) h1 -> ~ In (ODeclare F o f k t, r') h2.
(** no two parameters have the same variable *)
Definition distinct (h : Hist) : Prop := NoDup (map d_tgt (decls h)).
Definition no_failed_realize (h : Hist) : Prop := ~ In (ORealize F, Thrown) h.
(** since it was attached, the source has been realized, with no unrealizeParameters() afterwards *)
Definition realized (h : Hist) (o : nat) : Prop :=
  exists h1 h2, h = h1 ++ (ORealize F, Done) :: h2 /\ attached h1 o /\ forall r, ~ In (OUnrealize F o, r) h2.

(** ** Access to the state *)
Definition get (w : World) (o i : nat) : option Info := nth_error (o_params F (w_objs F w o)) i.
Definition gen (w : World) (o : nat) : nat := o_gen F (w_objs F w o).
Definition mem (w : World) : nat -> Q := w_mem F w.
Definition key (o : nat) (i : Info) : Decl := mkDecl o (i_expr F i) (i_kind F i) (i_tgt F i).

Lemma upd_nth {A} (l : list A) i x j : i < List.length l -> nth_error (upd l i x) j = if i =? j then Some x else nth_error l j.
Proof.
  revert i j. induction l as [|a l IH]; intros i j L; [simpl in L; lia|].
  destruct i, j; cbn [upd nth_error Nat.eqb]; try reflexivity. apply IH. simpl in L. lia.
Qed.

Lemma deref_get w p : gen w (p_obj p) = p_gen p -> deref w p = get w (p_obj p) (p_idx p).
Proof. intros G. unfold ParamModel.deref, get, gen in *. rewrite G, Nat.eqb_refl. reflexivity. Qed.
Lemma deref_some w p i : deref w p = Some i -> gen w (p_obj p) = p_gen p /\ get w (p_obj p) (p_idx p) = Some i.
Proof. unfold ParamModel.deref, get, gen. destruct (Nat.eqb_spec (o_gen F (w_objs F w (p_obj p))) (p_gen p)); [auto|discriminate]. Qed.

Lemma get_set_param w p i i' : get w (p_obj p) (p_idx p) = Some i ->
  forall o j, get (set_param F w p i') o j = if (o =? p_obj p) && (j =? p_idx p) then Some i' else get w o j.
Proof.
  intros G o j. unfold get, set_param, set_obj. cbn [w_objs]. destruct (Nat.eqb_spec o (p_obj p)) as [->|N]; [|reflexivity].
  cbn [o_params andb]. rewrite upd_nth by (apply nth_error_Some; unfold get in G; rewrite G; discriminate).
  rewrite Nat.eqb_sym. reflexivity.
Qed.
Lemma gen_set_param w p i' o : gen (set_param F w p i') o = gen w o.
Proof. unfold gen, set_param, set_obj. cbn [w_objs]. destruct (Nat.eqb_spec o (p_obj p)) as [->|N]; reflexivity. Qed.

Ltac sp := match goal with |- _ /\ _ => split; [|sp] | _ => idtac end.
(** ** realize() *)
Definition with_comp (i : Info) c : Info := mkInfo F (i_expr F i) (i_kind F i) (i_tgt F i) c (i_const F i) (i_eval F i).
Definition with_eval (i : Info) : Info := mkInfo F (i_expr F i) (i_kind F i) (i_tgt F i) (i_comp F i) (i_const F i) true.

Lemma compile_spec ps : forall w w' r, compile_all F wf fvars w ps = (w', r) -> r <> Undef ->
  w_vars F w' = w_vars F w /\ w_att F w' = w_att F w /\ mem w' = mem w /\ (forall o, gen w' o = gen w o) /\
  (forall o j, match get w o j with
     | None => get w' o j = None
     | Some a => exists c, get w' o j = Some (with_comp a c) /\
         (c = i_comp F a \/ (i_comp F a = NotYet /\ i_const F a = false /\ (c = Compiled \/ (c = Broken /\ r = Thrown)))) end) /\
  (r = Done -> forall p a, In p ps -> deref w' p = Some a -> i_const F a = false -> i_comp F a <> NotYet).
Proof.
  assert (ID : forall a : Info, a = with_comp a (i_comp F a)) by (intros [? ? ? ? ? ?]; reflexivity).
  induction ps as [|p ps IH]; intros w w' r E NU; cbn [compile_all] in E.
  - injection E as <- <-. refine (conj eq_refl (conj eq_refl (conj eq_refl (conj (fun _ => eq_refl) (conj _ _))))); [|intros _ p a []].
    intros o j. destruct (get w o j) as [a|]; [|reflexivity]. exists (i_comp F a). rewrite <- ID. auto.
  - destruct (deref w p) as [i|] eqn:D; [|injection E as <- <-; contradiction].
    destruct (deref_some _ _ _ D) as [GP GI].
    assert (SKIP : forall w', (i_const F i = true \/ i_comp F i <> NotYet) -> compile_all F wf fvars w ps = (w', r) ->
       w_vars F w' = w_vars F w /\ w_att F w' = w_att F w /\ mem w' = mem w /\ (forall o, gen w' o = gen w o) /\
       (forall o j, match get w o j with
         | None => get w' o j = None
         | Some a => exists c, get w' o j = Some (with_comp a c) /\
           (c = i_comp F a \/ (i_comp F a = NotYet /\ i_const F a = false /\ (c = Compiled \/ (c = Broken /\ r = Thrown)))) end) /\
       (r = Done -> forall q a, In q (p :: ps) -> deref w' q = Some a -> i_const F a = false -> i_comp F a <> NotYet)).
    { intros w'' C E'. destruct (IH _ _ _ E' NU) as (A & B & M & G & P & Q). sp; try assumption.
      intros R q a [<-|I] DQ NC; [|exact (Q R q a I DQ NC)].
      destruct (deref_some _ _ _ DQ) as [_ GQ]. specialize (P (p_obj p) (p_idx p)). rewrite GI in P. destruct P as [c [P1 P2]].
      rewrite P1 in GQ. injection GQ as <-. cbn [with_comp i_const i_comp] in *. destruct C as [C|C]; [congruence|].
      destruct P2 as [->|(P2 & _)]; [exact C|contradiction]. }
    destruct (i_const F i) eqn:CI; [apply SKIP; [left; reflexivity|exact E]|].
    destruct (i_comp F i) eqn:CO; try (apply SKIP; [right; discriminate|exact E]).
    clear SKIP.
    destruct (compiles (i_expr F i) (w_vars F w)).
    + set (i' := mkInfo F (i_expr F i) (i_kind F i) (i_tgt F i) Compiled false (i_eval F i)) in E.
      destruct (IH _ _ _ E NU) as (A & B & M & G & P & Q).
      assert (GS := get_set_param w p i i' GI).
      sp; try assumption.
      * intros o. rewrite G, gen_set_param. reflexivity.
      * intros o j. specialize (P o j). rewrite GS in P.
        destruct (Nat.eqb_spec o (p_obj p)) as [->|]; cbn [andb] in P; [|exact P].
        destruct (Nat.eqb_spec j (p_idx p)) as [EJ|]; [|exact P]. rewrite EJ in *.
        rewrite GI. destruct P as [c [P1 P2]]. exists c. split; [rewrite P1; unfold with_comp, i'; cbn [i_expr i_kind i_tgt i_const i_eval]; rewrite CI; reflexivity|].
        right. rewrite CO, CI. sp; auto. destruct P2 as [->|(P2 & _)]; [left; reflexivity|discriminate P2].
      * intros R q a [<-|I] DQ NC; [|exact (Q R q a I DQ NC)].
        destruct (deref_some _ _ _ DQ) as [_ GQ]. specialize (P (p_obj p) (p_idx p)). rewrite GS, !Nat.eqb_refl in P. cbn [andb] in P.
        destruct P as [c [P1 P2]]. rewrite P1 in GQ. injection GQ as <-. cbn [with_comp i_comp]. destruct P2 as [->|(P2 & _)]; [discriminate|discriminate P2].
    + injection E as <- <-. set (i' := mkInfo F (i_expr F i) (i_kind F i) (i_tgt F i) Broken false (i_eval F i)).
      assert (GS := get_set_param w p i i' GI).
      sp; [reflexivity|reflexivity|reflexivity|..].
      * intros o. apply gen_set_param.
      * intros o j. rewrite GS. destruct (Nat.eqb_spec o (p_obj p)) as [->|]; cbn [andb]; [destruct (Nat.eqb_spec j (p_idx p)) as [->|]|].
        -- rewrite GI. exists Broken. split; [unfold with_comp, i'; rewrite CI; reflexivity|]. right. rewrite CO, CI. sp; auto.
        -- destruct (get w (p_obj p) j) as [a|]; [|reflexivity]. exists (i_comp F a). rewrite <- ID. auto.
        -- destruct (get w o j) as [a|]; [|reflexivity]. exists (i_comp F a). rewrite <- ID. auto.
      * discriminate.
Qed.

Definition calc (vars : list (string * Q)) (i : Info) : option Q :=
  match i_comp F i with Compiled => Some (fval (i_expr F i) (env vars)) | Broken => Some junk | NotYet => None end.
(** the cell is the target of one of the pointed-to parameters that get a value *)
Definition writes (w : World) (ps : list Ptr) (t : nat) : Prop :=
  exists p i, In p ps /\ deref w p = Some i /\ i_const F i = false /\ i_tgt F i = t.

Lemma eval_spec ps : forall w w' , eval_all F fval fl junk w ps = (w', Done) ->
  w_vars F w' = w_vars F w /\ w_att F w' = w_att F w /\ (forall o, gen w' o = gen w o) /\
  (forall o j, match get w o j with
     | None => get w' o j = None
     | Some a => if i_const F a then get w' o j = Some a
         else get w' o j = Some (if existsb (ptr_eqb (mkPtr o (gen w o) j)) ps then with_eval a else a) end) /\
  (forall t, ~ writes w ps t -> mem w' t = mem w t) /\
  (NoDup ps -> (forall p q a b, In p ps -> In q ps -> deref w p = Some a -> deref w q = Some b -> i_const F a = false -> i_const F b = false -> i_tgt F a = i_tgt F b -> p = q) ->
   forall p a, In p ps -> deref w p = Some a -> i_const F a = false -> exists v, calc (w_vars F w) a = Some v /\ cast (i_kind F a) v = Ok (mem w' (i_tgt F a))).
Proof.
  induction ps as [|p ps IH]; intros w w' E; cbn [eval_all] in E.
  - injection E as <-. refine (conj eq_refl (conj eq_refl (conj (fun _ => eq_refl) (conj _ (conj (fun _ _ => eq_refl) _))))); [|intros _ _ p a []].
    intros o j. destruct (get w o j) as [a|]; [|reflexivity]. destruct (i_const F a); reflexivity.
  - destruct (deref w p) as [i|] eqn:D; [|discriminate E].
    destruct (deref_some _ _ _ D) as [GP GI].
    destruct (i_const F i) eqn:CI.
    + destruct (IH _ _ E) as (A & B & G & P & M & Q). sp; try assumption.
      * intros o j. specialize (P o j). destruct (get w o j) as [a|] eqn:GA; [|exact P]. destruct (i_const F a) eqn:CA; [exact P|].
        cbn [existsb]. destruct (ptr_eqb (mkPtr o (gen w o) j) p) eqn:PE; [|exact P].
        exfalso. unfold ptr_eqb in PE. cbn [p_obj p_gen p_idx] in PE. apply andb_prop in PE. destruct PE as [PE P3]. apply andb_prop in PE. destruct PE as [P1 P2].
        apply Nat.eqb_eq in P1, P3. subst o j. congruence.
      * intros t NW. apply M. intros (q & b & I & R). apply NW. exists q, b. split; [right; exact I|exact R].
      * intros ND INJ q a I DQ NC. inversion ND as [|? ? _ ND']; subst. destruct I as [<-|I].
        { rewrite D in DQ. injection DQ as <-. congruence. }
        apply (Q ND') with (p := q); auto. intros; eapply INJ; eauto; right; assumption.
    + set (val := match i_comp F i with Compiled => Some (fval (i_expr F i) (env (w_vars F w))) | Broken => Some junk | NotYet => None end) in E.
      destruct val as [v|] eqn:EV; [|discriminate E]. destruct (cast (i_kind F i) v) as [c| |] eqn:EC; try discriminate E.
      set (i' := mkInfo F (i_expr F i) (i_kind F i) (i_tgt F i) (i_comp F i) false true) in E.
      set (w1 := set_param F (set_mem F w (i_tgt F i) c) p i') in E.
      assert (GS : forall o j, get w1 o j = if (o =? p_obj p) && (j =? p_idx p) then Some i' else get w o j) by (intros; apply (get_set_param (set_mem F w (i_tgt F i) c) p i i' GI)).
      assert (GG : forall o, gen w1 o = gen w o) by (intros; apply (gen_set_param (set_mem F w (i_tgt F i) c))).
      assert (DD : forall q, p <> q -> deref w1 q = deref w q).
      { intros q NE. unfold ParamModel.deref. fold (gen w1 (p_obj q)) (gen w (p_obj q)) (get w1 (p_obj q) (p_idx q)) (get w (p_obj q) (p_idx q)). rewrite GG.
        destruct (Nat.eqb_spec (gen w (p_obj q)) (p_gen q)) as [EG|]; [|reflexivity]. rewrite GS.
        destruct (Nat.eqb_spec (p_obj q) (p_obj p)) as [E1|]; cbn [andb]; [destruct (Nat.eqb_spec (p_idx q) (p_idx p)) as [E2|]|]; try reflexivity.
        exfalso. apply NE. destruct p as [p1 p2 p3], q as [q1 q2 q3]. cbn [p_obj p_gen p_idx] in *. subst. reflexivity. }
      assert (DP : deref w1 p = Some i').
      { rewrite deref_get by (rewrite GG; exact GP). rewrite GS, !Nat.eqb_refl. reflexivity. }
      destruct (IH _ _ E) as (A & B & G & P & M & Q).
      assert (WR : forall t, writes w1 ps t -> writes w (p :: ps) t).
      { intros t (q & b & I & DQ & NC & T).
        assert (DEC : p = q \/ p <> q) by (destruct p as [p1 p2 p3], q as [q1 q2 q3]; destruct (Nat.eq_dec p1 q1), (Nat.eq_dec p2 q2), (Nat.eq_dec p3 q3); subst; auto; right; congruence).
        destruct DEC as [<-|NE].
        - exists p, i. rewrite DP in DQ. injection DQ as <-. split; [left; reflexivity|]. split; [exact D|]. split; [exact CI|exact T].
        - exists q, b. rewrite DD in DQ by exact NE. split; [right; exact I|]. auto. }
      sp.
      * exact A.
      * exact B.
      * intros o. rewrite G. apply GG.
      * intros o j. specialize (P o j). rewrite GS, GG in P. cbn [existsb].
        destruct (Nat.eqb_spec o (p_obj p)) as [->|NO]; cbn [andb] in P; [destruct (Nat.eqb_spec j (p_idx p)) as [EJ|NJ]|].
        -- rewrite EJ in *. rewrite GI, CI. cbn [i_const i'] in P. 
           assert (PE : ptr_eqb (mkPtr (p_obj p) (gen w (p_obj p)) (p_idx p)) p = true) by (unfold ptr_eqb; cbn [p_obj p_gen p_idx]; rewrite GP, !Nat.eqb_refl; reflexivity).
           rewrite PE. cbn [orb]. rewrite P. unfold with_eval, i'. rewrite CI. cbn [i_expr i_kind i_tgt i_comp]. destruct (existsb _ ps); reflexivity.
        -- assert (PE : ptr_eqb (mkPtr (p_obj p) (gen w (p_obj p)) j) p = false) by (unfold ptr_eqb; cbn [p_obj p_gen p_idx]; destruct (Nat.eqb_spec j (p_idx p)); [contradiction|apply andb_false_r]).
           rewrite PE. exact P.
        -- assert (PE : ptr_eqb (mkPtr o (gen w o) j) p = false) by (unfold ptr_eqb; cbn [p_obj p_gen p_idx]; destruct (Nat.eqb_spec o (p_obj p)); [contradiction|reflexivity]).
           rewrite PE. exact P.
      * intros t NW. rewrite M by (intros X; apply NW, WR, X). unfold w1, mem. cbn [set_param set_obj set_mem w_mem].
        destruct (Nat.eqb_spec t (i_tgt F i)) as [->|]; [|reflexivity]. exfalso. apply NW. exists p, i. split; [left; reflexivity|]. auto.
      * intros ND INJ q a I DQ NC. inversion ND as [|? ? NI ND']; subst.
        assert (INJ' : forall p0 q a b, In p0 ps -> In q ps -> deref w1 p0 = Some a -> deref w1 q = Some b -> i_const F a = false -> i_const F b = false -> i_tgt F a = i_tgt F b -> p0 = q).
        { intros p0 q0 a0 b0 I1 I2 D1 D2. rewrite DD in D1 by (intros <-; contradiction). rewrite DD in D2 by (intros <-; contradiction). eapply INJ; eauto; right; assumption. }
        destruct I as [<-|I].
        -- rewrite D in DQ. injection DQ as <-. exists v. split; [exact EV|]. rewrite EC. f_equal.
           rewrite M.
           ++ unfold w1, mem. cbn [set_param set_obj set_mem w_mem]. rewrite Nat.eqb_refl. reflexivity.
           ++ intros (q & b & I & D2 & NC2 & T). rewrite DD in D2 by (intros <-; contradiction).
              assert (p = q) by (eapply INJ; [left; reflexivity|right; exact I|exact D|exact D2|exact CI|exact NC2|congruence]). subst q. contradiction.
        -- apply (Q ND' INJ' q a I); [rewrite DD by (intros <-; contradiction); exact DQ|exact NC].
Qed.

(** ** Invariant of the calls made so far *)
Lemma constant_spec f : compiles f [] = true <-> constant f.
Proof.
  unfold ParamModel.compiles, constant. rewrite andb_true_iff. split; intros [A B]; (split; [exact A|]).
  - destruct (fvars f); [reflexivity|discriminate B].
  - rewrite B. reflexivity.
Qed.

Record Inv (h : Hist) (w : World) : Prop := mkInv {
  inv_key : forall o i, option_map (key o) (get w o i) = nth_error (params_of h o) i;
  inv_const : forall o i a, get w o i = Some a -> (i_const F a = true <-> constant (i_expr F a)) /\ (i_const F a = true -> i_eval F a = true);
  inv_cmem : forall o i a, get w o i = Some a -> i_const F a = true -> cast (i_kind F a) (fval (i_expr F a) no_env) = Ok (mem w (i_tgt F a));
  inv_att : forall p, In p (w_att F w) -> gen w (p_obj p) = p_gen p /\ (exists a, get w (p_obj p) (p_idx p) = Some a) /\ attached h (p_obj p);
  inv_att2 : forall o i a, attached h o -> get w o i = Some a -> In (mkPtr o (gen w o) i) (w_att F w);
  inv_vars : forall x, vfind (w_vars F w) x = latest h x;
  inv_broken : no_failed_realize h -> forall o i a, get w o i = Some a -> i_comp F a <> Broken;
  inv_eval : forall o i a, get w o i = Some a -> i_const F a = false -> (i_eval F a = true <-> realized h o) }.

(** *** What one more call changes in the specification *)
Lemma decls_snoc h e : decls (h ++ [e]) = decls h ++ decl_of e.
Proof. unfold decls. rewrite flat_map_app. simpl. rewrite app_nil_r. reflexivity. Qed.
Lemma params_snoc h e o : params_of (h ++ [e]) o = params_of h o ++ filter (fun d => d_obj d =? o) (decl_of e).
Proof. unfold params_of. rewrite decls_snoc, filter_app. reflexivity. Qed.
Lemma latest_snoc h e x : latest (h ++ [e]) x = match e with (OUpdate _ y u, _) => if String.eqb y x then Some u else latest h x | _ => latest h x end.
Proof. unfold latest. rewrite fold_left_app. reflexivity. Qed.
Lemma attached_snoc h e o : attached (h ++ [e]) o <-> attached h o \/ exists r, e = (OAttach F o, r).
Proof.
  unfold attached. split.
  - intros [r I]. apply in_app_or in I. destruct I as [I|[->|[]]]; [left|right]; eauto.
  - intros [[r I]|[r ->]]; exists r; apply in_or_app; [left; exact I|right; left; reflexivity].
Qed.
Lemma stable_prefix h e : stable (h ++ [e]) -> stable h.
Proof. intros S h1 h2 o r f k t r' -> I1 I2. apply (S h1 (h2 ++ [e]) o r f k t r'); [rewrite app_assoc; reflexivity|exact I1|apply in_or_app; left; exact I2]. Qed.
Lemma distinct_prefix h e : distinct (h ++ [e]) -> distinct h.
Proof. unfold distinct. rewrite decls_snoc, map_app. generalize (map d_tgt (decls h)). intros l. induction l as [|x l IH]; intros N; [constructor|]. inversion N as [|? ? A B]; subst. constructor; [intros I; apply A, in_or_app; left; exact I|apply IH, B]. Qed.
Lemma failed_prefix h e : no_failed_realize (h ++ [e]) -> no_failed_realize h.
Proof. intros N I. apply N, in_or_app. left. exact I. Qed.
Lemma realized_attached h o : realized h o -> attached h o.
Proof. intros (h1 & h2 & -> & [r I] & _). exists r. apply in_or_app. left. exact I. Qed.
Lemma realized_snoc h e o : realized (h ++ [e]) o <->
  (e = (ORealize F, Done) /\ attached h o) \/ (realized h o /\ forall r, e <> (OUnrealize F o, r)).
Proof.
  split.
  - intros (h1 & h2 & E & A & N). destruct h2 as [|x h2 _] using rev_ind.
    + apply app_inj_tail in E. destruct E as [-> ->]. left. auto.
    + right. rewrite app_comm_cons, app_assoc in E. apply app_inj_tail in E. destruct E as [-> ->].
      split; [exists h1, h2; split; [reflexivity|]; split; [exact A|]; intros r I; apply (N r), in_or_app; left; exact I|].
      intros r ->. apply (N r), in_or_app. right. left. reflexivity.
  - intros [[-> A]|[(h1 & h2 & -> & A & N) D]].
    + exists h, []. split; [reflexivity|]. split; [exact A|]. intros r [].
    + exists h1, (h2 ++ [e]). split; [rewrite <- app_assoc; reflexivity|]. split; [exact A|].
      intros r I. apply in_app_or in I. destruct I as [I|[->|[]]]; [exact (N r I)|exact (D r eq_refl)].
Qed.

(** distinct variables: a variable belongs to one parameter *)
Lemma decl_in h o i d : nth_error (params_of h o) i = Some d -> In d (decls h) /\ d_obj d = o.
Proof. intros E. apply nth_error_In in E. apply filter_In in E. destruct E as [A B]. split; [exact A|apply Nat.eqb_eq, B]. Qed.
Lemma nodup_map_inj {A B} (f : A -> B) l x y : NoDup (map f l) -> In x l -> In y l -> f x = f y -> x = y.
Proof.
  induction l as [|a l IH]; intros N X Y E; [contradiction|]. simpl in N. inversion N as [|? ? NI N']; subst.
  destruct X as [->|X], Y as [->|Y]; auto; exfalso; apply NI; [rewrite E|rewrite <- E]; apply in_map; assumption.
Qed.
Lemma own_variable h w o i a o' i' b : Inv h w -> distinct h -> get w o i = Some a -> get w o' i' = Some b -> i_tgt F a = i_tgt F b -> o = o' /\ i = i'.
Proof.
  intros I D GA GB E.
  assert (KA := inv_key _ _ I o i). rewrite GA in KA. assert (KB := inv_key _ _ I o' i'). rewrite GB in KB. symmetry in KA, KB. cbn [option_map] in KA, KB.
  destruct (decl_in _ _ _ _ KA) as [IA _]. destruct (decl_in _ _ _ _ KB) as [IB _].
  assert (Q : key o a = key o' b) by (apply (nodup_map_inj d_tgt (decls h)); auto).
  assert (o = o') by (unfold key in Q; congruence). subst o'. split; [reflexivity|].
  rewrite <- Q in KB. assert (NF : NoDup (params_of h o)) by (apply NoDup_filter, (NoDup_map_inv d_tgt), D).
  apply (proj1 (NoDup_nth_error _) NF); [apply nth_error_Some; rewrite KA; discriminate|congruence].
Qed.

Lemma vfind_vset l x v y : vfind (vset l x v) y = if String.eqb x y then Some v else vfind l y.
Proof.
  induction l as [|[z u] l IH]; cbn [vset vfind]; [reflexivity|].
  destruct (String.eqb_spec z x) as [->|N]; cbn [vfind].
  - destruct (String.eqb x y); reflexivity.
  - rewrite IH. destruct (String.eqb_spec z y) as [->|]; [|reflexivity]. destruct (String.eqb_spec x y); [congruence|reflexivity].
Qed.

Lemma realized_None h o e : (forall r, e <> (OUnrealize F o, r)) -> e <> (ORealize F, Done) -> (realized (h ++ [e]) o <-> realized h o).
Proof. intros A B. rewrite realized_snoc. split; [intros [[C _]|[C _]]; [contradiction|exact C]|auto]. Qed.
Lemma attached_None h o e : (forall r, e <> (OAttach F o, r)) -> (attached (h ++ [e]) o <-> attached h o).
Proof. intros A. rewrite attached_snoc. split; [intros [B|[r B]]; [exact B|exfalso; exact (A r B)]|auto]. Qed.

Lemma inv_init : Inv [] (world0 F).
Proof.
  constructor; try (intros; unfold get, world0 in *; cbn [w_objs obj0 o_params] in *; destruct i; discriminate).
  - intros o i. unfold get, world0. cbn [w_objs obj0 o_params params_of decls flat_map filter]. destruct i; reflexivity.
  - intros p [].
  - reflexivity.
Qed.

(** a call that changes neither parameters, nor attachments, nor their variables *)
Lemma inv_declare h w o f k t w' : Inv h w -> stable (h ++ [(ODeclare F o f k t, Done)]) -> distinct (h ++ [(ODeclare F o f k t, Done)]) ->
  declare F wf fvars fval fl w o f k t = (w', Done) -> Inv (h ++ [(ODeclare F o f k t, Done)]) w'.
Proof.
  intros I S D E.
  assert (NA : ~ attached h o) by (intros [r A]; apply (S h [(ODeclare F o f k t, Done)] o r f k t Done eq_refl A); left; reflexivity).
  set (e := (ODeclare F o f k t, Done)) in *.
  assert (AT : forall o', attached (h ++ [e]) o' <-> attached h o') by (intros; apply attached_None; intros r; discriminate).
  assert (RE : forall o', realized (h ++ [e]) o' <-> realized h o') by (intros; apply realized_None; [intros r|]; discriminate).
  assert (exists i, key o i = mkDecl o f k t /\ i_comp F i <> Broken /\ i_const F i = compiles f [] /\ i_eval F i = compiles f [] /\
    (i_const F i = true -> cast k (fval f no_env) = Ok (mem w' t)) /\
    (forall o' j, get w' o' j = if (o' =? o) && (j =? List.length (o_params F (w_objs F w o))) then Some i else get w o' j) /\
    (forall o', o' <> o -> gen w' o' = gen w o') /\ w_vars F w' = w_vars F w /\ w_att F w' = w_att F w /\
    (forall t', t' <> t -> mem w' t' = mem w t')) as (i & K & NB & CI & EI & CM & G & GN & V & AT' & ME).
  { unfold declare in E. assert (GO : o_params F (grow F (w_objs F w o)) = o_params F (w_objs F w o)) by (unfold grow; destruct (_ <? _); reflexivity).
    assert (GG : forall i' t' v' o' j, get (set_mem F (set_obj F w o (mkObj F (o_params F (grow F (w_objs F w o)) ++ [i']) (o_cap F (grow F (w_objs F w o))) (o_gen F (grow F (w_objs F w o))))) t' v') o' j =
      if (o' =? o) && (j =? List.length (o_params F (w_objs F w o))) then Some i' else get w o' j).
    { intros i' t' v' o' j. unfold get, set_mem, set_obj. cbn [w_objs]. destruct (Nat.eqb_spec o' o) as [->|]; [|reflexivity]. cbn [o_params andb]. rewrite GO.
      destruct (Nat.eqb_spec j (List.length (o_params F (w_objs F w o)))) as [->|N].
      - rewrite nth_error_app2 by lia. rewrite Nat.sub_diag. reflexivity.
      - destruct (Nat.lt_ge_cases j (List.length (o_params F (w_objs F w o)))) as [L|L]; [apply nth_error_app1, L|].
        rewrite !(proj2 (nth_error_None _ _)); [reflexivity|lia|rewrite app_length; simpl; lia]. }
    destruct (compiles f []) eqn:CF.
    - destruct (cast k (fval f no_env)) as [v| |] eqn:EC; try discriminate E. injection E as <-.
      exists (mkInfo F f k t Compiled true true). cbn [key i_expr i_kind i_tgt i_comp i_const i_eval].
      sp; try reflexivity.
      + discriminate.
      + intros _. unfold mem, set_mem. cbn [w_mem]. rewrite Nat.eqb_refl. reflexivity.
      + apply GG.
      + intros o' N. unfold gen, set_mem, set_obj. cbn [w_objs]. destruct (Nat.eqb_spec o' o); [contradiction|reflexivity].
      + intros t' N. unfold mem, set_mem. cbn [w_mem]. destruct (Nat.eqb_spec t' t); [contradiction|reflexivity].
    - injection E as <-. exists (mkInfo F f k t NotYet false false). cbn [key i_expr i_kind i_tgt i_comp i_const i_eval].
      sp; try reflexivity.
      + discriminate.
      + discriminate.
      + intros o' j. apply (GG _ 0 0%Q).
      + intros o' N. unfold gen, set_obj. cbn [w_objs]. destruct (Nat.eqb_spec o' o); [contradiction|reflexivity]. }
  assert (NT : forall o' j a, get w o' j = Some a -> i_tgt F a <> t).
  { intros o' j a GA ET. assert (KA := inv_key _ _ I o' j). rewrite GA in KA. symmetry in KA. cbn [option_map] in KA. destruct (decl_in _ _ _ _ KA) as [IN _].
    unfold distinct in D. rewrite decls_snoc, map_app in D. cbn [decl_of e map d_tgt] in D.
    apply NoDup_remove_2 in D. apply D. rewrite app_nil_r. rewrite <- ET. apply (in_map d_tgt) in IN. exact IN. }
  assert (KE : i_expr F i = f /\ i_kind F i = k /\ i_tgt F i = t) by (unfold key in K; injection K; auto).
  destruct KE as (KE1 & KE2 & KE3).
  constructor.
  - intros o' j. rewrite G, params_snoc. cbn [decl_of e filter d_obj].
    destruct (Nat.eqb_spec o' o) as [->|N]; cbn [andb].
    + rewrite Nat.eqb_refl.
      assert (LEN : List.length (params_of h o) = List.length (o_params F (w_objs F w o))).
      { assert (KK := inv_key _ _ I o). unfold get in KK.
        destruct (Nat.lt_trichotomy (List.length (params_of h o)) (List.length (o_params F (w_objs F w o)))) as [L|[L|L]]; [|exact L|].
        - specialize (KK (List.length (params_of h o))). rewrite (proj2 (nth_error_None (params_of h o) _)) in KK by lia.
          destruct (nth_error (o_params F (w_objs F w o)) (List.length (params_of h o))) eqn:Q; [discriminate KK|]. apply nth_error_None in Q. lia.
        - specialize (KK (List.length (o_params F (w_objs F w o)))). rewrite (proj2 (nth_error_None (o_params F (w_objs F w o)) _)) in KK by lia. symmetry in KK. cbn [option_map] in KK. apply nth_error_None in KK. lia. }
      rewrite <- LEN. destruct (Nat.eqb_spec j (List.length (params_of h o))) as [EJ|NJ].
      * rewrite EJ. rewrite nth_error_app2 by lia. rewrite Nat.sub_diag. cbn [option_map nth_error]. rewrite K. reflexivity.
      * destruct (Nat.lt_ge_cases j (List.length (params_of h o))) as [L|L].
        -- rewrite nth_error_app1 by exact L. apply (inv_key _ _ I).
        -- rewrite (proj2 (nth_error_None (params_of h o ++ _) _)) by (rewrite app_length; simpl; lia).
           assert (X := inv_key _ _ I o j). rewrite (proj2 (nth_error_None (params_of h o) _)) in X by lia. exact X.
    + assert (Q : (o =? o') = false) by (apply Nat.eqb_neq; congruence). rewrite Q, app_nil_r. apply (inv_key _ _ I).
  - intros o' j a GA. rewrite G in GA. destruct ((o' =? o) && _); [|exact (inv_const _ _ I _ _ _ GA)].
    injection GA as <-. rewrite CI, EI, KE1. split; [apply constant_spec|auto].
  - intros o' j a GA CA. rewrite G in GA. destruct ((o' =? o) && _).
    + injection GA as <-. rewrite KE1, KE2, KE3. exact (CM CA).
    + rewrite ME by exact (NT _ _ _ GA). exact (inv_cmem _ _ I _ _ _ GA CA).
  - intros p IP. rewrite AT' in IP. destruct (inv_att _ _ I p IP) as (A & [a B] & C). rewrite AT.
    assert (p_obj p <> o) by (intros EQ; apply NA; rewrite <- EQ; exact C).
    split; [rewrite GN by assumption; exact A|]. split; [|exact C]. exists a. rewrite G. destruct (Nat.eqb_spec (p_obj p) o); [contradiction|exact B].
  - intros o' j a A GA. rewrite AT in A. assert (o' <> o) by (intros ->; contradiction). rewrite AT', GN by assumption.
    rewrite G in GA. destruct (Nat.eqb_spec o' o); [contradiction|]. exact (inv_att2 _ _ I _ _ _ A GA).
  - intros x. rewrite V, latest_snoc. apply (inv_vars _ _ I).
  - intros NF o' j a GA. rewrite G in GA. destruct ((o' =? o) && _); [injection GA as <-; exact NB|]. exact (inv_broken _ _ I (failed_prefix _ _ NF) _ _ _ GA).
  - intros o' j a GA CA. rewrite RE. rewrite G in GA. destruct (Nat.eqb_spec o' o) as [->|]; cbn [andb] in GA; [|exact (inv_eval _ _ I _ _ _ GA CA)].
    destruct (j =? _); [|exact (inv_eval _ _ I _ _ _ GA CA)]. injection GA as <-. rewrite EI, <- CI, CA.
    split; [discriminate|]. intros R. exfalso. apply NA, realized_attached, R.
Qed.

Lemma ptr_eqb_spec p q : ptr_eqb p q = true <-> p = q.
Proof.
  destruct p as [a b c], q as [a' b' c']. unfold ptr_eqb. cbn [p_obj p_gen p_idx]. rewrite !andb_true_iff, !Nat.eqb_eq. split; [intros [[-> ->] ->]; reflexivity|intros E; injection E; auto].
Qed.

Lemma inv_attach h w o : Inv h w -> Inv (h ++ [(OAttach F o, Done)]) (attach F w o).
Proof.
  intros I. set (e := (OAttach F o, Done)).
  assert (RE : forall o', realized (h ++ [e]) o' <-> realized h o') by (intros; apply realized_None; [intros r|]; discriminate).
  assert (P0 : forall o', params_of (h ++ [e]) o' = params_of h o') by (intros; rewrite params_snoc; apply app_nil_r).
  assert (G : forall o' j, get (attach F w o) o' j = get w o' j) by reflexivity.
  assert (GN : forall o', gen (attach F w o) o' = gen w o') by reflexivity.
  assert (IA : forall p, In p (w_att F (attach F w o)) <-> In p (w_att F w) \/ (p_obj p = o /\ p_gen p = gen w o /\ exists a, get w o (p_idx p) = Some a)).
  { intros p. unfold attach. cbn [w_att]. rewrite in_app_iff, filter_In, in_map_iff.
    assert (EQ : (exists x, mkPtr o (o_gen F (w_objs F w o)) x = p /\ In x (seq 0 (List.length (o_params F (w_objs F w o))))) <-> (p_obj p = o /\ p_gen p = gen w o /\ exists a, get w o (p_idx p) = Some a)).
    { destruct p as [po pg pi]. cbn [p_obj p_gen p_idx]. split.
      - intros [x [E IN]]. apply in_seq in IN. injection E as <- <- <-. split; [reflexivity|]. split; [reflexivity|].
        unfold get. destruct (nth_error (o_params F (w_objs F w o)) x) as [a|] eqn:Q; [eauto|]. apply nth_error_None in Q. lia.
      - intros (-> & -> & a & GA). exists pi. split; [reflexivity|]. apply in_seq. split; [lia|]. apply nth_error_Some. unfold get in GA. rewrite GA. discriminate. }
    rewrite EQ. split.
    - intros [A|[A _]]; auto.
    - intros [A|A]; [auto|]. destruct (existsb (ptr_eqb p) (w_att F w)) eqn:X.
      + left. apply existsb_exists in X. destruct X as [q [IQ EQ2]]. apply ptr_eqb_spec in EQ2. subst q. exact IQ.
      + right. split; [exact A|reflexivity]. }
  constructor.
  - intros o' j. rewrite P0. apply (inv_key _ _ I).
  - exact (inv_const _ _ I).
  - exact (inv_cmem _ _ I).
  - intros p IP. apply IA in IP. destruct IP as [IP|(A & B & C)].
    + destruct (inv_att _ _ I p IP) as (A & B & C). split; [exact A|]. split; [exact B|]. apply attached_snoc. left. exact C.
    + rewrite GN, A. split; [congruence|]. split; [rewrite <- A in C |- *; exact C|]. apply attached_snoc. right. exists Done. reflexivity.
  - intros o' j a A GA. apply IA. apply attached_snoc in A. destruct A as [A|[r EQ]].
    + left. exact (inv_att2 _ _ I _ _ _ A GA).
    + right. unfold e in EQ. injection EQ as <- _. cbn [p_obj p_gen p_idx]. eauto.
  - intros x. rewrite latest_snoc. apply (inv_vars _ _ I).
  - intros NF. exact (inv_broken _ _ I (failed_prefix _ _ NF)).
  - intros o' j a GA CA. rewrite RE. exact (inv_eval _ _ I _ _ _ GA CA).
Qed.

Lemma inv_same h w w' e : Inv h w -> (forall o j, get w' o j = get w o j) -> (forall o, gen w' o = gen w o) -> w_att F w' = w_att F w -> mem w' = mem w ->
  (forall x, vfind (w_vars F w') x = latest (h ++ [e]) x) -> decl_of e = [] ->
  (forall o, attached (h ++ [e]) o <-> attached h o) -> (forall o, realized (h ++ [e]) o <-> realized h o) -> Inv (h ++ [e]) w'.
Proof.
  intros I G GN A M V D AT RE. constructor.
  - intros o j. rewrite G, params_snoc, D. cbn [filter]. rewrite app_nil_r. apply (inv_key _ _ I).
  - intros o j a GA. rewrite G in GA. exact (inv_const _ _ I _ _ _ GA).
  - intros o j a GA CA. rewrite G in GA. rewrite M. exact (inv_cmem _ _ I _ _ _ GA CA).
  - intros p IP. rewrite A in IP. destruct (inv_att _ _ I p IP) as (X & [a Y] & Z). rewrite AT, GN. split; [exact X|]. split; [exists a; rewrite G; exact Y|exact Z].
  - intros o j a X GA. rewrite A, GN. rewrite AT in X. rewrite G in GA. exact (inv_att2 _ _ I _ _ _ X GA).
  - exact V.
  - intros NF o j a GA. rewrite G in GA. exact (inv_broken _ _ I (failed_prefix _ _ NF) _ _ _ GA).
  - intros o j a GA CA. rewrite G in GA. rewrite RE. exact (inv_eval _ _ I _ _ _ GA CA).
Qed.

Lemma inv_unrealize h w o : Inv h w -> Inv (h ++ [(OUnrealize F o, Done)]) (unrealize F w o).
Proof.
  intros I. set (e := (OUnrealize F o, Done)).
  assert (AT : forall o', attached (h ++ [e]) o' <-> attached h o') by (intros; apply attached_None; intros r; discriminate).
  set (un := fun i : Info => if i_const F i then i else mkInfo F (i_expr F i) (i_kind F i) (i_tgt F i) (i_comp F i) (i_const F i) false).
  assert (G : forall o' j, get (unrealize F w o) o' j = if o' =? o then option_map un (get w o' j) else get w o' j).
  { intros o' j. unfold get, unrealize, set_obj. cbn [w_objs]. destruct (Nat.eqb_spec o' o) as [->|]; [|reflexivity]. cbn [o_params]. apply nth_error_map. }
  assert (GN : forall o', gen (unrealize F w o) o' = gen w o') by (intros o'; unfold gen, unrealize, set_obj; cbn [w_objs]; destruct (Nat.eqb_spec o' o) as [->|]; reflexivity).
  assert (UN : forall a, i_expr F (un a) = i_expr F a /\ i_kind F (un a) = i_kind F a /\ i_tgt F (un a) = i_tgt F a /\ i_comp F (un a) = i_comp F a /\ i_const F (un a) = i_const F a).
  { intros a. unfold un. destruct (i_const F a) eqn:C; cbn; auto. }
  assert (OLD : forall o' j a, get (unrealize F w o) o' j = Some a -> exists b, get w o' j = Some b /\ (a = b \/ (o' = o /\ a = un b))).
  { intros o' j a GA. rewrite G in GA. destruct (Nat.eqb_spec o' o) as [->|]; [|eauto]. destruct (get w o j) as [b|]; [|discriminate GA]. injection GA as <-. eauto. }
  constructor.
  - intros o' j. rewrite G, params_snoc. cbn [decl_of e filter]. rewrite app_nil_r, <- (inv_key _ _ I).
    destruct (o' =? o); [|reflexivity]. destruct (get w o' j) as [b|]; [|reflexivity]. cbn [option_map]. f_equal. unfold key. destruct (UN b) as (-> & -> & -> & _). reflexivity.
  - intros o' j a GA. destruct (OLD _ _ _ GA) as [b [GB [->|[_ ->]]]]; [exact (inv_const _ _ I _ _ _ GB)|]. destruct (UN b) as (-> & _ & _ & _ & ->).
    destruct (inv_const _ _ I _ _ _ GB) as [A B]. split; [exact A|]. intros C. unfold un. rewrite C. exact (B C).
  - intros o' j a GA CA. destruct (OLD _ _ _ GA) as [b [GB [->|[_ ->]]]]; [exact (inv_cmem _ _ I _ _ _ GB CA)|]. destruct (UN b) as (-> & -> & -> & _ & CB). rewrite CB in CA. exact (inv_cmem _ _ I _ _ _ GB CA).
  - intros p IP. destruct (inv_att _ _ I p IP) as (X & [a Y] & Z). rewrite AT, GN. split; [exact X|]. split; [|exact Z]. rewrite G, Y. destruct (_ =? _); eexists; reflexivity.
  - intros o' j a X GA. destruct (OLD _ _ _ GA) as [b [GB _]]. rewrite AT in X. rewrite GN. exact (inv_att2 _ _ I _ _ _ X GB).
  - intros x. rewrite latest_snoc. apply (inv_vars _ _ I).
  - intros NF o' j a GA. destruct (OLD _ _ _ GA) as [b [GB [->|[_ ->]]]]; [exact (inv_broken _ _ I (failed_prefix _ _ NF) _ _ _ GB)|]. destruct (UN b) as (_ & _ & _ & -> & _). exact (inv_broken _ _ I (failed_prefix _ _ NF) _ _ _ GB).
  - intros o' j a GA CA. rewrite G in GA. rewrite realized_snoc.
    destruct (Nat.eqb_spec o' o) as [->|N].
    + destruct (get w o j) as [b|]; [|discriminate GA]. injection GA as <-. destruct (UN b) as (_ & _ & _ & _ & CB). rewrite CB in CA.
      split.
      * unfold un. rewrite CA. discriminate.
      * intros [[EQ _]|[_ NE]]; [discriminate EQ|]. exfalso. apply (NE Done). reflexivity.
    + rewrite (inv_eval _ _ I _ _ _ GA CA). split; [intros R; right; split; [exact R|intros r EQ; unfold e in EQ; congruence]|intros [[EQ _]|[R _]]; [discriminate EQ|exact R]].
Qed.

(** realize(): see also the theorems below *)
Lemma inv_realize h w order w' r : Inv h w -> distinct h -> NoDup order -> (forall p, In p order <-> In p (w_att F w)) ->
  realize F wf fvars fval fl junk w order = (w', r) -> r <> Undef ->
  Inv (h ++ [(ORealize F, r)]) w' /\ (r = Thrown -> mem w' = mem w) /\
  (r = Done -> forall o i a, attached h o -> get w o i = Some a -> i_const F a = false ->
     exists v, (i_comp F a <> Broken -> v = fval (i_expr F a) (env (w_vars F w))) /\ (i_comp F a = Broken -> v = junk) /\ cast (i_kind F a) v = Ok (mem w' (i_tgt F a))).
Proof.
  intros I D ND IO E NU. unfold realize in E. destruct (compile_all F wf fvars w order) as [w1 r1] eqn:EC.
  set (e := (ORealize F, r)).
  assert (AT : forall o', attached (h ++ [e]) o' <-> attached h o') by (intros; apply attached_None; intros r'; discriminate).
  assert (NU1 : r1 <> Undef) by (intros ->; injection E as _ <-; contradiction).
  destruct (compile_spec _ _ _ _ EC NU1) as (V1 & A1 & M1 & G1 & P1 & C1).
  assert (OLD1 : forall o j a, get w1 o j = Some a -> exists b c, get w o j = Some b /\ a = with_comp b c /\
     (c = i_comp F b \/ (i_comp F b = NotYet /\ i_const F b = false /\ (c = Compiled \/ (c = Broken /\ r1 = Thrown))))).
  { intros o j a GA. specialize (P1 o j). destruct (get w o j) as [b|]; [|congruence]. destruct P1 as [c [X Y]]. exists b, c. split; [reflexivity|]. split; [congruence|exact Y]. }
  destruct r1; [| |contradiction].
  - (* compiled *)
    destruct r; [| |contradiction].
    2:{ exfalso. clear -E. revert w1 E. induction order as [|p ps IH]; intros w1 E; cbn [eval_all] in E; [discriminate E|].
        destruct (deref w1 p) as [i|]; [|discriminate E]. destruct (i_const F i); [exact (IH _ E)|].
        destruct (match i_comp F i with Compiled => _ | Broken => _ | NotYet => _ end) as [v|]; [|discriminate E]. destruct (cast _ v); try discriminate E. exact (IH _ E). }
    destruct (eval_spec _ _ _ E) as (V2 & A2 & G2 & P2 & M2 & C2).
    assert (OLD2 : forall o j a, get w' o j = Some a -> exists b, get w1 o j = Some b /\
       ((i_const F b = true /\ a = b) \/ (i_const F b = false /\ a = if existsb (ptr_eqb (mkPtr o (gen w1 o) j)) order then with_eval b else b))).
    { intros o j a GA. specialize (P2 o j). destruct (get w1 o j) as [b|]; [|congruence]. exists b. split; [reflexivity|]. destruct (i_const F b); rewrite P2 in GA; injection GA as <-; auto. }
    assert (OLD : forall o j a, get w' o j = Some a -> exists b, get w o j = Some b /\ i_expr F a = i_expr F b /\ i_kind F a = i_kind F b /\ i_tgt F a = i_tgt F b /\ i_const F a = i_const F b /\
       (i_const F b = true -> i_eval F a = i_eval F b) /\ (i_comp F a = Broken -> i_comp F b = Broken) /\
       (i_const F b = false -> i_eval F a = existsb (ptr_eqb (mkPtr o (gen w o) j)) order || i_eval F b)).
    { intros o j a GA. destruct (OLD2 _ _ _ GA) as [b1 [GB1 X]]. destruct (OLD1 _ _ _ GB1) as (b & c & GB & -> & Y). exists b. split; [exact GB|]. rewrite G1 in X.
      cbn [with_comp i_const] in X.
      assert (CC : c = Broken -> i_comp F b = Broken) by (intros ->; destruct Y as [Y|(_ & _ & [Y|[_ Y]])]; [auto|discriminate Y|discriminate Y]).
      destruct X as [[X ->]|[X ->]]; [|destruct (existsb _ order)]; cbn [with_comp with_eval i_expr i_kind i_tgt i_const i_eval i_comp]; rewrite X; sp; auto; try discriminate; try congruence. }
    assert (ATT : forall o i a, attached h o -> get w o i = Some a -> In (mkPtr o (gen w o) i) order) by (intros o i a A GA; apply IO; exact (inv_att2 _ _ I _ _ _ A GA)).
    split; [|split; [discriminate|]].
    + constructor.
      * intros o j. rewrite params_snoc. cbn [decl_of e filter]. rewrite app_nil_r, <- (inv_key _ _ I).
        destruct (get w o j) as [b|] eqn:GB.
        -- specialize (P1 o j). rewrite GB in P1. destruct P1 as [c [X _]]. specialize (P2 o j). rewrite X in P2. destruct (i_const F (with_comp b c)); [|destruct (existsb _ order)]; rewrite P2; reflexivity.
        -- specialize (P1 o j). rewrite GB in P1. specialize (P2 o j). rewrite P1 in P2. rewrite P2. reflexivity.
      * intros o j a GA. destruct (OLD _ _ _ GA) as (b & GB & -> & _ & _ & -> & EV & _). destruct (inv_const _ _ I _ _ _ GB) as [A B]. split; [exact A|]. intros C. rewrite (EV C). exact (B C).
      * intros o j a GA CA. destruct (OLD _ _ _ GA) as (b & GB & -> & -> & -> & CB & _). rewrite CB in CA. rewrite (inv_cmem _ _ I _ _ _ GB CA). f_equal. symmetry.
        rewrite M2; [rewrite M1; reflexivity|]. intros (p & i & IP & DP & NC & T). destruct (deref_some _ _ _ DP) as [_ GP]. destruct (OLD1 _ _ _ GP) as (b' & c & GB' & -> & _).
        cbn [with_comp i_tgt i_const] in T, NC. destruct (own_variable _ _ _ _ _ _ _ _ I D GB GB' ltac:(congruence)) as [E1 E2]. rewrite <- E1, <- E2 in GB'. congruence.
      * intros p IP. rewrite A2, A1 in IP. destruct (inv_att _ _ I p IP) as (X & [a Y] & Z). rewrite AT, G2, G1. split; [exact X|]. split; [|exact Z].
        specialize (P1 (p_obj p) (p_idx p)). rewrite Y in P1. destruct P1 as [c [P1 _]]. specialize (P2 (p_obj p) (p_idx p)). rewrite P1 in P2. destruct (i_const F (with_comp a c)); eexists; exact P2.
      * intros o j a X GA. rewrite AT in X. destruct (OLD _ _ _ GA) as (b & GB & _). rewrite A2, A1, G2, G1. exact (inv_att2 _ _ I _ _ _ X GB).
      * intros x. rewrite latest_snoc, V2, V1. apply (inv_vars _ _ I).
      * intros NF o j a GA CB. destruct (OLD _ _ _ GA) as (b & GB & _ & _ & _ & _ & _ & BR & _). exact (inv_broken _ _ I (failed_prefix _ _ NF) _ _ _ GB (BR CB)).
      * intros o j a GA CA. destruct (OLD _ _ _ GA) as (b & GB & _ & _ & _ & CB & _ & _ & EV). rewrite CB in CA. rewrite (EV CA), orb_true_iff, realized_snoc, (inv_eval _ _ I _ _ _ GB CA).
        split.
        -- intros [X|X]; [|right; split; [exact X|intros r; discriminate]]. left. split; [reflexivity|].
           apply existsb_exists in X. destruct X as [q [IQ EQ]]. apply ptr_eqb_spec in EQ. subst q. apply IO in IQ. destruct (inv_att _ _ I _ IQ) as (_ & _ & Z). exact Z.
        -- intros [[_ X]|[X _]]; [|right; exact X]. left. apply existsb_exists. exists (mkPtr o (gen w o) j). split; [exact (ATT _ _ _ X GB)|apply ptr_eqb_spec; reflexivity].
    + intros _ o i a A GA CA. assert (IP := ATT _ _ _ A GA). specialize (P1 o i). rewrite GA in P1. destruct P1 as [c [GC CC]].
      assert (DP : deref w1 (mkPtr o (gen w o) i) = Some (with_comp a c)) by (rewrite deref_get by (cbn [p_obj p_gen]; apply G1); exact GC).
      assert (INJ : forall p q a b, In p order -> In q order -> deref w1 p = Some a -> deref w1 q = Some b -> i_const F a = false -> i_const F b = false -> i_tgt F a = i_tgt F b -> p = q).
      { intros p q a0 b0 I1 I2 D1 D2 _ _ T. destruct (deref_some _ _ _ D1) as [X1 Y1]. destruct (deref_some _ _ _ D2) as [X2 Y2].
        destruct (OLD1 _ _ _ Y1) as (b1 & d1 & GB1 & -> & _). destruct (OLD1 _ _ _ Y2) as (b2 & d2 & GB2 & -> & _). cbn [with_comp i_tgt] in T.
        destruct (own_variable _ _ _ _ _ _ _ _ I D GB1 GB2 T) as [EO EI]. destruct p as [po pg pi], q as [qo qg qi]. cbn [p_obj p_gen p_idx] in *. congruence. }
      destruct (C2 ND INJ _ _ IP DP CA) as [v [CV CK]]. exists v. cbn [with_comp i_kind i_tgt] in CK. rewrite V1 in CV. unfold calc in CV. cbn [with_comp i_comp i_expr] in CV.
      assert (NY := C1 eq_refl _ _ IP DP CA). cbn [with_comp i_comp] in NY.
      split; [|split; [|exact CK]].
      * intros NB. destruct c; [congruence|congruence|]. destruct CC as [CC|(_ & _ & [CC|[_ CC]])]; [congruence|discriminate CC|discriminate CC].
      * intros BR. destruct CC as [CC|(CC & _)]; [|congruence]. rewrite BR in CC. subst c. congruence.
  - (* compile threw *)
    injection E as <- <-. split; [|split; [intros _; exact M1|discriminate]].
    constructor.
    + intros o j. rewrite params_snoc. cbn [decl_of e filter]. rewrite app_nil_r, <- (inv_key _ _ I).
      specialize (P1 o j). destruct (get w o j) as [b|]; [destruct P1 as [c [-> _]]|rewrite P1]; reflexivity.
    + intros o j a GA. destruct (OLD1 _ _ _ GA) as (b & c & GB & -> & _). exact (inv_const _ _ I _ _ _ GB).
    + intros o j a GA CA. destruct (OLD1 _ _ _ GA) as (b & c & GB & -> & _). rewrite M1. exact (inv_cmem _ _ I _ _ _ GB CA).
    + intros p IP. rewrite A1 in IP. destruct (inv_att _ _ I p IP) as (X & [a Y] & Z). rewrite AT, G1. split; [exact X|]. split; [|exact Z].
      specialize (P1 (p_obj p) (p_idx p)). rewrite Y in P1. destruct P1 as [c [P1 _]]. eexists. exact P1.
    + intros o j a X GA. rewrite AT in X. destruct (OLD1 _ _ _ GA) as (b & c & GB & _). rewrite A1, G1. exact (inv_att2 _ _ I _ _ _ X GB).
    + intros x. rewrite latest_snoc, V1. apply (inv_vars _ _ I).
    + intros NF. exfalso. apply NF, in_or_app. right. left. reflexivity.
    + intros o j a GA CA. destruct (OLD1 _ _ _ GA) as (b & c & GB & -> & _). cbn [with_comp i_eval i_const] in *. rewrite (inv_eval _ _ I _ _ _ GB CA).
      symmetry. apply realized_None; [intros r; discriminate|discriminate].
Qed.

Lemma run_inv h w : run h w -> stable h -> distinct h -> Forall (fun e => snd e <> Undef) h -> Inv h w.
Proof.
  intros R. remember (world0 F) as w0 eqn:EW. induction R as [w|w h w1 op r w2 R IH FU ST]; intros S D U.
  - subst w. apply inv_init.
  - assert (I := IH EW (stable_prefix _ _ S) (distinct_prefix _ _ D) FU). clear IH R EW.
    assert (UR : r <> Undef) by (apply Forall_app in U; destruct U as [_ U]; apply Forall_inv in U; exact U).
    inversion ST as [w' o f k t w'' r' ED|w' o|w' x v|w' order w'' r' ND IO ER|w' o|w' o]; subst.
    + destruct r; [exact (inv_declare _ _ _ _ _ _ _ I S D ED)| |contradiction].
      exfalso. unfold declare in ED. destruct (compiles f []); [destruct (cast k _)|]; discriminate ED.
    + apply inv_attach, I.
    + apply (inv_same h w1); auto.
      * intros y. unfold update. cbn [w_vars]. rewrite vfind_vset, latest_snoc. destruct (String.eqb x y); [reflexivity|]. apply (inv_vars _ _ I).
      * intros o. apply attached_None. intros r; discriminate.
      * intros o. apply realized_None; [intros r|]; discriminate.
    + exact (proj1 (inv_realize _ _ _ _ _ I (distinct_prefix _ _ D) ND IO ER UR)).
    + apply inv_unrealize, I.
    + apply (inv_same h w2); auto.
      * intros y. rewrite latest_snoc. apply (inv_vars _ _ I).
      * intros o'. apply attached_None. intros r; discriminate.
      * intros o'. apply realized_None; [intros r|]; discriminate.
Qed.

(** ** Conversion of a formula's value (a double) to the type of the variable *)
Open Scope Q_scope.
(** [u] is the value [v] in a variable of the kind: for an unsigned integer, the fraction is dropped *)
Definition converts (k : Kind) (v u : Q) : Prop :=
  match k with
  | KDouble => u = v
  | KFloat => u = fl v
  | KUint32 => exists n : Z, u = inject_Z n /\ (0 <= n < 2 ^ 32)%Z /\
      (0 <= v -> inject_Z n <= v /\ v < inject_Z n + 1) /\ (v < 0 -> - (1) < v /\ n = 0%Z)
  end.
Lemma trunc_pos v : 0 <= v -> inject_Z (trunc v) <= v /\ v < inject_Z (trunc v) + 1.
Proof.
  intros P. unfold trunc. rewrite (proj2 (Qle_bool_iff 0 v) P). split; [apply Qfloor_le|].
  assert (X := Qlt_floor v). rewrite inject_Z_plus in X. exact X.
Qed.
Lemma trunc_neg v : v < 0 -> ((0 <= trunc v)%Z -> - (1) < v /\ trunc v = 0%Z) /\ ((trunc v < 0)%Z -> v <= - (1)).
Proof.
  intros P. unfold trunc. destruct (Qle_bool 0 v) eqn:B; [apply Qle_bool_iff in B; exfalso; apply (Qlt_not_le _ _ P B)|].
  assert (L := Qfloor_le (- v)). assert (G := Qlt_floor (- v)). rewrite inject_Z_plus in G.
  assert (NN : (0 <= Qfloor (- v))%Z).
  { assert (Y : 0 < inject_Z (Qfloor (- v)) + 1). { eapply Qlt_trans; [|exact G]. apply Qopp_lt_compat in P. exact P. }
    change 1 with (inject_Z 1) in Y. rewrite <- inject_Z_plus in Y. change 0 with (inject_Z 0) in Y. rewrite <- Zlt_Qlt in Y. lia. }
  split.
  - intros H. assert (E : Qfloor (- v) = 0%Z) by lia. rewrite E in *. split; [|reflexivity].
    assert (G' : - v < 1) by exact G. apply Qopp_lt_compat in G'. rewrite Qopp_involutive in G'. exact G'.
  - intros H. assert (1 <= Qfloor (- v))%Z as K by lia. rewrite Zle_Qle in K.
    assert (K' : inject_Z 1 <= - v) by (eapply Qle_trans; [exact K|exact L]). apply Qopp_le_compat in K'. rewrite Qopp_involutive in K'. exact K'.
Qed.
Lemma cast_converts k v u : cast k v = Ok u -> converts k v u.
Proof.
  unfold ParamModel.cast, converts. destruct k; intros E; try (injection E as <-; reflexivity).
  destruct ((0 <=? trunc v)%Z) eqn:B1; cbn [andb] in E; [|discriminate E].
  destruct ((trunc v <? 4294967296)%Z) eqn:B2; [|discriminate E]. injection E as <-.
  apply Z.leb_le in B1. apply Z.ltb_lt in B2. exists (trunc v). split; [reflexivity|]. split; [lia|].
  split; [apply trunc_pos|]. intros N. apply (proj1 (trunc_neg v N)). exact B1.
Qed.
Lemma cast_undefined k v : cast k v = UB -> k = KUint32 /\ (v <= - (1) \/ inject_Z (2 ^ 32) <= v).
Proof.
  unfold ParamModel.cast. destruct k; intros E; try discriminate E. split; [reflexivity|].
  destruct (Qlt_le_dec v 0) as [N|P].
  - left. destruct ((0 <=? trunc v)%Z) eqn:B1; cbn [andb] in E.
    + apply Z.leb_le in B1. rewrite (proj2 (proj1 (trunc_neg v N) B1)) in E. discriminate E.
    + apply Z.leb_gt in B1. exact (proj2 (trunc_neg v N) B1).
  - right. destruct (trunc_pos v P) as [L G]. destruct ((0 <=? trunc v)%Z) eqn:B1; cbn [andb] in E.
    + destruct ((trunc v <? 4294967296)%Z) eqn:B2; [discriminate E|]. apply Z.ltb_ge in B2. rewrite Zle_Qle in B2.
      eapply Qle_trans; [exact B2|exact L].
    + apply Z.leb_gt in B1. exfalso. assert (Y : 0 < inject_Z (trunc v) + 1) by (eapply Qle_lt_trans; [exact P|exact G]).
      change 1 with (inject_Z 1) in Y. rewrite <- inject_Z_plus in Y. change 0 with (inject_Z 0) in Y. rewrite <- Zlt_Qlt in Y. lia.
Qed.
Open Scope nat_scope.

(** C39: right after a realize(), every parameter of every attached object has its variable set to
    its formula at the latest values of the variables, converted to the type of the variable. *)
Theorem C39_realize_uses_latest_values : forall h w d, reads_only ->
  run (h ++ [(ORealize F, Done)]) w -> stable h -> distinct h -> no_failed_realize h ->
  In d (decls h) -> attached h (d_obj d) -> ~ constant (d_expr d) ->
  converts (d_kind d) (fval (d_expr d) (value_now h)) (w_mem F w (d_tgt d)).
Proof.
  intros h w d RO R S D NF ID AT NC. apply cast_converts. inversion R as [|w0 h' w1 op r w2 R' FU ST EW EH]; subst; [destruct h; discriminate|].
  apply app_inj_tail in EH. destruct EH as [-> EE]. injection EE as -> ->.
  assert (I := run_inv _ _ R' S D FU). inversion ST as [| | |w' order w'' r' ND IO ER| |]; subst.
  destruct (inv_realize _ _ _ _ _ I D ND IO ER ltac:(discriminate)) as (_ & _ & P).
  assert (X : exists i, nth_error (params_of h (d_obj d)) i = Some d) by (apply In_nth_error, filter_In; split; [exact ID|apply Nat.eqb_refl]).
  destruct X as [i X]. rewrite <- (inv_key _ _ I) in X. destruct (get w1 (d_obj d) i) as [a|] eqn:GA; [|discriminate X]. injection X as X.
  assert (CA : i_const F a = false).
  { destruct (i_const F a) eqn:C; [|reflexivity]. exfalso. apply NC. destruct (inv_const _ _ I _ _ _ GA) as [[CC _] _]. rewrite <- X. exact (CC C). }
  destruct (P eq_refl _ _ _ AT GA CA) as (v & V1 & _ & V2). rewrite (V1 (inv_broken _ _ I NF _ _ _ GA)) in V2. rewrite <- X. cbn [key d_kind d_expr d_tgt].
  assert (EE : forall x, env (w_vars F w1) x = value_now h x) by (intros x; unfold env, value_now; rewrite (inv_vars _ _ I); reflexivity).
  etransitivity; [|exact V2]. f_equal. apply RO. intros x _. symmetry. apply EE.
Qed.

(** C39: a parameter without variables has its value from its declaration on, whatever else is called,
    also after calls that throw. *)
Theorem C39_constants_keep_their_value : forall h w d,
  run h w -> Forall (fun e => snd e <> Undef) h -> stable h -> distinct h ->
  In d (decls h) -> constant (d_expr d) ->
  converts (d_kind d) (fval (d_expr d) no_env) (w_mem F w (d_tgt d)).
Proof.
  intros h w d R U S D ID C. apply cast_converts. assert (I := run_inv _ _ R S D U).
  assert (X : exists i, nth_error (params_of h (d_obj d)) i = Some d) by (apply In_nth_error, filter_In; split; [exact ID|apply Nat.eqb_refl]).
  destruct X as [i X]. rewrite <- (inv_key _ _ I) in X. destruct (get w (d_obj d) i) as [a|] eqn:GA; [|discriminate X]. injection X as X.
  rewrite <- X in C |- *. cbn [key d_kind d_expr d_tgt] in *. apply (inv_cmem _ _ I _ _ _ GA). apply (inv_const _ _ I _ _ _ GA), C.
Qed.

(** C39: using an object (checkAllParametersAreRealized) throws exactly if it has a formula with
    variables and realize() has not succeeded since it was attached and last unrealized. *)
Theorem C39_use_throws_iff_not_realized : forall h w o r w',
  run (h ++ [(OCheck F o, r)]) w' -> run h w -> stable h -> distinct h ->
  Forall (fun e => snd e <> Undef) h ->
  (r = Done <-> forall d, In d (decls h) -> d_obj d = o -> constant (d_expr d) \/ realized h o) /\
  (r = Done \/ r = Thrown).
Proof.
  intros h w o r w' R' _ S D U. inversion R' as [|w0 h' w1 op r0 w2 R FU ST EW EH]; subst; [destruct h; discriminate|].
  apply app_inj_tail in EH. destruct EH as [-> EE]. injection EE as -> ->.
  assert (I := run_inv _ _ R S D U). inversion ST; subst. unfold check.
  split; [|destruct (forallb _ _); auto].
  destruct (forallb (i_eval F) (o_params F (w_objs F w' o))) eqn:FB.
  - split; [|reflexivity]. intros _ d ID <-.
    assert (X : exists i, nth_error (params_of h (d_obj d)) i = Some d) by (apply In_nth_error, filter_In; split; [exact ID|apply Nat.eqb_refl]).
    destruct X as [i X]. rewrite <- (inv_key _ _ I) in X. destruct (get w' (d_obj d) i) as [a|] eqn:GA; [|discriminate X]. injection X as X.
    assert (EA : i_eval F a = true) by (rewrite forallb_forall in FB; apply FB; unfold get in GA; apply nth_error_In in GA; exact GA).
    destruct (i_const F a) eqn:CA.
    + left. destruct (inv_const _ _ I _ _ _ GA) as [[CC _] _]. rewrite <- X. exact (CC CA).
    + right. apply (inv_eval _ _ I _ _ _ GA CA), EA.
  - split; [discriminate|]. intros ALL. exfalso. apply Bool.not_true_iff_false in FB. apply FB. apply forallb_forall. intros a IA.
    apply In_nth_error in IA. destruct IA as [i GA]. assert (K := inv_key _ _ I o i). unfold get in K. rewrite GA in K. symmetry in K. cbn [option_map] in K.
    destruct (decl_in _ _ _ _ K) as [ID _]. destruct (ALL _ ID eq_refl) as [C|C].
    + destruct (inv_const _ _ I o i a GA) as [[_ CC] EE]. apply EE, CC, C.
    + destruct (i_const F a) eqn:CA; [exact (proj2 (inv_const _ _ I o i a GA) CA)|]. apply (inv_eval _ _ I o i a GA CA), C.
Qed.

(** C101: if objects get no parameters once attached, realize() never follows a dangling pointer: its only
    undefined behaviour is converting to uint32_t a value out of its range. *)
Theorem C101_realize_is_defined : forall h w,
  reads_only -> run (h ++ [(ORealize F, Undef)]) w -> stable h -> distinct h ->
  exists d v, In d (decls h) /\ attached h (d_obj d) /\ d_kind d = KUint32 /\
    (no_failed_realize h -> v = fval (d_expr d) (value_now h)) /\ (v <= - (1) \/ inject_Z (2 ^ 32) <= v)%Q.
Proof.
  intros h w RO R S D. inversion R as [|w0 h' w1 op r0 w2 R' FU ST EW EH]; subst; [destruct h; discriminate|].
  apply app_inj_tail in EH. destruct EH as [-> EE]. injection EE as -> ->.
  assert (I := run_inv _ _ R' S D FU). inversion ST as [| | |w' order w'' r' ND IO ER| |]; subst. clear ST R R' FU.
  assert (VAL : forall p, In p order -> exists a, deref w1 p = Some a).
  { intros p IP. apply IO in IP. destruct (inv_att _ _ I p IP) as (A & B & _). rewrite deref_get by exact A. exact B. }
  unfold realize in ER. destruct (compile_all F wf fvars w1 order) as [wc rc] eqn:EC.
  assert (NUC : rc <> Undef).
  { clear -EC VAL. intros ->. revert w1 VAL EC. induction order as [|p ps IH]; intros w1 VAL EC; cbn [compile_all] in EC; [discriminate EC|].
    destruct (VAL p (or_introl eq_refl)) as [i DI]. rewrite DI in EC.
    assert (V' : forall q, In q ps -> exists a, deref w1 q = Some a) by (intros; apply VAL; right; assumption).
    destruct (i_const F i); [exact (IH _ V' EC)|]. destruct (i_comp F i); try exact (IH _ V' EC).
    destruct (compiles _ _); [|discriminate EC]. refine (IH _ _ EC). intros q IQ. destruct (V' q IQ) as [b DB].
    destruct (deref_some _ _ _ DI) as [GP GI]. destruct (deref_some _ _ _ DB) as [GQ GB].
    rewrite deref_get by (rewrite gen_set_param; exact GQ). rewrite (get_set_param _ _ _ _ GI). destruct (_ && _); eexists; [reflexivity|exact GB]. }
  destruct (compile_spec _ _ _ _ EC NUC) as (V1 & A1 & M1 & G1 & P1 & C1).
  destruct rc; [|discriminate ER|contradiction].
  (* every pointer stays valid and compiled *)
  assert (OK : forall p, In p order -> exists a, deref wc p = Some a /\ (i_const F a = false -> i_comp F a <> NotYet) /\ (no_failed_realize h -> i_comp F a <> Broken) /\ exists d, In d (decls h) /\ attached h (d_obj d) /\ d_kind d = i_kind F a /\ d_expr d = i_expr F a).
  { intros p IP. destruct (VAL p IP) as [b DB]. destruct (deref_some _ _ _ DB) as [GQ GB]. specialize (P1 (p_obj p) (p_idx p)). rewrite GB in P1. destruct P1 as [c [P1 CC]].
    assert (DC : deref wc p = Some (with_comp b c)) by (rewrite deref_get by (rewrite G1; exact GQ); exact P1).
    exists (with_comp b c). split; [exact DC|]. split; [exact (C1 eq_refl _ _ IP DC)|].
    split. { intros NF. cbn [with_comp i_comp]. destruct CC as [->|(_ & _ & [->|[_ CC]])]; [exact (inv_broken _ _ I NF _ _ _ GB)|discriminate|discriminate CC]. }
    assert (K := inv_key _ _ I (p_obj p) (p_idx p)). rewrite GB in K. symmetry in K. cbn [option_map] in K. destruct (decl_in _ _ _ _ K) as [ID _].
    exists (key (p_obj p) b). split; [exact ID|]. split; [|split; reflexivity]. apply IO in IP. exact (proj2 (proj2 (inv_att _ _ I p IP))). }
  assert (EE : forall x, env (w_vars F wc) x = value_now h x) by (intros x; unfold env, value_now; rewrite V1, (inv_vars _ _ I); reflexivity).
  clear -ER OK EE RO. revert wc OK EE ER. induction order as [|p ps IH]; intros wc OK EE ER; cbn [eval_all] in ER; [discriminate ER|].
  destruct (OK p (or_introl eq_refl)) as (i & DI & NY & NB0 & d & ID & AD & KD & XD). rewrite DI in ER.
  assert (OK' : forall q, In q ps -> exists a, deref wc q = Some a /\ (i_const F a = false -> i_comp F a <> NotYet) /\ (no_failed_realize h -> i_comp F a <> Broken) /\ exists d, In d (decls h) /\ attached h (d_obj d) /\ d_kind d = i_kind F a /\ d_expr d = i_expr F a) by (intros; apply OK; right; assumption).
  destruct (i_const F i) eqn:CI; [exact (IH _ OK' EE ER)|].
  destruct (match i_comp F i with Compiled => _ | Broken => _ | NotYet => _ end) as [v|] eqn:EV; [|exfalso; specialize (NY eq_refl); destruct (i_comp F i); congruence].
  destruct (cast (i_kind F i) v) as [c| |] eqn:EK.
  - refine (IH _ _ _ ER); [|intros x; unfold set_param, set_mem; cbn [w_vars]; apply EE]. intros q IQ. destruct (OK' q IQ) as (b & DB & NB & DD). destruct (deref_some _ _ _ DI) as [GP GI]. destruct (deref_some _ _ _ DB) as [GQ GB].
    set (i' := mkInfo F (i_expr F i) (i_kind F i) (i_tgt F i) (i_comp F i) false true).
    assert (DQ : deref (set_param F (set_mem F wc (i_tgt F i) c) p i') q = if (p_obj q =? p_obj p) && (p_idx q =? p_idx p) then Some i' else Some b).
    { rewrite deref_get by (rewrite gen_set_param; exact GQ). rewrite (get_set_param (set_mem F wc (i_tgt F i) c) p i i' GI).
      destruct ((p_obj q =? p_obj p) && (p_idx q =? p_idx p)); [reflexivity|exact GB]. }
    rewrite DQ. destruct (_ && _); [exists i'|exists b]; (split; [reflexivity|]); [|auto]. split; [intros _; exact (NY eq_refl)|]. split; [exact NB0|]. exists d. auto.
  - exfalso. unfold ParamModel.cast in EK. destruct (i_kind F i); try discriminate EK. destruct (_ && _); discriminate EK.
  - exists d, v. split; [exact ID|]. split; [exact AD|]. rewrite KD. destruct (cast_undefined _ _ EK) as [K V]. split; [exact K|]. split; [|exact V].
    intros NF. specialize (NB0 NF). specialize (NY eq_refl). destruct (i_comp F i); try contradiction. injection EV as <-. rewrite XD. apply RO. intros x _. apply EE.
Qed.

(** C101: a realize() that throws changes no variable. *)
Theorem C101_failed_realize_changes_nothing : forall h w w', run h w -> step w (ORealize F) Thrown w' ->
  stable h -> distinct h -> Forall (fun e => snd e <> Undef) h -> forall t, w_mem F w' t = w_mem F w t.
Proof.
  intros h w w' R ST S D U t. assert (I := run_inv _ _ R S D U). inversion ST as [| | |w0 order w'' r' ND IO ER| |]; subst.
  destruct (inv_realize _ _ _ _ _ I D ND IO ER ltac:(discriminate)) as (_ & P & _). assert (Q := P eq_refl). unfold mem in Q. rewrite Q. reflexivity.
Qed.
End ParamP.

(** ** A language of formulas, for concrete runs *)
Inductive Ex := Num (q : Q) | Var (x : string) | Plus (a b : Ex) | Times (a b : Ex).
Fixpoint ex_vars (e : Ex) : list string := match e with Num _ => [] | Var x => [x] | Plus a b | Times a b => ex_vars a ++ ex_vars b end.
Fixpoint ex_val (e : Ex) (v : string -> Q) : Q := match e with Num q => q | Var x => v x | Plus a b => (ex_val a v + ex_val b v)%Q | Times a b => (ex_val a v * ex_val b v)%Q end.
Lemma ex_reads_only : reads_only Ex ex_vars ex_val.
Proof.
  intros f e e'. induction f as [q|x|a IHa b IHb|a IHa b IHb]; intros H; cbn [ex_val ex_vars] in *; [reflexivity|apply H; left; reflexivity|..];
  (rewrite IHa, IHb; [reflexivity|..]; intros x I; apply H, in_or_app; auto).
Qed.
Notation ex_run := (run Ex (fun _ => true) ex_vars ex_val (fun q => q)).
Open Scope string_scope.
Open Scope list_scope.

(** Two parameters of an object, one with a formula; the variable changes after the first realize() *)
Definition demo : list (Op Ex * out) :=
  [(ODeclare Ex 0 (Times (Num 2) (Var "SIGMA")) KDouble 0, Done); (ODeclare Ex 0 (Num 7) KUint32 1, Done);
   (OAttach Ex 0, Done); (OUpdate Ex "SIGMA" 3, Done); (ORealize Ex, Done); (OCheck Ex 0, Done); (OUpdate Ex "SIGMA" 5, Done)].
(** plays the calls, visiting the attached parameters in the reverse order of their attachment *)
Definition exec (junk : Q) (w : World Ex) (op : Op Ex) : World Ex * out :=
  match op with
  | ODeclare _ o f k t => declare Ex (fun _ => true) ex_vars ex_val (fun q => q) w o f k t
  | OAttach _ o => (attach Ex w o, Done)
  | OUpdate _ x v => (update Ex w x v, Done)
  | ORealize _ => realize Ex (fun _ => true) ex_vars ex_val (fun q => q) junk w (rev (w_att Ex w))
  | OUnrealize _ o => (unrealize Ex w o, Done)
  | OCheck _ o => (w, check Ex w o)
  end.
Fixpoint nodupb (l : list Ptr) : bool := match l with [] => true | p :: r => negb (existsb (ptr_eqb p) r) && nodupb r end.
Fixpoint play (junk : Q) (w : World Ex) (h : list (Op Ex * out)) (ops : list (Op Ex)) : list (Op Ex * out) * World Ex :=
  match ops with
  | [] => (h, w)
  | op :: r => let (w', o) := exec junk w op in
      if nodupb (w_att Ex w) && match o, r with Undef, _ :: _ => false | _, _ => true end then play junk w' (h ++ [(op, o)]) r else (h, w)
  end.
Lemma nodupb_ok l : nodupb l = true -> NoDup l.
Proof.
  induction l as [|p l IH]; intros E; [constructor|]. cbn [nodupb] in E. apply andb_prop in E. destruct E as [A B]. constructor; [|exact (IH B)].
  intros I. rewrite (proj2 (existsb_exists _ _)) in A; [discriminate A|]. exists p. split; [exact I|apply ptr_eqb_spec; reflexivity].
Qed.
Lemma play_run junk ops : forall w h, ex_run junk (world0 Ex) h w -> (ops <> [] -> Forall (fun e => snd e <> Undef) h) ->
  ex_run junk (world0 Ex) (fst (play junk w h ops)) (snd (play junk w h ops)).
Proof.
  induction ops as [|op ops IH]; intros w h R U; cbn [play]; [exact R|].
  destruct (exec junk w op) as [w' o] eqn:E. destruct (nodupb (w_att Ex w)) eqn:ND; cbn [andb]; [|exact R].
  assert (ST : step Ex (fun _ => true) ex_vars ex_val (fun q => q) junk w op o w').
  { destruct op as [ob f k t|ob|x v| |ob|ob]; cbn [exec] in E; try (injection E as <- <-; constructor).
    - constructor. exact E.
    - apply st_realize with (order := rev (w_att Ex w)); [apply NoDup_rev, nodupb_ok, ND|intros p; symmetry; apply in_rev|exact E]. }
  assert (R' : ex_run junk (world0 Ex) (h ++ [(op, o)]) w') by (eapply run_snoc; [exact R|apply U; discriminate|exact ST]).
  destruct o, ops as [|op' ops]; try exact R; apply IH; try exact R'; try (intros X; contradiction);
  intros _; (apply Forall_app; split; [apply U; discriminate|constructor; [discriminate|constructor]]).
Qed.
Lemma play_from_start junk ops h w : play junk (world0 Ex) [] ops = (h, w) -> ex_run junk (world0 Ex) h w.
Proof. intros E. assert (P := play_run junk ops (world0 Ex) [] (run_nil _ _ _ _ _ _ _) (fun _ => Forall_nil _)). rewrite E in P. exact P. Qed.

Fixpoint stableb (h : list (Op Ex * out)) (att : list nat) : bool :=
  match h with
  | [] => true
  | (OAttach _ o, _) :: r => stableb r (o :: att)
  | (ODeclare _ o _ _ _, _) :: r => negb (existsb (Nat.eqb o) att) && stableb r att
  | _ :: r => stableb r att
  end.
Lemma stableb_in h : forall att o f k t r, stableb h att = true -> In o att -> ~ In (ODeclare Ex o f k t, r) h.
Proof.
  induction h as [|[op ro] h IH]; intros att o f k t r S A IN; [contradiction|]. destruct IN as [E|I].
  - injection E as -> ->. cbn [stableb] in S. apply andb_prop in S. destruct S as [S _]. rewrite (proj2 (existsb_exists _ _)) in S; [discriminate S|]. exists o. split; [exact A|apply Nat.eqb_refl].
  - destruct op; cbn [stableb] in S; try (eapply IH; [exact S|exact A|exact I]).
    + apply andb_prop in S. destruct S as [_ S]. eapply IH; [exact S|exact A|exact I].
    + eapply IH; [exact S|right; exact A|exact I].
Qed.
Lemma stableb_ok h : forall att, stableb h att = true -> stable Ex h.
Proof.
  induction h as [|[op ro] h IH]; intros att S h1 h2 o r f k t r' E I.
  - destruct h1; [contradiction|discriminate E].
  - destruct h1 as [|e h1]; [contradiction|]. injection E as E0 E. rewrite <- E0 in I. destruct I as [J0|I].
    + injection J0 as -> ->. cbn [stableb] in S. intros J. apply (stableb_in _ _ o f k t r' S (or_introl eq_refl)). rewrite E. apply in_or_app. right. exact J.
    + assert (exists att', stableb h att' = true) as [att' S'] by (destruct op; cbn [stableb] in S; eauto; apply andb_prop in S; destruct S; eauto).
      exact (IH att' S' h1 h2 o r f k t r' E I).
Qed.

Example demo_meets_C39 : forall junk, exists w, ex_run junk (world0 Ex) (demo ++ [(ORealize Ex, Done)]) w /\
  stable Ex demo /\ distinct Ex demo /\ no_failed_realize Ex demo /\
  In (mkDecl Ex 0 (Times (Num 2) (Var "SIGMA")) KDouble 0) (decls Ex demo) /\ attached Ex demo 0 /\
  w_mem Ex w 0 = (2 * 5)%Q /\ w_mem Ex w 1 = 7%Q.
Proof.
  intros junk. exists (snd (play junk (world0 Ex) [] (map fst demo ++ [ORealize Ex]))).
  split; [apply play_from_start with (ops := map fst demo ++ [ORealize Ex]); reflexivity|].
  split; [apply (stableb_ok _ []); reflexivity|]. split; [repeat constructor; simpl; intuition congruence|].
  split; [unfold no_failed_realize, demo; simpl; intuition congruence|]. split; [left; reflexivity|]. split; [exists Done; simpl; auto|]. split; reflexivity.
Qed.

(** Finding: parameters declared after attaching their object leave the source with dangling pointers (the
    vector of parameters has moved): realize() is undefined. *)
Theorem C102_declaring_after_attaching_refuted : forall junk, exists w,
  ex_run junk (world0 Ex) [(ODeclare Ex 0 (Var "x") KDouble 0, Done); (OAttach Ex 0, Done); (ODeclare Ex 0 (Num 1) KDouble 1, Done);
    (OUpdate Ex "x" 1, Done); (ORealize Ex, Undef)] w.
Proof. intros junk. eexists. apply play_from_start with (ops := [ODeclare Ex 0 (Var "x") KDouble 0; OAttach Ex 0; ODeclare Ex 0 (Num 1) KDouble 1; OUpdate Ex "x" 1; ORealize Ex]). reflexivity. Qed.

(** Finding: if realize() throws because a variable is not defined yet, defining it and realizing again does
    not help: realize() then succeeds, the object can be used, and the parameter is not the value of its
    formula but whatever an expression that never compiled evaluates to. *)
Theorem C103_retry_after_undefined_variable_refuted : forall junk, exists w h,
  h = [(ODeclare Ex 0 (Var "x") KDouble 0, Done); (OAttach Ex 0, Done); (ORealize Ex, Thrown); (OUpdate Ex "x" 1, Done); (ORealize Ex, Done); (OCheck Ex 0, Done)] /\
  ex_run junk (world0 Ex) h w /\ stable Ex h /\ distinct Ex h /\ value_now Ex h "x" = 1%Q /\ w_mem Ex w 0 = junk.
Proof.
  intros junk. do 2 eexists. split; [reflexivity|]. split; [|split; [|split; [|split]]].
  - apply play_from_start with (ops := [ODeclare Ex 0 (Var "x") KDouble 0; OAttach Ex 0; ORealize Ex; OUpdate Ex "x" 1; ORealize Ex; OCheck Ex 0]). reflexivity.
  - apply (stableb_ok _ []). reflexivity.
  - repeat constructor. simpl. tauto.
  - reflexivity.
  - reflexivity.
Qed.
