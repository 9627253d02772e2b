(** C271-C272: configuring a parameter again, and leaving an optional one out. *)
From Coq Require Import String Qround Lqa QArith.
From Verif Require Import Base ParamModel ParamProps.
Open Scope nat_scope.

Section Reconf.
Variable F : Type.
Variable wf : F -> bool.
Variable fvars : F -> list string.
Variable fval : F -> (string -> Q) -> Q.
Variable fl : Q -> Q.
Variable junk : Q.
Notation Hist := (list (Op F * out)).
Notation World := (World F).
Notation run := (run F wf fvars fval fl junk (world0 F)).
Notation decls := (decls F).
Notation get := (get F).
Notation constant := (constant F wf fvars).

(** ** Specification *)
(** [d] is the latest declaration of the variable *)
Definition latest_decl (h : Hist) (t : nat) (d : Decl F) : Prop :=
  d_tgt F d = t /\ exists before after, decls h = before ++ d :: after /\ forall d', In d' after -> d_tgt F d' <> t.

(** ** Invariant for one variable *)
Definition InvT (t : nat) (h : Hist) (w : World) : Prop :=
  (forall o i a, get w o i = Some a -> i_tgt F a = t -> i_const F a = true) /\
  (forall d, latest_decl h t d -> cast fl (d_kind F d) (fval (d_expr F d) no_env) = Ok (w_mem F w t)).

Lemma latest_other h e t d : latest_decl (h ++ [e]) t d -> decl_of F e = [] -> latest_decl h t d.
Proof. intros (T & b & a & D & N) E. split; [exact T|]. exists b, a. rewrite decls_snoc, E, app_nil_r in D. auto. Qed.

Lemma latest_new h e d0 t d : decl_of F e = [d0] -> latest_decl (h ++ [e]) t d ->
  (d_tgt F d0 = t /\ d = d0) \/ (d_tgt F d0 <> t /\ latest_decl h t d).
Proof.
  intros E (T & b & a & D & N). rewrite decls_snoc, E in D.
  destruct a as [|x a _] using rev_ind.
  - apply app_inj_tail in D. destruct D as [_ <-]. left. auto.
  - right. rewrite app_comm_cons, app_assoc in D. apply app_inj_tail in D. destruct D as [D <-].
    split; [apply N, in_or_app; right; left; reflexivity|]. split; [exact T|]. exists b, a. split; [exact D|].
    intros d' I. apply N, in_or_app. left. exact I.
Qed.

Lemma get_app w o b i o' j : o_params F b = o_params F (w_objs F w o) ++ [i] ->
  get (set_obj F w o b) o' j = if (o' =? o) && (j =? List.length (o_params F (w_objs F w o))) then Some i else get w o' j.
Proof.
  intros E. unfold ParamProps.get, set_obj. cbn [w_objs]. destruct (Nat.eqb_spec o' o) as [->|]; [|reflexivity]. cbn [andb]. rewrite E.
  destruct (Nat.eqb_spec j (List.length (o_params F (w_objs F w o)))) as [->|N].
  - rewrite nth_error_app2 by lia. rewrite Nat.sub_diag. reflexivity.
  - destruct (Nat.lt_ge_cases j (List.length (o_params F (w_objs F w o)))) as [L|L]; [apply nth_error_app1, L|].
    rewrite !(proj2 (nth_error_None _ _)); [reflexivity|lia|rewrite app_length; simpl; lia].
Qed.

Lemma invt_declare t h w o f k t' w' r : InvT t h w -> (t' = t -> constant f) ->
  declare F wf fvars fval fl w o f k t' = (w', r) -> r <> Undef -> InvT t (h ++ [(ODeclare F o f k t', r)]) w'.
Proof.
  intros [IC IM] CF E NU. unfold declare in E.
  assert (GO : o_params F (grow F (w_objs F w o)) = o_params F (w_objs F w o)) by (unfold grow; destruct (_ <? _); reflexivity).
  destruct (compiles F wf fvars f []) eqn:CO.
  - destruct (cast fl k (fval f no_env)) as [v| |] eqn:EC; try (injection E as <- <-; contradiction). injection E as <- <-.
    split.
    + intros o' i a GA TA.
      change (get (set_obj F w o (mkObj F (o_params F (grow F (w_objs F w o)) ++ [mkInfo F f k t' Compiled true true])
        (o_cap F (grow F (w_objs F w o))) (o_gen F (grow F (w_objs F w o))))) o' i = Some a) in GA.
      rewrite (get_app w o _ (mkInfo F f k t' Compiled true true)) in GA by (cbn [o_params]; rewrite GO; reflexivity).
      destruct (_ && _); [injection GA as <-; reflexivity|]. exact (IC _ _ _ GA TA).
    + intros d L. cbn [set_mem w_mem]. destruct (latest_new h (ODeclare F o f k t', Done) (mkDecl F o f k t') t d eq_refl L) as [[T ->]|[T L']]; cbn [d_tgt d_kind d_expr] in *.
      * subst t'. rewrite Nat.eqb_refl. exact EC.
      * destruct (Nat.eqb_spec t t'); [congruence|]. exact (IM d L').
  - injection E as <- <-. assert (NT : t' <> t).
    { intros EQ. apply (constant_spec F wf fvars) in CF; [congruence|exact EQ]. }
    split.
    + intros o' i a GA TA. rewrite (get_app w o _ (mkInfo F f k t' NotYet false false)) in GA by (cbn [o_params]; rewrite GO; reflexivity).
      destruct (_ && _); [injection GA as <-; cbn [i_tgt] in TA; contradiction|]. exact (IC _ _ _ GA TA).
    + intros d L. destruct (latest_new h (ODeclare F o f k t', Done) (mkDecl F o f k t') t d eq_refl L) as [[T ->]|[T L']]; [contradiction|exact (IM d L')].
Qed.

Lemma eval_not_thrown ps : forall w w', eval_all F fval fl junk w ps <> (w', Thrown).
Proof.
  induction ps as [|p ps IH]; intros w w' E; cbn [eval_all] in E; [discriminate E|].
  destruct (deref F w p) as [i|]; [|discriminate E]. destruct (i_const F i); [exact (IH _ _ E)|].
  destruct (match i_comp F i with NotYet => None | Compiled => Some (fval (i_expr F i) (env (w_vars F w))) | Broken => Some junk end); [|discriminate E].
  destruct (cast fl (i_kind F i) q); try discriminate E. exact (IH _ _ E).
Qed.

Lemma invt_realize t h w order w' r : InvT t h w -> realize F wf fvars fval fl junk w order = (w', r) -> r <> Undef ->
  InvT t (h ++ [(ORealize F, r)]) w'.
Proof.
  intros [IC IM] E NU. unfold realize in E. destruct (compile_all F wf fvars w order) as [w1 rc] eqn:EC.
  assert (NC : rc <> Undef) by (intros ->; injection E as <- <-; contradiction).
  destruct (compile_spec F wf fvars order w w1 rc EC NC) as (_ & _ & M1 & _ & P1 & _).
  assert (IC1 : forall o i a, get w1 o i = Some a -> i_tgt F a = t -> i_const F a = true).
  { intros o i a GA TA. specialize (P1 o i). destruct (get w o i) as [b|] eqn:GB; [|congruence].
    destruct P1 as [c [P1 _]]. rewrite P1 in GA. injection GA as <-. exact (IC _ _ _ GB TA). }
  assert (L1 : forall d, latest_decl (h ++ [(ORealize F, r)]) t d -> cast fl (d_kind F d) (fval (d_expr F d) no_env) = Ok (w_mem F w1 t)).
  { intros d L. change (w_mem F w1) with (ParamProps.mem F w1). rewrite M1. apply IM. apply (latest_other h _ t d L eq_refl). }
  destruct rc; [|injection E as <- <-; split; assumption|contradiction].
  destruct r; [|exfalso; exact (eval_not_thrown _ _ _ E)|contradiction].
  destruct (eval_spec F fval fl junk order w1 w' E) as (_ & _ & _ & P2 & M2 & _). split.
  - intros o i a GA TA. specialize (P2 o i). destruct (get w1 o i) as [b|] eqn:GB; [|congruence].
    destruct (i_const F b) eqn:CB; [rewrite P2 in GA; injection GA as <-; exact CB|].
    exfalso. assert (TB : i_tgt F b = t). { rewrite P2 in GA. injection GA as <-. destruct (existsb _ _); exact TA. }
    specialize (IC1 _ _ _ GB TB). congruence.
  - intros d L. change (w_mem F w' t) with (ParamProps.mem F w' t). rewrite M2; [exact (L1 d L)|].
    intros (p & i & _ & D & CI & TI). destruct (deref_some _ _ _ _ D) as [_ G]. rewrite (IC1 _ _ _ G TI) in CI. discriminate CI.
Qed.

Lemma run_invt t h w : run h w -> Forall (fun e => snd e <> Undef) h ->
  (forall d, In d (decls h) -> d_tgt F d = t -> constant (d_expr F d)) -> InvT t h w.
Proof.
  intros R. remember (world0 F) as w0 eqn:EW. induction R as [w|w h w1 op r w2 R IH FU ST]; intros U C.
  - subst w. split.
    + intros o i a GA. unfold ParamProps.get in GA. cbn in GA. destruct i; discriminate GA.
    + intros d (_ & b & a & D & _). destruct b; discriminate D.
  - assert (C1 : forall d, In d (decls h) -> d_tgt F d = t -> constant (d_expr F d)).
    { intros d I. apply C. rewrite decls_snoc. apply in_or_app. left. exact I. }
    assert (I := IH EW FU C1). clear IH R EW.
    assert (UR : r <> Undef) by (apply Forall_app in U; destruct U as [_ U]; apply Forall_inv in U; exact U).
    inversion ST as [w' o f k t' w'' r' ED|w' o|w' x v|w' order w'' r' ND IO ER|w' o|w' o]; subst.
    + apply (invt_declare _ _ _ _ _ _ _ _ _ I); [|exact ED|exact UR].
      intros ->. destruct r; [|exfalso; unfold declare in ED; destruct (compiles F wf fvars f []); [destruct (cast fl k _)|]; discriminate ED|contradiction].
      apply (C (mkDecl F o f k t)); [|reflexivity]. rewrite decls_snoc. apply in_or_app. right. left. reflexivity.
    + destruct I as [IC IM]. split; [exact IC|]. intros d L. exact (IM d (latest_other h _ t d L eq_refl)).
    + destruct I as [IC IM]. split; [exact IC|]. intros d L. exact (IM d (latest_other h _ t d L eq_refl)).
    + exact (invt_realize _ _ _ _ _ _ I ER UR).
    + destruct I as [IC IM]. split; [|intros d L; exact (IM d (latest_other h _ t d L eq_refl))].
      intros o' i a GA TA. unfold ParamProps.get, unrealize, set_obj in GA. cbn [w_objs] in GA.
      destruct (Nat.eqb_spec o' o) as [->|]; [|exact (IC o' i a GA TA)]. cbn [o_params] in GA. rewrite nth_error_map in GA.
      destruct (nth_error (o_params F (w_objs F w1 o)) i) as [b|] eqn:GB; [|discriminate GA]. cbn [option_map] in GA. injection GA as <-.
      destruct (i_const F b) eqn:CB; [exact CB|]. cbn [i_tgt] in TA. rewrite (IC o i b GB TA) in CB. discriminate CB.
    + destruct I as [IC IM]. split; [exact IC|]. intros d L. exact (IM d (latest_other h _ t d L eq_refl)).
Qed.

(** C271, where it holds: if no formula with variables was ever given for a variable, its value is that of
    the latest configuration, whatever else was called, in any order and as often as one likes. *)
Theorem C271_reconfigured_where : forall h w t d,
  run h w -> Forall (fun e => snd e <> Undef) h -> latest_decl h t d ->
  (forall d', In d' (decls h) -> d_tgt F d' = t -> constant (d_expr F d')) ->
  converts fl (d_kind F d) (fval (d_expr F d) no_env) (w_mem F w t).
Proof. intros h w t d R U L C. apply cast_converts. destruct (run_invt t h w R U C) as [_ IM]. exact (IM d L). Qed.
End Reconf.

(** C271: a parameter that had a formula with variables and is then configured again with a number has, after
    the next realize(), the value of the old formula. *)
Theorem C271_old_formula_comes_back_refuted : forall junk v c, exists w h,
  h = [(ODeclare Ex 0 (Var "x") KDouble 0, Done); (ODeclare Ex 0 (Num c) KDouble 0, Done);
       (OAttach Ex 0, Done); (OUpdate Ex "x" v, Done); (ORealize Ex, Done); (OCheck Ex 0, Done)] /\
  ex_run junk (world0 Ex) h w /\ stable Ex h /\ latest_decl Ex h 0 (mkDecl Ex 0 (Num c) KDouble 0) /\ w_mem Ex w 0 = v.
Proof.
  intros junk v c. do 2 eexists. split; [reflexivity|]. split; [|split; [|split]].
  - apply play_from_start with (ops := [ODeclare Ex 0 (Var "x") KDouble 0; ODeclare Ex 0 (Num c) KDouble 0; OAttach Ex 0; OUpdate Ex "x" v; ORealize Ex; OCheck Ex 0]). reflexivity.
  - apply (stableb_ok _ []). reflexivity.
  - split; [reflexivity|]. exists [mkDecl Ex 0 (Var "x") KDouble 0], []. split; [reflexivity|]. intros d' [].
  - reflexivity.
Qed.

(** The hypotheses of C271_reconfigured_where are met: two configurations of one variable, a second object with
    a formula, attached and realized in between. *)
Example reconfigured_twice : forall junk, exists w h,
  h = [(ODeclare Ex 0 (Num 3) KDouble 0, Done); (ODeclare Ex 1 (Var "x") KDouble 7, Done); (OAttach Ex 0, Done); (OAttach Ex 1, Done);
       (OUpdate Ex "x" 5, Done); (ORealize Ex, Done); (ODeclare Ex 0 (Num 4) KDouble 0, Done)] /\
  ex_run junk (world0 Ex) h w /\ Forall (fun e => snd e <> Undef) h /\ latest_decl Ex h 0 (mkDecl Ex 0 (Num 4) KDouble 0) /\
  (forall d', In d' (decls Ex h) -> d_tgt Ex d' = 0 -> constant Ex (fun _ => true) ex_vars (d_expr Ex d')) /\ w_mem Ex w 0 = 4%Q /\ w_mem Ex w 7 = 5%Q.
Proof.
  intros junk. do 2 eexists. split; [reflexivity|]. split; [|split; [|split; [|split; [|split]]]].
  - apply play_from_start with (ops := [ODeclare Ex 0 (Num 3) KDouble 0; ODeclare Ex 1 (Var "x") KDouble 7; OAttach Ex 0; OAttach Ex 1; OUpdate Ex "x" 5; ORealize Ex; ODeclare Ex 0 (Num 4) KDouble 0]). reflexivity.
  - repeat constructor; discriminate.
  - split; [reflexivity|]. exists [mkDecl Ex 0 (Num 3) KDouble 0; mkDecl Ex 1 (Var "x") KDouble 7], []. split; [reflexivity|]. intros d' [].
  - cbn. intros d' [<-|[<-|[<-|[]]]] T; cbn in T; try discriminate T; split; reflexivity.
  - reflexivity.
  - reflexivity.
Qed.

(** ** C272: optional parameters that the configuration leaves out *)
Section Optional.
Variable F : Type.
Variable wf : F -> bool.
Variable fvars : F -> list string.
Variable fval : F -> (string -> Q) -> Q.
Variable fl : Q -> Q.
(** the formula that the text of a number is *)
Variable num : Q -> F.
Hypothesis num_reads : forall q, wf (num q) = true /\ fvars (num q) = [] /\ forall e, (fval (num q) e == q)%Q.
Open Scope Q_scope.

Lemma millionths_near v : inject_Z (millionths v) - (1 # 2) <= v * inject_Z 1000000 /\ v * inject_Z 1000000 <= inject_Z (millionths v) + (1 # 2).
Proof.
  unfold millionths. cbv zeta. set (x := v * inject_Z 1000000). assert (L := Qfloor_le x). assert (G := Qlt_floor x). rewrite inject_Z_plus in G.
  change (inject_Z 1) with 1 in G. set (f := Qfloor x) in *.
  assert (P1 : inject_Z (f + 1) == inject_Z f + 1) by (rewrite inject_Z_plus; reflexivity).
  destruct (Qle_bool (1 # 2) (x - inject_Z f)) eqn:B1; cbn [negb].
  - apply Qle_bool_iff in B1. destruct (Qle_bool (x - inject_Z f) (1 # 2)) eqn:B2; cbn [negb].
    + apply Qle_bool_iff in B2. destruct (Z.even f); [|rewrite P1]; split; Lqa.lra.
    + rewrite P1. split; [Lqa.lra|]. Lqa.lra.
  - assert (~ (1 # 2) <= x - inject_Z f) as N by (intros H; apply Qle_bool_iff in H; congruence). apply Qnot_le_lt in N. split; Lqa.lra.
Qed.
Lemma millionths_exact n v : v * inject_Z 1000000 == inject_Z n -> millionths v = n.
Proof.
  intros E. destruct (millionths_near v) as [A B]. rewrite E in A, B.
  assert (H1 : inject_Z (millionths v) < inject_Z (n + 1)) by (rewrite inject_Z_plus; change (inject_Z 1) with 1; Lqa.lra).
  assert (H2 : inject_Z n < inject_Z (millionths v + 1)) by (rewrite inject_Z_plus; change (inject_Z 1) with 1; Lqa.lra).
  rewrite <- Zlt_Qlt in H1, H2. lia.
Qed.

(** C272: a formula in the configuration is declared as it is. *)
Theorem C272_given_formula : forall w o f k t,
  declare_opt F wf fvars fval fl num w o (Some f) k t = declare F wf fvars fval fl w o f k t.
Proof. reflexivity. Qed.

(** C272, what is kept: an optional parameter that the configuration leaves out gets the multiple of 1e-6
    nearest to its value, so it moves by at most 5e-7 and keeps its value if it has six decimals
    (an integer keeps its value); nothing else changes. *)
Theorem C272_left_out_where : forall w o k t w' r, r <> Undef ->
  declare_opt F wf fvars fval fl num w o None k t = (w', r) ->
  r = Done /\ (forall t', t' <> t -> w_mem F w' t' = w_mem F w t') /\
  (forall o', o' <> o -> w_objs F w' o' = w_objs F w o') /\
  match k with
  | KDouble => (exists n : Z, w_mem F w' t == inject_Z n / 1000000) /\
      w_mem F w' t - w_mem F w t <= 5 # 10000000 /\ w_mem F w t - w_mem F w' t <= 5 # 10000000 /\
      ((exists n : Z, w_mem F w t == inject_Z n / 1000000) -> w_mem F w' t == w_mem F w t)
  | KFloat => exists x, w_mem F w' t = fl x /\ (exists n : Z, x == inject_Z n / 1000000) /\
      x - w_mem F w t <= 5 # 10000000 /\ w_mem F w t - x <= 5 # 10000000
  | KUint32 => (exists n : Z, w_mem F w t == inject_Z n) -> w_mem F w' t == w_mem F w t
  end.
Proof.
  intros w o k t w' r NU E. unfold declare_opt, declare in E. set (v := w_mem F w t) in *.
  destruct (num_reads (printed k v)) as (W & V & R). specialize (R no_env).
  assert (C : compiles F wf fvars (num (printed k v)) [] = true) by (unfold compiles; rewrite W, V; reflexivity).
  rewrite C in E. destruct (cast fl k (fval (num (printed k v)) no_env)) as [u| |] eqn:EC; try (injection E as <- <-; contradiction).
  injection E as <- <-. split; [reflexivity|]. split; [|split].
  - intros t' N. cbn [set_mem w_mem set_obj]. destruct (Nat.eqb_spec t' t); [contradiction|reflexivity].
  - intros o' N. cbn [set_mem w_objs set_obj]. destruct (Nat.eqb_spec o' o); [contradiction|reflexivity].
  - assert (M : w_mem F (set_mem F (set_obj F w o (mkObj F (o_params F (grow F (w_objs F w o)) ++ [mkInfo F (num (printed k v)) k t Compiled true true])
        (o_cap F (grow F (w_objs F w o))) (o_gen F (grow F (w_objs F w o))))) t u) t = u) by (cbn [set_mem w_mem]; rewrite Nat.eqb_refl; reflexivity).
    rewrite M. clear M. destruct (millionths_near v) as [A B]. change (inject_Z 1000000) with 1000000 in A, B.
    destruct k; cbn [cast printed] in *.
    + injection EC as <-. change (inject_Z 1000000) with 1000000 in R.
      split; [exists (millionths v); exact R|]. rewrite R.
      assert (D : inject_Z (millionths v) / 1000000 == inject_Z (millionths v) * (1 # 1000000)) by field. rewrite D.
      split; [|split].
      * Lqa.lra.
      * Lqa.lra.
      * intros [n N]. rewrite <- D, (millionths_exact n v); [rewrite N; reflexivity|]. rewrite N. change (inject_Z 1000000) with 1000000. field.
    + injection EC as <-. change (inject_Z 1000000) with 1000000 in R. eexists. split; [reflexivity|]. split; [exists (millionths v); exact R|].
      assert (D : inject_Z (millionths v) / 1000000 == inject_Z (millionths v) * (1 # 1000000)) by field. rewrite R, D. split; Lqa.lra.
    + intros [n N]. destruct ((0 <=? trunc (fval (num v) no_env)) && (trunc (fval (num v) no_env) <? 4294967296))%Z; [|discriminate EC].
      injection EC as <-. assert (R2 : fval (num v) no_env == inject_Z n) by (rewrite R; exact N). clear R. rename R2 into R. unfold trunc. assert (FL : forall a b, a == b -> Qfloor a = Qfloor b) by (intros a b H; rewrite H; reflexivity).
      destruct (Qle_bool 0 (fval (num v) no_env)).
      * rewrite (FL _ _ R), Qfloor_Z, N. reflexivity.
      * rewrite (FL _ (inject_Z (- n))) by (rewrite inject_Z_opp, R; reflexivity). rewrite Qfloor_Z, N, Z.opp_involutive. reflexivity.
Qed.
End Optional.

(** C272: an optional parameter left out of the configuration does not keep its value: below 5e-7 it becomes 0. *)
Theorem C272_left_out_changes_value_refuted : forall o t, exists w w',
  (w_mem Ex w t == 1 # 10000000)%Q /\ declare_opt Ex (fun _ => true) ex_vars ex_val (fun q => q) Num w o None KDouble t = (w', Done) /\
  (w_mem Ex w' t == 0)%Q.
Proof.
  intros o t. exists (mkW Ex (fun _ => obj0 Ex) [] [] (fun _ => 1 # 10000000)%Q). eexists. split; [reflexivity|]. split; [reflexivity|].
  cbn [set_mem w_mem]. rewrite Nat.eqb_refl. reflexivity.
Qed.

(** The hypothesis on texts of numbers is met, and a value with six decimals is kept. *)
Example left_out_kept : exists w w',
  (forall q, (fun _ => true) (Num q) = true /\ ex_vars (Num q) = [] /\ forall e, (ex_val (Num q) e == q)%Q) /\
  (w_mem Ex w 0 == 123456 # 1000000)%Q /\ declare_opt Ex (fun _ => true) ex_vars ex_val (fun q => q) Num w 3 None KDouble 0 = (w', Done) /\
  (w_mem Ex w' 0 == w_mem Ex w 0)%Q.
Proof.
  exists (mkW Ex (fun _ => obj0 Ex) [] [] (fun _ => 123456 # 1000000)%Q). eexists. split; [intros q; split; [reflexivity|split; [reflexivity|intros e; reflexivity]]|].
  split; [reflexivity|]. split; [reflexivity|]. reflexivity.
Qed.
