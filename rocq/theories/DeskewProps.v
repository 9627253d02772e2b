(** C49, C104-C107: FilterDeskew. *)
From Coq Require Import String Lqa.
From Verif Require Import Base FilterModel FilterSpec FilterProofs DeskewModel.
Open Scope nat_scope.

Section DeskewP.
Variable so3exp : Q3 -> Rot.
Variable find_closest : list (Q * Rot) -> Q -> option Rot.
Notation prelude := (prelude so3exp find_closest).
Notation deskew := (deskew so3exp find_closest).
Notation correct := (correct so3exp find_closest).

(** ** Specification *)

(** the output point of an input point: corrected coordinates and the optional fields both
    clouds have; nothing at all for a point at the origin *)
Definition at_origin (p : Pt) : Prop := (px p == 0 /\ py p == 0 /\ pz p == 0)%Q.
Definition output_of (ci co : Cls) (corr : Q -> Q3 -> Q3) (p : Pt) (q : Pt) : Prop :=
  (~ at_origin p ->
     (px q, py q, pz q) = corr (p_time p) (px p, py p, pz p) /\
     p_int q = (if has_I ci && has_I co then p_int p else 0%Q) /\
     p_ring q = (if has_R ci && has_R co then p_ring p else 0%Z) /\
     p_time q = (if has_T ci && has_T co then p_time p else 0%Q)) /\
  (at_origin p -> q = blank).
(** the output layer before the call: it is created if it does not exist *)
Definition output_before (c : DCfg) (m : Layers) : option Cloud :=
  match lfind m (dk_out c) with Some (LPts oc) => Some oc | Some _ => None | None => option_map (fun k => mkCloud k []) (dk_class c) end.
(** the points of the input layer *)
Definition input_before (c : DCfg) (m : Layers) : option Cloud :=
  match lfind m (dk_in c) with Some l => map_to_points l | None => None end.

(** ** The loop *)
Definition solo (corr : Q -> Q3 -> Q3) (p : Pt) (x : list Acc * Regs * Pt) : list Acc * Regs * Pt :=
  let '(rem, r, q) := x in match rem with [] => x | a :: rest => access corr a rest r p q end.
Fixpoint iter (k : nat) (corr : Q -> Q3 -> Q3) (p : Pt) (x : list Acc * Regs * Pt) : list Acc * Regs * Pt :=
  match k with O => x | S k => solo corr p (iter k corr p x) end.
Lemma iter_plus corr p x a b : iter (a + b) corr p x = iter a corr p (iter b corr p x).
Proof. induction a as [|a IH]; [reflexivity|]. cbn [Nat.add iter]. rewrite IH. reflexivity. Qed.
Lemma iter_done corr p x k : fst (fst x) = [] -> iter k corr p x = x.
Proof. intros D. induction k as [|k IH]; [reflexivity|]. cbn [iter]. rewrite IH. destruct x as [[rem r] q]. cbn [fst] in D. subst rem. reflexivity. Qed.
Lemma iter_unique corr p x a b : fst (fst (iter a corr p x)) = [] -> fst (fst (iter b corr p x)) = [] -> iter a corr p x = iter b corr p x.
Proof. intros A B. rewrite <- (iter_done corr p (iter a corr p x) b A), <- (iter_done corr p (iter b corr p x) a B), <- !iter_plus, Nat.add_comm. reflexivity. Qed.

Lemma zero_spec r : is_zero r = true <-> (rx r == 0 /\ ry r == 0 /\ rz r == 0)%Q.
Proof. unfold is_zero. rewrite !andb_true_iff, !Qeq_bool_iff. tauto. Qed.

Lemma solo_result ci co corr p : exists rem r q, iter 14 corr p (program ci co, regs0, blank) = (rem, r, q) /\ rem = [] /\ output_of ci co corr p q.
Proof.
  unfold output_of.
  assert (E3 : iter 3 corr p (program ci co, regs0, blank) = (skipn 3 (program ci co), mkRegs (px p) (py p) (pz p) 0 0 0, blank)) by reflexivity.
  destruct (is_zero (mkRegs (px p) (py p) (pz p) 0 0 0)) eqn:Z.
  - assert (O := proj1 (zero_spec _) Z). cbn [rx ry rz] in O.
    exists [], (mkRegs (px p) (py p) (pz p) 0 0 0), blank. split; [|split; [reflexivity|split; [intros N; exfalso; apply N, O|reflexivity]]].
    change 14 with (10 + (1 + 3)). rewrite !iter_plus, E3. unfold program. cbn [app skipn]. cbn [iter]. cbn [solo access]. rewrite Z.
    apply (iter_done corr p ([], mkRegs (px p) (py p) (pz p) 0 0 0, blank) 10). reflexivity.
  - assert (O : ~ at_origin p) by (intros H; apply Bool.not_true_iff_false in Z; apply Z, zero_spec; exact H).
    set (tail := (if has_I ci && has_I co then [RdI; WrI] else []) ++ (if has_R ci && has_R co then [RdR; WrR] else []) ++ (if has_T ci && has_T co then [RdT; WrT] else [])).
    set (k := corr (p_time p) (px p, py p, pz p)).
    assert (E8 : iter 8 corr p (program ci co, regs0, blank) = (tail, mkRegs (px p) (py p) (pz p) (p_time p) 0 0, mkPt (fst (fst k)) (snd (fst k)) (snd k) 0 0 0)).
    { change 8 with (4 + (1 + 3)). rewrite !iter_plus, E3. unfold program. fold tail. cbn [app skipn]. cbn [iter]. cbn [solo access]. rewrite Z. reflexivity. }
    change 14 with (6 + 8). rewrite iter_plus, E8. clear E8 E3 Z. unfold tail. clear tail.
    destruct (has_I ci && has_I co), (has_R ci && has_R co), (has_T ci && has_T co);
    (do 3 eexists; split; [reflexivity|]); (split; [reflexivity|]);
    (split; [intros _; cbn [px py pz p_int p_ring p_time ri rr rt]; split; [destruct k as [[? ?] ?]; reflexivity|auto]|intros H; contradiction]).
Qed.

Lemma upd_nth {A} (l : list A) i x j : i < List.length l -> nth_error (upd l i x) j = if i =? j then Some x else nth_error l j.
Proof.
  revert i j. induction l as [|a l IH]; intros i j L; [simpl in L; lia|].
  destruct i, j; cbn [upd nth_error Nat.eqb]; try reflexivity. apply IH. simpl in L. lia.
Qed.
Lemma upd_length {A} (l : list A) i x : List.length (upd l i x) = List.length l.
Proof. revert i. induction l as [|a l IH]; intros [|i]; cbn [upd List.length]; auto. Qed.

(** the job is well formed: the output has room, and the input points are not output points *)
Definition good_job (j : Job) (mem : list Pt) (ic : list Pt) : Prop :=
  List.length mem = jb_n0 j + jb_n j /\ List.length ic = jb_n j /\
  (forall i, i < jb_n j -> src_at j mem i = nth_error ic i) /\ (jb_src j = None -> jb_n j <= jb_n0 j).

Definition loop_inv (j : Job) (mem0 : list Pt) (ic : list Pt) (s : LState) : Prop :=
  List.length (ls_mem s) = jb_n0 j + jb_n j /\
  (forall k, k < jb_n0 j -> nth_error (ls_mem s) k = nth_error mem0 k) /\
  (forall i, i < jb_n j -> src_at j (ls_mem s) i = nth_error ic i) /\
  (forall i p, nth_error ic i = Some p -> exists k q, nth_error (ls_mem s) (jb_n0 j + i) = Some q /\
     iter k (jb_corr j) p (program (jb_ci j) (jb_co j), regs0, blank) = (fst (ls_its s i), snd (ls_its s i), q)).

Lemma loop_step j mem0 ic s s' : List.length ic = jb_n j -> (jb_src j = None -> jb_n j <= jb_n0 j) -> loop_inv j mem0 ic s -> lstep j s (Some s') -> loop_inv j mem0 ic s'.
Proof.
  intros LI AL (L & KEEP & SRC & IT) ST. inversion ST as [s0 i a rest r p q rest' r' q' HI ITS SP SQ AC|]; subst. clear ST.
  assert (IB : jb_n0 j + i < List.length (ls_mem s)) by lia.
  unfold loop_inv. cbn [ls_mem ls_its]. rewrite upd_length.
  split; [exact L|]. split; [|split].
  - intros k HK. rewrite upd_nth by exact IB. destruct (Nat.eqb_spec (jb_n0 j + i) k); [lia|apply KEEP, HK].
  - intros k HK. rewrite <- (SRC k HK). unfold src_at. destruct (jb_src j) eqn:JS; [reflexivity|]. rewrite upd_nth by exact IB. specialize (AL eq_refl). destruct (Nat.eqb_spec (jb_n0 j + i) k); [lia|reflexivity].
  - intros i2 p2 EP. rewrite upd_nth by exact IB. destruct (IT i2 p2 EP) as (k & q2 & NQ & K).
    destruct (Nat.eqb_spec i2 i) as [EQ|NE].
    + rewrite EQ, Nat.eqb_refl. exists (S k), q'. split; [reflexivity|]. cbn [iter]. rewrite K, EQ, ITS. cbn [fst snd solo].
      rewrite EQ in NQ. rewrite SQ in NQ. injection NQ as <-. rewrite EQ in EP. rewrite (SRC i HI) in SP. rewrite SP in EP. injection EP as <-. exact AC.
    + exists k, q2. destruct (Nat.eqb_spec (jb_n0 j + i) (jb_n0 j + i2)); [lia|]. split; [exact NQ|exact K].
Qed.
Lemma loop_steps j mem0 ic s r : List.length ic = jb_n j -> (jb_src j = None -> jb_n j <= jb_n0 j) -> loop_inv j mem0 ic s -> lsteps j s r -> exists s', r = Some s' /\ loop_inv j mem0 ic s'.
Proof.
  intros LI AL I R. induction R as [s|s s' r ST R IH|s ST].
  - eauto.
  - apply IH. exact (loop_step _ _ _ _ _ LI AL I ST).
  - exfalso. destruct I as (L & KEEP & SRC & IT). inversion ST as [|s0 i a rest r HI ITS BAD]; subst.
    destruct (nth_error ic i) as [p|] eqn:EP; [|apply nth_error_None in EP; lia].
    destruct (IT i p EP) as (k & q & NQ & _). rewrite (SRC i HI), EP, NQ in BAD. destruct BAD; discriminate.
Qed.
Lemma loop_start j mem0 ic base : good_job j mem0 ic -> mem0 = base ++ repeat blank (jb_n j) -> List.length base = jb_n0 j -> loop_inv j mem0 ic (start j mem0).
Proof.
  intros (L & LI & SRC & AL) EM LB. unfold loop_inv, start. cbn [ls_mem ls_its].
  split; [exact L|]. split; [reflexivity|]. split; [exact SRC|]. intros i p EP. exists 0, blank. split; [|reflexivity].
  assert (i < jb_n j) by (rewrite <- LI; apply nth_error_Some; rewrite EP; discriminate).
  rewrite EM, nth_error_app2 by lia. rewrite LB. replace (jb_n0 j + i - jb_n0 j) with i by lia.
  rewrite (nth_error_nth' _ blank) by (rewrite repeat_length; assumption). rewrite nth_repeat. reflexivity.
Qed.
Lemma loop_end j mem0 ic s : loop_inv j mem0 ic s -> List.length ic = jb_n j -> finished j s ->
  exists new, ls_mem s = firstn (jb_n0 j) mem0 ++ new /\ Forall2 (output_of (jb_ci j) (jb_co j) (jb_corr j)) ic new.
Proof.
  intros (L & KEEP & _ & IT) LI FIN. exists (skipn (jb_n0 j) (ls_mem s)). split.
  - rewrite <- (firstn_skipn (jb_n0 j) (ls_mem s)) at 1. f_equal.
    assert (EX : forall (a b : list Pt), (forall k, k < jb_n0 j -> nth_error a k = nth_error b k) -> firstn (jb_n0 j) a = firstn (jb_n0 j) b).
    { clear. generalize (jb_n0 j). intros n. induction n as [|n IH]; intros a b H; [reflexivity|].
      assert (H0 := H 0 ltac:(lia)). destruct a as [|x a], b as [|y b]; cbn [nth_error] in H0; try discriminate H0; [reflexivity|]. injection H0 as ->.
      cbn [firstn]. f_equal. apply IH. intros k HK. exact (H (S k) ltac:(lia)). }
    apply EX, KEEP.
  - assert (LN : List.length (skipn (jb_n0 j) (ls_mem s)) = List.length ic) by (rewrite skipn_length, L; lia).
    assert (F2 : forall (P : Pt -> Pt -> Prop) (a b : list Pt), List.length b = List.length a -> (forall i x y, nth_error a i = Some x -> nth_error b i = Some y -> P x y) -> Forall2 P a b).
    { clear. intros P a. induction a as [|x a IH]; intros [|y b] LL H; try discriminate LL; constructor; [exact (H 0 x y eq_refl eq_refl)|]. apply IH; [injection LL as LL; exact LL|]. intros i. exact (H (S i)). }
    apply F2; [exact LN|]. intros i p q EP EQ.
    assert (SK : nth_error (skipn (jb_n0 j) (ls_mem s)) i = nth_error (ls_mem s) (jb_n0 j + i)).
    { clear. generalize (jb_n0 j), (ls_mem s). intros n. induction n as [|n IH]; intros l; [reflexivity|]. destruct l; [destruct i; reflexivity|]. cbn [skipn Nat.add nth_error]. apply IH. }
    rewrite SK in EQ. destruct (IT i p EP) as (k & q' & NQ & K). rewrite EQ in NQ. injection NQ as <-.
    assert (HI : i < jb_n j) by (rewrite <- LI; apply nth_error_Some; rewrite EP; discriminate).
    destruct (solo_result (jb_ci j) (jb_co j) (jb_corr j) p) as (rem & r & q' & E14 & -> & OUT).
    assert (U := iter_unique (jb_corr j) p (program (jb_ci j) (jb_co j), regs0, blank) k 14). rewrite K, E14 in U. cbn [fst] in U. specialize (U (FIN i HI) eq_refl).
    injection U as _ _ ->. exact OUT.
Qed.

(** ** What the call does up to the loop *)
Lemma goc_class c m : output_before c m <> None -> dk_out c <> EmptyString ->
  exists oc m1, output_before c m = Some oc /\ get_or_create_class (dk_out c) (dk_class c) m = (m1, Val true) /\
  lfind m1 (dk_out c) = Some (LPts oc) /\ forall n, n <> dk_out c -> lfind m1 n = lfind m n.
Proof.
  unfold output_before, get_or_create_class, get_or_create. intros NN NE.
  assert (B : String.eqb (dk_out c) "" = false) by (apply String.eqb_neq, NE).
  destruct (lfind m (dk_out c)) as [[oc| |]|] eqn:L; try contradiction.
  - exists oc, m. destruct (dk_class c); rewrite B; auto.
  - destruct (dk_class c) as [k|]; [|contradiction]. cbn [option_map]. rewrite B. do 2 eexists. split; [reflexivity|]. split; [reflexivity|].
    rewrite lfind_lset, String.eqb_refl. split; [reflexivity|]. intros n N. rewrite lfind_lset. destruct (String.eqb_spec (dk_out c) n); [congruence|reflexivity].
Qed.
Lemma goc_fails c m : output_before c m = None -> exists m1, get_or_create_class (dk_out c) (dk_class c) m = (m1, Exc).
Proof.
  unfold output_before, get_or_create_class, get_or_create. intros NN.
  destruct (dk_class c) as [k|], (String.eqb (dk_out c) "") ; try (eexists; reflexivity); destruct (lfind m (dk_out c)) as [[oc| |]|]; try discriminate NN; eexists; reflexivity.
Qed.

(** the checks at the beginning are passed *)
Definition usable_call (c : DCfg) (m : Layers) (ic oc : Cloud) : Prop :=
  dk_realized c = true /\ dk_in c <> EmptyString /\ dk_out c <> EmptyString /\
  input_before c m = Some ic /\ cl_pts ic <> [] /\ output_before c m = Some oc.

Lemma prelude_head c m ic oc : usable_call c m ic oc ->
  exists m1, lfind m1 (dk_out c) = Some (LPts oc) /\ (forall n, n <> dk_out c -> lfind m1 n = lfind m n) /\
  prelude c m = prelude_body so3exp find_closest c ic m1 /\ (dk_in c = dk_out c -> ic = oc).
Proof.
  intros (RZ & NI & NO & IN & NE & OUT).
  destruct (goc_class c m) as (oc' & m1 & E & G & F & O); [congruence|exact NO|]. rewrite OUT in E. injection E as <-.
  exists m1. split; [exact F|]. split; [exact O|].
  assert (IN1 : match lfind m1 (dk_in c) with Some l => map_to_points l | None => None end = Some ic).
  { unfold input_before in IN. destruct (String.eqb_spec (dk_in c) (dk_out c)) as [EQ|NQ]; [|rewrite (O _ NQ); exact IN].
    unfold output_before in OUT. rewrite EQ in IN. rewrite EQ, F. destruct (lfind m (dk_out c)) as [[o| |]|]; try discriminate. injection OUT as ->. exact IN. }
  split.
  - unfold DeskewModel.prelude. rewrite RZ. unfold massert. rewrite (proj2 (String.eqb_neq _ _) NO), (proj2 (String.eqb_neq _ _) NI). cbn [negb].
    unfold bnd at 1. cbn [ret]. unfold bnd at 1. cbn [ret]. unfold bnd at 1. rewrite G. unfold bnd at 1. cbn [ret].
    destruct (lfind m1 (dk_in c)) as [[o|o|]|]; try discriminate IN1; rewrite IN1; destruct (cl_pts ic); try contradiction; reflexivity.
  - intros EQ. rewrite EQ, F in IN1. injection IN1 as ->. reflexivity.
Qed.

(** the model of motion the call uses *)
Inductive corr_of (c : DCfg) (ic : Cloud) : (Q -> Q3 -> Q3) -> Prop :=
| co_twist : forall tw, dk_precise c = false -> dk_twist c = Some tw -> corr_of c ic (correct false None tw)
| co_poses : forall recon mn mx tr, dk_precise c = true -> dk_source c = Some recon ->
    min_max (map p_time (cl_pts ic)) = (mn, mx) -> recon (mx - mn)%Q = Val tr ->
    corr_of c ic (correct true (match tr with [] => None | _ => Some tr end) ((0, 0, 0)%Q, (0, 0, 0)%Q)).

Lemma body_job c m1 ic oc : has_T (cl_cls ic) = true -> dk_skip c = false -> lfind m1 (dk_out c) = Some (LPts oc) ->
  forall corr, corr_of c ic corr ->
  prelude_body so3exp find_closest c ic m1 =
   (lset m1 (dk_out c) (LPts (mkCloud (cl_cls oc) (cl_pts oc ++ repeat blank (List.length (cl_pts ic))))),
    Val (Some (mkJob (List.length (cl_pts oc)) (List.length (cl_pts ic)) (if String.eqb (dk_in c) (dk_out c) then None else Some (cl_pts ic)) (cl_cls ic) (cl_cls oc) corr))).
Proof.
  intros HT SK F corr CO. unfold prelude_body. rewrite HT, SK. cbn [negb orb]. rewrite F.
  destruct CO as [tw P T|recon mn mx tr P S MM R].
  - rewrite P, T. reflexivity.
  - rewrite P, S, MM, R. destruct tr; reflexivity.
Qed.
Lemma job_good c ic oc corr m1 :
  lfind m1 (dk_out c) = Some (LPts oc) -> (dk_in c = dk_out c -> ic = oc) ->
  let j := mkJob (List.length (cl_pts oc)) (List.length (cl_pts ic)) (if String.eqb (dk_in c) (dk_out c) then None else Some (cl_pts ic)) (cl_cls ic) (cl_cls oc) corr in
  good_job j (cl_pts oc ++ repeat blank (List.length (cl_pts ic))) (cl_pts ic).
Proof.
  intros F SAME j. unfold good_job, j, src_at. cbn [jb_n0 jb_n jb_src]. rewrite app_length, repeat_length.
  split; [reflexivity|]. split; [reflexivity|].
  destruct (String.eqb_spec (dk_in c) (dk_out c)) as [EQ|NQ]; [|split; [reflexivity|discriminate]].
  rewrite (SAME EQ). split; [|intros _; lia]. intros i HI. apply nth_error_app1, HI.
Qed.

(** every schedule can be finished *)
Fixpoint todo (j : Job) (n : nat) (s : LState) : nat := match n with O => 0 | S n => List.length (fst (ls_its s n)) + todo j n s end.
Lemma access_shorter corr a rest r p q : List.length (fst (fst (access corr a rest r p q))) < List.length (a :: rest).
Proof. destruct a; cbn [access fst List.length]; try lia. destruct (is_zero r); cbn [List.length]; lia. Qed.
Lemma todo_step j n s s' i : (forall k, k <> i -> ls_its s' k = ls_its s k) -> List.length (fst (ls_its s' i)) < List.length (fst (ls_its s i)) ->
  todo j n s' <= todo j n s /\ (i < n -> todo j n s' < todo j n s).
Proof.
  intros K L. induction n as [|n [IH1 IH2]]; [split; [reflexivity|lia]|]. cbn [todo].
  destruct (Nat.eq_dec n i) as [EQ|NE]; [rewrite EQ in *; split; [lia|intros _; lia]|]. rewrite (K n NE). split; [lia|]. intros H. specialize (IH2 ltac:(lia)). lia.
Qed.
Lemma can_finish j mem0 ic : List.length ic = jb_n j -> (jb_src j = None -> jb_n j <= jb_n0 j) ->
  forall s, loop_inv j mem0 ic s -> exists s', lsteps j s (Some s') /\ finished j s'.
Proof.
  intros LI AL s. remember (todo j (jb_n j) s) as k. revert s Heqk. induction k as [k IH] using lt_wf_ind. intros s EK I.
  assert (DEC : forall n, (forall i, i < n -> fst (ls_its s i) = []) \/ exists i, i < n /\ fst (ls_its s i) <> []).
  { induction n as [|n [D|(i & L & D)]]; [left; lia| |right; exists i; split; [lia|exact D]].
    destruct (fst (ls_its s n)) eqn:E; [left|right; exists n; split; [lia|congruence]]. intros i L. destruct (Nat.eq_dec i n) as [->|]; [exact E|apply D; lia]. }
  destruct (DEC (jb_n j)) as [D|(i & HI & D)]; [exists s; split; [constructor|exact D]|].
  destruct (ls_its s i) as [rem r] eqn:EI. cbn [fst] in D. destruct rem as [|a rest]; [congruence|].
  assert (I' := I). destruct I' as (L & KEEP & SRC & IT). destruct (nth_error ic i) as [p|] eqn:EP; [|apply nth_error_None in EP; lia].
  destruct (IT i p EP) as (kk & q & NQ & _).
  destruct (access (jb_corr j) a rest r p q) as [[rest' r'] q'] eqn:AC.
  assert (ST : lstep j s (Some (mkLS (upd (ls_mem s) (jb_n0 j + i) q') (fun k => if k =? i then (rest', r') else ls_its s k)))).
  { eapply ls_access; eauto. rewrite (SRC i HI). exact EP. }
  assert (T := todo_step j (jb_n j) s (mkLS (upd (ls_mem s) (jb_n0 j + i) q') (fun k => if k =? i then (rest', r') else ls_its s k)) i).
  cbn [ls_its] in T. rewrite Nat.eqb_refl, EI in T. cbn [fst] in T.
  assert (SH := access_shorter (jb_corr j) a rest r p q). rewrite AC in SH. cbn [fst] in SH.
  destruct T as [_ T]; [intros k0 N; destruct (Nat.eqb_spec k0 i); [contradiction|reflexivity]|exact SH|].
  edestruct (IH _ ltac:(rewrite EK; exact (T HI)) _ eq_refl) as (s' & R & F); [exact (loop_step _ _ _ _ _ LI AL I ST)|].
  exists s'. split; [eapply lss_step; eassumption|exact F].
Qed.

Lemma lfind_same m n l : lfind (lset m n l) n = Some l.
Proof. rewrite lfind_lset, String.eqb_refl. reflexivity. Qed.
Lemma lfind_diff m n k l : k <> n -> lfind (lset m n l) k = lfind m k.
Proof. intros N. rewrite lfind_lset. destruct (String.eqb_spec n k); [congruence|reflexivity]. Qed.

(** C49: points with time, and a motion model: every schedule of the loop ends well, and the output
    layer has got exactly one point for each input point, in order; nothing else has changed *)
Theorem C49_one_corrected_point_per_input_point : forall c m ic oc corr m' r,
  usable_call c m ic oc -> has_T (cl_cls ic) = true -> dk_skip c = false -> corr_of c ic corr ->
  deskew c m m' r ->
  r = Val tt /\
  (exists new, lfind m' (dk_out c) = Some (LPts (mkCloud (cl_cls oc) (cl_pts oc ++ new))) /\
     Forall2 (output_of (cl_cls ic) (cl_cls oc) corr) (cl_pts ic) new) /\
  forall n, n <> dk_out c -> lfind m' n = lfind m n.
Proof.
  intros c m ic oc corr m' r U HT SK CO D.
  destruct (prelude_head c m ic oc U) as (m1 & F & OTH & PR & SAME).
  assert (BJ := body_job c m1 ic oc HT SK F corr CO). rewrite BJ in PR. clear BJ.
  assert (G := job_good c ic oc corr m1 F SAME). cbv zeta in G.
  set (j := mkJob _ _ _ _ _ corr) in *. set (mem0 := cl_pts oc ++ repeat blank (List.length (cl_pts ic))) in *.
  assert (I0 : loop_inv j mem0 (cl_pts ic) (start j mem0)) by (apply (loop_start j mem0 (cl_pts ic) (cl_pts oc)); [exact G|reflexivity|reflexivity]).
  destruct G as (_ & LI & _ & AL).
  destruct D as [m' E|m' E|m' E|m' E|m2 j2 oc2 s E F2 R FIN|m2 j2 oc2 E F2 R]; rewrite PR in E; try discriminate E; injection E as <- <-;
    rewrite lfind_same in F2; injection F2 as <-; cbn [cl_pts cl_cls] in *;
    destruct (loop_steps j mem0 (cl_pts ic) _ _ LI AL I0 R) as (s' & ES & I); [|discriminate ES]. injection ES as <-.
  split; [reflexivity|]. destruct (loop_end j mem0 (cl_pts ic) s I LI FIN) as (new & EM & F2). split.
  - exists new. rewrite lfind_same, EM. split; [|exact F2]. do 3 f_equal. unfold mem0, j. cbn [jb_n0]. rewrite firstn_app, Nat.sub_diag, firstn_O, app_nil_r, firstn_all. reflexivity.
  - intros n N. rewrite !lfind_diff by exact N. apply OTH, N.
Qed.
(** and there is such a run *)
Theorem C49_completes : forall c m ic oc corr,
  usable_call c m ic oc -> has_T (cl_cls ic) = true -> dk_skip c = false -> corr_of c ic corr ->
  exists m', deskew c m m' (Val tt).
Proof.
  intros c m ic oc corr U HT SK CO.
  destruct (prelude_head c m ic oc U) as (m1 & F & OTH & PR & SAME).
  assert (BJ := body_job c m1 ic oc HT SK F corr CO). rewrite BJ in PR. clear BJ.
  assert (G := job_good c ic oc corr m1 F SAME). cbv zeta in G.
  set (j := mkJob _ _ _ _ _ corr) in *. set (mem0 := cl_pts oc ++ repeat blank (List.length (cl_pts ic))) in *.
  assert (I0 : loop_inv j mem0 (cl_pts ic) (start j mem0)) by (apply (loop_start j mem0 (cl_pts ic) (cl_pts oc)); [exact G|reflexivity|reflexivity]).
  destruct G as (_ & LI & _ & AL). destruct (can_finish j mem0 (cl_pts ic) LI AL _ I0) as (s & R & FIN).
  eexists. eapply dk_loop; [exact PR|apply lfind_same|exact R|exact FIN].
Qed.

(** C49: skipping (skip_deskew, or no times and silently_ignore_no_timestamps) copies every point, with the fields the
    output has, unchanged and in order *)
Theorem C49_skipping_copies_every_point : forall c m ic oc m' r,
  usable_call c m ic oc -> dk_skip c = true \/ (has_T (cl_cls ic) = false /\ dk_silent c = true) ->
  deskew c m m' r ->
  r = Val tt /\ lfind m' (dk_out c) = Some (LPts (mkCloud (cl_cls oc) (cl_pts oc ++ map (conv (cl_cls oc)) (cl_pts ic)))) /\
  forall n, n <> dk_out c -> lfind m' n = lfind m n.
Proof.
  intros c m ic oc m' r U SK D.
  destruct (prelude_head c m ic oc U) as (m1 & F & OTH & PR & SAME).
  destruct (route_list_grown (cl_pts ic) (fun _ => dk_out c) m1) as (m2 & RL & GR); [intros p _ _; eexists; exact F|].
  assert (B : prelude_body so3exp find_closest c ic m1 = (m2, Val None)).
  { unfold prelude_body. destruct SK as [S|[NT S]].
    - rewrite S, !orb_true_r. unfold copy_all, bnd. rewrite RL. reflexivity.
    - rewrite NT, S. cbn [negb orb]. unfold copy_all, bnd. rewrite RL. reflexivity. }
  rewrite B in PR. clear B. destruct U as (_ & _ & NO & _).
  destruct D as [m' E|m' E|m' E|m' E|m3 j2 oc2 s E F2 R FIN|m3 j2 oc2 E F2 R]; rewrite PR in E; try discriminate E. injection E as <-.
  split; [reflexivity|]. split.
  - rewrite GR. unfold grown. rewrite F, (proj2 (String.eqb_neq _ _) NO). do 5 f_equal. unfold sent. clear. induction (cl_pts ic) as [|p l IH]; [reflexivity|]. cbn [filter]. rewrite String.eqb_refl in *. f_equal. exact IH.
  - intros n N. rewrite GR. unfold grown. rewrite (OTH n N). destruct (lfind m n) as [[o| |]|]; try reflexivity. destruct (String.eqb n ""); [reflexivity|].
    assert (S0 : sent (fun _ => dk_out c) n (cl_pts ic) = []).
    { unfold sent. clear - N. induction (cl_pts ic) as [|p l IH]; [reflexivity|]. cbn [filter]. destruct (String.eqb_spec (dk_out c) n); [congruence|exact IH]. }
    rewrite S0, app_nil_r. destruct o; reflexivity.
Qed.

(** C49: an input layer without points changes nothing but that the output layer exists *)
Theorem C49_empty_input : forall c m ic oc m' r,
  dk_realized c = true -> dk_in c <> EmptyString -> dk_out c <> EmptyString ->
  input_before c m = Some ic -> cl_pts ic = [] -> output_before c m = Some oc ->
  deskew c m m' r ->
  r = Val tt /\ lfind m' (dk_out c) = Some (LPts oc) /\ forall n, n <> dk_out c -> lfind m' n = lfind m n.
Proof.
  intros c m ic oc m' r RZ NI NO IN NE OUT D.
  destruct (goc_class c m) as (oc' & m1 & E & G & F & O); [congruence|exact NO|]. rewrite OUT in E. injection E as <-.
  assert (IN1 : match lfind m1 (dk_in c) with Some l => map_to_points l | None => None end = Some ic).
  { unfold input_before in IN. destruct (String.eqb_spec (dk_in c) (dk_out c)) as [EQ|NQ]; [|rewrite (O _ NQ); exact IN].
    unfold output_before in OUT. rewrite EQ in IN. rewrite EQ, F. destruct (lfind m (dk_out c)) as [[o| |]|]; try discriminate. injection OUT as ->. exact IN. }
  assert (PR : prelude c m = (m1, Val None)).
  { unfold DeskewModel.prelude. rewrite RZ. unfold massert. rewrite (proj2 (String.eqb_neq _ _) NO), (proj2 (String.eqb_neq _ _) NI). cbn [negb].
    unfold bnd at 1. cbn [ret]. unfold bnd at 1. cbn [ret]. unfold bnd at 1. rewrite G. unfold bnd at 1. cbn [ret].
    destruct (lfind m1 (dk_in c)) as [[o|o|]|]; try discriminate IN1; rewrite IN1, NE; reflexivity. }
  destruct D as [m' E|m' E|m' E|m' E|m3 j2 oc2 s E F2 R FIN|m3 j2 oc2 E F2 R]; rewrite PR in E; try discriminate E. injection E as <-. auto.
Qed.

(** C49: two different iterations never touch the same point, unless both only read it (they never do) *)
Definition reads (j : Job) (i : nat) (cell : nat) : Prop := jb_src j = None /\ cell = i.
Definition writes (j : Job) (i : nat) (cell : nat) : Prop := cell = jb_n0 j + i.
Theorem C49_iterations_never_conflict : forall c m ic oc corr m1 j,
  usable_call c m ic oc -> has_T (cl_cls ic) = true -> dk_skip c = false -> corr_of c ic corr ->
  prelude c m = (m1, Val (Some j)) ->
  forall i i' cell, i < jb_n j -> i' < jb_n j -> i <> i' -> writes j i cell -> ~ (reads j i' cell \/ writes j i' cell).
Proof.
  intros c m ic oc corr m1 j U HT SK CO PR i i' cell HI HI' NE W.
  destruct (prelude_head c m ic oc U) as (m2 & F & OTH & PR2 & SAME).
  rewrite (body_job c m2 ic oc HT SK F corr CO), PR in PR2. injection PR2 as -> ->.
  assert (G := job_good c ic oc corr m2 F SAME). cbv zeta in G. destruct G as (_ & _ & _ & AL).
  unfold writes in *. cbn [jb_n jb_n0] in *. intros [[S E]|E]; [specialize (AL S)|]; lia.
Qed.

(** C49: with a constant twist, the corrected point is exp(w t) p + v t *)
Theorem C49_constant_twist : forall c ic corr vx vy vz wx wy wz t p, corr_of c ic corr ->
  dk_precise c = false -> dk_twist c = Some ((vx, vy, vz), (wx, wy, wz)) ->
  let '(rx, ry, rz) := so3exp ((wx * t)%Q, (wy * t)%Q, (wz * t)%Q) p in
  corr t p = ((rx + vx * t)%Q, (ry + vy * t)%Q, (rz + vz * t)%Q).
Proof.
  intros c ic corr vx vy vz wx wy wz t p [tw P T|recon mn mx tr P S MM R] PR TW; [|congruence].
  rewrite TW in T. injection T as <-. unfold DeskewModel.correct. cbn [fst snd scale3]. destruct (so3exp _ p) as [[a b] d]. reflexivity.
Qed.

(** C104 (refuted): a point at the origin keeps its intensity, ring and time, as any other point does *)
Theorem C104_points_at_the_origin_lose_their_fields_refuted : forall c m ic oc corr m' r k p,
  usable_call c m ic oc -> has_T (cl_cls ic) = true -> dk_skip c = false -> corr_of c ic corr ->
  deskew c m m' r -> nth_error (cl_pts ic) k = Some p -> at_origin p ->
  exists oc', lfind m' (dk_out c) = Some (LPts oc') /\ nth_error (cl_pts oc') (List.length (cl_pts oc) + k) = Some blank.
Proof.
  intros c m ic oc corr m' r k p U HT SK CO D EP AO.
  destruct (C49_one_corrected_point_per_input_point c m ic oc corr m' r U HT SK CO D) as (_ & (new & F & F2) & _).
  eexists. split; [exact F|]. cbn [cl_pts]. rewrite nth_error_app2 by lia. replace (_ + k - _) with k by lia.
  clear - F2 EP AO. revert k EP. induction F2 as [|x y l l' [_ O] F2 IH]; intros k EP; destruct k; cbn [nth_error] in *; try discriminate EP.
  - injection EP as ->. rewrite (O AO). reflexivity.
  - apply IH, EP.
Qed.

(** C105 (refuted): with precise local velocities the motion model compensates translations, and without data in
    the buffer it falls back to the constant twist.  In fact it never moves a point by a translation, and without data
    it only turns points by exp(0), whatever twist is configured *)
Theorem C105_precise_mode_ignores_linear_velocity_refuted : forall c ic corr, corr_of c ic corr -> dk_precise c = true ->
  (exists tr, (forall t p, corr t p = match find_closest tr t with Some r => add3 (r p) (scale3 (0, 0, 0)%Q t) | None => p end)) \/
  (forall t p, corr t p = add3 (so3exp (scale3 (0, 0, 0)%Q t) p) (scale3 (0, 0, 0)%Q t)).
Proof.
  intros c ic corr [tw P T|recon mn mx tr P S MM R] PR; [congruence|]. destruct tr as [|x tr]; [right; reflexivity|left].
  exists (x :: tr). intros t p. unfold DeskewModel.correct. cbn [fst]. reflexivity.
Qed.
(** the twist does not matter *)
Theorem C105_precise_mode_ignores_the_twist_refuted : forall c ic corr tw,
  corr_of c ic corr -> dk_precise c = true ->
  corr_of (mkDk (dk_in c) (dk_out c) (dk_class c) (dk_silent c) (dk_skip c) (dk_precise c) tw (dk_source c) (dk_realized c)) ic corr.
Proof. intros c ic corr tw [tw0 P T|recon mn mx tr P S MM R] PR; [congruence|]. econstructor; cbn; eassumption. Qed.

(** C106: a call without motion model throws *)
Theorem C106_no_motion_model_throws : forall c m ic oc m' r,
  usable_call c m ic oc -> has_T (cl_cls ic) = true -> dk_skip c = false ->
  (if dk_precise c then dk_source c = None else dk_twist c = None) -> deskew c m m' r -> r = Exc.
Proof.
  intros c m ic oc m' r U HT SK NOM D.
  destruct (prelude_head c m ic oc U) as (m1 & F & OTH & PR & SAME).
  unfold prelude_body in PR. rewrite HT, SK in PR. cbn [negb orb] in PR. rewrite F in PR.
  destruct (dk_precise c); rewrite NOM in PR; destruct D as [m' E|m' E|m' E|m' E|m3 j2 oc2 s E F2 R FIN|m3 j2 oc2 E F2 R]; rewrite PR in E; try discriminate E; reflexivity.
Qed.
(** C106: so does a call with points but without times, unless told to ignore that; nothing changes then but that the output layer exists *)
Theorem C106_no_times_throws : forall c m ic oc m' r,
  usable_call c m ic oc -> has_T (cl_cls ic) = false -> dk_skip c = false -> dk_silent c = false ->
  deskew c m m' r -> r = Exc /\ lfind m' (dk_out c) = Some (LPts oc) /\ forall n, n <> dk_out c -> lfind m' n = lfind m n.
Proof.
  intros c m ic oc m' r U HT SK SI D.
  destruct (prelude_head c m ic oc U) as (m1 & F & OTH & PR & SAME).
  unfold prelude_body in PR. rewrite HT, SK, SI in PR. cbn [negb orb] in PR.
  destruct D as [m' E|m' E|m' E|m' E|m3 j2 oc2 s E F2 R FIN|m3 j2 oc2 E F2 R]; rewrite PR in E; try discriminate E. injection E as <-. auto.
Qed.
(** C106: so does a call whose parameters are not realized, with no effect *)
Theorem C106_unrealized_throws : forall c m m' r, dk_realized c = false -> deskew c m m' r -> r = Exc /\ m' = m.
Proof.
  intros c m m' r RZ D. assert (PR : prelude c m = (m, Exc)) by (unfold DeskewModel.prelude; rewrite RZ; reflexivity).
  destruct D as [m' E|m' E|m' E|m' E|m3 j2 oc2 s E F2 R FIN|m3 j2 oc2 E F2 R]; rewrite PR in E; try discriminate E. injection E as <-. auto.
Qed.
(** C106: so does a missing input layer that is not the output layer *)
Theorem C106_missing_input_throws : forall c m m' r, lfind m (dk_in c) = None -> dk_in c <> dk_out c -> deskew c m m' r -> r = Exc.
Proof.
  intros c m m' r NI NE D. assert (PR : exists m1, prelude c m = (m1, Exc)).
  { unfold DeskewModel.prelude, massert. destruct (dk_realized c); [|eexists; reflexivity]. unfold bnd at 1. cbn [ret].
    destruct (String.eqb (dk_out c) "") eqn:EO; [eexists; reflexivity|]. cbn [negb]. unfold bnd at 1. cbn [ret].
    destruct (output_before c m) as [oc|] eqn:OB.
    - destruct (goc_class c m) as (oc' & m1 & E & G & F & O); [congruence|apply String.eqb_neq, EO|]. unfold bnd at 1. rewrite G.
      destruct (String.eqb (dk_in c) ""); [eexists; reflexivity|]. cbn [negb]. unfold bnd. cbn [ret]. rewrite (O _ NE), NI. eexists; reflexivity.
    - destruct (goc_fails c m OB) as [m1 G]. unfold bnd at 1. rewrite G. eexists; reflexivity. }
  destruct PR as [m1 PR].
  destruct D as [m' E|m' E|m' E|m' E|m3 j2 oc2 s E F2 R FIN|m3 j2 oc2 E F2 R]; rewrite PR in E; try discriminate E. reflexivity.
Qed.

(** C107 (refuted): a call that throws leaves the map as it was.  Without a motion model it leaves one blank point
    for each input point *)
Theorem C107_failed_call_leaves_blank_points_refuted : forall c m ic oc m' r,
  usable_call c m ic oc -> has_T (cl_cls ic) = true -> dk_skip c = false ->
  (if dk_precise c then dk_source c = None else dk_twist c = None) -> deskew c m m' r ->
  lfind m' (dk_out c) = Some (LPts (mkCloud (cl_cls oc) (cl_pts oc ++ repeat blank (List.length (cl_pts ic))))).
Proof.
  intros c m ic oc m' r U HT SK NOM D.
  destruct (prelude_head c m ic oc U) as (m1 & F & OTH & PR & SAME).
  unfold prelude_body in PR. rewrite HT, SK in PR. cbn [negb orb] in PR. rewrite F in PR.
  destruct (dk_precise c); rewrite NOM in PR; destruct D as [m' E|m' E|m' E|m' E|m3 j2 oc2 s E F2 R FIN|m3 j2 oc2 E F2 R]; rewrite PR in E; try discriminate E; injection E as <-; apply lfind_same.
Qed.
(** C107 (refuted): a missing input layer is accepted, and created, if it is also the output layer *)
Theorem C107_missing_input_accepted_refuted : forall c m k,
  dk_realized c = true -> dk_in c = dk_out c -> dk_in c <> EmptyString -> lfind m (dk_in c) = None -> dk_class c = Some k ->
  deskew c m (lset m (dk_out c) (LPts (mkCloud k []))) (Val tt).
Proof.
  intros c m k RZ SAME NE NI K. apply dk_return. unfold DeskewModel.prelude, massert. rewrite RZ, SAME. rewrite SAME in NE, NI.
  rewrite (proj2 (String.eqb_neq _ _) NE). cbn [negb]. unfold bnd at 1. cbn [ret]. unfold bnd at 1. cbn [ret]. unfold bnd at 1.
  unfold get_or_create_class, get_or_create. rewrite K, (proj2 (String.eqb_neq _ _) NE), NI. unfold bnd. cbn [ret]. rewrite lfind_same. reflexivity.
Qed.
End DeskewP.

(** ** A concrete case: the hypotheses of the theorems can be met *)
Definition ex_cls : Cls := mkCls "T" true true true.
Definition ex_pts : list Pt := [mkPt 1 2 3 7 4 (1#2); mkPt 0 0 0 9 5 (1#4)].
Definition ex_dk (inp : Name) : DCfg := mkDk inp "out" (Some ex_cls) false false false (Some ((2, 0, 0)%Q, (0, 0, 0)%Q)) None true.
Definition ex_m : Layers := [("in"%string, LPts (mkCloud ex_cls ex_pts)); ("out"%string, LPts (mkCloud ex_cls ex_pts))].
Definition ex_exp : Q3 -> Rot := fun _ p => p.
Definition ex_fc : list (Q * Rot) -> Q -> option Rot := fun _ _ => None.
Example ex_usable inp : inp = "in"%string \/ inp = "out"%string -> usable_call (ex_dk inp) ex_m (mkCloud ex_cls ex_pts) (mkCloud ex_cls ex_pts).
Proof. intros [-> | ->]; repeat split; discriminate. Qed.
Example ex_run inp : inp = "in"%string \/ inp = "out"%string ->
  exists m', deskew ex_exp ex_fc (ex_dk inp) ex_m m' (Val tt) /\
  exists q, lfind m' "out" = Some (LPts (mkCloud ex_cls (ex_pts ++ [mkPt (fst (fst q)) (snd (fst q)) (snd q) 7 4 (1#2); blank]))) /\ (fst (fst q) == 2)%Q.
Proof.
  intros H. assert (U := ex_usable inp H).
  assert (CO : corr_of ex_exp ex_fc (ex_dk inp) (mkCloud ex_cls ex_pts) (correct ex_exp ex_fc false None ((2, 0, 0)%Q, (0, 0, 0)%Q))) by (apply co_twist; reflexivity).
  destruct (C49_completes ex_exp ex_fc _ _ _ _ _ U eq_refl eq_refl CO) as [m' D]. exists m'. split; [exact D|].
  destruct (C49_one_corrected_point_per_input_point ex_exp ex_fc _ _ _ _ _ _ _ U eq_refl eq_refl CO D) as (_ & (new & F & F2) & _).
  cbn [cl_pts cl_cls dk_out ex_dk] in *. inversion F2 as [|a b l l' O1 F3]; subst. inversion F3 as [|a2 b2 l2 l2' O2 F4]; subst. inversion F4; subst.
  destruct O1 as [O1 _]. destruct O1 as (X & I & R & T); [intros (H1 & _); discriminate H1|]. destruct O2 as [_ O2]. rewrite O2 in F by (repeat split).
  exists (px b, py b, pz b). split; [|injection X as -> _ _; reflexivity].
  rewrite F. cbn in I, R, T. destruct b. cbn in *. subst. reflexivity.
Qed.
