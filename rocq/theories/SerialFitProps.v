(** C03, C34, C58-C60: what can be stored.  The round trip theorems of SerialProps.v speak of the values that fit the wire format; here is
    what that means in numbers: element counts below 2^32, size_t and double below 2^64, one byte enumerations below 256, and values of
    external types that mrpt can store.  Every object that fits in the memory of a computer with fewer than 2^32 elements per list does. *)
From Coq Require Import String.
From Verif Require Import Base CodecModel PairingsModel SerialModel SerialProps.
Open Scope N_scope.

Section Fit.
Context (X : Ext).
Definition few {A} (l : list A) : Prop := N.of_nat (List.length l) < 2 ^ 32.
Definition size_t (n : nat) : Prop := N.of_nat n < 2 ^ 64.
Definition double (n : N) : Prop := n < 2 ^ 64.
Definition point_ok (p : xPoint X) : Prop := good (cPoint X) p.
Definition line_ok (p : xLine X) : Prop := good (cLine X) p.
Definition plane_ok (p : plane_patch X) : Prop := good (cPlane X) (plane X p) /\ point_ok (centroid X p).

Definition pairings_fit (p : pairings X) : Prop :=
  good (cMatchList X) (paired_pt2pt p) /\
  (few (paired_pt2ln p) /\ forall x, In x (paired_pt2ln p) -> line_ok (pl_ln_global X x) /\ point_ok (pl_pt_local X x)) /\
  (few (paired_pt2pl p) /\ forall x, In x (paired_pt2pl p) -> plane_ok (pn_pl_global X x) /\ point_ok (pn_pt_local X x)) /\
  (few (paired_ln2ln p) /\ forall x, In x (paired_ln2ln p) -> line_ok (ll_global X x) /\ line_ok (ll_local X x)) /\
  (few (paired_pl2pl p) /\ forall x, In x (paired_pl2pl p) -> plane_ok (nn_global X x) /\ plane_ok (nn_local X x)) /\
  (few (point_weights p) /\ forall n w, In (n, w) (point_weights p) -> size_t n /\ double w) /\
  size_t (potential_pairings p).
Lemma p8 : 256 ^ N.of_nat 8 = 2 ^ 64. Proof. reflexivity. Qed.
Lemma p4 : 256 ^ N.of_nat 4 = 2 ^ 32. Proof. reflexivity. Qed.
Lemma fa {A} (P : A -> Prop) l : Forall P l <-> forall x, In x l -> P x. Proof. apply Forall_forall. Qed.
(** C03: the pairings that round trip are exactly these *)
Theorem C03_what_fits : forall p, good_pairings X p <-> pairings_fit p.
Proof.
  intro p. unfold good_pairings, pairings_fit, v_pl, v_pn, v_ll, v_nn, c_weights, vec, counted. cbn [good].
  rewrite !fa. unfold few, c_point_line, c_point_plane, c_matched_line, c_matched_plane, pair_c, nat_c, f64, uint, good_patch, plane_ok, line_ok, point_ok, size_t, double.
  cbn [good]. rewrite p8.
  split; intros (A & B & C & D & E & (F1 & F2) & G); (split; [exact A|]); (split; [exact B|]); (split; [exact C|]); (split; [exact D|]); (split; [exact E|]); (split; [|exact G]); (split; [exact F1|]).
  - intros n w I. exact (F2 (n, w) I).
  - intros [n w] I. exact (F2 n w I).
Qed.
(** C03: hence nothing is lost by writing and reading pairings with fewer than 2^32 elements of each kind *)
Theorem C03_roundtrip_of_what_fits : forall old p rest, ext_ok X -> pairings_fit p -> r_pairings X old (w_pairings X p ++ rest) = Ok (p, rest).
Proof. intros old p rest HX F. apply C03_roundtrip; [exact HX|]. apply C03_what_fits. exact F. Qed.
(** C03: the version bytes: 1 for the pairings, 0 for each pairing with a line or a plane *)
Theorem C03_version_bytes : forall (p : pairings X) (a : point_line_pair X) (b : point_plane_pair X) (c : matched_line X) (d : matched_plane X),
  hd_error (w_pairings X p) = Some 1 /\ hd_error (w_point_line X a) = Some 0 /\ hd_error (w_point_plane X b) = Some 0 /\
  hd_error (w_matched_line X c) = Some 0 /\ hd_error (w_matched_plane X d) = Some 0.
Proof. intros. repeat split; reflexivity. Qed.

(** C58: parameters *)
Theorem C58_what_fits : forall p, p_maxIterations p < 2 ^ 32 -> double (p_minAbsStep_trans p) -> double (p_minAbsStep_rot p) ->
  few (p_debugFileNameFormat p) -> p_decimationDebugFiles p < 2 ^ 32 -> p_decimationIterationDetails p < 2 ^ 32 -> good_params p.
Proof.
  intros p A B C D E F. unfold good_params, u32, f64, uint, string_c, counted. cbn [good]. rewrite p8, p4.
  repeat (split; [first [assumption | split; [exact D|apply Forall_forall; intros; exact I]]|]). exact F.
Qed.
(** C59: weights; the robust kernel takes one byte *)
Theorem C59_what_fits : forall p, double (wp_scale_thr X p) -> wp_robust_kernel X p < 256 -> (forall q, wp_current X p = Some q -> good (cPose X) q) ->
  double (wp_kernel_param X p) ->
  (let w := wp_pair_weights X p in double (pw_pt2pt w) /\ double (pw_pt2pl w) /\ double (pw_pt2ln w) /\ double (pw_ln2ln w) /\ double (pw_pl2pl w)) ->
  good_weight_params X p.
Proof.
  intros p A B C D E. unfold good_weight_params, good_pair_weights, f64, u8, uint, c_optpose, opt_c. cbn [good]. rewrite p8. cbn zeta in E.
  split; [exact A|]. split; [exact B|]. split; [|split; [exact D|exact E]]. destruct (wp_current X p); [apply C; reflexivity|exact I].
Qed.
(** C34: metric maps *)
Definition map_fits (m : MMap X) : Prop :=
  (few (m_lines X m) /\ forall l, In l (m_lines X m) -> line_ok l) /\
  (few (m_planes X m) /\ forall l, In l (m_planes X m) -> plane_ok l) /\
  (few (m_layers X m) /\ NoDup (map fst (m_layers X m)) /\ forall n l, In (n, l) (m_layers X m) -> few n /\ good (cLayer X) l) /\
  (forall i, m_id X m = Some i -> i < 2 ^ 64) /\ (forall s, m_label X m = Some s -> few s) /\
  (forall g, m_georef X m = Some g -> double (geo_lat X g) /\ double (geo_lon X g) /\ double (geo_height X g) /\ good (cPdf X) (geo_T X g)) /\
  few (m_metadata X m).
Lemma str_ok (s : list N) : few s -> good string_c s.
Proof. intro F. split; [exact F|]. apply Forall_forall. intros; exact I. Qed.
Theorem C34_what_fits : forall m, map_fits m -> good_map X m.
Proof.
  intros m ((A1 & A2) & (B1 & B2) & (C1 & C2 & C3) & D & E & F & G). unfold good_map.
  split; [split; [exact A1|apply Forall_forall; exact A2]|]. split; [split; [exact B1|apply Forall_forall; exact B2]|].
  split; [split; [exact C1|apply Forall_forall; intros [n l] I; destruct (C3 n l I) as [Fn Gl]; split; [exact (str_ok _ Fn)|exact Gl]]|].
  split; [exact C2|]. split; [|split; [|split; [|exact (str_ok _ G)]]].
  - unfold c_optid, opt_c, u64, uint. cbn [good]. rewrite p8. destruct (m_id X m); [exact (D _ eq_refl)|exact I].
  - unfold c_optlabel, opt_c. cbn [good]. destruct (m_label X m); [exact (str_ok _ (E _ eq_refl))|exact I].
  - unfold good_georef, f64, uint. cbn [good]. rewrite p8. destruct (m_georef X m); [exact (F _ eq_refl)|exact I].
Qed.
(** C60: results and log records: up to 2^64 iterations *)
Definition results_fit (r : Results X) : Prop :=
  good (cPdf X) (res_optimal_tf X r) /\ double (res_scale X r) /\ size_t (res_nIterations X r) /\ res_reason X r < 256 /\ double (res_quality X r) /\
  pairings_fit (res_pairings X r).
Theorem C60_what_fits_results : forall r, good_results X r <-> results_fit r.
Proof.
  intro r. unfold good_results, results_fit. rewrite C03_what_fits. unfold f64, u8, nat_c, uint, size_t, double. cbn [good]. rewrite p8. change (256 ^ N.of_nat 1) with 256. tauto.
Qed.
Definition iterations_fit (its : list (nat * IterInfo X)) : Prop :=
  few its /\ forall n i, In (n, i) its -> size_t n /\ good (cPose X) (it_pose X i) /\ pairings_fit (it_pairings X i).
Definition log_fits (l : LogRec X) : Prop :=
  (forall m, log_global X l = Some m -> map_fits m) /\ (forall m, log_local X l = Some m -> map_fits m) /\ good (cTPose X) (log_guess X l) /\
  good_params (log_params X l) /\ results_fit (log_results X l) /\ (forall its, log_iters X l = Some its -> iterations_fit its) /\
  (few (log_vars X l) /\ forall n v, In (n, v) (log_vars X l) -> few n /\ double v).
Theorem C60_what_fits : forall l, log_fits l -> good_log X l.
Proof.
  intros l (A & B & C & D & E & F & G1 & G2). unfold good_log.
  split; [unfold good_optmap; destruct (log_global X l); [apply C34_what_fits; exact (A _ eq_refl)|exact I]|].
  split; [unfold good_optmap; destruct (log_local X l); [apply C34_what_fits; exact (B _ eq_refl)|exact I]|].
  split; [exact C|]. split; [exact D|]. split; [apply C60_what_fits_results; exact E|]. split.
  - unfold c_iters, opt_c. cbn [good]. destruct (log_iters X l) as [its|]; [|exact I]. destruct (F its eq_refl) as [F1 F2].
    unfold map_c, counted. cbn [good]. split; [exact F1|]. apply Forall_forall. intros [n i] In0. destruct (F2 n i In0) as (S1 & P1 & Q1).
    unfold pair_c, nat_c, c_iter. cbn [good fst snd]. rewrite p8. split; [exact S1|]. split; [exact P1|]. apply C03_what_fits. exact Q1.
  - unfold c_vars, map_c, counted. cbn [good]. split; [exact G1|]. apply Forall_forall. intros [n v] In0. destruct (G2 n v In0) as [Fn Dv].
    unfold pair_c. cbn [good fst snd]. split; [exact (str_ok _ Fn)|]. unfold f64, uint. cbn [good]. rewrite p8. exact Dv.
Qed.
Theorem C60_log_roundtrip_of_what_fits : forall dflt ENV em dr l rest, ext_ok X -> log_fits l ->
  exists l', r_log X dflt ENV em dr 1 (w_log X l ++ rest) = Ok (l', rest) /\ log_global X l' = log_global X l /\ log_local X l' = log_local X l /\
    log_guess X l' = log_guess X l /\ log_results X l' = log_results X l /\ log_iters X l' = log_iters X l /\ log_vars X l' = log_vars X l.
Proof.
  intros dflt ENV em dr l rest HX F. destruct (C60_log_roundtrip X dflt ENV em dr l rest HX (C60_what_fits l F)) as (l' & E & H). exists l'. split; [exact E|]. tauto.
Qed.
End Fit.

(** the cases of SerialProps.v *)
Example fit_case : pairings_fit X1 pr1. Proof. apply C03_what_fits. exact pr1_good. Qed.
