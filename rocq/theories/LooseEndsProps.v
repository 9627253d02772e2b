(** Further theorems for C33, C76 (residual terms) and C44 (adaptive decimation), C206, C208 (velocity buffers as YAML). *)
From Coq Require Import String Permutation Reals Lra Lia.
From Verif Require Import Base FilterModel FilterSpec VelocityModel ConfigModel VelYamlModel VoxelModel VoxelSpec AdaptiveProps GeomModel GeomProps.
Open Scope nat_scope.

(** ** C33: the conversion is refused exactly if a plane normal is not of unit length (up to 1e-4) *)
Theorem C33_when_refused : forall T pt2pt pls lns,
  (exists out, convert T pt2pt pls lns = Some out) <-> (forall p, In p pls -> (Rabs (vnorm (n_ (plp_plane p)) - 1) < 1 / 10000)%R).
Proof.
  intros T pt2pt pls lns. unfold convert. split.
  - intros [out E] p I. destruct (forallb _ pls) eqn:F; [|discriminate E]. rewrite forallb_forall in F. specialize (F p I). unfold near_unit in F.
    destruct (Rlt_dec _ _); [assumption|discriminate F].
  - intros H. replace (forallb _ pls) with true; [eauto|]. symmetry. apply forallb_forall. intros p I. unfold near_unit.
    destruct (Rlt_dec _ _) as [L|NL]; [reflexivity|destruct NL; exact (H p I)].
Qed.

(** ** C76: for every change D of the pose matrix, the direction rows of the Jacobian give minus D applied to the local director, while the
    residual changes by the transpose of D applied to it. *)
Theorem C76_direction_rows_exact : forall lg ll T D k, (k < 3)%nat ->
  nth (S k) (mvec (jac_l2l_general lg ll T) (vec D)) 0%R = (- nth k (l3 (rotate D (l_dir ll))) 0)%R /\
  (nth (S k) (error_l2l_general lg ll (padd T D)) 0 - nth (S k) (error_l2l_general lg ll T) 0 = nth k (l3 (row_times (l_dir ll) D)) 0)%R.
Proof.
  intros lg ll T D k K. destruct D as [[a1 a2 a3] [b1 b2 b3] [d1 d2 d3] [t1 t2 t3]].
  split.
  - unfold jac_l2l_general. set (u := row_times (l_dir ll) T). set (B := sqrt _).
    do 3 (destruct k as [|k]; [unfold mvec, mmul, vec, rotate, vadd, vscale, l3; simpl; unfold Rdiv; ring|]). lia.
  - do 3 (destruct k as [|k]; [unfold error_l2l_general, row_times, vdot, padd, l3; simpl; ring|]). lia.
Qed.

(** ** C44: with the quotient rounded to a nearest integer: if the dense voxels are no more than the target, each gives at least one point; if there
    are K of them, more than the target, the number of points is at least the target, or at least K over (K / target + 1/2). *)
Definition nearest (rnd_div : nat -> nat -> nat) : Prop := forall a b, 0 < b -> 2 * a <= b * (2 * rnd_div a b + 1) /\ 2 * b * rnd_div a b <= 2 * a + b.
Theorem C44_number_of_points : forall c res rnd_div ordm g0 m src ks,
  nearest rnd_div -> 0 < ad_desired c ->
  ad_enabled c = true -> (g_min_dist g0 == 0)%Q -> (forall v, Permutation (ordm v) v) ->
  lfind m (ad_in c) = Some (LPts src) -> ad_out c <> ""%string -> usable m (ad_out c) -> ad_in c <> ad_out c ->
  DenseVoxels res (ad_min_per_voxel c) (cl_pts src) ks -> ks <> [] -> lfind m (ad_out c) = None ->
  exists fuel0 m' idxs, forall fuel, fuel0 <= fuel ->
    filter_adaptive fuel c res rnd_div ordm g0 m = (m', Val tt) /\ NoDup idxs /\
    Grew m m' (ad_out c) SimplePoints (points_at (cl_pts src) idxs) /\ List.length idxs <= ad_desired c /\
    (List.length ks <= ad_desired c -> List.length ks <= List.length idxs) /\
    (ad_desired c < List.length ks -> ad_desired c <= List.length idxs \/
     2 * ad_desired c * List.length ks <= (2 * List.length ks + ad_desired c) * List.length idxs).
Proof.
  intros c res rnd_div ordm g0 m src ks NR DP EN MD P F NE U NI DV KS FO.
  destruct (C44_distinct_bounded c res rnd_div ordm g0 m src ks EN MD P F NE U NI DV KS) as (fuel0 & m' & idxs & H).
  exists fuel0, m', idxs. intros fuel L. destruct (H fuel L) as (E & G & ND & _ & BD & ST & ST1). clear H.
  assert (H0 : List.length (pts_of m (ad_out c)) = 0) by (unfold pts_of; rewrite FO; reflexivity). rewrite H0 in *.
  split; [exact E|]. split; [exact ND|]. split; [exact G|]. split; [lia|].
  split; [intro LE; specialize (ST1 LE); lia|]. intro LT. destruct ST as [ST|ST]; [left; lia|]. destruct (Nat.le_gt_cases (ad_desired c) (List.length idxs)) as [LE|GT]; [left; exact LE|right].
  unfold increment in ST. rewrite (proj2 (Nat.ltb_lt _ _) LT) in ST. destruct (NR (List.length ks) (ad_desired c) DP) as [N1 N2].
    set (q := rnd_div (List.length ks) (ad_desired c)) in *. set (K := List.length ks) in *. set (d := ad_desired c) in *. set (n := List.length idxs) in *.
    clearbody q K d n. assert (Q1 : 1 <= q). { destruct (Nat.eq_dec q 0) as [Z|NZ]; [|lia]. rewrite Z in N1. exfalso. nia. }
    replace (Nat.max 1 q) with q in ST by lia.
    assert (A : 2 * d * K <= 2 * d * (q * n)) by (apply Nat.mul_le_mono_l; exact ST).
    assert (B : 2 * d * (q * n) <= (2 * K + d) * n) by (replace (2 * d * (q * n)) with (2 * d * q * n) by ring; apply Nat.mul_le_mono_r; exact N2).
    lia.
Qed.
Example C44_rounding_case : nearest (fun a b => (2 * a + b) / (2 * b)).
Proof.
  intros a b Hb. assert (D := Nat.div_mod (2 * a + b) (2 * b) ltac:(lia)). assert (M := Nat.mod_upper_bound (2 * a + b) (2 * b) ltac:(lia)).
  set (q := (2 * a + b) / (2 * b)) in *. set (r := (2 * a + b) mod (2 * b)) in *. split; nia.
Qed.

(** ** C206: the documents that fromYAML reads *)
Section Yaml.
  Context {V : Type}.
  Variable parse_time : string -> option Z.
  Variable parse_vel : string -> option V.
  Variables (as_num : yml -> option Q) (as_str : yml -> option string) (as_stamp : yml -> option Q).
  Notation from_yaml := (from_yaml parse_time parse_vel as_num as_str as_stamp).

  (** an entry of a list of velocities: "time: velocity" *)
  Definition entry_ok (e : string * yml) : Prop := parse_time (fst e) <> None /\ exists s, as_str (snd e) = Some s /\ parse_vel s <> None.
  (** a section is absent, or a map of readable entries *)
  Definition section_ok (m : list (string * yml)) (k : string) : Prop := forall y, yfind m k = Some y -> exists es, y = YDict es /\ Forall entry_ok es.
  Definition field_ok {X} (rd : yml -> option X) (y : yml) (k : string) : Prop := exists m v, y = YDict m /\ yfind m k = Some v /\ rd v <> None.
  Definition document_ok (y : yml) : Prop := exists m, y = YDict m /\
    (forall p, yfind m "parameters" = Some p -> field_ok as_num p "max_time_window" /\ field_ok as_num p "tolerance_search_stamp") /\
    (forall s, yfind m "state" = Some s -> field_ok as_stamp s "reference_zero_time" /\
       exists sm, s = YDict sm /\ section_ok sm "linear_velocities" /\ section_ok sm "angular_velocities").

  Lemma read_vels_ok es : forall acc, snd (read_vels parse_time parse_vel as_str es acc) = true <-> Forall entry_ok es.
  Proof.
    induction es as [|[k v] es IH]; intros acc; cbn [read_vels]; [split; [constructor|reflexivity]|].
    rewrite Forall_cons_iff. unfold entry_ok at 1. cbn [fst snd].
    destruct (parse_time k) as [t|]; [|cbn [snd]; split; [discriminate|intros [[C _] _]; congruence]].
    destruct (as_str v) as [x|]; [|cbn [snd]; split; [discriminate|intros [[_ [s [C _]]] _]; congruence]].
    destruct (parse_vel x) as [u|] eqn:X; [rewrite IH|cbn [snd]].
    - split; [intro F; split; [split; [discriminate|exists x; rewrite X; split; [reflexivity|discriminate]]|exact F]|intros [_ F]; exact F].
    - split; [discriminate|intros [[_ [s [C D]]] _]; injection C as <-; congruence].
  Qed.
  Lemma read_section_ok m k : snd (read_section parse_time parse_vel as_str m k) = true <-> section_ok m k.
  Proof.
    unfold read_section, section_ok. destruct (yfind m k) as [y|]; [|split; [intros _ y C; discriminate C|reflexivity]].
    destruct y; try (split; [discriminate|intro H; destruct (H _ eq_refl) as (es & C & _); discriminate C]).
    rewrite read_vels_ok. split; [intros F y E; injection E as <-; eauto|intro H; destruct (H _ eq_refl) as (es & C & F); injection C as <-; exact F].
  Qed.
  Lemma field_ok_iff {X} (rd : yml -> option X) y k :
    match match sub y k with Some v => rd v | None => None end with Some _ => true | None => false end = true <-> field_ok rd y k.
  Proof.
    unfold field_ok, sub. destruct y as [| | | | |l]; try (split; [discriminate|intros (m & v & C & _); discriminate C]).
    destruct (yfind _ k) as [v|] eqn:F.
    - destruct (rd v) as [x|] eqn:RV.
      + split; [intros _; exists l, v; rewrite RV; split; [reflexivity|split; [exact F|discriminate]]|reflexivity].
      + split; [discriminate|intros (m & w & C & F2 & N); injection C as <-; congruence].
    - split; [discriminate|intros (m & w & C & F2 & N); injection C as <-; congruence].
  Qed.

  Theorem C206_accepted_documents : forall y b, (exists b', from_yaml y b = (b', true)) <-> document_ok y.
  Proof.
    intros y b.
    assert (SP : (exists b', from_yaml y b = (b', true)) <-> snd (from_yaml y b) = true).
    { destruct (from_yaml y b) as [b1 k]. cbn [snd]. split; [intros [b' E]; injection E as _ ->; reflexivity|intros ->; eauto]. }
    rewrite SP. clear SP. unfold document_ok. destruct y as [| | | | |m]; try (split; [discriminate|intros (m & C & _); discriminate C]).
    cbn [VelYamlModel.from_yaml].
    assert (P : snd (read_params as_num m b) = true <-> (forall p, yfind m "parameters" = Some p -> field_ok as_num p "max_time_window" /\ field_ok as_num p "tolerance_search_stamp")).
    { unfold read_params. destruct (yfind m "parameters") as [p|]; [|split; [intros _ p C; discriminate C|reflexivity]].
      assert (A := field_ok_iff as_num p "max_time_window"). assert (B := field_ok_iff as_num p "tolerance_search_stamp").
      destruct (match sub p "max_time_window" with Some v => as_num v | None => None end) as [mw|].
      - destruct (match sub p "tolerance_search_stamp" with Some v => as_num v | None => None end) as [tl|]; cbn [snd].
        + split; [intros _ q E; injection E as <-; tauto|reflexivity].
        + split; [discriminate|intro H; destruct (H p eq_refl) as [_ X]; apply B in X; discriminate X].
      - cbn [snd]. split; [discriminate|intro H; destruct (H p eq_refl) as [X _]; apply A in X; discriminate X]. }
    assert (Q : forall b1, snd (read_state parse_time parse_vel as_str as_stamp m b1) = true <-> (forall s, yfind m "state" = Some s -> field_ok as_stamp s "reference_zero_time" /\
       exists sm, s = YDict sm /\ section_ok sm "linear_velocities" /\ section_ok sm "angular_velocities")).
    { intros b1. unfold read_state. destruct (yfind m "state") as [s|]; [|split; [intros _ p C; discriminate C|reflexivity]].
      assert (A := field_ok_iff as_stamp s "reference_zero_time").
      destruct (match sub s "reference_zero_time" with Some v => as_stamp v | None => None end) as [r|].
      2:{ cbn [snd]. split; [discriminate|intro H; destruct (H s eq_refl) as [X _]; apply A in X; discriminate X]. }
      assert (FO := proj1 A eq_refl). assert (exists sm, s = YDict sm) as [sm ->] by (destruct FO as (sm & v & -> & _); eauto).
      assert (S1 := read_section_ok sm "linear_velocities"). assert (S2 := read_section_ok sm "angular_velocities").
      destruct (read_section parse_time parse_vel as_str sm "linear_velocities") as [lin ok1].
      destruct (read_section parse_time parse_vel as_str sm "angular_velocities") as [ang ok2]. cbn [snd] in *.
      destruct ok1; cbn [snd].
      - split.
        + intros ->. intros s' E. injection E as <-. split; [exact FO|]. exists sm. split; [reflexivity|]. tauto.
        + intro H. destruct (H _ eq_refl) as (_ & sm' & E & _ & X). injection E as <-. apply S2. exact X.
      - split; [discriminate|]. intro H. destruct (H _ eq_refl) as (_ & sm' & E & X & _). injection E as <-. apply S1. exact X. }
    destruct (read_params as_num m b) as [b1 ok] eqn:RP. cbn [snd] in P. destruct ok.
    - rewrite Q. split.
      + intro H. exists m. split; [reflexivity|]. split; [apply P; reflexivity|exact H].
      + intros (m' & E & _ & H). injection E as <-. exact H.
    - cbn [snd]. split; [discriminate|]. intros (m' & E & H & _). injection E as <-. apply P in H. discriminate H.
  Qed.
End Yaml.
Example C206_case : document_ok (fun s => Some 0%Z) (fun s => Some tt) (fun y => match y with YQ q => Some q | _ => None end) (fun y => match y with YT s => Some s | _ => None end) (fun y => match y with YQ q => Some q | _ => None end)
  (YDict [("state", YDict [("reference_zero_time", YQ 1); ("linear_velocities", YDict [("0.5", YT "v")])])])%string /\
  ~ document_ok (fun s => Some 0%Z) (fun s => Some tt) (fun y => match y with YQ q => Some q | _ => None end) (fun y => match y with YT s => Some s | _ => None end) (fun y => match y with YQ q => Some q | _ => None end)
  (YDict [("state", YDict [("reference_zero_time", YQ 1); ("linear_velocities", YT "v")])])%string.
Proof.
  split.
  - eexists. split; [reflexivity|]. split; [intros p C; discriminate C|]. intros s E. injection E as <-. split.
    + eexists _, _. split; [reflexivity|]. split; [reflexivity|]. discriminate.
    + eexists. split; [reflexivity|]. split; [|intros y C; discriminate C]. intros y E. injection E as <-. eexists. split; [reflexivity|].
      repeat constructor; cbn; [discriminate|]. exists "v"%string. split; [reflexivity|discriminate].
  - intros (m & E & _ & H). injection E as <-. destruct (H _ eq_refl) as (_ & sm & E & X & _). injection E as <-. destruct (X _ eq_refl) as (es & C & _). discriminate C.
Qed.
