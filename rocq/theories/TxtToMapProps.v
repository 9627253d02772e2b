(** C238-C241: the programs txt2mm and kitti2mm. *)
From Coq Require Import String Lia.
From Verif Require Import Base MmToolsModel.
Open Scope nat_scope.

Section Props.
Variables (Line Plane G Yaml : Type) (read_matrix : string -> option Mat) (read_kitti : string -> option Cloud) (ot : bool).
Notation MM := (MM Line Plane G).
Notation FS := (FS Line Plane G Yaml).
Notation txt := (txt2mm Line Plane G Yaml ot read_matrix).
Notation kitti := (kitti2mm Line Plane G Yaml ot read_kitti).
Notation after := (after Line Plane G Yaml).
Notation CM := (CMap Line Plane G Yaml).

(** ** Vocabulary *)
(** the text file [f] has these rows, all with [cols] numbers *)
Definition table (f : string) (rows : list (list Q)) (cols : nat) : Prop :=
  Forall (fun r => List.length r = cols) rows /\ read_matrix f = Some (mkMat (List.length rows) cols (concat rows)).
(** the number in column [j] of a row *)
Definition cell (r : list Q) (j : Z) (v : Q) : Prop := (0 <= j)%Z /\ nth_error r (Z.to_nat j) = Some v.
Definition is_col (cols : nat) (j : Z) : Prop := (0 <= j < Z.of_nat cols)%Z.
Definition cells3 (j : Z) (r : list Q) (p : P3) : Prop :=
  let '(x, y, z) := p in cell r j x /\ cell r (j + 1) y /\ cell r (j + 2) z.
(** a colour given as three whole numbers from 0 to 255, to the range from 0 to 1 *)
Definition colour255 (r : list Q) (p : P3) : Prop :=
  let '(x, y, z) := p in exists a b c : Z, (0 <= a <= 255 /\ 0 <= b <= 255 /\ 0 <= c <= 255)%Z /\
    cell r 3 (inject_Z a) /\ cell r 4 (inject_Z b) /\ cell r 5 (inject_Z c) /\
    (x == inject_Z a / 255 /\ y == inject_Z b / 255 /\ z == inject_Z c / 255)%Q.
Definition byte_colours (r : list Q) : Prop := forall j v, In j [3; 4; 5]%Z -> cell r j v -> exists a, v = inject_Z a /\ (0 <= a <= 255)%Z.
(** the output file after the run *)
Definition written (fs : FS) (r : W Line Plane G Yaml nat) (out : string) (m : MM) : Prop :=
  snd r = Ok 0 /\ after (fs_files _ _ _ _ fs) (fst r) out = Some (CM m).
Definition can_write (fs : FS) (f : string) : Prop := fs_write _ _ _ _ fs f = true.
(** the map with this only cloud, in the layer "raw" *)
Definition raw_map (a : TxtArgs) (c : Cloud) : MM := mkMM Line Plane G [("raw"%string, Some (LCloud c))] [] [] None (t_id a) (t_label a).

(** ** Lemmas *)
Lemma concat_nth cols : forall (rows : list (list Q)) i r j, Forall (fun r => List.length r = cols) rows -> nth_error rows i = Some r -> j < cols ->
  nth_error (concat rows) (i * cols + j) = nth_error r j.
Proof.
  induction rows as [|r0 rows IH]; intros i r j F N J; [destruct i; discriminate|]. inversion F as [|? ? L F']; subst. cbn [concat].
  destruct i as [|i]; cbn [nth_error] in N.
  - injection N as ->. cbn [Nat.mul Nat.add]. apply nth_error_app1. exact J.
  - rewrite nth_error_app2 by lia. rewrite <- (IH i r j F' N J). f_equal. lia.
Qed.
Lemma at_cell rows cols i r j : Forall (fun r => List.length r = cols) rows -> nth_error rows i = Some r -> is_col cols j ->
  exists v, at_ (mkMat (List.length rows) cols (concat rows)) i j = Ok v /\ cell r j v.
Proof.
  intros F N [J0 J1]. assert (L : List.length r = cols) by (rewrite Forall_forall in F; apply F; apply nth_error_In with i; exact N).
  destruct (nth_error r (Z.to_nat j)) as [v|] eqn:E; [|apply nth_error_None in E; lia].
  exists v. split; [|split; assumption]. unfold at_. cbn [mt_cols mt_data].
  destruct (Z.ltb_spec (Z.of_nat (i * cols) + j) 0); [lia|].
  replace (Z.to_nat (Z.of_nat (i * cols) + j)) with (i * cols + Z.to_nat j) by lia.
  rewrite (concat_nth cols rows i r (Z.to_nat j) F N) by lia. rewrite E. reflexivity.
Qed.
Lemma mapr_rows {B} (f : nat -> res B) (P : list Q -> B -> Prop) rows :
  (forall i r, nth_error rows i = Some r -> exists b, f i = Ok b /\ P r b) ->
  exists bs, mapr f (seq 0 (List.length rows)) = Ok bs /\ Forall2 P rows bs.
Proof.
  assert (A : forall l k, (forall i r, nth_error l i = Some r -> exists b, f (k + i) = Ok b /\ P r b) ->
            exists bs, mapr f (seq k (List.length l)) = Ok bs /\ Forall2 P l bs).
  { induction l as [|r l IH]; intros k H; [exists []; split; [reflexivity|constructor]|]. cbn [List.length seq mapr].
    destruct (H 0 r eq_refl) as (b & E & Pb). rewrite Nat.add_0_r in E. rewrite E. cbn [rbind].
    destruct (IH (S k)) as (bs & Es & Ps).
    - intros i r' N. destruct (H (S i) r' N) as (b' & E' & P'). exists b'. split; [|exact P']. rewrite <- E'. f_equal. lia.
    - rewrite Es. cbn [rbind]. exists (b :: bs). split; [reflexivity|]. constructor; assumption. }
  exact (A rows 0).
Qed.
Lemma xyz_cell rows cols i r j : Forall (fun r => List.length r = cols) rows -> nth_error rows i = Some r -> is_col cols j -> is_col cols (j + 2) ->
  exists p, xyz_at (mkMat (List.length rows) cols (concat rows)) j i = Ok p /\ cells3 j r p.
Proof.
  intros F N J J2. assert (J1 : is_col cols (j + 1)) by (unfold is_col in *; lia).
  destruct (at_cell rows cols i r j F N J) as (x & Ex & Cx). destruct (at_cell rows cols i r _ F N J1) as (y & Ey & Cy).
  destruct (at_cell rows cols i r _ F N J2) as (z & Ez & Cz). exists (x, y, z). unfold xyz_at. rewrite Ex, Ey, Ez. split; [reflexivity|]. split; [exact Cx|]. split; assumption.
Qed.
Lemma u8tof_byte a : (0 <= a <= 255)%Z -> u8tof (inject_Z a) = Ok (inject_Z a / 255)%Q.
Proof.
  intro H. unfold u8tof, inject_Z. cbn [Qnum Qden]. rewrite Z.quot_1_r. destruct (Z.leb_spec 0 a); [|lia]. destruct (Z.leb_spec a 255); [|lia]. reflexivity.
Qed.
Lemma txt_saved fs a d c : read_matrix (t_in a) = Some d -> cloud_from a d = Ok c -> can_write fs (t_out a) ->
  written fs (txt fs a) (t_out a) (raw_map a c).
Proof.
  intros E C Wr. unfold txt2mm. rewrite E. unfold lift. rewrite C. unfold save_cloud, save_to_file. rewrite Wr.
  split; [reflexivity|]. cbn. unfold put. rewrite String.eqb_refl. reflexivity.
Qed.

(** C238: with column options that lie within the rows, txt2mm writes a map with one cloud of one point per row, in
    order: the coordinates are the numbers in columns x, x+1, x+2; for xyzi the intensity is that in column
    i; for xyzrgb and xyzrgb_normalized the colour is that in columns 3, 4, 5, divided by 255 or as it is.
    The map has the id and label of the command line. *)
Theorem C238_xyz_one_point_per_row : forall fs a rows cols, table (t_in a) rows cols -> can_write fs (t_out a) ->
  t_format a = "xyz"%string -> 3 <= cols -> is_col cols (t_x a) -> is_col cols (t_x a + 2) ->
  exists c, written fs (txt fs a) (t_out a) (raw_map a c) /\ c_kind c = KXYZ /\ Forall2 (cells3 (t_x a)) rows (c_xyz c).
Proof.
  intros fs a rows cols [F R] Wr Fm L X X2.
  destruct (mapr_rows (xyz_at (mkMat (List.length rows) cols (concat rows)) (t_x a)) (cells3 (t_x a)) rows) as (p & E & P); [intros i r N; exact (xyz_cell rows cols i r _ F N X X2)|].
  exists (mkCloud KXYZ p [] [] [] []). split; [|split; [reflexivity|exact P]].
  eapply txt_saved; [exact R| |exact Wr]. unfold cloud_from. rewrite Fm. cbn [String.eqb Ascii.eqb Bool.eqb mt_cols mt_rows].
  destruct (Nat.leb_spec 3 cols); [|lia]. rewrite E. reflexivity.
Qed.
Theorem C238_xyzi_one_point_per_row : forall fs a rows cols, table (t_in a) rows cols -> can_write fs (t_out a) ->
  t_format a = "xyzi"%string -> 4 <= cols -> is_col cols (t_x a) -> is_col cols (t_x a + 2) -> is_col cols (t_i a) ->
  exists c, written fs (txt fs a) (t_out a) (raw_map a c) /\ c_kind c = KXYZI /\ Forall2 (cells3 (t_x a)) rows (c_xyz c) /\
    Forall2 (fun r v => cell r (t_i a) v) rows (c_int c).
Proof.
  intros fs a rows cols [F R] Wr Fm L X X2 I.
  destruct (mapr_rows (xyz_at (mkMat (List.length rows) cols (concat rows)) (t_x a)) (cells3 (t_x a)) rows) as (p & E & P); [intros i r N; exact (xyz_cell rows cols i r _ F N X X2)|].
  destruct (mapr_rows (fun i => at_ (mkMat (List.length rows) cols (concat rows)) i (t_i a)) (fun r v => cell r (t_i a) v) rows) as (q & E2 & Q2); [intros i r N; exact (at_cell rows cols i r _ F N I)|].
  exists (mkCloud KXYZI p q [] [] []). split; [|split; [reflexivity|split; [exact P|exact Q2]]].
  eapply txt_saved; [exact R| |exact Wr]. unfold cloud_from. rewrite Fm. cbn [String.eqb Ascii.eqb Bool.eqb mt_cols mt_rows].
  destruct (Nat.leb_spec 4 cols); [|lia]. rewrite E. cbn [rbind]. rewrite E2. reflexivity.
Qed.
Theorem C238_xyzrgb_one_point_per_row : forall fs a rows cols, table (t_in a) rows cols -> can_write fs (t_out a) ->
  t_format a = "xyzrgb"%string -> 6 <= cols -> is_col cols (t_x a) -> is_col cols (t_x a + 2) -> Forall byte_colours rows ->
  exists c, written fs (txt fs a) (t_out a) (raw_map a c) /\ c_kind c = KRGB /\ Forall2 (cells3 (t_x a)) rows (c_xyz c) /\ Forall2 colour255 rows (c_rgb c).
Proof.
  intros fs a rows cols [F R] Wr Fm L X X2 By.
  destruct (mapr_rows (xyz_at (mkMat (List.length rows) cols (concat rows)) (t_x a)) (cells3 (t_x a)) rows) as (p & E & P); [intros i r N; exact (xyz_cell rows cols i r _ F N X X2)|].
  destruct (mapr_rows (colour false (mkMat (List.length rows) cols (concat rows))) colour255 rows) as (q & E2 & Q2).
  { intros i r N. assert (By' : byte_colours r) by (rewrite Forall_forall in By; apply By; apply nth_error_In with i; exact N).
    destruct (at_cell rows cols i r 3 F N) as (x & Ex & Cx); [unfold is_col; lia|]. destruct (at_cell rows cols i r 4 F N) as (y & Ey & Cy); [unfold is_col; lia|].
    destruct (at_cell rows cols i r 5 F N) as (z & Ez & Cz); [unfold is_col; lia|].
    destruct (By' 3%Z x ltac:(cbn; auto) Cx) as (ra & -> & Ra). destruct (By' 4%Z y ltac:(cbn; auto) Cy) as (ga & -> & Ga). destruct (By' 5%Z z ltac:(cbn; auto) Cz) as (ba & -> & Ba).
    unfold colour. rewrite Ex, Ey, Ez. cbn [rbind]. rewrite !u8tof_byte by assumption. cbn [rbind]. eexists. split; [reflexivity|].
    unfold colour255. exists ra, ga, ba. split; [auto|]. split; [exact Cx|]. split; [exact Cy|]. split; [exact Cz|]. split; [reflexivity|]. split; reflexivity. }
  exists (mkCloud KRGB p [] [] [] q). split; [|split; [reflexivity|split; [exact P|exact Q2]]].
  eapply txt_saved; [exact R| |exact Wr]. unfold cloud_from. rewrite Fm. cbn [String.eqb Ascii.eqb Bool.eqb mt_cols mt_rows orb].
  destruct (Nat.leb_spec 6 cols); [|lia]. rewrite E. cbn [rbind]. rewrite E2. reflexivity.
Qed.
Theorem C238_xyzrgb_normalized_one_point_per_row : forall fs a rows cols, table (t_in a) rows cols -> can_write fs (t_out a) ->
  t_format a = "xyzrgb_normalized"%string -> 6 <= cols -> is_col cols (t_x a) -> is_col cols (t_x a + 2) ->
  exists c, written fs (txt fs a) (t_out a) (raw_map a c) /\ c_kind c = KRGB /\ Forall2 (cells3 (t_x a)) rows (c_xyz c) /\ Forall2 (cells3 3) rows (c_rgb c).
Proof.
  intros fs a rows cols [F R] Wr Fm L X X2.
  destruct (mapr_rows (xyz_at (mkMat (List.length rows) cols (concat rows)) (t_x a)) (cells3 (t_x a)) rows) as (p & E & P); [intros i r N; exact (xyz_cell rows cols i r _ F N X X2)|].
  destruct (mapr_rows (colour true (mkMat (List.length rows) cols (concat rows))) (cells3 3) rows) as (q & E2 & Q2).
  { intros i r N. destruct (xyz_cell rows cols i r 3 F N) as (pc & Ec & Pc); [unfold is_col; lia|unfold is_col; lia|]. exists pc. split; [|exact Pc]. exact Ec. }
  exists (mkCloud KRGB p [] [] [] q). split; [|split; [reflexivity|split; [exact P|exact Q2]]].
  eapply txt_saved; [exact R| |exact Wr]. unfold cloud_from. rewrite Fm. cbn [String.eqb Ascii.eqb Bool.eqb mt_cols mt_rows orb].
  destruct (Nat.leb_spec 6 cols); [|lia]. rewrite E. cbn [rbind]. rewrite E2. reflexivity.
Qed.

(** C239: the format xyzirt does not keep the ring and the time of the points: the cloud is one of class
    xyzi, *)
Theorem C239_ring_and_time_are_lost_refuted : forall fs a d ss, t_format a = "xyzirt"%string -> read_matrix (t_in a) = Some d ->
  txt fs a = (ss, Ok 0) -> exists c, after (fs_files _ _ _ _ fs) ss (t_out a) = Some (CM (raw_map a c)) /\ c_kind c = KXYZI /\ c_ring c = [] /\ c_time c = [].
Proof.
  intros fs a d ss Fm R T.
  assert (C : forall c, cloud_from a d = Ok c -> c_kind c = KXYZI /\ c_ring c = [] /\ c_time c = []).
  { unfold cloud_from. rewrite Fm. cbn [String.eqb Ascii.eqb Bool.eqb]. intro c. destruct (Nat.leb 6 (mt_cols d)); [|discriminate].
    destruct (mapr (xyz_at d (t_x a)) (seq 0 (mt_rows d))); [|discriminate|discriminate]. cbn [rbind].
    destruct (mapr (fun i => at_ d i (t_i a)) _); [|discriminate|discriminate]. cbn [rbind].
    destruct (mapr (fun i => at_ d i (t_r a)) _); [|discriminate|discriminate]. cbn [rbind].
    destruct (mapr (fun i => at_ d i (t_t a)) _); [|discriminate|discriminate]. cbn [rbind]. intro H. injection H as <-. auto. }
  revert T. unfold txt2mm. rewrite R. unfold lift. destruct (cloud_from a d) as [c| |]; [|discriminate|discriminate].
  unfold save_cloud, save_to_file. destruct (fs_write _ _ _ _ fs (t_out a)).
  - cbn. intro H. injection H as <-. exists c. split; [|exact (C c eq_refl)]. cbn. unfold put. rewrite String.eqb_refl. reflexivity.
  - destruct ot; cbn; discriminate.
Qed.
(** while the coordinates and the intensity are kept. *)
Theorem C239_xyzirt_where : forall fs a rows cols, table (t_in a) rows cols -> can_write fs (t_out a) ->
  t_format a = "xyzirt"%string -> 6 <= cols -> is_col cols (t_x a) -> is_col cols (t_x a + 2) -> is_col cols (t_i a) -> is_col cols (t_r a) -> is_col cols (t_t a) ->
  exists c, written fs (txt fs a) (t_out a) (raw_map a c) /\ Forall2 (cells3 (t_x a)) rows (c_xyz c) /\ Forall2 (fun r v => cell r (t_i a) v) rows (c_int c).
Proof.
  intros fs a rows cols [F R] Wr Fm L X X2 I Ri Ti.
  destruct (mapr_rows (xyz_at (mkMat (List.length rows) cols (concat rows)) (t_x a)) (cells3 (t_x a)) rows) as (p & E & P); [intros i r N; exact (xyz_cell rows cols i r _ F N X X2)|].
  destruct (mapr_rows (fun i => at_ (mkMat (List.length rows) cols (concat rows)) i (t_i a)) (fun r v => cell r (t_i a) v) rows) as (q & E2 & Q2); [intros i r N; exact (at_cell rows cols i r _ F N I)|].
  destruct (mapr_rows (fun i => at_ (mkMat (List.length rows) cols (concat rows)) i (t_r a)) (fun r v => cell r (t_r a) v) rows) as (q3 & E3 & _); [intros i r N; exact (at_cell rows cols i r _ F N Ri)|].
  destruct (mapr_rows (fun i => at_ (mkMat (List.length rows) cols (concat rows)) i (t_t a)) (fun r v => cell r (t_t a) v) rows) as (q4 & E4 & _); [intros i r N; exact (at_cell rows cols i r _ F N Ti)|].
  exists (mkCloud KXYZI p q [] [] []). split; [|split; [exact P|exact Q2]].
  eapply txt_saved; [exact R| |exact Wr]. unfold cloud_from. rewrite Fm. cbn [String.eqb Ascii.eqb Bool.eqb mt_cols mt_rows].
  destruct (Nat.leb_spec 6 cols); [|lia]. rewrite E. cbn [rbind]. rewrite E2. cbn [rbind]. rewrite E3. cbn [rbind]. rewrite E4. reflexivity.
Qed.

(** C240: the option --layer of txt2mm and kitti2mm has no effect: the only layer is called "raw". *)
Theorem C240_layer_option_is_ignored_refuted : forall fs a, snd (txt fs a) = Ok 0 ->
  exists c, written fs (txt fs a) (t_out a) (raw_map a c).
Proof.
  intros fs a. unfold txt2mm. destruct (read_matrix (t_in a)) as [d|]; [|discriminate]. unfold lift. destruct (cloud_from a d) as [c| |]; [|discriminate|discriminate].
  unfold save_cloud, save_to_file. destruct (fs_write _ _ _ _ fs (t_out a)).
  - intros _. exists c. split; [reflexivity|]. cbn. unfold put. rewrite String.eqb_refl. reflexivity.
  - destruct ot; discriminate.
Qed.
Theorem C240_layer_option_of_kitti2mm_is_ignored_refuted : forall fs inp out layer layer' id label,
  kitti fs inp out layer id label = kitti fs inp out layer' id label.
Proof. reflexivity. Qed.
(** Where it is "raw" or not given the layer is the one asked for; the cloud of kitti2mm is that of the
    file. *)
Theorem C240_raw_layer_where : forall fs inp out layer id label c, read_kitti inp = Some c -> can_write fs out -> layer = None \/ layer = Some "raw"%string ->
  written fs (kitti fs inp out layer id label) out
    (mkMM Line Plane G [(match layer with Some l => l | None => "raw"%string end, Some (LCloud c))] [] [] None id label).
Proof.
  intros fs inp out layer id label c R Wr D. assert (E : match layer with Some l => l | None => "raw"%string end = "raw"%string) by (destruct D as [->| ->]; reflexivity).
  rewrite E. unfold kitti2mm. rewrite R. unfold save_cloud, save_to_file. rewrite Wr. split; [reflexivity|]. cbn. unfold put. rewrite String.eqb_refl. reflexivity.
Qed.

(** C241: a column option beyond the end of the rows is not rejected: the number is taken from the next row,
    and for the last row from beyond the matrix. *)
Theorem C241_column_beyond_the_row_refuted : forall fs a r1 r2 v, t_format a = "xyz"%string -> t_x a = 1%Z ->
  List.length r1 = 3 -> List.length r2 = 3 -> table (t_in a) [r1; r2] 3 -> nth_error r2 0 = Some v ->
  (exists p, xyz_at (mkMat 2 3 (concat [r1; r2])) (t_x a) 0 = Ok p /\ snd p = v) /\ snd (txt fs a) = UB.
Proof.
  intros fs a r1 r2 v Fm X L1 L2 [_ R] V. destruct r1 as [|a1 [|a2 [|a3 [|]]]]; try discriminate. destruct r2 as [|b1 [|b2 [|b3 [|]]]]; try discriminate.
  cbn in V. injection V as ->. rewrite X. split; [eexists; split; reflexivity|].
  unfold txt2mm. rewrite R. unfold lift, cloud_from. rewrite Fm, X. reflexivity.
Qed.
(** Where the options lie within the rows nothing beyond the matrix is read (see C238 and C239 for what is read). *)
Theorem C241_columns_where : forall fs a rows cols, table (t_in a) rows cols -> is_col cols (t_x a) -> is_col cols (t_x a + 2) ->
  is_col cols (t_i a) -> is_col cols (t_r a) -> is_col cols (t_t a) -> t_format a <> "xyzrgb"%string -> snd (txt fs a) <> UB.
Proof.
  intros fs a rows cols [F R] X X2 I Ri Ti NF. unfold txt2mm. rewrite R. unfold lift.
  destruct (mapr_rows (xyz_at (mkMat (List.length rows) cols (concat rows)) (t_x a)) (cells3 (t_x a)) rows) as (p & E & P); [intros i r N; exact (xyz_cell rows cols i r _ F N X X2)|].
  destruct (mapr_rows (fun i => at_ (mkMat (List.length rows) cols (concat rows)) i (t_i a)) (fun r v => cell r (t_i a) v) rows) as (q & E2 & Q2); [intros i r N; exact (at_cell rows cols i r _ F N I)|].
  destruct (mapr_rows (fun i => at_ (mkMat (List.length rows) cols (concat rows)) i (t_r a)) (fun r v => cell r (t_r a) v) rows) as (q3 & E3 & _); [intros i r N; exact (at_cell rows cols i r _ F N Ri)|].
  destruct (mapr_rows (fun i => at_ (mkMat (List.length rows) cols (concat rows)) i (t_t a)) (fun r v => cell r (t_t a) v) rows) as (q4 & E4 & _); [intros i r N; exact (at_cell rows cols i r _ F N Ti)|].
  assert (C : cloud_from a (mkMat (List.length rows) cols (concat rows)) <> UB).
  { unfold cloud_from. cbn [mt_cols mt_rows]. destruct (String.eqb (t_format a) "xyz"); [destruct (Nat.leb 3 cols); [rewrite E|]; discriminate|].
    destruct (String.eqb (t_format a) "xyzi"); [destruct (Nat.leb 4 cols); [rewrite E; cbn [rbind]; rewrite E2|]; discriminate|].
    destruct (String.eqb (t_format a) "xyzirt"); [destruct (Nat.leb 6 cols); [rewrite E; cbn [rbind]; rewrite E2; cbn [rbind]; rewrite E3; cbn [rbind]; rewrite E4|]; discriminate|].
    destruct (String.eqb_spec (t_format a) "xyzrgb"); [contradiction|]. cbn [orb]. destruct (String.eqb (t_format a) "xyzrgb_normalized"); [|discriminate].
    destruct (Nat.leb_spec 6 cols); [|discriminate]. rewrite E. cbn [rbind].
    destruct (mapr_rows (colour true (mkMat (List.length rows) cols (concat rows))) (cells3 3) rows) as (q5 & E5 & _).
    { intros i r N. destruct (xyz_cell rows cols i r 3 F N) as (pc & Ec & Pc); [unfold is_col; lia|unfold is_col; lia|]. exists pc. split; [exact Ec|exact Pc]. }
    rewrite E5. discriminate. }
  destruct (cloud_from a _) as [c| |]; [|discriminate|contradiction]. unfold save_cloud, save_to_file.
  destruct (fs_write _ _ _ _ fs (t_out a)); [discriminate|]. destruct ot; discriminate.
Qed.
End Props.

(** ** Example: two rows *)
Definition ex_fs : FS unit unit unit unit := mkFS unit unit unit unit (fun _ => None) (fun _ => true) (fun _ => true).
Definition ex_read (f : string) : option Mat := if String.eqb f "in.txt" then Some (mkMat 2 4 [1; 2; 3; 9; 4; 5; 6; 8]%Q) else None.
Example ex_txt : written unit unit unit unit ex_fs
  (txt2mm unit unit unit unit false ex_read ex_fs (mkTxt "in.txt" "out.mm" "xyzi" None 0 3 4 5 (Some 7) None)) "out.mm"
  (mkMM unit unit unit [("raw"%string, Some (LCloud (mkCloud KXYZI [(1, 2, 3); (4, 5, 6)]%Q [9; 8]%Q [] [] [])))] [] [] None (Some 7) None).
Proof. split; reflexivity. Qed.
