(** More on the command line programs: exit codes of sm-cli for wrong command lines (C217), files that mm-georef
    does not understand (C226, C228), colours out of range in txt2mm (C336). *)
From Coq Require Import String Ascii Reals Lia QArith Qround.
From Verif Require Import Base GeomModel SmCliModel.
Open Scope nat_scope.

(** ** sm-cli *)
Section SmCli.
Variables (PDF Twist Data : Type) (pdf_mean : PDF -> Pose) (pdf_change : Pose -> PDF -> PDF).
Variables (box_ok : V3 -> V3 -> bool) (parse_pose : string -> option Pose) (levmarq : (R * R * R -> list R) -> R * R * R).
Notation Env := (Env PDF Twist Data).
Notation run := (sm_cli PDF pdf_mean pdf_change Twist Data box_ok parse_pose levmarq).

(** the commands that take files *)
Definition commands : list string :=
  ["info"; "export-keyframes"; "export-rawlog"; "cut"; "level"; "trim"; "join"; "tf"]%string.
(** all that command [c] with arguments [files] needs is given *)
Definition complete (c : string) (files : list string) (a : Args) : Prop :=
  (c = "info"%string /\ List.length files = 1) \/
  (In c ["export-keyframes"; "export-rawlog"]%string /\ List.length files = 1 /\ a_out a <> None) \/
  (c = "cut"%string /\ List.length files = 1 /\ a_from a <> None /\ a_to a <> None /\ a_out a <> None) \/
  (c = "trim"%string /\ List.length files = 1 /\ a_min a <> None /\ a_max a <> None /\ a_out a <> None) \/
  (c = "join"%string /\ 1 <= List.length files /\ a_out a <> None) \/
  (c = "level"%string /\ List.length files = 2) \/
  (c = "tf"%string /\ List.length files = 3).

(** C217, the rest of the exit codes: --version gives 0 and nothing else happens; without it, no command or an
    unknown one gives 1; `help`, or any known command with --help, gives 0; a known command without all it needs
    gives 1; and in none of these cases is anything written. *)
Theorem C217_usage_exit_codes : forall (e : Env) a,
  (a_version a = true -> run e a = ([], Ok 0)) /\
  (a_version a = false ->
    (a_cmd a = [] -> run e a = ([], Ok 1)) /\
    forall c files, a_cmd a = c :: files ->
      (c = "help"%string -> run e a = ([], Ok 0)) /\
      (c <> "help"%string -> ~ In c commands -> run e a = ([], Ok 1)) /\
      (In c commands -> a_help a = true -> run e a = ([], Ok 0)) /\
      (In c commands -> a_help a = false -> ~ complete c files a -> run e a = ([], Ok 1))).
Proof.
  intros e a. unfold sm_cli. split; [intros ->; reflexivity|]. intros ->. unfold dispatch. split; [intros ->; reflexivity|].
  intros c files EC. rewrite EC. split; [intros ->; reflexivity|]. split.
  { intros NH NI. destruct (String.eqb_spec c "help"); [contradiction|].
    repeat match goal with |- context [String.eqb c ?s] =>
      destruct (String.eqb_spec c s) as [->|_]; [exfalso; apply NI; cbn; tauto|] end. reflexivity. }
  split.
  { intros I H. cbn in I. unfold command_info, command_export_kf, command_export_rawlog, command_cut, command_level, command_trim, command_join, command_tf.
    rewrite H. repeat (destruct I as [<-|I]; [reflexivity|]). destruct I. }
  intros I H NC. cbn in I.
  destruct I as [<-|[<-|[<-|[<-|[<-|[<-|[<-|[<-|[]]]]]]]]]; cbn [String.eqb Ascii.eqb Bool.eqb];
    unfold command_info, command_export_kf, command_export_rawlog, command_cut, command_level, command_trim, command_join, command_tf; rewrite H, EC;
    unfold complete in NC.
  - destruct files as [|f [|? ?]]; try reflexivity. exfalso. apply NC. left. auto.
  - destruct files as [|f [|? ?]], (a_out a); try reflexivity. exfalso. apply NC. right. left. cbn. repeat split; auto; discriminate.
  - destruct files as [|f [|? ?]], (a_out a); try reflexivity. exfalso. apply NC. right. left. cbn. repeat split; auto; discriminate.
  - destruct files as [|f [|? ?]], (a_from a), (a_to a), (a_out a); try reflexivity. exfalso. apply NC. right. right. left. cbn. repeat split; auto; discriminate.
  - destruct files as [|f [|g [|? ?]]]; try reflexivity. exfalso. apply NC. do 5 right. left. auto.
  - destruct files as [|f [|? ?]], (a_min a), (a_max a), (a_out a); try reflexivity. exfalso. apply NC. do 3 right. left. cbn. repeat split; auto; discriminate.
  - destruct files as [|f r], (a_out a); try reflexivity. exfalso. apply NC. do 4 right. left. cbn. repeat split; try lia; discriminate.
  - destruct files as [|f [|g [|h [|? ?]]]]; try reflexivity. exfalso. apply NC. do 6 right. auto.
Qed.
(** and all that is complete is run: the exit code is that of the command, 1 if it fails *)
Theorem C217_failures_exit_with_1 : forall (e : Env) a es r, run e a = (es, r) -> r = Ok 0 \/ r = Ok 1 \/ r = UB.
Proof.
  intros e a es r. unfold sm_cli. destruct (a_version a); [intro X; injection X as <- <-; auto|].
  assert (D : forall es r, dispatch PDF pdf_mean pdf_change Twist Data box_ok parse_pose levmarq e a = (es, r) -> r = Ok 0 \/ r = Ok 1 \/ r = Throw \/ r = UB).
  { assert (WB : forall A (x : W PDF Twist Data A) (f : A -> W PDF Twist Data nat), (forall a es r, f a = (es, r) -> r = Ok 0 \/ r = Ok 1 \/ r = Throw \/ r = UB) ->
              forall es r, wbnd PDF Twist Data x f = (es, r) -> r = Ok 0 \/ r = Ok 1 \/ r = Throw \/ r = UB).
    { intros A x f Hf es0 r0. destruct x as [es1 [v| |]]; cbn [wbnd].
      - destruct (f v) as [es2 r2] eqn:E. intro X. injection X as <- <-. exact (Hf _ _ _ E).
      - intro X. injection X as <- <-. auto.
      - intro X. injection X as <- <-. auto. }
    intros es0 r0. unfold dispatch, command_info, command_export_kf, command_export_rawlog, command_cut, command_level, command_trim, command_join, command_tf.
    repeat first
      [ intros X; injection X as <- <-; solve [auto]
      | apply WB; intros ? ? ?
      | match goal with |- (if ?c then _ else _) = _ -> _ => destruct c end
      | match goal with |- (match ?c with _ => _ end) = _ -> _ => destruct c end ]. }
  destruct (dispatch _ _ _ _ _ _ _ _ e a) as [es0 r0] eqn:E. destruct (D _ _ eq_refl) as [-> | [-> | [-> | ->]]]; intro X; injection X as <- <-; auto.
Qed.
End SmCli.

(** ** mm-georef *)
From Verif Require Import MmToolsModel MmToolsProps.
Section Georef.
Variables (Line Plane G Yaml : Type) (to_yaml : option G -> Yaml) (from_yaml : Yaml -> res (option G)).
Notation FS := (FS Line Plane G Yaml).
Notation CM := (CMap Line Plane G Yaml).
Notation georef ot := (mm_georef Line Plane G Yaml ot to_yaml from_yaml).
Notation has := (has Line Plane G Yaml).
Notation has_geo := (has_geo Line Plane G Yaml from_yaml).

(** C226, C227: the format of the georeferencing file is the binary one exactly if its name ends in ".georef" *)
Theorem C226_format_by_extension : forall f, is_binary_file f = true <-> exists base, f = (base ++ ".georef")%string.
Proof.
  assert (Nd : forall s, ext s = None -> forall b r, s <> (b ++ String "." r)%string).
  { induction s as [|c s IH]; intros E b r Es; [destruct b; discriminate|]. cbn [ext] in E. destruct (ext s) eqn:E2; [discriminate|].
    destruct b as [|d b]; cbn [append] in Es.
    - injection Es as -> ->. cbn in E. discriminate.
    - injection Es as -> Es. exact (IH eq_refl b r Es). }
  assert (Sp : forall s e, ext s = Some e <-> (exists b, s = (b ++ String "." e)%string) /\ ext e = None).
  { induction s as [|c s IH]; intro e; cbn [ext].
    - split; [discriminate|]. intros [[b Eb] _]. destruct b; discriminate.
    - destruct (ext s) as [e'|] eqn:Es.
      + split.
        * intro X. injection X as <-. destruct (proj1 (IH e') eq_refl) as [[b ->] N]. split; [exists (String c b); reflexivity|exact N].
        * intros [[b Eb] N]. destruct b as [|d b]; cbn [append] in Eb.
          -- injection Eb as -> ->. congruence.
          -- injection Eb as -> Eb. apply (IH e). split; [exists b; exact Eb|exact N].
      + destruct (Ascii.eqb_spec c ".") as [->|NC].
        * split.
          -- intro X. injection X as <-. split; [exists EmptyString; reflexivity|exact Es].
          -- intros [[b Eb] N]. destruct b as [|d b]; cbn [append] in Eb; [injection Eb as ->; reflexivity|].
             injection Eb as _ Eb. exfalso. exact (Nd s Es b e Eb).
        * split; [discriminate|]. intros [[b Eb] N]. destruct b as [|d b]; cbn [append] in Eb.
          -- injection Eb as -> ->. contradiction.
          -- injection Eb as -> Eb. exfalso. exact (Nd s Es b e Eb). }
  intro f. unfold is_binary_file. split.
  - destruct (ext f) as [e|] eqn:E; [|discriminate]. intro X. apply String.eqb_eq in X as ->. destruct (proj1 (Sp f "georef"%string) E) as [[b ->] _].
    exists b. reflexivity.
  - intros [b ->]. assert (E : ext (b ++ ".georef") = Some "georef"%string) by (apply Sp; split; [exists b; reflexivity|reflexivity]).
    rewrite E. reflexivity.
Qed.
(** C226: a georeferencing file that is missing, or does not hold a georeferencing in the format of its name,
    changes nothing and gives exit code 1. *)
Theorem C226_bad_georeferencing_file : forall ot fs map geo, (forall y, from_yaml y <> UB) -> (forall g, ~ has_geo fs geo g) ->
  georef ot fs map geo false true = ([], Ok 1).
Proof.
  intros ot fs map geo NU NG. unfold mm_georef, run_mm_inject, lift.
  assert (E : read_geo Line Plane G Yaml from_yaml fs geo = Throw).
  { unfold read_geo, opens. destruct (fs_read Line Plane G Yaml fs geo) eqn:R; [|reflexivity].
    destruct (fs_files Line Plane G Yaml fs geo) as [[m|g|y|rows|]|] eqn:F; try reflexivity.
    - destruct (is_binary_file geo) eqn:B; [|reflexivity]. exfalso. apply (NG g). left. split; [exact B|split; assumption].
    - destruct (is_binary_file geo) eqn:B; [reflexivity|]. destruct (from_yaml y) as [g| |] eqn:Y; [|reflexivity|destruct (NU y Y)].
      exfalso. apply (NG g). right. split; [exact B|]. exists y. split; [split; assumption|exact Y]. }
  rewrite E. reflexivity.
Qed.
(** C228: loading a metric map tells whether it loaded it: the result is true exactly if the file can be opened,
    and the map is then the one in the file; if it is false the map is the empty one. *)
Theorem C228_load_tells : forall ot fs f ss b m, load_from_file Line Plane G Yaml ot fs f = (ss, Ok (b, m)) ->
  ss = [] /\ (b = true <-> has fs f (CM m)) /\ (b = false -> m = new_map Line Plane G /\ forall c, ~ has fs f c).
Proof.
  intros ot fs f ss b m. unfold load_from_file, opens, has. destruct (fs_read Line Plane G Yaml fs f) eqn:R.
  - destruct (fs_files Line Plane G Yaml fs f) as [[m'| | | |]|] eqn:F; try discriminate.
    + intro X. injection X as <- <- <-. split; [reflexivity|]. split; [split; auto|discriminate].
    + destruct ot; [discriminate|]. intro X. injection X as <- <- <-. split; [reflexivity|].
      split; [split; [discriminate|intros [X _]; discriminate]|]. intros _. split; [reflexivity|]. intros c [X _]. discriminate.
  - destruct ot; [discriminate|]. intro X. injection X as <- <- <-. split; [reflexivity|].
    split; [split; [discriminate|intros [_ X]; discriminate]|]. intros _. split; [reflexivity|]. intros c [_ X]. discriminate.
Qed.
End Georef.

(** ** txt2mm *)
From Verif Require Import TxtToMapProps.
Section Txt.
Variables (Line Plane G Yaml : Type) (read_matrix : string -> option Mat) (ot : bool).
Notation FS := (FS Line Plane G Yaml).
Notation txt := (txt2mm Line Plane G Yaml ot read_matrix).
Notation table := (table read_matrix).

(** the number in the file, cut to its integer part, fits a byte *)
Definition byte_range (v : Q) : Prop := (-(1) < v /\ v < 256)%Q.
Lemma u8tof_ok v : byte_range v -> exists n, (0 <= n <= 255)%Z /\ n = Z.quot (Qnum v) (Z.pos (Qden v)) /\ u8tof v = Ok (inject_Z n / 255)%Q.
Proof.
  intros [L H]. unfold Qlt in L, H. cbn in L, H. exists (Z.quot (Qnum v) (Z.pos (Qden v))).
  assert (B : (0 <= Z.quot (Qnum v) (Z.pos (Qden v)) <= 255)%Z).
  { split.
    - destruct (Z_le_gt_dec 0 (Qnum v)) as [P|P]; [apply Z.quot_pos; lia|].
      rewrite <- (Z.opp_involutive (Qnum v)), Z.quot_opp_l by lia. rewrite Z.quot_small by lia. lia.
    - destruct (Z_le_gt_dec 0 (Qnum v)) as [P|P].
      + assert (Z.quot (Qnum v) (Z.pos (Qden v)) < 256)%Z by (apply Z.quot_lt_upper_bound; lia). lia.
      + rewrite <- (Z.opp_involutive (Qnum v)), Z.quot_opp_l by lia. rewrite Z.quot_small by lia. lia. }
  split; [exact B|]. split; [reflexivity|]. unfold u8tof. destruct (Z.leb_spec 0 (Z.quot (Qnum v) (Z.pos (Qden v)))); [|lia].
  destruct (Z.leb_spec (Z.quot (Qnum v) (Z.pos (Qden v))) 255); [reflexivity|lia].
Qed.
Lemma u8tof_bad v : ~ byte_range v -> u8tof v = UB.
Proof.
  intro N. assert (A : (v <= -(1) \/ 256 <= v)%Q).
  { destruct (Qlt_le_dec (-(1)) v) as [L|L]; [|left; exact L]. destruct (Qlt_le_dec v 256) as [H|H]; [|right; exact H]. exfalso. apply N. split; assumption. }
  unfold u8tof. unfold Qle in A. cbn in A. destruct (Z.leb_spec 0 (Z.quot (Qnum v) (Z.pos (Qden v)))) as [B|B]; [|reflexivity].
  destruct (Z.leb_spec (Z.quot (Qnum v) (Z.pos (Qden v))) 255) as [C|C]; [|reflexivity]. exfalso.
  destruct A as [A|A].
  - assert (1 <= Z.quot (- Qnum v) (Z.pos (Qden v)))%Z by (apply Z.quot_le_lower_bound; lia). rewrite Z.quot_opp_l in H by lia. lia.
  - assert (256 <= Z.quot (Qnum v) (Z.pos (Qden v)))%Z by (apply Z.quot_le_lower_bound; lia). lia.
Qed.
Lemma mapr_ub {A B} (f : A -> res B) (g : forall a, f a <> Throw) l : Exists (fun a => f a = UB) l -> mapr f l = UB.
Proof.
  intro E. induction E as [a l E|a l E IH]; cbn [mapr].
  - rewrite E. reflexivity.
  - destruct (f a) as [b| |] eqn:F; [|destruct (g a F)|reflexivity]. cbn [rbind]. rewrite IH. reflexivity.
Qed.

(** C336: with the format xyzrgb a colour that is not between 0 and 255 has undefined behaviour: nothing checks it. *)
Theorem C336_colour_out_of_range_refuted : forall (fs : FS) a rows cols r j v, table (t_in a) rows cols -> t_format a = "xyzrgb"%string ->
  6 <= cols -> is_col cols (t_x a) -> is_col cols (t_x a + 2) ->
  In r rows -> In j [3; 4; 5]%Z -> cell r j v -> ~ byte_range v -> snd (txt fs a) = UB.
Proof.
  intros fs a rows cols r j v [F R] Fm L X X2 Ir Ij Cv NB. unfold txt2mm. rewrite R. unfold lift, cloud_from. rewrite Fm.
  cbn [String.eqb Ascii.eqb Bool.eqb orb mt_cols mt_rows]. destruct (Nat.leb_spec 6 cols); [|lia].
  destruct (mapr_rows (xyz_at (mkMat (List.length rows) cols (concat rows)) (t_x a)) (cells3 (t_x a)) rows) as (p & E & P); [intros i r' N; exact (xyz_cell rows cols i r' _ F N X X2)|].
  rewrite E. cbn [rbind].
  assert (U : mapr (colour false (mkMat (List.length rows) cols (concat rows))) (seq 0 (List.length rows)) = UB).
  { apply mapr_ub.
    - intro i. unfold colour. assert (NT : forall i j, at_ (mkMat (List.length rows) cols (concat rows)) i j <> Throw).
      { intros i0 j0. unfold at_. destruct (Z.ltb _ 0); [discriminate|]. destruct (nth_error _ _); discriminate. }
      assert (NU : forall v, u8tof v <> Throw) by (intro w; unfold u8tof; destruct (_ && _); discriminate).
      destruct (at_ _ i 3) eqn:E3; [|destruct (NT i 3%Z E3)|discriminate]. cbn [rbind].
      destruct (at_ _ i 4) eqn:E4; [|destruct (NT i 4%Z E4)|discriminate]. cbn [rbind].
      destruct (at_ _ i 5) eqn:E5; [|destruct (NT i 5%Z E5)|discriminate]. cbn [rbind].
      destruct (u8tof a0) eqn:U0; [|destruct (NU _ U0)|discriminate]. cbn [rbind].
      destruct (u8tof a1) eqn:U1; [|destruct (NU _ U1)|discriminate]. cbn [rbind].
      destruct (u8tof a2) eqn:U2; [discriminate|destruct (NU _ U2)|discriminate].
    - apply In_nth_error in Ir as [i Ni]. apply Exists_exists. exists i. split.
      { apply in_seq. assert (i < List.length rows) by (apply nth_error_Some; rewrite Ni; discriminate). lia. }
      unfold colour.
      destruct (at_cell rows cols i r 3 F Ni) as (v3 & E3 & C3); [unfold is_col; lia|].
      destruct (at_cell rows cols i r 4 F Ni) as (v4 & E4 & C4); [unfold is_col; lia|].
      destruct (at_cell rows cols i r 5 F Ni) as (v5 & E5 & C5); [unfold is_col; lia|].
      rewrite E3, E4, E5. cbn [rbind].
      assert (NU : forall v, u8tof v <> Throw) by (intro w; unfold u8tof; destruct (_ && _); discriminate).
      destruct Cv as [_ Cv], C3 as [_ C3], C4 as [_ C4], C5 as [_ C5]. cbn in Ij.
      destruct Ij as [<-|[<-|[<-|[]]]].
      + assert (v = v3) as <- by congruence. rewrite (u8tof_bad _ NB). reflexivity.
      + assert (v = v4) as <- by congruence. rewrite (u8tof_bad _ NB). destruct (u8tof v3) eqn:U3; [reflexivity|destruct (NU _ U3)|reflexivity].
      + assert (v = v5) as <- by congruence. rewrite (u8tof_bad _ NB). destruct (u8tof v3) eqn:U3; [|destruct (NU _ U3)|reflexivity]. cbn [rbind].
        destruct (u8tof v4) eqn:U4; [reflexivity|destruct (NU _ U4)|reflexivity]. }
  rewrite U. reflexivity.
Qed.

(** Where every colour is, as a byte, in the range, the map is written, each colour being the whole part of the
    number in the file, over 255. *)
Definition whole_255 (v c : Q) : Prop := exists n, (0 <= n <= 255)%Z /\ (inject_Z n - 1 < v /\ v < inject_Z n + 1)%Q /\ (0 <= v -> inject_Z n <= v)%Q /\ (c == inject_Z n / 255)%Q.
Definition colour_bytes (r : list Q) (p : P3) : Prop :=
  let '(x, y, z) := p in exists a b c, cell r 3 a /\ cell r 4 b /\ cell r 5 c /\ whole_255 a x /\ whole_255 b y /\ whole_255 c z.
Lemma whole v : byte_range v -> exists c, u8tof v = Ok c /\ whole_255 v c.
Proof.
  intro B. destruct (u8tof_ok v B) as (n & N & En & U). eexists. split; [exact U|]. exists n. split; [exact N|].
  destruct B as [L H]. unfold Qlt in L, H. cbn in L, H. pose proof (Z.quot_rem' (Qnum v) (Z.pos (Qden v))) as D. rewrite <- En in D.
  pose proof (Z.rem_bound_abs (Qnum v) (Z.pos (Qden v))) as RB.
  assert (R2 : (- Z.pos (Qden v) < Z.rem (Qnum v) (Z.pos (Qden v)) < Z.pos (Qden v))%Z) by lia.
  split; [|split; [|reflexivity]].
  - unfold Qlt, Qminus, Qplus, Qopp, inject_Z. cbn. split; nia.
  - unfold Qle, inject_Z. cbn. intro P. assert (0 <= Qnum v)%Z by lia. pose proof (Z.rem_nonneg (Qnum v) (Z.pos (Qden v))). nia.
Qed.
Theorem C336_colours_where : forall (fs : FS) a rows cols, table (t_in a) rows cols -> can_write Line Plane G Yaml fs (t_out a) ->
  t_format a = "xyzrgb"%string -> 6 <= cols -> is_col cols (t_x a) -> is_col cols (t_x a + 2) ->
  (forall r j v, In r rows -> In j [3; 4; 5]%Z -> cell r j v -> byte_range v) ->
  exists c, written Line Plane G Yaml fs (txt fs a) (t_out a) (raw_map Line Plane G a c) /\ c_kind c = KRGB /\
    Forall2 (cells3 (t_x a)) rows (c_xyz c) /\ Forall2 colour_bytes rows (c_rgb c).
Proof.
  intros fs a rows cols [F R] Wr Fm L X X2 By.
  destruct (mapr_rows (xyz_at (mkMat (List.length rows) cols (concat rows)) (t_x a)) (cells3 (t_x a)) rows) as (p & E & P); [intros i r N; exact (xyz_cell rows cols i r _ F N X X2)|].
  destruct (mapr_rows (colour false (mkMat (List.length rows) cols (concat rows))) colour_bytes rows) as (q & E2 & Q2).
  { intros i r N. assert (I : In r rows) by (apply nth_error_In with i; exact N).
    destruct (at_cell rows cols i r 3 F N) as (v3 & E3 & C3); [unfold is_col; lia|].
    destruct (at_cell rows cols i r 4 F N) as (v4 & E4 & C4); [unfold is_col; lia|].
    destruct (at_cell rows cols i r 5 F N) as (v5 & E5 & C5); [unfold is_col; lia|].
    destruct (whole v3) as (c3 & U3 & W3); [apply (By r 3%Z); cbn; auto|].
    destruct (whole v4) as (c4 & U4 & W4); [apply (By r 4%Z); cbn; auto|].
    destruct (whole v5) as (c5 & U5 & W5); [apply (By r 5%Z); cbn; auto|].
    exists (c3, c4, c5). unfold colour. rewrite E3, E4, E5. cbn [rbind]. rewrite U3, U4, U5. split; [reflexivity|].
    exists v3, v4, v5. repeat (split; [assumption|]). assumption. }
  exists (mkCloud KRGB p [] [] [] q). split; [|split; [reflexivity|split; [exact P|exact Q2]]].
  unfold txt2mm. rewrite R. unfold lift, cloud_from. rewrite Fm. cbn [String.eqb Ascii.eqb Bool.eqb orb mt_cols mt_rows].
  destruct (Nat.leb_spec 6 cols); [|lia]. rewrite E. cbn [rbind]. rewrite E2. cbn [rbind].
  unfold save_cloud, save_to_file. unfold can_write in Wr. rewrite Wr. split; [reflexivity|]. cbn. unfold put. rewrite String.eqb_refl. reflexivity.
Qed.
End Txt.

(** ** Cases *)
Definition grey : list Q := [1; 2; 3; 300; 10; 20]%Q.
Lemma C336_case : exists a (rm : string -> option Mat), table rm (t_in a) [grey] 6 /\ t_format a = "xyzrgb"%string /\ is_col 6 (t_x a) /\ is_col 6 (t_x a + 2) /\
  cell grey 3 300 /\ ~ byte_range 300 /\ byte_range (1 # 2).
Proof.
  exists (mkTxt "a.txt" "b.mm" "xyzrgb" None 0 3 4 5 None None), (fun _ => Some (mkMat 1 6 grey)).
  split; [split; [repeat constructor|reflexivity]|]. split; [reflexivity|]. unfold is_col, cell. cbn. repeat split; try lia.
  - intros [_ H]. discriminate.
Qed.
Lemma C217_usage_case : ~ complete "cut" ["a"%string] (mkArgs ["cut"; "a"]%string false false (Some 1) None None None (Some "b"%string) None).
Proof.
  unfold complete. cbn. intros H. decompose [or and] H; try discriminate; try congruence; tauto.
Qed.
