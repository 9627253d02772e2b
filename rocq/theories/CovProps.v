(** C31, C99, C100: the residual vector of the covariance estimate. *)
From Coq Require Import List Lia.
From Verif Require Import Base CovModel.
Import ListNotations.

Section CovP.
Context {Num Pose PtPt PtLn LnLn PtPl PlPl : Type}.
Variable f_pt2pt : PtPt -> Pose -> E3 Num.
Variable f_pt2ln : PtLn -> Pose -> E3 Num.
Variable f_ln2ln : LnLn -> Pose -> E4 Num.
Variable f_pt2pl : PtPl -> Pose -> E3 Num.
Variable f_pl2pl : PlPl -> Pose -> E3 Num.
Notation pairs := (CPairs PtPt PtLn LnLn PtPl PlPl).
Notation errors := (error_vector f_pt2pt f_pt2ln f_ln2ln f_pt2pl f_pl2pl).

(** All the residual components of all the pairings, in the order of the code. *)
Definition components (p : pairs) (T : Pose) : list Num :=
  flat_map (fun x => l3 (f_pt2pt x T)) (cp_pt2pt p) ++ flat_map (fun x => l3 (f_pt2ln x T)) (cp_pt2ln p) ++
  flat_map (fun x => l4 (f_ln2ln x T)) (cp_ln2ln p) ++ flat_map (fun x => l3 (f_pt2pl x T)) (cp_pt2pl p) ++
  flat_map (fun x => l3 (f_pl2pl x T)) (cp_pl2pl p).

(** ** Writes *)
Lemma write_ok v : forall (a b c : list (option Num)) at_, at_ = length a -> length b = length v ->
  write (a ++ b ++ c) at_ v = Ok (a ++ map Some v ++ c).
Proof.
  induction v as [|x v IH]; intros a b c at_ -> L; cbn [write map].
  - destruct b; [reflexivity|discriminate L].
  - destruct b as [|y b]; [discriminate L|]. injection L as L.
    destruct (Nat.ltb_spec (length a) (length (a ++ (y :: b) ++ c))) as [_|G]; [|rewrite !app_length in G; simpl in G; lia].
    rewrite firstn_app, Nat.sub_diag, firstn_all. cbn [firstn]. rewrite app_nil_r.
    rewrite skipn_app. replace (S (length a) - length a) with 1 by lia. rewrite skipn_all2 by lia. cbn [app skipn].
    change (Some x :: b ++ c) with ([Some x] ++ b ++ c). rewrite app_assoc. rewrite (IH (a ++ [Some x]) b c (S (length a))).
    + rewrite <- app_assoc. reflexivity.
    + rewrite app_length. simpl. lia.
    + exact L.
Qed.

Lemma write_class_ok step vals : Forall (fun v : list Num => length v = step) vals ->
  forall idx base (a b c : list (option Num)), length a = base + idx * step -> length b = length vals * step ->
  write_class (a ++ b ++ c) base step idx vals = Ok (a ++ map Some (concat vals) ++ c).
Proof.
  induction 1 as [|v vals Lv F IH]; intros idx base a b c La Lb; cbn [write_class concat].
  - destruct b; [reflexivity|discriminate Lb].
  - cbn [length] in Lb.
    assert (Eb : b = firstn step b ++ skipn step b) by (symmetry; apply firstn_skipn).
    assert (Lf : length (firstn step b) = step) by (rewrite firstn_length; lia).
    rewrite Eb. rewrite <- (app_assoc (firstn step b)). rewrite write_ok; [|lia|lia]. cbn [rbind].
    rewrite app_assoc. rewrite (IH (S idx) base (a ++ map Some v) (skipn step b) c).
    + rewrite map_app, <- !app_assoc. reflexivity.
    + rewrite app_length, map_length. simpl. lia.
    + rewrite skipn_length. lia.
Qed.

Lemma all3 {A} (f : A -> Pose -> E3 Num) T l : Forall (fun v => length v = 3) (map (fun x => l3 (f x T)) l).
Proof. rewrite Forall_map. apply Forall_forall. reflexivity. Qed.
Lemma all4 {A} (f : A -> Pose -> E4 Num) T l : Forall (fun v => length v = 4) (map (fun x => l4 (f x T)) l).
Proof. rewrite Forall_map. apply Forall_forall. reflexivity. Qed.
Lemma len3 {A} (f : A -> Pose -> E3 Num) T l : length (flat_map (fun x => l3 (f x T)) l) = length l * 3.
Proof. induction l as [|x l IH]; simpl; [reflexivity|]. rewrite IH. reflexivity. Qed.
Lemma len4 {A} (f : A -> Pose -> E4 Num) T l : length (flat_map (fun x => l4 (f x T)) l) = length l * 4.
Proof. induction l as [|x l IH]; simpl; [reflexivity|]. rewrite IH. reflexivity. Qed.

Definition planes (p : pairs) : nat := length (cp_pt2pl p) + length (cp_pl2pl p).

(** C31: without line-to-line pairings, or without any pairing to planes, every component of every
    pairing is in its own slot, in order, and every slot is set. *)
Theorem C31_every_component_in_its_slot : forall (p : pairs) T,
  p <> mkCP [] [] [] [] [] -> (cp_ln2ln p = [] \/ planes p = 0) ->
  errors p T = Ok (map Some (components p T)).
Proof.
  intros p T NE H. unfold error_vector.
  destruct p as [a b c d e]. unfold planes, components in *. cbn [cp_pt2pt cp_pt2ln cp_ln2ln cp_pt2pl cp_pl2pl] in *.
  set (n := (length a + length e + length b + length d) * 3 + length c * 4).
  destruct (Nat.eqb_spec n 0) as [Z|NZ].
  { exfalso. destruct a, b, c, d, e; try (exact (NE eq_refl)); unfold n in Z; simpl in Z; lia. }
  assert (S0 : forall k m, m <= k -> @repeat (option Num) None k = repeat None m ++ repeat None (k - m)) by (intros k m L; rewrite <- repeat_app; f_equal; lia).
  (* points *)
  rewrite (S0 n (length a * 3)) by (unfold n; lia).
  assert (W1 := write_class_ok 3 _ (all3 f_pt2pt T a) 0 0 [] (repeat None (length a * 3)) (repeat None (n - length a * 3)) eq_refl ltac:(rewrite repeat_length, map_length; lia)).
  cbn [app] in W1. rewrite W1. clear W1. cbn [rbind app].
  rewrite <- flat_map_concat_map. set (A := map Some (flat_map _ a)). assert (LA : length A = length a * 3) by (unfold A; rewrite map_length, len3; reflexivity).
  (* point to line *)
  rewrite (S0 (n - length a * 3) (length b * 3)) by (unfold n; lia).
  rewrite (write_class_ok 3 _ (all3 f_pt2ln T b) 0 (length a * 3) A (repeat None (length b * 3))); [|rewrite LA; lia|rewrite repeat_length, map_length; lia]. cbn [rbind app].
  rewrite <- flat_map_concat_map. set (B := map Some (flat_map _ b)). assert (LB : length B = length b * 3) by (unfold B; rewrite map_length, len3; reflexivity).
  rewrite !(app_assoc A). set (AB := A ++ B). assert (LAB : length AB = length a * 3 + length b * 3) by (unfold AB; rewrite app_length; lia).
  (* line to line *)
  rewrite (S0 (n - length a * 3 - length b * 3) (length c * 4)) by (unfold n; lia).
  rewrite (write_class_ok 4 _ (all4 f_ln2ln T c) 0 (length a * 3 + length b * 3) AB (repeat None (length c * 4))); [|rewrite LAB; lia|rewrite repeat_length, map_length; lia]. cbn [rbind app].
  rewrite <- flat_map_concat_map. set (C := map Some (flat_map _ c)). assert (LC : length C = length c * 4) by (unfold C; rewrite map_length, len4; reflexivity).
  rewrite !(app_assoc AB). set (ABC := AB ++ C). assert (LABC : length ABC = length a * 3 + length b * 3 + length c * 4) by (unfold ABC; rewrite app_length; lia).
  destruct H as [H|H].
  - (* no lines *)
    assert (c0 : length c = 0) by (rewrite H; reflexivity).
    rewrite (S0 (n - length a * 3 - length b * 3 - length c * 4) (length d * 3)) by (unfold n; lia).
    rewrite (write_class_ok 3 _ (all3 f_pt2pl T d) 0 (length a * 3 + length b * 3 + length c) ABC (repeat None (length d * 3))); [|rewrite LABC; lia|rewrite repeat_length, map_length; lia]. cbn [rbind app].
    rewrite <- flat_map_concat_map. set (D := map Some (flat_map _ d)). assert (LD : length D = length d * 3) by (unfold D; rewrite map_length, len3; reflexivity).
    rewrite !(app_assoc ABC). set (ABCD := ABC ++ D). assert (LABCD : length ABCD = length a * 3 + length b * 3 + length c * 4 + length d * 3) by (unfold ABCD; rewrite app_length; lia).
    rewrite (S0 (n - length a * 3 - length b * 3 - length c * 4 - length d * 3) (length e * 3)) by (unfold n; lia).
    rewrite (write_class_ok 3 _ (all3 f_pl2pl T e) 0 (length a * 3 + length b * 3 + length c + length d * 3) ABCD (repeat None (length e * 3))); [|rewrite LABCD; lia|rewrite repeat_length, map_length; lia].
    rewrite <- flat_map_concat_map. replace (n - length a * 3 - length b * 3 - length c * 4 - length d * 3 - length e * 3) with 0 by (unfold n; lia).
    cbn [repeat]. rewrite app_nil_r. f_equal. unfold ABCD, ABC, AB, A, B, C, D. rewrite !map_app, <- !app_assoc. reflexivity.
  - (* no planes *)
    destruct d; [|simpl in H; lia]. destruct e; [|simpl in H; lia].
    cbn [map write_class rbind flat_map]. replace (n - length a * 3 - length b * 3 - length c * 4) with 0 by (unfold n; simpl; lia).
    cbn [repeat]. rewrite app_nil_r. f_equal. unfold ABC, AB, A, B, C. rewrite !app_nil_r, !map_app, <- !app_assoc. reflexivity.
Qed.

(** C31: without pairings the result is the fixed fallback, whatever the rest. *)
Theorem C31_fallback_without_pairings : forall Mat (fallback : Mat) estimate T,
  covariance f_pt2pt f_pt2ln f_ln2ln f_pt2pl f_pl2pl fallback estimate (mkCP [] [] [] [] []) T = Ok fallback.
Proof. reflexivity. Qed.
(** C31: with any pairing the result is the estimate from the error vector. *)
Theorem C31_estimate_with_pairings : forall Mat (fallback : Mat) estimate (p : pairs) T, p <> mkCP [] [] [] [] [] ->
  covariance f_pt2pt f_pt2ln f_ln2ln f_pt2pl f_pl2pl fallback estimate p T = estimate (errors p) T.
Proof.
  intros Mat fallback estimate [a b c d e] T NE. unfold covariance, cov_empty. cbn [cp_pt2pt cp_pt2ln cp_ln2ln cp_pt2pl cp_pl2pl].
  destruct a, b, c, d, e; try reflexivity. contradiction.
Qed.

(** ** Length and unset slots *)
Lemma write_length v : forall (err err' : list (option Num)) at_, write err at_ v = Ok err' -> length err' = length err.
Proof.
  induction v as [|x v IH]; intros err err' at_ E; cbn [write] in E; [injection E as <-; reflexivity|].
  destruct (Nat.ltb_spec at_ (length err)) as [L|]; [|discriminate E]. apply IH in E. rewrite E, app_length, firstn_length. cbn [length]. rewrite skipn_length. lia.
Qed.
Lemma write_beyond v : forall (err err' : list (option Num)) at_ i, write err at_ v = Ok err' -> at_ + length v <= i -> nth_error err' i = nth_error err i.
Proof.
  induction v as [|x v IH]; intros err err' at_ i E L; cbn [write] in E; [injection E as <-; reflexivity|]. cbn [length] in L.
  destruct (Nat.ltb_spec at_ (length err)) as [LT|]; [|discriminate E]. rewrite (IH _ _ _ i E) by lia.
  assert (LF : length (firstn at_ err) = at_) by (rewrite firstn_length; lia).
  rewrite nth_error_app2 by lia. rewrite LF. replace (i - at_) with (S (i - S at_)) by lia. cbn [nth_error].
  assert (K : forall (A : Type) n (l : list A) j, nth_error (skipn n l) j = nth_error l (n + j)).
  { clear. intros A n. induction n as [|n IH]; intros l j; [reflexivity|]. destruct l; [destruct j; reflexivity|]. cbn [skipn Nat.add nth_error]. apply IH. }
  rewrite K. f_equal. lia.
Qed.
Lemma write_class_beyond step vals : Forall (fun v : list Num => length v = step) vals ->
  forall (err err' : list (option Num)) base idx i, write_class err base step idx vals = Ok err' ->
  base + (idx + length vals) * step <= i -> nth_error err' i = nth_error err i /\ length err' = length err.
Proof.
  induction 1 as [|v vals Lv F IH]; intros err err' base idx i E L; cbn [write_class] in E.
  - injection E as <-. auto.
  - cbn [length] in L. destruct (write err (base + idx * step) v) as [err1| |] eqn:W; try discriminate E. cbn [rbind] in E.
    destruct (IH _ _ _ _ i E) as [A B]; [lia|]. rewrite A, B. split; [|apply (write_length _ _ _ _ W)].
    apply (write_beyond _ _ _ _ _ W). lia.
Qed.

(** Finding: with line-to-line pairings and pairings to planes, the offset after the lines is advanced by one
    per line instead of four: the blocks of the planes overwrite those of the lines, and the last
    slots are never set: 3 times the number of line pairs or of pairs with planes, whichever is less. *)
Theorem C99_tail_slots_never_set_refuted : forall (p : pairs) T err,
  cp_ln2ln p <> [] -> planes p <> 0 -> errors p T = Ok err ->
  length err = length (components p T) /\
  forall i, length err - 3 * Nat.min (length (cp_ln2ln p)) (planes p) <= i < length err -> nth_error err i = Some None.
Proof.
  intros p T err NL NP E. unfold error_vector in E. destruct p as [a b c d e]. unfold planes, components in *. cbn [cp_pt2pt cp_pt2ln cp_ln2ln cp_pt2pl cp_pl2pl] in *.
  set (n := (length a + length e + length b + length d) * 3 + length c * 4) in *.
  destruct (Nat.eqb_spec n 0); [discriminate E|].
  destruct (write_class _ 0 3 0 _) as [e1| |] eqn:W1; try discriminate E. cbn [rbind] in E.
  destruct (write_class e1 _ 3 0 _) as [e2| |] eqn:W2; try discriminate E. cbn [rbind] in E.
  destruct (write_class e2 _ 4 0 _) as [e3| |] eqn:W3; try discriminate E. cbn [rbind] in E.
  destruct (write_class e3 _ 3 0 _) as [e4| |] eqn:W4; try discriminate E. cbn [rbind] in E.
  assert (P : length d + length e > 0) by lia. assert (Q : length c > 0) by (destruct c; [contradiction|simpl; lia]).
  assert (B : forall i, length a * 3 + length b * 3 + length c * 4 <= i -> length a * 3 + length b * 3 + length c + length d * 3 + length e * 3 <= i ->
    nth_error err i = nth_error (@repeat (option Num) None n) i /\ length err = n).
  { intros i L1 L2.
    destruct (write_class_beyond 3 _ (all3 f_pt2pt T a) _ _ _ _ i W1) as [A1 B1]; [rewrite map_length; lia|].
    destruct (write_class_beyond 3 _ (all3 f_pt2ln T b) _ _ _ _ i W2) as [A2 B2]; [rewrite map_length; lia|].
    destruct (write_class_beyond 4 _ (all4 f_ln2ln T c) _ _ _ _ i W3) as [A3 B3]; [rewrite map_length; lia|].
    destruct (write_class_beyond 3 _ (all3 f_pt2pl T d) _ _ _ _ i W4) as [A4 B4]; [rewrite map_length; lia|].
    destruct (write_class_beyond 3 _ (all3 f_pl2pl T e) _ _ _ _ i E) as [A5 B5]; [rewrite map_length; lia|].
    rewrite A5, A4, A3, A2, A1, B5, B4, B3, B2, B1, repeat_length. auto. }
  assert (LN : length err = n) by (apply (B (n + n)); unfold n; lia).
  split.
  - rewrite LN, !app_length, !len3, len4. unfold n. lia.
  - intros i [G H]. rewrite LN in G, H. 
    destruct (B i) as [-> _]; [unfold n in G; lia|unfold n in G; lia|].
    rewrite (nth_error_nth' _ None) by (rewrite repeat_length; exact H). rewrite nth_repeat. reflexivity.
Qed.

(** Finding: the Jacobian is not evaluated at the given pose: its z coordinate is never assigned (x is
    assigned twice). *)
Theorem C100_z_not_assigned_refuted : forall x y z z' yaw pitch roll : Num,
  nth_error (x_initial x y z yaw pitch roll) 2 = Some None /\
  x_initial x y z yaw pitch roll = x_initial x y z' yaw pitch roll /\
  (forall i, i < 6 -> i <> 2 -> nth_error (x_initial x y z yaw pitch roll) i = nth_error (map Some [x; y; z; yaw; pitch; roll]) i).
Proof.
  intros. split; [reflexivity|]. split; [reflexivity|].
  intros i L N. do 6 (destruct i as [|i]; [try reflexivity; contradiction|]). lia.
Qed.

End CovP.

(** A concrete case of C31 (four pairings) and of C99 (a line pair and a plane pair): residuals that
    tell their own class, pairing and component *)
Definition tag3 (cls k : nat) (_ : unit) : E3 (nat * nat * nat) := mkE3 (cls, k, 0) (cls, k, 1) (cls, k, 2).
Definition tag4 (cls k : nat) (_ : unit) : E4 (nat * nat * nat) := mkE4 (cls, k, 0) (cls, k, 1) (cls, k, 2) (cls, k, 3).
Example four_pairings : error_vector (tag3 0) (tag3 1) (tag4 2) (tag3 3) (tag3 4) (mkCP [0; 1] [0] [] [0] []) tt =
  Ok (map Some [(0,0,0); (0,0,1); (0,0,2); (0,1,0); (0,1,1); (0,1,2); (1,0,0); (1,0,1); (1,0,2); (3,0,0); (3,0,1); (3,0,2)]).
Proof. reflexivity. Qed.
Example line_and_plane : error_vector (tag3 0) (tag3 1) (tag4 2) (tag3 3) (tag3 4) (mkCP [] [] [0] [0] []) tt =
  Ok [Some (2,0,0); Some (3,0,0); Some (3,0,1); Some (3,0,2); None; None; None].
Proof. reflexivity. Qed.
