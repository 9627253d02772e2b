(** Error cases of functions whose main properties are elsewhere (C97, C245). *)
From Coq Require Import String Reals.
From Verif Require Import Base GeomModel GnModel IcpRunModel.
Open Scope nat_scope.

(** C97: Gauss-Newton without a pose to start from is an error *)
Theorem C97_missing_guess_is_an_error : forall ldlt exp6 par p sched, g_point par = None ->
  optimal_tf_gauss_newton ldlt exp6 par p sched = Throw.
Proof. intros ldlt exp6 par p sched H. unfold optimal_tf_gauss_newton. rewrite H. reflexivity. Qed.
Print Assumptions C97_missing_guess_is_an_error.

(** C245: a text file that cannot be read is an error; the only errors are that and fewer than two points *)
Theorem C245_errors : forall (Pts : Type) (text_points : string -> option (list Pts)) f,
  load_xyz_file Pts text_points f = Throw <-> (forall p, text_points f = Some p -> List.length p < 2).
Proof.
  intros Pts tp f. unfold load_xyz_file. destruct (tp f) as [p|].
  - destruct (Nat.ltb_spec 1 (List.length p)) as [L|L]; (split; [intro H|intro H]); try discriminate; try reflexivity.
    + specialize (H p eq_refl). lia.
    + intros q [= <-]. lia.
  - split; [discriminate|reflexivity].
Qed.
Print Assumptions C245_errors.
