(** C306: the consistency check of point clouds. *)
From Coq Require Import String.
From Verif Require Import Base SanityModel.

(** A channel of a cloud: its name, number of values, and whether an empty one is accepted. *)
Definition channels (c : SCloud) : list (string * nat * bool) :=
  match c with
  | XYZIRT _ i r t => [("Intensity"%string, List.length i, true); ("Ring"%string, List.length r, true); ("Timestamp"%string, List.length t, true)]
  | XYZI _ (Some i) => [("Intensity"%string, List.length i, false)]
  | _ => []
  end.
(** A channel that has one value per point, or, where that is accepted, none at all. *)
Definition complete (points : nat) (ch : string * nat * bool) : Prop :=
  snd (fst ch) = points \/ (snd ch = true /\ snd (fst ch) = 0).
Definition completeb (n : nat) (ch : string * nat * bool) : bool :=
  Nat.eqb (snd (fst ch)) n || (snd ch && Nat.eqb (snd (fst ch)) 0).
Lemma completeb_spec n ch : completeb n ch = true <-> complete n ch.
Proof. unfold completeb, complete. rewrite orb_true_iff, andb_true_iff, !Nat.eqb_eq. reflexivity. Qed.

Lemma check_opt {A} (l : list A) n name w st :
  check_channel (has_field l) l n name w st =
  if completeb n (name, List.length l, true) then st else (false, if w then (snd st ++ [(name, List.length l, n)])%list else snd st).
Proof.
  unfold check_channel, completeb. cbn [fst snd andb]. destruct l as [|a l]; cbn [has_field andb].
  - rewrite orb_true_r. reflexivity.
  - destruct (Nat.eqb (List.length (a :: l)) n); reflexivity.
Qed.
Lemma check_req {A} (l : list A) n name w st :
  check_channel true l n name w st =
  if completeb n (name, List.length l, false) then st else (false, if w then (snd st ++ [(name, List.length l, n)])%list else snd st).
Proof. unfold check_channel, completeb. cbn [fst snd andb]. rewrite orb_false_r. destruct (Nat.eqb (List.length l) n); reflexivity. Qed.

(** C306: a cloud passes exactly if every channel it has holds one value per point (clouds with intensity, ring and
    time may lack a channel altogether); asking for warnings does not change the verdict, and then there is one for
    each wrong channel, in order, with the length found and the number of points, and none otherwise. *)
Theorem C306_sanity_check : forall c w,
  (fst (sanity_check c w) = true <-> Forall (complete (sc_size c)) (channels c)) /\
  snd (sanity_check c w) =
    (if w then map (fun ch => (fst (fst ch), snd (fst ch), sc_size c)) (filter (fun ch => negb (completeb (sc_size c) ch)) (channels c)) else []).
Proof.
  intros c w. destruct c as [p i r t | p [i|] | p].
  - unfold sanity_check. set (n := sc_size _). cbn [channels]. rewrite !check_opt.
    set (A := ("Intensity"%string, List.length i, true)). set (B := ("Ring"%string, List.length r, true)). set (C := ("Timestamp"%string, List.length t, true)).
    assert (X : Forall (complete n) [A; B; C] <-> completeb n A = true /\ completeb n B = true /\ completeb n C = true).
    { rewrite !completeb_spec. split; [intro F; inversion F as [|? ? FA F1]; inversion F1 as [|? ? FB F2]; inversion F2 as [|? ? FC F3]; subst; auto|].
      intros (FA & FB & FC). constructor; [exact FA|]. constructor; [exact FB|]. constructor; [exact FC|constructor]. }
    rewrite X. cbn [filter]. destruct (completeb n A), (completeb n B), (completeb n C), w; cbn; (split; [|reflexivity]); split; try discriminate;
      try (intros (Y1 & Y2 & Y3); discriminate); auto.
  - unfold sanity_check. set (n := sc_size _). cbn [channels]. rewrite check_req.
    set (A := ("Intensity"%string, List.length i, false)).
    assert (X : Forall (complete n) [A] <-> completeb n A = true).
    { rewrite !completeb_spec. split; [intro F; inversion F; assumption|]. intros FA. constructor; [exact FA|constructor]. }
    rewrite X. cbn [filter]. destruct (completeb n A), w; cbn; (split; [|reflexivity]); split; try discriminate; auto.
  - split; [split; [intros _; constructor | reflexivity] | destruct w; reflexivity].
  - split; [split; [intros _; constructor | reflexivity] | destruct w; reflexivity].
Qed.

Example C306_case :
  sanity_check (XYZIRT [(0, 0, 0); (1, 0, 0)]%Q [1; 2]%Q [] [0; 1; 2]%Q) true = (false, [("Timestamp"%string, 3, 2)]) /\
  sanity_check (XYZI [(0, 0, 0)]%Q (Some [])) true = (false, [("Intensity"%string, 0, 1)]) /\
  fst (sanity_check (XYZIRT [(0, 0, 0)]%Q [] [] []) true) = true.
Proof. split; [reflexivity|]. split; reflexivity. Qed.
