(** Property C15: the bookkeeping of matched points behaves as a set. *)
From Verif Require Import Base BitfieldModel BitfieldSpec BitfieldProofs.

(** After any history of (re)initialisations and marks that stays in range, both
    representations answer every query in range with membership in the set of ids marked
    since the last initialisation. *)
Theorem C15_bitfield_is_a_set :
  forall ops, in_range ops None ->
  exists b, bits_run ops bits_default = Ok b /\
  forall i, (forall n, capacity ops None = Some n -> i < n) ->
  exists x, bits_get b i = Ok x /\ (x = true <-> In i (marked_since ops [])).
Proof.
  intros ops H. destruct (run_rep ops bits_default None [] rep_default H) as [b [E R]].
  exists b. split; [exact E|]. intros i Hi. exact (rep_get b _ _ i R Hi).
Qed.
Print Assumptions C15_bitfield_is_a_set.

(** Queries and marks beyond the size of a dense field are undefined behaviour, nothing
    else is. *)
Theorem C15_out_of_range_is_ub :
  forall ops n i, in_range ops None -> capacity ops None = Some n -> n <= i ->
  exists b, bits_run ops bits_default = Ok b /\ bits_get b i = UB /\ bits_mark b i = UB.
Proof.
  intros ops n i H Hc Hi. destruct (run_rep ops bits_default None [] rep_default H) as [b [E R]].
  exists b. rewrite Hc in R. split; [exact E|]. split;
  [exact (rep_get_ub b n _ i R Hi)|exact (rep_mark_ub b n _ i R Hi)].
Qed.
Print Assumptions C15_out_of_range_is_ub.

(** initialize_from(): each searchable layer of the map gets a cleared field of its size,
    layers that are not in the map any more are dropped. *)
Theorem C15_initialize_from :
  forall (pc : list (nat * LayerInfo)) m m', NoDup (map fst pc) ->
  bits_initialize_from pc m = Ok m' ->
  (forall k n d, In (k, Some (Some (n, d))) pc ->
     exists b, lb_find m' k = Some b /\
       forall i, (d = true -> i < n) -> bits_get b i = Ok false)
  /\ (forall k, ~ In k (map fst pc) -> lb_find m' k = None).
Proof.
  intros pc m m' HN H. pose proof (bits_init_find pc m m' HN H) as HF. split.
  - intros k n d Hin.
    assert (E : find (fun kl => Nat.eqb (fst kl) k) pc = Some (k, Some (Some (n, d)))).
    { clear H HF. induction pc as [|[a i] pc IH]; [destruct Hin|]. cbn in *.
      inversion HN as [|? ? Hn HN']; subst. destruct Hin as [[= -> ->]|Hin].
      - rewrite Nat.eqb_refl. reflexivity.
      - destruct (Nat.eqb_spec a k) as [->|]; [|apply IH; assumption].
        exfalso. apply Hn. apply in_map_iff. eexists; split; [|exact Hin]. reflexivity. }
    rewrite HF, E. eexists; split; [reflexivity|]. intros i Hi.
    pose proof (rep_get _ _ _ i (rep_assign bits_default n d)) as G.
    destruct G as [x [G1 G2]].
    { intros n0 E0. destruct d; [injection E0 as <-; auto|discriminate]. }
    rewrite G1. destruct x; [|reflexivity]. exfalso. apply G2. reflexivity.
  - intros k Hk. rewrite HF.
    destruct (find (fun kl => Nat.eqb (fst kl) k) pc) as [[a i]|] eqn:E; [|reflexivity].
    exfalso. apply find_some in E as [E1 E2]. cbn in E2. apply Nat.eqb_eq in E2. subst.
    apply Hk. apply in_map_iff. eexists; split; [|exact E1]. reflexivity.
Qed.
Print Assumptions C15_initialize_from.

Example C15_ex_history :
  in_range [OpMark 7; OpAssign 3 true; OpMark 2; OpMark 0] None /\
  (let* b := bits_run [OpMark 7; OpAssign 3 true; OpMark 2; OpMark 0] bits_default in
   let* a0 := bits_get b 0 in let* a1 := bits_get b 1 in let* a2 := bits_get b 2 in
   Ok [a0; a1; a2]) = Ok [true; false; true].
Proof. cbn. repeat split; intros; try discriminate; congruence || (injection H as <-; lia). Qed.
Example C15_ex_init :
  exists m', bits_initialize_from [(1, Some (Some (2, true))); (5, Some (Some (9, false)))]
    [(1, mkBits (Some [true]) []); (3, bits_default)] = Ok m' /\ map fst m' = [1; 5].
Proof. eexists. split; reflexivity. Qed.
