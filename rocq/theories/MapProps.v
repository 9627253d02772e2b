(** C35, C36, C108-C113: the container operations of metric_map_t. *)
From Coq Require Import String.
From Verif Require Import Base FilterModel DeskewModel MapModel.
Open Scope nat_scope.

(** ** Specification *)

(** the object of a layer; None: no such layer, or a null pointer *)
Definition object (h : Heap) (ls : list (Name * option Addr)) (n : Name) : option Obj :=
  match kfind ls n with Some (Some a) => nth_error h a | _ => None end.
(** the names of a std::map are different, and its pointers are null or valid *)
Definition valid_layers (h : Heap) (ls : list (Name * option Addr)) : Prop :=
  NoDup (map fst ls) /\ forall n a, kfind ls n = Some (Some a) -> a < List.length h.
Definition valid_map (h : Heap) (m : MMap) : Prop := valid_layers h (mm_layers m).
(** the layers of a map are different objects, and are not objects of the other map *)
Definition private_layers (ls : list (Name * option Addr)) : Prop :=
  forall n n' a, kfind ls n = Some (Some a) -> kfind ls n' = Some (Some a) -> n = n'.
Definition unshared (ls ls' : list (Name * option Addr)) : Prop :=
  forall n n' a, kfind ls n = Some (Some a) -> kfind ls' n' <> Some (Some a).

Section MapP.
Variable fields : Cls -> Cls -> Pt -> Pt.
Notation merge_layer := (merge_layer fields).
Notation merge_layers := (merge_layers fields).
Notation merge_with := (merge_with fields).

(** the layer after merging: a (moved) copy if it is new, else the points of both *)
Definition merged (po : option Pose) (mine his : option Obj) : option Obj :=
  match mine, his with
  | None, Some (OPts d) => Some (OPts (match po with None => d | Some p => mkCloud (cl_cls d) (map (moved p) (cl_pts d)) end))
  | Some (OPts c), Some (OPts d) => Some (OPts (mkCloud (cl_cls c) (cl_pts c ++ map (moved_into fields (cl_cls c) (cl_cls d) (the_pose po)) (cl_pts d))))
  | None, x => x
  | x, _ => x
  end.
(** the maps can be merged: planes cannot be moved; new layers that are moved have points, coinciding layers have points *)
Definition layer_ok (po : option Pose) (h : Heap) (mine his : option (option Addr)) : Prop :=
  match his with
  | None => True
  | Some None => False
  | Some (Some a) =>
      match mine with
      | None => po = None \/ exists d, nth_error h a = Some (OPts d)
      | Some None => False
      | Some (Some b) => (exists c, nth_error h b = Some (OPts c)) /\ exists d, nth_error h a = Some (OPts d)
      end
  end.
Definition mergeable (h : Heap) (m other : MMap) (po : option Pose) : Prop :=
  (po = None \/ mm_planes other = []) /\ forall n, layer_ok po h (kfind (mm_layers m) n) (kfind (mm_layers other) n).

Definition points_in (o : option Obj) : nat := match o with Some (OPts c) => List.length (cl_pts c) | _ => 0 end.

(** ** Lemmas *)
Lemma kfind_kset {A} (m : list (Name * A)) n v k : kfind (kset m n v) k = if String.eqb n k then Some v else kfind m k.
Proof.
  induction m as [|[n' w] m IH]; cbn [kset kfind]; [reflexivity|].
  destruct (String.eqb_spec n' n) as [->|NE]; cbn [kfind].
  - destruct (String.eqb n k); reflexivity.
  - rewrite IH. destruct (String.eqb_spec n' k) as [->|]; [|reflexivity]. destruct (String.eqb_spec n k); [congruence|reflexivity].
Qed.
Lemma kset_keys {A} (m : list (Name * A)) n v : kfind m n = None -> kset m n v = m ++ [(n, v)].
Proof. induction m as [|[k w] m IH]; cbn [kset kfind app]; [reflexivity|]. destruct (String.eqb k n); [discriminate|]. intros H. rewrite IH by exact H. reflexivity. Qed.
Lemma kfind_In {A} (m : list (Name * A)) n v : kfind m n = Some v -> In (n, v) m.
Proof. induction m as [|[k w] m IH]; cbn [kfind]; [discriminate|]. destruct (String.eqb_spec k n) as [->|]; [intros [= ->]; left; reflexivity|right; auto]. Qed.
Lemma kfind_key {A} (m : list (Name * A)) n : kfind m n = None <-> ~ In n (map fst m).
Proof.
  induction m as [|[k w] m IH]; cbn [kfind map In fst]; [tauto|]. destruct (String.eqb_spec k n) as [->|NE]; [split; [discriminate|tauto]|]. rewrite IH. tauto.
Qed.
Lemma In_kfind {A} (m : list (Name * A)) n v : NoDup (map fst m) -> In (n, v) m -> kfind m n = Some v.
Proof.
  induction m as [|[k w] m IH]; cbn [map fst kfind In]; [tauto|]. intros ND. inversion ND as [|? ? NI ND']; subst. intros [[= -> ->]|I]; [rewrite String.eqb_refl; reflexivity|].
  destruct (String.eqb_spec k n) as [->|]; [|auto]. exfalso. apply NI. exact (in_map fst m (n, v) I).
Qed.

Lemma upd_nth {A} (l : list A) i x j : i < List.length l -> nth_error (upd l i x) j = if i =? j then Some x else nth_error l j.
Proof.
  revert i j. induction l as [|a l IH]; intros i j L; [simpl in L; lia|].
  destruct i, j; cbn [upd nth_error Nat.eqb]; try reflexivity. apply IH. simpl in L. lia.
Qed.
Lemma upd_length {A} (l : list A) i x : List.length (upd l i x) = List.length l.
Proof. revert i. induction l as [|a l IH]; intros [|i]; cbn [upd List.length]; auto. Qed.

Lemma size_app h a b : size_pts h (a ++ b) = size_pts h a + size_pts h b.
Proof. induction a as [|[n [x|]] a IH]; cbn [app size_pts]; [reflexivity|rewrite IH; lia|exact IH]. Qed.
Lemma size_same h h' ls : (forall a n, In (n, Some a) ls -> nth_error h' a = nth_error h a) -> size_pts h' ls = size_pts h ls.
Proof.
  induction ls as [|[n [x|]] ls IH]; intros H; cbn [size_pts]; [reflexivity| |].
  - rewrite (H x n (or_introl eq_refl)), IH by (intros; eapply H; right; eassumption). reflexivity.
  - apply IH. intros; eapply H; right; eassumption.
Qed.
(** changing the object of one layer *)
Lemma size_upd h h' ls n b : NoDup (map fst ls) -> private_layers ls -> kfind ls n = Some (Some b) ->
  (forall a, a <> b -> nth_error h' a = nth_error h a) ->
  size_pts h' ls + points_in (nth_error h b) = size_pts h ls + points_in (nth_error h' b).
Proof.
  intros ND PR F EQ. induction ls as [|[k x] ls IH]; [discriminate F|]. cbn [map fst] in ND. inversion ND as [|? ? NI ND']; subst.
  assert (TAIL : forall k' v, kfind ls k' = Some v -> kfind ((k, x) :: ls) k' = Some v).
  { intros k' v H. cbn [kfind]. destruct (String.eqb_spec k k') as [->|]; [|exact H]. exfalso. apply kfind_In in H. apply NI. exact (in_map fst ls (k', v) H). }
  cbn [kfind] in F. destruct (String.eqb_spec k n) as [->|NE].
  - injection F as ->. cbn [size_pts]. rewrite (size_same h h' ls); [unfold points_in; lia|].
    intros a k' I. apply EQ. intros ->. apply (In_kfind ls k' (Some b) ND') in I. assert (Z := TAIL _ _ I).
    assert (n = k'). { apply (PR n k' b); [cbn [kfind]; rewrite String.eqb_refl; reflexivity|exact Z]. } subst k'. apply NI. apply kfind_In in I. exact (in_map fst ls (n, Some b) I).
  - assert (PR' : private_layers ls) by (intros a c d A C; apply (PR a c d); apply TAIL; assumption).
    specialize (IH ND' PR' F). destruct x as [y|]; cbn [size_pts]; [|lia].
    assert (y <> b).
    { intros ->. apply NE. apply (PR k n b); [cbn [kfind]; rewrite String.eqb_refl; reflexivity|apply TAIL, F]. }
    rewrite (EQ y) by assumption. lia.
Qed.
Lemma size_find h ls n : kfind ls n = None -> forall b, size_pts h (kset ls n (Some b)) = size_pts h ls + points_in (nth_error h b).
Proof. intros F b. rewrite kset_keys by exact F. rewrite size_app. cbn [size_pts]. unfold points_in. lia. Qed.

Lemma NoDup_app_intro_one {A} (l : list A) x : NoDup l -> ~ In x l -> NoDup (l ++ [x]).
Proof.
  induction l as [|a l IH]; cbn [app]; intros ND NI; [constructor; [tauto|constructor]|]. inversion ND as [|? ? NA ND']; subst.
  constructor; [|apply IH; [exact ND'|intros I; apply NI; right; exact I]]. rewrite in_app_iff. intros [I|[->|[]]]; [exact (NA I)|apply NI; left; reflexivity].
Qed.

(** ** One layer *)
Lemma merge_one po h ls n a : valid_layers h ls -> private_layers ls -> a < List.length h -> kfind ls n <> Some (Some a) ->
  layer_ok po h (kfind ls n) (Some (Some a)) ->
  exists h' ls', merge_layer po (h, ls) (n, Some a) = ((h', ls'), Val tt) /\
    valid_layers h' ls' /\ private_layers ls' /\ List.length h <= List.length h' /\
    (forall k, k <> n -> kfind ls' k = kfind ls k /\ object h' ls' k = object h ls k) /\
    (kfind ls' n = kfind ls n \/ exists b, List.length h <= b /\ kfind ls' n = Some (Some b)) /\
    object h' ls' n = merged po (object h ls n) (nth_error h a) /\
    (forall x, x < List.length h -> kfind ls n <> Some (Some x) -> nth_error h' x = nth_error h x) /\
    size_pts h' ls' = size_pts h ls + points_in (nth_error h a).
Proof.
  intros (ND & AL) PR LA NA OK. unfold MapModel.merge_layer, layer_ok in *. unfold object at 4.
  destruct (kfind ls n) as [[b|]|] eqn:F; [| contradiction |].
  - (* an existing layer *)
    destruct OK as ((c & HB) & d & HD). rewrite HB, HD. cbn [merged].
    set (o := OPts (mkCloud _ _)). assert (LB := AL n b F).
    assert (NXT : forall x, nth_error (upd h b o) x = if b =? x then Some o else nth_error h x) by (intros x; apply upd_nth, LB).
    do 2 eexists. split; [reflexivity|]. split; [split; [exact ND|intros k x H; rewrite upd_length; exact (AL k x H)]|]. split; [exact PR|]. split; [rewrite upd_length; lia|].
    split; [|split; [left; exact F|split; [|split]]].
    + intros k NK. split; [reflexivity|]. unfold object. destruct (kfind ls k) as [[x|]|] eqn:K; try reflexivity. rewrite NXT. destruct (Nat.eqb_spec b x) as [->|]; [|reflexivity]. exfalso. apply NK. exact (PR k n x K F).
    + unfold object. rewrite F, NXT, Nat.eqb_refl. reflexivity.
    + intros x _ NX. rewrite NXT. destruct (Nat.eqb_spec b x) as [E|]; [exfalso; apply NX; rewrite E; reflexivity|reflexivity].
    + assert (S := size_upd h (upd h b o) ls n b ND PR F). rewrite HB, NXT, Nat.eqb_refl in S. unfold o, points_in in S. cbn [cl_pts] in S. rewrite app_length, map_length in S.
      assert (EQ : forall x, x <> b -> nth_error (upd h b o) x = nth_error h x) by (intros x NX; rewrite NXT; destruct (Nat.eqb_spec b x); [congruence|reflexivity]).
      specialize (S EQ). unfold points_in. fold o in S. lia.
  - (* a new layer *)
    assert (ADD : forall o, let h' := h ++ [o] in let ls' := kset ls n (Some (List.length h)) in
      valid_layers h' ls' /\ private_layers ls' /\ List.length h <= List.length h' /\
      (forall k, k <> n -> kfind ls' k = kfind ls k /\ object h' ls' k = object h ls k) /\
      (kfind ls' n = None \/ exists b, List.length h <= b /\ kfind ls' n = Some (Some b)) /\
      object h' ls' n = Some o /\
      (forall x, x < List.length h -> None <> Some (Some x) -> nth_error h' x = nth_error h x) /\
      size_pts h' ls' = size_pts h ls + points_in (Some o)).
    { intros o h' ls'. subst h' ls'.
      assert (NEW : nth_error (h ++ [o]) (List.length h) = Some o) by (rewrite nth_error_app2, Nat.sub_diag by lia; reflexivity).
      assert (OLD : forall x, x < List.length h -> nth_error (h ++ [o]) x = nth_error h x) by (intros x L; apply nth_error_app1, L).
      assert (KF : forall k, kfind (kset ls n (Some (List.length h))) k = if String.eqb n k then Some (Some (List.length h)) else kfind ls k) by (intros k; apply kfind_kset).
      split; [split|split; [|split; [|split; [|split; [|split; [|split]]]]]].
      - rewrite kset_keys by exact F. rewrite map_app. cbn [map fst]. apply NoDup_app_intro_one; [exact ND|]. apply kfind_key, F.
      - intros k x. rewrite KF, app_length. cbn [List.length]. destruct (String.eqb n k); [intros [= <-]; lia|]. intros H. apply AL in H. lia.
      - intros k k' x. rewrite !KF. destruct (String.eqb_spec n k) as [E1|], (String.eqb_spec n k') as [E2|]; [congruence| | |apply PR].
        + intros [= <-] H. apply AL in H. lia.
        + intros H [= <-]. apply AL in H. lia.
      - rewrite app_length. lia.
      - intros k NK. unfold object. rewrite KF. destruct (String.eqb_spec n k); [congruence|]. split; [reflexivity|]. destruct (kfind ls k) as [[x|]|] eqn:K; try reflexivity. apply OLD, (AL k x K).
      - right. exists (List.length h). rewrite KF, String.eqb_refl. split; [lia|reflexivity].
      - unfold object. rewrite KF, String.eqb_refl. exact NEW.
      - intros x L _. apply OLD, L.
      - rewrite (size_find (h ++ [o]) ls n F), NEW. f_equal. apply size_same. intros x k I. apply OLD. apply (AL k x). apply In_kfind; assumption. }
    destruct (nth_error h a) as [o|] eqn:HA; [|apply nth_error_None in HA; lia].
    destruct po as [p|].
    + destruct OK as [OK|[d OK]]; [discriminate OK|]. injection OK as ->. do 2 eexists. split; [reflexivity|].
      specialize (ADD (OPts (mkCloud (cl_cls d) (map (moved p) (cl_pts d))))). cbv zeta in ADD. unfold points_in in ADD. cbn [cl_pts] in ADD. rewrite map_length in ADD. exact ADD.
    + do 2 eexists. split; [reflexivity|]. specialize (ADD o). cbv zeta in ADD. replace (merged None None (Some o)) with (Some o) by (destruct o; reflexivity). exact ADD.
Qed.

(** ** All the layers *)
Lemma merge_all po : forall ol h ls h0 ls0, valid_layers h ls -> private_layers ls -> List.length h0 <= List.length h ->
  NoDup (map fst ol) ->
  (forall n, kfind ol n <> None -> kfind ls n = kfind ls0 n /\ object h ls n = object h0 ls0 n) ->
  (forall n b, kfind ls n = Some (Some b) -> List.length h0 <= b \/ kfind ls0 n = Some (Some b)) ->
  (forall n a, In (n, Some a) ol -> a < List.length h0 /\ nth_error h a = nth_error h0 a /\ forall k, kfind ls0 k <> Some (Some a)) ->
  (forall n, layer_ok po h0 (kfind ls0 n) (kfind ol n)) ->
  exists h' ls', merge_layers po (h, ls) ol = ((h', ls'), Val tt) /\
    valid_layers h' ls' /\ private_layers ls' /\ List.length h <= List.length h' /\
    (forall k, kfind ol k = None -> kfind ls' k = kfind ls k /\ object h' ls' k = object h ls k) /\
    (forall n b, kfind ls' n = Some (Some b) -> List.length h0 <= b \/ kfind ls0 n = Some (Some b)) /\
    (forall n a, kfind ol n = Some (Some a) -> object h' ls' n = merged po (object h0 ls0 n) (nth_error h0 a)) /\
    (forall x, x < List.length h0 -> (forall k, kfind ls0 k <> Some (Some x)) -> nth_error h' x = nth_error h x) /\
    size_pts h' ls' = size_pts h ls + size_pts h0 ol.
Proof.
  induction ol as [|[n [a|]] ol IH]; intros h ls h0 ls0 V P LEN ND AG ADR HIS OK.
  - exists h, ls. cbn [MapModel.merge_layers size_pts]. split; [reflexivity|]. split; [exact V|]. split; [exact P|]. split; [lia|]. split; [auto|]. split; [exact ADR|]. split; [discriminate|]. split; [auto|lia].
  - cbn [map fst] in ND. inversion ND as [|? ? NI ND']; subst.
    destruct (HIS n a (or_introl eq_refl)) as (LA & HA & NA).
    assert (FN : kfind ((n, Some a) :: ol) n = Some (Some a)) by (cbn [kfind]; rewrite String.eqb_refl; reflexivity).
    destruct (AG n ltac:(congruence)) as [AGK AGO].
    assert (OKN : layer_ok po h (kfind ls n) (Some (Some a))).
    { assert (O := OK n). rewrite FN in O. unfold layer_ok in *. rewrite AGK, HA. destruct (kfind ls0 n) as [[b|]|] eqn:K0; [|exact O|exact O].
      unfold object in AGO. rewrite AGK, K0 in AGO. rewrite AGO. exact O. }
    destruct (merge_one po h ls n a V P ltac:(lia)) as (h1 & ls1 & E & V1 & P1 & L1 & K1 & N1 & O1 & U1 & S1); [rewrite AGK; apply NA|exact OKN|].
    destruct (IH h1 ls1 h0 ls0 V1 P1 ltac:(lia) ND') as (h2 & ls2 & E2 & V2 & P2 & L2 & K2 & N2 & O2 & U2 & S2).
    { intros k KN. assert (NK : k <> n). { intros ->. apply KN, kfind_key, NI. } destruct (K1 k NK) as [A B].
      destruct (AG k) as [C D]; [cbn [kfind]; destruct (String.eqb_spec n k); [congruence|exact KN]|]. split; congruence. }
    { intros k b H. destruct (string_dec k n) as [->|NK]; [|apply ADR; rewrite <- (proj1 (K1 k NK)); exact H].
      destruct N1 as [N1|(b1 & LB & N1)]; [apply ADR; congruence|]. rewrite N1 in H. injection H as <-. left. lia. }
    { intros k x I. destruct (HIS k x (or_intror I)) as (LX & HX & NX). split; [exact LX|]. split; [|exact NX].
      rewrite <- HX. apply U1; [lia|]. intros C. destruct (ADR n x C) as [G|G]; [lia|exact (NX n G)]. }
    { intros k. assert (O := OK k). cbn [kfind] in O. destruct (String.eqb_spec n k) as [EK|]; [|exact O]. subst k. rewrite (proj2 (kfind_key ol n) NI). exact I. }
    exists h2, ls2. cbn [MapModel.merge_layers]. rewrite E. split; [exact E2|]. split; [exact V2|]. split; [exact P2|]. split; [lia|].
    split; [|split; [exact N2|split; [|split]]].
    + intros k. cbn [kfind]. destruct (String.eqb_spec n k) as [EK|NK]; [discriminate|]. intros H. destruct (K2 k H) as [A B]. destruct (K1 k (fun e => NK (eq_sym e))) as [C D]. split; congruence.
    + intros k x. cbn [kfind]. destruct (String.eqb_spec n k) as [EK|NK]; [|apply O2]. intros [= <-]. subst k.
      destruct (K2 n (proj2 (kfind_key ol n) NI)) as [_ B]. rewrite B, O1, AGO, HA. reflexivity.
    + intros x LX NX. rewrite U2 by assumption. apply U1; [lia|]. intros C. destruct (ADR n x C) as [G|G]; [lia|exact (NX n G)].
    + cbn [size_pts]. rewrite S2, S1, HA. unfold points_in. lia.
  - exfalso. assert (O := OK n). cbn [kfind] in O. rewrite String.eqb_refl in O. exact O.
Qed.

(** C35: merging two maps that share no layer object gives the lines, the planes and the points of both; what else the map has,
    the other map, and every object that is no layer of this map are unchanged; the maps still share nothing *)
Theorem C35_merging_gives_the_union : forall h m other po,
  valid_map h m -> valid_map h other -> private_layers (mm_layers m) -> unshared (mm_layers m) (mm_layers other) ->
  mergeable h m other po ->
  exists h' m', merge_with h m other po = ((h', m'), Val tt) /\
    mm_lines m' = mm_lines m ++ (match po with None => mm_lines other | Some p => map (fun l => mkLine (compose p (ln_base l)) (rotate p (ln_dir l))) (mm_lines other) end) /\
    mm_planes m' = mm_planes m ++ mm_planes other /\
    (forall n, object h' (mm_layers m') n = match object h (mm_layers other) n with None => object h (mm_layers m) n | o => merged po (object h (mm_layers m) n) o end) /\
    (mm_id m', mm_label m', mm_geo m', mm_meta m') = (mm_id m, mm_label m, mm_geo m, mm_meta m) /\
    (forall a, a < List.length h -> (forall n, kfind (mm_layers m) n <> Some (Some a)) -> nth_error h' a = nth_error h a) /\
    valid_map h' m' /\ private_layers (mm_layers m') /\ unshared (mm_layers m') (mm_layers other).
Proof.
  intros h m other po V VO P U (PL & OK). destruct VO as [NDO ALO].
  destruct (merge_all po (mm_layers other) h (mm_layers m) h (mm_layers m) V P ltac:(lia) NDO) as (h' & ls' & E & V' & P' & L & K & N & O & X & S).
  { auto. } { auto. }
  { intros n a I. apply In_kfind in I; [|exact NDO]. split; [exact (ALO n a I)|]. split; [reflexivity|]. intros k H. exact (U k n a H I). }
  { exact OK. }
  exists h'. unfold MapModel.merge_with. unfold add_planes, add_lines. cbn [mm_layers mm_planes mm_lines]. rewrite E.
  assert (EP : match po, mm_planes other with Some _, _ :: _ => false | _, _ => true end = true) by (destruct PL as [-> | ->]; [reflexivity|destruct po; reflexivity]).
  exists (mkMM ls' (mm_lines m ++ match po with None => mm_lines other | Some p => map (fun l => mkLine (compose p (ln_base l)) (rotate p (ln_dir l))) (mm_lines other) end) (mm_planes m ++ mm_planes other) (mm_id m) (mm_label m) (mm_geo m) (mm_meta m)).
  split; [destruct po as [p|], (mm_planes other); try discriminate EP; reflexivity|]. cbn [mm_lines mm_planes mm_layers mm_id mm_label mm_geo mm_meta].
  split; [reflexivity|]. split; [reflexivity|]. split; [|split; [reflexivity|split; [exact X|split; [exact V'|split; [exact P'|]]]]].
  - intros n. unfold object at 2 4. destruct (kfind (mm_layers other) n) as [[a|]|] eqn:KO.
    + rewrite (O n a KO). destruct (nth_error h a) eqn:HA; [reflexivity|]. apply nth_error_None in HA. apply ALO in KO. lia.
    + specialize (OK n). rewrite KO in OK. contradiction.
    + apply K, KO.
  - intros n n' a A B. destruct (N n a A) as [G|G]; [apply ALO in B; lia|exact (U n n' a G B)].
Qed.
(** C35: and the number of elements is the sum *)
Theorem C35_sizes_add_up : forall h m other po h' m',
  valid_map h m -> valid_map h other -> private_layers (mm_layers m) -> unshared (mm_layers m) (mm_layers other) ->
  mergeable h m other po -> merge_with h m other po = ((h', m'), Val tt) ->
  mm_size h' m' = mm_size h m + mm_size h other.
Proof.
  intros h m other po h' m' V VO P U (PL & OK) EM. destruct VO as [NDO ALO].
  destruct (merge_all po (mm_layers other) h (mm_layers m) h (mm_layers m) V P ltac:(lia) NDO) as (h1 & ls' & E & V' & P' & L & K & N & O & X & S).
  { auto. } { auto. }
  { intros n a I. apply In_kfind in I; [|exact NDO]. split; [exact (ALO n a I)|]. split; [reflexivity|]. intros k H. exact (U k n a H I). }
  { exact OK. }
  unfold MapModel.merge_with, add_planes, add_lines in EM. cbn [mm_layers mm_planes mm_lines] in EM. rewrite E in EM.
  assert (EP : match po, mm_planes other with Some _, _ :: _ => false | _, _ => true end = true) by (destruct PL as [-> | ->]; [reflexivity|destruct po; reflexivity]).
  unfold mm_size. destruct po as [p|], (mm_planes other) as [|pl pls]; try discriminate EP; injection EM as <- <-; cbn [mm_lines mm_planes mm_layers set_layers]; rewrite ?app_length, ?map_length, S; cbn [List.length]; lia.
Qed.

(** C108 (refuted): if merging throws, the map is unchanged *)
Theorem C108_failed_merge_keeps_the_lines_refuted : forall h m other p,
  mm_planes other <> [] -> exists m', merge_with h m other (Some p) = ((h, m'), Exc) /\ mm_lines m' = mm_lines m ++ map (moved_line p) (mm_lines other).
Proof. intros h m other p NE. unfold MapModel.merge_with. destruct (mm_planes other); [contradiction|]. eexists. split; reflexivity. Qed.
(** C108 (refuted): a layer that cannot be moved stays in the map, unmoved *)
Theorem C108_failed_merge_keeps_the_layer_refuted : forall h m other p n a o ls,
  mm_planes other = [] -> mm_layers other = (n, Some a) :: ls -> nth_error h a = Some (OOther o) -> kfind (mm_layers m) n = None ->
  exists h' m', merge_with h m other (Some p) = ((h', m'), Exc) /\ object h' (mm_layers m') n = Some (OOther o).
Proof.
  intros h m other p n a o ls NP LO HA F. unfold MapModel.merge_with. rewrite NP, LO. cbn [MapModel.merge_layers MapModel.merge_layer add_planes add_lines mm_layers]. rewrite F, HA.
  do 2 eexists. split; [reflexivity|]. cbn [mm_layers set_layers]. unfold object. rewrite kfind_kset, String.eqb_refl, nth_error_app2, Nat.sub_diag by lia. reflexivity.
Qed.

(** C109 (refuted): merging is defined for all maps.  Planes cannot be moved at all *)
Theorem C109_planes_cannot_be_moved_refuted : forall h m other p, mm_planes other <> [] -> snd (merge_with h m other (Some p)) = Exc.
Proof. intros h m other p NE. unfold MapModel.merge_with. destruct (mm_planes other); [contradiction|reflexivity]. Qed.
(** C109 (refuted): coinciding layers that are not point clouds cannot be merged even without a pose *)
Theorem C109_other_layers_cannot_be_merged_refuted : forall h m other n a b o ls,
  mm_layers other = (n, Some a) :: ls -> kfind (mm_layers m) n = Some (Some b) -> nth_error h b = Some (OOther o) ->
  snd (merge_with h m other None) = Exc.
Proof. intros h m other n a b o ls LO F HB. unfold MapModel.merge_with. rewrite LO. cbn [MapModel.merge_layers MapModel.merge_layer add_planes add_lines mm_layers]. rewrite F, HB. reflexivity. Qed.
(** C109 (refuted): merging any other map into a point cloud layer dereferences a null pointer *)
Theorem C109_null_dereference_refuted : forall h m other po n a b c o ls,
  po = None \/ mm_planes other = [] ->
  mm_layers other = (n, Some a) :: ls -> kfind (mm_layers m) n = Some (Some b) -> nth_error h b = Some (OPts c) -> nth_error h a = Some (OOther o) ->
  snd (merge_with h m other po) = Undef.
Proof.
  intros h m other po n a b c o ls PL LO F HB HA. unfold MapModel.merge_with. rewrite LO. cbn [MapModel.merge_layers MapModel.merge_layer add_planes add_lines mm_layers]. rewrite F, HB, HA.
  destruct PL as [-> | ->]; [reflexivity|destruct po; reflexivity].
Qed.
End MapP.

(** ** Sizes *)
(** C36: size() counts the lines, the planes and the points of the layers that are point clouds, layer by layer *)
Theorem C36_size : forall h m, mm_size h m = List.length (mm_lines m) + List.length (mm_planes m) +
  list_sum (map (fun l => match l with (_, Some a) => match nth_error h a with Some (OPts c) => List.length (cl_pts c) | _ => 0 end | _ => 0 end) (mm_layers m)).
Proof.
  intros h m. unfold mm_size. f_equal. induction (mm_layers m) as [|[n [a|]] ls IH]; cbn [size_pts map list_sum fold_right]; [reflexivity| |].
  - rewrite IH. reflexivity.
  - exact IH.
Qed.
(** C36: clear() leaves nothing: no layers, lines, planes, id, label, georeference or metadata *)
Theorem C36_clear : forall h m, mm_clear m = mkMM [] [] [] None None None [] /\ mm_empty (mm_clear m) = true /\ mm_size h (mm_clear m) = 0.
Proof. intros h m. repeat split. Qed.
(** C36: empty() tells whether there are no layers, lines and planes; then size() is 0 *)
Theorem C36_empty : forall h m, (mm_empty m = true <-> mm_layers m = [] /\ mm_lines m = [] /\ mm_planes m = []) /\ (mm_empty m = true -> mm_size h m = 0).
Proof.
  intros h m. unfold mm_empty, mm_size. destruct (mm_layers m), (mm_lines m), (mm_planes m); cbn [andb]; split; try (split; [discriminate|intros (A & B & C); discriminate]); try discriminate; auto.
  split; auto.
Qed.
(** C110 (refuted): empty() is true if all layers are empty (metricmap.h: "return true if all point cloud layers, feature lists, etc. are empty") *)
Theorem C110_a_map_with_an_empty_layer_is_not_empty_refuted : forall h m n a c,
  mm_layers m = [(n, Some a)] -> nth_error h a = Some (OPts (mkCloud c [])) -> mm_lines m = [] -> mm_planes m = [] -> mm_empty m = false /\ mm_size h m = 0.
Proof. intros h m n a c L HA LI PL. unfold mm_empty, mm_size. rewrite L, LI, PL. cbn. rewrite HA. auto. Qed.
(** C110 (refuted): size() counts nothing of a layer that is not a point cloud, e.g. the points of a voxel map *)
Theorem C110_points_of_voxel_maps_not_counted_refuted : forall h n a o c, nth_error h a = Some (OOther o) -> ot_points o = Some c ->
  mm_size h (mkMM [(n, Some a)] [] [] None None None []) = 0.
Proof. intros h n a o c HA _. unfold mm_size. cbn. rewrite HA. reflexivity. Qed.

(** C111 (refuted): get_shared_from_this_or_clone() makes a deep copy (metricmap.h): all the layers of the copy are the same objects, so that
    whatever is done to a layer of the one is seen in the other *)
Theorem C111_changes_show_in_the_clone_refuted : forall h m n a o, kfind (mm_layers m) n = Some (Some a) -> a < List.length h ->
  object (upd h a o) (mm_layers (clone m)) n = Some o.
Proof. intros h m n a o F L. unfold object, clone. rewrite F, upd_nth, Nat.eqb_refl by exact L. reflexivity. Qed.

(** ** Georeferencing *)
(** C112: what is stored as YAML is read back, but for the rotation *)
Theorem C112_georef_yaml : forall g, from_yaml (to_yaml g) =
  Val (match g with None => None | Some g => Some (mkGeo (g_lat g) (g_lon g) (g_h g) (g_trans g) (0, 0, 0)%Q (g_cov g)) end).
Proof. intros [[a b c [[x y] z] r v]|]; reflexivity. Qed.
(** C112: a node of another type is rejected *)
Theorem C112_other_types_rejected : forall l s, kfind l "type"%string = Some (YStr s) -> s <> geo_magic -> from_yaml (YMap l) = Exc.
Proof. intros l s F NE. unfold from_yaml, yget. rewrite F. cbn [obnd]. destruct (kfind l "defined"); [|reflexivity]. cbn [obnd]. destruct (String.eqb_spec s geo_magic); [contradiction|reflexivity]. Qed.
(** C113 (refuted): the orientation of the map survives storing as YAML *)
Theorem C113_rotation_lost_refuted : forall g, g_rot g <> (0, 0, 0)%Q -> from_yaml (to_yaml (Some g)) <> Val (Some g).
Proof. intros g NE. rewrite C112_georef_yaml. intros [= E]. apply NE. rewrite <- E. reflexivity. Qed.

(** ** A concrete case *)
Definition exf : Cls -> Cls -> Pt -> Pt := fun _ _ p => p.
Definition exc : Cls := mkCls "P" false false false.
Definition exh : Heap := [OPts (mkCloud exc [mkPt 1 0 0 0 0 0]); OPts (mkCloud exc [mkPt 2 0 0 0 0 0]); OPts (mkCloud exc [mkPt 3 0 0 0 0 0; mkPt 4 0 0 0 0 0])].
Definition exm : MMap := mkMM [("raw"%string, Some 0)] [] [] (Some 7) None None [].
Definition exo : MMap := mkMM [("new"%string, Some 2); ("raw"%string, Some 1)] [mkLine (0, 0, 0)%Q (1, 0, 0)%Q] [] None None None [].
Definition exp_ : Pose := mkPose (fun '(a, b, c) => ((a + 10)%Q, b, c)) (fun p => p).
Example ex_merge_ok : valid_map exh exm /\ valid_map exh exo /\ private_layers (mm_layers exm) /\ unshared (mm_layers exm) (mm_layers exo) /\ mergeable exh exm exo (Some exp_).
Proof.
  assert (K : forall n a, kfind (mm_layers exm) n = Some (Some a) -> n = "raw"%string /\ a = 0).
  { intros n a. cbn [exm mm_layers kfind]. destruct (String.eqb_spec "raw" n); [intros [= <-]; auto|discriminate]. }
  assert (KO : forall n a, kfind (mm_layers exo) n = Some (Some a) -> (n = "raw"%string /\ a = 1) \/ (n = "new"%string /\ a = 2)).
  { intros n a. cbn [exo mm_layers kfind]. destruct (String.eqb_spec "new" n); [intros [= <-]; auto|]. destruct (String.eqb_spec "raw" n); [intros [= <-]; auto|discriminate]. }
  split; [split|]. { cbn. repeat constructor. cbn. tauto. } { intros n a H. apply K in H. destruct H as [_ ->]. cbn. lia. }
  split; [split|]. { cbn. repeat constructor; cbn; intuition discriminate. } { intros n a H. apply KO in H. destruct H as [[_ ->]|[_ ->]]; cbn; lia. }
  split. { intros n n' a A B. apply K in A, B. destruct A, B. congruence. }
  split. { intros n n' a A B. apply K in A. apply KO in B. destruct A as [_ A], B as [[_ B]|[_ B]]; congruence. }
  split; [right; reflexivity|]. intros n. cbn [exm exo mm_layers kfind layer_ok].
  destruct (String.eqb_spec "new" n) as [<-|NN]; [cbn; right; eexists; reflexivity|]. destruct (String.eqb_spec "raw" n) as [<-|NR]; cbn; [|exact I].
  split; eexists; reflexivity.
Qed.
Example ex_merge : exists h' m', merge_with exf exh exm exo (Some exp_) = ((h', m'), Val tt) /\
  object h' (mm_layers m') "raw" = Some (OPts (mkCloud exc [mkPt 1 0 0 0 0 0; mkPt 12 0 0 0 0 0])) /\ mm_size h' m' = 5.
Proof. do 2 eexists. split; [reflexivity|]. split; reflexivity. Qed.
