(** The exact domain on which the refuted properties C108-C111 and C113 do hold. *)
From Coq Require Import String.
From Verif Require Import Base FilterModel DeskewModel MapModel MapProps.
Open Scope nat_scope.

Section MapW.
Variable fields : Cls -> Cls -> Pt -> Pt.
Notation merge_layer := (merge_layer fields).
Notation merge_layers := (merge_layers fields).
Notation merge_with := (merge_with fields).

(** ** C109 *)
Lemma merge_one_inv po h ls n a st : a < List.length h ->
  merge_layer po (h, ls) (n, Some a) = (st, Val tt) -> layer_ok po h (kfind ls n) (Some (Some a)).
Proof.
  intros LA E. unfold MapModel.merge_layer in E. unfold layer_ok.
  destruct (kfind ls n) as [[b|]|]; [|discriminate|].
  - destruct (nth_error h b) as [[c|]|]; try discriminate. destruct (nth_error h a) as [[d|]|]; try discriminate.
    split; eexists; reflexivity.
  - destruct (nth_error h a) as [o|]; [|discriminate]. destruct po as [p|]; [|left; reflexivity].
    destruct o as [d|]; [|discriminate]. right. exists d. reflexivity.
Qed.

Lemma merge_all_inv po : forall ol h ls h0 ls0 st, valid_layers h ls -> private_layers ls -> List.length h0 <= List.length h ->
  NoDup (map fst ol) ->
  (forall n, kfind ol n <> None -> kfind ls n = kfind ls0 n /\ object h ls n = object h0 ls0 n) ->
  (forall n b, kfind ls n = Some (Some b) -> List.length h0 <= b \/ kfind ls0 n = Some (Some b)) ->
  (forall n a, In (n, Some a) ol -> a < List.length h0 /\ nth_error h a = nth_error h0 a /\ forall k, kfind ls0 k <> Some (Some a)) ->
  merge_layers po (h, ls) ol = (st, Val tt) ->
  forall n, layer_ok po h0 (kfind ls0 n) (kfind ol n).
Proof.
  induction ol as [|[n [a|]] ol IH]; intros h ls h0 ls0 st V P LEN ND AG ADR HIS E k; [exact I| |].
  - cbn [map fst] in ND. inversion ND as [|? ? NI ND']; subst.
    destruct (HIS n a (or_introl eq_refl)) as (LA & HA & NA).
    cbn [MapModel.merge_layers] in E.
    destruct (merge_layer po (h, ls) (n, Some a)) as [st1 [[]| | |]] eqn:E1; try discriminate.
    assert (OKN := merge_one_inv po h ls n a st1 ltac:(lia) E1).
    assert (FN : kfind ((n, Some a) :: ol) n = Some (Some a)) by (cbn [kfind]; rewrite String.eqb_refl; reflexivity).
    destruct (AG n ltac:(congruence)) as [AGK AGO].
    destruct (merge_one fields po h ls n a V P ltac:(lia)) as (h1 & ls1 & E' & V1 & P1 & L1 & K1 & N1 & O1 & U1 & S1); [rewrite AGK; apply NA|exact OKN|].
    rewrite E' in E1. injection E1 as <-.
    cbn [kfind]. destruct (String.eqb_spec n k) as [<-|NK].
    + unfold layer_ok in OKN |- *. rewrite AGK, HA in OKN. destruct (kfind ls0 n) as [[b|]|] eqn:K0; [|exact OKN|exact OKN].
      unfold object in AGO. rewrite AGK, K0 in AGO. rewrite AGO in OKN. exact OKN.
    + apply (IH h1 ls1 h0 ls0 st); try assumption; try lia.
      * intros x KN. assert (NX : x <> n) by (intros ->; apply KN, kfind_key, NI). destruct (K1 x NX) as [A B].
        destruct (AG x) as [C D]; [cbn [kfind]; destruct (String.eqb_spec n x); [congruence|exact KN]|]. split; congruence.
      * intros x b H. destruct (string_dec x n) as [->|NX]; [|apply ADR; rewrite <- (proj1 (K1 x NX)); exact H].
        destruct N1 as [N1|(b1 & LB & N1)]; [apply ADR; congruence|]. rewrite N1 in H. injection H as <-. left. lia.
      * intros y x I. destruct (HIS y x (or_intror I)) as (LX & HX & NX). split; [exact LX|]. split; [|exact NX].
        rewrite <- HX. apply U1; [lia|]. intros C. destruct (ADR n x C) as [G|G]; [lia|exact (NX n G)].
  - cbn [MapModel.merge_layers MapModel.merge_layer] in E. exfalso. revert E.
    destruct (kfind ls n) as [[b|]|]; try discriminate.
    destruct (nth_error h b) as [[c|]|]; discriminate.
Qed.

(** Merging two maps succeeds exactly if no planes have to be moved, new layers that are moved are point
    clouds and coinciding layers are point clouds (no null pointers). *)
Theorem C109_merges_where : forall h m other po,
  valid_map h m -> valid_map h other -> private_layers (mm_layers m) -> unshared (mm_layers m) (mm_layers other) ->
  (snd (merge_with h m other po) = Val tt <-> mergeable h m other po).
Proof.
  intros h m other po V VO P U. split.
  - intro E. assert (NDO := proj1 VO). assert (ALO := proj2 VO).
    assert (PL : po = None \/ mm_planes other = []).
    { unfold MapModel.merge_with in E. destruct po as [p|]; [|left; reflexivity]. destruct (mm_planes other); [right; reflexivity|discriminate]. }
    split; [exact PL|].
    assert (ML : exists st, merge_layers po (h, mm_layers m) (mm_layers other) = (st, Val tt)).
    { unfold MapModel.merge_with in E. unfold add_planes, add_lines in E. cbn [mm_layers mm_planes mm_lines] in E.
      destruct (merge_layers po (h, mm_layers m) (mm_layers other)) as [[h' ls'] r] eqn:ME. exists (h', ls').
      assert (EP : match po, mm_planes other with Some _, _ :: _ => false | _, _ => true end = true) by (destruct PL as [-> | ->]; [reflexivity|destruct po; reflexivity]).
      destruct po as [p|], (mm_planes other); try discriminate EP; cbn [snd] in E; rewrite E; reflexivity. }
    destruct ML as [st ML].
    apply (merge_all_inv po (mm_layers other) h (mm_layers m) h (mm_layers m) st V P (le_n _) NDO); auto.
    + intros n a I. apply In_kfind in I; [|exact NDO]. split; [exact (ALO n a I)|]. split; [reflexivity|]. intros k H. exact (U k n a H I).
  - intro M. destruct (C35_merging_gives_the_union fields h m other po V VO P U M) as (h' & m' & E & _). rewrite E. reflexivity.
Qed.

(** ** C108 *)
(** Where planes make a merge fail, nothing has changed exactly if the other map has no lines. *)
Theorem C108_planes_where : forall h m other p, mm_planes other <> [] ->
  (merge_with h m other (Some p) = ((h, m), Exc) <-> mm_lines other = []).
Proof.
  intros h m other p NE. unfold MapModel.merge_with. destruct (mm_planes other); [contradiction|]. destruct m as [ly li pl i la g me].
  unfold add_lines. cbn [mm_layers mm_lines mm_planes mm_id mm_label mm_geo mm_meta]. split.
  - intro E. injection E as E. apply (f_equal (@List.length _)) in E. rewrite app_length, map_length in E.
    destruct (mm_lines other); [reflexivity|cbn [List.length] in E; lia].
  - intros ->. cbn [map]. rewrite app_nil_r. reflexivity.
Qed.
(** Where a single layer makes a merge fail, nothing has changed exactly if the other map has no lines and planes
    and the layer is not new. *)
Theorem C108_layer_where : forall h m other po n a,
  (po = None \/ mm_planes other = []) -> mm_layers other = [(n, a)] ->
  snd (merge_with h m other po) = Exc ->
  (fst (merge_with h m other po) = (h, m) <-> mm_lines other = [] /\ mm_planes other = [] /\ kfind (mm_layers m) n <> None).
Proof.
  intros h m other po n a PL LO E. destruct m as [ly li pl i la g me].
  assert (EP : match po, mm_planes other with Some _, _ :: _ => false | _, _ => true end = true) by (destruct PL as [-> | ->]; [reflexivity|destruct po; reflexivity]).
  unfold MapModel.merge_with in *. rewrite LO in *. unfold add_planes, add_lines in *. cbn [MapModel.merge_layers mm_layers mm_lines mm_planes mm_id mm_label mm_geo mm_meta] in *.
  destruct (merge_layer po (h, ly) (n, a)) as [[h' ly'] r] eqn:ME.
  set (lns := match po with Some p => map (moved_line p) (mm_lines other) | None => mm_lines other end) in *.
  assert (LN : lns = [] <-> mm_lines other = []).
  { unfold lns. destruct po; [|reflexivity]. split; [destruct (mm_lines other); [reflexivity|discriminate]|intros ->; reflexivity]. }
  assert (R : r = Exc) by (destruct r as [[]| | |]; [|reflexivity|..]; destruct po as [p|], (mm_planes other); try discriminate EP; discriminate E).
  subst r.
  assert (G : forall pls, ((h', set_layers (mkMM ly (li ++ lns) (pl ++ pls) i la g me) ly') = (h, mkMM ly li pl i la g me)) <-> (mm_lines other = [] /\ pls = [] /\ kfind ly n <> None)).
  { intro pls. unfold set_layers. cbn [mm_layers mm_lines mm_planes mm_id mm_label mm_geo mm_meta]. rewrite <- LN.
    assert (HK : h' = h <-> kfind ly n <> None).
    { unfold MapModel.merge_layer in ME. destruct (kfind ly n) as [[b|]|].
      - destruct (nth_error h b) as [[c|]|]; try discriminate; [destruct a as [a|]; [|discriminate]; destruct (nth_error h a) as [[d|]|]; discriminate|].
        injection ME as <- <-. split; [discriminate|reflexivity].
      - injection ME as <- <-. split; [discriminate|reflexivity].
      - destruct a as [a|]; [|discriminate]. destruct (nth_error h a) as [o|]; [|discriminate]. destruct po as [p|]; [|discriminate].
        destruct o; [discriminate|]. injection ME as <- <-. split; [|congruence]. intro X. apply (f_equal (@List.length _)) in X. rewrite app_length in X. cbn [List.length] in X. lia. }
    assert (HL : kfind ly n <> None -> ly' = ly).
    { intro K. unfold MapModel.merge_layer in ME. destruct (kfind ly n) as [[b|]|]; [| |congruence].
      - destruct (nth_error h b) as [[c|]|]; try discriminate; [destruct a as [a|]; [|discriminate]; destruct (nth_error h a) as [[d|]|]; discriminate|].
        injection ME as <- <-. reflexivity.
      - injection ME as <- <-. reflexivity. }
    assert (AN : forall {T} (x y : list T), x ++ y = x <-> y = []).
    { intros T x y. split; [|intros ->; apply app_nil_r]. intro X. apply (f_equal (@List.length _)) in X. rewrite app_length in X. destruct y; [reflexivity|cbn [List.length] in X; lia]. }
    split.
    - intro X. injection X as X1 X2 X3 X4. apply AN in X3, X4. split; [exact X3|]. split; [exact X4|]. apply HK, X1.
    - intros (A & B & C). rewrite A, B, (HL C), (proj2 HK C), !app_nil_r. reflexivity. }
  destruct po as [p|], (mm_planes other) as [|x xs]; try discriminate EP; cbn [fst]; apply G.
Qed.
End MapW.

(** ** C110 *)
(** empty() agrees with size() if all the layers are point clouds with points; then size() counts everything. *)
Theorem C110_empty_where : forall h m,
  (forall n a, In (n, a) (mm_layers m) -> exists b c, a = Some b /\ nth_error h b = Some (OPts c) /\ cl_pts c <> []) ->
  (mm_empty m = true <-> mm_size h m = 0).
Proof.
  intros h m A. unfold mm_empty, mm_size. destruct (mm_layers m) as [|[n a] ls].
  - cbn [size_pts]. destruct (mm_lines m), (mm_planes m); cbn; split; intro; try discriminate; try lia; reflexivity.
  - split; [discriminate|]. intro Z. destruct (A n a (or_introl eq_refl)) as (b & c & -> & H & NE). cbn [size_pts] in Z. rewrite H in Z.
    destruct (cl_pts c); [contradiction|cbn [List.length] in Z; lia].
Qed.

(** ** C111 *)
(** Replacing an object shows nothing in the clone exactly if the object is no layer of the map, or does not change. *)
Theorem C111_independent_where : forall h m a o, a < List.length h ->
  ((forall n, object (upd h a o) (mm_layers (clone m)) n = object h (mm_layers (clone m)) n) <->
   (forall n, kfind (mm_layers m) n <> Some (Some a)) \/ nth_error h a = Some o).
Proof.
  intros h m a o L. unfold object, clone. split.
  - intro H.
    assert (Z : forall n, {kfind (mm_layers m) n = Some (Some a)} + {kfind (mm_layers m) n <> Some (Some a)}) by (intro; repeat decide equality).
    destruct (existsb (fun n => if Z n then true else false) (map fst (mm_layers m))) eqn:EX.
    + right. apply existsb_exists in EX as [n [_ EX]]. destruct (Z n) as [K|]; [|discriminate].
      specialize (H n). rewrite K, upd_nth, Nat.eqb_refl in H by exact L. symmetry. exact H.
    + left. intros n K.
      assert (F : existsb (fun n => if Z n then true else false) (map fst (mm_layers m)) = true).
      { apply existsb_exists. exists n. split; [|destruct (Z n); [reflexivity|contradiction]].
        apply kfind_In in K. exact (in_map fst _ _ K). }
      congruence.
  - intros [A|A] n.
    + destruct (kfind (mm_layers m) n) as [[b|]|] eqn:K; try reflexivity. rewrite upd_nth by exact L. destruct (Nat.eqb_spec a b) as [->|]; [|reflexivity]. exfalso. exact (A n K).
    + destruct (kfind (mm_layers m) n) as [[b|]|]; try reflexivity. rewrite upd_nth by exact L. destruct (Nat.eqb_spec a b) as [->|]; [symmetry; exact A|reflexivity].
Qed.

(** ** C113 *)
(** Georeferencing survives storing as YAML exactly if its rotation is null. *)
Theorem C113_rotation_kept_where : forall g, from_yaml (to_yaml (Some g)) = Val (Some g) <-> g_rot g = (0, 0, 0)%Q.
Proof.
  intros g. rewrite C112_georef_yaml. split.
  - intros [= E]. rewrite <- E. reflexivity.
  - intro E. destruct g as [la lo h t r c]. cbn in *. rewrite E. reflexivity.
Qed.

Example where_mergeable : mergeable exh exm exo (Some exp_) /\ snd (merge_with exf exh exm exo (Some exp_)) = Val tt.
Proof. split; [apply ex_merge_ok|reflexivity]. Qed.
