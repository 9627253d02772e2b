(** Proofs about FilterPoleDetector. *)
From Coq Require Import String Qround Permutation Lqa.
From Verif Require Import Base FilterModel FilterSpec FilterProofs FilterProofs2 CurvModel CurvSpec CurvProofs
  PoleModel PoleSpec.
From Verif Require PipelineProofs.
Open Scope string_scope.
Open Scope Q_scope.
Open Scope list_scope.

Lemma cell_eqb_eq a b : cell_eqb a b = true <-> a = b.
Proof.
  unfold cell_eqb. rewrite andb_true_iff, !Z.eqb_eq. destruct a, b; cbn.
  split; [intros [-> ->]; reflexivity|intro E; injection E; auto].
Qed.
Lemma cell_eqb_refl a : cell_eqb a a = true.
Proof. apply cell_eqb_eq. reflexivity. Qed.
Lemma cell_eqb_neq a b : cell_eqb a b = false <-> a <> b.
Proof. rewrite <- cell_eqb_eq. destruct (cell_eqb a b); split; congruence. Qed.

Lemma quot_towards_zero q : Z.quot (Qnum q) (Zpos (Qden q)) = towards_zero q.
Proof.
  unfold towards_zero. destruct q as [n d]. cbn [Qnum Qden].
  destruct (Qle_bool 0 (n # d)) eqn:E.
  - apply Qle_bool_iff in E. unfold Qle in E. cbn in E.
    unfold Qfloor. apply Z.quot_div_nonneg; lia.
  - assert (n < 0)%Z as Hn.
    { destruct (Z_lt_ge_dec n 0) as [H|H]; [exact H|]. exfalso.
      assert (Qle_bool 0 (n # d) = true); [|congruence].
      apply Qle_bool_iff. unfold Qle. cbn. lia. }
    unfold Qceiling, Qfloor. cbn [Qopp Qnum Qden].
    rewrite <- Z.quot_div_nonneg by lia. rewrite Z.quot_opp_l by lia. lia.
Qed.

Section Fix.
Variable res : Q.
Hypothesis Hres : ~ res == 0.

Lemma xy_in_range p : column_in_range res p -> xy_to_index res p = Some (column res p).
Proof.
  intros [A B]. unfold column in *. cbn [fst snd] in *. unfold xy_to_index, to_int32.
  destruct (Qeq_bool res 0) eqn:E; [apply Qeq_bool_iff in E; contradiction|].
  rewrite !quot_towards_zero.
  destruct (Z.leb_spec (-2147483648) (towards_zero (px p / res))); [|lia].
  destruct (Z.leb_spec (towards_zero (px p / res)) 2147483647); [|lia].
  destruct (Z.leb_spec (-2147483648) (towards_zero (py p / res))); [|lia].
  destruct (Z.leb_spec (towards_zero (py p / res)) 2147483647); [|lia].
  reflexivity.
Qed.

Lemma gfind_gadd g k z i k' :
  gfind (gadd g k z i) k' =
  if cell_eqb k k'
  then match gfind g k' with
       | None => Some (mkCell (0 + z) [i])
       | Some v => Some (mkCell (cd_sum v + z) (cd_idx v ++ [i]))
       end
  else gfind g k'.
Proof.
  induction g as [|[a v] t IH]; cbn [gadd gfind].
  - destruct (cell_eqb k k'); reflexivity.
  - destruct (cell_eqb a k) eqn:E; cbn [gfind].
    + apply cell_eqb_eq in E; subst a. destruct (cell_eqb k k'); reflexivity.
    + destruct (cell_eqb a k') eqn:F; [|exact IH].
      apply cell_eqb_eq in F; subst k'.
      assert (cell_eqb k a = false) as -> by (apply cell_eqb_neq in E; apply cell_eqb_neq; congruence).
      reflexivity.
Qed.

Lemma gadd_keys g k z i : map fst (gadd g k z i) =
  match gfind g k with Some _ => map fst g | None => map fst g ++ [k] end.
Proof.
  induction g as [|[a v] t IH]; cbn [gadd gfind map].
  - reflexivity.
  - destruct (cell_eqb a k) eqn:E; cbn [map fst]; [reflexivity|]. rewrite IH. destruct (gfind t k); reflexivity.
Qed.

Lemma gfind_key g k v : gfind g k = Some v -> In (k, v) g.
Proof.
  induction g as [|[a w] t IH]; cbn [gfind]; [discriminate|].
  destruct (cell_eqb a k) eqn:E.
  - intro H. injection H as <-. apply cell_eqb_eq in E; subst. left. reflexivity.
  - intro H. right. auto.
Qed.
Lemma gfind_in g k v : NoDup (map fst g) -> In (k, v) g -> gfind g k = Some v.
Proof.
  induction g as [|[a w] t IH]; cbn [gfind map fst]; intros ND H; [destruct H|].
  apply NoDup_cons_iff in ND as [N1 N2]. destruct H as [H|H].
  - injection H as -> ->. rewrite cell_eqb_refl. reflexivity.
  - destruct (cell_eqb a k) eqn:E; [|auto]. apply cell_eqb_eq in E; subst a. exfalso. apply N1.
    apply (in_map fst) in H. exact H.
Qed.
Lemma gfind_none g k : gfind g k = None -> ~ In k (map fst g).
Proof.
  induction g as [|[a w] t IH]; cbn [gfind map fst]; [auto|].
  destruct (cell_eqb a k) eqn:E; [discriminate|]. apply cell_eqb_neq in E.
  intros H [X|X]; [contradiction|]. exact (IH H X).
Qed.

(** Indices of the first [n] points in column [k]. *)
Definition idxs_of (pts : list Pt) (n : nat) (k : Cell2) : list nat :=
  filter (fun i => cell_eqb (column res (pt_at pts i)) k) (seq 0 n).

Lemma idxs_S pts n k : idxs_of pts (S n) k =
  idxs_of pts n k ++ (if cell_eqb (column res (pt_at pts n)) k then [n] else []).
Proof. unfold idxs_of. rewrite seq_S, filter_app. reflexivity. Qed.

Lemma map_filter_idx pts (P : Pt -> bool) :
  map (pt_at pts) (filter (fun i => P (pt_at pts i)) (seq 0 (List.length pts))) = filter P pts.
Proof.
  assert (forall a pre post, pts = pre ++ a ++ post ->
    map (pt_at pts) (filter (fun i => P (pt_at pts i)) (seq (List.length pre) (List.length a))) = filter P a) as H.
  { induction a as [|x a IH]; intros pre post E; [reflexivity|].
    cbn [List.length seq filter].
    assert (pt_at pts (List.length pre) = x) as Ex.
    { unfold pt_at. rewrite E, app_nth2, Nat.sub_diag by lia. reflexivity. }
    rewrite Ex. specialize (IH (pre ++ [x]) post). rewrite app_length in IH. cbn in IH.
    rewrite Nat.add_1_r in IH. rewrite <- app_assoc in IH. specialize (IH E).
    destruct (P x); cbn [map]; rewrite ?Ex, IH; reflexivity. }
  specialize (H pts [] []). rewrite app_nil_r in H. exact (H eq_refl).
Qed.

Lemma map_idxs pts k : map (pt_at pts) (idxs_of pts (List.length pts) k) = members res pts k.
Proof. apply (map_filter_idx pts (fun p => cell_eqb (column res p) k)). Qed.

Lemma idxs_len pts k : List.length (idxs_of pts (List.length pts) k) = List.length (members res pts k).
Proof. rewrite <- map_idxs, map_length. reflexivity. Qed.

Lemma total_app a b : total_height (a ++ b) == total_height a + total_height b.
Proof.
  unfold total_height. induction a as [|x a IH]; cbn [app fold_right].
  - symmetry. apply Qplus_0_l.
  - rewrite IH. apply Qplus_assoc.
Qed.

Definition InvG (pts : list Pt) (n : nat) (g : Grid2) : Prop :=
  NoDup (map fst g) /\ forall k,
    match gfind g k with
    | None => idxs_of pts n k = []
    | Some v => cd_idx v = idxs_of pts n k /\ idxs_of pts n k <> []
                /\ cd_sum v == total_height (map (pt_at pts) (idxs_of pts n k))
    end.

Lemma build_spec pts : forall l pre g,
  pts = pre ++ l -> Forall (column_in_range res) l -> InvG pts (List.length pre) g ->
  exists g', build_grid res l (List.length pre) g = Some g' /\ InvG pts (List.length pts) g'.
Proof.
  induction l as [|p l IH]; intros pre g E HF HI.
  - exists g. cbn [build_grid]. rewrite app_nil_r in E. subst. auto.
  - inversion HF as [|? ? Hp HF']; subst x l0. cbn [build_grid]. rewrite (xy_in_range p Hp).
    specialize (IH (pre ++ [p]) (gadd g (column res p) (pz p) (List.length pre))).
    rewrite app_length, Nat.add_1_r in IH. apply IH; [rewrite <- app_assoc; exact E|exact HF'|].
    assert (pt_at pts (List.length pre) = p) as Ep.
    { unfold pt_at. rewrite E, app_nth2, Nat.sub_diag by lia. reflexivity. }
    destruct HI as [ND HI]. split.
    + rewrite gadd_keys. destruct (gfind g (column res p)) eqn:F; [exact ND|].
      apply gfind_none in F. clear - ND F. induction (map fst g) as [|x t IH]; cbn.
      * constructor; [intros []|constructor].
      * apply NoDup_cons_iff in ND as [N1 N2]. constructor.
        -- rewrite in_app_iff. cbn. intros [X|[X|[]]]; [contradiction|]. apply F. left. congruence.
        -- apply IH; [exact N2|]. intro X. apply F. right. exact X.
    + intro k. rewrite gfind_gadd, idxs_S, Ep. specialize (HI k).
      destruct (cell_eqb (column res p) k).
      * destruct (gfind g k) as [v|].
        -- destruct HI as (A & B & C). cbn [cd_idx cd_sum]. rewrite A. split; [reflexivity|]. split.
           ++ intro X. apply app_eq_nil in X as [_ X]. discriminate.
           ++ rewrite map_app, total_app, C. cbn [map total_height fold_right]. rewrite Ep. ring.
        -- rewrite HI. cbn [app cd_idx cd_sum map total_height fold_right]. rewrite Ep.
           split; [reflexivity|]. split; [discriminate|]. ring.
      * rewrite app_nil_r. exact HI.
Qed.

Lemma occupied_iff pts k : occupied res pts k <-> members res pts k <> [].
Proof.
  unfold occupied, members. split.
  - intros [p [A B]] E. assert (In p []) as []. rewrite <- E. apply filter_In. split; [exact A|apply cell_eqb_eq; exact B].
  - intro H. destruct (filter (fun p => cell_eqb (column res p) k) pts) as [|p l] eqn:E; [contradiction|].
    assert (In p (p :: l)) as Hp by (left; reflexivity). rewrite <- E in Hp. apply filter_In in Hp as [A B].
    exists p. split; [exact A|apply cell_eqb_eq; exact B].
Qed.

Lemma idxs_nil pts k : idxs_of pts (List.length pts) k = [] <-> members res pts k = [].
Proof. rewrite <- map_idxs. destruct (idxs_of pts _ k); cbn; split; congruence. Qed.

Lemma gfind_final pts g k : InvG pts (List.length pts) g ->
  match gfind g k with
  | None => ~ occupied res pts k
  | Some v => occupied res pts k /\ map (pt_at pts) (cd_idx v) = members res pts k
              /\ List.length (cd_idx v) = List.length (members res pts k)
              /\ cell_mean v == mean_height res pts k
  end.
Proof.
  intros [_ HI]. specialize (HI k). destruct (gfind g k) as [v|].
  - destruct HI as (A & B & C). split; [|split; [|split]].
    + apply occupied_iff. rewrite <- idxs_nil. exact B.
    + rewrite A. apply map_idxs.
    + rewrite A. apply idxs_len.
    + unfold cell_mean, mean_height. rewrite <- idxs_len, <- map_idxs.
      rewrite A. destruct (idxs_of pts (List.length pts) k) eqn:F; [contradiction|]. rewrite C. reflexivity.
  - rewrite occupied_iff, <- idxs_nil. intro H. apply H, HI.
Qed.
End Fix.

(** ** Neighbours *)
Definition shift (k o : Cell2) : Cell2 := (fst k + fst o, snd k + snd o)%Z.

Lemma shift_inj k o o' : shift k o = shift k o' -> o = o'.
Proof. destruct o, o'. unfold shift. cbn. intro E. injection E as A B. f_equal; lia. Qed.

Lemma next_to_iff k k' : next_to k k' <-> In k' (map (shift k) offsets8).
Proof.
  unfold next_to. destruct k as [a b], k' as [x y]. cbn [fst snd]. split.
  - intros (N & A & B).
    assert ((x = a - 1 \/ x = a \/ x = a + 1)%Z) as HA by lia.
    assert ((y = b - 1 \/ y = b \/ y = b + 1)%Z) as HB by lia.
    apply in_map_iff. exists (x - a, y - b)%Z. split.
    { unfold shift. cbn. f_equal; lia. }
    destruct HA as [-> | [-> | ->]]; destruct HB as [-> | [-> | ->]];
      try (exfalso; apply N; f_equal; lia);
      rewrite ?Z.sub_diag; ring_simplify (a - 1 - a)%Z; ring_simplify (a + 1 - a)%Z;
      ring_simplify (b - 1 - b)%Z; ring_simplify (b + 1 - b)%Z; cbn; tauto.
  - intro H. cbn in H. unfold shift in H. cbn in H.
    repeat (destruct H as [H|H]; [injection H as <- <-; split; [intro E; injection E; lia|split; lia]|]).
    destruct H.
Qed.

Section Pole.
Variable c : PoleCfg.
Variable pts : list Pt.
Variable g : Grid2.
Hypothesis HG : InvG (po_grid c) pts (List.length pts) g.

Definition passb (k k' : Cell2) (mean : Q) : bool :=
  match gfind g k' with
  | None => false
  | Some v => Qltb (cell_mean v + po_minrel c) mean && Qltb mean (cell_mean v + po_maxrel c)
  end.

Lemma passb_iff k k' mean : mean == mean_height (po_grid c) pts k ->
  passb k k' mean = true <-> stands_out c pts k k'.
Proof.
  intro E. unfold passb, stands_out. pose proof (gfind_final (po_grid c) pts g k' HG) as H.
  destruct (gfind g k') as [v|].
  - destruct H as (A & _ & _ & B). rewrite andb_true_iff, !PipelineProofs.Qltb_lt, B, E. tauto.
  - split; [discriminate|]. intros [X _]. contradiction.
Qed.

Lemma count_filter k mean : forall offs,
  count_checks c g k mean offs = List.length (filter (fun k' => passb k k' mean) (map (shift k) offs)).
Proof.
  induction offs as [|o t IH]; [reflexivity|]. cbn [count_checks map filter]. rewrite IH.
  change (fst k + fst o, snd k + snd o)%Z with (shift k o). unfold passb at 2.
  destruct (gfind g (shift k o)) as [v|]; [|reflexivity].
  destruct (_ && _); reflexivity.
Qed.

Lemma NoDup_incl_filter (f : Cell2 -> bool) l ns : NoDup ns -> (forall x, In x ns -> In x l /\ f x = true) ->
  (List.length ns <= List.length (filter f l))%nat.
Proof.
  intros ND H. apply NoDup_incl_length; [exact ND|]. intros x Hx. apply filter_In, H, Hx.
Qed.

Lemma pole_count k mean : mean == mean_height (po_grid c) pts k ->
  (po_minchecks c <=? count_checks c g k mean offsets8)%nat = true <-> is_pole c pts k.
Proof.
  intro E. rewrite Nat.leb_le, count_filter. split.
  - intro H. exists (filter (fun k' => passb k k' mean) (map (shift k) offsets8)). split; [|split; [exact H|]].
    + apply NoDup_filter. apply FinFun.Injective_map_NoDup.
      * intros o o'. apply shift_inj.
      * unfold offsets8. repeat (constructor; [cbn; intuition congruence|]). constructor.
    + intros k' Hk. apply filter_In in Hk as [A B]. split; [apply next_to_iff; exact A|].
      apply (passb_iff k k' mean E). exact B.
  - intros (ns & ND & L & H). etransitivity; [exact L|]. apply NoDup_incl_filter; [exact ND|].
    intros x Hx. destruct (H x Hx) as [A B]. split; [apply next_to_iff; exact A|].
    apply (passb_iff k x mean E). exact B.
Qed.

(** Target of the points of column [k]. *)
Definition target (k : Cell2) : Name :=
  match gfind g k with
  | None => ""
  | Some v => if (List.length (cd_idx v) <? po_minpts c)%nat then ""
              else if (po_minchecks c <=? count_checks c g k (cell_mean v) offsets8)%nat
                   then po_poles c else po_nopoles c
  end.

Lemma target_spec k : occupied (po_grid c) pts k ->
  (judged c pts k -> is_pole c pts k -> target k = po_poles c)
  /\ (judged c pts k -> ~ is_pole c pts k -> target k = po_nopoles c)
  /\ (~ judged c pts k -> target k = "").
Proof.
  intro O. unfold target, judged. pose proof (gfind_final (po_grid c) pts g k HG) as H.
  destruct (gfind g k) as [v|]; [|contradiction]. destruct H as (_ & _ & A & B). rewrite A.
  pose proof (pole_count k (cell_mean v) B) as P.
  destruct (Nat.ltb_spec (List.length (members (po_grid c) pts k)) (po_minpts c)) as [L|L].
  - split; [lia|]. split; [lia|]. reflexivity.
  - destruct (_ <=? _)%nat.
    + split; [reflexivity|]. split; [intros _ X; exfalso; apply X, P; reflexivity|]. intro X. contradiction.
    + split; [intros _ X; apply P in X; discriminate|]. split; [reflexivity|]. intro X. contradiction.
Qed.

Definition pdest (p : Pt) : Name := target (column (po_grid c) p).

Lemma given_cells (cells : Grid2) n : (forall kv, In kv cells -> In kv g) -> n <> "" ->
  given_of (flat_map (cell_items c pts g) cells) n =
  flat_map (fun k => filter (fun p => cell_eqb (column (po_grid c) p) k && String.eqb (pdest p) n) pts)
           (map fst cells).
Proof.
  intros HI Nn. unfold given_of. induction cells as [|[k v] t IH]; [reflexivity|].
  cbn [flat_map map fst]. rewrite filter_app, map_app.
  f_equal; [|apply IH; intros; apply HI; right; assumption]. clear IH.
  assert (gfind g k = Some v) as F by (apply gfind_in; [apply HG|apply HI; left; reflexivity]).
  pose proof (gfind_final (po_grid c) pts g k HG) as H. rewrite F in H. destruct H as (_ & A & B & _).
  assert (filter (fun p => cell_eqb (column (po_grid c) p) k && String.eqb (pdest p) n) pts =
          if String.eqb (target k) n then members (po_grid c) pts k else []) as ->.
  { unfold members, pdest. clear. induction pts as [|p l IH]; cbn [filter]; [destruct (String.eqb (target k) n); reflexivity|].
    destruct (cell_eqb (column (po_grid c) p) k) eqn:E; cbn [andb].
    - apply cell_eqb_eq in E. rewrite E. rewrite IH. destruct (String.eqb (target k) n); reflexivity.
    - exact IH. }
  unfold cell_items, target. rewrite F.
  destruct (List.length (cd_idx v) <? po_minpts c)%nat.
  { destruct (String.eqb "" n) eqn:E; [apply String.eqb_eq in E; congruence|]. reflexivity. }
  set (tn := if (po_minchecks c <=? _)%nat then _ else _). rewrite <- A. clear.
  induction (cd_idx v) as [|i l IH]; [destruct (String.eqb tn n); reflexivity|].
  cbn [map filter fst]. destruct (String.eqb tn n); [cbn [map snd]; f_equal; exact IH|exact IH].
Qed.

Lemma items_name n p cells : In (n, p) (flat_map (cell_items c pts g) cells) ->
  (forall kv, In kv cells -> In kv g) -> (n = po_poles c \/ n = po_nopoles c) /\ In p pts.
Proof.
  intros H HI. apply in_flat_map in H as [[k v] [A B]]. unfold cell_items in B.
  assert (gfind g k = Some v) as F by (apply gfind_in; [apply HG|apply HI; exact A]).
  destruct (List.length (cd_idx v) <? po_minpts c)%nat; [destruct B|].
  apply in_map_iff in B as [i [E I]]. injection E as <- <-. split.
  - destruct (_ <=? _)%nat; auto.
  - pose proof (gfind_final (po_grid c) pts g k HG) as H. rewrite F in H. destruct H as (_ & X & _).
    apply (in_map (pt_at pts)) in I. rewrite X in I. apply filter_In in I. tauto.
Qed.
End Pole.

Lemma pole_spec ord c m src :
  (forall g, Permutation (ord g) g) ->
  lfind m (po_in c) = Some (LPts src) -> wf_cloud src -> po_realized c = true ->
  ~ po_grid c == 0 -> Forall (column_in_range (po_grid c)) (cl_pts src) ->
  usable m (po_poles c) -> usable m (po_nopoles c) ->
  exists m' dest cols,
    filter_pole ord c m = (m', Val tt)
    /\ NoDup cols /\ (forall k, In k cols <-> occupied (po_grid c) (cl_pts src) k)
    /\ (forall p, In p (cl_pts src) ->
          let k := column (po_grid c) p in
          (judged c (cl_pts src) k -> is_pole c (cl_pts src) k -> dest p = po_poles c)
          /\ (judged c (cl_pts src) k -> ~ is_pole c (cl_pts src) k -> dest p = po_nopoles c)
          /\ (~ judged c (cl_pts src) k -> dest p = ""))
    /\ Received m m' (cl_cls src) [po_poles c; po_nopoles c]
         (fun n => flat_map (fun k => filter (fun p => cell_eqb (column (po_grid c) p) k
                                                       && String.eqb (dest p) n) (cl_pts src)) cols).
Proof.
  intros HO H W HR Hg HF U1 U2. set (pts := cl_pts src) in *.
  destruct (build_spec (po_grid c) Hg pts pts [] []) as [g [EB HG]]; [reflexivity|exact HF| |].
  { split; [constructor|]. intro k. reflexivity. }
  cbn [List.length] in EB.
  assert (forall kv, In kv (ord g) -> In kv g) as HIn
    by (intros kv; apply Permutation_in; apply HO).
  destruct (emit_received m [po_poles c; po_nopoles c] (cl_cls src) (flat_map (cell_items c pts g) (ord g)))
    as [m' [E1 E2]].
  - intros n [<-|[<-|[]]]; assumption.
  - intros n p Hp. right. destruct (items_name c pts g HG n p _ Hp HIn) as [[-> | ->] _]; cbn; tauto.
  - intros n p Hp. destruct (items_name c pts g HG n p _ Hp HIn) as [_ Hin].
    unfold wf_cloud in W. rewrite Forall_forall in W. apply W. exact Hin.
  - exists m', (pdest c g), (map fst (ord g)). split; [|split; [|split; [|split]]].
    + unfold filter_pole, bnd. rewrite HR. cbn [massert]. unfold ret at 1.
      rewrite (input_ok _ _ _ H), (goc_usable _ _ _ U1).
      rewrite (goc_usable _ _ _ (usable_created _ _ _ _ U2)), created_app. cbn [app].
      fold pts. rewrite EB.
      assert (existsb (fun kv => at_edge (fst kv)) g = false) as ->; [|exact E1].
      destruct (existsb (fun kv => at_edge (fst kv)) g) eqn:X; [exfalso|reflexivity].
      apply existsb_exists in X as [[k v] [A B]]. cbn [fst] in B.
      assert (gfind g k = Some v) as F by (apply gfind_in; [apply HG|exact A]).
      pose proof (gfind_final (po_grid c) pts g k HG) as G. rewrite F in G. destruct G as [[p [P1 P2]] _].
      rewrite Forall_forall in HF. specialize (HF p P1). destruct HF as [R1 R2]. rewrite P2 in R1, R2.
      unfold at_edge in B. rewrite !orb_true_iff, !Z.eqb_eq in B. lia.
    + eapply Permutation_NoDup; [|apply HG]. apply Permutation_map. symmetry. apply HO.
    + intro k. split.
      * intro K. apply in_map_iff in K as [[k' v] [<- K]]. apply HIn in K. cbn [fst].
        assert (gfind g k' = Some v) as F by (apply gfind_in; [apply HG|exact K]).
        pose proof (gfind_final (po_grid c) pts g k' HG) as G. rewrite F in G. apply G.
      * intro K. pose proof (gfind_final (po_grid c) pts g k HG) as G.
        destruct (gfind g k) as [v|] eqn:F; [|contradiction]. apply gfind_key in F.
        apply in_map_iff. exists (k, v). split; [reflexivity|].
        eapply Permutation_in; [symmetry; apply HO|exact F].
    + intros p Hp. cbv zeta. unfold pdest. apply target_spec; [exact HG|]. exists p. auto.
    + intro n. specialize (E2 n). destruct E2 as [E2 E3]. split; [|exact E3].
      intros [I N]. rewrite <- (given_cells c pts g HG (ord g) n HIn N). apply E2. auto.
Qed.
