(** Specification vocabulary for the voxel grids and the decimation filters. *)
From Coq Require Import String Permutation Sorted Qabs.
From Verif Require Import Base FilterModel VoxelModel.
Open Scope Q_scope.
Open Scope list_scope.

(** Points of a list with their indices. *)
Definition numbered (l : list Pt) : list (nat * Pt) := combine (seq 0 (List.length l)) l.

(** Indices of the points of [l] that fall in the voxel [k]. *)
Definition in_voxel (res : Q) (k : Key) (l : list Pt) : list nat :=
  map fst (filter (fun ip => key_eqb (key_of res (snd ip)) k) (numbered l)).

(** Points of [l] that fall in the voxel [k], in order. *)
Definition pts_in (res : Q) (k : Key) (l : list Pt) : list Pt :=
  filter (fun p => key_eqb (key_of res p) k) l.

(** [kr] lists one representative per occupied voxel of [src]: every occupied voxel once,
    with a point related by [R] to the points of the voxel. *)
Definition OnePerVoxel (res : Q) (src : list Pt) (R : list Pt -> Pt -> Prop)
    (kr : list (Key * Pt)) : Prop :=
  NoDup (map fst kr) /\
  (forall k, In k (map fst kr) <-> exists p, In p src /\ key_of res p = k) /\
  (forall k p, In (k, p) kr -> R (pts_in res k src) p).

(** Appending [l] to the point layer [n] (nothing else changes). *)
Definition Appended (m m' : Layers) (n : Name) (l : list Pt) : Prop :=
  exists c, lfind m n = Some (LPts c) /\
    lfind m' n = Some (LPts (mkCloud (cl_cls c) (cl_pts c ++ map (conv (cl_cls c)) l))) /\
    forall k, k <> n -> lfind m' k = lfind m k.

(** Exact arithmetic mean of the positions. *)
Definition IsMean (l : list Pt) (x y z : Q) : Prop :=
  let n := inject_Z (Z.of_nat (List.length l)) in
  n * x == fold_right Qplus 0 (map px l) /\
  n * y == fold_right Qplus 0 (map py l) /\
  n * z == fold_right Qplus 0 (map pz l).

(** What each method promises about the representative [p] of the points [l]. *)
Definition Promise (me : DMethod) (l : list Pt) (p : Pt) : Prop :=
  match me with
  | FirstPoint => exists t, l = p :: t
  | RandomPoint => In p l
  | VoxelAverage => IsMean l (px p) (py p) (pz p) /\ p_int p = 0 /\ p_ring p = 0%Z /\ p_time p = 0
  | ClosestToAverage => In p l /\ exists x y z, IsMean l x y z /\
        forall q, In q l -> sq_norm_from (x, y, z) p <= sq_norm_from (x, y, z) q
  end.

(** The layer [n] grew by the points [l]; it is created with class [cls] if missing.
    No other layer changes. *)
Definition Grew (m m' : Layers) (n : Name) (cls : Cls) (l : list Pt) : Prop :=
  match lfind m n with
  | Some (LPts c) => lfind m' n = Some (LPts (mkCloud (cl_cls c) (cl_pts c ++ map (conv (cl_cls c)) l)))
  | _ => lfind m' n = Some (LPts (mkCloud cls (map (conv cls) l)))
  end /\
  forall k, k <> n -> lfind m' k = lfind m k.

(** (x,y) column of a voxel. *)
Definition column (k : Key) : Z * Z := let '(x, y, _) := k in (x, y).

(** [sel] takes, among the representatives [kr], exactly one per column. *)
Definition OnePerColumn (kr sel : list (Key * Pt)) : Prop :=
  NoDup (map (fun kv => column (fst kv)) sel) /\
  (forall kv, In kv sel -> In kv kr) /\
  (forall kv, In kv kr -> In (column (fst kv)) (map (fun kv => column (fst kv)) sel)).

(** The points written for the representatives [kr]: all of them, or, flattened to the
    height [z], one per column. *)
Definition Written (flatten : option Q) (kr : list (Key * Pt)) (out : list Pt) : Prop :=
  match flatten with
  | None => out = map snd kr
  | Some z => exists sel, OnePerColumn kr sel /\
                out = map (fun kv => mkPt (px (snd kv)) (py (snd kv)) z 0 0%Z 0) sel
  end.

(** A point as a cloud too small to be decimated is copied. *)
Definition flat (c : DecCfg) (p : Pt) : Pt :=
  match de_flatten c with Some z => mkPt (px p) (py p) z 0 0%Z 0 | None => p end.

(** A cloud the filter passes through instead of decimating. *)
Definition small (c : DecCfg) (pc : list Pt) : bool :=
  (0 <? de_min_pts c)%nat && (List.length pc <=? de_min_pts c)%nat.

(** Points of the layer [n]. *)
Definition pts_of (m : Layers) (n : Name) : list Pt :=
  match lfind m n with Some (LPts c) => cl_pts c | _ => [] end.

(** Every listed input is an existing point layer. *)
Definition inputs_ok (m : Layers) (ins : list Name) : Prop :=
  forall n, In n ins -> exists c, lfind m n = Some (LPts c).

(** Closer than [d] on every axis. *)
Definition near (d : Q) (p q : Pt) : Prop :=
  Qabs (px p - px q) < d /\ Qabs (py p - py q) < d /\ Qabs (pz p - pz q) < d.
(** [ks] lists, in order, the indices of the points of [l] kept when a point is dropped iff it
    is near the last point kept before it. *)
Definition Thinned (d : Q) (l : list Pt) (ks : list nat) : Prop :=
  StronglySorted lt ks /\ (forall i, In i ks -> (i < List.length l)%nat) /\
  forall i p, nth_error l i = Some p ->
    (~ In i ks <-> exists j q, (j < i)%nat /\ In j ks /\ nth_error l j = Some q
                     /\ (forall k, (j < k < i)%nat -> ~ In k ks) /\ near d q p).
