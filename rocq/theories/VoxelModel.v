(** Model of PointCloudToVoxelGrid, PointCloudToVoxelGridSingle, FilterDecimateVoxels
    and FilterDecimateAdaptive (mp2p_icp_filters).

    Simplifications (besides those of FilterModel.v): voxel indices are unbounded
    integers (int32_t in the code, no overflow); the hash map and the std::map are
    association lists, the order in which [visit_voxels] reports them being given by an
    arbitrary function [ord] (a permutation, see the theorems). *)
From Coq Require Import String.
From Verif Require Import Base FilterModel.
Open Scope string_scope.
Open Scope Q_scope.
Open Scope list_scope.

Definition Key := (Z * Z * Z)%type.

Definition key_eqb (a b : Key) : bool :=
  let '(a1, a2, a3) := a in let '(b1, b2, b3) := b in
  Z.eqb a1 b1 && Z.eqb a2 b2 && Z.eqb a3 b3.

(** PointCloudToVoxelGrid.h 118 (and PointCloudToVoxelGridSingle.h):
    [static_cast<int32_t>(xyz / resolution_)], truncation towards zero. *)
Definition coord2idx (res x : Q) : Z :=
  let q := x / res in Z.quot (Qnum q) (Zpos (Qden q)).

Definition key_of (res : Q) (p : Pt) : Key :=
  (coord2idx res (px p), coord2idx res (py p), coord2idx res (pz p)).

(** ** Containers *)
Section Assoc.
  Context {V : Type}.
  Fixpoint afind (m : list (Key * V)) (k : Key) : option V :=
    match m with
    | [] => None
    | (a, v) :: t => if key_eqb a k then Some v else afind t k
    end.
  (** [m[k] = f(m[k])], creating the entry from [None] *)
  Fixpoint aupd (m : list (Key * V)) (k : Key) (f : option V -> V) : list (Key * V) :=
    match m with
    | [] => [(k, f None)]
    | (a, v) :: t => if key_eqb a k then (a, f (Some v)) :: t else (a, v) :: aupd t k f
    end.
End Assoc.

(** ** PointCloudToVoxelGrid *)

(** PointCloudToVoxelGrid.cpp 30-34 and .h 126-135.  A voxel is its list of indices. *)
Record Grid := mkGrid { g_res : Q; g_robin : bool; g_min_dist : Q;
  g_tsl : list (Key * list nat); g_std : list (Key * list nat) }.

(** PointCloudToVoxelGrid.cpp 90-100 *)
Definition g_clear (g : Grid) : Grid :=
  if g_robin g then mkGrid (g_res g) (g_robin g) (g_min_dist g) [] (g_std g)
  else mkGrid (g_res g) (g_robin g) (g_min_dist g) (g_tsl g) [].

(** PointCloudToVoxelGrid.cpp 38-48 *)
Definition g_configure (g : Grid) (res : Q) (robin : bool) : Grid :=
  g_clear (mkGrid res robin (g_min_dist g) (g_tsl g) (g_std g)).

Definition Qabs' (x : Q) : Q := if Qltb x 0 then - x else x.
Definition Qmax' (a b : Q) : Q := if Qltb a b then b else a.

(** PointCloudToVoxelGrid.cpp 71-73.  [None]: no previous point (the code uses the
    largest float, which no finite threshold reaches). *)
Definition too_close (d : Q) (prev : option Pt) (p : Pt) : bool :=
  negb (Qeq_bool d 0) &&
  match prev with
  | None => false
  | Some q => Qltb (Qmax' (Qmax' (Qabs' (px q - px p)) (Qabs' (py q - py p))) (Qabs' (pz q - pz p))) d
  end.

(** PointCloudToVoxelGrid.cpp 68-87: the loop, on the hash-map container only. *)
Fixpoint g_loop (res d : Q) (prev : option Pt) (i : nat) (l : list Pt)
    (m : list (Key * list nat)) : list (Key * list nat) :=
  match l with
  | [] => m
  | p :: t =>
      if too_close d prev p then g_loop res d prev (S i) t m
      else g_loop res d (Some p) (S i) t
             (aupd m (key_of res p) (fun o => match o with None => [i] | Some v => v ++ [i] end))
  end.

(** PointCloudToVoxelGrid.cpp 50-88: writes the hash map whatever the flag says. *)
Definition g_process (g : Grid) (l : list Pt) : Grid :=
  mkGrid (g_res g) (g_robin g) (g_min_dist g)
         (g_loop (g_res g) (g_min_dist g) None 0 l (g_tsl g)) (g_std g).

(** PointCloudToVoxelGrid.cpp 102-119: contents reported (in some order) *)
Definition g_visit (g : Grid) : list (Key * list nat) :=
  if g_robin g then g_tsl g else g_std g.

(** PointCloudToVoxelGrid.cpp 121-124 *)
Definition g_size (g : Grid) : nat := List.length (g_visit g).

(** ** PointCloudToVoxelGridSingle *)

(** PointCloudToVoxelGridSingle.h voxel_t: point, index, source cloud, count.  The
    source pointer is a tag naming the cloud. *)
Record SVoxel := mkSV { sv_pt : Pt; sv_idx : nat; sv_src : nat; sv_count : nat }.

Record SGrid := mkSGrid { s_res : Q; s_robin : bool;
  s_tsl : list (Key * SVoxel); s_std : list (Key * SVoxel) }.

(** PointCloudToVoxelGridSingle.cpp 104-115 *)
Definition s_clear (g : SGrid) : SGrid :=
  if s_robin g then mkSGrid (s_res g) (s_robin g) [] (s_std g)
  else mkSGrid (s_res g) (s_robin g) (s_tsl g) [].

(** PointCloudToVoxelGridSingle.cpp 37-47 *)
Definition s_configure (g : SGrid) (res : Q) (robin : bool) : SGrid :=
  s_clear (mkSGrid res robin (s_tsl g) (s_std g)).

(** PointCloudToVoxelGridSingle.cpp 69-89 *)
Definition s_put (src i : nat) (p : Pt) (o : option SVoxel) : SVoxel :=
  match o with
  | None => mkSV p i src 1
  | Some v => if Nat.eqb (sv_count v) 0 then mkSV p i src 1
              else mkSV (sv_pt v) (sv_idx v) (sv_src v) (S (sv_count v))
  end.

(** PointCloudToVoxelGridSingle.cpp 59-91 *)
Fixpoint s_loop (res : Q) (src i : nat) (l : list Pt) (m : list (Key * SVoxel))
    : list (Key * SVoxel) :=
  match l with
  | [] => m
  | p :: t => s_loop res src (S i) t (aupd m (key_of res p) (s_put src i p))
  end.

(** PointCloudToVoxelGridSingle.cpp 49-102 *)
Definition s_process (g : SGrid) (src : nat) (l : list Pt) : SGrid :=
  if s_robin g
  then mkSGrid (s_res g) (s_robin g) (s_loop (s_res g) src 0 l (s_tsl g)) (s_std g)
  else mkSGrid (s_res g) (s_robin g) (s_tsl g) (s_loop (s_res g) src 0 l (s_std g)).

(** PointCloudToVoxelGridSingle.cpp 117-139 *)
Definition s_visit (g : SGrid) : list (Key * SVoxel) :=
  if s_robin g then s_tsl g else s_std g.
Definition s_size (g : SGrid) : nat := List.length (s_visit g).

(** ** FilterDecimateVoxels *)
Inductive DMethod := FirstPoint | ClosestToAverage | VoxelAverage | RandomPoint.

Record DecCfg := mkDec { de_ins : list Name; de_error_missing : bool; de_out : Name;
  de_method : DMethod; de_min_pts : nat; de_res : Q; de_robin : bool;
  de_flatten : option Q; de_realized : bool }.

(** An input: a layer read by name at every access (a raw pointer into the map), or the
    point cloud a voxel map converts to. *)
Inductive Src := SLayer (n : Name) | SConv (c : Cloud).

Definition read_src (m : Layers) (s : Src) : Cloud :=
  match s with
  | SConv c => c
  | SLayer n => match lfind m n with Some (LPts c) => c | _ => mkCloud SimplePoints [] end
  end.

(** FilterDecimateVoxels.cpp 113-140; a null layer pointer is dereferenced (line 120). *)
Fixpoint collect (ins : list Name) (err : bool) : M (list Src) := fun m =>
  match ins with
  | [] => (m, Val [])
  | n :: t =>
    match lfind m n with
    | Some LNull => (m, Undef)
    | Some (LPts _) => (do r <- collect t err; ret (SLayer n :: r)) m
    | Some (LOther o) =>
        match ot_points o with
        | Some c => (do r <- collect t err; ret (SConv c :: r)) m
        | None => (m, Exc)
        end
    | None => if err then (m, Exc) else collect t err m
    end
  end.

(** mrpt CPointsMap::insertPointFast: channels, if any, get 0. *)
Definition insert_xyz (n : Name) (x y z : Q) : M unit := insert_from n (mkPt x y z 0 0%Z 0).

(** FilterDecimateVoxels.cpp 175-185, one step *)
Definition pass_pt (c : DecCfg) (p : Pt) : M unit :=
  match de_flatten c with
  | Some z => insert_xyz (de_out c) (px p) (py p) z
  | None => insert_from (de_out c) p
  end.

Fixpoint each {A} (f : A -> M unit) (l : list A) : M unit :=
  match l with
  | [] => ret tt
  | a :: t => do _ <- f a; each f t
  end.

(** FilterDecimateVoxels.cpp 162-186: copies the small clouds, returns the others.  The
    inner loop [i < xs.size()] on the output layer itself never ends when that layer has
    a point, since each step appends one: [Spin]. *)
Fixpoint pass_small (c : DecCfg) (srcs : list Src) : M (list Src) := fun m =>
  match srcs with
  | [] => (m, Val [])
  | s :: t =>
    let pc := read_src m s in
    if (de_min_pts c <? List.length (cl_pts pc))%nat
    then (do r <- pass_small c t; ret (s :: r)) m
    else match s with
         | SLayer n =>
             if String.eqb n (de_out c) && negb (Nat.eqb (List.length (cl_pts pc)) 0)
             then (m, Spin)
             else (do _ <- each (pass_pt c) (cl_pts pc); pass_small c t) m
         | SConv _ => (do _ <- each (pass_pt c) (cl_pts pc); pass_small c t) m
         end
  end.

(** FilterDecimateVoxels.cpp 228-239, 345-354: with flattening, only the first visited voxel
    of each (x,y) column gives a point. *)
Fixpoint first_columns {A} (used : list (Z * Z)) (l : list (Key * A)) : list (Key * A) :=
  match l with
  | [] => []
  | ((x, y, z), a) :: t =>
      if existsb (fun u => Z.eqb (fst u) x && Z.eqb (snd u) y) used then first_columns used t
      else ((x, y, z), a) :: first_columns ((x, y) :: used) t
  end.

(** FilterDecimateVoxels.cpp 208-215 (pointcloud_sanity_check holds of every model cloud) *)
Fixpoint s_process_all (g : SGrid) (tag : nat) (l : list (list Pt)) : SGrid :=
  match l with
  | [] => g
  | pc :: t => s_process_all (s_process g tag pc) (S tag) t
  end.

(** FilterDecimateVoxels.cpp 197-252.  The inserted point is the one of the source cloud at
    the recorded index, which is the recorded point (sources do not lose points). *)
Definition dec_single (c : DecCfg) (ord : list (Key * SVoxel) -> list (Key * SVoxel))
    (g0 : SGrid) (srcs : list Src) : M unit := fun m =>
  let g := s_process_all (s_clear (s_configure g0 (de_res c) (de_robin c))) 0
             (map (fun s => cl_pts (read_src m s)) srcs) in
  let vs := ord (s_visit g) in
  match de_flatten c with
  | Some z => each (fun kv => insert_xyz (de_out c) (px (sv_pt (snd kv))) (py (sv_pt (snd kv))) z)
                   (first_columns [] vs) m
  | None => each (fun kv => insert_from (de_out c) (sv_pt (snd kv))) vs m
  end.

(** FilterDecimateVoxels.cpp 296-305 *)
Definition sum_by (f : Pt -> Q) (l : list Pt) : Q := fold_left (fun a p => a + f p) l 0.
Definition mean_by (f : Pt -> Q) (l : list Pt) : Q :=
  sum_by f l * (1 / inject_Z (Z.of_nat (List.length l))).
Definition mean_pt (l : list Pt) : Q * Q * Q := (mean_by px l, mean_by py l, mean_by pz l).

(** FilterDecimateVoxels.cpp 309-324 *)
Fixpoint closest (o : Q * Q * Q) (best : option (Q * Pt)) (l : list Pt) : option (Q * Pt) :=
  match l with
  | [] => best
  | p :: t =>
      let e := sq_norm_from o p in
      closest o (match best with
                 | None => Some (e, p)
                 | Some (b, q) => if Qltb e b then Some (e, p) else Some (b, q)
                 end) t
  end.

(** FilterDecimateVoxels.cpp 292-343: the representative of a voxel whose points are [l];
    [Some] of a new point for the average, of an existing one otherwise.  [r] is the
    random draw.  [None]: undefined (an empty voxel, skipped at line 286). *)
Definition represent (me : DMethod) (r : nat) (l : list Pt) : option (bool * Pt) :=
  match me with
  | VoxelAverage => let '(x, y, z) := mean_pt l in
                    match l with [] => None | _ => Some (true, mkPt x y z 0 0%Z 0) end
  | ClosestToAverage => option_map (fun b => (false, snd b)) (closest (mean_pt l) None l)
  | RandomPoint => option_map (pair false) (nth_error l (Nat.modulo r (List.length l)))
  | FirstPoint => option_map (pair false) (nth_error l 0)
  end.

Definition points_at (pc : list Pt) (is : list nat) : list Pt :=
  flat_map (fun i => match nth_error pc i with Some p => [p] | None => [] end) is.

(** random draws, one per visited voxel: rng.drawUniform64bit() *)
Fixpoint with_draws {A} (rnd : nat -> nat) (k : nat) (l : list A) : list (A * nat) :=
  match l with [] => [] | a :: t => (a, rnd k) :: with_draws rnd (S k) t end.

(** FilterDecimateVoxels.cpp 253-371 *)
Definition dec_multi (c : DecCfg) (ord : list (Key * list nat) -> list (Key * list nat))
    (rnd : nat -> nat) (g0 : Grid) (srcs : list Src) : M unit := fun m =>
  match srcs with
  | [s] =>
    let pc := cl_pts (read_src m s) in
    let g := g_process (g_clear (g_configure g0 (de_res c) (de_robin c))) pc in
    let vs := filter (fun kv => negb (Nat.eqb (List.length (snd kv)) 0)) (ord (g_visit g)) in
    let reps := flat_map (fun kvr => match represent (de_method c) (snd kvr) (points_at pc (snd (fst kvr))) with
                                     | Some bp => [(fst (fst kvr), bp)] | None => [] end)
                         (with_draws rnd 0 vs) in
    match de_flatten c with
    | Some z => each (fun kv : Key * (bool * Pt) =>
                        insert_xyz (de_out c) (px (snd (snd kv))) (py (snd (snd kv))) z)
                     (first_columns [] reps) m
    | None => each (fun kv : Key * (bool * Pt) =>
                      if fst (snd kv)
                      then insert_xyz (de_out c) (px (snd (snd kv))) (py (snd (snd kv))) (pz (snd (snd kv)))
                      else insert_from (de_out c) (snd (snd kv))) reps m
    end
  | _ => (m, Exc)
  end.

(** FilterDecimateVoxels.h useSingleGrid() *)
Definition use_single (c : DecCfg) : bool :=
  match de_method c with FirstPoint => true | _ => false end.

(** FilterDecimateVoxels.cpp 107-381.  [sg], [mg]: the two grids as earlier calls left
    them (created by initialize()). *)
Definition filter_decimate (c : DecCfg) (ords : list (Key * SVoxel) -> list (Key * SVoxel))
    (ordm : list (Key * list nat) -> list (Key * list nat)) (rnd : nat -> nat)
    (sg : SGrid) (mg : Grid) : M unit :=
  do _ <- massert (de_realized c);
  do srcs <- collect (de_ins c) (de_error_missing c);
  match srcs with
  | [] => throw
  | s0 :: _ =>
    do _ <- massert (negb (String.eqb (de_out c) ""));
    do _ <- (fun m => get_or_create (de_out c) false (cl_cls (read_src m s0)) m);
    do big <- (if (0 <? de_min_pts c)%nat then pass_small c srcs else ret srcs);
    if use_single c then dec_single c ords sg big else dec_multi c ordm rnd mg big
  end.

(** ** FilterDecimateAdaptive *)
Record AdCfg := mkAd { ad_enabled : bool; ad_in : Name; ad_out : Name; ad_desired : nat;
  ad_min_per_voxel : nat }.

(** Below, a voxel cursor (DataPerVoxel, lines 99-104: [nextIdx], [exhausted]) is the list
    of the indices of the voxel not used yet. *)

(** FilterDecimateAdaptive.cpp 122-128; mrpt::round of the quotient as [rnd_div] *)
Definition increment (desired nvox : nat) (rnd_div : nat -> nat -> nat) : nat :=
  if (desired <? nvox)%nat then Nat.max 1 (rnd_div nvox desired) else 1.

(** FilterDecimateAdaptive.cpp 148, "a large arbitrary prime" *)
Definition big_prime : nat := N.to_nat 123653.

(** FilterDecimateAdaptive.cpp 132-160.  [out]: points inserted so far (indices), [n0]:
    size the output layer had.  [None]: the loop has not ended within [fuel] steps. *)
Fixpoint ad_loop (fuel : nat) (n0 desired incr nvox i : nat) (vox : list (list nat)) (anyI : bool)
    (out : list nat) : option (res (list nat)) :=
  if (n0 + List.length out <? desired)%nat then
    match fuel with
    | O => None
    | S k =>
      match nth_error vox i with
      | None => Some UB
      | Some cur =>
        let '(vox', out', any') :=
          match cur with
          | [] => (vox, out, anyI)
          | x :: rest => (upd vox i rest, out ++ [x], true)
          end in
        let i' := (i + incr)%nat in
        if (nvox <=? i')%nat then
          if any' then ad_loop k n0 desired incr nvox (Nat.modulo (i' + big_prime) nvox) vox' false out'
          else Some (Ok out')
        else ad_loop k n0 desired incr nvox i' vox' any' out'
      end
    end
  else Some (Ok out).

(** FilterDecimateAdaptive.cpp 59-167.  The voxel size (lines 85-93) is an arbitrary [res]. *)
Definition filter_adaptive (fuel : nat) (c : AdCfg) (res : Q) (rnd_div : nat -> nat -> nat)
    (ordm : list (Key * list nat) -> list (Key * list nat)) (g0 : Grid) : M unit :=
  if negb (ad_enabled c) then ret tt else
  do pc <- input_layer (ad_in c);
  do _ <- get_or_create (ad_out c) true SimplePoints;
  fun m =>
    if String.eqb (ad_out c) "" then (m, Undef)
    else
    let n0 := List.length (cl_pts (read_src m (SLayer (ad_out c)))) in
    let g := g_process (g_configure (g_clear g0) res true) (cl_pts (read_src m (SLayer (ad_in c)))) in
    let vox := map snd (filter (fun kv => (ad_min_per_voxel c <=? List.length (snd kv))%nat)
                               (ordm (g_visit g))) in
    let nvox := List.length vox in
    match ad_loop fuel n0 (ad_desired c) (increment (ad_desired c) nvox rnd_div) nvox 0 vox false [] with
    | None => (m, Spin)
    | Some (Ok idxs) => each (insert_from (ad_out c)) (points_at (cl_pts pc) idxs) m
    | Some _ => (m, Undef)
    end.

Arguments key_eqb : simpl never.
Arguments key_of : simpl never.
Arguments coord2idx : simpl never.
