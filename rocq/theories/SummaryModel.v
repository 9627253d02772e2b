(** Model of the texts that describe a set of pairings, a map and the results of a registration:
    mp2p_icp/src/Pairings.cpp 149-173, mp2p_icp_map/src/metricmap.cpp 557-648, mp2p_icp/src/Results.cpp 57-70.

    Simplifications:
    - the texts made by mrpt (CMetricMap::asString, CPose3D, unitsFormat, the YAML emitter, the geographic coordinates,
      operator<< of numbers) are parameters, arbitrary functions of the value that is shown;
    - which of the objects that are not point maps are voxel maps, and their number of active cells, is the parameter [voxels];
    - an empty list of metadata stands for a null YAML node, as in MapModel;
    - mrpt TEnumType<>::value2name (not part of /repo) throws for a value that was not registered; IterTermReason.h
      36-47 registers the seven enumerators 0..6. *)
From Coq Require Import String Ascii DecimalString DecimalN.
From Verif Require Import Base PairingsModel MatcherModel SolverModel QualityModel IcpModel FilterModel DeskewModel MapModel LogFileModel.
Open Scope nat_scope.
Open Scope string_scope.

(** std::to_string(size_t) *)
Definition to_string (n : nat) : string := dec (N.of_nat n).
Definition is_empty (s : string) : bool := match s with EmptyString => true | _ => false end.

(** Pairings.cpp 149-157, append_container_size *)
Definition append_container_size {A} (c : list A) (name ret : string) : string :=
  if isNil c then ret
  else (if is_empty ret then ret else ret +++ ", ") +++ (to_string (List.length c) +++ " " +++ name).

Section Pairs.
Context {PP PL PN LL NN W : Type}.
(** Pairings.cpp 159-173, Pairings::contents_summary *)
Definition pairings_summary (p : Pairings PP PL PN LL NN W) : string :=
  if pairings_empty p then "none"
  else
    let ret := "" in
    let ret := append_container_size (paired_pt2pt p) "point-point" ret in
    let ret := append_container_size (paired_pt2ln p) "point-line" ret in
    let ret := append_container_size (paired_pt2pl p) "point-plane" ret in
    let ret := append_container_size (paired_ln2ln p) "line-line" ret in
    let ret := append_container_size (paired_pl2pl p) "plane-plane" ret in
    ret +++ " out of " +++ to_string (potential_pairings p).

(** Results.cpp 57-70, Results::print: the texts of the pose, of 100 * quality and of the number of iterations are
    given; [name] is value2name, [None]: not registered *)
Definition results_print (name : N -> option string) (pose quality iters : string) (reason : N) (p : Pairings PP PL PN LL NN W) : res string :=
  match name reason with
  | None => Throw
  | Some nm =>
      Ok ("- optimalPoseLocalWrtGlobal: " +++ pose +++ String "010" "- quality: " +++ quality +++ " %" +++ String "010" "- iterations: " +++ iters
          +++ String "010" "- terminationReason: " +++ nm +++ String "010" "- finalPairings: " +++ pairings_summary p +++ String "010" "")
  end.
End Pairs.

(** IterTermReason.h 36-47: the registered values, with arbitrary names *)
Definition reason_code (r : IterTermReason) : N :=
  match r with
  | Undefined => 0 | NoPairings => 1 | SolverError => 2 | MaxIterations => 3 | Stalled => 4 | QualityCheckpointFailed => 5 | HookRequest => 6
  end%N.
Definition value2name (names : IterTermReason -> string) (v : N) : option string :=
  match v with
  | 0 => Some (names Undefined) | 1 => Some (names NoPairings) | 2 => Some (names SolverError) | 3 => Some (names MaxIterations)
  | 4 => Some (names Stalled) | 5 => Some (names QualityCheckpointFailed) | 6 => Some (names HookRequest) | _ => None
  end%N.

Section Map.
Variable show : Obj -> string.              (* CMetricMap::asString() *)
Variable voxels : Other -> option nat.      (* the active cells, of a CVoxelMap *)
Variable units : nat -> string.             (* mrpt::system::unitsFormat(.., 2, false) *)
Variable geo_text : Georef -> string.       (* lines 574-580 *)
Variable meta_text : list (string * string) -> string.   (* printAsYAML *)

(** metricmap.cpp 588-595, the lambda retAppend *)
Definition ret_append (ret s : string) : string := (if is_empty ret then ret else ret +++ ", ") +++ s.

(** metricmap.cpp 606-624: the loop over the layers.  A layer that is not null has an object. *)
Fixpoint scan (h : Heap) (ls : list (Name * option Addr)) (nPts nVox : nat) (other : bool) : res (nat * nat * bool) :=
  match ls with
  | [] => Ok (nPts, nVox, other)
  | (_, None) :: _ => Throw
  | (_, Some a) :: t =>
      match nth_error h a with
      | None => UB
      | Some (OPts c) => scan h t (nPts + List.length (cl_pts c)) nVox other
      | Some (OOther o) =>
          match voxels o with
          | Some n => scan h t nPts (nVox + n) other
          | None => scan h t nPts nVox true
          end
      end
  end.
(** metricmap.cpp 633-636 *)
Fixpoint layer_names (h : Heap) (ls : list (Name * option Addr)) (ret : string) : string :=
  match ls with
  | [] => ret
  | (n, p) :: t =>
      let txt := match p with Some a => match nth_error h a with Some o => show o | None => "" end | None => "" end in
      layer_names h t (ret +++ (String """" "" +++ n +++ String """" ":" +++ txt +++ " "))
  end.

(** metricmap.cpp 557-648, metric_map_t::contents_summary *)
Definition map_summary (h : Heap) (m : MMap) : res string :=
  let ret := "" in
  let ret := match mm_id m with Some i => ret +++ ("id=" +++ to_string i +++ " ") | None => ret end in
  let ret := match mm_label m with Some l => ret +++ ("label='" +++ l +++ "' ") | None => ret end in
  let ret := match mm_geo m with Some g => ret +++ ("georeferenced: " +++ geo_text g) | None => ret end in
  if mm_empty m then Ok (ret +++ "empty")
  else
    let ret := if isNil (mm_lines m) then ret else ret_append ret (to_string (List.length (mm_lines m)) +++ " lines") in
    let ret := if isNil (mm_planes m) then ret else ret_append ret (to_string (List.length (mm_planes m)) +++ " planes") in
    rbind (scan h (mm_layers m) 0 0 false) (fun s =>
      let '(nPts, nVox, other) := s in
      let ret := if negb (Nat.eqb nPts 0) || negb (Nat.eqb nVox 0) || other
                 then layer_names h (mm_layers m)
                        (ret_append ret (units nPts +++ " points, " +++ units nVox +++ " voxels in " +++ to_string (List.length (mm_layers m)) +++ " layers ("))
                      +++ ")"
                 else ret in
      let ret := if isNil (mm_meta m) then ret else ret_append ret ("metadata: '" +++ meta_text (mm_meta m) +++ "' ") in
      Ok ret).
End Map.
