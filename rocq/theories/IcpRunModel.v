(** Model of the inputs of apps/icp-run/main.cpp (load_input_pc, pc_from_rawlog), of
    mp2p_icp_map/src/load_xyz_file.cpp and of apps/rawlog-filter/main.cpp.

    Simplifications: the readers of mrpt (rawlog, text, icplog files) and the generators and filters are
    parameters; time, progress bar and console texts are not modelled; the frames that rawlog-filter has
    written are the list of the entries of the output file. *)
From Coq Require Import String Ascii.
From Verif Require Import Base MmToolsModel.
Open Scope nat_scope.

(** std::string::find, substr *)
Fixpoint find_sub (pat s : string) : option nat :=
  if String.prefix pat s then Some 0
  else match s with EmptyString => None | String _ r => option_map S (find_sub pat r) end.
Fixpoint take (n : nat) (s : string) : string :=
  match n, s with S n, String c r => String c (take n r) | _, _ => EmptyString end.
Fixpoint drop (n : nat) (s : string) : string :=
  match n, s with S n, String _ r => drop n r | _, _ => s end.

(** icp-run/main.cpp 165-213: what the name of the input is taken for *)
Inductive Source := SRawlog (f idx : string) | SMap (f : string) | SIcplog (f : string) | SAscii (f : string).
Definition classify (f : string) : Source :=
  match find_sub ".rawlog:" f with
  | Some p => SRawlog (take (p + 7) f) (drop (p + 7 + 1) f)
  | None =>
    match find_sub ".mm" f with
    | Some _ => SMap f
    | None => match find_sub ".icplog" f with Some _ => SIcplog f | None => SAscii f end
    end
  end.

Section IcpRun.
Variables M SFrame Obs Pts : Type.
(** an object of a rawlog *)
Inductive Entry := EFrame (s : SFrame) | EObs (o : Obs) | EOther.
Variable gen_frame : SFrame -> res M.     (* apply_generators() into a new map *)
Variable gen_obs : Obs -> res M.
(** icp-run/main.cpp 127-163; entries are not null *)
Definition pc_from_rawlog (r : list Entry) (i : nat) : res M :=
  match nth_error r i with
  | None => Throw
  | Some (EFrame s) => gen_frame s
  | Some (EObs o) => gen_obs o
  | Some EOther => Throw
  end.

(** the files; [None]: it cannot be read (the callers throw) *)
Variable rawlog : string -> option (list Entry).
Variable map_file : string -> option M.
Variable icplog : string -> option (M * M).        (* local, global *)
Variable text_points : string -> option (list Pts).
Variable raw_map : list Pts -> M.                  (* a map with the points in the layer "raw" *)
(** std::stod: [None]: it throws *)
Variable stod : string -> option Q.

(** load_xyz_file.cpp 28-68.  Simplification: the gz decompression to a temporary file is part of [text_points]. *)
Definition load_xyz_file (f : string) : res (list Pts) :=
  match text_points f with
  | None => Throw
  | Some p => if Nat.ltb 1 (List.length p) then Ok p else Throw
  end.
(** conversion of double to size_t: truncated, undefined if out of range *)
Definition to_index (q : Q) : res nat :=
  let n := Z.quot (Qnum q) (Z.pos (Qden q)) in
  if Z.leb 0 n && Z.ltb n (2 ^ 64) then Ok (Z.to_nat n) else UB.
(** icp-run/main.cpp 165-213 *)
Definition load_input_pc (f : string) (local : bool) : res M :=
  match classify f with
  | SRawlog g i =>
      match stod i with
      | None => Throw
      | Some q =>
          match rawlog g with
          | None => Throw
          | Some r => let* k := to_index q in pc_from_rawlog r k
          end
      end
  | SMap g => match map_file g with Some m => Ok m | None => Throw end
  | SIcplog g => match icplog g with Some (l, gl) => Ok (if local then l else gl) | None => Throw end
  | SAscii g => let* p := load_xyz_file g in Ok (raw_map p)
  end.
End IcpRun.

Section RawlogFilter.
Variables Obs Pts Other : Type.
Variable stamp : Obs -> Z.
(** a layer of the map: null, a point cloud, or a map of another class *)
Inductive LayerR := RNull | RPts (p : Pts) | ROther (o : Other).
Definition Layers := list (string * LayerR).
(** apply_generators() into a new map: whether some generator handled it, and the layers *)
Variable gens : Obs -> res (bool * Layers).
Variable filters : Layers -> res Layers.
(** an entry of the output frame *)
Inductive Out := OIn (o : Obs) | OPts (label : string) (t : Z) (p : Pts).

(** rawlog-filter/main.cpp 212-228 *)
Fixpoint out_layers (t : Z) (ls : Layers) : list Out :=
  match ls with
  | [] => []
  | (n, RPts p) :: r => OPts ("out_" ++ n) t p :: out_layers t r
  | _ :: r => out_layers t r
  end.
(** rawlog-filter/main.cpp 188-249: the frames written so far and the outcome; [None]: not a CObservation *)
Fixpoint rf_loop (es : list (option Obs)) : list (list Out) * res unit :=
  match es with
  | [] => ([], Ok tt)
  | None :: _ => ([], Throw)
  | Some o :: r =>
      match gens o with
      | Throw => ([], Throw) | UB => ([], UB)
      | Ok (false, _) => rf_loop r
      | Ok (true, ls) =>
          match filters ls with
          | Throw => ([], Throw) | UB => ([], UB)
          | Ok ls => let '(out, x) := rf_loop r in ((OIn o :: out_layers (stamp o) ls) :: out, x)
          end
      end
  end.
(** rawlog-filter/main.cpp 161-171; size_t arithmetic *)
Definition rf_range (size : nat) (from to : option N) : nat * nat :=
  (match from with Some i => N.to_nat i | None => 0 end,
   match to with Some i => Nat.min size (N.to_nat ((i + 1) mod 2 ^ 64)) | None => size end).
Definition rawlog_filter (ds : list (option Obs)) (from to : option N) : list (list Out) * res nat :=
  let '(cur, n) := rf_range (List.length ds) from to in
  match rf_loop (firstn (n - cur) (skipn cur ds)) with
  | (out, Ok _) => (out, Ok 0)
  | (out, Throw) => (out, Ok 1)
  | (out, UB) => (out, UB)
  end.
End RawlogFilter.
