(** Model of the programs that read and write metric map files: apps/mm-georef/main.cpp,
    apps/mm-filter/main.cpp, apps/mm2txt/main.cpp, apps/txt2mm/main.cpp, apps/kitti2mm/main.cpp, with
    metric_map_t::save_to_file / load_from_file of mp2p_icp_map/src/metricmap.cpp.

    Simplifications: rational numbers for float; the command line is already parsed and the plugins are
    loaded; the content of a file is the object that it holds, or [CJunk] if no object can be
    read from it (a truncated or foreign file); a file is written in two steps, opening it (which
    truncates it) and completing it, and a crash may happen before, between or after any steps; all the
    reads come before the first write. *)
From Coq Require Import String Ascii.
From Verif Require Import Base.
Open Scope nat_scope.

Section MmTools.
Variables Line Plane G Yaml : Type.
Definition P3 := (Q * Q * Q)%type.

(** mrpt point clouds: class and channels *)
Inductive Kind := KXYZ | KXYZI | KXYZIRT | KRGB.
Record Cloud := mkCloud {
  c_kind : Kind; c_xyz : list P3; c_int : list Q; c_ring : list Q; c_time : list Q; c_rgb : list P3 }.
(** an object derived from CMetricMap; [LOther (Some c)]: a map that contains the points c *)
Inductive Layer := LCloud (c : Cloud) | LOther (pts : option Cloud).
(** metric_map_t; [None]: a null layer *)
Record MM := mkMM {
  m_layers : list (string * option Layer); m_lines : list Line; m_planes : list Plane;
  m_geo : option G; m_id : option nat; m_label : option string }.
Definition new_map : MM := mkMM [] [] [] None None None.
(** metricmap.cpp 437 *)
Definition is_empty (m : MM) : bool :=
  match m_layers m, m_lines m, m_planes m with [], [], [] => true | _, _, _ => false end.

Inductive Content := CMap (m : MM) | CGeo (g : option G) | CYaml (y : Yaml) | CText (rows : list (list Q)) | CJunk.
Definition Files := string -> option Content.
Record FS := mkFS { fs_files : Files; fs_read : string -> bool; fs_write : string -> bool }.
(** writing *)
Inductive Step := Trunc (f : string) | Put (f : string) (c : Content).
Definition put (s : Files) (f : string) (c : Content) : Files := fun g => if String.eqb g f then Some c else s g.
Definition do_step (s : Files) (st : Step) : Files := match st with Trunc f => put s f CJunk | Put f c => put s f c end.
(** the files if the program stops after [k] steps *)
Definition crash_at (s : Files) (ss : list Step) (k : nat) : Files := fold_left do_step (firstn k ss) s.
Definition after (s : Files) (ss : list Step) : Files := fold_left do_step ss s.

Definition W (A : Type) := (list Step * res A)%type.
Definition wret {A} (a : A) : W A := ([], Ok a).
Definition wthrow {A} : W A := ([], Throw).
Definition wbnd {A B} (x : W A) (f : A -> W B) : W B :=
  match x with (es, Ok a) => let '(es', r) := f a in (es ++ es', r) | (es, Throw) => (es, Throw) | (es, UB) => (es, UB) end.
Definition lift {A} (r : res A) : W A := ([], r).
Definition wassert (b : bool) : W unit := if b then wret tt else wthrow.

(** Whether the constructors of mrpt CFileGZInputStream and CFileGZOutputStream throw if the file cannot
    be opened: it depends on the release of mrpt and on the reason, so both are covered. *)
Variable open_throws : bool.
Definition opens (fs : FS) (f : string) : option Content := if fs_read fs f then fs_files fs f else None.
(** metricmap.cpp 665-677 *)
Definition load_from_file (fs : FS) (f : string) : W (bool * MM) :=
  match opens fs f with
  | None => if open_throws then wthrow else wret (false, new_map)
  | Some (CMap m) => wret (true, m)
  | Some _ => wthrow
  end.
(** metricmap.cpp 651-663 *)
Definition save_to_file (fs : FS) (f : string) (m : MM) : W bool :=
  if fs_write fs f then ([Trunc f; Put f (CMap m)], Ok true)
  else if open_throws then wthrow else wret false.

(** mrpt::system::extractFileExtension: what follows the last dot *)
Fixpoint ext (s : string) : option string :=
  match s with
  | EmptyString => None
  | String c r => match ext r with Some e => Some e | None => if Ascii.eqb c "." then Some r else None end
  end.
(** apps/mm-georef/main.cpp 35-38 *)
Definition is_binary_file (f : string) : bool := match ext f with Some e => String.eqb e "georef" | None => false end.

(** mp2p_icp::ToYAML, FromYAML *)
Variable to_yaml : option G -> Yaml.
Variable from_yaml : Yaml -> res (option G).

(** mm-georef/main.cpp 77-112 *)
Definition run_mm_extract (fs : FS) (map geo : string) : W unit :=
  wbnd (load_from_file fs map) (fun r =>
  let '(_, mm) := r in
  wbnd (wassert (negb (is_empty mm))) (fun _ =>
  if is_binary_file geo then
    if fs_write fs geo then ([Trunc geo; Put geo (CGeo (m_geo mm))], Ok tt)
    else if open_throws then wthrow else wret tt
  else
    if fs_write fs geo then ([Trunc geo; Put geo (CYaml (to_yaml (m_geo mm)))], Ok tt) else wthrow)).
(** mm-georef/main.cpp 114-156.  Simplification: reading from a stream that is not open throws. *)
Definition read_geo (fs : FS) (geo : string) : res (option G) :=
  match opens fs geo with
  | Some (CGeo g) => if is_binary_file geo then Ok g else Throw
  | Some (CYaml y) => if is_binary_file geo then Throw else from_yaml y
  | _ => Throw
  end.
Definition run_mm_inject (fs : FS) (map geo : string) : W unit :=
  wbnd (lift (read_geo fs geo)) (fun g =>
  wbnd (load_from_file fs map) (fun r =>
  let '(_, mm) := r in
  let mm := mkMM (m_layers mm) (m_lines mm) (m_planes mm) g (m_id mm) (m_label mm) in
  wbnd (save_to_file fs map mm) (fun _ => wret tt))).
(** main(): an exception gives exit code 1 *)
Definition exit_code (x : W unit) : W nat :=
  match x with (es, Ok _) => (es, Ok 0) | (es, Throw) => (es, Ok 1) | (es, UB) => (es, UB) end.
(** mm-georef/main.cpp 158-197 *)
Definition mm_georef (fs : FS) (map geo : string) (extract inject : bool) : W nat :=
  exit_code (if extract then run_mm_extract fs map geo else if inject then run_mm_inject fs map geo else wthrow).

(** std::map operations *)
Fixpoint find {A} (l : list (string * A)) (n : string) : option A :=
  match l with [] => None | (k, v) :: t => if String.eqb k n then Some v else find t n end.
Fixpoint set_ {A} (l : list (string * A)) (n : string) (v : A) : list (string * A) :=
  match l with
  | [] => [(n, v)]
  | (k, w) :: t => if String.eqb k n then (k, v) :: t else if String.ltb n k then (n, v) :: l else (k, w) :: set_ t n v
  end.
Fixpoint erase {A} (l : list (string * A)) (n : string) : list (string * A) :=
  match l with [] => [] | (k, v) :: t => if String.eqb k n then t else (k, v) :: erase t n end.

(** mrpt::system::tokenize with one delimiter; empty tokens are dropped *)
Fixpoint tokens (d : ascii) (cur s : string) : list string :=
  match s with
  | EmptyString => if String.eqb cur "" then [] else [cur]
  | String c r => if Ascii.eqb c d then (if String.eqb cur "" then tokens d "" r else cur :: tokens d "" r)
                  else tokens d (cur ++ String c "") r
  end.
Definition tokenize (s : string) : list string := tokens "|" "" s.

(** filter_pipeline_from_yaml_file() and apply_filter_pipeline(), see PipelineModel for their model;
    [None]: the file does not exist *)
Variable pipeline : string -> option (MM -> res MM).
(** mm-filter/main.cpp 116-133 *)
Definition rename_layer (s : string) (m : MM) : res MM :=
  match tokenize s with
  | [a; b] =>
      match find (m_layers m) a, find (m_layers m) b with
      | Some l, None => Ok (mkMM (erase (set_ (m_layers m) b l) a) (m_lines m) (m_planes m) (m_geo m) (m_id m) (m_label m))
      | _, _ => Throw
      end
  | _ => Throw
  end.
(** mm-filter/main.cpp 71-144 *)
Definition run_mm_filter (fs : FS) (inp out : string) (pipe ren : option string) : W unit :=
  wbnd (wassert (match pipe, ren with None, None => false | _, _ => true end)) (fun _ =>
  wbnd (wassert (match pipe with Some p => match pipeline p with Some _ => true | None => false end | None => true end)) (fun _ =>
  wbnd (load_from_file fs inp) (fun r =>
  let '(_, mm) := r in
  wbnd (wassert (negb (is_empty mm))) (fun _ =>
  wbnd (lift (match pipe with
              | Some p => match pipeline p with Some f => f mm | None => Throw end
              | None => match ren with Some s => rename_layer s mm | None => Throw end
              end)) (fun mm =>
  wbnd (save_to_file fs out mm) (fun ok => wassert ok)))))).
Definition mm_filter (fs : FS) (inp out : string) (pipe ren : option string) : W nat := exit_code (run_mm_filter fs inp out pipe ren).

(** mrpt save3D_to_text_file and the like: one row per point *)
Fixpoint zip3 (l : list P3) (ext : list (list Q)) : list (list Q) :=
  match l, ext with (x, y, z) :: t, e :: u => (x :: y :: z :: e) :: zip3 t u | _, _ => [] end.
(** mm2txt/main.cpp 90-101 *)
Definition text_of (c : Cloud) : list (list Q) :=
  match c_kind c with
  | KXYZIRT => zip3 (c_xyz c) (map (fun '(i, (r, t)) => [i; r; t]) (combine (c_int c) (combine (c_ring c) (c_time c))))
  | KXYZI => zip3 (c_xyz c) (map (fun i => [i]) (c_int c))
  | _ => zip3 (c_xyz c) (map (fun _ => []) (c_xyz c))
  end.
(** mp2p_icp::MapToPointsMap *)
Definition to_points (l : Layer) : option Cloud := match l with LCloud c => Some c | LOther p => p end.
Definition txt_name (base n : string) : string := base ++ "_" ++ n ++ ".txt".
(** mm2txt/main.cpp 67-102; the results of the writing functions are ignored *)
Fixpoint export_layers (fs : FS) (base : string) (mm : MM) (names : list string) : W unit :=
  match names with
  | [] => wret tt
  | n :: r =>
      match find (m_layers mm) n with
      | None => wthrow
      | Some None => lift UB
      | Some (Some l) =>
          match to_points l with
          | None => wthrow
          | Some c =>
              let f := txt_name base n in
              wbnd ((if fs_write fs f then [Trunc f; Put f (CText (text_of c))] else [], Ok tt) : W unit) (fun _ =>
              export_layers fs base mm r)
          end
      end
  end.
Variable base_name : string -> string.     (* mrpt::system::extractFileName *)
(** mm2txt/main.cpp 40-118 *)
Definition mm2txt (fs : FS) (inp : string) (sel : option (list string)) : W nat :=
  exit_code (
  wbnd (wassert (match fs_files fs inp with Some _ => true | None => false end)) (fun _ =>
  wbnd (load_from_file fs inp) (fun r =>
  let '(_, mm) := r in
  export_layers fs (base_name inp) mm (match sel with Some l => l | None => map fst (m_layers mm) end)))).

(** ** txt2mm *)
(** CMatrixFloat: the rows one after the other in memory *)
Record Mat := mkMat { mt_rows : nat; mt_cols : nat; mt_data : list Q }.
(** CMatrixDynamic::operator()(row, col): not checked in release builds *)
Definition at_ (d : Mat) (i : nat) (j : Z) : res Q :=
  let k := (Z.of_nat (i * mt_cols d) + j)%Z in
  if Z.ltb k 0 then UB else match nth_error (mt_data d) (Z.to_nat k) with Some v => Ok v | None => UB end.
Definition xyz_at (d : Mat) (ix : Z) (i : nat) : res P3 :=
  let* x := at_ d i ix in let* y := at_ d i (ix + 1)%Z in let* z := at_ d i (ix + 2)%Z in Ok (x, y, z).
Fixpoint mapr {A B} (f : A -> res B) (l : list A) : res (list B) :=
  match l with [] => Ok [] | a :: t => let* b := f a in let* r := mapr f t in Ok (b :: r) end.
(** mrpt::u8tof(uint8_t): the conversion of a float out of the range of the type is undefined *)
Definition u8tof (v : Q) : res Q :=
  let n := Z.quot (Qnum v) (Z.pos (Qden v)) in
  if Z.leb 0 n && Z.leb n 255 then Ok (inject_Z n / 255)%Q else UB.
Definition colour (norm : bool) (d : Mat) (i : nat) : res P3 :=
  let* r := at_ d i 3 in let* g := at_ d i 4 in let* b := at_ d i 5 in
  if norm then Ok (r, g, b) else let* r := u8tof r in let* g := u8tof g in let* b := u8tof b in Ok (r, g, b).

Record TxtArgs := mkTxt {
  t_in : string; t_out : string; t_format : string; t_layer : option string;
  t_x : Z; t_i : Z; t_r : Z; t_t : Z; t_id : option nat; t_label : option string }.
(** txt2mm/main.cpp 129-219; insertPointField_Ring and _Timestamp of a CPointsMapXYZI do nothing *)
Definition cloud_from (a : TxtArgs) (d : Mat) : res Cloud :=
  let rows := seq 0 (mt_rows d) in
  if String.eqb (t_format a) "xyz" then
    if Nat.leb 3 (mt_cols d) then
      let* p := mapr (xyz_at d (t_x a)) rows in Ok (mkCloud KXYZ p [] [] [] [])
    else Throw
  else if String.eqb (t_format a) "xyzi" then
    if Nat.leb 4 (mt_cols d) then
      let* p := mapr (xyz_at d (t_x a)) rows in
      let* q := mapr (fun i => at_ d i (t_i a)) rows in Ok (mkCloud KXYZI p q [] [] [])
    else Throw
  else if String.eqb (t_format a) "xyzirt" then
    if Nat.leb 6 (mt_cols d) then
      let* p := mapr (xyz_at d (t_x a)) rows in
      let* q := mapr (fun i => at_ d i (t_i a)) rows in
      let* _ := mapr (fun i => at_ d i (t_r a)) rows in
      let* _ := mapr (fun i => at_ d i (t_t a)) rows in Ok (mkCloud KXYZI p q [] [] [])
    else Throw
  else if String.eqb (t_format a) "xyzrgb" || String.eqb (t_format a) "xyzrgb_normalized" then
    if Nat.leb 6 (mt_cols d) then
      let* p := mapr (xyz_at d (t_x a)) rows in
      let* c := mapr (colour (String.eqb (t_format a) "xyzrgb_normalized") d) rows in Ok (mkCloud KRGB p [] [] [] c)
    else Throw
  else Throw.
(** CMatrixFloat::loadFromTextFile: [None]: it throws *)
Variable read_matrix : string -> option Mat.
(** txt2mm/main.cpp 221-238: the layer is always "raw" *)
Definition save_cloud (fs : FS) (out : string) (c : Cloud) (id : option nat) (label : option string) : W unit :=
  wbnd (save_to_file fs out (mkMM [("raw"%string, Some (LCloud c))] [] [] None id label)) (fun ok => wassert ok).
Definition txt2mm (fs : FS) (a : TxtArgs) : W nat :=
  exit_code (match read_matrix (t_in a) with
             | None => wthrow
             | Some d => wbnd (lift (cloud_from a d)) (fun c => save_cloud fs (t_out a) c (t_id a) (t_label a))
             end).
(** kitti2mm/main.cpp 45-77 *)
Variable read_kitti : string -> option Cloud.
Definition kitti2mm (fs : FS) (inp out : string) (layer : option string) (id : option nat) (label : option string) : W nat :=
  exit_code (match read_kitti inp with None => wthrow | Some c => save_cloud fs out c id label end).
End MmTools.
