(** Model of the programs icp-run (apps/icp-run/main.cpp 114-136, 226-334), sm2mm (apps/sm2mm/main.cpp 82-153) and mm-info
    (apps/mm-info/main.cpp 35-65).

    Simplifications: the command line is already parsed ([None]: not set); the library functions these programs call
    are parameters (they are modelled elsewhere: ConfigModel, IcpRunModel, SmModel, SerialModel); console texts are left out
    but for the result printed; the profiler, verbosity and progress bar are left out. *)
From Coq Require Import String.
From Verif Require Import Base.
Open Scope string_scope.

(** what a run leaves: exit code and, if any, what it delivers *)
Inductive Exit (A : Type) := Done (code : nat) (out : option A) | Crash.
Arguments Done {A}.
Arguments Crash {A}.
(** the catch blocks in main() *)
Definition main_ {A} (x : res A) : Exit A :=
  match x with Ok a => Done 0 (Some a) | Throw => Done 1 None | UB => Crash end.

Section IcpRunMain.
Variables Y Gens M Icp Params Filter TPose Results : Type.
Variable yaml_file : string -> res Y.                  (* yaml::FromFile *)
Variable entry : Y -> string -> option Y.              (* cfg.has(name), cfg[name] *)
Variable gens_file : string -> res Gens.               (* generators_from_yaml_file *)
Variable gens_yaml : Y -> res Gens.                    (* generators_from_yaml *)
Variable no_gens : Gens.                               (* the empty set *)
Variable load_input : Gens -> string -> bool -> res M. (* load_input_pc; true: local *)
Variable icp_from : Y -> res (Icp * Params).           (* icp_pipeline_from_yaml *)
Variable debug_on : Params -> Params.                  (* generateDebugFiles = true *)
Variable parse_pose : string -> res TPose.             (* TPose3D::FromString *)
Variable filters_file : string -> res (list Filter).   (* filter_pipeline_from_yaml_file *)
Variable filters_yaml : Y -> res (list Filter).        (* filter_pipeline_from_yaml *)
Variable apply_filters : list Filter -> M -> res M.    (* apply_filter_pipeline *)
Variable align : Icp -> M -> M -> TPose -> Params -> res Results.  (* ICP::align: local, global, guess *)

(** main.cpp 40-112 *)
Record RunArgs := mkRA {
  ra_local : string; ra_global : string; ra_config : string; ra_generators : option string;
  ra_filters_local : option string; ra_filters_global : option string;
  ra_name_global : option string; ra_name_local : option string; ra_guess : option string; ra_debug : bool }.

(** main.cpp 267-284, 285-302 *)
Definition filtered (file : option string) (name : string) (cfg : Y) (m : M) : res M :=
  let* fs := match file with
    | Some f => filters_file f
    | None => match entry cfg name with Some y => filters_yaml y | None => Ok [] end
    end in
  match fs with [] => Ok m | _ => apply_filters fs m end.

(** main.cpp 226-317 *)
Definition run_icp (a : RunArgs) : res Results :=
  let* cfg := yaml_file (ra_config a) in
  let* gens := match ra_generators a with
    | Some f => gens_file f
    | None => match entry cfg "generators" with Some y => gens_yaml y | None => Ok no_gens end
    end in
  let* pcLocal := load_input gens (ra_local a) true in
  let* pcGlobal := load_input gens (ra_global a) false in
  let* ip := icp_from cfg in
  let icp := fst ip in
  let icpParams := if ra_debug a then debug_on (snd ip) else snd ip in
  let* initialGuess := parse_pose (match ra_guess a with Some s => s | None => "[0 0 0 0 0 0]" end) in
  let* pcLocal := filtered (ra_filters_local a) (match ra_name_local a with Some n => n | None => "filters" end) cfg pcLocal in
  let* pcGlobal := filtered (ra_filters_global a) (match ra_name_global a with Some n => n | None => "filters" end) cfg pcGlobal in
  align icp pcLocal pcGlobal initialGuess icpParams.
Definition icp_run (a : RunArgs) : Exit Results := main_ (run_icp a).

(** main.cpp 114-136: load_rawlog() with its cache.  [r_exists]: the file is there; [r_read]: what loadFromRawLogFile()
    returns and leaves in the new object, which is in the cache from before it is read.  Gives the new cache, and the
    rawlog with whether the file was read. *)
Variable Rawlog : Type.
Variable r_exists : string -> bool.
Variable r_read : string -> bool * Rawlog.
Definition Cache := list (string * Rawlog).
Fixpoint c_find (c : Cache) (f : string) : option Rawlog :=
  match c with [] => None | (k, v) :: r => if String.eqb k f then Some v else c_find r f end.
Definition load_rawlog (f : string) (c : Cache) : Cache * res (Rawlog * bool) :=
  if negb (r_exists f) then (c, Throw) else
  match c_find c f with
  | Some r => (c, Ok (r, false))
  | None => let '(ok, r) := r_read f in
            ((f, r) :: c, if ok : bool then Ok (r, true) else Throw)
  end.
End IcpRunMain.

Section Sm2mm.
Variables SM Y M : Type.
Variable sm_empty : SM -> bool.
(** CSimpleMap::loadFromFile(): its return value, and what is in the object afterwards *)
Variable sm_load : string -> bool * SM.
Variable file_exists : string -> bool.
Variable yaml_file : string -> res Y.
Variable no_yaml : Y.
(** simplemap_to_metricmap(sm, mm, yaml, options) with start_index, end_index; [plugins]: the modules loaded *)
Variable to_metric : list string -> SM -> Y -> option nat -> option nat -> res M.
Variable save : string -> M -> bool.     (* save_to_file() *)

Record SmArgs := mkSA {
  sa_input : string; sa_output : string; sa_plugins : option (list string); sa_pipeline : option string;
  sa_from : option nat; sa_to : option nat }.
(** main.cpp 82-136: the file written *)
Definition sm2mm_app (a : SmArgs) : Exit (string * M) := main_ (
  let '(_, sm) := sm_load (sa_input a) in
  if sm_empty sm then Throw else
  let* y := match sa_pipeline a with
    | Some f => if file_exists f then yaml_file f else Throw
    | None => Ok no_yaml
    end in
  let* mm := to_metric [] sm y (sa_from a) (sa_to a) in
  if save (sa_output a) mm then Ok (sa_output a, mm) else Throw).
End Sm2mm.

Section MmInfo.
Variables M Text : Type.
Variable file_exists : string -> bool.
Variable mm_load : string -> res (bool * M).   (* load_from_file() on a new map: its return value and the map afterwards *)
Variable summary : M -> res Text.        (* contents_summary() *)
(** main.cpp 35-65 *)
Definition mm_info (f : string) : Exit Text := main_ (
  if negb (file_exists f) then Throw else
  let* bm := mm_load f in
  let mm := snd bm in
  summary mm).
End MmInfo.
