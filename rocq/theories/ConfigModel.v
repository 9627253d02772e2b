(** Model of the construction of pipelines from YAML.
    Sources: /repo/mp2p_icp/src/icp_pipeline_from_yaml.cpp, ICP.cpp 481-606,
    Parameters.cpp 63-109, /repo/mp2p_icp_filters/src/FilterBase.cpp 50-99,
    Generator.cpp 328-370, /repo/mp2p_icp_map/src/load_plugin.cpp.
    The YAML library, the class factory and the initialize() of each class are of other
    files or of mrpt: they are arguments of the model. *)
From Coq Require Import String.
From Verif Require Import Base FilterModel.
Open Scope string_scope.
Open Scope list_scope.

(** mrpt::containers::yaml: null, scalars (bool, number, text), sequences, maps *)
Inductive yml := YNull | YB (b : bool) | YQ (q : Q) | YT (s : string) | YSeq (l : list yml) | YDict (m : list (string * yml)).

(** std::map::find *)
Fixpoint yfind (m : list (string * yml)) (k : string) : option yml :=
  match m with
  | [] => None
  | (n, v) :: t => if String.eqb n k then Some v else yfind t k
  end.

(** ** load_plugin *)
(** What the file system and the environment say: whether a path is absolute, directories,
    files, LD_LIBRARY_PATH split at ':'; pathJoin; what dlopen accepts. *)
Record Sys := mkSys { sy_abs : string -> bool; sy_dir : string -> bool; sy_file : string -> bool;
  sy_path : list string; sy_join : string -> string -> string; sy_dlopen : string -> bool }.

(** load_plugin.cpp 36-65: the existing directories of LD_LIBRARY_PATH *)
Definition search_dirs (y : Sys) : list string := filter (sy_dir y) (sy_path y).

(** load_plugin.cpp 73-102 *)
Definition plugin_path (y : Sys) (s : string) : option string :=
  if sy_abs y s then (if sy_file y s then Some s else None)
  else match find (fun d => sy_file y (sy_join y d s)) (search_dirs y) with
       | Some d => Some (sy_join y d s)
       | None => None
       end.

(** load_plugin.cpp 104-133.  The world: the modules loaded so far, latest first. *)
Definition load_plugin (y : Sys) (w : list string) (s : string) : option (list string) :=
  match plugin_path y s with
  | None => None
  | Some p => if sy_dlopen y p then Some (p :: w) else None
  end.

Section Pipelines.
  (** Classes, configured objects. *)
  Context {Cls Obj : Type}.
  Variable sys : Sys.
  (** yaml::as<bool>, as<std::string>, as<double>; [None]: exception *)
  Variables (as_bool : yml -> option bool) (as_str : yml -> option string) (as_num : yml -> option Q).
  (** mrpt::rtti::classFactory(), given the loaded modules *)
  Variable factory : list string -> string -> option Cls.
  (** a new object of the class, after initialize(params); [None]: exception *)
  Variable init : Cls -> yml -> option Obj.

  (** Steps that change the world and may throw. *)
  Definition P (A : Type) := list string -> list string * option A.
  Definition pret {A} (a : A) : P A := fun w => (w, Some a).
  Definition pfail {A} : P A := fun w => (w, None).
  Definition plift {A} (o : option A) : P A := fun w => (w, o).
  Definition pbnd {A B} (x : P A) (f : A -> P B) : P B := fun w =>
    let '(w', r) := x w in match r with Some a => f a w' | None => (w', None) end.

  (** ICP.cpp 492-503, 537-547, 577-587: [e.asMap()], [enabled] *)
  Definition disabled (m : list (string * yml)) : P bool :=
    match yfind m "enabled" with
    | None => pret false
    | Some v => pbnd (plift (as_bool v)) (fun b => pret (negb b))
    end.

  (** ICP.cpp 499-503, FilterBase.cpp 67-72, icp_pipeline_from_yaml.cpp 36-40 *)
  Definition opt_plugin (m : list (string * yml)) : P unit :=
    match yfind m "plugin" with
    | None => pret tt
    | Some v => pbnd (plift (as_str v)) (fun s w => match load_plugin sys w s with Some w' => (w', Some tt) | None => (w, None) end)
    end.

  (** [e.at(key).as<std::string>()], classFactory, dynamic_pointer_cast *)
  Definition make (isK : Cls -> bool) (key : string) (m : list (string * yml)) : P Cls :=
    pbnd (plift (yfind m key)) (fun v => pbnd (plift (as_str v)) (fun s w =>
      match factory w s with
      | Some c => if isK c then (w, Some c) else (w, None)
      | None => (w, None)
      end)).

  (** [m->initialize(e.at("params"))] *)
  Definition configure (c : Cls) (m : list (string * yml)) : P Obj :=
    pbnd (plift (yfind m "params")) (fun p => plift (init c p)).

  (** One enabled entry; [finish] reads what else is needed before the object is stored. *)
  Definition entry {I} (isK : Cls -> bool) (finish : list (string * yml) -> Obj -> option I) (m : list (string * yml)) : P I :=
    pbnd (opt_plugin m) (fun _ =>
    pbnd (make isK "class" m) (fun c =>
    pbnd (configure c m) (fun o => plift (finish m o)))).

  (** ICP.cpp 490-518, 531-559, 571-606: the loop.  The list is the caller's: what was pushed
      remains there when a later entry throws.  Returns the list and whether it ended well. *)
  Fixpoint init_loop {I} (isK : Cls -> bool) (finish : list (string * yml) -> Obj -> option I)
      (es : list yml) (lst : list I) (w : list string) : list string * list I * bool :=
    match es with
    | [] => (w, lst, true)
    | YDict m :: t =>
        let '(w1, d) := disabled m w in
        match d with
        | None => (w1, lst, false)
        | Some true => init_loop isK finish t lst w1
        | Some false =>
            let '(w2, r) := entry isK finish m w1 in
            match r with
            | None => (w2, lst, false)
            | Some x => init_loop isK finish t (lst ++ [x]) w2
            end
        end
    | _ :: _ => (w, lst, false)
    end.

  (** ICP.cpp 486-518, 527-559, 566-606: [lst.clear()], [ASSERT_(params.isSequence())], loop.
      The previous content of the list is an argument: it does not matter. *)
  Definition init_list {I} (isK : Cls -> bool) (finish : list (string * yml) -> Obj -> option I)
      (params : yml) (previous : list I) (w : list string) : list string * list I * bool :=
    match params with
    | YSeq es => init_loop isK finish es [] w
    | _ => (w, [], false)
    end.

  Variables (isSolver isMatcher isQuality isIcp isFilter isGenerator : Cls -> bool).

  Definition plain (m : list (string * yml)) (o : Obj) : option Obj := Some o.
  (** ICP.cpp 595-600 *)
  Definition weighted (m : list (string * yml)) (o : Obj) : option (Obj * Q) :=
    match yfind m "weight" with
    | None => Some (o, 1)
    | Some v => match as_num v with Some q => Some (o, q) | None => None end
    end%Q.

  (** ICP.cpp 481-520 *)
  Definition initialize_solvers : yml -> list Obj -> list string -> list string * list Obj * bool := init_list isSolver plain.
  (** ICP.cpp 522-561 *)
  Definition initialize_matchers : yml -> list Obj -> list string -> list string * list Obj * bool := init_list isMatcher plain.
  (** ICP.cpp 563-606 *)
  Definition initialize_quality_evaluators : yml -> list (Obj * Q) -> list string -> list string * list (Obj * Q) * bool := init_list isQuality weighted.

  (** ** ICP parameters *)
  (** Parameters.h 40-95 (without the functors) *)
  Record IcpParams := mkIcpParams { ip_maxIterations : Q; ip_trans : Q; ip_rot : Q; ip_debug : bool; ip_format : string;
    ip_print : bool; ip_decimDebug : Q; ip_details : bool; ip_decimDetails : Q; ip_checkpoints : list (Q * Q) }.

  (** MCP_LOAD_OPT: a missing key leaves the value *)
  Definition opt_load {A} (conv : yml -> option A) (m : list (string * yml)) (k : string) (old : A) : option A :=
    match yfind m k with None => Some old | Some v => conv v end.
  (** MCP_LOAD_REQ *)
  Definition req_load {A} (conv : yml -> option A) (m : list (string * yml)) (k : string) : option A :=
    match yfind m k with None => None | Some v => conv v end.

  (** std::map<uint32_t,double>::emplace, keys in order; a repeated key is not inserted *)
  Fixpoint cp_emplace (l : list (Q * Q)) (k v : Q) : list (Q * Q) :=
    match l with
    | [] => [(k, v)]
    | (a, b) :: t => if Qltb k a then (k, v) :: l else if Qeq_bool k a then l else (a, b) :: cp_emplace t k v
    end.

  (** Parameters.cpp 83-94 *)
  Fixpoint load_cps (es : list yml) (l : list (Q * Q)) : option (list (Q * Q)) :=
    match es with
    | [] => Some l
    | YDict m :: t =>
        match req_load as_num m "iteration", req_load as_num m "minimum_quality" with
        | Some i, Some q => load_cps t (cp_emplace l i q)
        | _, _ => None
        end
    | _ :: _ => None
    end.

  (** Parameters.cpp 75-95 *)
  Definition load_checkpoints (m : list (string * yml)) (old : list (Q * Q)) : option (list (Q * Q)) :=
    match yfind m "quality_checkpoints" with
    | None => Some old
    | Some (YSeq []) => None
    | Some (YSeq es) => load_cps es []
    | Some _ => None
    end.

  (** Environment variable MP2P_ICP_GENERATE_DEBUG_FILES, Parameters.cpp 26-27 *)
  Variable env_debug : bool.

  Definition obind {A B} (x : option A) (f : A -> option B) : option B := match x with Some a => f a | None => None end.

  (** Parameters.cpp 63-98 (the value on success; [None]: exception) *)
  Definition params_load (y : yml) (old : IcpParams) : option IcpParams :=
    match y with
    | YDict m =>
        obind (req_load as_num m "maxIterations") (fun mi =>
        obind (opt_load as_num m "minAbsStep_trans" (ip_trans old)) (fun tr =>
        obind (opt_load as_num m "minAbsStep_rot" (ip_rot old)) (fun ro =>
        obind (opt_load as_bool m "generateDebugFiles" (ip_debug old)) (fun de =>
        obind (opt_load as_str m "debugFileNameFormat" (ip_format old)) (fun fo =>
        obind (opt_load as_bool m "debugPrintIterationProgress" (ip_print old)) (fun pr =>
        obind (opt_load as_num m "decimationDebugFiles" (ip_decimDebug old)) (fun dd =>
        obind (opt_load as_bool m "saveIterationDetails" (ip_details old)) (fun sd =>
        obind (opt_load as_num m "decimationIterationDetails" (ip_decimDetails old)) (fun di =>
        obind (load_checkpoints m (ip_checkpoints old)) (fun cp =>
        Some (mkIcpParams mi tr ro (de || env_debug) fo pr dd sd di cp)))))))))))
    | _ => None
    end.

  (** Parameters.cpp 99-109, into an empty map *)
  Definition params_save (p : IcpParams) : yml :=
    YDict [("maxIterations", YQ (ip_maxIterations p)); ("minAbsStep_trans", YQ (ip_trans p)); ("minAbsStep_rot", YQ (ip_rot p));
           ("generateDebugFiles", YB (ip_debug p)); ("debugFileNameFormat", YT (ip_format p));
           ("debugPrintIterationProgress", YB (ip_print p)); ("decimationDebugFiles", YQ (ip_decimDebug p));
           ("saveIterationDetails", YB (ip_details p)); ("decimationIterationDetails", YQ (ip_decimDetails p))].

  (** ** icp_pipeline_from_yaml *)
  (** The ICP object: its class, the three lists; what initialize_derived received. *)
  Record IcpObj := mkIcpObj { ic_cls : Cls; ic_solvers : list Obj; ic_matchers : list Obj; ic_quality : list (Obj * Q);
    ic_derived : option yml }.
  Variable default_quality : list (Obj * Q).
  Variable default_params : IcpParams.

  (** Runs one of the functions above if the section is there. *)
  Definition opt_section {I} (m : list (string * yml)) (k : string) (f : yml -> list I -> list string -> list string * list I * bool)
      (old : list I) : P (list I) := fun w =>
    match yfind m k with
    | None => (w, Some old)
    | Some v => let '(w', l, ok) := f v old w in (w', if ok then Some l else None)
    end.

  (** icp_pipeline_from_yaml.cpp 26-77 *)
  Definition icp_pipeline (y : yml) : P (IcpObj * IcpParams) :=
    match y with
    | YDict m =>
        pbnd (plift (yfind m "class_name")) (fun cn =>
        pbnd (plift (as_str cn)) (fun s =>
        pbnd (opt_plugin m) (fun _ =>
        pbnd (fun w => match factory w s with Some c => if isIcp c then (w, Some c) else (w, None) | None => (w, None) end) (fun c =>
        pbnd (opt_section m "solvers" initialize_solvers []) (fun so =>
        pbnd (opt_section m "matchers" initialize_matchers []) (fun ma =>
        pbnd (plift (yfind m "quality")) (fun _ =>
        pbnd (opt_section m "quality" initialize_quality_evaluators default_quality) (fun qu =>
        match yfind m "derived" with
        | Some d => pret (mkIcpObj c so ma qu (Some d), default_params)
        | None => pbnd (plift (yfind m "params")) (fun p =>
                  pbnd (plift (params_load p default_params)) (fun ps =>
                  pret (mkIcpObj c so ma qu None, ps)))
        end))))))))
    | _ => pfail
    end.

  (** ** Filters and generators *)
  (** FilterBase.cpp 61-85 *)
  Fixpoint filters_loop (es : list yml) (lst : list Obj) : P (list Obj) :=
    match es with
    | [] => pret lst
    | YDict m :: t =>
        pbnd (opt_plugin m) (fun _ =>
        pbnd (make isFilter "class_name" m) (fun c =>
        pbnd (configure c m) (fun o => filters_loop t (lst ++ [o]))))
    | _ :: _ => pfail
    end.
  (** FilterBase.cpp 50-88 *)
  Definition filter_pipeline_from_yaml (y : yml) : P (list Obj) :=
    match y with
    | YNull => pret []
    | YSeq es => filters_loop es []
    | _ => pfail
    end.
  (** FilterBase.cpp 90-99; [file]: the parsed file, [None] if it cannot be read *)
  Definition filter_pipeline_from_yaml_file (file : option yml) : P (list Obj) :=
    match file with
    | Some (YDict m) => match yfind m "filters" with
                        | Some (YSeq es) => filter_pipeline_from_yaml (YSeq es)
                        | _ => pfail
                        end
    | _ => pfail
    end.
  (** Generator.cpp 340-356: no plugins here *)
  Fixpoint generators_loop (es : list yml) (lst : list Obj) : P (list Obj) :=
    match es with
    | [] => pret lst
    | YDict m :: t =>
        pbnd (make isGenerator "class_name" m) (fun c =>
        pbnd (configure c m) (fun o => generators_loop t (lst ++ [o])))
    | _ :: _ => pfail
    end.
  (** Generator.cpp 328-359 *)
  Definition generators_from_yaml (y : yml) : P (list Obj) :=
    match y with
    | YNull => pret []
    | YSeq es => generators_loop es []
    | _ => pfail
    end.
End Pipelines.
