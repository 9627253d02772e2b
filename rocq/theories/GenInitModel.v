(** Model of Generator::initialize() and of the map definition a generator makes from its configuration.
    Sources: /repo/mp2p_icp_filters/src/Generator.cpp 47-135 (load_from_yaml, initialize), 137-160 (the first lines of process),
    515-561 (the INI block of implProcessCustomMap); Generator.h 106-157.
    Simplifications: the text of a scalar and of a number (as<std::string>), the regular expression compiler and the plugin
    loader are arguments of the model; a configuration is a map, its keys being visited in the order of the list;
    the debug message is left out.  Formulas are modelled in ParamModel: here they are recorded with the cell
    (the double inside the definition) they are declared for. *)
From Coq Require Import String.
From Verif Require Import Base ConfigModel InitModel.
Open Scope string_scope.
Open Scope list_scope.

Section GenInit.
  Variables (as_bool : yml -> option bool) (as_str : yml -> option string).
  Variable regex_ok : string -> bool.      (* std::regex(text) does not throw *)
  Notation Cfg := (list (string * yml)).

  (** an entry of a section: a text, or a number that a formula keeps up to date: its cell *)
  Inductive DEnt := DText (t : string) | DCell (c : nat).
  (** params_.metric_map_definition: a map of scalars and sections *)
  Inductive DNode := DScalar (t : string) | DSec (es : list (string * DEnt)).

  (** Generator.h 106-157, with the compiled regular expressions and initialized_; [g_decls]: the formulas declared so far
      and their cells; [g_next]: the next cell *)
  Record Gen := mkGen { g_target : string; g_inifile : string; g_class : string; g_label : string; g_throw : bool;
    g_def : list (string * DNode); g_next : nat; g_decls : list (string * nat);
    g_class_re : string; g_label_re : string; g_ready : bool }.
  Definition gen0 : Gen := mkGen "raw" "" ".*" ".*" false [] 0 [] ".*" ".*" false.

  (** lines 98-107: val.substr(0, 3) == "$f{", val.back() == '}', val.substr(3, val.size() - 4) *)
  Definition is_formula (t : string) : bool := String.eqb (substring 0 3 t) "$f{".
  Definition closed (t : string) : bool := String.eqb (substring (String.length t - 1) 1 t) "}".
  Definition body (t : string) : string := substring 3 (String.length t - 4) t.

  (** lines 94-114: the section, the next cell and the declarations as they were left *)
  Fixpoint sec_loop (es : Cfg) (s : list (string * DEnt)) (n : nat) (ds : list (string * nat))
    : list (string * DEnt) * nat * list (string * nat) * bool :=
    match es with
    | [] => (s, n, ds, true)
    | (k, y) :: r =>
        match as_str y with
        | None => (s, n, ds, false)
        | Some t =>
            if is_formula t then
              if closed t then sec_loop r (smap_set s k (DCell n)) (S n) (ds ++ [(body t, n)]) else (s, n, ds, false)
            else sec_loop r (smap_set s k (DText t)) n ds
        end
    end.

  Definition is_scalar (y : yml) : bool := match y with YB _ | YQ _ | YT _ => true | _ => false end.
  (** lines 66-115 *)
  Fixpoint def_loop (m : Cfg) (d : list (string * DNode)) (n : nat) (ds : list (string * nat))
    : list (string * DNode) * nat * list (string * nat) * bool :=
    match m with
    | [] => (d, n, ds, true)
    | (k, y) :: r =>
        match y with
        | YNull => def_loop r d n ds
        | YDict es =>
            let '(s, n', ds', ok) := sec_loop es [] n ds in
            if ok then def_loop r (smap_set d k (DSec s)) n' ds' else (smap_set d k (DSec s), n', ds', false)
        | _ =>
            if is_scalar y then
              if String.eqb k "class" || String.eqb k "plugin" then
                match as_str y with Some t => def_loop r (smap_set d k (DScalar t)) n ds | None => (d, n, ds, false) end
              else (d, n, ds, false)
            else (d, n, ds, false)
        end
    end.

  (** lines 57-65 *)
  Definition def_load (m : Cfg) : Load Gen := fun o =>
    match yfind m "metric_map_definition" with
    | None => (o, true)
    | Some (YDict d) =>
        let '(d', n, ds, ok) := def_loop d (g_def o) (g_next o) (g_decls o) in
        (mkGen (g_target o) (g_inifile o) (g_class o) (g_label o) (g_throw o) d' n ds (g_class_re o) (g_label_re o) (g_ready o), ok)
    | Some _ => (o, false)
    end.
  (** lines 47-56, then 57-121 *)
  Definition gen_load (m : Cfg) : Load Gen :=
    lopt as_str m "target_layer" (fun a o => mkGen a (g_inifile o) (g_class o) (g_label o) (g_throw o) (g_def o) (g_next o) (g_decls o) (g_class_re o) (g_label_re o) (g_ready o)) ;;;
    lopt as_str m "metric_map_definition_ini_file" (fun a o => mkGen (g_target o) a (g_class o) (g_label o) (g_throw o) (g_def o) (g_next o) (g_decls o) (g_class_re o) (g_label_re o) (g_ready o)) ;;;
    lopt as_str m "process_class_names_regex" (fun a o => mkGen (g_target o) (g_inifile o) a (g_label o) (g_throw o) (g_def o) (g_next o) (g_decls o) (g_class_re o) (g_label_re o) (g_ready o)) ;;;
    lopt as_str m "process_sensor_labels_regex" (fun a o => mkGen (g_target o) (g_inifile o) (g_class o) a (g_throw o) (g_def o) (g_next o) (g_decls o) (g_class_re o) (g_label_re o) (g_ready o)) ;;;
    lopt as_bool m "throw_on_unhandled_observation_class" (fun a o => mkGen (g_target o) (g_inifile o) (g_class o) (g_label o) a (g_def o) (g_next o) (g_decls o) (g_class_re o) (g_label_re o) (g_ready o)) ;;;
    def_load m.
  (** lines 123-135 *)
  Definition gen_init (m : Cfg) : Load Gen :=
    gen_load m ;;;
    lassert (fun o => regex_ok (g_class o)) ;;;
    (fun o => (mkGen (g_target o) (g_inifile o) (g_class o) (g_label o) (g_throw o) (g_def o) (g_next o) (g_decls o) (g_class o) (g_label_re o) (g_ready o), true)) ;;;
    lassert (fun o => regex_ok (g_label o)) ;;;
    (fun o => (mkGen (g_target o) (g_inifile o) (g_class o) (g_label o) (g_throw o) (g_def o) (g_next o) (g_decls o) (g_class_re o) (g_label o) true, true)).
  (** a history of calls, those that throw included *)
  Fixpoint gen_inits (ms : list Cfg) (o : Gen) : Gen := match ms with [] => o | m :: r => gen_inits r (fst (gen_init m o)) end.

  Definition no_def (o : Gen) : bool := match g_def o with [] => true | _ => false end.
  (** lines 143-156: what process() does, provided that all formulas have values *)
  Inductive Use := NotReady | PointCloud | FromFile | FromDefinition.
  Definition gen_use (o : Gen) : Use :=
    if negb (g_ready o) then NotReady
    else if String.eqb (g_inifile o) "" && no_def o then PointCloud
    else if negb (String.eqb (g_inifile o) "") then FromFile
    else FromDefinition.

  (** lines 515-561: the writes into the in-memory INI file, in order *)
  Variables (print : Q -> string) (plugin_ok : string -> bool) (mem : nat -> Q).
  Definition ent_text (e : DEnt) : string := match e with DText t => t | DCell c => print (mem c) end.
  Definition sec_writes (cls : string) (kv : string * DNode) : list (string * string * string) :=
    match snd kv with
    | DScalar _ => []
    | DSec es => map (fun ke => ("map_" ++ cls ++ "_00_" ++ fst kv, fst ke, ent_text (snd ke))%string) es
    end.
  Definition gen_ini (o : Gen) : res (list (string * string * string)) :=
    if no_def o then Throw
    else match smap_get (g_def o) "class" with
    | Some (DScalar cls) =>
        match smap_get (g_def o) "plugin" with
        | Some (DScalar p) => if plugin_ok p then Ok (("map", (cls ++ "_count")%string, "1") :: flat_map (sec_writes cls) (g_def o)) else Throw
        | Some (DSec _) => Throw
        | None => Ok (("map", (cls ++ "_count")%string, "1") :: flat_map (sec_writes cls) (g_def o))
        end
    | _ => Throw
    end.
End GenInit.
