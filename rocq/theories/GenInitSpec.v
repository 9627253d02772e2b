(** The configuration of a generator, in terms of its entries. *)
From Coq Require Import String.
From Verif Require Import Base ConfigModel ConfigSpec InitModel InitSpec GenInitModel.
Open Scope string_scope.
Open Scope list_scope.

Section GenInitSpec.
  Variables (as_bool : yml -> option bool) (as_str : yml -> option string) (regex_ok : string -> bool).
  Notation Cfg := (list (string * yml)).

  (** a value of a section: a text that does not start with $f{, or $f{formula} *)
  Definition Plain (t : string) : Prop := ~ exists r, t = ("$f{" ++ r)%string.
  Definition Formula (t f : string) : Prop := t = ("$f{" ++ f ++ "}")%string.
  Definition GoodValue (y : yml) : Prop := exists t, as_str y = Some t /\ (Plain t \/ exists f, Formula t f).
  (** an entry of the definition: nothing; the class or the plugin; a section *)
  Definition GoodEntry (k : string) (y : yml) : Prop :=
    y = YNull
    \/ (is_scalar y = true /\ (k = "class" \/ k = "plugin") /\ exists t, as_str y = Some t)
    \/ exists es, y = YDict es /\ forall k' y', In (k', y') es -> GoodValue y'.
  Definition GoodDef (m : Cfg) : Prop :=
    forall y, yfind m "metric_map_definition" = Some y -> exists d, y = YDict d /\ forall k y', In (k, y') d -> GoodEntry k y'.
  (** an optional entry that is there can be read *)
  Definition Readable {A} (conv : yml -> option A) (m : Cfg) (k : string) : Prop := forall v, yfind m k = Some v -> conv v <> None.
  Definition GoodConfig (m : Cfg) (old : Gen) : Prop :=
    Readable as_str m "target_layer" /\ Readable as_str m "metric_map_definition_ini_file" /\ Readable as_str m "process_class_names_regex"
    /\ Readable as_str m "process_sensor_labels_regex" /\ Readable as_bool m "throw_on_unhandled_observation_class"
    /\ GoodDef m
    /\ (exists c, GivenOr as_str m "process_class_names_regex" (g_class old) c /\ regex_ok c = true)
    /\ (exists l, GivenOr as_str m "process_sensor_labels_regex" (g_label old) l /\ regex_ok l = true).

  (** the value of a key in an INI file: the latest write *)
  Definition ini_get (ws : list (string * string * string)) (sec key : string) : option string :=
    fold_left (fun a w => let '(s, k, v) := w in if String.eqb s sec && String.eqb k key then Some v else a) ws None.

  (** the INI block that a definition describes, for the class [cls]; [value f]: the text of the value of a formula *)
  Definition Describes (d : Cfg) (cls : string) (value : string -> string -> Prop) (sec key v : string) : Prop :=
    (sec = "map" /\ key = (cls ++ "_count")%string /\ v = "1")
    \/ exists s es y t, In (s, YDict es) d /\ In (key, y) es /\ as_str y = Some t
       /\ sec = ("map_" ++ cls ++ "_00_" ++ s)%string
       /\ ((Plain t /\ v = t) \/ exists f, Formula t f /\ value f v).

  (** the cells of a definition *)
  Definition Live (d : list (string * DNode)) (c : nat) : Prop := exists k es k', In (k, DSec es) d /\ In (k', DCell c) es.
End GenInitSpec.
