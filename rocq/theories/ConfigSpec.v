(** Specification of C194-C204: pipelines from YAML. *)
From Coq Require Import String.
From Verif Require Import Base FilterModel ConfigModel.
Open Scope string_scope.
Open Scope list_scope.

(** The file a plugin name stands for: an absolute path is itself, if the file exists; otherwise the
    first directory of the search path that exists and has it. *)
Definition Resolves (y : Sys) (s p : string) : Prop :=
  (sy_abs y s = true /\ sy_file y s = true /\ p = s)
  \/ (sy_abs y s = false /\ exists before d after, sy_path y = before ++ d :: after
      /\ sy_dir y d = true /\ sy_file y (sy_join y d s) = true /\ p = sy_join y d s
      /\ forall d', In d' before -> sy_dir y d' = true -> sy_file y (sy_join y d' s) = false).

Section Spec.
  Context {Cls Obj : Type}.
  Variable sys : Sys.
  Variables (as_bool : yml -> option bool) (as_str : yml -> option string) (as_num : yml -> option Q).
  Variable factory : list string -> string -> option Cls.
  Variable init : Cls -> yml -> option Obj.

  (** The plugin of an entry, if it names one, gets loaded. *)
  Definition PluginLoaded (w : list string) (m : list (string * yml)) (w' : list string) : Prop :=
    (yfind m "plugin" = None /\ w' = w)
    \/ exists v s p, yfind m "plugin" = Some v /\ as_str v = Some s /\ Resolves sys s p /\ sy_dlopen sys p = true /\ w' = p :: w.

  (** An object of the class named under [key], of the right kind, initialised with "params". *)
  Definition Built (isK : Cls -> bool) (key : string) (w : list string) (m : list (string * yml)) (o : Obj) : Prop :=
    exists v s c p, yfind m key = Some v /\ as_str v = Some s /\ factory w s = Some c /\ isK c = true
      /\ yfind m "params" = Some p /\ init c p = Some o.

  Definition Off (m : list (string * yml)) : Prop := exists v, yfind m "enabled" = Some v /\ as_bool v = Some false.
  Definition On (m : list (string * yml)) : Prop :=
    yfind m "enabled" = None \/ exists v, yfind m "enabled" = Some v /\ as_bool v = Some true.

  (** The weight of a quality evaluator: 1 unless given. *)
  Definition Weight (m : list (string * yml)) (x : Q) : Prop :=
    (yfind m "weight" = None /\ x = 1%Q) \/ exists v, yfind m "weight" = Some v /\ as_num v = Some x.

  (** The objects of a list of entries: one per entry that is not disabled, in order.  [Item]
      says what is stored for an entry and its object. *)
  Inductive Configures {I} (isK : Cls -> bool) (Item : list (string * yml) -> Obj -> I -> Prop) :
      list string -> list yml -> list I -> list string -> Prop :=
  | Conf_nil w : Configures isK Item w [] [] w
  | Conf_off w m t l w' : Off m -> Configures isK Item w t l w' -> Configures isK Item w (YDict m :: t) l w'
  | Conf_on w m t o x l w1 w' : On m -> PluginLoaded w m w1 -> Built isK "class" w1 m o -> Item m o x ->
      Configures isK Item w1 t l w' -> Configures isK Item w (YDict m :: t) (x :: l) w'.

  Definition JustObject (m : list (string * yml)) (o x : Obj) : Prop := x = o.
  Definition WithWeight (m : list (string * yml)) (o : Obj) (x : Obj * Q) : Prop := fst x = o /\ Weight m (snd x).

  (** Filters: no "enabled", class under "class_name". *)
  Inductive Filters (isK : Cls -> bool) : list string -> list yml -> list Obj -> list string -> Prop :=
  | Fil_nil w : Filters isK w [] [] w
  | Fil_cons w m t o l w1 w' : PluginLoaded w m w1 -> Built isK "class_name" w1 m o ->
      Filters isK w1 t l w' -> Filters isK w (YDict m :: t) (o :: l) w'.

  (** A section of the configuration: absent (the list stays as it is) or a sequence. *)
  Definition Section_ {I} (isK : Cls -> bool) (Item : list (string * yml) -> Obj -> I -> Prop)
      (m : list (string * yml)) (k : string) (default : list I) (w : list string) (l : list I) (w' : list string) : Prop :=
    (yfind m k = None /\ l = default /\ w' = w)
    \/ exists es, yfind m k = Some (YSeq es) /\ Configures isK Item w es l w'.

  (** One parameter of Parameters: as given, or unchanged. *)
  Definition GivenOr {A} (conv : yml -> option A) (m : list (string * yml)) (k : string) (old new : A) : Prop :=
    (yfind m k = None /\ new = old) \/ exists v, yfind m k = Some v /\ conv v = Some new.

  (** The checkpoints of a sequence of entries {iteration, minimum_quality}. *)
  Definition CpEntry (e : yml) (i q : Q) : Prop :=
    exists m vi vq, e = YDict m /\ yfind m "iteration" = Some vi /\ as_num vi = Some i
      /\ yfind m "minimum_quality" = Some vq /\ as_num vq = Some q.
  (** Iterations in increasing order; for each iteration listed, the first quality listed. *)
  Definition Checkpoints (es : list yml) (l : list (Q * Q)) : Prop :=
    exists ps, Forall2 (fun e iq => CpEntry e (fst iq) (snd iq)) es ps
      /\ (forall n m a b, (n < m)%nat -> nth_error l n = Some a -> nth_error l m = Some b -> (fst a < fst b)%Q)
      /\ (forall a, In a l -> exists before after, ps = before ++ a :: after /\ forall b, In b before -> ~ (fst b == fst a)%Q)
      /\ (forall b, In b ps -> exists a, In a l /\ (fst a == fst b)%Q).

  Definition LoadedParams (env : bool) (m : list (string * yml)) (old new : IcpParams) : Prop :=
    (exists v, yfind m "maxIterations" = Some v /\ as_num v = Some (ip_maxIterations new))
    /\ GivenOr as_num m "minAbsStep_trans" (ip_trans old) (ip_trans new)
    /\ GivenOr as_num m "minAbsStep_rot" (ip_rot old) (ip_rot new)
    /\ (exists d, GivenOr as_bool m "generateDebugFiles" (ip_debug old) d /\ ip_debug new = (d || env)%bool)
    /\ GivenOr as_str m "debugFileNameFormat" (ip_format old) (ip_format new)
    /\ GivenOr as_bool m "debugPrintIterationProgress" (ip_print old) (ip_print new)
    /\ GivenOr as_num m "decimationDebugFiles" (ip_decimDebug old) (ip_decimDebug new)
    /\ GivenOr as_bool m "saveIterationDetails" (ip_details old) (ip_details new)
    /\ GivenOr as_num m "decimationIterationDetails" (ip_decimDetails old) (ip_decimDetails new)
    /\ ((yfind m "quality_checkpoints" = None /\ ip_checkpoints new = ip_checkpoints old)
        \/ exists es, yfind m "quality_checkpoints" = Some (YSeq es) /\ es <> [] /\ Checkpoints es (ip_checkpoints new)).
End Spec.
