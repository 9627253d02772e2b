(** Specification vocabulary for the filters: independent of how they loop. *)
From Coq Require Import String.
From Verif Require Import Base FilterModel.
Open Scope string_scope.
Open Scope Q_scope.
Open Scope list_scope.

(** A point of class [c] carries nothing in the channels [c] does not have. *)
Definition pt_of_class (c : Cls) (p : Pt) : Prop :=
  (has_I c = false -> p_int p = 0) /\ (has_R c = false -> p_ring p = 0%Z)
  /\ (has_T c = false -> p_time p = 0).
Definition wf_cloud (c : Cloud) : Prop := Forall (pt_of_class (cl_cls c)) (cl_pts c).

(** A name that can be an output: no name, a new layer, or an existing point cloud. *)
Definition usable (m : Layers) (n : Name) : Prop :=
  n = "" \/ lfind m n = None \/ exists c, lfind m n = Some (LPts c).

(** The points of [src] meant for the layer [n]. *)
Definition sent (dest : Pt -> Name) (n : Name) (src : list Pt) : list Pt :=
  filter (fun p => String.eqb (dest p) n) src.

(** [m'] is [m] after every point of the cloud [src] was copied, in order, to the
    layer [dest] says ("" : nowhere), where [outs] are the possible outputs:
    - an output layer that existed keeps its class and its points, then has the new ones;
    - an output layer that did not exist has the class of the source and exactly the new ones;
    - every other layer is untouched. *)
Definition Routed (m m' : Layers) (src : Cloud) (dest : Pt -> Name) (outs : list Name) : Prop :=
  forall n,
    (In n outs /\ n <> "" ->
       match lfind m n with
       | Some (LPts c) =>
           lfind m' n = Some (LPts (mkCloud (cl_cls c)
                          (cl_pts c ++ map (conv (cl_cls c)) (sent dest n (cl_pts src)))))
       | _ => lfind m' n = Some (LPts (mkCloud (cl_cls src) (sent dest n (cl_pts src))))
       end) /\
    (~ In n outs \/ n = "" -> lfind m' n = lfind m n).
