(** Model of mp2p_icp_filters/src/Generator.cpp and src/sm2mm.cpp.  Simplifications:
    - those of FilterModel.v (layers are values: no two layers share an object);
    - regular expressions are predicates; insertObservationInto(), insertObservation() of a Velodyne scan and
      unprojectInto() (mrpt) are arbitrary functions; pointcloud_sanity_check() holds for every cloud of the model;
    - the local velocity buffer is any type with two operations (VelocityModel.v has the real one);
    - loading and unloading of observations from disk is not modelled;
    - variables of the parameter source: a filter or generator gets the values of the variables at the last
      realize(), which throws if one it uses is not defined (ParamModel.v has the formulas). *)
From Coq Require Import String.
From Verif Require Import Base FilterModel DeskewModel MapModel.
Open Scope nat_scope.

Section Sm.
Variable B : Type.                                        (* LocalVelocityBuffer *)
Variable add_angular : Q -> Q3 -> B -> B.
Variable set_zero_time : Q -> B -> B.
Variable fields : Cls -> Cls -> Pt -> Pt.                 (* see MapModel.v *)
Variable XYZIRT : Cls.                                    (* mrpt::maps::CPointsMapXYZIRT *)
Variable pose_add : Pose -> Pose -> Pose.                 (* mrpt CPose3D::operator+ *)

(** the observation classes Generator.cpp tells apart *)
Inductive Kind :=
| KComment (lvb : option (B -> B))     (* the effect of its text on the velocity buffer (sm2mm.cpp 95-133), if any *)
| KGPS | KRobotPose
| KRotating
| KCloud (c : option Cloud) (sensor : Pose)
| K2D
| K3D (unproj : option (option Pose -> list Pt))    (* None: points3D_x is not empty *)
| KVelodyne (ins : Cloud -> option Pose -> Cloud)
| KIMU (gyro : option Q3) (sensor : Pose)
| KOther.
(** [o_insert]: insertObservationInto() for each map it may be given *)
Record Ob := mkOb { o_kind : Kind; o_class : string; o_label : string; o_time : Q; o_insert : Layer -> option Pose -> Layer * bool }.

(** Generator.h 103-156: [g_custom]: a metric map definition is given, the new map it defines (None: an error) *)
Record Gen := mkGen {
  g_target : Name; g_custom : option (option Layer);
  g_class_ok : string -> bool; g_label_ok : string -> bool; g_throw : bool; g_init : bool;
  g_vars : list string }.

Definition St := (Layers * B)%type.
Definition N (A : Type) := St -> St * outc A.
Definition nret {A} (a : A) : N A := fun s => (s, Val a).
Definition nthrow {A} : N A := fun s => (s, Exc).
Definition nbnd {A C} (x : N A) (f : A -> N C) : N C := fun s =>
  match x s with (s', Val a) => f a s' | (s', Exc) => (s', Exc) | (s', Undef) => (s', Undef) | (s', Spin) => (s', Spin) end.
Notation "'go' x <- e ; f" := (nbnd e (fun x => f)) (at level 200, x pattern, e at level 100, f at level 200, right associativity).
Definition nassert (b : bool) : N unit := if b then nret tt else nthrow.
Definition lay {A} (x : M A) : N A := fun s => let '(m, r) := x (fst s) in ((m, snd s), r).
Definition put (n : Name) (l : Layer) : N unit := fun s => ((lset (fst s) n l, snd s), Val tt).
Definition buf (f : B -> B) : N unit := fun s => ((fst s, f (snd s)), Val tt).

(** Generator.cpp 225-262, filterPointCloud *)
Definition filter_cloud (g : Gen) (pc : Cloud) (sensor : Pose) (robot : option Pose) : N bool := fun s =>
  let p := match robot with Some r => pose_add r sensor | None => sensor end in
  let add (d : Cloud) := mkCloud (cl_cls d) (cl_pts d ++ map (moved_into fields (cl_cls d) (cl_cls pc) p) (cl_pts pc)) in
  match lfind (fst s) (g_target g) with
  | Some (LPts d) => (go _ <- put (g_target g) (LPts (add d)); nret true) s
  | Some _ => (s, Exc)
  | None => (go _ <- put (g_target g) (LPts (add (mkCloud (cl_cls pc) []))); nret true) s
  end.

(** Generator.cpp 164-184, filterVelodyneScan *)
Definition filter_velodyne (g : Gen) (ins : Cloud -> option Pose -> Cloud) (robot : option Pose) : N bool :=
  go _ <- lay (get_or_create (g_target g) false XYZIRT);
  fun s =>
  match lfind (fst s) (g_target g) with
  | Some (LPts d) =>
      if String.eqb (cls_name (cl_cls d)) (cls_name XYZIRT) then (go _ <- put (g_target g) (LPts (ins d robot)); nret true) s else (s, Exc)
  | _ => (s, Exc)
  end.

(** Generator.cpp 186-213, processIMU; [src]: a parameter source is attached *)
Definition process_imu (src : bool) (o : Ob) (gyro : option Q3) (sensor : Pose) : N bool :=
  if src then match gyro with
              | Some w => go _ <- buf (add_angular (o_time o) (rotate sensor w)); nret true
              | None => nret false
              end
  else nret false.

Definition skipped (g : Gen) (o : Ob) : bool := negb (g_class_ok g (o_class o)) || negb (g_label_ok g (o_label o)).

(** Generator.cpp 403-445: the specialised methods *)
Definition special (src : bool) (g : Gen) (o : Ob) (robot : option Pose) : N bool :=
  match o_kind o with
  | KRotating => nret false
  | KCloud None _ => nthrow
  | KCloud (Some c) sensor => filter_cloud g c sensor robot
  | K2D => nret false
  | K3D _ => nret false
  | KVelodyne ins => filter_velodyne g ins robot
  | KIMU gyro sensor => process_imu src o gyro sensor
  | _ => nret false
  end.
(** pointcloud_obs_timestamp is set *)
Definition is_cloud (o : Ob) : bool := match o_kind o with KRotating | KCloud _ _ | K2D | K3D _ | KVelodyne _ => true | _ => false end.

(** Generator.cpp 383-496, implProcessDefault *)
Definition process_default (src : bool) (g : Gen) (o : Ob) (robot : option Pose) : N bool :=
  if (match o_kind o with KComment _ | KGPS | KRobotPose => true | _ => false end) || skipped g o then nret false
  else
    go done <- special src g o robot;
    go _ <- (if src && is_cloud o then buf (set_zero_time (o_time o)) else nret tt);
    if done then nret true
    else
      go _ <- lay (get_or_create (g_target g) false SimplePoints);
      fun s =>
      match lfind (fst s) (g_target g) with
      | Some l =>
          match o_kind o, l with
          | K3D (Some unproj), LPts d => (go _ <- put (g_target g) (LPts (mkCloud (cl_cls d) (cl_pts d ++ map (conv (cl_cls d)) (unproj robot)))); nret true) s
          | _, _ =>
              let '(l', done) := o_insert o l robot in
              (go _ <- put (g_target g) l';
               if negb done && g_throw g then nthrow else nret done) s
          end
      | None => (s, Exc)
      end.

(** Generator.cpp 498-620, implProcessCustomMap; [def]: the map the definition makes *)
Definition process_custom (g : Gen) (def : option Layer) (o : Ob) (robot : option Pose) : N bool :=
  go _ <- (fun s => match lfind (fst s) (g_target g) with
                    | Some _ => (s, Val tt)
                    | None => match def with Some l => put (g_target g) l s | None => (s, Exc) end
                    end);
  fun s =>
  match lfind (fst s) (g_target g) with
  | None | Some LNull => (s, Exc)
  | Some l =>
      if (match o_kind o with KComment _ => true | _ => false end) || skipped g o then (s, Val false)
      else
        let '(l', done) := o_insert o l robot in
        (go _ <- put (g_target g) l';
         if negb done && g_throw g then nthrow else nret done) s
  end.

(** Generator.cpp 133-155, Generator::process; the parameters are realized *)
Definition process (src : bool) (g : Gen) (o : Ob) (robot : option Pose) : N bool :=
  go _ <- nassert (g_init g);
  match g_custom g with
  | None => process_default src g o robot
  | Some def => process_custom g def o robot
  end.

(** Generator.cpp 272-286, apply_generators for one observation *)
Fixpoint apply_list (src : bool) (gs : list Gen) (o : Ob) (robot : option Pose) (any : bool) : N bool :=
  match gs with
  | [] => nret any
  | g :: t => go h <- process src g o robot; apply_list src t o robot (any || h)
  end.
Definition apply_generators (src : bool) (gs : list Gen) (o : Ob) (robot : option Pose) : N bool :=
  match gs with [] => nthrow | _ => apply_list src gs o robot false end.

(** Generator.cpp 306-330, apply_generators for a sensory frame: null observations are skipped *)
Fixpoint gen_frame (src : bool) (g : Gen) (sf : list (option Ob)) (robot : option Pose) (any : bool) : N bool :=
  match sf with
  | [] => nret any
  | None :: t => gen_frame src g t robot any
  | Some o :: t => go h <- process src g o robot; gen_frame src g t robot (any || h)
  end.
Fixpoint apply_frame_list (src : bool) (gs : list Gen) (sf : list (option Ob)) (robot : option Pose) (any : bool) : N bool :=
  match gs with
  | [] => nret any
  | g :: t => go h <- gen_frame src g sf robot any; apply_frame_list src t sf robot h
  end.
Definition apply_frame (src : bool) (gs : list Gen) (sf : list (option Ob)) (robot : option Pose) : N bool :=
  match gs with [] => nthrow | _ => apply_frame_list src gs sf robot false end.

(** ** sm2mm.cpp *)
Definition Vars := list (string * Q).
Definition upd_vars (vs : Vars) (new : list (string * Q)) : Vars := fold_left (fun v kv => kset v (fst kv) (snd kv)) new vs.

(** a filter: what it does, given the source it is attached to, if any: the variables at its last realize() and its velocity buffer;
    [fi_vars]: the variables of its formulas; [fi_checks]: it calls checkAllParametersAreRealized() *)
Record Fil := mkFil { fi_vars : list string; fi_checks : bool; fi_run : option (Vars * B) -> M unit }.
(** mrpt CSimpleMap::Keyframe: pose (mean, with x, y, z, yaw, pitch, roll), sensory frame, twist; None: null pointers *)
Definition Six := (Q * Q * Q * Q * Q * Q)%type.
Definition six_list (t : Six) : list Q := let '(a, b, c, d, e, f) := t in [a; b; c; d; e; f].
Record KF := mkKF { k_pose : option (Pose * Six); k_sf : option (list (option Ob)); k_twist : option Six }.
(** sm2mm.h 38-48; the pipeline: generators (None: not in the YAML file), filters, final filters *)
Record Opts := mkOpts { op_start : option Z; op_end : option Z; op_custom : list (string * Q) }.
Record Pipe := mkPipe { pi_gens : option (list Gen); pi_filters : list Fil; pi_final : list Fil }.

Definition twist_names := ["vx"; "vy"; "vz"; "wx"; "wy"; "wz"]%string.
Definition pose_names := ["robot_x"; "robot_y"; "robot_z"; "robot_yaw"; "robot_pitch"; "robot_roll"]%string.
Definition default_gen : Gen := mkGen "raw" None (fun _ => true) (fun _ => true) false true [].
Definition gens_of (p : Pipe) : list Gen := match pi_gens p with Some g => g | None => [default_gen] end.

(** what a run does, for the specification: calls of apply_generators (key-frame, observation, variables, pose, result) and of
    apply_filter_pipeline *)
Inductive Ev := EGen (kf ob : nat) (vars : Vars) (robot : Pose) (handled : outc bool) | EFilters (kf ob : nat) | EFinal.
Definition Run := (St * Vars * list Ev * outc unit)%type.

Definition defined (vs : Vars) (x : string) : bool := match kfind vs x with Some _ => true | None => false end.
(** ParameterSource::realize for the attached generators and filters *)
Definition realizes (p : Pipe) (vs : Vars) : bool :=
  forallb (fun g => forallb (defined vs) (g_vars g)) (gens_of p) && forallb (fun f => forallb (defined vs) (fi_vars f)) (pi_filters p).

Definition run_filters (fs : list Fil) (vs : Vars) : N unit := fun s =>
  let '(m, r) := run_pipeline (map (fun f => Some (fi_run f (Some (vs, snd s)))) fs) (fst s) in ((m, snd s), r).
(** the final filters are not attached to the source: formulas with variables are never realized *)
Definition run_final (fs : list Fil) : N unit := fun s =>
  let '(m, r) := run_pipeline (map (fun f => Some (match fi_vars f with [] => fi_run f None | _ => if fi_checks f then throw else fi_run f None end)) fs) (fst s) in ((m, snd s), r).

(** sm2mm.cpp 190-211: the observations [obs] of key-frame [k], from index [j] *)
Fixpoint do_obs (p : Pipe) (k : nat) (vs : Vars) (robot : Pose) (j : nat) (obs : list (option Ob)) (s : St) : St * list Ev * outc unit :=
  match obs with
  | [] => (s, [], Val tt)
  | None :: _ => (s, [], Exc)
  | Some o :: t =>
      let s1 := match o_kind o with KComment (Some f) => (fst s, f (snd s)) | _ => s end in
      let '(s2, r) := apply_generators true (gens_of p) o (Some robot) s1 in
      let ev := EGen k j vs robot r in
      match r with
      | Val false => let '(s4, evs, r4) := do_obs p k vs robot (S j) t s2 in (s4, ev :: evs, r4)
      | Val true =>
          let '(s3, r3) := run_filters (pi_filters p) vs s2 in
          match r3 with
          | Val _ => let '(s4, evs, r4) := do_obs p k vs robot (S j) t s3 in (s4, ev :: EFilters k j :: evs, r4)
          | r3 => (s3, [ev; EFilters k j], r3)
          end
      | Exc => (s2, [ev], Exc)
      | Undef => (s2, [ev], Undef)
      | Spin => (s2, [ev], Spin)
      end
  end.

(** sm2mm.cpp 161-245: key-frame [k] *)
Definition do_kf (p : Pipe) (k : nat) (kf : KF) (vs : Vars) (s : St) : St * Vars * list Ev * outc unit :=
  let vs1 := match k_twist kf with Some t => upd_vars vs (combine twist_names (six_list t)) | None => vs end in
  match k_pose kf, k_sf kf with
  | Some (robot, six), Some sf =>
      let vs2 := upd_vars vs1 (combine pose_names (six_list six)) in
      if realizes p vs2 then let '(s', evs, r) := do_obs p k vs2 robot 0 sf s in (s', vs2, evs, r)
      else (s, vs2, [], Exc)
  | _, _ => (s, vs1, [], Exc)
  end.
(** for (; curKF < nKFs; curKF++); [n]: iterations left *)
Fixpoint do_kfs (p : Pipe) (sm : list KF) (k n : nat) (vs : Vars) (s : St) : Run :=
  match n with
  | O => (s, vs, [], Val tt)
  | S n =>
      match nth_error sm k with
      | None => (s, vs, [], Exc)
      | Some kf =>
          match do_kf p k kf vs s with
          | (s', vs', evs, Val _) => let '(s2, vs2, evs2, r2) := do_kfs p sm (S k) n vs' s' in (s2, vs2, evs ++ evs2, r2)
          | (s', vs', evs, r) => (s', vs', evs, r)
          end
      end
  end.

(** size_t arithmetic *)
Definition size_max : Z := 2 ^ 64 - 1.
Definition wrap (z : Z) : Z := z mod (2 ^ 64).

(** sm2mm.cpp 148-159: [curKF, nKFs) *)
Definition first_kf (o : Opts) : Z := match op_start o with Some s => Z.max 0 s | None => 0 end.
Definition end_kf (o : Opts) (size : Z) : Z := match op_end o with Some e => Z.min size (wrap (e + 1)) | None => size end.

(** sm2mm.cpp 32-264, simplemap_to_metricmap; [b0]: the velocity buffer of a new parameter source *)
Definition sm2mm (b0 : B) (sm : list KF) (mm : Layers) (p : Pipe) (o : Opts) : Run :=
  let vs := upd_vars [] (combine twist_names (repeat 0%Q 6)) in
  let vs := upd_vars vs (combine pose_names (repeat 0%Q 6)) in
  let vs := upd_vars vs (op_custom o) in
  let s0 : St := ([], b0) in
  if realizes p vs then
    let k0 := first_kf o in
    let n := Z.to_nat (end_kf o (Z.of_nat (List.length sm)) - k0) in
    match do_kfs p sm (Z.to_nat k0) n vs s0 with
    | (s, vs', evs, Val _) =>
        match pi_final p with
        | [] => (s, vs', evs, Val tt)
        | fs => let '(s', r) := run_final fs s in (s', vs', evs ++ [EFinal], r)
        end
    | (s, vs', evs, r) => (s, vs', evs, r)
    end
  else (s0, vs, [], Exc).
End Sm.
