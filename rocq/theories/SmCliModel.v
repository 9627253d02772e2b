(** Model of the sm-cli program: apps/sm-cli/sm-cli.h, sm-cli-main.cpp, sm-cli-cut.cpp, sm-cli-trim.cpp,
    sm-cli-join.cpp, sm-cli-tf.cpp, sm-cli-level.cpp, sm-cli-info.cpp, sm-cli-export-kfs.cpp,
    sm-cli-export-rawlog.cpp.

    Simplifications: real numbers for double; the command line is already parsed; the texts printed are
    not modelled, except the data of `info`; the texts of corners and poses are given as their parsed
    value ([None]: FromString() throws); every file is loaded as a map of its own, so keyframes
    of different maps share nothing; mrpt types are parameters. *)
From Coq Require Import String Reals.
From Verif Require Import Base GeomModel.
Open Scope nat_scope.

Section SmCli.
(** mrpt::poses::CPose3DPDF: its mean and changeCoordinatesReference() *)
Variable PDF : Type.
Variable pdf_mean : PDF -> Pose.
Variable pdf_change : Pose -> PDF -> PDF.
Variable Twist : Type.
(** an observation without its time stamp, class and label *)
Variable Data : Type.

(** mrpt time stamps, in 100 ns units; InvalidTimeStamp() is the epoch *)
Definition Time := Z.
Definition InvalidTimeStamp : Time := 0%Z.
Record Obs := mkObs { ob_time : Time; ob_label : string; ob_class : string; ob_data : Data }.
(** mrpt CSimpleMap::Keyframe; pointers may be null *)
Record KF := mkKF { kf_pose : option PDF; kf_sf : option (list (option Obs)); kf_twist : option Twist }.
Definition SM := list KF.

(** CSensoryFrame entries that export-rawlog makes *)
Inductive Entry := EObs (o : option Obs) | EPose (t : option Time) (p : PDF) | ETwist (t : option Time) (w : Twist).

(** sm-cli-info.cpp 61-84 *)
Record Info := mkInfo {
  i_count : nat; i_has_twist : bool; i_box : option (V3 * V3);
  i_first : option Time; i_last : option Time; i_obs : list (string * (string * nat)) }.

(** what a run leaves behind *)
Inductive Event :=
| WSimplemap (f : string) (m : SM)
| WTum (f : string) (rows : list (Time * Pose))
| WTwist (f : string) (rows : list (Time * Twist))
| WRawlog (f : string) (es : list (list Entry))
| Print (i : Info).

(** The files: [e_load f]: [None]: f does not exist; [Some None]: exists, loadFromFile() returns false.
    [e_writable f]: writing to f succeeds; if not, saveToFile() and the like return false. *)
Record Env := mkEnv { e_load : string -> option (option SM); e_writable : string -> bool }.

(** sm-cli.h 21-61 *)
Record Args := mkArgs {
  a_cmd : list string; a_help : bool; a_version : bool;
  a_from : option nat; a_to : option nat;
  a_min : option (option V3); a_max : option (option V3);
  a_out : option string; a_out_twist : option string }.

(** events so far and outcome *)
Definition W (A : Type) := (list Event * res A)%type.
Definition wret {A} (a : A) : W A := ([], Ok a).
Definition wthrow {A} : W A := ([], Throw).
Definition wbnd {A B} (x : W A) (f : A -> W B) : W B :=
  match x with (es, Ok a) => let '(es', r) := f a in (es ++ es', r) | (es, Throw) => (es, Throw) | (es, UB) => (es, UB) end.
Definition lift {A} (r : res A) : W A := ([], r).
Definition wassert (b : bool) : W unit := if b then wret tt else wthrow.
(** a write whose result is ignored *)
Definition save (e : Env) (f : string) (ev : Event) : W unit := (if e_writable e f then [ev] else [], Ok tt).

(** sm-cli-main.cpp 136-156 *)
Definition read_input (e : Env) (f : string) : W SM :=
  match e_load e f with None => wthrow | Some None => wthrow | Some (Some m) => wret m end.

(** sm-cli-cut.cpp 17-49.  Line 38: i from first to last, both ends included. *)
Definition cut (m : SM) (first last : nat) : res SM :=
  if Nat.ltb first (List.length m) then
    if Nat.ltb last (List.length m) then Ok (firstn (last + 1 - first) (skipn first m)) else Throw
  else Throw.
Definition command_cut (e : Env) (a : Args) : W nat :=
  if a_help a then wret 0
  else match a_cmd a, a_from a, a_to a, a_out a with
  | [_; f], Some i, Some j, Some out =>
      wbnd (read_input e f) (fun m => wbnd (lift (cut m i j)) (fun o => wbnd (save e out (WSimplemap out o)) (fun _ => wret 0)))
  | _, _, _, _ => wret 1
  end.

(** mrpt TBoundingBox_: closed box; [box_ok]: the constructor accepts the corners *)
Variable box_ok : V3 -> V3 -> bool.
Definition Rleb (a b : R) : bool := if Rle_dec a b then true else false.
Definition contains (lo hi p : V3) : bool :=
  Rleb (vx lo) (vx p) && Rleb (vy lo) (vy p) && Rleb (vz lo) (vz p) &&
  Rleb (vx p) (vx hi) && Rleb (vy p) (vy hi) && Rleb (vz p) (vz hi).

(** sm-cli-trim.cpp 37-45 *)
Fixpoint trim (lo hi : V3) (m : SM) : res SM :=
  match m with
  | [] => Ok []
  | k :: r =>
    match kf_pose k with
    | None => Throw
    | Some p => let* o := trim lo hi r in Ok (if contains lo hi (tr (pdf_mean p)) then k :: o else o)
    end
  end.
(** sm-cli-trim.cpp 17-55 *)
Definition command_trim (e : Env) (a : Args) : W nat :=
  if a_help a then wret 0
  else match a_cmd a, a_min a, a_max a, a_out a with
  | [_; f], Some lo, Some hi, Some out =>
      match lo, hi with
      | Some lo, Some hi =>
          if box_ok lo hi then
            wbnd (read_input e f) (fun m => wbnd (lift (trim lo hi m)) (fun o => wbnd (save e out (WSimplemap out o)) (fun _ => wret 0)))
          else wthrow
      | _, _ => wthrow
      end
  | _, _, _, _ => wret 1
  end.

(** sm-cli-join.cpp 26-36 *)
Fixpoint join (e : Env) (files : list string) (acc : SM) : W SM :=
  match files with [] => wret acc | f :: r => wbnd (read_input e f) (fun m => join e r (acc ++ m)) end.
(** sm-cli-join.cpp 17-46 *)
Definition command_join (e : Env) (a : Args) : W nat :=
  if a_help a then wret 0
  else match a_cmd a, a_out a with
  | _ :: f :: r, Some out => wbnd (join e (f :: r) []) (fun o => wbnd (save e out (WSimplemap out o)) (fun _ => wret 0))
  | _, _ => wret 1
  end.

(** sm-cli-tf.cpp 39-44, sm-cli-level.cpp 93-98; a null pose pointer is dereferenced *)
Fixpoint change_all (T : Pose) (m : SM) : res SM :=
  match m with
  | [] => Ok []
  | k :: r =>
    match kf_pose k with
    | None => UB
    | Some p => let* o := change_all T r in Ok (mkKF (Some (pdf_change T p)) (kf_sf k) (kf_twist k) :: o)
    end
  end.
Variable parse_pose : string -> option Pose.     (* CPose3D::FromString *)
(** sm-cli-tf.cpp 20-51 *)
Definition command_tf (e : Env) (a : Args) : W nat :=
  if a_help a then wret 0
  else match a_cmd a with
  | [_; f; out; tf] =>
      wbnd (read_input e f) (fun m =>
      wbnd (wassert (match m with [] => false | _ => true end)) (fun _ =>
      match parse_pose tf with
      | None => wthrow
      | Some T => wbnd (lift (change_all T m)) (fun o => wbnd (save e out (WSimplemap out o)) (fun _ => wret 0))
      end))
  | _ => wret 1
  end.

(** mrpt CPose3D::FromYawPitchRoll *)
Definition from_ypr (y p r : R) : Pose :=
  (mkPose (mkV (cos y * cos p) (sin y * cos p) (- sin p))
          (mkV (cos y * sin p * sin r - sin y * cos r) (sin y * sin p * sin r + cos y * cos r) (cos p * sin r))
          (mkV (cos y * sin p * cos r + sin y * sin r) (sin y * sin p * cos r - cos y * sin r) (cos p * cos r))
          (mkV 0 0 0))%R.
(** CPose3D::operator+ *)
Definition pose_mul (T P : Pose) : Pose := mkPose (rotate T (c0 P)) (rotate T (c1 P)) (rotate T (c2 P)) (compose T (tr P)).
(** CLevenbergMarquardt::execute() from zero for the given residuals *)
Variable levmarq : (R * R * R -> list R) -> R * R * R.
(** sm-cli-level.cpp 34-41; a null pose pointer is dereferenced *)
Fixpoint means (m : SM) : res (list Pose) :=
  match m with
  | [] => Ok []
  | k :: r => match kf_pose k with None => UB | Some p => let* o := means r in Ok (pdf_mean p :: o) end
  end.
(** sm-cli-level.cpp 46-63 *)
Definition level_cost (ps : list Pose) (x : R * R * R) : list R :=
  let '(y, p, r) := x in
  match ps with
  | [] => []
  | p0 :: _ => map (fun q => (vz (tr (pose_mul (from_ypr y p r) q)) - vz (tr p0))%R) ps
  end.
Definition level (m : SM) : res SM :=
  let* ps := means m in
  let '(y, p, r) := levmarq (level_cost ps) in
  change_all (from_ypr y p r) m.
(** sm-cli-level.cpp 20-105 *)
Definition command_level (e : Env) (a : Args) : W nat :=
  if a_help a then wret 0
  else match a_cmd a with
  | [_; f; out] =>
      wbnd (read_input e f) (fun m =>
      wbnd (wassert (match m with [] => false | _ => true end)) (fun _ =>
      wbnd (lift (level m)) (fun o => wbnd (save e out (WSimplemap out o)) (fun _ => wret 0))))
  | _ => wret 1
  end.

(** std::map<std::string, ...>::operator[] *)
Fixpoint count_label (l : list (string * (string * nat))) (label cls : string) : list (string * (string * nat)) :=
  match l with
  | [] => [(label, (cls, 1))]
  | (n, (c, k)) :: r =>
      if String.eqb n label then (n, (cls, S k)) :: r
      else if String.ltb label n then (label, (cls, 1)) :: l
      else (n, (c, k)) :: count_label r label cls
  end.
Definition Rminb (a b : R) : R := if Rlt_dec b a then b else a.
Definition Rmaxb (a b : R) : R := if Rlt_dec a b then b else a.
(** TBoundingBox_::updateWithPoint(), from PlusMinusInfinity() ([None]) *)
Definition box_add (b : option (V3 * V3)) (p : V3) : option (V3 * V3) :=
  match b with
  | None => Some (p, p)
  | Some (lo, hi) => Some (mkV (Rminb (vx lo) (vx p)) (Rminb (vy lo) (vy p)) (Rminb (vz lo) (vz p)),
                           mkV (Rmaxb (vx hi) (vx p)) (Rmaxb (vy hi) (vy p)) (Rmaxb (vz hi) (vz p)))
  end.
(** sm-cli-info.cpp 47-56 *)
Fixpoint info_obs (os : list (option Obs)) (i : Info) : res Info :=
  match os with
  | [] => Ok i
  | None :: _ => Throw
  | Some o :: r =>
      let t := ob_time o in
      let first := match i_first i with None => t | Some u => if Z.ltb t u then t else u end in
      let last := match i_last i with None => t | Some u => if Z.ltb u t then t else u end in
      info_obs r (mkInfo (i_count i) (i_has_twist i) (i_box i) (Some first) (Some last)
                    (count_label (i_obs i) (ob_label o) (ob_class o)))
  end.
(** sm-cli-info.cpp 38-57 *)
Fixpoint info_loop (m : SM) (i : Info) : res Info :=
  match m with
  | [] => Ok i
  | k :: r =>
      match kf_pose k with
      | None => UB
      | Some p =>
          let i := mkInfo (i_count i) (match kf_twist k with Some _ => true | None => i_has_twist i end)
                     (box_add (i_box i) (tr (pdf_mean p))) (i_first i) (i_last i) (i_obs i) in
          match kf_sf k with
          | None => info_loop r i
          | Some os => let* i' := info_obs os i in info_loop r i'
          end
      end
  end.
(** sm-cli-info.cpp 19-87 *)
Definition command_info (e : Env) (a : Args) : W nat :=
  if a_help a then wret 0
  else match a_cmd a with
  | [_; f] =>
      wbnd (read_input e f) (fun m =>
      wbnd (lift (info_loop m (mkInfo (List.length m) false None None None []))) (fun i => ([Print i], Ok 0)))
  | _ => wret 1
  end.

(** sm-cli-export-kfs.cpp 50-57: the first valid time stamp *)
Fixpoint first_stamp (os : list (option Obs)) : option Time :=
  match os with
  | [] => None
  | None :: r => first_stamp r
  | Some o :: r => if Z.eqb (ob_time o) InvalidTimeStamp then first_stamp r else Some (ob_time o)
  end.
(** mrpt CPoseInterpolatorBase::insert(): std::map, the last pose with a given time stays *)
Fixpoint path_insert (t : Time) (p : Pose) (l : list (Time * Pose)) : list (Time * Pose) :=
  match l with
  | [] => [(t, p)]
  | (u, q) :: r => if Z.ltb t u then (t, p) :: l else if Z.eqb t u then (t, p) :: r else (u, q) :: path_insert t p r
  end.
(** sm-cli-export-kfs.cpp 44-76 *)
Fixpoint export_loop (m : SM) (path : list (Time * Pose)) (tw : list (Time * Twist))
  : res (list (Time * Pose) * list (Time * Twist)) :=
  match m with
  | [] => Ok (path, tw)
  | k :: r =>
      match kf_pose k with
      | None => UB
      | Some p =>
          match kf_sf k with
          | None => Throw
          | Some os =>
              match first_stamp os with
              | None => export_loop r path tw
              | Some t => export_loop r (path_insert t (pdf_mean p) path)
                            (match kf_twist k with Some w => tw ++ [(t, w)] | None => tw end)
              end
          end
      end
  end.
(** sm-cli-export-kfs.cpp 20-91.  Simplification: the twist file is written at the end (and not at
    all if the loop fails). *)
Definition command_export_kf (e : Env) (a : Args) : W nat :=
  if a_help a then wret 0
  else match a_cmd a, a_out a with
  | [_; f], Some out =>
      wbnd (read_input e f) (fun m =>
      wbnd (lift (export_loop m [] [])) (fun r =>
      let '(path, tw) := r in
      wbnd (match a_out_twist a with
            | Some ft => if String.eqb ft "" then wret tt else save e ft (WTwist ft tw)
            | None => wret tt
            end) (fun _ =>
      wbnd (save e out (WTum out path)) (fun _ => wret 0))))
  | _, _ => wret 1
  end.

(** sm-cli-export-rawlog.cpp 49-57; a null observation is dereferenced *)
Fixpoint rawlog_stamp (os : list (option Obs)) : res (option Time) :=
  match os with
  | [] => Ok None
  | None :: _ => UB
  | Some o :: r => if Z.eqb (ob_time o) InvalidTimeStamp then rawlog_stamp r else Ok (Some (ob_time o))
  end.
(** sm-cli-export-rawlog.cpp 38-82 *)
Fixpoint rawlog_loop (m : SM) : res (list (list Entry)) :=
  match m with
  | [] => Ok []
  | k :: r =>
      match kf_pose k, kf_sf k with
      | Some p, Some os =>
          let* t := rawlog_stamp os in
          let* rest := rawlog_loop r in
          Ok ((map EObs os ++ [EPose t p] ++ match kf_twist k with Some w => [ETwist t w] | None => [] end) :: rest)
      | _, _ => Throw
      end
  end.
(** sm-cli-export-rawlog.cpp 23-90 *)
Definition command_export_rawlog (e : Env) (a : Args) : W nat :=
  if a_help a then wret 0
  else match a_cmd a, a_out a with
  | [_; f], Some out =>
      wbnd (read_input e f) (fun m =>
      wbnd (lift (rawlog_loop m)) (fun es => wbnd (save e out (WRawlog out es)) (fun _ => wret 0)))
  | _, _ => wret 1
  end.

(** sm-cli-main.cpp 39-49, 79-99 *)
Definition dispatch (e : Env) (a : Args) : W nat :=
  match a_cmd a with
  | [] => wret 1
  | c :: _ =>
      if String.eqb c "help" then wret 0
      else if String.eqb c "info" then command_info e a
      else if String.eqb c "export-keyframes" then command_export_kf e a
      else if String.eqb c "export-rawlog" then command_export_rawlog e a
      else if String.eqb c "cut" then command_cut e a
      else if String.eqb c "level" then command_level e a
      else if String.eqb c "trim" then command_trim e a
      else if String.eqb c "join" then command_join e a
      else if String.eqb c "tf" then command_tf e a
      else wret 1
  end.
(** sm-cli-main.cpp 61-107: the exit code; exceptions become 1 *)
Definition sm_cli (e : Env) (a : Args) : W nat :=
  if a_version a then wret 0
  else match dispatch e a with
       | (es, Throw) => (es, Ok 1)
       | r => r
       end.
End SmCli.
