(** Model of mp2p_icp::LocalVelocityBuffer.
    Source: /repo/mp2p_icp_map/src/LocalVelocityBuffer.cpp (lines cited below) and
            /repo/mp2p_icp_map/include/mp2p_icp/LocalVelocityBuffer.h
    Time stamps and durations (doubles, in seconds) are integer numbers of ticks: any finite
    set of doubles is such for a fine enough tick; rounding is not modelled. *)
From Verif Require Import Base.
Open Scope Z_scope.

Section Buffer.
Context {V : Type}.

(** std::map<double, V>: entries in strictly ascending key order. *)
Definition tmap := list (Z * V).
Fixpoint tm_set (m : tmap) (t : Z) (v : V) : tmap :=
  match m with
  | [] => [(t, v)]
  | (k, x) :: r => if t <? k then (t, v) :: m
                   else if t =? k then (t, v) :: r
                   else (k, x) :: tm_set r t v
  end.

Record VBuf : Type := mkVBuf { linear : tmap; angular : tmap }.
Variable max_time_window : Z.

(** LocalVelocityBuffer.cpp:40-65, one of the two loops *)
Definition drop_old (now : Z) (m : tmap) : tmap :=
  filter (fun kv => negb (now - fst kv >? max_time_window)) m.
(** lines 40-65 *)
Definition delete_too_old_entries (now : Z) (s : VBuf) : VBuf :=
  mkVBuf (drop_old now (linear s)) (drop_old now (angular s)).
(** lines 22-27 *)
Definition add_linear_velocity (s : VBuf) (t : Z) (v : V) : VBuf :=
  delete_too_old_entries t (mkVBuf (tm_set (linear s) t v) (angular s)).
(** lines 29-34 *)
Definition add_angular_velocity (s : VBuf) (t : Z) (v : V) : VBuf :=
  delete_too_old_entries t (mkVBuf (linear s) (tm_set (angular s) t v)).
(** LocalVelocityBuffer.h:61-65 *)
Definition vbuf_clear : VBuf := mkVBuf [] [].

(** Calls of the public interface. *)
Inductive VOp : Type :=
| AddLin (t : Z) (v : V)
| AddAng (t : Z) (v : V)
| Clear.
Definition vstep (s : VBuf) (o : VOp) : VBuf :=
  match o with
  | AddLin t v => add_linear_velocity s t v
  | AddAng t v => add_angular_velocity s t v
  | Clear => vbuf_clear
  end.
Definition vrun (h : list VOp) : VBuf := fold_left vstep h vbuf_clear.
End Buffer.

(** ** reconstruct_poses_around_reference_time, lines 67-155 *)
Section Reconstruct.
Context {V P : Type}.
(** pose.setRotationMatrix(pose.getRotationMatrix() * SO3::exp(w * dt)) *)
Variable integrate : P -> V -> Z -> P.
Variable ident : P.
(** INTERPOLATION_TIME_STEP_SEC (line 93) and 1e-3 times that *)
Variables STEP EPS : Z.

(** mrpt::containers::find_closest_with_tolerance: the entry with the nearest key, if not
    farther than the tolerance (external code). *)
Fixpoint closest (m : list (Z * V)) (t : Z) : option Z :=
  match m with
  | [] => None
  | (k, _) :: r => match closest r t with
                   | None => Some k
                   | Some k' => if Z.abs (k - t) <=? Z.abs (k' - t) then Some k else Some k'
                   end
  end.
Definition find_closest_with_tolerance (m : list (Z * V)) (t tol : Z) : option Z :=
  match closest m t with
  | Some k => if Z.abs (k - t) <=? tol then Some k else None
  | None => None
  end.

(** The map as seen from an iterator: the entries before it (nearest first) and from it on. *)
Fixpoint split_at (m : list (Z * V)) (t : Z) (before : list (Z * V)) : list (Z * V) * list (Z * V) :=
  match m with
  | [] => (before, [])
  | (k, v) :: r => if k =? t then (before, m) else split_at r t ((k, v) :: before)
  end.

(** lines 109-123: the inner loop towards [target], at most [fuel] turns; the entries added
    to the trajectory are returned in order. [sgn] is 1 forward and -1 backward. *)
Fixpoint inner (fuel : nat) (sgn target ref : Z) (w : V) (prev : Z) (pose : P)
  : Z * P * list (Z * P) :=
  match fuel with
  | O => (prev, pose, [])
  | S f =>
    let dt := sgn * Z.min (Z.abs (target - prev)) STEP in
    let prev' := prev + dt in
    if Z.abs dt <? EPS then (prev', pose, [])
    else let pose' := integrate pose w dt in
         let '(p, q, l) := inner f sgn target ref w prev' pose' in
         (p, q, (prev' - ref, pose') :: l)
  end.
Definition inner_all (sgn target ref : Z) (w : V) (prev : Z) (pose : P) :=
  inner (S (Z.to_nat (Z.abs (target - prev)))) sgn target ref w prev pose.

(** lines 96-124; the argument is the suffix of the map starting at the iterator *)
Fixpoint forward (half ref : Z) (it : list (Z * V)) (prev : Z) (pose : P) : res (list (Z * P)) :=
  if prev - ref <? half then
    match it with
    | [] => Ok []                                   (* it == end(): break *)
    | (_, w) :: it' =>
      match it' with
      | [] => UB                                    (* ++it; it->first with it == end() *)
      | (target, _) :: _ =>
        let '(prev', pose', l) := inner_all 1 target ref w prev pose in
        let* l' := forward half ref it' prev' pose' in Ok (l ++ l')
      end
    end
  else Ok [].

(** lines 126-153; [w] belongs to the iterator, [before] are the entries before it *)
Fixpoint backward (half ref : Z) (w : V) (before : list (Z * V)) (prev : Z) (pose : P) : list (Z * P) :=
  if prev - ref >? - half then
    match before with
    | [] => []                                      (* it == begin(): break *)
    | (target, w') :: before' =>
      let '(prev', pose', l) := inner_all (-1) target ref w prev pose in
      l ++ backward half ref w' before' prev' pose'
    end
  else [].

(** lines 67-155.  The trajectory (a std::map) as the list of its insertions in order. *)
Definition reconstruct (ang : list (Z * V)) (ref0 tol half : Z) : res (list (Z * P)) :=
  match find_closest_with_tolerance ang ref0 tol with
  | None => Ok []
  | Some ref =>
    let '(before, it) := split_at ang ref [] in
    match it with
    | [] => UB                                      (* not reachable *)
    | (_, w) :: _ =>
      let* f := forward half ref it ref ident in
      Ok ((0, ident) :: f ++ backward half ref w before ref ident)
    end
  end.
End Reconstruct.
