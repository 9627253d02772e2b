(** Model of LocalVelocityBuffer::toYAML and fromYAML.
    Source: /repo/mp2p_icp_map/src/LocalVelocityBuffer.cpp 162-239.
    Stamps are integer ticks, as in VelocityModel.  Printing and reading numbers ("%.09lf",
    std::stod, TVector3D::asString and FromString) are arguments; the document is taken as read back from its text, where the
    quotes put around the velocities disappear. *)
From Coq Require Import String.
From Verif Require Import Base FilterModel VelocityModel ConfigModel.
Open Scope string_scope.
Open Scope list_scope.

Section VelYaml.
  Context {V : Type}.
  Variable fmt_time : Z -> string.
  (** std::stod; [None]: exception *)
  Variable parse_time : string -> option Z.
  Variable fmt_vel : V -> string.
  Variable parse_vel : string -> option V.
  Variables (fmt_num : Q -> yml) (as_num : yml -> option Q) (as_str : yml -> option string).
  Variables (put_stamp : Q -> yml) (as_stamp : yml -> option Q).

  (** LocalVelocityBuffer.h 30-60 *)
  Record Buffer := mkBuffer { b_window : Q; b_tolerance : Q; b_ref : Q; b_lin : list (Z * V); b_ang : list (Z * V) }.

  (** yaml[key] = value *)
  Fixpoint ydict_set (m : list (string * yml)) (k : string) (v : yml) : list (string * yml) :=
    match m with
    | [] => [(k, v)]
    | (n, x) :: t => if String.eqb n k then (k, v) :: t else (n, x) :: ydict_set t k v
    end.

  (** LocalVelocityBuffer.cpp 178-183, 187-192 *)
  Definition vels_yaml (l : list (Z * V)) : yml :=
    YDict (fold_left (fun m tv => ydict_set m (fmt_time (fst tv)) (YT (fmt_vel (snd tv)))) l []).

  (** LocalVelocityBuffer.cpp 162-198 *)
  Definition to_yaml (b : Buffer) : yml :=
    YDict [("parameters", YDict [("max_time_window", fmt_num (b_window b)); ("tolerance_search_stamp", fmt_num (b_tolerance b))]);
           ("state", YDict (("reference_zero_time", put_stamp (b_ref b))
              :: (match b_lin b with [] => [] | l => [("linear_velocities", vels_yaml l)] end)
              ++ (match b_ang b with [] => [] | l => [("angular_velocities", vels_yaml l)] end)))].

  (** LocalVelocityBuffer.cpp 222-226, 232-236: entries read so far are kept on an exception *)
  Fixpoint read_vels (m : list (string * yml)) (acc : list (Z * V)) : list (Z * V) * bool :=
    match m with
    | [] => (acc, true)
    | (k, v) :: t =>
        match parse_time k, as_str v with
        | Some s, Some x => match parse_vel x with
                            | Some u => read_vels t (tm_set acc s u)
                            | None => (acc, false)
                            end
        | _, _ => (acc, false)
        end
    end.

  (** LocalVelocityBuffer.cpp 219-227, 229-237: cleared, then read if the section is there *)
  Definition read_section (m : list (string * yml)) (k : string) : list (Z * V) * bool :=
    match yfind m k with
    | None => ([], true)
    | Some (YDict e) => read_vels e []
    | Some _ => ([], false)
    end.

  Definition sub (y : yml) (k : string) : option yml := match y with YDict m => yfind m k | _ => None end.

  (** LocalVelocityBuffer.cpp 207-212 *)
  Definition read_params (m : list (string * yml)) (b : Buffer) : Buffer * bool :=
    match yfind m "parameters" with
    | None => (b, true)
    | Some p =>
        match match sub p "max_time_window" with Some v => as_num v | None => None end with
        | None => (b, false)
        | Some mw =>
            let b1 := mkBuffer mw (b_tolerance b) (b_ref b) (b_lin b) (b_ang b) in
            match match sub p "tolerance_search_stamp" with Some v => as_num v | None => None end with
            | None => (b1, false)
            | Some tl => (mkBuffer mw tl (b_ref b) (b_lin b) (b_ang b), true)
            end
        end
    end.

  (** LocalVelocityBuffer.cpp 214-238 *)
  Definition read_state (m : list (string * yml)) (b : Buffer) : Buffer * bool :=
    match yfind m "state" with
    | None => (b, true)
    | Some s =>
        match match sub s "reference_zero_time" with Some v => as_stamp v | None => None end with
        | None => (b, false)
        | Some r =>
            let sm := match s with YDict x => x | _ => [] end in
            let '(lin, ok1) := read_section sm "linear_velocities" in
            if ok1 then
              let '(ang, ok2) := read_section sm "angular_velocities" in
              (mkBuffer (b_window b) (b_tolerance b) r lin ang, ok2)
            else (mkBuffer (b_window b) (b_tolerance b) r lin (b_ang b), false)
        end
    end.

  (** LocalVelocityBuffer.cpp 200-239: the buffer afterwards, and whether it returned *)
  Definition from_yaml (y : yml) (b : Buffer) : Buffer * bool :=
    match y with
    | YDict m =>
        let '(b1, ok) := read_params m b in
        if ok then read_state m b1 else (b1, false)
    | _ => (b, false)
    end.
End VelYaml.
