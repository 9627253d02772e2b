(** Model of pointcloud_sanity_check: mp2p_icp_map/src/pointcloud_sanity_check.cpp 27-76.

    Simplifications: a cloud is its class and buffers; warnings are kept as (channel, length found, length expected). *)
From Coq Require Import String.
From Verif Require Import Base.

Inductive SCloud :=
| XYZIRT (xyz : list (Q * Q * Q)) (intensity : list Q) (ring : list Z) (time : list Q)  (* CPointsMapXYZIRT *)
| XYZI (xyz : list (Q * Q * Q)) (intensity : option (list Q))  (* CPointsMapXYZI; [None]: a null buffer pointer *)
| XYZ (xyz : list (Q * Q * Q)).  (* any other CPointsMap *)

(** CPointsMap::size() *)
Definition sc_size (c : SCloud) : nat := List.length match c with XYZIRT p _ _ _ => p | XYZI p _ => p | XYZ p => p end.

(** CPointsMapXYZIRT::hasIntensityField(), hasRingField(), hasTimeField(): the buffer is not empty *)
Definition has_field {A} (l : list A) : bool := match l with [] => false | _ => true end.

Definition Warning := (string * nat * nat)%type.
(** one of the blocks at lines 34-43, 44-52, 53-61, 65-73 *)
Definition check_channel {A} (present : bool) (l : list A) (n : nat) (name : string) (print_warnings : bool) (st : bool * list Warning) : bool * list Warning :=
  if present && negb (Nat.eqb (List.length l) n)
  then (false, if print_warnings then (snd st ++ [(name, List.length l, n)])%list else snd st)
  else st.

Definition sanity_check (c : SCloud) (print_warnings : bool) : bool * list Warning :=
  let n := sc_size c in
  match c with
  | XYZIRT _ i r t =>
    let st := check_channel (has_field i) i n "Intensity" print_warnings (true, []) in
    let st := check_channel (has_field r) r n "Ring" print_warnings st in
    check_channel (has_field t) t n "Timestamp" print_warnings st
  | XYZI _ (Some i) => check_channel true i n "Intensity" print_warnings (true, [])
  | XYZI _ None => (true, [])
  | XYZ _ => (true, [])
  end.
