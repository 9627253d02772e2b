(** Model of mp2p_icp::pointcloud_bitfield_t (and of MatchState, which holds two).
    Source: /repo/mp2p_icp_map/include/mp2p_icp/pointcloud_bitfield.h *)
From Verif Require Import Base.

(** pointcloud_bitfield.h:46-92 DenseOrSparseBitField: std::optional<std::vector<bool>>
    and std::set<uint64_t> (as a list of the inserted ids). *)
Record BitField : Type := mkBits { dense_ : option (list bool); sparse_ : list nat }.

(** line 49, default constructor *)
Definition bits_default : BitField := mkBits None [].

(** lines 51-67 *)
Definition bits_assign (numElements : nat) (dense : bool) (b : BitField) : BitField :=
  if dense then mkBits (Some (repeat false numElements)) []
  else mkBits None [].

(** lines 69-76; vector<bool>::operator[] has no bounds check *)
Definition bits_get (b : BitField) (id : nat) : res bool :=
  match dense_ b with
  | Some v => match nth_error v id with Some x => Ok x | None => UB end
  | None => Ok (existsb (Nat.eqb id) (sparse_ b))
  end.

(** lines 77-87 *)
Definition bits_mark (b : BitField) (id : nat) : res BitField :=
  match dense_ b with
  | Some v => if Nat.ltb id (length v) then Ok (mkBits (Some (upd v id true)) (sparse_ b)) else UB
  | None => Ok (mkBits None (id :: sparse_ b))
  end.

(** std::map<layer_name_t, DenseOrSparseBitField> (line 96); names are numbers here.
    [at] throws std::out_of_range, [[]] creates a default element. *)
Definition LayerBits := list (nat * BitField).
Fixpoint lb_find (m : LayerBits) (k : nat) : option BitField :=
  match m with [] => None | (k', v) :: r => if Nat.eqb k' k then Some v else lb_find r k end.
Definition lb_at (m : LayerBits) (k : nat) : res BitField :=
  match lb_find m k with Some v => Ok v | None => Throw end.
Fixpoint lb_set (m : LayerBits) (k : nat) (v : BitField) : LayerBits :=
  match m with
  | [] => [(k, v)]
  | (k', v') :: r => if Nat.eqb k' k then (k, v) :: r else (k', v') :: lb_set r k v
  end.
Definition lb_get_or_default (m : LayerBits) (k : nat) : BitField :=
  match lb_find m k with Some v => v | None => bits_default end.

(** What initialize_from() looks at in each layer of the map: None for a null pointer,
    Some None for a map without nearest-neighbour interface, else the number of
    indices and whether they are contiguous indices. *)
Definition LayerInfo := option (option (nat * bool)).

(** lines 101-126, point layers only (lines and planes are plain assign(), lines 128-132). *)
Fixpoint init_layers (pc : list (nat * LayerInfo)) (m : LayerBits) : res LayerBits :=
  match pc with
  | [] => Ok m
  | (name, None) :: _ => Throw
  | (name, Some None) :: rest => init_layers rest m
  | (name, Some (Some (n, d))) :: rest =>
    init_layers rest (lb_set m name (bits_assign n d (lb_get_or_default m name)))
  end.
Definition bits_initialize_from (pc : list (nat * LayerInfo)) (m : LayerBits) : res LayerBits :=
  let* m' := init_layers pc m in
  Ok (filter (fun kv => existsb (fun kl => Nat.eqb (fst kl) (fst kv)) pc) m').
