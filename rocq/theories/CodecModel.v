(** Byte streams and the MRPT archive primitives used by the serializers of /repo.
    Everything in this file is external code (mrpt::serialization::CArchive,
    stl_serialization.h, optional_serialization.h), not in /repo: the formats below are the
    assumed ones.  A reader that needs more bytes than available throws, as CArchive does. *)
From Coq Require Import String Ascii.
From Verif Require Import Base.
Open Scope N_scope.

Definition stream : Type := list N.     (* bytes, each below 256 *)
Definition reader (A : Type) : Type := stream -> res (A * stream).
Definition rret {A} (a : A) : reader A := fun s => Ok (a, s).
Definition rfail {A} : reader A := fun _ => Throw.
Definition rdbind {A B} (m : reader A) (f : A -> reader B) : reader B :=
  fun s => match m s with Ok (a, s') => f a s' | Throw => Throw | UB => UB end.
Notation "'read' x ':=' e 'in' f" := (rdbind e (fun x => f))
  (at level 200, x pattern, e at level 100, f at level 200, right associativity).
Definition guard (b : bool) : reader unit := if b then rret tt else rfail.

(** A wire format: writer, reader, and the values it can represent. *)
Record codec (A : Type) : Type := mkCodec { enc : A -> stream; dec : reader A; good : A -> Prop }.
Arguments enc {A}. Arguments dec {A}. Arguments good {A}.

(** unsigned integers, little endian, k bytes *)
Fixpoint enc_le (k : nat) (n : N) : stream :=
  match k with O => [] | S k' => (n mod 256) :: enc_le k' (n / 256) end.
Definition get_byte : reader N := fun s => match s with [] => Throw | b :: r => Ok (b, r) end.
Fixpoint dec_le (k : nat) : reader N :=
  match k with
  | O => rret 0
  | S k' => read b := get_byte in read n := dec_le k' in rret (b + 256 * n)
  end.
Definition uint (k : nat) : codec N := mkCodec N (enc_le k) (dec_le k) (fun n => n < 256 ^ N.of_nat k).
Definition u8 := uint 1.
Definition u32 := uint 4.
Definition u64 := uint 8.
(** double: its 64-bit pattern *)
Definition f64 := uint 8.
Definition bool_c : codec bool :=
  mkCodec bool (fun b => [if b then 1 else 0]) (read b := get_byte in rret (negb (b =? 0))) (fun _ => True).

(** n elements in sequence *)
Fixpoint dec_n {A} (d : reader A) (n : nat) : reader (list A) :=
  match n with
  | O => rret []
  | S n' => read a := d in read l := dec_n d n' in rret (a :: l)
  end.
Definition enc_all {A} (e : A -> stream) (l : list A) : stream := List.concat (map e l).
(** uint32_t count followed by the elements *)
Definition counted {A} (c : codec A) : codec (list A) :=
  mkCodec (list A)
    (fun l => enc u32 (N.of_nat (length l)) ++ enc_all (enc c) l)
    (read n := dec u32 in dec_n (dec c) (N.to_nat n))
    (fun l => N.of_nat (length l) < 2 ^ 32 /\ Forall (good c) l).
(** std::string: uint32_t length, characters *)
Definition string_c : codec (list N) := counted (mkCodec N (fun b => [b]) get_byte (fun _ => True)).
Definition str (s : string) : list N := map N_of_ascii (list_ascii_of_string s).
Definition list_N_eqb (a b : list N) : bool := if list_eq_dec N.eq_dec a b then true else false.
Definition expect_str (s : list N) : reader unit := read x := dec string_c in guard (list_N_eqb x s).

(** std::vector<T>: "std::vector", type name, count, elements *)
Definition vec {A} (tname : string) (c : codec A) : codec (list A) :=
  mkCodec (list A)
    (fun l => enc string_c (str "std::vector") ++ enc string_c (str tname) ++ enc (counted c) l)
    (read _ := expect_str (str "std::vector") in read _ := expect_str (str tname) in dec (counted c))
    (good (counted c)).
(** pairs *)
Definition pair_c {A B} (a : codec A) (b : codec B) : codec (A * B) :=
  mkCodec (A * B) (fun p => enc a (fst p) ++ enc b (snd p))
    (read x := dec a in read y := dec b in rret (x, y)) (fun p => good a (fst p) /\ good b (snd p)).
(** std::map<K,V>: "std::map", type names, count, pairs in key order.  The map itself is the
    list of its entries in key order (reading inserts them one by one: same list for a list
    written from a map). *)
Definition map_c {A B} (ka kb : string) (a : codec A) (b : codec B) : codec (list (A * B)) :=
  mkCodec (list (A * B))
    (fun l => enc string_c (str "std::map") ++ enc string_c (str ka) ++ enc string_c (str kb) ++ enc (counted (pair_c a b)) l)
    (read _ := expect_str (str "std::map") in read _ := expect_str (str ka) in read _ := expect_str (str kb) in
     dec (counted (pair_c a b)))
    (good (counted (pair_c a b))).
(** std::optional<T> *)
Definition opt_c {A} (tname : string) (c : codec A) : codec (option A) :=
  mkCodec (option A)
    (fun o => enc string_c (str "std::optional") ++ enc string_c (str tname) ++
              match o with None => enc bool_c false | Some a => enc bool_c true ++ enc c a end)
    (read _ := expect_str (str "std::optional") in read _ := expect_str (str tname) in
     read b := dec bool_c in if b : bool then read a := dec c in rret (Some a) else rret None)
    (fun o => match o with None => True | Some a => good c a end).

(** CSerializable objects: class name, version byte, the fields, end flag 0x88.
    [body v] reads the fields written by version v. *)
Definition write_object (cls : string) (version : N) (fields : stream) : stream :=
  enc string_c (str cls) ++ enc u8 version ++ fields ++ [136].
Definition read_object {A} (cls : string) (body : N -> reader A) : reader A :=
  read _ := expect_str (str cls) in read v := dec u8 in read a := body v in
  read e := get_byte in read _ := guard (e =? 136) in rret a.

(** A format that loses nothing: what was written is read back, whatever follows; reading
    looks only at its own bytes; no undefined behaviour on any bytes. *)
Definition reads_back {A} (w : A -> stream) (rd : reader A) (ok : A -> Prop) : Prop :=
  forall a rest, ok a -> rd (w a ++ rest) = Ok (a, rest).
Definition local_reader {A} (rd : reader A) : Prop :=
  forall s a r t, rd s = Ok (a, r) -> rd (s ++ t) = Ok (a, r ++ t).
Definition safe_reader {A} (rd : reader A) : Prop := forall s, rd s <> UB.
Definition codec_ok {A} (c : codec A) : Prop :=
  reads_back (enc c) (dec c) (good c) /\ local_reader (dec c) /\ safe_reader (dec c).
