(** Specification vocabulary for C15. *)
From Verif Require Import Base BitfieldModel.

Inductive BitOp : Type := OpAssign (n : nat) (dense : bool) | OpMark (i : nat).

(** Ids marked since the last initialisation; [ops] in program order. *)
Fixpoint marked_since (ops : list BitOp) (acc : list nat) : list nat :=
  match ops with
  | [] => acc
  | OpAssign _ _ :: r => marked_since r []
  | OpMark i :: r => marked_since r (i :: acc)
  end.
(** Current capacity: None when sparse. *)
Fixpoint capacity (ops : list BitOp) (c : option nat) : option nat :=
  match ops with
  | [] => c
  | OpAssign n d :: r => capacity r (if d then Some n else None)
  | OpMark _ :: r => capacity r c
  end.
(** Every mark is within the capacity at that time. *)
Fixpoint in_range (ops : list BitOp) (c : option nat) : Prop :=
  match ops with
  | [] => True
  | OpAssign n d :: r => in_range r (if d then Some n else None)
  | OpMark i :: r => (forall n, c = Some n -> i < n) /\ in_range r c
  end.

Fixpoint bits_run (ops : list BitOp) (b : BitField) : res BitField :=
  match ops with
  | [] => Ok b
  | OpAssign n d :: r => bits_run r (bits_assign n d b)
  | OpMark i :: r => let* b' := bits_mark b i in bits_run r b'
  end.
