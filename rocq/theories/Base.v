(** Common vocabulary of the model.  No code of /repo is modelled here. *)
From Coq Require Export List Arith ZArith NArith QArith Bool Lia.
Export ListNotations.
Open Scope nat_scope.

(** Outcome of a C++ call: a value, a C++ exception (every ASSERT_ / THROW_EXCEPTION
    of /repo becomes [Throw]), or undefined behaviour (an access the C++ standard
    gives no meaning to becomes [UB]). *)
Inductive res (A : Type) : Type :=
| Ok (a : A)
| Throw
| UB.
Arguments Ok {A} a.
Arguments Throw {A}.
Arguments UB {A}.

Definition rbind {A B} (x : res A) (f : A -> res B) : res B :=
  match x with Ok a => f a | Throw => Throw | UB => UB end.

Notation "'let*' x ':=' e 'in' f" := (rbind e (fun x => f))
  (at level 200, x pattern, e at level 100, f at level 200, right associativity).

(** [a < b] on rationals, as the C++ comparison of two finite doubles. *)
Definition Qltb (a b : Q) : bool := negb (Qle_bool b a).

(** Update of the [i]-th element of a list (no effect when out of range). *)
Fixpoint upd {A} (l : list A) (i : nat) (x : A) : list A :=
  match l, i with
  | [], _ => []
  | _ :: t, O => x :: t
  | h :: t, S j => h :: upd t j x
  end.
