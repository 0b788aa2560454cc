(** Library: methods of a python object. A method reads and writes the attributes of
    the object (the state) and returns a value or raises; attributes written before an
    exception stay written. No code of the project is modelled here. *)
From Verif Require Import Base.

Definition st (S A : Type) : Type := S -> S * res A.
Definition ret {S A} (a : A) : st S A := fun s => (s, Ok a).
Definition raise {S A} (e : exn) : st S A := fun s => (s, Raise e).
Definition bnd {S A B} (m : st S A) (k : A -> st S B) : st S B :=
  fun s => match m s with (s', Ok a) => k a s' | (s', Raise e) => (s', Raise e) end.
(** Reading an attribute that was never set raises AttributeError. *)
Definition read {S A} (f : S -> option A) : st S A :=
  fun s => match f s with Some a => (s, Ok a) | None => (s, Raise AttributeError) end.
Definition write {S} (f : S -> S) : st S unit := fun s => (f s, Ok tt).
Definition lift {S A} (r : res A) : st S A := fun s => (s, r).

Declare Scope st_scope.
Delimit Scope st_scope with st.
Notation "x <-- m ;; k" := (bnd m (fun x => k))
  (at level 100, m at level 99, k at level 200, right associativity) : st_scope.
Notation "m ;;; k" := (bnd m (fun _ => k))
  (at level 100, k at level 200, right associativity) : st_scope.
