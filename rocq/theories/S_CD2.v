(** Specification: size of the off-diagonal part of a Gramian. *)
From Coq Require Import Reals List Arith.
From Verif Require Import Base Lin.
Open Scope R_scope.

(** Sum of the absolute entries of row [j] beside the diagonal. *)
Definition row_rest (J : nat) (G : mat) (j : nat) : R :=
  bsum J (fun k => if Nat.eqb k j then 0 else Rabs (G j k)).

(** Squared distance of two vectors of length [J]. *)
Definition sqdist (J : nat) (u v : vec) : R := bsum J (fun j => (u j - v j) ^ 2).
