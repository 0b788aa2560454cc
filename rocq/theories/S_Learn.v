(** Specifications: what an update does to a least-squares model, and how it forgets. *)
From Coq Require Import Reals List.
From Verif Require Import Base Lin Data S_Gram M_LM S_LM.
Import ListNotations.
Open Scope R_scope.

(** Weighted squared error of predictions for the rows of a batch, rows discounted by their age
    ([forget = 0]: the plain weighted squared error). *)
Definition batch_error (forget : R) (l : list obs) (pred : list R) : R :=
  dsum (1 - forget) (fun ov => ow (fst ov) * (oy (fst ov) - snd ov) ^ 2) (combine l pred).

(** Rows with weight, target and regressors of size at most [B]. *)
Definition bounded_rows (p : nat) (B : R) (l : list obs) : Prop :=
  Forall (fun o => 0 <= ow o <= B /\ Rabs (oy o) <= B /\ forall j, (j < p)%nat -> Rabs (ox o j) <= B) l.

(** The rows determine every direction of the coefficient vector, with strength [lam]. *)
Definition exciting (p : nat) (forget lam : R) (l : list obs) : Prop :=
  forall v, lam * dot p v v <= dsum (1 - forget) (fun o => ow o * (dot p (ox o) v) ^ 2) l.
