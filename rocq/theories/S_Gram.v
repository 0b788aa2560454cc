(** Specifications for the Gramian and least-squares properties. Nothing here
    refers to the model. *)
From Coq Require Import Reals List.
From Verif Require Import Base Lin Data.
Import ListNotations.
Open Scope R_scope.

(** Discounted sum over a stream, oldest observation first: an observation
    followed by [k] later ones has weight [g ^ k]. *)
Fixpoint dsum {A} (g : R) (f : A -> R) (l : list A) : R :=
  match l with
  | [] => 0
  | o :: t => g ^ length t * f o + dsum g f t
  end.

(** Discounted weighted second moments of a stream. *)
Definition gram_spec (forget : R) (l : list obs) : mat :=
  fun i j => dsum (1 - forget) (fun o => ow o * ox o i * ox o j) l.
Definition ygram_spec (forget : R) (l : list obs) : vec :=
  fun i => dsum (1 - forget) (fun o => ow o * ox o i * oy o) l.

(** Discounted weighted squared error of a coefficient vector. *)
Definition wls_loss (p : nat) (forget : R) (l : list obs) (b : vec) : R :=
  dsum (1 - forget) (fun o => ow o * (oy o - dot p (ox o) b) ^ 2) l.

(** Assumed behaviour of [np.linalg.matrix_rank] followed by [np.linalg.inv] in
    exact arithmetic: an inverse is returned exactly when there is one. *)
Definition matinv_spec (inv : nat -> mat -> option mat) : Prop :=
  (forall p G B, inv p G = Some B -> is_inverse p G B) /\
  (forall p G, (exists B, is_inverse p G B) -> exists B, inv p G = Some B).
