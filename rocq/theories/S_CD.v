(** Specification of the elastic-net problem. Independent of the model. *)
From Coq Require Import Reals List.
From Verif Require Import Base Lin.
Open Scope R_scope.

(** Elastic-net objective in terms of the Gramians:
    0.5 b'Gb - h'b + lambda * sum over regularised j of (alpha |b_j| + (1-alpha)/2 b_j^2). *)
Definition enet_obj (J : nat) (G : mat) (h : vec) (lambda : R) (isreg : nat -> bool)
    (alpha : R) (b : vec) : R :=
  1 / 2 * quad J G b - dot J h b
  + lambda * bsum J (fun j => if isreg j then alpha * Rabs (b j) + (1 - alpha) / 2 * b j ^ 2 else 0).

(** Membership in the box; [None] is an infinite bound. *)
Definition above (lo : option R) (x : R) : Prop := match lo with Some l => l <= x | None => True end.
Definition below (up : option R) (x : R) : Prop := match up with Some u => x <= u | None => True end.
Definition in_box (J : nat) (lo up : nat -> option R) (b : vec) : Prop :=
  forall j, (j < J)%nat -> above (lo j) (b j) /\ below (up j) (b j).
(** The box is not empty. *)
Definition box_ok (J : nat) (lo up : nat -> option R) : Prop :=
  forall j, (j < J)%nat -> match lo j, up j with Some l, Some u => l <= u | _, _ => True end.

(** [b] is a global minimiser of the objective over the box. *)
Definition enet_minimiser J G h lambda isreg alpha lo up (b : vec) : Prop :=
  in_box J lo up b /\
  forall b', in_box J lo up b' ->
    enet_obj J G h lambda isreg alpha b <= enet_obj J G h lambda isreg alpha b'.

(** Exactly column [u] is not regularised; every column is regularised. *)
Definition only_unreg (J : nat) (isreg : nat -> bool) (u : nat) : Prop :=
  (u < J)%nat /\ forall j, (j < J)%nat -> (isreg j = false <-> j = u).
Definition all_reg (J : nat) (isreg : nat -> bool) : Prop :=
  forall j, (j < J)%nat -> isreg j = true.

(** The vector that is least squares on [u] alone. *)
Definition only_u (x : mat) (y : vec) (u : nat) : vec :=
  fun k => if Nat.eqb k u then y u / x u u else 0.

(** The ridge normal equations (G + lambda D) b = h, D marking the regularised columns. *)
Definition ridge_equations J (x : mat) (y : vec) (lambda : R) (isreg : nat -> bool) (b : vec) : Prop :=
  forall j, (j < J)%nat -> mvec J x b j + (if isreg j then lambda * b j else 0) = y j.
