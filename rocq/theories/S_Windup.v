(** Specification for C131: how much of the discounted past bears on a direction of the coefficients. *)
From Coq Require Import Reals List.
From Verif Require Import Base Lin Data S_Gram M_LM S_LM.
Import ListNotations.
Open Scope R_scope.

(** Discounted weight of the rows in which the direction [u] of the regression columns is active. *)
Definition evidence (forget : R) (icpt : bool) (cols : nat) (u : vec) (l : list obs) : R :=
  dsum (1 - forget) (fun o => ow o * (dot cols (ox (regressors icpt o)) u) ^ 2) l.
(** The direction [u] is active in no row. *)
Definition unseen (icpt : bool) (cols : nat) (u : vec) (l : list obs) : Prop :=
  Forall (fun o => dot cols (ox (regressors icpt o)) u = 0) l.
(** The regression column [k] never overlaps with another one, like the indicator of a category. *)
Definition separate (icpt : bool) (cols k : nat) (l : list obs) : Prop :=
  Forall (fun o => forall j, (j < cols)%nat -> j <> k ->
    ox (regressors icpt o) k * ox (regressors icpt o) j = 0) l.
(** Discounted weighted mean of the responses per unit of the regression column [k]: for a
    category, the mean response of its rows. *)
Definition is_column_mean (forget : R) (icpt : bool) (k : nat) (l : list obs) (m : R) : Prop :=
  let x o := ox (regressors icpt o) k in
  0 < dsum (1 - forget) (fun o => ow o * x o ^ 2) l /\
  m = dsum (1 - forget) (fun o => ow o * x o * oy o) l / dsum (1 - forget) (fun o => ow o * x o ^ 2) l.
