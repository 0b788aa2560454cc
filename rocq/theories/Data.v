(** Data streams: observations and batches. Used by models and specifications. *)
From Coq Require Import Reals List.
From Verif Require Import Base Lin.
Import ListNotations.
Open Scope R_scope.

(** One observation: covariate row, response, sample weight. *)
Record obs := mkobs { ox : vec; oy : R; ow : R }.
Definition Xs (l : list obs) : list vec := map ox l.
Definition ys (l : list obs) : list R := map oy l.
Definition ws (l : list obs) : list R := map ow l.

Definition weights_nonneg (l : list obs) : Prop := Forall (fun o => 0 <= ow o) l.
Definition nonempty {A} (l : list A) : Prop := l <> [].
