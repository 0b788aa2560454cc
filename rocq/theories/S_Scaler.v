(** Specification of the scaler: discounted weighted moments of a stream. *)
From Coq Require Import Reals List.
From Verif Require Import Base Lin Data S_Gram.
Open Scope R_scope.

(** Total discounted weight, mean and variance of column [j]. *)
Definition wtotal (forget : R) (l : list obs) : R := dsum (1 - forget) ow l.
Definition wmean (forget : R) (l : list obs) (j : nat) : R :=
  dsum (1 - forget) (fun o => ow o * ox o j) l / wtotal forget l.
Definition wvar (forget : R) (l : list obs) (j : nat) : R :=
  dsum (1 - forget) (fun o => ow o * (ox o j - wmean forget l j) ^ 2) l / wtotal forget l.

(** Apply a row transformation to every observation. *)
Definition map_rows (f : vec -> vec) (l : list obs) : list obs :=
  map (fun o => mkobs (f (ox o)) (oy o) (ow o)) l.
