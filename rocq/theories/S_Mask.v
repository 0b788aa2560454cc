(** Specification for C133: rows masked by weight zero. *)
From Coq Require Import Reals List.
From Verif Require Import Base Data M_Scaler M_Utils M_LM S_LM.
Import ListNotations.
Open Scope R_scope.

(** Every row has weight zero. *)
Definition masked (l : list obs) : Prop := Forall (fun o => ow o = 0) l.

(** One column without intercept: two rows, a masked row, and the row that follows. *)
Definition w133_b0 : batch := mk_batch 1 [row1 1 0; row1 1 0].
Definition w133_mask : batch := mk_batch 1 [mkobs (fun _ => 1) 50 0].
Definition w133_next : batch := mk_batch 1 [row1 1 1].

(** Least squares with forgetting rate 1/2, no scaling, no intercept. *)
Definition w133_c : lm_cfg unit := mk_lmc unit (Ok tt) true (1 / 2) ScaleNone false false bic.
