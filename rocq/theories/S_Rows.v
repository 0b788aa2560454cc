(** Specifications for the order of rows and for sample weights as counts. *)
From Coq Require Import Reals List Permutation.
From Verif Require Import Base Lin Data M_Gram M_CD M_Path M_Scaler M_Utils M_LM S_LM.
Import ListNotations.
Open Scope R_scope.

(** The same weighted data: rows may be reordered, a row may be split into two equal rows
    that share its weight, and rows of weight zero may be dropped. *)
Inductive same_data : list obs -> list obs -> Prop :=
| sd_order l l' : Permutation l l' -> same_data l l'
| sd_split x y w w' l : same_data (mkobs x y (w + w') :: l) (mkobs x y w :: mkobs x y w' :: l)
| sd_zero x y l : same_data (mkobs x y 0 :: l) l
| sd_sym l l' : same_data l l' -> same_data l' l
| sd_trans l m n : same_data l m -> same_data m n -> same_data l n.
Definition same_batch (d d' : batch) : Prop := b_p d = b_p d' /\ same_data (b_rows d) (b_rows d').
(** The same rows in another order. *)
Definition reordered (d d' : batch) : Prop := b_p d = b_p d' /\ Permutation (b_rows d) (b_rows d').
(** A batch that the estimator accepts for a first fit or for an update. *)
Definition enough_rows (n : nat) (d : batch) : Prop := (n <= length (b_rows d))%nat.

(** Every row with the count [k] as its weight, and the same row [k] times. *)
Definition counted (l : list (vec * R * nat)) : list obs := map (fun r => mkobs (fst (fst r)) (snd (fst r)) (INR (snd r))) l.
Definition repeated (l : list (vec * R * nat)) : list obs :=
  concat (map (fun r => repeat (mkobs (fst (fst r)) (snd (fst r)) 1) (snd r)) l).

(** Witness for the lasso: the rows (1, -1) once and (1, 1) three times. *)
Definition r_en : en_cfg := mk_en 1 2 (1 / 5) 0 previous_lambda previous_lambda false None None 0 10.
Definition r_c : lm_cfg (en_cfg * nat) := mk_lmc _ (Ok (r_en, 0%nat)) false 0 ScaleNone false false aic.
Definition r_rows : list (vec * R * nat) := [((fun _ => 1), -1, 1%nat); ((fun _ => 1), 1, 3%nat)].

(** Witness for forgetting: OLS without intercept, forget = 1/2. *)
Definition o_c : lm_cfg unit := mk_lmc unit (Ok tt) true (1 / 2) ScaleNone false false aic.

(** Methods that keep the Gramian itself: all but OLS. *)
Definition keeps_gramian {M} (ops : method_ops M) : Prop :=
  (forall p X w f, op_init_x ops p X w f = Ok (init_gram X w f)) /\
  (forall p g X f w, op_update_x ops p g X f w = Ok (update_gram g X f w)).
