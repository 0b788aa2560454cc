(** An inversion routine with the assumed behaviour exists (by classical
    choice), so [matinv_spec] is satisfiable. Only used to show non-vacuity. *)
From Coq Require Import Reals List ClassicalEpsilon.
From Verif Require Import Base Lin Data S_Gram.

Definition choice_inv (p : nat) (G : mat) : option mat :=
  match excluded_middle_informative (exists B, is_inverse p G B) with
  | left H => Some (proj1_sig (constructive_indefinite_description _ H))
  | right _ => None
  end.

Lemma choice_inv_spec : matinv_spec choice_inv.
Proof.
  split.
  - intros p G B. unfold choice_inv.
    destruct (excluded_middle_informative _) as [H|H]; [|discriminate].
    intros E. inversion E. apply (proj2_sig (constructive_indefinite_description _ H)).
  - intros p G H. unfold choice_inv.
    destruct (excluded_middle_informative _) as [H'|H']; [eexists; reflexivity | contradiction].
Qed.
