(** Model of [update_gram] (gram.py:135-161) with the NaN that float64 square
    roots of negative numbers produce: [None] is NaN. Only this source of NaN is
    represented. *)
From Coq Require Import Reals List.
From Verif Require Import Base Lin Data M_Gram.
Import ListNotations.
Open Scope R_scope.

(** [x ** 0.5] for a float64 [x]: NaN for negative [x]. *)
Definition sqrt_nan (x : R) : option R := if Rltb x 0 then None else Some (sqrt x).

(** NaN propagates through sums and products. *)
Definition onan2 (f : R -> R -> R) (a b : option R) : option R :=
  match a, b with Some x, Some y => Some (f x y) | _, _ => None end.

(** One entry of [(X * weights).T @ (X * weights)] (gram.py:160) where row [n]
    is multiplied by [sqrt_nan s_n]. *)
Fixpoint batch_entry_nan (X : list vec) (s : list R) (i j : nat) : option R :=
  match X, s with
  | x :: X', c :: s' =>
      onan2 Rplus
        (onan2 Rmult (onan2 Rmult (Some (x i)) (sqrt_nan c))
                     (onan2 Rmult (Some (x j)) (sqrt_nan c)))
        (batch_entry_nan X' s' i j)
  | _, _ => Some 0
  end.

(** gram.py:135-161 [update_gram], one entry of the result. *)
Definition update_gram_nan (gram : mat) (X : list vec) (forget : R) (w : list R) (i j : nat)
  : option R :=
  match X, w with
  | [x], [w0] => Some ((1 - forget) * gram i j + w0 * outer x x i j)
  | _, _ =>
      let batch_size := length X in
      let f := init_forget_vector forget batch_size in
      onan2 Rplus (Some (gram i j * (1 - forget) ^ batch_size))
                  (batch_entry_nan X (map2 Rmult w f) i j)
  end.
