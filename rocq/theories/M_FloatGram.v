(** Model of one entry of the arrays of [gram.py] in binary64: entry (i, j) of the Gramian
    (columns i and j of X) or entry i of the y-Gramian (column i of X and the response).

    A row is a triple: value in the first column, value in the second, weight. [root] is
    [** 0.5] on float64 and [pw] is [** n] with an integer exponent; how well they round is
    left to the theorems. *)
From Coq Require Import ZArith List Bool Arith Permutation.
From Flocq Require Import Core BinarySingleNaN.
From Verif Require Import Base M_Float.
Import ListNotations.

Definition frow := (float * float * float)%type.
Definition rx (r : frow) : float := fst (fst r).
Definition ry (r : frow) : float := snd (fst r).
Definition rw (r : frow) : float := snd r.

(** The possible values of an entry of [A.T @ B] (numba calls the BLAS): the sum over the
    rows may be taken in any order and grouping, may start from zero, and a product may be
    rounded before it is added or fused with the addition. *)
Inductive dot_value : list (float * float) -> float -> Prop :=
| dv_zero : dot_value [] (fint 0)
| dv_mul a b : dot_value [(a, b)] (fmul a b)
| dv_add l1 l2 v1 v2 : dot_value l1 v1 -> dot_value l2 v2 -> dot_value (l1 ++ l2) (fadd v1 v2)
| dv_fma a b l v : dot_value l v -> dot_value ((a, b) :: l) (Bfma mode_NE a b v)
| dv_perm l l' v : Permutation l l' -> dot_value l v -> dot_value l' v.

Section Gram.
Variable root : float -> float.
Variable pw : float -> nat -> float.

(** gram.py:60-63, 158-160: [X * np.expand_dims((w * f) ** 0.5, -1)], the two columns; for
    the y-Gramian (90-93, 189-191) the second column is [y * (w * f) ** 0.5]. *)
Definition fscaled (forget : float) (rows : list frow) : list (float * float) :=
  map (fun rf => let r := root (fmul (rw (fst rf)) (snd rf)) in (fmul (rx (fst rf)) r, fmul (ry (fst rf)) r))
    (combine rows (fforget_vector forget (length rows))).

(** gram.py:39-64 [init_gram], gram.py:68-94 [init_y_gram]: [v] is a possible value of the entry. *)
Definition finit_gram (forget : float) (rows : list frow) (v : float) : Prop :=
  dot_value (fscaled forget rows) v.

(** gram.py:135-161 [update_gram], gram.py:165-193 [update_y_gram]. *)
Definition fupdate_gram (forget : float) (g : float) (rows : list frow) (v : float) : Prop :=
  match rows with
  | [r] => v = fadd (fmul (fsub (fint 1) forget) g) (fmul (rw r) (fmul (rx r) (ry r)))
  | _ => exists d, dot_value (fscaled forget rows) d /\
           v = fadd (fmul g (pw (fsub (fint 1) forget) (length rows))) d
  end.

(** The entry after a fit on [rows] and updates with [bs]. *)
Inductive fgram_run (forget : float) : list (list frow) -> float -> Prop :=
| fg_fit rows v : finit_gram forget rows v -> fgram_run forget [rows] v
| fg_update bs rows g v : fgram_run forget bs g -> fupdate_gram forget g rows v ->
    fgram_run forget (bs ++ [rows]) v.
End Gram.
