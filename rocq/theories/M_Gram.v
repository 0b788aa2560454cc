(** Model of [src/ondil/gram.py].

    Arrays: a design matrix is a list of rows, a row is an index function; a
    weight or response vector is a list of reals. Real arithmetic instead of
    float64. Square roots are the real square root: the code is only modelled
    here for non-negative arguments (see [M_GramNan.v] for negative ones). *)
From Coq Require Import Reals List.
From Verif Require Import Base Lin Data.
Import ListNotations.
Open Scope R_scope.

(** gram.py:31-34 — [out[-1] = 1; for i in range(size-1, 0, -1): out[i-1] = out[i]*gamma].
    [out] is the already filled tail of the array, [k] the number of remaining
    loop iterations. *)
Fixpoint forget_loop (gamma : R) (k : nat) (out : list R) : list R :=
  match k with
  | O => out
  | S k' => forget_loop gamma k' (hd 0 out * gamma :: out)
  end.

(** gram.py:6-35 [init_forget_vector]. For [size = 0] and [forget <> 0] the code
    writes out of bounds ([out[-1]] of an empty array, unchecked under numba);
    the model returns the empty vector and the theorems require [size >= 1]. *)
Definition init_forget_vector (forget : R) (size : nat) : list R :=
  let gamma := 1 - forget in
  if Reqb gamma 1 then repeat 1 size
  else match size with
       | O => []
       | S k => forget_loop gamma k [1]
       end.

(** [(w * f) ** 0.5] — gram.py:61,92,159,191. *)
Definition root_weights (w f : list R) : list R := map sqrt (map2 Rmult w f).

(** [X * np.expand_dims(s, -1)] — every row multiplied by its scalar. *)
Definition scale_rows (X : list vec) (s : list R) : list vec :=
  map2 (fun (x : vec) c => (fun i => x i * c) : vec) X s.

(** [A.T @ B] for two matrices given by rows. *)
Definition mat_tmul (A B : list vec) : mat :=
  fun i j => lsum (map2 (fun a b : vec => a i * b j) A B).

(** [A.T @ v]. *)
Definition vec_tmul (A : list vec) (v : list R) : vec :=
  fun i => lsum (map2 (fun (a : vec) c => a i * c) A v).

(** gram.py:39-64 [init_gram]. *)
Definition init_gram (X : list vec) (w : list R) (forget : R) : mat :=
  let f := init_forget_vector forget (length X) in
  mat_tmul (scale_rows X (root_weights w f)) (scale_rows X (root_weights w f)).

(** gram.py:68-94 [init_y_gram]. The trailing axis of length one
    ([expand_dims]) is dropped. *)
Definition init_y_gram (X : list vec) (y w : list R) (forget : R) : vec :=
  let f := init_forget_vector forget (length X) in
  vec_tmul (scale_rows X (root_weights w f)) (map2 Rmult y (root_weights w f)).

(** gram.py:135-161 [update_gram]; [w] is the array of weights of the new rows.
    The first branch is taken for exactly one row. *)
Definition update_gram (gram : mat) (X : list vec) (forget : R) (w : list R) : mat :=
  match X, w with
  | [x], [w0] => fun i j => (1 - forget) * gram i j + w0 * outer x x i j
  | _, _ =>
      let batch_size := length X in
      let f := init_forget_vector forget batch_size in
      let weights := root_weights w f in
      fun i j => gram i j * (1 - forget) ^ batch_size
                 + mat_tmul (scale_rows X weights) (scale_rows X weights) i j
  end.

(** gram.py:165-193 [update_y_gram]. *)
Definition update_y_gram (gram : vec) (X : list vec) (y : list R) (forget : R) (w : list R) : vec :=
  match X, y, w with
  | [x], [y0], [w0] => fun i => (1 - forget) * gram i + w0 * (x i * y0)
  | _, _, _ =>
      let batch_size := length X in
      let f := init_forget_vector forget batch_size in
      fun i => gram i * (1 - forget) ^ batch_size
               + vec_tmul (scale_rows X (root_weights w f))
                          (map2 Rmult y (root_weights w f)) i
  end.

(** gram.py:196-205 [_update_inverted_gram] for one row [X] of length [p]. *)
Definition update_inverted_gram1 (p : nat) (gram : mat) (X : vec) (forget w : R) : mat :=
  let gamma := 1 - forget in
  let num := mmul p (mmul p (fun i j => w * gram i j) (outer X X)) gram in
  let den := gamma + dot p (fun j => bsum p (fun k => (w * X k) * gram k j)) X in
  fun i j => (1 / gamma) * (gram i j - num i j / den).

(** gram.py:208-235 [update_inverted_gram]: row by row, in order. For an empty
    batch the code fails on [w[0]]. The one-row branch and the loop perform the
    same step, so a single recursion covers both. *)
Fixpoint update_inverted_rows (p : nat) (gram : mat) (X : list vec) (forget : R) (w : list R) : mat :=
  match X, w with
  | x :: X', w0 :: w' =>
      update_inverted_rows p (update_inverted_gram1 p gram x forget w0) X' forget w'
  | _, _ => gram
  end.
Definition update_inverted_gram (p : nat) (gram : mat) (X : list vec) (forget : R) (w : list R)
  : res mat :=
  match X with
  | [] => Raise IndexError
  | _ => Ok (update_inverted_rows p gram X forget w)
  end.

(** gram.py:98-127 [init_inverted_gram]. [inv p G] stands for the pair
    [np.linalg.matrix_rank] / [np.linalg.inv]: [Some B] when the rank is full,
    [None] otherwise. It is a parameter; its assumed behaviour is
    [matinv_spec] in [S_Gram.v]. *)
Definition init_inverted_gram (inv : nat -> mat -> option mat)
    (p : nat) (X : list vec) (w : list R) (forget : R) : res mat :=
  match inv p (init_gram X w forget) with
  | Some B => Ok B
  | None => Raise ValueError
  end.

(** * Call histories (drivers used in theorem statements) *)

(** Histories: a first batch and further batches in arrival order. *)
Definition gram_history (f : R) (b0 : list obs) (bs : list (list obs)) : mat :=
  fold_left (fun G b => update_gram G (Xs b) f (ws b)) bs (init_gram (Xs b0) (ws b0) f).
Definition y_gram_history (f : R) (b0 : list obs) (bs : list (list obs)) : vec :=
  fold_left (fun h b => update_y_gram h (Xs b) (ys b) f (ws b)) bs
            (init_y_gram (Xs b0) (ys b0) (ws b0) f).

(** The divisor of one step of [_update_inverted_gram] (gram.py:203). *)
Definition inverted_divisor (p : nat) (gram : mat) (X : vec) (forget w : R) : R :=
  (1 - forget) + dot p (fun j => bsum p (fun k => (w * X k) * gram k j)) X.

(** History of the inverted Gramian. *)
Fixpoint inv_updates (p : nat) (f : R) (A : mat) (bs : list (list obs)) : res mat :=
  match bs with
  | [] => Ok A
  | b :: bs' => do A' <- update_inverted_gram p A (Xs b) f (ws b); inv_updates p f A' bs'
  end.
Definition inv_history inv p f b0 bs : res mat :=
  do A <- init_inverted_gram inv p (Xs b0) (ws b0) f; inv_updates p f A bs.

