(** Model of [src/ondil/utils.py:60-114] and [src/ondil/information_criteria.py].
    Real arithmetic. *)
From Coq Require Import Reals List Bool Arith.
From Verif Require Import Base.
Import ListNotations.
Open Scope R_scope.

(** [sys.maxsize] on 64-bit platforms. *)
Definition maxsize : R := 9223372036854775807.

(** utils.py:60-65. *)
Definition asymptotic_training_length (forget : R) : R :=
  if Reqb forget 0 then maxsize else 1 / forget.

(** utils.py:68-72; [n_obs] may be a real (a sum of sample weights). The power is
    the real power, for [forget < 1]. *)
Definition effective_training_length (forget n_obs : R) : R :=
  if Reqb forget 0 then n_obs else (1 - Rpower (1 - forget) n_obs) / forget.

(** utils.py:75-85 [_online_mean_update]. *)
Definition online_mean_update1 (avg value forget n_seen : R) : R :=
  let n_asymptotic := asymptotic_training_length forget in
  let n_eff := effective_training_length forget n_seen in
  let forget_scaled := forget * Rmax (n_asymptotic / n_eff) 1 in
  let diff := value - avg in
  let incr := forget_scaled * diff in
  if Rltb 0 forget_scaled then avg + incr else avg + diff / n_seen.

(** utils.py:88-114 [online_mean_update] for an array of values: the loop runs with
    [i = -size+1, ..., 0]; the remaining number of values after the current one is
    [-i]. A scalar is the same as an array of length one. *)
Fixpoint online_mean_update (avg : R) (values : list R) (forget n_seen : R) : R :=
  match values with
  | [] => avg
  | v :: rest =>
      online_mean_update (online_mean_update1 avg v forget (n_seen - INR (length rest)))
        rest forget n_seen
  end.

(** information_criteria.py:47 *)
Inductive criterion := aic | aicc | bic | hqc | max_ll.

(** information_criteria.py:77-95 [from_ll] for scalars. Logarithms are only
    meaningful for [n > 0] ([n > 1] for hqc). *)
Definition from_ll (c : criterion) (n p ll : R) : res R :=
  match c with
  | aic => Ok (- 2 * ll + p * 2)
  | aicc => if Reqb (n - p - 1) 0 then Raise ValueError
            else Ok (- 2 * ll + p * 2 * n / (n - p - 1))
  | bic => Ok (- 2 * ll + p * ln n)
  | hqc => Ok (- 2 * ll + p * 2 * ln (ln n))
  | max_ll => Ok (- ll)
  end.

(** information_criteria.py:54-75 [from_rss]. *)
Definition from_rss (c : criterion) (n p rss : R) : res R :=
  let constant_term := - n / 2 * (1 + ln (2 * PI)) in
  let log_likelihood := - n / 2 * ln (rss / n) + constant_term in
  from_ll c n p log_likelihood.

Fixpoint sequence {A} (l : list (res A)) : res (list A) :=
  match l with
  | [] => Ok []
  | r :: t => do a <- r; do t' <- sequence t; Ok (a :: t')
  end.

(** [from_ll] for arrays [p] and [ll]: the test [if n - p - 1 == 0] on an array with
    more than one element raises ValueError. *)
Definition from_ll_array (c : criterion) (n : R) (ps lls : list R) : res (list R) :=
  match c with
  | aicc => if (2 <=? length ps)%nat then Raise ValueError
            else sequence (map2 (from_ll c n) ps lls)
  | _ => sequence (map2 (from_ll c n) ps lls)
  end.

Definition from_rss_array (c : criterion) (n : R) (ps rsss : list R) : res (list R) :=
  let constant_term := - n / 2 * (1 + ln (2 * PI)) in
  from_ll_array c n ps (map (fun rss => - n / 2 * ln (rss / n) + constant_term) rsss).

(** [np.argmin]: index of the first minimum; an empty array raises ValueError.
    [i] is the index of the head of the rest, [(k, m)] the best so far. *)
Fixpoint argmin_loop (l : list R) (i k : nat) (m : R) : nat :=
  match l with
  | [] => k
  | x :: t => if Rltb x m then argmin_loop t (S i) i x else argmin_loop t (S i) k m
  end.
Definition argmin (l : list R) : res nat :=
  match l with [] => Raise ValueError | x :: t => Ok (argmin_loop t 1 0 x) end.

(** design_matrix.py:4-5 [add_intercept]: [np.hstack((np.ones((n, 1)), X))], rows as lists. *)
Definition add_intercept (X : list (list R)) : list (list R) :=
  map2 (@app R) (repeat [1] (length X)) X.

(** A running mean kept over a stream of arrays; [n] values have been seen before. *)
Fixpoint mean_stream (forget avg n : R) (chunks : list (list R)) : R :=
  match chunks with
  | [] => avg
  | c :: cs =>
      let n' := n + INR (length c) in
      mean_stream forget (online_mean_update avg c forget n') n' cs
  end.
