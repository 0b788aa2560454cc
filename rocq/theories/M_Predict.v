(** Model of the prediction methods of /repo/src/ondil/estimators/online_gamlss.py
    1379-1482 other than [predict_distribution_parameters] itself (which is
    [predict_parameters] in [M_GAMLSS]): [predict], [predict_median], [predict_quantile] and
    the options [what] and [return_contributions].

    [None] entries are NaN or infinite. A zero-dimensional or two-dimensional array of
    quantiles is not modelled. *)
From Coq Require Import Reals List Bool Arith String.
From Verif Require Import Base Lin Data M_Scaler M_State M_LM M_Equation M_GAMLSS M_Links M_DistTable M_Dist M_Scipy.
Import ListNotations.
Open Scope R_scope.
Open Scope st_scope.

Section Predict.
Context {M : Type} (c : gam_cfg M).

(** 1379-1392 [predict]; [mean] is the method of the distribution class. *)
Definition predict_mean (mean : vec -> res (option R)) (ncol : nat) (X : list vec) : st (gam M) (list (option R)) :=
  theta <-- predict_parameters c true ncol X;; lift (map_res mean theta).

(** 1394-1406 [predict_median]; no distribution class has a method [median]. *)
Definition predict_median (ncol : nat) (X : list vec) : st (gam M) (list (option R)) :=
  predict_parameters c true ncol X;;; raise AttributeError.

(** 1459-1482 [predict_quantile]. The argument is a number, a one-dimensional numpy array
    or a python list. *)
Inductive quantile_arg : Type := QNumber (q : R) | QArray (q : list R) | QList (q : list R).
Definition transpose {A} (default : A) (n : nat) (a : list (list A)) : list (list A) :=
  map (fun i => map (fun row => nth i row default) a) (seq 0 n).
Definition predict_quantile (q : quantile_arg) (ncol : nat) (X : list vec) : st (gam M) (list (list (option R))) :=
  theta <-- predict_parameters c true ncol X;;
  let ppf := d_ppf (o_dist c) in
  match q with
  | QArray l => ret (transpose None (List.length theta) (map (fun a => map (ppf a) theta) l))
  | QNumber a => ret (map (fun v => [v]) (map (ppf a) theta))
  | QList l => r <-- lift (broadcast ppf l theta);; ret (map (fun v => [v]) r)
  end.

(** 1408-1457: the options [what] and [return_contributions]. The contributions are one
    array per parameter. *)
Definition predict_what (what : string) (ncol : nat) (X : list vec) : st (gam M) (list vec) :=
  if String.eqb what "response" then predict_parameters c true ncol X
  else if String.eqb what "link" then predict_parameters c false ncol X
  else predict_parameters c false ncol X;;; raise ValueError.
Definition predict_contributions (what : string) (ncol : nat) (X : list vec) : st (gam M) (list vec * (nat -> list (list R))) :=
  pred <-- predict_what what ncol X;;
  o <-- read s_scaler;;
  match o with
  | None => raise NotFittedError
  | Some sc =>
      pr <-- read s_prep;;
      A <-- lift (arrays c pr ncol (map (scaler_transform sc) X));;
      w <-- read s_work;;
      ret (pred, fun q => let (k, rows) := A q in
                          map (fun x => map (fun j => x j * w_coef w q j) (seq 0 k)) rows)
  end.
End Predict.
