(** Model of [src/ondil/estimators/online_linear_model.py] ([OnlineLinearModel]) with
    [partial_fit] from [src/ondil/base/estimator.py:19-46] and the estimation methods of
    [src/ondil/methods/]. [online_lasso.py] is this class with a [LassoPath] method.
    Real arithmetic; parameter validation by [_fit_context] is in [M_Params] (here the
    parameters are assumed to be of the declared types). *)
From Coq Require Import Reals List Bool Arith.
From Verif Require Import Base Lin Data M_Gram M_OLS M_CD M_Path M_Ridge M_Scaler M_Utils M_State.
Import ListNotations.
Open Scope R_scope.
Open Scope st_scope.

(** The interface of [base/estimation_method.py:4-48]. [M] is the state of the method object; a
    path is the list of its rows. [init_y_gram] and [update_y_gram] are the functions of
    gram.py in all methods. *)
Record method_ops (M : Type) := mk_ops {
  op_path_based : bool;
  op_init_x : nat -> list vec -> list R -> R -> res mat;
  op_update_x : nat -> mat -> list vec -> R -> list R -> res mat;
  op_fit_path : M -> nat -> mat -> vec -> (nat -> bool) -> res (M * list vec);
  op_update_path : M -> nat -> mat -> vec -> list vec -> (nat -> bool) -> res (M * list vec);
  op_fit_beta : M -> nat -> mat -> vec -> (nat -> bool) -> res (M * vec);
  op_update_beta : M -> nat -> mat -> vec -> vec -> (nat -> bool) -> res (M * vec)
}.
Arguments op_path_based {M}. Arguments op_init_x {M}. Arguments op_update_x {M}.
Arguments op_fit_path {M}. Arguments op_update_path {M}.
Arguments op_fit_beta {M}. Arguments op_update_beta {M}.

(** recursive_least_squares.py:20-74; the path methods are not implemented (45-57). *)
Definition ols_ops (inv : nat -> mat -> option mat) : method_ops unit :=
  {| op_path_based := false;
     op_init_x := fun p X w forget => init_inverted_gram inv p X w forget;
     op_update_x := fun p g X forget w => update_inverted_gram p g X forget w;
     op_fit_path := fun _ _ _ _ _ => Raise NotImplementedErr;
     op_update_path := fun _ _ _ _ _ _ => Raise NotImplementedErr;
     op_fit_beta := fun m p x y _ => Ok (m, ols_beta p x y);
     op_update_beta := fun m p x y _ _ => Ok (m, ols_beta p x y) |}.

(** elasticnet.py:116-186. The random visiting orders of the [k]-th call are [perms k]. *)
Definition en_ops (perms : nat -> nat -> nat -> list nat) : method_ops (en_cfg * nat) :=
  {| op_path_based := true;
     op_init_x := fun p X w forget => Ok (init_gram X w forget);
     op_update_x := fun p g X forget w => Ok (update_gram g X forget w);
     op_fit_path := fun m p x y isreg =>
       do r <- fit_beta_path (fst m) (perms (snd m)) p x y isreg;
       Ok ((fst r, S (snd m)), map (snd r) (seq 0 (en_n (fst r))));
     op_update_path := fun m p x y path isreg =>
       do P <- update_beta_path (fst m) (perms (snd m)) p x y (fun k => nth k path (fun _ => 0)) isreg;
       Ok ((fst m, S (snd m)), map P (seq 0 (en_n (fst m))));
     (* never called by the estimators for a path based method *)
     op_fit_beta := fun _ _ _ _ _ => Raise NotImplementedErr;
     op_update_beta := fun _ _ _ _ _ _ => Raise NotImplementedErr |}.

(** ridge.py:72-148. *)
Definition ridge_ops (inv : nat -> mat -> option mat) (perms : nat -> nat -> list nat)
  : method_ops (ridge_cfg * nat) :=
  {| op_path_based := false;
     op_init_x := fun p X w forget => Ok (init_gram X w forget);
     op_update_x := fun p g X forget w => Ok (update_gram g X forget w);
     op_fit_path := fun _ _ _ _ _ => Raise NotImplementedErr;
     op_update_path := fun _ _ _ _ _ _ => Raise NotImplementedErr;
     op_fit_beta := fun m p x y isreg =>
       do r <- ridge_fit inv (fst m) (perms (snd m)) p x y isreg;
       Ok ((fst r, S (snd m)), snd r);
     op_update_beta := fun m p x y beta isreg =>
       do b <- ridge_update (fst m) (perms (snd m)) p x y beta isreg;
       Ok ((fst m, S (snd m)), b) |}.

(** Constructor arguments, online_linear_model.py:36-62. [c_method] is the result of
    [get_estimation_method(self.method)] (factory.py:10-23, ValueError for an unknown
    name); [c_ols_name] tells whether [self.method == "ols"], the string. *)
Record lm_cfg (M : Type) := mk_lmc {
  c_method : res M; c_ols_name : bool; c_forget : R; c_scale : to_scale;
  c_icpt : bool; c_regicpt : bool; c_ic : criterion
}.
Arguments c_method {M}. Arguments c_ols_name {M}. Arguments c_forget {M}. Arguments c_scale {M}.
Arguments c_icpt {M}. Arguments c_regicpt {M}. Arguments c_ic {M}.

(** Attributes of the object; [None]: not set. [a_scaler = Some None]: the scaler was
    created but has no [mean_] and [var_] yet. *)
Record lm (M : Type) := mk_lm {
  a_method : option M; a_scaler : option (option scaler); a_nfin : option nat;
  a_nobs : option R; a_nfeat : option nat; a_ntrain : option R;
  a_isreg : option (nat -> bool); a_x : option mat; a_y : option vec;
  a_path : option (list vec); a_rss : option (list R); a_coef : option vec
}.
Arguments mk_lm {M}.
Arguments a_method {M}. Arguments a_scaler {M}. Arguments a_nfin {M}. Arguments a_nobs {M}.
Arguments a_nfeat {M}. Arguments a_ntrain {M}. Arguments a_isreg {M}. Arguments a_x {M}.
Arguments a_y {M}. Arguments a_path {M}. Arguments a_rss {M}. Arguments a_coef {M}.

Definition new_lm {M} : lm M :=
  mk_lm None None None None None None None None None None None None.

(** One call's data: [X] with [b_p] columns, [y] and the sample weights. *)
Record batch := mk_batch { b_p : nat; b_rows : list obs }.

Section LM.
Context {M : Type}.
Notation S := (lm M).
Notation "'self'" := (st (lm M)).

Definition set_method v : self unit := write (fun s => mk_lm (Some v) (a_scaler s) (a_nfin s) (a_nobs s) (a_nfeat s) (a_ntrain s) (a_isreg s) (a_x s) (a_y s) (a_path s) (a_rss s) (a_coef s)).
Definition set_scaler v : self unit := write (fun s => mk_lm (a_method s) (Some v) (a_nfin s) (a_nobs s) (a_nfeat s) (a_ntrain s) (a_isreg s) (a_x s) (a_y s) (a_path s) (a_rss s) (a_coef s)).
Definition set_nfin v : self unit := write (fun s => mk_lm (a_method s) (a_scaler s) (Some v) (a_nobs s) (a_nfeat s) (a_ntrain s) (a_isreg s) (a_x s) (a_y s) (a_path s) (a_rss s) (a_coef s)).
Definition set_nobs v : self unit := write (fun s => mk_lm (a_method s) (a_scaler s) (a_nfin s) (Some v) (a_nfeat s) (a_ntrain s) (a_isreg s) (a_x s) (a_y s) (a_path s) (a_rss s) (a_coef s)).
Definition set_nfeat v : self unit := write (fun s => mk_lm (a_method s) (a_scaler s) (a_nfin s) (a_nobs s) (Some v) (a_ntrain s) (a_isreg s) (a_x s) (a_y s) (a_path s) (a_rss s) (a_coef s)).
Definition set_ntrain v : self unit := write (fun s => mk_lm (a_method s) (a_scaler s) (a_nfin s) (a_nobs s) (a_nfeat s) (Some v) (a_isreg s) (a_x s) (a_y s) (a_path s) (a_rss s) (a_coef s)).
Definition set_isreg v : self unit := write (fun s => mk_lm (a_method s) (a_scaler s) (a_nfin s) (a_nobs s) (a_nfeat s) (a_ntrain s) (Some v) (a_x s) (a_y s) (a_path s) (a_rss s) (a_coef s)).
Definition set_x v : self unit := write (fun s => mk_lm (a_method s) (a_scaler s) (a_nfin s) (a_nobs s) (a_nfeat s) (a_ntrain s) (a_isreg s) (Some v) (a_y s) (a_path s) (a_rss s) (a_coef s)).
Definition set_y v : self unit := write (fun s => mk_lm (a_method s) (a_scaler s) (a_nfin s) (a_nobs s) (a_nfeat s) (a_ntrain s) (a_isreg s) (a_x s) (Some v) (a_path s) (a_rss s) (a_coef s)).
Definition set_path v : self unit := write (fun s => mk_lm (a_method s) (a_scaler s) (a_nfin s) (a_nobs s) (a_nfeat s) (a_ntrain s) (a_isreg s) (a_x s) (a_y s) (Some v) (a_rss s) (a_coef s)).
Definition set_rss v : self unit := write (fun s => mk_lm (a_method s) (a_scaler s) (a_nfin s) (a_nobs s) (a_nfeat s) (a_ntrain s) (a_isreg s) (a_x s) (a_y s) (a_path s) (Some v) (a_coef s)).
Definition set_coef v : self unit := write (fun s => mk_lm (a_method s) (a_scaler s) (a_nfin s) (a_nobs s) (a_nfeat s) (a_ntrain s) (a_isreg s) (a_x s) (a_y s) (a_path s) (a_rss s) (Some v)).

(** online_linear_model.py:92-97 [get_design_matrix] (design_matrix.py:4-5), one row. *)
Definition design (icpt : bool) (x : vec) : vec :=
  if icpt then fun j => match j with O => 1 | Datatypes.S k => x k end else x.
Definition n_cols (icpt : bool) (p : nat) : nat := (p + (if icpt then 1 else 0))%nat.

(** online_linear_model.py:78-90 [_prepare_fit]; the warning is not modelled. *)
Definition prepare_fit (c : lm_cfg M) : self unit :=
  m <-- lift (c_method c);;
  set_method m;;;
  set_scaler None;;;
  if c_regicpt c && negb (c_icpt c) then raise ValueError else ret tt.

(** sklearn's [validate_data] for finite data with [X] and [y] of equal length: at least
    one row and one column; the number of columns is stored ([reset=True]) or compared
    with the stored one. *)
Definition validate_new (b : batch) : self unit :=
  if (length (b_rows b) <? 1)%nat || (b_p b <? 1)%nat then raise ValueError
  else set_nfin (b_p b).
Definition validate_old (p : nat) (n : nat) : self unit :=
  if (n <? 1)%nat || (p <? 1)%nat then raise ValueError
  else fun s => match a_nfin s with
                | Some q => if Nat.eqb p q then (s, Ok tt) else (s, Raise ValueError)
                | None => (s, Ok tt)
                end.

(** scaler.py:70-112 called on [self._scaler]: the attributes [mean_ = var_ = 0] are set
    before an IndexError or ZeroDivisionError is raised, but not before the ValueError of
    a batch with fewer than two rows. *)
Definition fit_scaler (c : lm_cfg M) (b : batch) : self scaler :=
  match scaler_fit (c_forget c) (c_scale c) (b_p b) (b_rows b) with
  | Ok sc => set_scaler (Some sc);;; ret sc
  | Raise ValueError => raise ValueError
  | Raise e =>
      let (do_scale, sel) := selection (c_scale c) (b_p b) in
      let l := b_rows b in
      set_scaler (Some (mk_scaler (c_forget c) do_scale sel (fun _ => 0) (fun _ => 0) (fun _ => 0)
        (lsum (map2 Rmult (ws l) (init_forget_vector (c_forget c) (length l)))) (lsum (ws l))));;;
      raise e
  end.

(** scaler.py:115-161 called on [self._scaler] with rows that passed [validate_data]. An
    IndexError comes in the first pass of the loop, after the cumulative weight was set. *)
Definition update_scaler (b : batch) : self scaler :=
  o <-- read a_scaler;;
  match o with
  | None => raise NotFittedError
  | Some sc =>
      if sc_do sc && negb (forallb (fun j => j <? b_p b)%nat (sc_sel sc)) then
        set_scaler (Some (mk_scaler (sc_forget sc) (sc_do sc) (sc_sel sc) (sc_mean sc) (sc_var sc)
          (sc_M sc) (sc_cum sc * (1 - sc_forget sc) + hd 0 (ws (b_rows b)))
          (sc_n sc + lsum (ws (b_rows b)))));;;
        raise IndexError
      else
        sc' <-- lift (scaler_update sc (b_rows b));;
        set_scaler (Some sc');;; ret sc'
  end.

(** The scaled design rows with their responses and weights. *)
Definition design_rows (c : lm_cfg M) (sc : scaler) (l : list obs) : list obs :=
  map (fun o => mkobs (design (c_icpt c) (scaler_transform sc (ox o))) (oy o) (ow o)) l.

(** online_linear_model.py:140-142. *)
Definition is_regularized (c : lm_cfg M) : nat -> bool :=
  fun j => if c_icpt c then match j with O => c_regicpt c | _ => true end else true.

(** [np.sum(~np.isclose(coef, 0))] for one row: |v| <= atol = 1e-8 counts as zero. *)
Definition n_nonzero (p : nat) (b : vec) : R :=
  INR (length (filter (fun j => negb (Rleb (Rabs (b j)) (1 / 100000000))) (seq 0 p))).

(** [np.sum(residuals**2, axis=0)] for one row of the path, online_linear_model.py:157-160
    (residuals multiplied by the sample weight) and 220-221 (not). *)
Definition rss_fit (p : nat) (l : list obs) (b : vec) : R :=
  lsum (map (fun o => (ow o * (oy o - dot p (ox o) b)) ^ 2) l).
Definition rss_update (p : nat) (l : list obs) (b : vec) : R :=
  lsum (map (fun o => (oy o - dot p (ox o) b) ^ 2) l).

(** online_linear_model.py:161-168, 222-229: selection of the row by the criterion. *)
Definition select_row (c : lm_cfg M) (p : nat) (ntrain : R) (path : list vec) (rss : list R) : self unit :=
  ic <-- lift (from_rss_array (c_ic c) ntrain (map (n_nonzero p) path) rss);;
  best <-- lift (argmin ic);;
  set_coef (nth best path (fun _ => 0)).

(** online_linear_model.py:100-174 [fit]. *)
Definition lm_fit (ops : method_ops M) (c : lm_cfg M) (b : batch) : self unit :=
  prepare_fit c;;;
  validate_new b;;;
  let n := lsum (ws (b_rows b)) in
  let p := n_cols (c_icpt c) (b_p b) in
  set_nobs n;;;
  set_nfeat p;;;
  if Rleb n (INR p) && c_ols_name c then raise ValueError
  else if Reqb n 1 then raise ValueError
  else
    let ntrain := effective_training_length (c_forget c) n in
    set_ntrain ntrain;;;
    sc <-- fit_scaler c b;;
    let l := design_rows c sc (b_rows b) in
    set_isreg (is_regularized c);;;
    xg <-- lift (op_init_x ops p (Xs l) (ws l) (c_forget c));;
    set_x xg;;;
    let yg := init_y_gram (Xs l) (ys l) (ws l) (c_forget c) in
    set_y yg;;;
    m <-- read a_method;;
    if op_path_based ops then
      r <-- lift (op_fit_path ops m p xg yg (is_regularized c));;
      set_method (fst r);;;
      set_path (snd r);;;
      let rss := map (rss_fit p l) (snd r) in
      set_rss rss;;;
      select_row c p ntrain (snd r) rss
    else
      r <-- lift (op_fit_beta ops m p xg yg (is_regularized c));;
      set_method (fst r);;;
      set_coef (snd r).

(** online_linear_model.py:177-238 [update]. Adding two arrays of different lengths raises
    ValueError in numpy (broadcasting of a length-one array is not modelled). *)
Definition lm_update (ops : method_ops M) (c : lm_cfg M) (b : batch) : self unit :=
  validate_old (b_p b) (length (b_rows b));;;
  n0 <-- read a_nobs;;
  let n := n0 + lsum (ws (b_rows b)) in
  let ntrain := effective_training_length (c_forget c) n in
  let p := n_cols (c_icpt c) (b_p b) in
  set_nobs n;;;
  set_ntrain ntrain;;;
  sc <-- update_scaler b;;
  let l := design_rows c sc (b_rows b) in
  x0 <-- read a_x;;
  xg <-- lift (op_update_x ops p x0 (Xs l) (c_forget c) (ws l));;
  set_x xg;;;
  y0 <-- read a_y;;
  let yg := update_y_gram y0 (Xs l) (ys l) (c_forget c) (ws l) in
  set_y yg;;;
  m <-- read a_method;;
  if op_path_based ops then
    path0 <-- read a_path;;
    isreg <-- read a_isreg;;
    r <-- lift (op_update_path ops m p xg yg path0 isreg);;
    set_method (fst r);;;
    set_path (snd r);;;
    rss0 <-- read a_rss;;
    if negb (Nat.eqb (length rss0) (length (snd r))) then raise ValueError else
    let rss := map2 (fun r0 r1 => (1 - c_forget c) * r0 + r1) rss0 (map (rss_update p l) (snd r)) in
    set_rss rss;;;
    select_row c p ntrain (snd r) rss
  else
    beta <-- read a_coef;;
    isreg <-- read a_isreg;;
    r <-- lift (op_update_beta ops m p xg yg beta isreg);;
    set_method (fst r);;;
    set_coef (snd r).

(** base/estimator.py:10-12 and 42-46 [is_fitted], [partial_fit]. *)
Definition is_fitted (s : lm M) : bool := match a_nobs s with Some _ => true | None => false end.
Definition partial_fit (ops : method_ops M) (c : lm_cfg M) (b : batch) : self unit :=
  fun s => if is_fitted s then lm_update ops c b s else lm_fit ops c b s.

(** A program that calls [partial_fit] with the given batches and carries on after
    exceptions. *)
Fixpoint partial_fits (ops : method_ops M) (c : lm_cfg M) (bs : list batch) (s : lm M) : lm M :=
  match bs with
  | [] => s
  | b :: bs' => partial_fits ops c bs' (fst (partial_fit ops c b s))
  end.

(** online_linear_model.py:261-276 [predict] for rows of [p] columns. [check_is_fitted]
    accepts an object with any attribute whose name ends in an underscore. *)
Definition any_fitted_attribute (s : lm M) : bool :=
  match a_nfin s, a_nobs s, a_nfeat s, a_ntrain s, a_path s, a_coef s with
  | None, None, None, None, None, None => false
  | _, _, _, _, _, _ => true
  end.
Definition lm_predict (c : lm_cfg M) (p : nat) (X : list vec) : self (list R) :=
  fun s =>
  (if any_fitted_attribute s then
    validate_old p (length X);;;
    o <-- read a_scaler;;
    match o with
    | None => raise NotFittedError
    | Some sc =>
        if sc_do sc && negb (forallb (fun j => j <? p)%nat (sc_sel sc)) then raise IndexError
        else
          coef <-- read a_coef;;
          ret (map (fun x => dot (n_cols (c_icpt c) p) (design (c_icpt c) (scaler_transform sc x)) coef) X)
    end
  else raise NotFittedError) s.

(** online_linear_model.py:278-293 [predict_path]; one list of predictions per row of [X]. *)
Definition lm_predict_path (c : lm_cfg M) (p : nat) (X : list vec) : self (list (list R)) :=
  fun s =>
  (if any_fitted_attribute s then
    validate_old p (length X);;;
    o <-- read a_scaler;;
    match o with
    | None => raise NotFittedError
    | Some sc =>
        if sc_do sc && negb (forallb (fun j => j <? p)%nat (sc_sel sc)) then raise IndexError
        else
          path <-- read a_path;;
          ret (map (fun x => map (dot (n_cols (c_icpt c) p) (design (c_icpt c) (scaler_transform sc x))) path) X)
    end
  else raise NotFittedError) s.

(** A program that stops at the first exception. *)
Fixpoint lm_history (ops : method_ops M) (c : lm_cfg M) (bs : list batch) (s : lm M) : res (lm M) :=
  match bs with
  | [] => Ok s
  | b :: bs' => match partial_fit ops c b s with
                | (s', Ok _) => lm_history ops c bs' s'
                | (_, Raise e) => Raise e
                end
  end.

(** online_linear_model.py:240-259 [score]; a zero total sum of squares gives NaN or -inf
    ([None]). *)
Definition r2 (y pred : list R) : option R :=
  let mean := lsum y / INR (length y) in
  let ss_residuals := lsum (map2 (fun a b => (a - b) ^ 2) y pred) in
  let ss_total := lsum (map (fun a => (a - mean) ^ 2) y) in
  if Reqb ss_total 0 then None else Some (1 - ss_residuals / ss_total).
Definition lm_score (c : lm_cfg M) (b : batch) : self (option R) :=
  pred <-- lm_predict c (b_p b) (Xs (b_rows b));;
  ret (r2 (ys (b_rows b)) pred).
End LM.
