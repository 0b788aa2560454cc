(** Model of src/ondil/estimators/online_gamlss.py ([OnlineDistributionalRegression]):
    fit, update, the outer and inner loops, model selection, prediction and debugging.

    Simplifications: real arithmetic; where the code goes on with a NaN or an infinity the
    model stops with [NanResult]; parameter validation is in [M_Params]; printed messages,
    warnings and the condition number (lines 691-698, only printed) are left out, and so are
    the attributes that are only viewed ([_best_ic], [_best_ic_iterations],
    [_rss_iterations]). [_fv] is set anew in every call before it is read, so it is part
    of the working state. *)
From Coq Require Import Reals List Bool Arith ZArith.
From Verif Require Import Base Lin Data M_Gram M_OLS M_Scaler M_Utils M_Links M_State M_LM M_Equation.
Import ListNotations.
Open Scope R_scope.
Open Scope st_scope.

(** base/distribution.py:13-231 as used by the estimator, for one observation ([None]: NaN
    or infinite). [d_lo], [d_hi]: [distribution_support]. [d_cond] is
    [calculate_conditional_initial_values], [d_ppf] the quantile function. *)
Record dist_ops := mk_dist {
  d_n : nat;
  d_lo : bound; d_hi : bound;
  d_link : nat -> R -> option R;
  d_inv : nat -> R -> R;
  d_dinv : nat -> R -> R;
  d_dl1 : nat -> R -> vec -> option R;
  d_dl2 : nat -> R -> vec -> option R;
  d_logpdf : R -> vec -> option R;
  d_init : list R -> res (list vec);
  d_cond : list R -> list vec -> nat -> res (list vec);
  d_ppf : R -> vec -> option R
}.

(** Elementwise application of a function that may give NaN. *)
Fixpoint all_some {A} (l : list (option A)) : res (list A) :=
  match l with
  | [] => Ok []
  | Some a :: l' => do r <- all_some l'; Ok (a :: r)
  | None :: _ => Raise NanResult
  end.
Definition number_or_nan {A} (o : option A) : res A :=
  match o with Some a => Ok a | None => Raise NanResult end.

(** Assignment to a column of an array of parameters. *)
Definition set_entry (th : vec) (p : nat) (v : R) : vec := fun j => if Nat.eqb j p then v else th j.
Definition set_col (fv : list vec) (p : nat) (v : list R) : list vec := map2 (fun th a => set_entry th p a) fv v.
Definition col (fv : list vec) (p : nat) : list R := map (fun th => th p) fv.

(** Constructor options, online_gamlss.py:62-210. [o_method p] is the result of
    [get_estimation_method] for the option value of parameter [p]. *)
Record gam_cfg (M : Type) := mk_gcfg {
  o_dist : dist_ops;
  o_frames : bool;
  o_equation : option (dict eqn);
  o_method : nat -> res M;
  o_forget : option_value R;
  o_ic : option_value criterion;
  o_icpt : option_value bool;
  o_regicpt : option_value bool;
  o_step : option_value R;
  o_order : option (list nat);
  o_scale : to_scale;
  o_global_ll : bool;                    (* model_selection == "global_ll" *)
  o_prefit_initial : nat; o_prefit_update : nat;
  o_max_outer : nat; o_max_inner : nat; o_min_outer : nat;
  o_abs_outer : R; o_rel_outer : R; o_abs_inner : R; o_rel_inner : R;
  o_cond_start : bool; o_cautious : bool; o_debug : bool
}.
Arguments o_dist {M}. Arguments o_frames {M}. Arguments o_equation {M}. Arguments o_method {M}.
Arguments o_forget {M}. Arguments o_ic {M}. Arguments o_icpt {M}. Arguments o_regicpt {M}.
Arguments o_step {M}. Arguments o_order {M}. Arguments o_scale {M}. Arguments o_global_ll {M}.
Arguments o_prefit_initial {M}. Arguments o_prefit_update {M}. Arguments o_max_outer {M}.
Arguments o_max_inner {M}. Arguments o_min_outer {M}. Arguments o_abs_outer {M}.
Arguments o_rel_outer {M}. Arguments o_abs_inner {M}. Arguments o_rel_inner {M}.
Arguments o_cond_start {M}. Arguments o_cautious {M}. Arguments o_debug {M}.

(** What [_prepare_estimator] computes (232-268). *)
Record prep := mk_prep {
  p_eq : nat -> eqn; p_forget : nat -> R; p_ic : nat -> criterion;
  p_icpt : nat -> bool; p_regicpt : nat -> bool;
  p_steps : dict R; p_order : list nat
}.
Definition entry {A} (d : dict A) (default : A) (p : nat) : A :=
  match lookup d p with Some a => a | None => default end.
Fixpoint all_methods {M} (c : gam_cfg M) (ps : list nat) : res (list M) :=
  match ps with
  | [] => Ok []
  | p :: ps' => do m <- o_method c p; do r <- all_methods c ps'; Ok (m :: r)
  end.
(** online_gamlss.py:232-268. The options of the constructor are the same in every call, so
    a failure of one of these steps is the same in every call, and the attributes may be
    set together. The methods are returned as a function of the parameter. *)
Definition prepare {M} (c : gam_cfg M) : res (prep * (nat -> option M)) :=
  let n := d_n (o_dist c) in
  do eq <- process_equation (o_frames c) n (o_equation c);
  do ms <- all_methods c (seq 0 n);
  do order <- match o_order c with
              | None => Ok (seq 0 n)
              | Some l => if forallb (fun i => existsb (Nat.eqb i) l) (seq 0 n) then Ok l else Raise ValueError
              end;
  Ok (mk_prep (entry eq EqOther) (entry (fst (process_parameter n (o_forget c) 0)) 0)
        (entry (fst (process_parameter n (o_ic c) aic)) aic)
        (entry (fst (process_parameter n (o_icpt c) true)) true)
        (entry (fst (process_parameter n (o_regicpt c) false)) false)
        (fst (process_parameter n (o_step c) 1)) order,
      fun p => nth_error ms p).

(** Debug records of one inner iteration (1036-1044, 1233-1240), keyed by parameter, outer
    and inner iteration. *)
Record dbg := mk_dbg { g_wt : list R; g_wv : list R; g_dl1 : list R; g_dl2 : list R; g_eta : list R; g_fv : list vec }.
Definition key : Type := (nat * nat * nat)%type.
Definition key_eqb (a b : key) : bool :=
  let '(a1, a2, a3) := a in let '(b1, b2, b3) := b in Nat.eqb a1 b1 && Nat.eqb a2 b2 && Nat.eqb a3 b3.
Definition put {A} (m : key -> option A) (k : key) (v : A) : key -> option A :=
  fun k' => if key_eqb k' k then Some v else m k'.

(** The attributes that the loops read and write, online_gamlss.py:713-759, 827-866. The
    fields ending in [n] are the [_new] copies of update. *)
Record work (M : Type) := mk_work {
  w_method : nat -> option M; w_fv : list vec;
  w_x : nat -> option mat; w_y : nat -> option vec;
  w_rss : nat -> option R; w_msd : nat -> option (list R);
  w_coef : nat -> vec; w_path : nat -> option (list vec);
  w_sum : nat -> option R; w_mean : nat -> option R;
  w_iter : list nat; w_step : nat -> nat -> nat -> R;
  w_itinner : nat -> nat; w_min : nat;
  w_dbg : key -> option dbg; w_dbg_dv : key -> option R; w_dbg_coef : key -> option (vec * option (list vec));
  w_xn : nat -> option mat; w_yn : nat -> option vec;
  w_sumn : nat -> option R; w_meann : nat -> option R;
  w_rss_old : nat -> option R; w_msd_old : nat -> option (list R)
}.
Arguments mk_work {M}.
Arguments w_method {M}. Arguments w_fv {M}. Arguments w_x {M}. Arguments w_y {M}. Arguments w_rss {M}.
Arguments w_msd {M}. Arguments w_coef {M}. Arguments w_path {M}. Arguments w_sum {M}. Arguments w_mean {M}.
Arguments w_iter {M}. Arguments w_step {M}. Arguments w_itinner {M}. Arguments w_min {M}. Arguments w_dbg {M}.
Arguments w_dbg_dv {M}. Arguments w_dbg_coef {M}. Arguments w_xn {M}. Arguments w_yn {M}. Arguments w_sumn {M}.
Arguments w_meann {M}. Arguments w_rss_old {M}. Arguments w_msd_old {M}.

Definition fupd {A} (f : nat -> A) (k : nat) (v : A) : nat -> A := fun j => if Nat.eqb j k then v else f j.

(** What the loops only read. [e_X p]: number of columns and rows of the model matrix. *)
Record env (M : Type) := mk_env {
  e_cfg : gam_cfg M; e_prep : prep; e_nobs : R; e_ntrain : nat -> R;
  e_isreg : nat -> nat -> bool; e_X : nat -> nat * list vec; e_y : list R; e_w : list R
}.
Arguments mk_env {M}.
Arguments e_cfg {M}. Arguments e_prep {M}. Arguments e_nobs {M}. Arguments e_ntrain {M}.
Arguments e_isreg {M}. Arguments e_X {M}. Arguments e_y {M}. Arguments e_w {M}.

(** Attributes of the object; [s_scaler] as in [M_LM]. *)
Record gam (M : Type) := mk_gam {
  s_prep : option prep; s_scaler : option (option scaler); s_nfin : option nat;
  s_nobs : option R; s_ntrain : option (nat -> R); s_J : option (nat -> nat);
  s_isreg : option (nat -> nat -> bool);
  s_work : option (work M); s_dev : option (R * nat)
}.
Arguments mk_gam {M}.
Arguments s_prep {M}. Arguments s_scaler {M}. Arguments s_nfin {M}. Arguments s_nobs {M}. Arguments s_ntrain {M}.
Arguments s_J {M}. Arguments s_isreg {M}. Arguments s_work {M}. Arguments s_dev {M}.
Definition new_gam {M} : gam M := mk_gam None None None None None None None None None.

(** * Working weights and responses *)

(** [np.clip] *)
Definition clip (lo hi v : R) : R := Rmin hi (Rmax lo v).
(** online_gamlss.py:1029, 1032: [dr = 1 / link_inverse_derivative], [-(dl2dp2 / (dr * dr))];
    [di] is the derivative, and for [di = 0] [dr] is infinite. *)
Definition raw_weight (dl2 di : R) : R := if Reqb di 0 then 0 else - (dl2 / (1 / di * (1 / di))).
Definition fit_weight (dl2 di : R) : R := clip (1 / 10 ^ 10) (10 ^ 10) (raw_weight dl2 di).      (* 1033 *)
Definition update_weight (dl2 di : R) : R := clip (- 10 ^ 10) (10 ^ 10) (raw_weight dl2 di).     (* 1230 *)
(** 1034, 1231: [eta + dl1dp1 / (dr * wt)]. *)
Definition working_response (eta dl1 di wt : R) : option R :=
  if Reqb di 0 then (if Reqb wt 0 then None else Some eta)
  else omap (fun q => eta + q) (npdiv dl1 (1 / di * wt)).

Section Loops.
Context {M : Type} (ops : method_ops M) (e : env M).
Notation "'self'" := (st (work M)).
Let c := e_cfg e.
Let d := o_dist (e_cfg e).

(** [np.sum(-2 * self.distribution.logpdf(y, fv) * w)] *)
Definition deviance (fv : list vec) : res R :=
  do ll <- all_some (map2 (d_logpdf d) (e_y e) fv);
  Ok (lsum (map2 (fun l w => - 2 * l * w) ll (e_w e))).

Definition forget_vector (p : nat) : list R := init_forget_vector (p_forget (e_prep e) p) (length (e_y e)).
(** 1028-1034, 1225-1231 for all rows. The Gramians use the square roots of the weights
    ([M_Gram]), except the update with one row; a negative weight makes them NaN. *)
Definition working (updating : bool) (p : nat) (fv : list vec) : res (list R * dbg) :=
  let weight := if updating then update_weight else fit_weight in
  do eta <- all_some (map (d_link d p) (col fv p));
  let di := map (d_dinv d p) eta in
  do dl1 <- all_some (map2 (d_dl1 d p) (e_y e) fv);
  do dl2 <- all_some (map2 (d_dl2 d p) (e_y e) fv);
  let wt := map2 weight dl2 di in
  do wv <- all_some (map2 (fun a b => working_response (fst a) (snd a) (fst b) (snd b))
                          (combine eta dl1) (combine di wt));
  if updating && Nat.eqb (length wt) 1
     || forallb (fun v => Rleb 0 v) (map2 Rmult (map2 Rmult (e_w e) wt) (forget_vector p))
  then Ok (eta, mk_dbg wt wv dl1 dl2 eta fv)
  else Raise NanResult.

(** [np.count_nonzero] *)
Definition nonzeros (p : nat) (b : vec) : R :=
  INR (length (filter (fun j => negb (Reqb (b j) 0)) (seq 0 p))).
(** 357-362 [_count_nonzero_coef(exclude=p)] *)
Definition count_other (s : work M) (p : nat) : R :=
  lsum (map (fun q => nonzeros (fst (e_X e q)) (w_coef s q))
         (filter (fun q => negb (Nat.eqb q p)) (seq 0 (d_n d)))).
(** [np.mean] *)
Definition mean (l : list R) : option R := npdiv (lsum l) (INR (length l)).
(** elementwise products *)
Definition mult3 (a b f : list R) : list R := map2 Rmult (map2 Rmult a b) f.

(** Weighted residual sum of one candidate. *)
Definition wrss (p : nat) (wv wgt : list R) (b : vec) : R :=
  let (k, X) := e_X e p in
  lsum (map2 (fun x q => fst q * (snd q - dot k x b) ^ 2) X (combine wgt wv)).
(** Log-likelihood of one candidate, weighted by [wgt]. *)
Definition path_ll (p : nat) (fv : list vec) (wgt : list R) (b : vec) : res R :=
  let (k, X) := e_X e p in
  let th := set_col fv p (map (fun x => d_inv d p (dot k x b)) X) in
  do ll <- all_some (map2 (d_logpdf d) (e_y e) th);
  Ok (lsum (map2 Rmult wgt ll)).
Fixpoint path_lls (p : nat) (fv : list vec) (wgt : list R) (path : list vec) : res (list R) :=
  match path with
  | [] => Ok []
  | b :: path' => do l <- path_ll p fv wgt b; do r <- path_lls p fv wgt path'; Ok (l :: r)
  end.

(** 426-512 [_fit_select_model]: the coefficients, the selection data and the index. The
    length of the path of the method is the number of rows of its path. *)
Definition fit_select (s : work M) (p : nat) (wv wt : list R) (path : list vec) : res (vec * list R * nat) :=
  let f := forget_vector p in
  let ks := map (fun b => nonzeros (fst (e_X e p)) b + count_other s p) path in
  if o_global_ll c then
    do ll <- path_lls p (w_fv s) f path;
    do ic <- from_ll_array (p_ic (e_prep e) p) (e_ntrain e p) ks ll;
    do best <- argmin ic;
    Ok (nth best path (fun _ => 0), ll, best)
  else
    do m <- number_or_nan (mean (mult3 wt (e_w e) f));
    do rss <- all_some (map (fun b => npdiv (wrss p wv (mult3 (e_w e) wt f) b) m) path);
    do ic <- from_rss_array (p_ic (e_prep e) p) (e_ntrain e p) ks rss;
    do best <- argmin ic;
    Ok (nth best path (fun _ => 0), rss, best).

(** 514-601 [_update_select_model]; [old]: the model selection data before the update. *)
Definition update_select (s : work M) (p : nat) (wv wt : list R) (path : list vec) (old : list R) (mw : R)
  : res (vec * list R * nat) :=
  let f := forget_vector p in
  let forget := p_forget (e_prep e) p in
  let discount := (1 - forget) ^ length (e_y e) in
  let ks := map (nonzeros (fst (e_X e p))) path in
  if negb (Nat.eqb (length old) (length path)) then Raise ValueError
  else if o_global_ll c then
    do ll0 <- path_lls p (w_fv s) (map2 Rmult (e_w e) f) path;
    let ll := map2 (fun l o => l + discount * o) ll0 old in
    do ic <- from_ll_array (p_ic (e_prep e) p) (e_ntrain e p) ks ll;
    do best <- argmin ic;
    Ok (nth best path (fun _ => 0), ll, best)
  else
    let denom := online_mean_update mw wt forget (e_nobs e) in
    do rss <- all_some (map2 (fun b o => npdiv (wrss p wv (mult3 (e_w e) wt f) b + discount * (o * mw)) denom) path old);
    do ic <- from_rss_array (p_ic (e_prep e) p) (e_ntrain e p) (map (fun k => k + count_other s p) ks) rss;
    do best <- argmin ic;
    Ok (nth best path (fun _ => 0), rss, best).

(** Writes. *)
Definition set_wmethod (p : nat) (m : M) : self unit := write (fun s => mk_work (fupd (w_method s) p (Some m)) (w_fv s) (w_x s) (w_y s) (w_rss s) (w_msd s) (w_coef s) (w_path s) (w_sum s) (w_mean s) (w_iter s) (w_step s) (w_itinner s) (w_min s) (w_dbg s) (w_dbg_dv s) (w_dbg_coef s) (w_xn s) (w_yn s) (w_sumn s) (w_meann s) (w_rss_old s) (w_msd_old s)).
Definition set_step (i j p : nat) (v : R) : self unit := write (fun s => mk_work (w_method s) (w_fv s) (w_x s) (w_y s) (w_rss s) (w_msd s) (w_coef s) (w_path s) (w_sum s) (w_mean s) (w_iter s) (fun i' j' p' => if Nat.eqb i' i && Nat.eqb j' j && Nat.eqb p' p then v else w_step s i' j' p') (w_itinner s) (w_min s) (w_dbg s) (w_dbg_dv s) (w_dbg_coef s) (w_xn s) (w_yn s) (w_sumn s) (w_meann s) (w_rss_old s) (w_msd_old s)).
Definition set_itinner (p it : nat) : self unit := write (fun s => mk_work (w_method s) (w_fv s) (w_x s) (w_y s) (w_rss s) (w_msd s) (w_coef s) (w_path s) (w_sum s) (w_mean s) (w_iter s) (w_step s) (fupd (w_itinner s) p it) (w_min s) (w_dbg s) (w_dbg_dv s) (w_dbg_coef s) (w_xn s) (w_yn s) (w_sumn s) (w_meann s) (w_rss_old s) (w_msd_old s)).
(** Debug writes happen only in debug mode. *)
Definition put_dbg (k : key) (v : dbg) (dv : option R) : self unit := write (fun s => if o_debug c then mk_work (w_method s) (w_fv s) (w_x s) (w_y s) (w_rss s) (w_msd s) (w_coef s) (w_path s) (w_sum s) (w_mean s) (w_iter s) (w_step s) (w_itinner s) (w_min s) (put (w_dbg s) k v) (match dv with Some r => put (w_dbg_dv s) k r | None => w_dbg_dv s end) (w_dbg_coef s) (w_xn s) (w_yn s) (w_sumn s) (w_meann s) (w_rss_old s) (w_msd_old s) else s).
Definition put_dbg_coef (k : key) (b : vec) (path : option (list vec)) : self unit := write (fun s => if o_debug c then mk_work (w_method s) (w_fv s) (w_x s) (w_y s) (w_rss s) (w_msd s) (w_coef s) (w_path s) (w_sum s) (w_mean s) (w_iter s) (w_step s) (w_itinner s) (w_min s) (w_dbg s) (w_dbg_dv s) (put (w_dbg_coef s) k (b, path)) (w_xn s) (w_yn s) (w_sumn s) (w_meann s) (w_rss_old s) (w_msd_old s) else s).

(** Reading a dict attribute of the object; a missing key raises KeyError. *)
Definition get {A} (f : work M -> option A) : self A :=
  fun s => match f s with Some a => (s, Ok a) | None => (s, Raise KeyError) end.
Definition peek {A} (f : work M -> A) : self A := fun s => (s, Ok (f s)).

(** The step size of an iteration, 1012 and 1223; a parameter without a column in the
    schedule or in the fitted values is an index error. *)
Definition read_step (it_outer it p : nat) : self R :=
  if (p <? length (values (p_steps (e_prep e))))%nat && (p <? d_n d)%nat
  then peek (fun s => w_step s (it_outer - 1)%nat it p)
  else raise IndexError.

(** The results of one inner iteration. *)
Record cand := mk_cand {
  c_x : mat; c_y : vec; c_beta : vec; c_path : option (list vec); c_msd : option (list R);
  c_wt : list R; c_rss : option R; c_fv : list vec; c_dv : R
}.

(** One inner iteration of fit, 1028-1116. [fv_it]: the current values, [path_it]: the path
    of the previous inner iteration, [dv_old]: only for the debug record. *)
Definition fit_candidate (p it_outer it : nat) (step dv_old : R) (fv_it : list vec) (path_it : option (list vec)) : self cand :=
  wk <-- lift (working false p fv_it);;
  let (eta, g) := wk in
  put_dbg (p, it_outer, it) g (Some dv_old);;;
  let (k, X) := e_X e p in
  let forget := p_forget (e_prep e) p in
  let wts := map2 Rmult (e_w e) (g_wt g) in
  xg <-- lift (op_init_x ops k X wts forget);;
  let yg := init_y_gram X (g_wv g) wts forget in
  m <-- get (fun s => w_method s p);;
  r <-- (if op_path_based ops then
           r <-- (if Nat.eqb it 0 && Nat.eqb it_outer 1
                  then lift (op_fit_path ops m k xg yg (e_isreg e p))
                  else if Nat.eqb it 0
                       then path <-- peek (fun s => w_path s p);;
                            match path with
                            | Some path => lift (op_update_path ops m k xg yg path (e_isreg e p))
                            | None => raise TypeError
                            end
                       else match path_it with
                            | Some path => lift (op_update_path ops m k xg yg path (e_isreg e p))
                            | None => raise UnboundLocalErr
                            end);;
           set_wmethod p (fst r);;;
           s <-- peek (fun s => s);;
           sel <-- lift (fit_select s p (g_wv g) (g_wt g) (snd r));;
           ret (fst (fst sel), Some (snd r), Some (snd (fst sel)))
         else
           r <-- lift (op_fit_beta ops m k xg yg (e_isreg e p));;
           set_wmethod p (fst r);;;
           ret (snd r, None, None));;
  let '(beta, path, msd) := r in
  put_dbg_coef (p, it_outer, it) beta path;;;
  let pred := map2 (fun x et => step * dot k x beta + (1 - step) * et) X eta in
  let wtf := mult3 (g_wt g) (e_w e) (forget_vector p) in
  let rss := obind (mean wtf) (npdiv (lsum (map2 (fun q v => q ^ 2 * v) (map2 Rminus (g_wv g) pred) wtf))) in
  fv0 <-- peek w_fv;;
  let fv := set_col fv0 p (map (d_inv d p) pred) in
  dv <-- lift (deviance fv);;
  ret (mk_cand xg yg beta path msd (g_wt g) rss fv dv).

(** [abs(a - b) / abs(a) < tol]; for [a = 0] the quotient is infinite or NaN. *)
Definition rel_close (a b tol : R) : bool := negb (Reqb a 0) && Rltb (Rabs (a - b) / Rabs a) tol.

(** 1145-1154 *)
Definition fit_stop (it_outer it : nat) (dv_old dv : R) : bool :=
  (Nat.eqb it_outer 1 && (1 <=? it)%nat || (2 <=? it_outer)%nat) &&
  (Rleb (Rabs (dv_old - dv)) (o_abs_inner c) || rel_close dv_old dv (o_rel_inner c)
   || Nat.eqb (S it) (o_max_inner c)).

(** The loop 1008-1173. [k] iterations of [n] are left; [dvs] is [dv_iterations]. Returned:
    the last candidate, its index, [bad_state], and (for statements only) the iterations
    made: step size, deviance before, deviance of the candidate. *)
Fixpoint inner_fit_loop (p it_outer n k it : nat) (fv_it : list vec) (dvs : nat -> R) (cnt : nat)
    (path_it : option (list vec)) : self (cand * nat * bool * list (R * R * R)) :=
  match k with
  | O => raise UnboundLocalErr
  | S k' =>
      step <-- read_step it_outer it p;;
      fv_it <-- (if Nat.eqb it 0 && Nat.eqb it_outer 1 && (1 <=? p)%nat && o_cond_start c
                 then lift (d_cond d (e_y e) fv_it p) else ret fv_it);;
      q <-- fit_candidate p it_outer it step (dvs it) fv_it path_it;;
      let dv_old := dvs it in
      let increasing := Rltb dv_old (c_dv q) in
      let bad := Rltb (dvs O) (c_dv q) in
      let counted := increasing && (it <? n - 1)%nat in
      let cnt' := if counted then S cnt else cnt in
      (if counted then set_step (it_outer - 1) (S it) p (step / 2) else ret tt);;;
      let stop := counted && (5 <? cnt')%nat || fit_stop it_outer it dv_old (c_dv q) in
      if stop || Nat.eqb k' 0 then ret (q, it, bad, [(step, dv_old, c_dv q)])
      else
        r <-- inner_fit_loop p it_outer n k' (S it)
                (if increasing then fv_it else set_col fv_it p (col (c_fv q) p))
                (if increasing then dvs else fun j => if (S it <=? j)%nat then c_dv q else dvs j)
                cnt' (c_path q);;
        let '(q', it', bad', tr) := r in
        ret (q', it', bad', (step, dv_old, c_dv q) :: tr)
  end.

(** 1175-1193 *)
Definition store_fit (p : nat) (q : cand) : self unit :=
  write (fun s =>
    let wts := map2 Rmult (e_w e) (c_wt q) in
    mk_work (w_method s) (set_col (w_fv s) p (col (c_fv q) p))
      (fupd (w_x s) p (Some (c_x q))) (fupd (w_y s) p (Some (c_y q)))
      (fupd (w_rss s) p (c_rss q))
      (match c_msd q with Some _ => fupd (w_msd s) p (c_msd q) | None => w_msd s end)
      (fupd (w_coef s) p (c_beta q)) (fupd (w_path s) p (c_path q))
      (fupd (w_sum s) p (Some (lsum wts))) (fupd (w_mean s) p (mean wts))
      (w_iter s) (w_step s) (w_itinner s) (w_min s) (w_dbg s) (w_dbg_dv s) (w_dbg_coef s)
      (w_xn s) (w_yn s) (w_sumn s) (w_meann s) (w_rss_old s) (w_msd_old s)).

(** The number of inner iterations, 1008 and 1222. *)
Definition read_iter (it_outer : nat) : self nat :=
  fun s => match nth_error (w_iter s) (it_outer - 1) with
           | Some n => (s, Ok n)
           | None => (s, Raise IndexError)
           end.

(** 988-1196 [_inner_fit]; the second component of the result is for statements only. *)
Definition inner_fit (p it_outer : nat) : self (R * list (R * R * R)) :=
  fv <-- peek w_fv;;
  dv0 <-- lift (deviance fv);;
  n <-- read_iter it_outer;;
  r <-- inner_fit_loop p it_outer n n 0 fv (fun _ => dv0) 0 None;;
  let '(q, it, bad, tr) := r in
  (if negb bad || Nat.eqb it_outer 1 then store_fit p q else ret tt);;;
  set_itinner p it;;;
  ret (c_dv q, tr).

(** One outer cycle over the parameters, 971-981. *)
Fixpoint fit_cycle (ps : list nat) (it_outer : nat) (dev : R) : self R :=
  match ps with
  | [] => ret dev
  | p :: ps' => r <-- inner_fit p it_outer;; fit_cycle ps' it_outer (fst r)
  end.

(** 939-986 [_outer_fit]: the [while True] loop with fuel; the checks come before the
    cycle. Result: deviance and number of cycles. *)
Definition outer_converged (dev_old dev : R) : bool :=
  rel_close dev_old dev (o_rel_outer c) || Rltb (Rabs (dev_old - dev)) (o_abs_outer c).
Fixpoint outer_fit_loop (fuel it : nat) (dev_old dev : R) : self (R * nat) :=
  match fuel with
  | O => raise OutOfFuel
  | S fuel' =>
      mn <-- peek w_min;;
      if (mn <=? it)%nat
         && (outer_converged dev_old dev || (o_max_outer c <=? it)%nat || Rltb dev_old dev)
      then ret (dev, it)
      else
        dev' <-- fit_cycle (p_order (e_prep e)) (S it) dev;;
        outer_fit_loop fuel' (S it) dev dev'
  end.
Definition outer_fit (fuel : nat) : self (R * nat) :=
  fv <-- peek w_fv;;
  dev <-- lift (deviance fv);;
  outer_fit_loop fuel 0 (dev + 1000) dev.

(** * Update *)

(** One inner iteration of update, 1223-1317. [gdev]: [self._global_dev]. *)
Definition update_candidate (gdev : R) (p it_outer it : nat) (fv_it : list vec) : self cand :=
  wk <-- lift (working true p fv_it);;
  let (eta, g) := wk in
  put_dbg (p, it_outer, it) g None;;;
  let (k, X) := e_X e p in
  let forget := p_forget (e_prep e) p in
  let wts := map2 Rmult (e_w e) (g_wt g) in
  m <-- get (fun s => w_method s p);;
  x0 <-- get (fun s => w_x s p);;
  xg <-- lift (op_update_x ops k x0 X forget wts);;
  y0 <-- get (fun s => w_y s p);;
  let yg := update_y_gram y0 X (g_wv g) forget wts in
  r <-- (if op_path_based ops then
           path <-- peek (fun s => w_path s p);;
           r <-- match path with
                 | Some path => lift (op_update_path ops m k xg yg path (e_isreg e p))
                 | None => raise TypeError
                 end;;
           set_wmethod p (fst r);;;
           old <-- get (fun s => w_msd_old s p);;
           mw <-- get (fun s => w_mean s p);;
           s <-- peek (fun s => s);;
           sel <-- lift (update_select s p (g_wv g) (g_wt g) (snd r) old mw);;
           ret (fst (fst sel), Some (snd r), Some (snd (fst sel)))
         else
           b0 <-- peek (fun s => w_coef s p);;
           r <-- lift (op_update_beta ops m k xg yg b0 (e_isreg e p));;
           set_wmethod p (fst r);;;
           ret (snd r, None, None));;
  let '(beta, path, msd) := r in
  put_dbg_coef (p, it_outer, it) beta path;;;
  let pred := map (fun x => dot k x beta) X in
  let wtf := mult3 (g_wt g) (e_w e) (forget_vector p) in
  let rss := obind (mean wtf) (npdiv (lsum (map2 (fun q v => q ^ 2 * v) (map2 Rminus (g_wv g) pred) wtf))) in
  mw <-- get (fun s => w_mean s p);;
  old <-- peek (fun s => w_rss_old s p);;
  let denom := online_mean_update mw (g_wt g) forget (e_nobs e) in
  let srss := obind rss (fun r => obind old (fun o => npdiv (r + (1 - forget) ^ length (e_y e) * (o * mw)) denom)) in
  fv0 <-- peek w_fv;;
  let fv := set_col fv0 p (map (d_inv d p) pred) in
  dv <-- lift (deviance fv);;
  ret (mk_cand xg yg beta path msd (g_wt g) srss fv (dv + (1 - p_forget (e_prep e) 0) ^ length (e_y e) * gdev)).

(** 1333-1342 *)
Definition update_stop (it : nat) (increasing : bool) (dv_old dv : R) : bool :=
  (negb increasing || (S it <? o_max_inner c)%nat) &&
  (Rleb (Rabs (dv_old - dv)) (o_abs_inner c) || rel_close dv_old dv (o_rel_inner c)
   || Nat.eqb (S it) (o_max_inner c)).

(** The loop 1222-1353. *)
Fixpoint inner_update_loop (gdev : R) (p it_outer k it : nat) (fv_it : list vec) (dvs : nat -> R) (cnt : nat)
    : self (cand * nat) :=
  match k with
  | O => raise UnboundLocalErr
  | S k' =>
      step <-- read_step it_outer it p;;
      q <-- update_candidate gdev p it_outer it fv_it;;
      let dv_old := dvs it in
      let increasing := Rltb dv_old (c_dv q) in
      let cnt' := if increasing then S cnt else cnt in
      (if increasing then set_step (it_outer - 1) it p (step / 2) else ret tt);;;
      let stop := increasing && (5 <? cnt')%nat || update_stop it increasing dv_old (c_dv q) in
      if stop || Nat.eqb k' 0 then ret (q, it)
      else inner_update_loop gdev p it_outer k' (S it)
             (if increasing then fv_it else set_col fv_it p (col (c_fv q) p))
             (if increasing then dvs else fun j => if (S it <=? j)%nat then c_dv q else dvs j)
             cnt'
  end.

(** 1359-1378; [sumw]: the sum of weights before this call. *)
Definition store_update (p it : nat) (q : cand) (sumw : R) : self unit :=
  write (fun s =>
    let forget := p_forget (e_prep e) p in
    let sn := lsum (map2 Rmult (e_w e) (c_wt q)) + (1 - forget) * sumw in
    mk_work (w_method s) (set_col (w_fv s) p (col (c_fv q) p)) (w_x s) (w_y s)
      (fupd (w_rss s) p (c_rss q)) (fupd (w_msd s) p (c_msd q))
      (fupd (w_coef s) p (c_beta q)) (fupd (w_path s) p (c_path q))
      (w_sum s) (w_mean s) (w_iter s) (w_step s) (fupd (w_itinner s) p it) (w_min s)
      (w_dbg s) (w_dbg_dv s) (w_dbg_coef s)
      (fupd (w_xn s) p (Some (c_x q))) (fupd (w_yn s) p (Some (c_y q)))
      (fupd (w_sumn s) p (Some sn)) (fupd (w_meann s) p (npdiv sn (e_ntrain e p)))
      (w_rss_old s) (w_msd_old s)).

(** 1198-1378 [_inner_update] *)
Definition inner_update (gdev : R) (p it_outer : nat) : self R :=
  fv <-- peek w_fv;;
  dv0 <-- lift (deviance fv);;
  n <-- read_iter it_outer;;
  r <-- inner_update_loop gdev p it_outer n 0 fv
          (fun _ => dv0 + (1 - p_forget (e_prep e) 0) ^ length (e_y e) * gdev) 0;;
  sumw <-- get (fun s => w_sum s p);;
  store_update p (snd r) (fst r) sumw;;;
  ret (c_dv (fst r)).

Fixpoint update_cycle (gdev : R) (ps : list nat) (it_outer : nat) (dev : R) : self R :=
  match ps with
  | [] => ret dev
  | p :: ps' => dev' <-- inner_update gdev p it_outer;; update_cycle gdev ps' it_outer dev'
  end.

(** 887-937 [_outer_update] *)
Fixpoint outer_update_loop (gdev : R) (fuel it : nat) (dev_old dev : R) : self (R * nat) :=
  match fuel with
  | O => raise OutOfFuel
  | S fuel' =>
      mn <-- peek w_min;;
      if (mn <=? it)%nat && (outer_converged dev_old dev || (o_max_outer c <=? it)%nat)
      then ret (dev, it)
      else
        dev' <-- update_cycle gdev (p_order (e_prep e)) (S it) dev;;
        outer_update_loop gdev fuel' (S it) dev dev'
  end.
Definition outer_update (gdev : R) (fuel : nat) : self (R * nat) :=
  fv <-- peek w_fv;;
  di <-- lift (deviance fv);;
  let dev := (1 - p_forget (e_prep e) 0) ^ length (e_y e) * gdev + di in
  outer_update_loop gdev fuel 0 (dev + 1000) dev.
End Loops.

(** The [while] loops make at most [max_it_outer + 1] cycles (the schedule has
    [max_it_outer] entries), so this fuel is never used up (proved). *)
Definition enough_fuel {M} (c : gam_cfg M) : nat := (o_max_outer c + 2)%nat.

(** * The object *)
Section GAM.
Context {M : Type} (ops : method_ops M) (c : gam_cfg M).
Notation "'self'" := (st (gam M)).
Let d := o_dist c.

(** 232-268: the attributes set by [_prepare_estimator]; the scaler is new and not fitted,
    the methods of an earlier fit are replaced. *)
Definition with_methods (m : nat -> option M) (w : work M) : work M :=
  mk_work m (w_fv w) (w_x w) (w_y w) (w_rss w) (w_msd w) (w_coef w) (w_path w) (w_sum w) (w_mean w)
    (w_iter w) (w_step w) (w_itinner w) (w_min w) (w_dbg w) (w_dbg_dv w) (w_dbg_coef w)
    (w_xn w) (w_yn w) (w_sumn w) (w_meann w) (w_rss_old w) (w_msd_old w).
Definition gset_prep v m : self unit := write (fun s => mk_gam (Some v) (Some None) (s_nfin s) (s_nobs s) (s_ntrain s) (s_J s) (s_isreg s) (option_map (with_methods m) (s_work s)) (s_dev s)).
Definition gset_scaler v : self unit := write (fun s => mk_gam (s_prep s) (Some v) (s_nfin s) (s_nobs s) (s_ntrain s) (s_J s) (s_isreg s) (s_work s) (s_dev s)).
Definition gset_nfin v : self unit := write (fun s => mk_gam (s_prep s) (s_scaler s) (Some v) (s_nobs s) (s_ntrain s) (s_J s) (s_isreg s) (s_work s) (s_dev s)).
Definition gset_nobs v : self unit := write (fun s => mk_gam (s_prep s) (s_scaler s) (s_nfin s) (Some v) (s_ntrain s) (s_J s) (s_isreg s) (s_work s) (s_dev s)).
Definition gset_ntrain v : self unit := write (fun s => mk_gam (s_prep s) (s_scaler s) (s_nfin s) (s_nobs s) (Some v) (s_J s) (s_isreg s) (s_work s) (s_dev s)).
Definition gset_J v : self unit := write (fun s => mk_gam (s_prep s) (s_scaler s) (s_nfin s) (s_nobs s) (s_ntrain s) (Some v) (s_isreg s) (s_work s) (s_dev s)).
Definition gset_work r v : self unit := write (fun s => mk_gam (s_prep s) (s_scaler s) (s_nfin s) (s_nobs s) (s_ntrain s) (s_J s) (Some r) (Some v) (s_dev s)).
Definition gset_dev v : self unit := write (fun s => mk_gam (s_prep s) (s_scaler s) (s_nfin s) (s_nobs s) (s_ntrain s) (s_J s) (s_isreg s) (s_work s) (Some v)).

(** A method that only touches the working attributes. *)
Definition on_work {A} (m : st (work M) A) : self A :=
  fun s => match s_work s with
           | None => (s, Raise AttributeError)
           | Some w => let (w', r) := m w in
               (mk_gam (s_prep s) (s_scaler s) (s_nfin s) (s_nobs s) (s_ntrain s) (s_J s) (s_isreg s) (Some w') (s_dev s), r)
           end.

(** [validate_data] as in [M_LM]. *)
Definition gvalidate_new (b : batch) : self unit :=
  if (length (b_rows b) <? 1)%nat || (b_p b <? 1)%nat then raise ValueError else gset_nfin (b_p b).
Definition gvalidate_old (p n : nat) : self unit :=
  if (n <? 1)%nat || (p <? 1)%nat then raise ValueError
  else fun s => match s_nfin s with
                | Some q => if Nat.eqb p q then (s, Ok tt) else (s, Raise ValueError)
                | None => (s, Ok tt)
                end.

(** 603-629 [_validate_inputs] *)
Definition below (y : R) (b : bound) : bool := bound_ltb (Fin y) b.
Definition above (y : R) (b : bound) : bool := bound_ltb b (Fin y).
Definition validate_support (l : list obs) : self unit :=
  if existsb (fun o => below (oy o) (d_lo d)) l then raise OutOfSupportErr
  else if existsb (fun o => above (oy o) (d_hi d)) l then raise OutOfSupportErr
  else ret tt.

(** 684: scaler.py:70-112 on [self._scaler], as in [M_LM]. *)
Definition gfit_scaler (forget : R) (b : batch) : self scaler :=
  match scaler_fit forget (o_scale c) (b_p b) (b_rows b) with
  | Ok sc => gset_scaler (Some sc);;; ret sc
  | Raise ValueError => raise ValueError
  | Raise x =>
      let (do_scale, sel) := selection (o_scale c) (b_p b) in
      let l := b_rows b in
      gset_scaler (Some (mk_scaler forget do_scale sel (fun _ => 0) (fun _ => 0) (fun _ => 0)
        (lsum (map2 Rmult (ws l) (init_forget_vector forget (length l)))) (lsum (ws l))));;;
      raise x
  end.
(** 806: scaler.py:115-161 *)
Definition gupdate_scaler (b : batch) : self scaler :=
  o <-- read s_scaler;;
  match o with
  | None => raise NotFittedError
  | Some sc =>
      if sc_do sc && negb (forallb (fun j => j <? b_p b)%nat (sc_sel sc)) then
        gset_scaler (Some (mk_scaler (sc_forget sc) (sc_do sc) (sc_sel sc) (sc_mean sc) (sc_var sc)
          (sc_M sc) (sc_cum sc * (1 - sc_forget sc) + hd 0 (ws (b_rows b)))
          (sc_n sc + lsum (ws (b_rows b)))));;;
        raise IndexError
      else
        sc' <-- lift (scaler_update sc (b_rows b));;
        gset_scaler (Some sc');;; ret sc'
  end.

(** 681, 686-689, 808-811: dict comprehensions over the parameters. *)
Fixpoint all_J (pr : prep) (ncol : nat) (ps : list nat) : res (list nat) :=
  match ps with
  | [] => Ok []
  | p :: ps' => do j <- get_J (p_eq pr p) (p_icpt pr p) ncol; do r <- all_J pr ncol ps'; Ok (j :: r)
  end.
Fixpoint all_arrays (pr : prep) (ncol : nat) (X : list vec) (ps : list nat) : res (list (nat * list vec)) :=
  match ps with
  | [] => Ok []
  | p :: ps' => do a <- make_model_array (p_eq pr p) (p_icpt pr p) ncol X; do r <- all_arrays pr ncol X ps'; Ok (a :: r)
  end.
Definition arrays (pr : prep) (ncol : nat) (X : list vec) : res (nat -> nat * list vec) :=
  do l <- all_arrays pr ncol X (seq 0 (d_n d)); Ok (fun p => nth p l (O, [])).

(** 728-735; [i] is the column. *)
Definition gam_isreg (pr : prep) : nat -> nat -> bool :=
  fun p i => match i with
             | O => negb (p_icpt pr p && negb (p_regicpt pr p || match p_eq pr p with EqIntercept => true | _ => false end))
             | _ => true
             end.

(** 631-638, 747-759: fresh schedules; the first [prefit] outer cycles get one inner iteration. *)
Definition iter_schedule (prefit : nat) : list nat :=
  map (fun i => if (i <? prefit)%nat then 1%nat else o_max_inner c) (seq 0 (o_max_outer c)).
Definition step_schedule (pr : prep) : nat -> nat -> nat -> R := fun _ _ p => nth p (values (p_steps pr)) 0.

(** 700-759: the working attributes at the start of fit. *)
Definition start_work (pr : prep) (methods : nat -> option M) (fv : list vec) : work M :=
  mk_work methods fv (fun _ => None) (fun _ => None) (fun _ => Some 0) (fun _ => None)
    (fun _ _ => 0) (fun _ => None) (fun _ => None) (fun _ => None)
    (iter_schedule (o_prefit_initial c)) (step_schedule pr) (fun _ => O)
    (if (0 <? o_prefit_initial c)%nat then o_prefit_initial c else o_min_outer c)
    (fun _ => None) (fun _ => None) (fun _ => None)
    (fun _ => None) (fun _ => None) (fun _ => None) (fun _ => None) (fun _ => None) (fun _ => None).

(** 640-773 [fit] *)
Definition gam_fit (b : batch) : self unit :=
  pm <-- lift (prepare c);;
  let (pr, methods) := pm in
  gset_prep pr methods;;;
  gvalidate_new b;;;
  validate_support (b_rows b);;;
  let n := lsum (ws (b_rows b)) in
  gset_nobs n;;;
  let ntrain := fun p => effective_training_length (p_forget pr p) n in
  gset_ntrain ntrain;;;
  fv <-- lift (d_init d (ys (b_rows b)));;
  js <-- lift (all_J pr (b_p b) (seq 0 (d_n d)));;
  gset_J (fun p => nth p js O);;;
  sc <-- gfit_scaler (p_forget pr O) b;;
  X <-- lift (arrays pr (b_p b) (map (scaler_transform sc) (Xs (b_rows b))));;
  gset_work (gam_isreg pr) (start_work pr methods fv);;;
  r <-- on_work (outer_fit ops (mk_env c pr n ntrain (gam_isreg pr) X (ys (b_rows b)) (ws (b_rows b))) (enough_fuel c));;
  gset_dev r.

(** 1408-1457 [predict_distribution_parameters]: one row of parameters per row of [X], on
    the scale of the response or of the link. *)
Definition gfitted (s : gam M) : bool :=
  match s_nfin s, s_nobs s, s_ntrain s, s_J s, s_work s with
  | None, None, None, None, None => false
  | _, _, _, _, _ => true
  end.
Definition predict_parameters (response : bool) (p : nat) (X : list vec) : self (list vec) :=
  fun s =>
  (if gfitted s then
     gvalidate_old p (length X);;;
     o <-- read s_scaler;;
     match o with
     | None => raise NotFittedError
     | Some sc =>
         if sc_do sc && negb (forallb (fun j => j <? p)%nat (sc_sel sc)) then raise IndexError
         else
           pr <-- read s_prep;;
           A <-- lift (arrays pr p (map (scaler_transform sc) X));;
           w <-- read s_work;;
           let eta := fun i q => let (k, rows) := A q in dot k (nth i rows (fun _ => 0)) (w_coef w q) in
           ret (map (fun i q => if response then d_inv d q (eta i q) else eta i q) (seq 0 (length X)))
     end
   else raise NotFittedError) s.

(** 825-866: the working attributes at the start of update. *)
Definition restart_work (pr : prep) (fv : list vec) (mn : nat) (w : work M) : work M :=
  mk_work (w_method w) fv (w_x w) (w_y w) (w_rss w) (w_msd w) (w_coef w) (w_path w) (w_sum w) (w_mean w)
    (iter_schedule (o_prefit_update c)) (step_schedule pr) (w_itinner w) mn
    (if o_debug c then fun _ => None else w_dbg w) (w_dbg_dv w) (if o_debug c then fun _ => None else w_dbg_coef w)
    (w_x w) (w_y w) (w_sum w) (w_mean w) (w_rss w) (w_msd w).
(** 852-866: [quantile(q, fv).item()] raises ValueError unless there is one row. *)
Definition cautious_bounds (fv : list vec) : res (R * R) :=
  match fv with
  | [th] => do lo <- number_or_nan (d_ppf d (5 / 1000) th); do hi <- number_or_nan (d_ppf d (995 / 1000) th); Ok (lo, hi)
  | _ => Raise ValueError
  end.
Definition cautious_work (outlier : bool) (w : work M) : work M :=
  mk_work (w_method w) (w_fv w) (w_x w) (w_y w) (w_rss w) (w_msd w) (w_coef w) (w_path w) (w_sum w) (w_mean w)
    (if outlier then map2 (fun i n => if (i <? 4)%nat then 1%nat else n) (seq 0 (length (w_iter w))) (w_iter w) else w_iter w)
    (if outlier then (fun i j p => if (i <? 4)%nat then 1 / 4 else w_step w i j p) else w_step w)
    (w_itinner w) (if outlier then 4%nat else o_min_outer c)
    (w_dbg w) (w_dbg_dv w) (w_dbg_coef w) (w_xn w) (w_yn w) (w_sumn w) (w_meann w) (w_rss_old w) (w_msd_old w).
(** 879-882 *)
Definition commit_work (w : work M) : work M :=
  mk_work (w_method w) (w_fv w) (w_xn w) (w_yn w) (w_rss w) (w_msd w) (w_coef w) (w_path w) (w_sumn w) (w_meann w)
    (w_iter w) (w_step w) (w_itinner w) (w_min w) (w_dbg w) (w_dbg_dv w) (w_dbg_coef w)
    (w_xn w) (w_yn w) (w_sumn w) (w_meann w) (w_rss_old w) (w_msd_old w).

(** 775-885 [update] *)
Definition gam_update (b : batch) : self unit :=
  gvalidate_old (b_p b) (length (b_rows b));;;
  validate_support (b_rows b);;;
  n0 <-- read s_nobs;;
  let n := n0 + lsum (ws (b_rows b)) in
  gset_nobs n;;;
  pr <-- read s_prep;;
  let ntrain := fun p => effective_training_length (p_forget pr p) n in
  gset_ntrain ntrain;;;
  fv <-- predict_parameters true (b_p b) (Xs (b_rows b));;
  sc <-- gupdate_scaler b;;
  X <-- lift (arrays pr (b_p b) (map (scaler_transform sc) (Xs (b_rows b))));;
  on_work (write (fun w => restart_work pr fv (if (0 <? o_prefit_update c)%nat then o_prefit_update c else w_min w) w));;;
  (if o_cautious c then
     lh <-- lift (cautious_bounds fv);;
     on_work (write (cautious_work (existsb (fun o => Rltb (oy o) (fst lh) || Rltb (snd lh) (oy o)) (b_rows b))))
   else ret tt);;;
  g <-- read s_dev;;
  isreg <-- read s_isreg;;
  r <-- on_work (outer_update ops (mk_env c pr n ntrain isreg X (ys (b_rows b)) (ws (b_rows b))) (fst g) (enough_fuel c));;
  on_work (write commit_work);;;
  gset_dev r.

(** base/estimator.py:10-12, 42-46 *)
Definition gis_fitted (s : gam M) : bool := match s_nobs s with Some _ => true | None => false end.
Definition gpartial_fit (b : batch) : self unit :=
  fun s => if gis_fitted s then gam_update b s else gam_fit b s.
Fixpoint gpartial_fits (bs : list batch) (s : gam M) : gam M :=
  match bs with [] => s | b :: bs' => gpartial_fits bs' (fst (gpartial_fit b s)) end.

(** 1484-1524 [get_debug_information] for the dicts with three-part keys. *)
Definition get_debug {A} (f : work M -> key -> option A) (param it_outer it_inner : nat) : self A :=
  fun s =>
  (if negb (o_debug c) then raise ValueError
   else w <-- read s_work;;
        match f w (param, it_outer, (it_inner + 1)%nat) with
        | Some a => ret a
        | None => raise KeyError
        end) s.
End GAM.
