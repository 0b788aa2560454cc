(** Property C66: estimators work on their own copies of estimation method objects. *)
From Coq Require Import Reals List Bool Arith Lia Lra String.
From Verif Require Import Base Lin M_OLS M_CD M_Path M_Ridge M_Factory S_Factory L_Factory.
Import ListNotations.
Open Scope R_scope.

(** C66. Whatever estimators a program constructs, fits and updates, with whatever data,
    and however it shares its method objects among estimators and parameters: the
    objects the user built are as they were. *)
Theorem C66_user_objects_unchanged : forall inv h0 evs a, (a < List.length h0)%nat ->
  nth_error (w_heap (steps inv (start h0) evs)) a = nth_error h0 a.
Proof. exact C66_user_lemma. Qed.
Print Assumptions C66_user_objects_unchanged.

(** After any history a fit behaves as a first fit, parameter by parameter: what the
    calls for parameter [p] return is what they return on an object nobody has used
    before, whatever the other parameters do and even if they were given the same
    object. A fit raises ValueError at once, and the estimator keeps the objects of the last
    fit, if one of the arguments is no estimation method. *)
Theorem C66_refit_is_first_fit : forall inv h0 evs i e cs w' rs,
  nth_error (w_ests (steps inv (start h0) evs)) i = Some e ->
  user_refs h0 (e_args e) ->
  step inv (steps inv (start h0) evs) (EFit i cs) = (w', rs) ->
  ((forall m, In m (e_args e) -> pristine h0 m <> None) ->
     exists own, nth_error (w_ests w') i = Some (mk_est (e_args e) (Some own)) /\
     forall p m o, nth_error (e_args e) p = Some m -> pristine h0 m = Some o ->
       results_for p cs rs = snd (invokes inv o (calls_for p cs)) /\
       exists a, nth_error own p = Some a /\
                 nth_error (w_heap w') a = Some (fst (invokes inv o (calls_for p cs)))) /\
  (forall m, In m (e_args e) -> pristine h0 m = None ->
     rs = [Raise ValueError] /\ w_ests w' = w_ests (steps inv (start h0) evs)).
Proof. exact C66_fit_lemma. Qed.
Print Assumptions C66_refit_is_first_fit.

(** What an update returns does not depend on what was done with other estimators in the
    meantime, even if they were given the same objects. *)
Theorem C66_estimators_independent : forall inv h0 evs evs' i e own cs,
  nth_error (w_ests (steps inv (start h0) evs)) i = Some e -> e_own e = Some own ->
  Forall (of_other i) evs' ->
  snd (step inv (steps inv (start h0) (evs ++ evs')) (EUpdate i cs)) =
  snd (step inv (steps inv (start h0) evs) (EUpdate i cs)).
Proof. exact C66_other_lemma. Qed.
Print Assumptions C66_estimators_independent.

(** Why the copies are needed: an object that is used directly remembers its first fit. A
    later fit with another number of columns raises ValueError, and a ridge object without
    penalty keeps the one computed from the first Gramian. *)
Theorem C66_objects_remember : forall inv,
  (forall e perm J x y isreg o out, invoke inv (OEn e) (CFitPath perm J x y isreg) = (o, Ok out) ->
     forall perm' J' x' y' isreg', J' <> J -> snd (invoke inv o (CFitPath perm' J' x' y' isreg')) = Raise ValueError) /\
  (forall r perm J x y isreg o out, invoke inv (ORidge r) (CFitBeta perm J x y isreg) = (o, Ok out) ->
     forall perm' J' x' y' isreg',
     (J' <> J -> snd (invoke inv o (CFitBeta perm' J' x' y' isreg')) = Raise ValueError) /\
     (J' = J -> snd (invoke inv o (CFitBeta perm' J' x' y' isreg')) =
        snd (invoke inv (ORidge (with_penalty r (match ri_lambda r with Some l => l | None => mtrace J x / INR J end)))
               (CFitBeta perm' J' x' y' isreg')))).
Proof. exact C66_memory_lemma. Qed.
Print Assumptions C66_objects_remember.

(** A ridge object without penalty and bounds; one column. *)
Definition user_ridge := mk_ridge None (Some (fun _ => 0)) false None None 10 5.
Definition one_col (g h : R) : call := CFitBeta (fun _ => seq 0 1) 1 (fun _ _ => g) (fun _ => h) (fun _ => true).
Definition two_cols : call := CFitBeta (fun _ => seq 0 2) 2 (fun _ _ => 1) (fun _ => 2) (fun _ => true).
Definition no_inverse : nat -> mat -> option mat := fun _ _ => None.

Lemma cd_one g h lam lo up n : 0 < g -> 0 < h -> 0 < lam -> lo 0%nat = None -> up 0%nat = None ->
  online_coordinate_descent (mk_cd 1 (fun _ _ => g) (fun _ => h) lam (fun _ => true) 0 lo up) false
    (fun _ => seq 0 1) 10 n (fun _ => 0) = Ok (vset (fun _ => 0) 0 (h / (g + lam)), 1%nat).
Proof.
  intros Hg Hh Hl B1 B2. set (A := mk_cd 1 _ _ _ _ _ _ _).
  assert (D : cd_den A 0 = g + lam) by (unfold cd_den, A; cbn; ring).
  assert (N : cd_num A (fun _ => 0) 0 = h).
  { unfold cd_num, cd_partial, soft_threshold, rsign, A. cbn.
    replace (h - (0 + g * 0) + g * 0) with h by ring. replace (Rabs h - 0 * lam) with (Rabs h) by ring.
    rewrite (Rabs_right h) by lra. rewrite Rmax_left by lra. rcase; lra. }
  assert (P : 0 < h / (g + lam)) by (apply Rdiv_lt_0_compat; lra).
  assert (V : cd_coord A (fun _ => 0) 0 = Ok (h / (g + lam))).
  { unfold cd_coord. rewrite D, N. assert (Z : Reqb (g + lam) 0 = false) by (rcase; [lra|reflexivity]). rewrite Z.
    unfold A. cbn [cd_lo cd_up]. rewrite B1, B2. reflexivity. }
  unfold online_coordinate_descent. cbn [cd_loop]. unfold cd_order. cbn [andb].
  change (cd_J A) with 1%nat. cbn [seq cd_sweep]. unfold cd_visit. cbn [orb Nat.ltb Nat.leb]. rewrite V.
  cbn [bind max_abs]. unfold vset at 1 2. cbn [Nat.eqb].
  assert (C : Rleb (Rmax 0 (Rabs (h / (g + lam) - 0))) (10 * Rmax 0 (Rabs (h / (g + lam)))) = true).
  { rewrite Rminus_0_r, Rabs_right by lra. rewrite Rmax_right by lra. rcase; lra. }
  rewrite C. reflexivity.
Qed.

Lemma ridge_one c lam g h : ri_start c = Some (fun _ => 0) -> ri_random c = false -> ri_tol c = 10 ->
  ri_lower c = None \/ ri_lower c = Some [None] -> ri_upper c = None \/ ri_upper c = Some [None] ->
  ridge_lambda c 1 (fun _ _ => g) = lam -> 0 < g -> 0 < h -> 0 < lam ->
  exists b, snd (invoke no_inverse (ORidge c) (one_col g h)) = Ok (RBeta b) /\ b 0%nat = h / (g + lam).
Proof.
  intros S Rn T Lo Up L Hg Hh Hl. unfold one_col, invoke, snd, ridge_fit, ridge_bounds.
  assert (E1 : Nat.eqb (List.length (fill_bound (ri_lower c) 1)) 1 = true) by (destruct Lo as [-> | ->]; reflexivity).
  assert (E2 : Nat.eqb (List.length (fill_bound (ri_upper c) 1)) 1 = true) by (destruct Up as [-> | ->]; reflexivity).
  assert (B1 : bound_fun (Some (fill_bound (ri_lower c) 1)) 0%nat = None) by (destruct Lo as [-> | ->]; reflexivity).
  assert (B2 : bound_fun (Some (fill_bound (ri_upper c) 1)) 0%nat = None) by (destruct Up as [-> | ->]; reflexivity).
  rewrite E1, E2. cbn [negb bind ri_lambda ri_start ri_random ri_lower ri_upper ri_tol ri_maxit].
  unfold ridge_start, ridge_lambda. cbn [ri_start ri_lambda].
  fold (ridge_lambda c 1 (fun _ _ => g)). rewrite L, S, Rn, T.
  unfold ridge_args. cbn [ri_lower ri_upper].
  rewrite (cd_one g h lam _ _ (ri_maxit c) Hg Hh Hl B1 B2). cbn [bind as_beta fst].
  eexists. split; [reflexivity|]. reflexivity.
Qed.

(** One object for two estimators. The first is fitted with Gramian 1: the coefficient is
    2 / (1 + 1). The second is fitted with Gramian 3: the default penalty is 3 and the
    coefficient 6 / (3 + 3). Called directly a second time, the object keeps the penalty 1
    and returns 6 / (3 + 1), and raises for data of another width. *)
Example C66_example :
  let h0 := [ORidge user_ridge] in
  let evs := [ENew [MRef 0]; ENew [MRef 0]; EFit 0 [(0%nat, one_col 1 2)]] in
  let w := steps no_inverse (start h0) evs in
  nth_error (w_heap w) 0 = Some (ORidge user_ridge) /\
  (exists b, snd (step no_inverse w (EFit 1 [(0%nat, one_col 3 6)])) = [Ok (RBeta b)] /\ b 0%nat = 1) /\
  (exists b b', snd (invokes no_inverse (ORidge user_ridge) [one_col 1 2; one_col 3 6])
     = [Ok (RBeta b); Ok (RBeta b')] /\ b' 0%nat = 3 / 2) /\
  (exists b, snd (invokes no_inverse (ORidge user_ridge) [one_col 1 2; two_cols])
     = [Ok (RBeta b); Raise ValueError]).
Proof.
  assert (F1 : exists b, snd (invoke no_inverse (ORidge user_ridge) (one_col 1 2)) = Ok (RBeta b)).
  { destruct (ridge_one user_ridge 1 1 2) as (b & E & _); try reflexivity; try lra; auto; [|eauto].
    unfold ridge_lambda, mtrace, user_ridge. cbn. lra. }
  destruct F1 as [b1 F1].
  intros h0 evs w. split; [|split; [|split]].
  - apply (C66_user_objects_unchanged no_inverse h0 evs 0). cbn. lia.
  - destruct (ridge_one user_ridge 3 3 6) as (b & E & V); try reflexivity; try lra; auto.
    { unfold ridge_lambda, mtrace, user_ridge. cbn. lra. }
    exists b. split; [|rewrite V; lra].
    destruct (step no_inverse w (EFit 1 [(0%nat, one_col 3 6)])) as [w' rs] eqn:Es.
    destruct (C66_refit_is_first_fit no_inverse h0 evs 1 (mk_est [MRef 0] None) [(0%nat, one_col 3 6)] w' rs) as [A _];
      try exact Es.
    { reflexivity. }
    { intros a [Ha|[]]. inversion Ha; subst. cbn. lia. }
    destruct A as (own & Ho & A).
    { intros m [<-|[]]. discriminate. }
    destruct (A 0%nat (MRef 0) (ORidge user_ridge) eq_refl eq_refl) as [R _].
    unfold calls_for in R. cbn [filter fst Nat.eqb map snd invokes] in R.
    destruct (invoke no_inverse (ORidge user_ridge) (one_col 3 6)) as [o' r]. cbn [snd] in E, R. subst r.
    cbn [step] in Es. destruct (nth_error (w_ests w) 1); [|inversion Es; subst; discriminate].
    destruct (gets (w_heap w) (e_args e)) as [h1 [own'|ex]]; [|inversion Es; subst; discriminate].
    destruct (run_calls no_inverse own' h1 [(0%nat, one_col 3 6)]) as [h2 r2] eqn:Er. inversion Es; subst.
    cbn [run_calls] in Er. destruct (nth_error own' 0) as [a|]; [|inversion Er; subst; discriminate].
    destruct (nth_error h1 a) as [o1|]; [|inversion Er; subst; discriminate].
    destruct (invoke no_inverse o1 (one_col 3 6)) as [o2 r]. inversion Er; subst. exact R.
  - cbn [invokes]. destruct (invoke no_inverse (ORidge user_ridge) (one_col 1 2)) as [o1 r1] eqn:E1.
    cbn [snd] in F1. subst r1. pose proof (f_equal fst E1) as Eo. cbn [invoke one_col fst] in Eo. subst o1. clear E1.
    destruct (ridge_one (ridge_filled user_ridge 1 (fun _ _ => 1)) 1 3 6) as (b & E & V); try reflexivity; try lra; auto.
    { cbn. unfold ridge_lambda, mtrace. cbn. lra. }
    destruct (invoke no_inverse (ORidge (ridge_filled user_ridge 1 (fun _ _ => 1))) (one_col 3 6)) as [o2 r2].
    cbn [snd] in *. subst r2. exists b1, b. split; [reflexivity|]. rewrite V. lra.
  - cbn [invokes]. destruct (invoke no_inverse (ORidge user_ridge) (one_col 1 2)) as [o1 r1] eqn:E1.
    cbn [snd] in F1. subst r1. pose proof (f_equal fst E1) as Eo. cbn [invoke one_col fst] in Eo. subst o1. clear E1.
    exists b1. reflexivity.
Qed.
(** There is no name for ridge regression. *)
Example C66_ridge_name : snd (step no_inverse (steps no_inverse (start []) [ENew [MName "ols"; MName "ridge"]]) (EFit 0 [(0%nat, one_col 3 6)])) = [Raise ValueError].
Proof.
  destruct (step _ _ _) as [w' rs] eqn:E.
  destruct (C66_refit_is_first_fit no_inverse [] [ENew [MName "ols"; MName "ridge"]] 0 (mk_est [MName "ols"; MName "ridge"] None) [(0%nat, one_col 3 6)] w' rs eq_refl) as [_ A]; [|exact E|].
  - intros a [H|[H|[]]]; discriminate.
  - apply (A (MName "ridge")); [right; left; reflexivity|reflexivity].
Qed.
