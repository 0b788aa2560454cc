(** Properties C12 (paths), C16-C21 and C67: the elastic-net path and ridge. *)
From Coq Require Import Reals List Bool Arith Lia Lra Permutation.
From Verif Require Import Base Lin S_Gram M_CD M_Path M_Ridge S_CD L_CD1 L_CD L_CD2 L_Path L_Path2 L_CD3 L_CD4 L_Path3.
Import ListNotations.
Open Scope R_scope.

(** C12. Every row of the path obeys the configured bounds, after the fit and after
    any number of updates, whatever the Gramians, tolerance and early stopping are. *)
Theorem C12_path_bounds : forall c perm J x y isreg c' P0 us P,
  box_ok J (bound_fun (en_lower c)) (bound_fun (en_upper c)) ->
  (forall k i, Permutation (perm k i) (seq 0 J)) ->
  Forall (fun u => forall k i, Permutation (fst (fst u) k i) (seq 0 J)) us ->
  fit_beta_path c perm J x y isreg = Ok (c', P0) ->
  update_paths c' J isreg P0 us = Ok P ->
  forall k, (k < en_n c)%nat -> in_box J (bound_fun (en_lower c)) (bound_fun (en_upper c)) (P k).
Proof. exact fit_history_boxed. Qed.
Print Assumptions C12_path_bounds.

Example C12_path_example : exists c' P,
  fit_beta_path (mk_en 1 3 (1 / 4) 0 previous_lambda previous_lambda false
      None None 0 10) (fun _ _ => seq 0 2) 2 (m2 2 1 1 3) (v2 2 4) (fun j => negb (j =? 0)%nat) = Ok (c', P)
  /\ P 0%nat 0%nat = 1 /\ P 0%nat 1%nat = 0.
Proof.
  destruct (lasso_first_row (mk_en 1 3 (1 / 4) 0 previous_lambda previous_lambda false None None 0 10)
    (fun _ _ => seq 0 2) 2 (m2 2 1 1 3) (v2 2 4) (fun j => negb (j =? 0)%nat) 3) as (c' & P & E & A & B);
    try reflexivity.
  - cbn. lra.
  - cbn. lia.
  - intros i k. apply Permutation_refl.
  - apply m2_sym.
  - intros [|[|j]] Hj; cbn; try lra; lia.
  - split; [lia|]. intros [|[|j]] Hj; cbn; split; intros; try lia; try discriminate; auto.
  - rewrite (lambda_max_one 2 (m2 2 1 1 3) (v2 2 4) _ 0).
    + cbn [np_max vmax]. unfold res_corr. cbn [m2 v2]. f_equal.
      rewrite (Rabs_right (4 - 1 * (2 / 2))) by lra.
      replace (2 - 2 * (2 / 2)) with 0 by lra. rewrite Rabs_R0, Rmax_right; lra.
    + split; [lia|]. intros [|[|j]] Hj; cbn; split; intros; try lia; try discriminate; auto.
    + cbn. lra.
  - lra.
  - exists c', P. split; [exact E|]. split; [|apply B; lia].
    rewrite A. cbn [m2 v2]. lra.
Qed.

(** C16. The first row of a fitted lasso path with intercept: least squares on the
    intercept, zero elsewhere. *)
Theorem C16_first_row : forall c perm J x y isreg lmax,
  en_alpha c = 1 -> en_lower c = None -> en_upper c = None -> 0 < en_eps c -> (1 <= en_n c)%nat ->
  (forall k i, Permutation (perm k i) (seq 0 J)) ->
  symmetric J x -> (forall j, (j < J)%nat -> 0 < x j j) ->
  only_unreg J isreg 0 -> get_lambda_max J x y isreg = Ok lmax -> 0 < lmax ->
  exists c' P, fit_beta_path c perm J x y isreg = Ok (c', P) /\
    P 0%nat 0%nat = y 0%nat / x 0%nat 0%nat /\ forall j, (1 <= j < J)%nat -> P 0%nat j = 0.
Proof. exact lasso_first_row. Qed.
Print Assumptions C16_first_row.
(** The first penalty is the smallest one with that property. *)
Theorem C16_lambda_max_tight : forall J x y isreg u lambda lmax,
  symmetric J x -> psd J x -> (forall j, (j < J)%nat -> 0 < x j j) -> only_unreg J isreg u ->
  get_lambda_max J x y isreg = Ok lmax -> 0 <= lambda ->
  (enet_minimiser J x y lambda isreg 1 (fun _ => None) (fun _ => None) (only_u x y u) <-> lmax <= lambda).
Proof. exact lambda_max_tight. Qed.
Print Assumptions C16_lambda_max_tight.
Example C16_example :
  enet_minimiser 2 (m2 2 1 1 3) (v2 2 4) 3 (fun j => negb (j =? 0)%nat) 1 (fun _ => None) (fun _ => None)
    (only_u (m2 2 1 1 3) (v2 2 4) 0) /\
  ~ enet_minimiser 2 (m2 2 1 1 3) (v2 2 4) (29 / 10) (fun j => negb (j =? 0)%nat) 1 (fun _ => None) (fun _ => None)
    (only_u (m2 2 1 1 3) (v2 2 4) 0).
Proof.
  assert (U : only_unreg 2 (fun j => negb (j =? 0)%nat) 0).
  { split; [lia|]. intros [|[|j]] Hj; cbn; split; intros; try lia; try discriminate; auto. }
  assert (M : get_lambda_max 2 (m2 2 1 1 3) (v2 2 4) (fun j => negb (j =? 0)%nat) = Ok 3).
  { rewrite (lambda_max_one 2 (m2 2 1 1 3) (v2 2 4) _ 0); auto; [|cbn; lra].
    cbn [np_max vmax]. unfold res_corr. cbn [m2 v2]. f_equal.
    rewrite (Rabs_right (4 - 1 * (2 / 2))) by lra.
    replace (2 - 2 * (2 / 2)) with 0 by lra. rewrite Rabs_R0, Rmax_right; lra. }
  assert (D : forall j, (j < 2)%nat -> 0 < m2 2 1 1 3 j j) by (intros [|[|j]] Hj; cbn; try lra; lia).
  split.
  - apply (C16_lambda_max_tight 2 _ _ _ 0 3 3 (m2_sym 2 1 3) (m2_psd 2 1 3 ltac:(lra) ltac:(lra)) D U M); lra.
  - intros H.
    apply (C16_lambda_max_tight 2 _ _ _ 0 (29 / 10) 3 (m2_sym 2 1 3) (m2_psd 2 1 3 ltac:(lra) ltac:(lra)) D U M) in H; lra.
Qed.

(** C17. No unregularised column. *)
Theorem C17_nonnegative_first_row_zero : forall c perm J x y isreg lmax,
  en_alpha c = 1 -> en_lower c = None -> en_upper c = None -> 0 < en_eps c -> (1 <= en_n c)%nat ->
  (forall k i, Permutation (perm k i) (seq 0 J)) -> (forall j, (j < J)%nat -> 0 < x j j) ->
  all_reg J isreg -> get_lambda_max J x y isreg = Ok lmax -> 0 < lmax ->
  (forall j, (j < J)%nat -> Rabs (y j) <= lmax) ->
  exists c' P, fit_beta_path c perm J x y isreg = Ok (c', P) /\ forall j, (j < J)%nat -> P 0%nat j = 0.
Proof. exact all_first_row_zero. Qed.
Print Assumptions C17_nonnegative_first_row_zero.
Theorem C17_negative_first_row_nonzero : forall c perm J x y isreg lmax c' P,
  0 <= en_alpha c <= 1 -> en_lower c = None -> en_upper c = None -> (1 <= en_n c)%nat ->
  (forall k i, Permutation (perm k i) (seq 0 J)) ->
  symmetric J x -> (forall j, (j < J)%nat -> 0 < x j j) ->
  all_reg J isreg -> get_lambda_max J x y isreg = Ok lmax -> 0 < lmax ->
  (exists j, (j < J)%nat /\ en_alpha c * lmax < Rabs (y j)) ->
  fit_beta_path c perm J x y isreg = Ok (c', P) ->
  exists j, (j < J)%nat /\ P 0%nat j <> 0.
Proof. exact all_first_row_nonzero. Qed.
Print Assumptions C17_negative_first_row_nonzero.
Theorem C17_negative_grid : forall J x y isreg lmax eps n g,
  all_reg J isreg -> (forall j, (j < J)%nat -> y j < 0) -> get_lambda_max J x y isreg = Ok lmax ->
  geomspace lmax (lmax * eps) n = Ok g -> forall l, In l g -> l < 0.
Proof. exact all_negative_grid. Qed.
Print Assumptions C17_negative_grid.
(** One negatively correlated column: the "lasso" starts at twice the least-squares value. *)
Theorem C17_single_column_doubled : forall c perm x y isreg c' P,
  en_alpha c = 1 -> en_lower c = None -> en_upper c = None -> (1 <= en_n c)%nat ->
  (forall k i, Permutation (perm k i) (seq 0 1)) -> 0 < x 0%nat 0%nat -> isreg 0%nat = true -> y 0%nat < 0 ->
  fit_beta_path c perm 1 x y isreg = Ok (c', P) ->
  P 0%nat 0%nat = 2 * (y 0%nat / x 0%nat 0%nat).
Proof. exact single_negative. Qed.
Print Assumptions C17_single_column_doubled.
Example C17_example : exists c' P,
  fit_beta_path (mk_en 1 3 (1 / 4) 0 previous_lambda previous_lambda false None None 0 10)
     (fun _ _ => seq 0 1) 1 (fun _ _ => 2) (fun _ => - 3) (fun _ => true) = Ok (c', P)
  /\ P 0%nat 0%nat = - 3.
Proof.
  pose (c := mk_en 1 3 (1 / 4) 0 previous_lambda previous_lambda false None None 0 10).
  assert (T : exists c' P, fit_beta_path c (fun _ _ => seq 0 1) 1 (fun _ _ => 2) (fun _ => - 3) (fun _ => true) = Ok (c', P)).
  { unfold fit_beta_path, set_and_validate_bounds. cbn [c en_lower en_upper fill_bound repeat length Nat.eqb negb bind].
    unfold get_lambda_max. cbn [unregularized seq filter negb np_max vmax bind en_eps en_n].
    rewrite geomspace_ok by (cbn [c en_eps]; intros ?; lra). cbn [bind]. unfold online_coordinate_descent_path.
    match goal with |- context [path_loop ?a ?r ?p ?t ?m ?e ?w ?b ?i0 ?l ?P ?ts] =>
      destruct (fun H1 H2 => path_loop_total a r p t m e w b H1 l i0 P ts H2) as (P1 & out & E) end.
    - intros i k. apply Permutation_refl.
    - intros l _ j _. unfold cd_den. cbn. lra.
    - rewrite E. cbn [bind fst]. eauto. }
  destruct T as (c' & P & E). exists c', P. split; [exact E|].
  replace (- 3) with (2 * (- 3 / 2)) by lra.
  apply (C17_single_column_doubled c (fun _ _ => seq 0 1) (fun _ _ => 2) (fun _ => - 3) (fun _ => true) c' P);
    try reflexivity; auto; try lra.
  cbn. lia.
Qed.

(** C18. *)
Theorem C18_mixed_first_row_nonzero : forall c perm J x y isreg lmax c' P,
  0 <= en_alpha c < 1 -> en_lower c = None -> en_upper c = None -> (1 <= en_n c)%nat ->
  (forall k i, Permutation (perm k i) (seq 0 J)) ->
  symmetric J x -> (forall j, (j < J)%nat -> 0 < x j j) ->
  only_unreg J isreg 0 -> get_lambda_max J x y isreg = Ok lmax -> 0 < lmax ->
  fit_beta_path c perm J x y isreg = Ok (c', P) ->
  exists j, (1 <= j < J)%nat /\ P 0%nat j <> 0.
Proof. exact one_first_row_nonzero. Qed.
Print Assumptions C18_mixed_first_row_nonzero.
Theorem C18_mixed_first_row_nonzero_all : forall c perm J x y isreg lmax c' P,
  0 <= en_alpha c <= 1 -> en_lower c = None -> en_upper c = None -> (1 <= en_n c)%nat ->
  (forall k i, Permutation (perm k i) (seq 0 J)) ->
  symmetric J x -> (forall j, (j < J)%nat -> 0 < x j j) ->
  all_reg J isreg -> get_lambda_max J x y isreg = Ok lmax -> 0 < lmax ->
  (exists j, (j < J)%nat /\ en_alpha c * lmax < Rabs (y j)) ->
  fit_beta_path c perm J x y isreg = Ok (c', P) ->
  exists j, (j < J)%nat /\ P 0%nat j <> 0.
Proof. exact all_first_row_nonzero. Qed.
Print Assumptions C18_mixed_first_row_nonzero_all.
Example C18_example : exists c' P,
  fit_beta_path (mk_en (1 / 2) 3 (1 / 4) 0 previous_lambda previous_lambda false None None 0 10)
    (fun _ _ => seq 0 2) 2 (m2 2 1 1 3) (v2 2 4) (fun j => negb (j =? 0)%nat) = Ok (c', P)
  /\ P 0%nat 1%nat <> 0.
Proof.
  pose (c := mk_en (1 / 2) 3 (1 / 4) 0 previous_lambda previous_lambda false None None 0 10).
  assert (U : only_unreg 2 (fun j => negb (j =? 0)%nat) 0).
  { split; [lia|]. intros [|[|j]] Hj; cbn; split; intros; try lia; try discriminate; auto. }
  assert (M : get_lambda_max 2 (m2 2 1 1 3) (v2 2 4) (fun j => negb (j =? 0)%nat) = Ok 3).
  { rewrite (lambda_max_one 2 (m2 2 1 1 3) (v2 2 4) _ 0); auto; [|cbn; lra].
    cbn [np_max vmax]. unfold res_corr. cbn [m2 v2]. f_equal.
    rewrite (Rabs_right (4 - 1 * (2 / 2))) by lra.
    replace (2 - 2 * (2 / 2)) with 0 by lra. rewrite Rabs_R0, Rmax_right; lra. }
  assert (D : forall j, (j < 2)%nat -> 0 < m2 2 1 1 3 j j) by (intros [|[|j]] Hj; cbn; try lra; lia).
  assert (Pm : forall k i : nat, Permutation ((fun _ _ : nat => seq 0 2) k i) (seq 0 2))
    by (intros ? ?; apply Permutation_refl).
  destruct (fit_total c (fun _ _ => seq 0 2) 2 (m2 2 1 1 3) (v2 2 4) (fun j => negb (j =? 0)%nat) 3)
    as (c' & P & E); auto; try (cbn; lra); try lra.
  exists c', P. split; [exact E|].
  destruct (C18_mixed_first_row_nonzero c (fun _ _ => seq 0 2) 2 (m2 2 1 1 3) (v2 2 4)
     (fun j => negb (j =? 0)%nat) 3 c' P) as (j & Hj & N); auto; try (cbn; lra); try lra.
  - cbn. lia.
  - apply m2_sym.
  - replace j with 1%nat in N by lia. exact N.
Qed.

(** C19. *)
Theorem C19_grid : forall lmax eps n, 0 < lmax -> 0 < eps < 1 -> (2 <= n)%nat ->
  exists g q, geomspace lmax (lmax * eps) n = Ok g /\ length g = n /\
    nth 0 g 0 = lmax /\ nth (n - 1) g 0 = lmax * eps /\ 0 < q < 1 /\
    (forall i, (S i < n)%nat -> nth (S i) g 0 = q * nth i g 0) /\
    (forall i k, (i < k < n)%nat -> nth k g 0 < nth i g 0) /\
    (forall i, (i < n)%nat -> 0 < nth i g 0).
Proof. exact C19_lemma. Qed.
Print Assumptions C19_grid.
Example C19_example : exists g, geomspace 8 (8 * (1 / 4)) 3 = Ok g /\
  nth 0 g 0 = 8 /\ nth 1 g 0 = 4 /\ nth 2 g 0 = 2.
Proof.
  destruct (C19_grid 8 (1 / 4) 3 ltac:(lra) ltac:(lra) ltac:(lia)) as (g & q & E & _ & H0 & H2 & Hq & Hr & _).
  exists g. split; auto. cbn [Nat.sub] in H2.
  pose proof (Hr 0%nat ltac:(lia)) as R0. pose proof (Hr 1%nat ltac:(lia)) as R1.
  rewrite H0 in R0. rewrite R0, H2 in R1. repeat split; auto; try lra.
  assert ((q - 1 / 2) * (q + 1 / 2) = 0) as Z by nra.
  apply Rmult_integral in Z. destruct Z; lra.
Qed.

(** C20. *)
Theorem C20_average_is_previous_fit : forall a random perm tol maxit early beta_path lambdas,
  online_coordinate_descent_path a random perm tol maxit early average beta_path lambdas
  = online_coordinate_descent_path a random perm tol maxit early previous_fit beta_path lambdas.
Proof. exact path_average. Qed.
Print Assumptions C20_average_is_previous_fit.
(** The averaged start would differ: (previous row + previous fit) / 2. *)
Example C20_example : exists (Pn bp : nat -> vec),
  path_start average Pn bp 1 0%nat <> (Pn 0%nat 0%nat + bp 1%nat 0%nat) / 2.
Proof. exists (fun _ _ => 0), (fun _ _ => 2). cbn. lra. Qed.

(** C21. Every row of an updated path is a copied start value or a coordinate-descent
    run at its grid penalty. *)
Theorem C21_row_shape : forall c perm J x y bp isreg P,
  update_beta_path c perm J x y bp isreg = Ok P ->
  exists g lmax, get_lambda_max J x y isreg = Ok lmax /\ geomspace lmax (lmax * en_eps c) (en_n c) = Ok g /\
  forall k, (k < en_n c)%nat ->
    let s := match en_start_update c with
             | previous_lambda => match k with O => fun _ => 0 | S k' => P k' end
             | _ => bp k
             end in
    ((0 < en_early_stop c <= count_nonzero J s)%nat /\ P k = s)
    \/ (~ (0 < en_early_stop c <= count_nonzero J s)%nat /\
        exists m, online_coordinate_descent
               (mk_cd J x y (nth k g 0) isreg (en_alpha c) (bound_fun (en_lower c)) (bound_fun (en_upper c)))
               (en_random c) (perm k) (en_tol c) (en_maxit c) s = Ok (P k, m)).
Proof. exact C21_rows_lemma. Qed.
Print Assumptions C21_row_shape.
Theorem C21_frozen : forall c J isreg k us bp P,
  (0 < en_early_stop c)%nat -> en_start_update c <> previous_lambda -> (k < en_n c)%nat ->
  (en_early_stop c <= count_nonzero J (bp k))%nat ->
  update_paths c J isreg bp us = Ok P -> P k = bp k.
Proof. exact history_frozen. Qed.
Print Assumptions C21_frozen.
Example C21_example : forall perm1 perm2 P,
  update_paths (mk_en 1 3 (1 / 4) 1 previous_lambda previous_fit false None None 0 10) 2
    (fun j => negb (j =? 0)%nat) (fun _ => v2 1 0)
    [(perm1, m2 2 1 1 3, v2 2 4); (perm2, m2 20 1 1 30, v2 100 (-50))] = Ok P ->
  P 1%nat = v2 1 0.
Proof.
  intros perm1 perm2 P H.
  apply (C21_frozen _ 2 _ 1 _ (fun _ => v2 1 0) P) in H; auto; cbn [en_early_stop en_start_update en_n]; try lia; try discriminate.
  cbn [count_nonzero v2]. repeat rcase; try lra; lia.
Qed.

(** C67. Ridge. *)
Theorem C67_fixed_point_solves : forall c perm J x y isreg lambda b b',
  ri_lambda c = Some lambda -> ri_maxit c = 0%nat ->
  (forall j, bound_fun (ri_lower c) j = None /\ bound_fun (ri_upper c) j = None) ->
  (forall j, (j < J)%nat -> 0 < x j j) -> 0 <= lambda ->
  ridge_update c perm J x y b isreg = Ok b' -> eqv J b' b ->
  ridge_equations J x y lambda isreg b.
Proof. exact C67_fixed_lemma. Qed.
Print Assumptions C67_fixed_point_solves.
Theorem C67_solution_is_kept : forall c perm J x y isreg lambda b,
  ri_lambda c = Some lambda ->
  (forall j, bound_fun (ri_lower c) j = None /\ bound_fun (ri_upper c) j = None) ->
  (forall j, (j < J)%nat -> 0 < x j j) -> 0 <= lambda ->
  (forall i, Permutation (perm i) (seq 0 J)) ->
  ridge_equations J x y lambda isreg b ->
  exists b', ridge_update c perm J x y b isreg = Ok b' /\ eqv J b' b.
Proof. exact C67_keep_lemma. Qed.
Print Assumptions C67_solution_is_kept.
Theorem C67_unique_minimiser : forall J x y lambda isreg b t,
  symmetric J x -> psd J x -> (forall j, (j < J)%nat -> 0 < x j j) -> 0 < lambda ->
  (all_reg J isreg \/ exists u, only_unreg J isreg u) ->
  ridge_equations J x y lambda isreg b ->
  enet_obj J x y lambda isreg 0 b <= enet_obj J x y lambda isreg 0 t /\
  (enet_obj J x y lambda isreg 0 t <= enet_obj J x y lambda isreg 0 b -> eqv J t b).
Proof. exact ridge_unique. Qed.
Print Assumptions C67_unique_minimiser.
(** The penalty in force is the given one, or else the mean diagonal of the first Gramian. *)
Theorem C67_fit_start : forall inv c perm J x y isreg b,
  ri_lower c = None -> ri_upper c = None ->
  (forall j, (j < J)%nat -> 0 < x j j) ->
  match ri_lambda c with Some l => 0 <= l | None => (1 <= J)%nat end ->
  (forall i, Permutation (perm i) (seq 0 J)) ->
  ri_start c = Some b ->
  ridge_equations J x y (match ri_lambda c with Some l => l | None => bsum J (fun j => x j j) / INR J end) isreg b ->
  exists c' b', ridge_fit inv c perm J x y isreg = Ok (c', b') /\ eqv J b' b /\
    ri_lambda c' = Some (match ri_lambda c with Some l => l | None => bsum J (fun j => x j j) / INR J end).
Proof. exact C67_fit_lemma. Qed.
Print Assumptions C67_fit_start.
Theorem C67_zero_penalty_is_least_squares : forall inv c perm J x y isreg xi,
  ri_lower c = None -> ri_upper c = None -> (forall j, (j < J)%nat -> 0 < x j j) ->
  ri_lambda c = Some 0 -> (forall i, Permutation (perm i) (seq 0 J)) ->
  ri_start c = None -> inv J x = Some xi -> is_inverse J x xi ->
  exists c' b', ridge_fit inv c perm J x y isreg = Ok (c', b') /\
    forall j, (j < J)%nat -> mvec J x b' j = y j.
Proof. exact C67_zero_lemma. Qed.
Print Assumptions C67_zero_penalty_is_least_squares.
Example C67_example :
  ridge_equations 2 (m2 2 1 1 2) (v2 7 5) 2 (fun _ => true) (v2 (23 / 15) (13 / 15)) /\
  exists b', ridge_update (mk_ridge (Some 2) None false None None 0 10) (fun _ => seq 0 2) 2
       (m2 2 1 1 2) (v2 7 5) (v2 (23 / 15) (13 / 15)) (fun _ => true) = Ok b'
    /\ eqv 2 b' (v2 (23 / 15) (13 / 15)).
Proof.
  assert (E : ridge_equations 2 (m2 2 1 1 2) (v2 7 5) 2 (fun _ => true) (v2 (23 / 15) (13 / 15))).
  { intros [|[|j]] Hj; try lia; unfold mvec; cbn [bsum m2 v2]; lra. }
  split; auto.
  apply (C67_solution_is_kept (mk_ridge (Some 2) None false None None 0 10) (fun _ => seq 0 2) 2
    (m2 2 1 1 2) (v2 7 5) (fun _ => true) 2); auto; try lra.
  intros [|[|j]] Hj; cbn; try lra; lia.
Qed.
