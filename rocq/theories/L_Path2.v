(** Facts about ElasticNetPath.fit_beta_path and update_beta_path. *)
From Coq Require Import Reals List Bool Arith Lia Lra Psatz Permutation.
From Verif Require Import Base Lin M_CD M_Path S_CD L_CD1 L_CD L_CD2 L_Path.
Import ListNotations.
Open Scope R_scope.

Definition perms_ok (J : nat) (perm : nat -> nat -> list nat) : Prop := forall i, perm_ok J (perm i).

Lemma bounds_inv c J c' : set_and_validate_bounds c J = Ok c' ->
  c' = mk_en (en_alpha c) (en_n c) (en_eps c) (en_early_stop c)
             (en_start_initial c) (en_start_update c) (en_random c)
             (Some (fill_bound (en_lower c) J)) (Some (fill_bound (en_upper c) J)) (en_tol c) (en_maxit c)
  /\ length (fill_bound (en_lower c) J) = J /\ length (fill_bound (en_upper c) J) = J.
Proof.
  unfold set_and_validate_bounds.
  destruct (Nat.eqb_spec (length (fill_bound (en_lower c) J)) J); simpl; [|discriminate].
  destruct (Nat.eqb_spec (length (fill_bound (en_upper c) J)) J); simpl; [|discriminate].
  intros [= <-]. auto.
Qed.

Lemma fit_inv c perm J x y isreg c' P : fit_beta_path c perm J x y isreg = Ok (c', P) ->
  exists lm out, set_and_validate_bounds c J = Ok c' /\ get_lambda_max J x y isreg = Ok lm /\
   lm <> 0 /\ lm * en_eps c <> 0 /\
   online_coordinate_descent_path (en_args c' J x y isreg) (en_random c) perm (en_tol c) (en_maxit c)
     (en_early_stop c) (en_start_initial c) (fun _ _ => 0)
     (map (grid_point lm (lm * en_eps c) (en_n c)) (seq 0 (en_n c))) = Ok (P, out).
Proof.
  unfold fit_beta_path.
  destruct (set_and_validate_bounds c J) as [c1|] eqn:E1; cbn [bind]; [|discriminate].
  destruct (get_lambda_max J x y isreg) as [lm|] eqn:E2; cbn [bind]; [|discriminate].
  destruct (geomspace lm (lm * en_eps c1) (en_n c1)) as [g|] eqn:E3; cbn [bind]; [|discriminate].
  destruct (online_coordinate_descent_path _ _ _ _ _ _ _ _ _) as [[P1 out]|] eqn:E4; cbn [bind]; [|discriminate].
  intros [= <- <-]. apply geomspace_inv in E3. destruct E3 as (H1 & H2 & ->).
  apply bounds_inv in E1 as B. destruct B as (B & _). subst c1.
  cbn [en_eps en_n en_random en_tol en_maxit en_early_stop en_start_initial fst] in *.
  exists lm, out. auto.
Qed.

Lemma update_inv c perm J x y bp isreg P : update_beta_path c perm J x y bp isreg = Ok P ->
  exists lm out, get_lambda_max J x y isreg = Ok lm /\ lm <> 0 /\ lm * en_eps c <> 0 /\
   online_coordinate_descent_path (en_args c J x y isreg) (en_random c) perm (en_tol c) (en_maxit c)
     (en_early_stop c) (en_start_update c) bp
     (map (grid_point lm (lm * en_eps c) (en_n c)) (seq 0 (en_n c))) = Ok (P, out).
Proof.
  unfold update_beta_path.
  destruct (get_lambda_max J x y isreg) as [lm|] eqn:E2; cbn [bind]; [|discriminate].
  destruct (geomspace lm (lm * en_eps c) (en_n c)) as [g|] eqn:E3; cbn [bind]; [|discriminate].
  destruct (online_coordinate_descent_path _ _ _ _ _ _ _ _ _) as [[P1 out]|] eqn:E4; cbn [bind]; [|discriminate].
  intros [= <-]. apply geomspace_inv in E3. destruct E3 as (H1 & H2 & ->). exists lm, out. auto.
Qed.

Lemma grid_length lm e n : length (map (grid_point lm e n) (seq 0 n)) = n.
Proof. rewrite map_length, seq_length. reflexivity. Qed.

Lemma grid_in_pos lm e n l : 0 < lm -> In l (map (grid_point lm e n) (seq 0 n)) -> 0 < l.
Proof. intros H Hin. apply in_map_iff in Hin. destruct Hin as (i & <- & _). apply grid_sign_pos; auto. Qed.

Lemma nth_repeat_none (J : nat) j : nth j (repeat (@None R) J) None = None.
Proof. revert j. induction J as [|J IH]; intros [|j]; simpl; auto. Qed.

Lemma default_unbounded c J c' x y isreg l :
  en_lower c = None -> en_upper c = None -> set_and_validate_bounds c J = Ok c' ->
  unbounded (with_reg (en_args c' J x y isreg) l).
Proof.
  intros H1 H2 H. apply bounds_inv in H. destruct H as (-> & _). intros j.
  unfold en_args, with_reg; cbn [cd_lo cd_up en_lower en_upper bound_fun].
  rewrite H1, H2. cbn [fill_bound]. split; apply nth_repeat_none.
Qed.

(** Existence of the fitted path. *)
Lemma fit_total c perm J x y isreg lm :
  en_lower c = None -> en_upper c = None -> perms_ok J perm ->
  (forall j, (j < J)%nat -> 0 < x j j) -> 0 <= en_alpha c <= 1 ->
  get_lambda_max J x y isreg = Ok lm -> 0 < lm -> 0 < en_eps c ->
  exists c' P, fit_beta_path c perm J x y isreg = Ok (c', P).
Proof.
  intros HL HU Hp Hd Ha Hm Hlm He. unfold fit_beta_path, set_and_validate_bounds.
  rewrite HL, HU. cbn [fill_bound]. rewrite repeat_length, Nat.eqb_refl. cbn [negb bind].
  rewrite Hm. cbn [bind en_eps en_n]. rewrite geomspace_ok by nra. cbn [bind].
  unfold online_coordinate_descent_path.
  match goal with |- context [path_loop ?a0 ?r perm ?t ?m ?e ?w ?bp 0 ?g ?pn ?its] =>
    destruct (path_loop_total a0 r perm t m e w bp Hp g 0 pn its) as (P & out & E) end.
  - intros l Hin j Hj. pose proof (grid_in_pos _ _ _ _ Hlm Hin) as Hl.
    unfold cd_den, with_reg, en_args in *; cbn [cd_isreg cd_x cd_reg cd_alpha cd_J en_alpha] in *.
    specialize (Hd j Hj). destruct (isreg j); [|lra].
    assert (0 <= l * (1 - en_alpha c)) by (apply Rmult_le_pos; lra). lra.
  - rewrite E. cbn [bind fst]. eauto.
Qed.


(** The first row of a fitted path is coordinate descent from zero at the largest penalty. *)
Lemma fit_first_row c perm J x y isreg c' P : (1 <= en_n c)%nat ->
  fit_beta_path c perm J x y isreg = Ok (c', P) ->
  exists lm n, set_and_validate_bounds c J = Ok c' /\ get_lambda_max J x y isreg = Ok lm /\ lm <> 0 /\
    online_coordinate_descent (with_reg (en_args c' J x y isreg) lm) (en_random c) (perm 0%nat)
      (en_tol c) (en_maxit c) (fun _ => 0) = Ok (P 0%nat, n).
Proof.
  intros Hn H. apply fit_inv in H. destruct H as (lm & out & E1 & E2 & E3 & _ & H).
  apply path_rows in H. destruct H as [_ H]. rewrite grid_length in H.
  specialize (H 0%nat ltac:(lia)). unfold row_ok in H. cbv zeta in H.
  rewrite grid_nth in H by lia. rewrite grid_first in H.
  replace (row_start (en_start_initial c) P (fun _ _ => 0) 0) with (fun _ : nat => 0) in H
    by (destruct (en_start_initial c); reflexivity).
  rewrite count_nonzero_zero in H.
  replace ((0 <? en_early_stop c)%nat && (en_early_stop c <=? 0)%nat) with false in H
    by (destruct (en_early_stop c); reflexivity).
  exists lm, (nth 0 out 0%nat). auto.
Qed.

Lemma lambda_max_one J x y isreg u : only_unreg J isreg u -> x u u <> 0 ->
  get_lambda_max J x y isreg = np_max J (fun k => Rabs (res_corr x y u k)).
Proof.
  intros H Hx. unfold get_lambda_max. rewrite (unregularized_one J isreg u H).
  replace (Reqb (x u u) 0) with false by (symmetry; apply Reqb_false; auto). reflexivity.
Qed.
Lemma lambda_max_all J x y isreg : all_reg J isreg -> get_lambda_max J x y isreg = np_max J y.
Proof. intros H. unfold get_lambda_max. rewrite (unregularized_none J isreg H). reflexivity. Qed.

(** C16, executed: the first row of a lasso path with intercept. *)
Lemma lasso_first_row c perm J x y isreg lm :
  en_alpha c = 1 -> en_lower c = None -> en_upper c = None -> 0 < en_eps c -> (1 <= en_n c)%nat ->
  perms_ok J perm -> symmetric J x -> (forall j, (j < J)%nat -> 0 < x j j) ->
  only_unreg J isreg 0 -> get_lambda_max J x y isreg = Ok lm -> 0 < lm ->
  exists c' P, fit_beta_path c perm J x y isreg = Ok (c', P) /\
    P 0%nat 0%nat = y 0%nat / x 0%nat 0%nat /\ forall j, (1 <= j < J)%nat -> P 0%nat j = 0.
Proof.
  intros Ha HL HU He Hn Hp HS Hd Hu Hm Hlm.
  destruct (fit_total c perm J x y isreg lm) as (c' & P & E); auto; [lra|].
  exists c', P. split; auto.
  destruct (fit_first_row _ _ _ _ _ _ _ _ Hn E) as (lm' & n & B & Hm' & _ & R).
  assert (lm' = lm) by congruence. subst lm'.
  pose (a := with_reg (en_args c' J x y isreg) lm). fold a in R.
  assert (Ea : cd_alpha a = 1).
  { apply bounds_inv in B. destruct B as (-> & _). exact Ha. }
  assert (Hub : unbounded a) by (eapply default_unbounded; eauto).
  assert (Ha' : 0 <= cd_alpha a <= 1) by lra.
  assert (Hx0 : x 0%nat 0%nat <> 0) by (specialize (Hd 0%nat (proj1 Hu)); lra).
  assert (F : cd_fixed a (only_u x y 0)).
  { assert (Hl' : 0 <= cd_reg a) by (cbn; lra).
    apply (proj2 (one_fixed_iff a 0 HS Hd Hu Hub Hl' Ha')).
    intros k Hk. rewrite Ea. change (cd_reg a) with lm. rewrite Rmult_1_l.
    rewrite (lambda_max_one J x y isreg 0 Hu Hx0) in Hm.
    apply np_max_spec in Hm. apply (proj1 Hm). exact Hk. }
  destruct (cd_fixed_after_first a (en_random c) (perm 0%nat) (en_tol c) (en_maxit c) (fun _ => 0)
     (only_u x y 0) (y 0%nat / x 0%nat 0%nat) F (Hp 0%nat) (proj1 Hu)) as (b' & n' & E' & Hb').
  - assert (Hl' : 0 <= cd_reg a) by (cbn; lra).
    exact (one_from_zero a 0 Hd Hu Hub Hl' Ha').
  - intros k _. unfold vset, only_u. destruct (Nat.eqb k 0); reflexivity.
  - rewrite R in E'. injection E' as <- _. split.
    + rewrite (Hb' 0%nat (proj1 Hu)). reflexivity.
    + intros j Hj. rewrite (Hb' j) by (cbn; lia). unfold only_u.
      destruct (Nat.eqb_spec j 0); [lia|reflexivity].
Qed.

(** C16, optimality: exact range of penalties for which the intercept-only vector is optimal. *)
Lemma lambda_max_tight J x y isreg u lambda lm :
  symmetric J x -> psd J x -> (forall j, (j < J)%nat -> 0 < x j j) -> only_unreg J isreg u ->
  get_lambda_max J x y isreg = Ok lm -> 0 <= lambda ->
  (enet_minimiser J x y lambda isreg 1 (fun _ => None) (fun _ => None) (only_u x y u) <-> lm <= lambda).
Proof.
  intros HS HP Hd Hu Hm Hl.
  pose (a := mk_cd J x y lambda isreg 1 (fun _ => None) (fun _ => None)).
  assert (Hub : unbounded a) by (intros j; split; reflexivity).
  assert (Hx0 : x u u <> 0) by (specialize (Hd u (proj1 Hu)); lra).
  rewrite (lambda_max_one J x y isreg u Hu Hx0) in Hm. apply np_max_spec in Hm.
  destruct Hm as [M1 (k & Hk & M2)].
  assert (Ha' : 0 <= cd_alpha a <= 1) by (cbn; lra).
  assert (W : cd_wf a) by exact (one_wf a HS Hd Hl Ha').
  assert (Fx : cd_fixed a (only_u x y u) <-> lm <= lambda).
  { pose proof (one_fixed_iff a u HS Hd Hu Hub Hl Ha') as Q. etransitivity; [exact Q|]. clear Q. split.
    - intros H. specialize (H k Hk). unfold a in H; cbn in H. lra.
    - intros H j Hj. unfold a; cbn. specialize (M1 j Hj). cbn in M1. lra. }
  rewrite <- Fx. split.
  - intros Hmin j Hj. apply cd_optimal_fixed; auto using unbounded_box.
    pose proof (one_den a Hd Hl Ha' j Hj). lra.
  - intros H. apply (cd_fixed_optimal a); auto using unbounded_box.
Qed.

(** C17 *)
Lemma all_first_row_zero c perm J x y isreg lm :
  en_alpha c = 1 -> en_lower c = None -> en_upper c = None -> 0 < en_eps c -> (1 <= en_n c)%nat ->
  perms_ok J perm -> (forall j, (j < J)%nat -> 0 < x j j) ->
  all_reg J isreg -> get_lambda_max J x y isreg = Ok lm -> 0 < lm ->
  (forall j, (j < J)%nat -> Rabs (y j) <= lm) ->
  exists c' P, fit_beta_path c perm J x y isreg = Ok (c', P) /\ forall j, (j < J)%nat -> P 0%nat j = 0.
Proof.
  intros Ha HL HU He Hn Hp Hd Hr Hm Hlm Hy.
  destruct (fit_total c perm J x y isreg lm) as (c' & P & E); auto; [lra|].
  exists c', P. split; auto.
  destruct (fit_first_row _ _ _ _ _ _ _ _ Hn E) as (lm' & n & B & Hm' & _ & R).
  assert (lm' = lm) by congruence. subst lm'.
  pose (a := with_reg (en_args c' J x y isreg) lm). fold a in R.
  assert (Ea : cd_alpha a = 1).
  { apply bounds_inv in B. destruct B as (-> & _). exact Ha. }
  assert (Hub : unbounded a) by (eapply default_unbounded; eauto).
  assert (Ha' : 0 <= cd_alpha a <= 1) by lra.
  assert (F : cd_fixed a (fun _ => 0)).
  { assert (Hl' : 0 <= cd_reg a) by (cbn; lra).
    apply (proj2 (all_fixed_iff a Hd Hr Hub Hl' Ha')).
    intros k Hk. rewrite Ea. change (cd_reg a) with lm. rewrite Rmult_1_l. apply (Hy k Hk). }
  destruct (cd_fixed_start a (en_random c) (perm 0%nat) (en_tol c) (en_maxit c) (fun _ => 0) (fun _ => 0) F (Hp 0%nat))
    as (b' & n' & E' & Hb').
  - intros k _. reflexivity.
  - rewrite R in E'. injection E' as <- _. intros j Hj. apply (Hb' j Hj).
Qed.

(** First row differs from zero as soon as zero is not a fixed point. *)
Lemma all_first_row_nonzero c perm J x y isreg lm c' P :
  0 <= en_alpha c <= 1 -> en_lower c = None -> en_upper c = None -> (1 <= en_n c)%nat ->
  perms_ok J perm -> symmetric J x -> (forall j, (j < J)%nat -> 0 < x j j) ->
  all_reg J isreg -> get_lambda_max J x y isreg = Ok lm -> 0 < lm ->
  (exists j, (j < J)%nat /\ en_alpha c * lm < Rabs (y j)) ->
  fit_beta_path c perm J x y isreg = Ok (c', P) ->
  exists j, (j < J)%nat /\ P 0%nat j <> 0.
Proof.
  intros Ha HL HU Hn Hp HS Hd Hr Hm Hlm (j & Hj & Hy) E.
  destruct (fit_first_row _ _ _ _ _ _ _ _ Hn E) as (lm' & n & B & Hm' & _ & R).
  assert (lm' = lm) by congruence. subst lm'.
  pose (a := with_reg (en_args c' J x y isreg) lm). fold a in R.
  assert (Ea : cd_alpha a = en_alpha c).
  { apply bounds_inv in B. destruct B as (-> & _). reflexivity. }
  assert (Hub : unbounded a) by (eapply default_unbounded; eauto).
  assert (Ha' : 0 <= cd_alpha a <= 1) by lra.
  assert (Hl' : 0 <= cd_reg a) by (cbn; lra).
  assert (W : cd_wf a).
  { split; [exact HS|]. split; [intros k Hk; specialize (Hd k Hk); cbn; lra|].
    split; [cbn; lra|]. rewrite Ea. auto. }
  assert (S : obj a (P 0%nat) < obj a (fun _ => 0)).
  { apply (cd_strict a (en_random c) (perm 0%nat) (en_tol c) (en_maxit c) _ _ n
             W (unbounded_box a Hub) (Hp 0%nat) (unbounded_in a _ Hub) R).
    intros F. pose proof (proj1 (all_fixed_iff a Hd Hr Hub Hl' Ha') F) as F0. clear F. rename F0 into F.
      specialize (F j Hj). rewrite Ea in F. cbn in F. lra. }
  destruct (Exists_dec (fun j => P 0%nat j <> 0) (seq 0 J)) as [Ex|Ex].
  - intros k. destruct (Req_EM_T (P 0%nat k) 0); [right; auto|left; auto].
  - apply Exists_exists in Ex. destruct Ex as (k & Hk & N). apply in_seq in Hk. exists k. split; [lia|auto].
  - exfalso. assert (Z : eqv (cd_J a) (P 0%nat) (fun _ => 0)).
    { intros k Hk. destruct (Req_dec (P 0%nat k) 0) as [|N]; auto. exfalso. apply Ex, Exists_exists.
      exists k. split; [apply in_seq; cbn in Hk; lia|auto]. }
    rewrite (obj_ext a _ _ Z) in S. lra.
Qed.

Lemma one_first_row_nonzero c perm J x y isreg lm c' P :
  0 <= en_alpha c < 1 -> en_lower c = None -> en_upper c = None -> (1 <= en_n c)%nat ->
  perms_ok J perm -> symmetric J x -> (forall j, (j < J)%nat -> 0 < x j j) ->
  only_unreg J isreg 0 -> get_lambda_max J x y isreg = Ok lm -> 0 < lm ->
  fit_beta_path c perm J x y isreg = Ok (c', P) ->
  exists j, (1 <= j < J)%nat /\ P 0%nat j <> 0.
Proof.
  intros Ha HL HU Hn Hp HS Hd Hu Hm Hlm E.
  destruct (fit_first_row _ _ _ _ _ _ _ _ Hn E) as (lm' & n & B & Hm' & _ & R).
  assert (lm' = lm) by congruence. subst lm'.
  pose (a := with_reg (en_args c' J x y isreg) lm). fold a in R.
  assert (Ea : cd_alpha a = en_alpha c).
  { apply bounds_inv in B. destruct B as (-> & _). reflexivity. }
  assert (Hub : unbounded a) by (eapply default_unbounded; eauto).
  assert (Ha' : 0 <= cd_alpha a <= 1) by lra.
  assert (Hl' : 0 <= cd_reg a) by (cbn; lra).
  assert (Hx0 : x 0%nat 0%nat <> 0) by (specialize (Hd 0%nat (proj1 Hu)); lra).
  assert (W : cd_wf a) by exact (one_wf a HS Hd Hl' Ha').
  rewrite (lambda_max_one J x y isreg 0 Hu Hx0) in Hm. apply np_max_spec in Hm.
  destruct Hm as [_ (k & Hk & M)].
  assert (Hk0 : k <> 0%nat).
  { intros ->. unfold res_corr in M.
    replace (y 0%nat - x 0%nat 0%nat * (y 0%nat / x 0%nat 0%nat)) with 0 in M by (field; auto).
    rewrite Rabs_R0 in M. lra. }
  assert (V0 : eqv (cd_J a) (vset (fun _ => 0) 0 (y 0%nat / x 0%nat 0%nat)) (only_u x y 0)).
  { intros i _. unfold vset, only_u. destruct (Nat.eqb i 0); reflexivity. }
  assert (S : obj a (P 0%nat) < obj a (only_u x y 0)).
  { rewrite <- (obj_ext a _ _ V0).
    apply (cd_strict_after_first a (en_random c) (perm 0%nat) (en_tol c) (en_maxit c) (fun _ => 0) _ n _
             W (unbounded_box a Hub) (Hp 0%nat) (unbounded_in a _ Hub) (proj1 Hu) R).
    - exact (one_from_zero a 0 Hd Hu Hub Hl' Ha').
    - exists k. split; [cbn; lia|]. rewrite (coord_ext a _ _ k V0 Hk). rewrite (V0 k Hk).
      intros F. apply (proj1 (one_coord_j a 0 HS Hd Hu Hub Hl' Ha' k Hk Hk0)) in F.
      change (cd_x a) with x in F. change (cd_y a) with y in F. rewrite M, Ea in F.
      change (cd_reg a) with lm in F. nra. }
  destruct (Exists_dec (fun j => P 0%nat j <> 0) (seq 1 (J - 1))) as [Ex|Ex].
  - intros i. destruct (Req_EM_T (P 0%nat i) 0); [right; auto|left; auto].
  - apply Exists_exists in Ex. destruct Ex as (i & Hi & N). apply in_seq in Hi. exists i. split; [lia|auto].
  - exfalso.
    assert (obj a (only_u x y 0) <= obj a (P 0%nat)); [|lra].
    apply (one_best a 0 HS Hd Hu Hub Hl' Ha').
    intros i Hi Hne. destruct (Req_dec (P 0%nat i) 0) as [|N]; auto. exfalso. apply Ex, Exists_exists.
    exists i. split; [apply in_seq; cbn in Hi; lia|auto].
Qed.

(** Negative correlations only: the whole grid is negative. *)
Lemma all_negative_grid J x y isreg lm eps n g :
  all_reg J isreg -> (forall j, (j < J)%nat -> y j < 0) -> get_lambda_max J x y isreg = Ok lm ->
  geomspace lm (lm * eps) n = Ok g -> forall l, In l g -> l < 0.
Proof.
  intros Hr Hy Hm Hg l Hl. rewrite (lambda_max_all J x y isreg Hr) in Hm.
  apply np_max_spec in Hm. destruct Hm as [_ (k & Hk & M)]. specialize (Hy k Hk).
  apply geomspace_inv in Hg. destruct Hg as (_ & _ & ->). apply in_map_iff in Hl.
  destruct Hl as (i & <- & _). apply grid_sign_neg. lra.
Qed.

(** One column, negative correlation: the first coefficient is twice least squares. *)
Lemma single_negative c perm x y isreg c' P :
  en_alpha c = 1 -> en_lower c = None -> en_upper c = None -> (1 <= en_n c)%nat ->
  perms_ok 1 perm -> 0 < x 0%nat 0%nat -> isreg 0%nat = true -> y 0%nat < 0 ->
  fit_beta_path c perm 1 x y isreg = Ok (c', P) ->
  P 0%nat 0%nat = 2 * (y 0%nat / x 0%nat 0%nat).
Proof.
  intros Ha HL HU Hn Hp Hd Hr Hy E.
  destruct (fit_first_row _ _ _ _ _ _ _ _ Hn E) as (lm & n & B & Hm & _ & R).
  assert (AR : all_reg 1 isreg) by (intros j Hj; replace j with 0%nat by lia; auto).
  rewrite (lambda_max_all 1 x y isreg AR) in Hm. injection Hm as <-.
  pose (a := with_reg (en_args c' 1 x y isreg) (y 0%nat)).
  fold a in R.
  assert (Ea : cd_alpha a = 1).
  { apply bounds_inv in B. destruct B as (-> & _). exact Ha. }
  assert (Hub : unbounded a) by (eapply default_unbounded; eauto).
  assert (Ha' : 0 <= cd_alpha a <= 1) by lra.
  assert (C : forall b, cd_coord a b 0 = Ok (2 * (y 0%nat / x 0%nat 0%nat))).
  { intros b. assert (D : cd_den a 0 = x 0%nat 0%nat).
    { unfold cd_den. change (cd_isreg a 0) with (isreg 0%nat). rewrite Hr, Ea.
      change (cd_x a 0%nat 0%nat) with (x 0%nat 0%nat). ring. }
    rewrite coord_unbounded by (auto; lra). rewrite D. unfold cd_num.
    change (cd_isreg a 0) with (isreg 0%nat). rewrite Hr, Ea.
    unfold cd_partial. change (cd_J a) with 1%nat. cbn [bsum].
    change (cd_y a 0%nat) with (y 0%nat). change (cd_x a 0%nat 0%nat) with (x 0%nat 0%nat).
    change (cd_reg a) with (y 0%nat).
    replace (y 0%nat - (0 + x 0%nat 0%nat * b 0%nat) + x 0%nat 0%nat * b 0%nat) with (y 0%nat) by ring.
    unfold soft_threshold, rsign. rcase; [lra|]. rcase; [|lra].
    rewrite Rabs_left by lra. rewrite Rmax_left by lra. f_equal. field. lra. }
  destruct (cd_fixed_after_first a (en_random c) (perm 0%nat) (en_tol c) (en_maxit c) (fun _ => 0)
    (fun _ => 2 * (y 0%nat / x 0%nat 0%nat)) (2 * (y 0%nat / x 0%nat 0%nat))) as (b' & n' & E' & Hb').
  - intros j Hj. replace j with 0%nat by (cbn in Hj; lia). apply C.
  - exact (Hp 0%nat).
  - exact (le_n 1).
  - apply C.
  - intros k Hk. replace k with 0%nat by (cbn in Hk; lia). reflexivity.
  - rewrite R in E'. injection E' as <- _. apply (Hb' 0%nat). cbn. lia.
Qed.

(** ** Bounds of fitted and updated paths *)
Definition cfg_boxed (c : en_cfg) (J : nat) (b : vec) : Prop :=
  in_box J (bound_fun (en_lower c)) (bound_fun (en_upper c)) b.
Definition cfg_box_ok (c : en_cfg) (J : nat) : Prop :=
  box_ok J (bound_fun (en_lower c)) (bound_fun (en_upper c)).

Lemma bounds_same c J c' b : set_and_validate_bounds c J = Ok c' ->
  cfg_boxed c' J b <-> cfg_boxed c J b.
Proof.
  intros H. apply bounds_inv in H. destruct H as (-> & _). unfold cfg_boxed, in_box.
  cbn [en_lower en_upper]. split; intros K j Hj; specialize (K j Hj);
  destruct (en_lower c), (en_upper c); cbn [fill_bound bound_fun] in *; rewrite ?nth_repeat_none in *; auto.
Qed.
Lemma bounds_same_ok c J c' : set_and_validate_bounds c J = Ok c' ->
  cfg_box_ok c J -> cfg_box_ok c' J.
Proof.
  intros H. apply bounds_inv in H. destruct H as (-> & _). unfold cfg_box_ok, box_ok.
  cbn [en_lower en_upper]. intros K j Hj; specialize (K j Hj);
  destruct (en_lower c), (en_upper c); cbn [fill_bound bound_fun] in *; rewrite ?nth_repeat_none in *; auto.
  all: try (destruct (nth j _ None)); auto.
Qed.

Lemma fit_boxed c perm J x y isreg c' P :
  cfg_box_ok c J -> perms_ok J perm ->
  fit_beta_path c perm J x y isreg = Ok (c', P) ->
  forall k, (k < en_n c)%nat -> cfg_boxed c J (P k).
Proof.
  intros Hb Hp H k Hk. apply fit_inv in H. destruct H as (lm & out & E1 & E2 & E3 & _ & H).
  rewrite <- (bounds_same c J c' _ E1).
  refine (path_boxed (en_args c' J x y isreg) _ perm _ _ _ _ _ _ P out _ Hp H _ k _).
  - apply (bounds_same_ok c J c' E1 Hb).
  - intros i _. right. reflexivity.
  - rewrite grid_length. auto.
Qed.

Lemma update_boxed c perm J x y bp isreg P :
  cfg_box_ok c J -> perms_ok J perm ->
  (forall k, (k < en_n c)%nat -> cfg_boxed c J (bp k)) ->
  update_beta_path c perm J x y bp isreg = Ok P ->
  forall k, (k < en_n c)%nat -> cfg_boxed c J (P k).
Proof.
  intros Hb Hp Hbp H k Hk. apply update_inv in H. destruct H as (lm & out & E2 & E3 & _ & H).
  refine (path_boxed (en_args c J x y isreg) _ perm _ _ _ _ _ _ P out _ Hp H _ k _); auto.
  - rewrite grid_length. intros i Hi. left. apply Hbp, Hi.
  - rewrite grid_length. auto.
Qed.

Lemma fit_cfg c perm J x y isreg c' P : fit_beta_path c perm J x y isreg = Ok (c', P) ->
  set_and_validate_bounds c J = Ok c' /\ en_n c' = en_n c /\ en_early_stop c' = en_early_stop c.
Proof.
  intros H. apply fit_inv in H. destruct H as (lm & out & E1 & _). split; auto.
  apply bounds_inv in E1. destruct E1 as (-> & _). auto.
Qed.

Definition stream_ok (J : nat) (us : list ((nat -> nat -> list nat) * mat * vec)) : Prop :=
  Forall (fun u => perms_ok J (fst (fst u))) us.

Lemma history_boxed c J isreg us : forall bp P,
  cfg_box_ok c J -> stream_ok J us ->
  (forall k, (k < en_n c)%nat -> cfg_boxed c J (bp k)) ->
  update_paths c J isreg bp us = Ok P ->
  forall k, (k < en_n c)%nat -> cfg_boxed c J (P k).
Proof.
  induction us as [|[[perm x] y] us IH]; cbn [update_paths]; intros bp P Hb Hs Hbp H.
  { injection H as <-. auto. }
  inversion Hs as [|? ? Hp Hs']; subst.
  destruct (update_beta_path c perm J x y bp isreg) as [P1|] eqn:E; cbn [bind] in H; [|discriminate].
  apply (IH P1 P); auto. eapply update_boxed; eauto.
Qed.

Lemma fit_history_boxed c perm J x y isreg c' P0 us P :
  cfg_box_ok c J -> perms_ok J perm -> stream_ok J us ->
  fit_beta_path c perm J x y isreg = Ok (c', P0) ->
  update_paths c' J isreg P0 us = Ok P ->
  forall k, (k < en_n c)%nat -> cfg_boxed c J (P k).
Proof.
  intros Hb Hp Hs Hf Hu k Hk.
  destruct (fit_cfg _ _ _ _ _ _ _ _ Hf) as (B & En & Ee).
  rewrite <- (bounds_same c J c' _ B).
  eapply (history_boxed c' J isreg us P0 P); eauto.
  - eapply bounds_same_ok; eauto.
  - rewrite En. intros i Hi. apply (bounds_same c J c' _ B). eapply fit_boxed; eauto.
  - rewrite En. auto.
Qed.

(** ** Early stopping freezes rows *)
Lemma update_frozen c perm J x y bp isreg P k :
  (0 < en_early_stop c)%nat -> en_start_update c <> previous_lambda -> (k < en_n c)%nat ->
  (en_early_stop c <= count_nonzero J (bp k))%nat ->
  update_beta_path c perm J x y bp isreg = Ok P -> P k = bp k.
Proof.
  intros He Hw Hk Hc H. apply update_inv in H. destruct H as (lm & out & _ & _ & _ & H).
  apply path_rows in H. destruct H as [_ H]. rewrite grid_length in H. specialize (H k Hk).
  unfold row_ok in H. cbv zeta in H.
  replace (row_start (en_start_update c) P bp k) with (bp k) in H
    by (destruct (en_start_update c); [contradiction|reflexivity|reflexivity]).
  change (cd_J (en_args c J x y isreg)) with J in H.
  replace ((0 <? en_early_stop c)%nat && (en_early_stop c <=? count_nonzero J (bp k))%nat) with true in H.
  2:{ symmetry. apply andb_true_iff. split; [apply Nat.ltb_lt|apply Nat.leb_le]; auto. }
  apply H.
Qed.

Lemma history_frozen c J isreg k us : forall bp P,
  (0 < en_early_stop c)%nat -> en_start_update c <> previous_lambda -> (k < en_n c)%nat ->
  (en_early_stop c <= count_nonzero J (bp k))%nat ->
  update_paths c J isreg bp us = Ok P -> P k = bp k.
Proof.
  induction us as [|[[perm x] y] us IH]; cbn [update_paths]; intros bp P He Hw Hk Hc H.
  { injection H as <-. auto. }
  destruct (update_beta_path c perm J x y bp isreg) as [P1|] eqn:E; cbn [bind] in H; [|discriminate].
  pose proof (update_frozen c perm J x y bp isreg P1 k He Hw Hk Hc E) as F.
  rewrite (IH P1 P He Hw Hk) by (auto; rewrite F; auto). exact F.
Qed.
