From Coq Require Import Reals List Bool Arith Lra Lia Permutation FunctionalExtensionality.
From Verif Require Import Base Lin Data M_Gram M_Utils M_Links M_State M_LM M_GAMLSS L_GAM2 L_GAM10 L_GAM11 L_Order1.
Import ListNotations.
Open Scope R_scope.
Open Scope st_scope.

Section Twin.
Context {M : Type} (ops : method_ops M) (e : env M) (k n : nat).
Definition twin_env : env M :=
  mk_env (e_cfg e) (e_prep e) (e_nobs e) (e_ntrain e) (e_isreg e) (fun p => (fst (e_X e p), swap k (snd (e_X e p))))
    (swap k (e_y e)) (swap k (e_w e)).
Notation e' := twin_env.
Let d := o_dist (e_cfg e).
Hypothesis Hf : forall p, p_forget (e_prep e) p = 0.
Hypothesis Hw : length (e_w e) = n.
Hypothesis Hy : length (e_y e) = n.
Hypothesis HX : forall p, (p < d_n d)%nat -> length (snd (e_X e p)) = n.

Definition rows_twin {A} (l l' : list A) : Prop := length l = n /\ l' = swap k l.
Definition W (s s' : work M) : Prop := length (w_fv s) = n /\ exists r g1 g2 g3 ro,
  s' = mk_work (w_method s) (swap k (w_fv s)) (w_x s) (w_y s) r (w_msd s) (w_coef s) (w_path s) (w_sum s) (w_mean s)
    (w_iter s) (w_step s) (w_itinner s) (w_min s) g1 g2 g3 (w_xn s) (w_yn s) (w_sumn s) (w_meann s) ro (w_msd_old s).
Definition sim {A} (Q : A -> A -> Prop) (m m' : st (work M) A) : Prop :=
  forall s s' s1 a, W s s' -> m s = (s1, Ok a) -> exists s1' b, m' s' = (s1', Ok b) /\ W s1 s1' /\ Q a b.

Lemma sim_bnd {A B} (Q : A -> A -> Prop) (Q' : B -> B -> Prop) m m' (f f' : A -> st (work M) B) :
  sim Q m m' -> (forall a b, Q a b -> sim Q' (f a) (f' b)) -> sim Q' (bnd m f) (bnd m' f').
Proof.
  intros H K s s' s2 b HW E. apply bnd_inv in E. destruct E as (a & s1 & E1 & E2).
  destruct (H s s' s1 a HW E1) as (s1' & a' & E1' & HW1 & HQ).
  destruct (K a a' HQ s1 s1' s2 b HW1 E2) as (s2' & b' & E2' & HW2 & HQ').
  exists s2', b'. split; [|auto]. unfold bnd. now rewrite E1'.
Qed.
Lemma sim_ret {A} (Q : A -> A -> Prop) a b : Q a b -> sim Q (ret a) (ret b).
Proof. intros H s s' s1 v HW E. apply ret_inv in E. destruct E as [-> <-]. exists s', b. auto. Qed.
Lemma sim_raise {A} (Q : A -> A -> Prop) x m' : sim Q (raise x) m'.
Proof. intros s s' s1 v HW E. discriminate E. Qed.
Lemma sim_lift {A} (Q : A -> A -> Prop) r r' : (forall a, r = Ok a -> exists b, r' = Ok b /\ Q a b) -> sim Q (lift r) (lift r').
Proof.
  intros H s s' s1 v HW E. apply lift_inv in E. destruct E as [-> E]. destruct (H v E) as (b & -> & HQ). exists s', b. auto.
Qed.
Lemma sim_same {A} (r : res A) : sim eq (lift r) (lift r).
Proof. apply sim_lift. eauto. Qed.
Lemma sim_peek {A} (Q : A -> A -> Prop) f : (forall s s', W s s' -> Q (f s) (f s')) -> sim Q (peek f) (peek f).
Proof. intros H s s' s1 v HW E. apply peek_inv in E. destruct E as [-> <-]. exists s', (f s'). split; [reflexivity|auto]. Qed.
Lemma sim_get {A} (f : work M -> option A) : (forall s s', W s s' -> f s' = f s) -> sim eq (get f) (get f).
Proof.
  intros H s s' s1 v HW E. apply get_inv in E. destruct E as [-> E]. exists s', v. unfold get. rewrite (H s s' HW), E. auto.
Qed.
Lemma sim_write f f' : (forall s s', W s s' -> W (f s) (f' s')) -> sim eq (write f) (write f').
Proof. intros H s s' s1 v HW E. apply write_inv in E. subst s1. destruct v. exists (f' s'), tt. split; [reflexivity|auto]. Qed.
Lemma sim_weak {A} (Q Q' : A -> A -> Prop) m m' : (forall a b, Q a b -> Q' a b) -> sim Q m m' -> sim Q' m m'.
Proof. intros H K s s' s1 a HW E. destruct (K s s' s1 a HW E) as (s1' & b & E' & HW' & HQ). eauto 6. Qed.
Lemma sim_read_iter i : sim eq (read_iter i) (read_iter i).
Proof.
  intros s s' s1 v HW E. apply read_iter_inv in E. destruct E as [-> E]. exists s', v.
  destruct HW as (L & r & g1 & g2 & g3 & ro & ->). unfold read_iter. cbn [w_iter]. rewrite E. split; [reflexivity|]. split; [|reflexivity].
  split; [exact L|]. repeat eexists.
Qed.
Lemma sim_read_step i j p : sim (fun a b => a = b /\ (p < d_n d)%nat) (read_step e i j p) (read_step e' i j p).
Proof.
  unfold read_step. cbn [twin_env e_prep e_cfg]. fold d. destruct (_ && _) eqn:E; [|apply sim_raise].
  apply andb_true_iff in E. destruct E as [_ E]. apply Nat.ltb_lt in E.
  apply sim_peek. intros s s' (L & r & g1 & g2 & g3 & ro & ->). cbn. auto.
Qed.
Ltac wtwin := let s := fresh "s" in let L := fresh "L" in
  intros s ? (L & ? & ? & ? & ? & ? & ->); cbn [w_method w_fv w_x w_y w_rss w_msd w_coef w_path w_sum w_mean w_iter w_step w_itinner w_min w_dbg w_dbg_dv w_dbg_coef w_xn w_yn w_sumn w_meann w_rss_old w_msd_old].
Lemma sim_put_dbg q v v' dv dv' : sim eq (put_dbg e q v dv) (put_dbg e' q v' dv').
Proof.
  apply sim_write. wtwin. cbn [twin_env e_cfg]. destruct (o_debug _); (split; [exact L|]; repeat eexists).
Qed.
Lemma sim_put_dbg_coef q v v' path path' : sim eq (put_dbg_coef e q v path) (put_dbg_coef e' q v' path').
Proof.
  apply sim_write. wtwin. cbn [twin_env e_cfg]. destruct (o_debug _); (split; [exact L|]; repeat eexists).
Qed.
Lemma sim_set_wmethod p m : sim eq (set_wmethod p m) (set_wmethod p m).
Proof. apply sim_write. wtwin. split; [exact L|]; repeat eexists. Qed.
Lemma sim_set_step i j p v : sim eq (@set_step M i j p v) (set_step i j p v).
Proof. apply sim_write. wtwin. split; [exact L|]; repeat eexists. Qed.
Lemma sim_set_itinner p it : sim eq (@set_itinner M p it) (set_itinner p it).
Proof. apply sim_write. wtwin. split; [exact L|]; repeat eexists. Qed.

(** * Row-wise pieces *)
Lemma col_swap fv p : col (swap k fv) p = swap k (col fv p).
Proof. unfold col. symmetry. apply swap_map. Qed.
Lemma set_col_swap fv p v : length fv = length v -> set_col (swap k fv) p (swap k v) = swap k (set_col fv p v).
Proof. intros H. unfold set_col. now rewrite swap_map2. Qed.
Lemma set_col_len fv p v : length fv = n -> length v = n -> length (set_col fv p v) = n.
Proof. intros. unfold set_col. now apply map2_len_eq. Qed.
Lemma col_len (fv : list vec) p : length (col fv p) = length fv.
Proof. apply map_length. Qed.
Lemma deviance_swap fv v : length fv = n -> deviance e fv = Ok v -> deviance e' (swap k fv) = Ok v.
Proof.
  intros L. unfold deviance. cbn [twin_env e_cfg e_y e_w]. fold d.
  destruct (all_some (map2 (d_logpdf d) (e_y e) fv)) as [ll|] eqn:E; [|discriminate]. cbn. intros H. injection H as <-.
  rewrite <- swap_map2 by congruence. rewrite (swap_all_some k _ _ E). cbn.
  rewrite <- swap_map2, swap_lsum; [reflexivity|]. apply all_some_length in E. rewrite E, Hw. apply map2_len_eq; assumption.
Qed.
Lemma forget_vector_one p : forget_vector e p = repeat 1 n.
Proof. unfold forget_vector. rewrite Hf, no_forget, Hy. reflexivity. Qed.
Lemma forget_vector_twin p : forget_vector e' p = repeat 1 n.
Proof. unfold forget_vector. cbn [twin_env e_y e_prep]. rewrite Hf, no_forget, swap_length, Hy. reflexivity. Qed.
Lemma mult3_swap a b : length a = n -> length b = n -> mult3 (swap k a) (swap k b) (repeat 1 n) = swap k (mult3 a b (repeat 1 n)).
Proof.
  intros Ha Hb. unfold mult3. rewrite <- swap_map2 by congruence.
  rewrite (swap_map2 Rmult k (map2 Rmult a b) (repeat 1 n)), swap_repeat; [reflexivity|].
  rewrite repeat_length. now apply map2_len_eq.
Qed.
Lemma mult3_len a b : length a = n -> length b = n -> length (mult3 a b (repeat 1 n)) = n.
Proof. intros Ha Hb. unfold mult3. apply map2_len_eq; [now apply map2_len_eq|apply repeat_length]. Qed.
Definition wk_twin (a b : list R * dbg) : Prop :=
  rows_twin (fst a) (fst b) /\ rows_twin (g_wt (snd a)) (g_wt (snd b)) /\ rows_twin (g_wv (snd a)) (g_wv (snd b)).
Lemma working_swap u p fv a : length fv = n -> working e u p fv = Ok a ->
  exists b, working e' u p (swap k fv) = Ok b /\ wk_twin a b.
Proof.
  intros L. unfold working. cbn [twin_env e_cfg e_y e_w]. fold e' d. rewrite forget_vector_one, forget_vector_twin.
  destruct (all_some (map (d_link d p) (col fv p))) as [eta|] eqn:E1; [|discriminate]. cbn [bind].
  destruct (all_some (map2 (d_dl1 d p) (e_y e) fv)) as [dl1|] eqn:E2; [|discriminate]. cbn [bind].
  destruct (all_some (map2 (d_dl2 d p) (e_y e) fv)) as [dl2|] eqn:E3; [|discriminate]. cbn [bind].
  destruct (all_some (map2 _ (combine eta dl1) _)) as [wv|] eqn:E4; [|discriminate]. cbn [bind].
  rewrite col_swap, <- swap_map, (swap_all_some k _ _ E1). cbn [bind].
  rewrite <- !swap_map2 by congruence. rewrite (swap_all_some k _ _ E2), (swap_all_some k _ _ E3). cbn [bind].
  pose proof (all_some_length _ _ E1) as L1. rewrite map_length, col_len in L1.
  pose proof (all_some_length _ _ E2) as L2. rewrite (map2_len_eq _ _ _ n Hy L) in L2.
  pose proof (all_some_length _ _ E3) as L3. rewrite (map2_len_eq _ _ _ n Hy L) in L3.
  set (wt := map2 (if u then update_weight else fit_weight) dl2 (map (d_dinv d p) eta)) in *.
  assert (L4 : length wt = n) by (apply map2_len_eq; [|rewrite map_length]; congruence).
  rewrite <- swap_map, <- swap_map2 by (rewrite map_length; congruence). fold wt.
  rewrite <- !swap_combine by (rewrite ?map_length; congruence).
  rewrite <- swap_map2 by (rewrite !combine_length, !map_length; lia). rewrite (swap_all_some k _ _ E4). cbn [bind].
  assert (LR : length (map2 Rmult (e_w e) wt) = n) by now apply map2_len_eq.
  change (map2 Rmult (map2 Rmult (swap k (e_w e)) (swap k wt)) (repeat 1 n)) with (mult3 (swap k (e_w e)) (swap k wt) (repeat 1 n)).
  rewrite mult3_swap by congruence. unfold mult3. rewrite swap_length, swap_forallb. destruct (_ || _); [|discriminate]. intros H. injection H as <-.
  eexists. split; [reflexivity|]. unfold wk_twin, rows_twin. cbn [fst snd g_wt g_wv].
  split; [split; [congruence|reflexivity]|]. split; [split; [exact L4|reflexivity]|]. split; [|reflexivity].
  apply all_some_length in E4. rewrite E4. apply map2_len_eq; rewrite combine_length, ?map_length; lia.
Qed.

(** * Model selection *)
Lemma wrss_swap p wv g b : (p < d_n d)%nat -> length wv = n -> length g = n -> wrss e' p (swap k wv) (swap k g) b = wrss e p wv g b.
Proof.
  intros Hp Lv Lg. unfold wrss. cbn [twin_env e_X]. pose proof (HX p Hp) as L. destruct (e_X e p) as [q X]. cbn [fst snd] in *.
  rewrite <- swap_combine by congruence. rewrite <- swap_map2 by (rewrite combine_length; lia). apply swap_lsum.
Qed.
Lemma path_ll_swap p fv g b v : (p < d_n d)%nat -> length fv = n -> length g = n -> path_ll e p fv g b = Ok v -> path_ll e' p (swap k fv) (swap k g) b = Ok v.
Proof.
  intros Hp Lf Lg. unfold path_ll. cbn [twin_env e_X e_cfg e_y]. fold d. pose proof (HX p Hp) as L. destruct (e_X e p) as [q X]. cbn [fst snd] in *.
  rewrite <- swap_map, set_col_swap by (rewrite map_length; congruence).
  set (th := set_col fv p _). assert (Lt : length th = n) by (apply set_col_len; rewrite ?map_length; assumption).
  rewrite <- swap_map2 by congruence. destruct (all_some (map2 (d_logpdf d) (e_y e) th)) as [ll|] eqn:E; [|discriminate].
  rewrite (swap_all_some k _ _ E). cbn. intros H. injection H as <-. rewrite <- swap_map2, swap_lsum; [reflexivity|].
  apply all_some_length in E. rewrite E, (map2_len_eq _ _ _ n Hy Lt). exact Lg.
Qed.
Lemma path_lls_swap p fv g path : (p < d_n d)%nat -> length fv = n -> length g = n -> forall v, path_lls e p fv g path = Ok v -> path_lls e' p (swap k fv) (swap k g) path = Ok v.
Proof.
  intros Hp Lf Lg. induction path as [|b path IH]; intros v H; cbn [path_lls] in *; [exact H|].
  destruct (path_ll e p fv g b) as [l|] eqn:E1; [|discriminate]. cbn [bind] in H.
  destruct (path_lls e p fv g path) as [r|] eqn:E2; [|discriminate]. cbn [bind] in H.
  rewrite (path_ll_swap p fv g b l Hp Lf Lg E1), (IH r eq_refl). exact H.
Qed.
Lemma mean_swap l : mean (swap k l) = mean l.
Proof. unfold mean. now rewrite swap_lsum, swap_length. Qed.
Lemma count_other_twin s s' p : W s s' -> count_other e' s' p = count_other e s p.
Proof. intros (L & ? & ? & ? & ? & ? & ->). reflexivity. Qed.
Lemma fit_select_swap s s' p wv wt path v : W s s' -> (p < d_n d)%nat -> length wv = n -> length wt = n ->
  fit_select e s p wv wt path = Ok v -> fit_select e' s' p (swap k wv) (swap k wt) path = Ok v.
Proof.
  intros HW Hp Lv Lt. unfold fit_select. rewrite forget_vector_one, forget_vector_twin.
  rewrite (count_other_twin s s' p HW). cbn [twin_env e_cfg e_prep e_ntrain e_X e_w fst].
  destruct (o_global_ll _).
  - destruct (path_lls e p (w_fv s) (repeat 1 n) path) as [ll|] eqn:E; [|discriminate].
    destruct HW as (L & ? & ? & ? & ? & ? & ->). cbn [w_fv].
    pose proof (path_lls_swap p (w_fv s) (repeat 1 n) path Hp L (repeat_length _ _) ll E) as K. rewrite swap_repeat in K.
    rewrite K. auto.
  - rewrite !mult3_swap by assumption. rewrite mean_swap.
    destruct (number_or_nan _) as [m|]; [|discriminate]. cbn [bind].
    rewrite (map_ext (fun b => npdiv (wrss e' p (swap k wv) (swap k (mult3 (e_w e) wt (repeat 1 n))) b) m)
                     (fun b => npdiv (wrss e p wv (mult3 (e_w e) wt (repeat 1 n)) b) m)).
    { auto. }
    intros b. rewrite wrss_swap; auto. now apply mult3_len.
Qed.
Lemma update_select_swap s s' p wv wt path old mw v : W s s' -> (p < d_n d)%nat -> length wv = n -> length wt = n ->
  (o_global_ll (e_cfg e) = true \/ forall j, (j < n)%nat -> e_nobs e - INR j <> 0) ->
  update_select e s p wv wt path old mw = Ok v -> update_select e' s' p (swap k wv) (swap k wt) path old mw = Ok v.
Proof.
  intros HW Hp Lv Lt Hsel. unfold update_select. rewrite forget_vector_one, forget_vector_twin.
  rewrite (count_other_twin s s' p HW). cbn [twin_env e_cfg e_prep e_ntrain e_X e_w e_y e_nobs fst]. rewrite swap_length.
  destruct (negb _); [discriminate|]. destruct (o_global_ll _).
  - assert (E1 : map2 Rmult (swap k (e_w e)) (repeat 1 n) = swap k (map2 Rmult (e_w e) (repeat 1 n))).
    { rewrite swap_map2, swap_repeat; [reflexivity|]. now rewrite repeat_length. }
    rewrite E1. set (g := map2 Rmult (e_w e) (repeat 1 n)).
    assert (Lg : length g = n) by (apply map2_len_eq; [exact Hw|apply repeat_length]).
    destruct (path_lls e p (w_fv s) g path) as [ll|] eqn:E; [|discriminate].
    destruct HW as (L & ? & ? & ? & ? & ? & ->). cbn [w_fv].
    rewrite (path_lls_swap p (w_fv s) g path Hp L Lg ll E). auto.
  - destruct Hsel as [|Hsel]; [discriminate|]. rewrite Hf, omu_swap by (rewrite Lt; exact Hsel).
    rewrite mult3_swap by assumption.
    assert (E : forall b, wrss e' p (swap k wv) (swap k (mult3 (e_w e) wt (repeat 1 n))) b = wrss e p wv (mult3 (e_w e) wt (repeat 1 n)) b).
    { intros b. rewrite wrss_swap; auto. now apply mult3_len. }
    rewrite (map2_ext' (fun b o => npdiv (wrss e' p (swap k wv) (swap k (mult3 (e_w e) wt (repeat 1 n))) b + (1 - 0) ^ length (e_y e) * (o * mw)) (online_mean_update mw wt 0 (e_nobs e)))
                     (fun b o => npdiv (wrss e p wv (mult3 (e_w e) wt (repeat 1 n)) b + (1 - 0) ^ length (e_y e) * (o * mw)) (online_mean_update mw wt 0 (e_nobs e)))).
    { auto. }
    intros b o. now rewrite E.
Qed.

(** * One iteration *)
Definition cand_twin (q q' : cand) : Prop :=
  c_x q' = c_x q /\ c_y q' = c_y q /\ c_beta q' = c_beta q /\ c_path q' = c_path q /\ c_msd q' = c_msd q /\ c_dv q' = c_dv q /\
  rows_twin (c_wt q) (c_wt q') /\ rows_twin (c_fv q) (c_fv q').
Lemma W_fv s s' : W s s' -> rows_twin (w_fv s) (w_fv s').
Proof. intros (L & ? & ? & ? & ? & ? & ->). split; [exact L|reflexivity]. Qed.
Ltac same_field := intros ? ? (? & ? & ? & ? & ? & ? & ->); reflexivity.

Lemma sim_fit_candidate p io it step dvo fv path : (p < d_n d)%nat -> length fv = n ->
  (forall X w, length X = length w -> op_init_x ops (fst (e_X e p)) (swap k X) (swap k w) 0 = op_init_x ops (fst (e_X e p)) X w 0) ->
  sim cand_twin (fit_candidate ops e p io it step dvo fv path) (fit_candidate ops e' p io it step dvo (swap k fv) path).
Proof.
  intros Hp Lf Hinit. unfold fit_candidate.
  apply (sim_bnd wk_twin).
  { apply sim_lift. intros a E. exact (working_swap false p fv a Lf E). }
  intros [eta g] [eta' g'] ([Le Ee] & [Lt Et] & [Lv Ev]). cbn [fst snd] in Le, Ee, Lt, Et, Lv, Ev. subst eta'.
  apply (sim_bnd eq); [apply sim_put_dbg|]. intros _ _ _.
  pose proof (HX p Hp) as LX. cbn [twin_env e_X e_prep e_w e_cfg e_isreg] in *. fold e' d.
  destruct (e_X e p) as [q X]. cbn [fst snd] in *. rewrite Hf, Et, Ev.
  rewrite <- swap_map2 by congruence. set (wts := map2 Rmult (e_w e) (g_wt g)).
  assert (Lw : length wts = n) by now apply map2_len_eq.
  rewrite Hinit by congruence. rewrite init_y_gram_swap by congruence.
  apply (sim_bnd eq); [apply sim_same|]. intros xg _ <-.
  set (yg := init_y_gram X (g_wv g) wts 0).
  apply (sim_bnd eq); [apply sim_get; same_field|]. intros m _ <-.
  apply (sim_bnd eq).
  { destruct (op_path_based ops).
    - apply (sim_bnd eq).
      { destruct (_ && _); [apply sim_same|]. destruct (Nat.eqb it 0).
        - apply (sim_bnd eq); [apply sim_peek; same_field|]. intros [pa|] _ <-; [apply sim_same|apply sim_raise].
        - destruct path; [apply sim_same|apply sim_raise]. }
      intros r _ <-. apply (sim_bnd eq); [apply sim_set_wmethod|]. intros _ _ _.
      apply (sim_bnd W); [apply sim_peek; auto|]. intros s s' HW.
      apply (sim_bnd eq). { apply sim_lift. intros v E. exists v. split; [|reflexivity]. now apply (fit_select_swap s s'). }
      intros v _ <-. now apply sim_ret.
    - apply (sim_bnd eq); [apply sim_same|]. intros r _ <-. apply (sim_bnd eq); [apply sim_set_wmethod|]. intros _ _ _. now apply sim_ret. }
  intros [[beta pa] msd] _ <-. apply (sim_bnd eq); [apply sim_put_dbg_coef|]. intros _ _ _.
  apply (sim_bnd rows_twin); [apply sim_peek; apply W_fv|]. intros fv0 ? [L0 ->].
  rewrite <- swap_map2 by congruence. set (pred := map2 _ X eta).
  assert (Lp : length pred = n) by (apply map2_len_eq; assumption).
  rewrite <- swap_map, set_col_swap by (rewrite map_length; congruence). set (fv1 := set_col fv0 p _).
  assert (L1 : length fv1 = n) by (apply set_col_len; rewrite ?map_length; assumption).
  apply (sim_bnd eq). { apply sim_lift. intros v E. exists v. split; [|reflexivity]. now apply deviance_swap. }
  intros dv _ <-. apply sim_ret. unfold cand_twin, rows_twin. cbn. auto 12.
Qed.

Lemma sim_update_candidate gdev p io it fv : (p < d_n d)%nat -> length fv = n ->
  (forall x0 X w, length X = length w -> op_update_x ops (fst (e_X e p)) x0 (swap k X) 0 (swap k w) = op_update_x ops (fst (e_X e p)) x0 X 0 w) ->
  (op_path_based ops = false \/ o_global_ll (e_cfg e) = true \/ forall j, (j < n)%nat -> e_nobs e - INR j <> 0) ->
  sim cand_twin (update_candidate ops e gdev p io it fv) (update_candidate ops e' gdev p io it (swap k fv)).
Proof.
  intros Hp Lf Hupd Hsel. unfold update_candidate.
  apply (sim_bnd wk_twin).
  { apply sim_lift. intros a E. exact (working_swap true p fv a Lf E). }
  intros [eta g] [eta' g'] ([Le Ee] & [Lt Et] & [Lv Ev]). cbn [fst snd] in Le, Ee, Lt, Et, Lv, Ev. subst eta'.
  apply (sim_bnd eq); [apply sim_put_dbg|]. intros _ _ _.
  pose proof (HX p Hp) as LX. cbn [twin_env e_X e_prep e_w e_cfg e_isreg e_y e_nobs] in *. fold e' d.
  destruct (e_X e p) as [q X]. cbn [fst snd] in *. rewrite !Hf, Et, Ev, swap_length.
  rewrite <- swap_map2 by congruence. set (wts := map2 Rmult (e_w e) (g_wt g)).
  assert (Lw : length wts = n) by now apply map2_len_eq.
  apply (sim_bnd eq); [apply sim_get; same_field|]. intros m _ <-.
  apply (sim_bnd eq); [apply sim_get; same_field|]. intros x0 _ <-.
  rewrite Hupd by congruence.
  apply (sim_bnd eq); [apply sim_same|]. intros xg _ <-.
  apply (sim_bnd eq); [apply sim_get; same_field|]. intros y0 _ <-.
  rewrite update_y_gram_swap by congruence. set (yg := update_y_gram y0 X (g_wv g) 0 wts).
  apply (sim_bnd eq).
  { destruct (op_path_based ops).
    - destruct Hsel as [|Hsel]; [discriminate|].
      apply (sim_bnd eq); [apply sim_peek; same_field|]. intros pa _ <-.
      apply (sim_bnd eq). { destruct pa; [apply sim_same|apply sim_raise]. }
      intros r _ <-. apply (sim_bnd eq); [apply sim_set_wmethod|]. intros _ _ _.
      apply (sim_bnd eq); [apply sim_get; same_field|]. intros old _ <-.
      apply (sim_bnd eq); [apply sim_get; same_field|]. intros mw _ <-.
      apply (sim_bnd W); [apply sim_peek; auto|]. intros s s' HW.
      apply (sim_bnd eq). { apply sim_lift. intros v E. exists v. split; [|reflexivity]. now apply (update_select_swap s s'). }
      intros v _ <-. now apply sim_ret.
    - apply (sim_bnd eq); [apply sim_peek; same_field|]. intros b0 _ <-.
      apply (sim_bnd eq); [apply sim_same|]. intros r _ <-. apply (sim_bnd eq); [apply sim_set_wmethod|]. intros _ _ _. now apply sim_ret. }
  intros [[beta pa] msd] _ <-. apply (sim_bnd eq); [apply sim_put_dbg_coef|]. intros _ _ _.
  apply (sim_bnd eq); [apply sim_get; same_field|]. intros mw _ <-.
  apply (sim_bnd (fun _ _ => True)); [apply sim_peek; auto|]. intros old old' _.
  apply (sim_bnd rows_twin); [apply sim_peek; apply W_fv|]. intros fv0 ? [L0 ->].
  rewrite <- swap_map. set (pred := map _ X).
  assert (Lp : length pred = n) by (unfold pred; now rewrite map_length).
  rewrite <- swap_map, set_col_swap by (rewrite map_length; congruence). set (fv1 := set_col fv0 p _).
  assert (L1 : length fv1 = n) by (apply set_col_len; rewrite ?map_length; assumption).
  apply (sim_bnd eq). { apply sim_lift. intros v E. exists v. split; [|reflexivity]. now apply deviance_swap. }
  intros dv _ <-. apply sim_ret. unfold cand_twin, rows_twin. cbn. auto 12.
Qed.

(** * The loops *)
Section Fit.
Hypothesis Hcond : o_cond_start (e_cfg e) = false.
Hypothesis Hinit : forall q X w, length X = length w -> op_init_x ops q (swap k X) (swap k w) 0 = op_init_x ops q X w 0.
Definition loop_twin {B} (a b : cand * nat * bool * B) : Prop :=
  let '(q, it, bad, tr) := a in let '(q', it', bad', tr') := b in cand_twin q q' /\ it' = it /\ bad' = bad /\ tr' = tr.
Lemma sim_inner_fit_loop p io m j : forall it fv dvs cnt path, length fv = n ->
  sim loop_twin (inner_fit_loop ops e p io m j it fv dvs cnt path) (inner_fit_loop ops e' p io m j it (swap k fv) dvs cnt path).
Proof.
  induction j as [|j IH]; intros it fv dvs cnt path Lf; cbn [inner_fit_loop]; [apply sim_raise|].
  apply (sim_bnd (fun a b => a = b /\ (p < d_n d)%nat)); [apply sim_read_step|]. intros step _ [<- Hp].
  cbn [twin_env e_cfg e_y]. fold e' d. rewrite Hcond, !andb_false_r.
  apply (sim_bnd (fun a b => a = fv /\ b = swap k fv)). { apply sim_ret. auto. }
  intros _ _ [-> ->].
  apply (sim_bnd cand_twin). { apply sim_fit_candidate; auto. }
  intros q q' Hq. pose proof Hq as (_ & _ & _ & Qp & _ & Qd & _ & [Ql Qf]). rewrite Qd, Qp, Qf.
  apply (sim_bnd eq). { destruct (_ && _); [apply sim_set_step|now apply sim_ret]. }
  intros _ _ _. unfold fit_stop. cbn [twin_env e_cfg].
  destruct (_ || Nat.eqb j 0).
  { apply sim_ret. cbn. auto. }
  apply (sim_bnd loop_twin).
  { replace (if Rltb (dvs it) (c_dv q) then swap k fv else set_col (swap k fv) p (col (swap k (c_fv q)) p))
      with (swap k (if Rltb (dvs it) (c_dv q) then fv else set_col fv p (col (c_fv q) p))).
    - apply IH. destruct (Rltb _ _); [exact Lf|]. apply set_col_len; rewrite ?col_len; assumption.
    - destruct (Rltb _ _); [reflexivity|]. rewrite col_swap, set_col_swap; [reflexivity|]. rewrite col_len. congruence. }
  intros [[[q1 it1] bad1] tr1] [[[q2 it2] bad2] tr2] (K1 & -> & -> & ->). apply sim_ret. cbn. auto.
Qed.
Lemma sim_store_fit p q q' : cand_twin q q' -> sim eq (store_fit e p q) (store_fit e' p q').
Proof.
  intros (Q1 & Q2 & Q3 & Q4 & Q5 & _ & [Lt Qt] & [Lf Qf]). apply sim_write. wtwin.
  rewrite Q1, Q2, Q3, Q4, Q5, Qt, Qf. cbn [twin_env e_w]. rewrite <- swap_map2 by congruence.
  rewrite swap_lsum, mean_swap, col_swap, set_col_swap by (rewrite col_len; congruence).
  split; [apply set_col_len; rewrite ?col_len; assumption|]. repeat eexists.
Qed.
Lemma sim_inner_fit p io : sim eq (inner_fit ops e p io) (inner_fit ops e' p io).
Proof.
  unfold inner_fit. apply (sim_bnd rows_twin); [apply sim_peek; apply W_fv|]. intros fv ? [Lf ->].
  apply (sim_bnd eq). { apply sim_lift. intros v E. exists v. split; [|reflexivity]. now apply deviance_swap. }
  intros dv0 _ <-. apply (sim_bnd eq); [apply sim_read_iter|]. intros m _ <-.
  apply (sim_bnd loop_twin); [now apply sim_inner_fit_loop|].
  intros [[[q1 it1] bad1] tr1] [[[q2 it2] bad2] tr2] (K1 & -> & -> & ->).
  apply (sim_bnd eq). { destruct (_ || _); [now apply sim_store_fit|now apply sim_ret]. }
  intros _ _ _. apply (sim_bnd eq); [apply sim_set_itinner|]. intros _ _ _. apply sim_ret.
  destruct K1 as (_ & _ & _ & _ & _ & -> & _). reflexivity.
Qed.
Lemma sim_fit_cycle ps : forall io dev, sim eq (fit_cycle ops e ps io dev) (fit_cycle ops e' ps io dev).
Proof.
  induction ps as [|p ps IH]; intros io dev; cbn [fit_cycle]; [now apply sim_ret|].
  apply (sim_bnd eq); [apply sim_inner_fit|]. intros r _ <-. apply IH.
Qed.
Lemma sim_outer_fit_loop fuel : forall it dev0 dev, sim eq (outer_fit_loop ops e fuel it dev0 dev) (outer_fit_loop ops e' fuel it dev0 dev).
Proof.
  induction fuel as [|fuel IH]; intros it dev0 dev; cbn [outer_fit_loop]; [apply sim_raise|].
  apply (sim_bnd eq); [apply sim_peek; same_field|]. intros mn _ <-.
  change (outer_converged e' dev0 dev) with (outer_converged e dev0 dev). cbn [twin_env e_cfg e_prep].
  destruct (_ && _); [now apply sim_ret|].
  apply (sim_bnd eq); [apply sim_fit_cycle|]. intros dev' _ <-. apply IH.
Qed.
Lemma sim_outer_fit fuel : sim eq (outer_fit ops e fuel) (outer_fit ops e' fuel).
Proof.
  unfold outer_fit. apply (sim_bnd rows_twin); [apply sim_peek; apply W_fv|]. intros fv ? [Lf ->].
  apply (sim_bnd eq). { apply sim_lift. intros v E. exists v. split; [|reflexivity]. now apply deviance_swap. }
  intros dv0 _ <-. apply sim_outer_fit_loop.
Qed.
End Fit.

Section Update.
Hypothesis Hupd : forall q x0 X w, length X = length w -> op_update_x ops q x0 (swap k X) 0 (swap k w) = op_update_x ops q x0 X 0 w.
Hypothesis Hsel : op_path_based ops = false \/ o_global_ll (e_cfg e) = true \/ forall j, (j < n)%nat -> e_nobs e - INR j <> 0.
Definition pair_twin (a b : cand * nat) : Prop := cand_twin (fst a) (fst b) /\ snd b = snd a.
Lemma sim_inner_update_loop gdev p io j : forall it fv dvs cnt, length fv = n ->
  sim pair_twin (inner_update_loop ops e gdev p io j it fv dvs cnt) (inner_update_loop ops e' gdev p io j it (swap k fv) dvs cnt).
Proof.
  induction j as [|j IH]; intros it fv dvs cnt Lf; cbn [inner_update_loop]; [apply sim_raise|].
  apply (sim_bnd (fun a b => a = b /\ (p < d_n d)%nat)); [apply sim_read_step|]. intros step _ [<- Hp].
  apply (sim_bnd cand_twin). { apply sim_update_candidate; auto. }
  intros q q' Hq. pose proof Hq as (_ & _ & _ & Qp & _ & Qd & _ & [Ql Qf]). rewrite Qd, Qf.
  apply (sim_bnd eq). { destruct (Rltb _ _); [apply sim_set_step|now apply sim_ret]. }
  intros _ _ _. unfold update_stop. cbn [twin_env e_cfg].
  destruct (_ || Nat.eqb j 0).
  { apply sim_ret. split; [exact Hq|reflexivity]. }
  replace (if Rltb (dvs it) (c_dv q) then swap k fv else set_col (swap k fv) p (col (swap k (c_fv q)) p))
    with (swap k (if Rltb (dvs it) (c_dv q) then fv else set_col fv p (col (c_fv q) p))).
  - apply IH. destruct (Rltb _ _); [exact Lf|]. apply set_col_len; rewrite ?col_len; assumption.
  - destruct (Rltb _ _); [reflexivity|]. rewrite col_swap, set_col_swap; [reflexivity|]. rewrite col_len. congruence.
Qed.
Lemma sim_store_update p it q q' sumw : cand_twin q q' -> sim eq (store_update e p it q sumw) (store_update e' p it q' sumw).
Proof.
  intros (Q1 & Q2 & Q3 & Q4 & Q5 & _ & [Lt Qt] & [Lf Qf]). apply sim_write. wtwin.
  rewrite Q1, Q2, Q3, Q4, Q5, Qt, Qf. cbn [twin_env e_w e_prep e_ntrain]. rewrite <- swap_map2 by congruence.
  rewrite swap_lsum, col_swap, set_col_swap by (rewrite col_len; congruence).
  split; [apply set_col_len; rewrite ?col_len; assumption|]. repeat eexists.
Qed.
Lemma sim_inner_update gdev p io : sim eq (inner_update ops e gdev p io) (inner_update ops e' gdev p io).
Proof.
  unfold inner_update. apply (sim_bnd rows_twin); [apply sim_peek; apply W_fv|]. intros fv ? [Lf ->].
  apply (sim_bnd eq). { apply sim_lift. intros v E. exists v. split; [|reflexivity]. now apply deviance_swap. }
  intros dv0 _ <-. apply (sim_bnd eq); [apply sim_read_iter|]. intros m _ <-.
  cbn [twin_env e_prep e_y]. fold e'. rewrite swap_length.
  apply (sim_bnd pair_twin); [now apply sim_inner_update_loop|].
  intros [q1 it1] [q2 it2] [K1 K2]. cbn [fst snd] in *. subst it2.
  apply (sim_bnd eq); [apply sim_get; same_field|]. intros sumw _ <-.
  apply (sim_bnd eq); [now apply sim_store_update|]. intros _ _ _. apply sim_ret.
  destruct K1 as (_ & _ & _ & _ & _ & -> & _). reflexivity.
Qed.
Lemma sim_update_cycle gdev ps : forall io dev, sim eq (update_cycle ops e gdev ps io dev) (update_cycle ops e' gdev ps io dev).
Proof.
  induction ps as [|p ps IH]; intros io dev; cbn [update_cycle]; [now apply sim_ret|].
  apply (sim_bnd eq); [apply sim_inner_update|]. intros r _ <-. apply IH.
Qed.
Lemma sim_outer_update_loop gdev fuel : forall it dev0 dev, sim eq (outer_update_loop ops e gdev fuel it dev0 dev) (outer_update_loop ops e' gdev fuel it dev0 dev).
Proof.
  induction fuel as [|fuel IH]; intros it dev0 dev; cbn [outer_update_loop]; [apply sim_raise|].
  apply (sim_bnd eq); [apply sim_peek; same_field|]. intros mn _ <-.
  change (outer_converged e' dev0 dev) with (outer_converged e dev0 dev). cbn [twin_env e_cfg e_prep].
  destruct (_ && _); [now apply sim_ret|].
  apply (sim_bnd eq); [apply sim_update_cycle|]. intros dev' _ <-. apply IH.
Qed.
Lemma sim_outer_update gdev fuel : sim eq (outer_update ops e gdev fuel) (outer_update ops e' gdev fuel).
Proof.
  unfold outer_update. apply (sim_bnd rows_twin); [apply sim_peek; apply W_fv|]. intros fv ? [Lf ->].
  apply (sim_bnd eq). { apply sim_lift. intros v E. exists v. split; [|reflexivity]. now apply deviance_swap. }
  intros dv0 _ <-. cbn [twin_env e_prep e_y]. fold e'. rewrite swap_length. apply sim_outer_update_loop.
Qed.
End Update.
End Twin.
