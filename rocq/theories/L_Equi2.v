(** Lemmas: the loops of fit and update under a change of the columns and a shift of the
    response (ordinary least squares). *)
From Coq Require Import Reals List Bool Arith Lra Lia FunctionalExtensionality.
From Verif Require Import Base Lin Data M_Gram S_Gram L_Gram M_OLS L_OLS M_Utils M_Links M_State M_LM M_GAMLSS S_GAMLSS S_Equi.
From Verif Require Import L_GAM2 L_GAM10 L_GAM11 L_GAM12 L_GAM14 L_Equi1.
Import ListNotations.
Open Scope R_scope.
Open Scope st_scope.

(** * Lists *)
Lemma all_some_map {A} (l : list A) : all_some (map Some l) = Ok l.
Proof. induction l; cbn; [reflexivity|]. now rewrite IHl. Qed.
Lemma all_some_omap {A B} (f : A -> B) l r : all_some l = Ok r -> all_some (map (omap f) l) = Ok (map f r).
Proof. intros H. apply all_some_inv in H. subst l. rewrite map_map. cbn. rewrite <- (map_map f Some). apply all_some_map. Qed.
Lemma map2_both {A B C A' B'} (f : A' -> B' -> C) (g : A -> B -> C) (a : A -> A') (b : B -> B') l : (forall x y, f (a x) (b y) = g x y) ->
  forall m, map2 f (map a l) (map b m) = map2 g l m.
Proof. intros H. induction l as [|x l IH]; intros [|y m]; cbn; auto. now rewrite H, IH. Qed.

(** * The relation *)
Section Rel.
Context (nd : nat) (f : nat -> R) (a : R) (K : nat -> nat) (T : nat -> mat) (u : nat -> vec) (n : nat) (fl : Prop).
Definition gram_twin (p : nat) (x : option mat) (y : option vec) (x' : option mat) (y' : option vec) : Prop :=
  (x = None /\ x' = None) \/
  exists x1 y1 x1' y1', x = Some x1 /\ y = Some y1 /\ x' = Some x1' /\ y' = Some y1' /\
    pair_rel (K p) (T p) (u p) (location a p) (f p) x1 y1 x1' y1'.
Definition twin_work (s s' : work unit) : Prop :=
  length (w_fv s) = n /\
  (forall p, (p < nd)%nat -> gram_twin p (w_x s p) (w_y s p) (w_x s' p) (w_y s' p)) /\
  (forall p, (p < nd)%nat -> gram_twin p (w_xn s p) (w_yn s p) (w_xn s' p) (w_yn s' p)) /\
  (forall p, (p < nd)%nat -> w_x s p <> None \/ w_xn s p <> None -> coef_rel (K p) (T p) (u p) (w_coef s p) (w_coef s' p)) /\
  (forall p, (p < nd)%nat -> fl \/ w_xn s p <> None) /\
  exists x y r co g1 g2 g3 xn yn ro,
  s' = mk_work (w_method s) (map (moved a) (w_fv s)) x y r (w_msd s) co (w_path s) (w_sum s) (w_mean s)
    (w_iter s) (w_step s) (w_itinner s) (w_min s) g1 g2 g3 xn yn (w_sumn s) (w_meann s) ro (w_msd_old s).
End Rel.

Section Equi.
Context (inv : nat -> mat -> option mat) (e e' : env unit) (n : nat) (a : R) (fl : Prop).
Context (K : nat -> nat) (T T' : nat -> mat) (u : nat -> vec).
Notation ops := (ols_ops inv).
Let d := o_dist (e_cfg e).
Hypothesis HI : matinv_spec inv.
Hypothesis Ec : e_cfg e' = e_cfg e.
Hypothesis Ep : e_prep e' = e_prep e.
Hypothesis En : e_nobs e' = e_nobs e.
Hypothesis Et : e_ntrain e' = e_ntrain e.
Hypothesis Er : e_isreg e' = e_isreg e.
Hypothesis Ew : e_w e' = e_w e.
Hypothesis Ey : e_y e' = map (fun y => y + a) (e_y e).
Hypothesis HK : forall p, (p < d_n d)%nat -> fst (e_X e p) = K p /\ fst (e_X e' p) = K p.
Hypothesis HX : forall p, (p < d_n d)%nat -> Forall2 (row_rel (K p) (T p) (u p) (location a p)) (snd (e_X e p)) (snd (e_X e' p)).
Hypothesis HT : forall p, (p < d_n d)%nat -> is_inverse (K p) (T p) (T' p).
Hypothesis HL : location_family d a.
Hypothesis Hf : forall p, 0 <= p_forget (e_prep e) p < 1.
Hypothesis Hw : length (e_w e) = n.
Hypothesis Hy : length (e_y e) = n.
Hypothesis HlX : forall p, (p < d_n d)%nat -> length (snd (e_X e p)) = n.
Hypothesis Hwn : Forall (fun v => 0 <= v) (e_w e).

Notation f p := (p_forget (e_prep e) p).
Notation W := (twin_work (d_n d) (p_forget (e_prep e)) a K T u n fl).
Definition sim {A} (Q : A -> A -> Prop) (m m' : st (work unit) A) : Prop :=
  forall s s' s1 v, W s s' -> m s = (s1, Ok v) -> exists s1' b, m' s' = (s1', Ok b) /\ W s1 s1' /\ Q v b.

Lemma sim_bnd {A B} (Q : A -> A -> Prop) (Q' : B -> B -> Prop) m m' (g g' : A -> st (work unit) B) :
  sim Q m m' -> (forall v b, Q v b -> sim Q' (g v) (g' b)) -> sim Q' (bnd m g) (bnd m' g').
Proof.
  intros H H' s s' s2 b HW E. apply bnd_inv in E. destruct E as (v & s1 & E1 & E2).
  destruct (H s s' s1 v HW E1) as (s1' & v' & E1' & HW1 & HQ).
  destruct (H' v v' HQ s1 s1' s2 b HW1 E2) as (s2' & b' & E2' & HW2 & HQ').
  exists s2', b'. split; [|auto]. unfold bnd. now rewrite E1'.
Qed.
Lemma sim_ret {A} (Q : A -> A -> Prop) v b : Q v b -> sim Q (ret v) (ret b).
Proof. intros H s s' s1 v0 HW E. apply ret_inv in E. destruct E as [-> <-]. exists s', b. auto. Qed.
Lemma sim_raise {A} (Q : A -> A -> Prop) x m' : sim Q (raise x) m'.
Proof. intros s s' s1 v HW E. discriminate E. Qed.
Lemma sim_lift {A} (Q : A -> A -> Prop) r r' : (forall v, r = Ok v -> exists b, r' = Ok b /\ Q v b) -> sim Q (lift r) (lift r').
Proof.
  intros H s s' s1 v HW E. apply lift_inv in E. destruct E as [-> E]. destruct (H v E) as (b & -> & HQ). exists s', b. auto.
Qed.
Lemma sim_same {A} (r : res A) : sim eq (lift r) (lift r).
Proof. apply sim_lift. eauto. Qed.
Lemma sim_peek {A} (Q : A -> A -> Prop) g : (forall s s', W s s' -> Q (g s) (g s')) -> sim Q (peek g) (peek g).
Proof. intros H s s' s1 v HW E. apply peek_inv in E. destruct E as [-> <-]. exists s', (g s'). split; [reflexivity|auto]. Qed.
Lemma sim_get {A} (g : work unit -> option A) : (forall s s', W s s' -> g s' = g s) -> sim eq (get g) (get g).
Proof.
  intros H s s' s1 v HW E. apply get_inv in E. destruct E as [-> E]. exists s', v. unfold get. rewrite (H s s' HW), E. auto.
Qed.
Lemma sim_write g g' : (forall s s', W s s' -> W (g s) (g' s')) -> sim eq (write g) (write g').
Proof. intros H s s' s1 v HW E. apply write_inv in E. subst s1. destruct v. exists (g' s'), tt. split; [reflexivity|auto]. Qed.
Lemma sim_read_iter i : sim eq (read_iter i) (read_iter i).
Proof.
  intros s s' s1 v HW E. apply read_iter_inv in E. destruct E as [-> E]. exists s', v. pose proof HW as HW'.
  destruct HW as (_ & _ & _ & _ & _ & x & y & r & co & g1 & g2 & g3 & xn & yn & ro & ->). unfold read_iter. cbn [w_iter]. rewrite E. auto.
Qed.
Lemma sim_read_step i j p : sim (fun v b => v = b /\ (p < d_n d)%nat) (read_step e i j p) (read_step e' i j p).
Proof.
  unfold read_step. rewrite Ec, Ep. fold d. destruct (_ && _) eqn:E; [|apply sim_raise].
  apply andb_true_iff in E. destruct E as [_ E]. apply Nat.ltb_lt in E.
  apply sim_peek. intros s s' (_ & _ & _ & _ & _ & x & y & r & co & g1 & g2 & g3 & xn & yn & ro & ->). cbn. auto.
Qed.
Ltac wproj := cbn [w_method w_fv w_x w_y w_rss w_msd w_coef w_path w_sum w_mean w_iter w_step w_itinner w_min w_dbg w_dbg_dv w_dbg_coef w_xn w_yn w_sumn w_meann w_rss_old w_msd_old] in *.
Ltac wtwin := let s := fresh "s" in let L := fresh "L" in let G := fresh "G" in let N := fresh "N" in let B := fresh "B" in let Fl := fresh "Fl" in
  intros s ? (L & G & N & B & Fl & ? & ? & ? & ? & ? & ? & ? & ? & ? & ? & ->); wproj.
Ltac wsame := split; [assumption|split; [assumption|split; [assumption|split; [assumption|split; [assumption|repeat eexists]]]]].
Lemma sim_put_dbg q v v' dv dv' : sim eq (put_dbg e q v dv) (put_dbg e' q v' dv').
Proof. apply sim_write. wtwin. rewrite Ec. destruct (o_debug _); wsame. Qed.
Lemma sim_put_dbg_coef q v v' path path' : sim eq (put_dbg_coef e q v path) (put_dbg_coef e' q v' path').
Proof. apply sim_write. wtwin. rewrite Ec. destruct (o_debug _); wsame. Qed.
Lemma sim_set_wmethod p m : sim eq (@set_wmethod unit p m) (set_wmethod p m).
Proof. apply sim_write. wtwin. wsame. Qed.
Lemma sim_set_step i j p v : sim eq (@set_step unit i j p v) (set_step i j p v).
Proof. apply sim_write. wtwin. wsame. Qed.
Lemma sim_set_itinner p it : sim eq (@set_itinner unit p it) (set_itinner p it).
Proof. apply sim_write. wtwin. wsame. Qed.

(** * Row-wise pieces *)
Lemma moved_set th p v : set_entry (moved a th) p (v + location a p) = moved a (set_entry th p v).
Proof.
  apply functional_extensionality. intros j. unfold set_entry, moved. destruct (Nat.eqb_spec j p); [now subst|reflexivity].
Qed.
Lemma col_moved fv p : col (map (moved a) fv) p = map (fun v => v + location a p) (col fv p).
Proof. unfold col. rewrite !map_map. reflexivity. Qed.
Lemma set_col_moved fv p v : set_col (map (moved a) fv) p (map (fun x => x + location a p) v) = map (moved a) (set_col fv p v).
Proof.
  unfold set_col. revert v. induction fv as [|th fv IH]; intros [|x v]; cbn; auto. now rewrite moved_set, IH.
Qed.
Lemma set_col_len fv p v : length fv = n -> length v = n -> length (set_col fv p v) = n.
Proof. intros. unfold set_col. now apply map2_len_eq. Qed.
Lemma col_len (fv : list vec) p : length (col fv p) = length fv.
Proof. apply map_length. Qed.
Lemma link_moved p x : d_link d p (x + location a p) = omap (fun v => v + location a p) (d_link d p x).
Proof.
  destruct p; [apply HL|]. cbn. rewrite Rplus_0_r. destruct (d_link d (S p) x); cbn; [|reflexivity]. now rewrite Rplus_0_r.
Qed.
Lemma inv_moved p x : d_inv d p (x + location a p) = d_inv d p x + location a p.
Proof. destruct p; [apply HL|]. cbn. now rewrite !Rplus_0_r. Qed.
Lemma dinv_moved p x : d_dinv d p (x + location a p) = d_dinv d p x.
Proof. destruct p; [apply HL|]. cbn. now rewrite !Rplus_0_r. Qed.
Lemma response_moved eta dl di wt v : working_response (eta + v) dl di wt = omap (fun x => x + v) (working_response eta dl di wt).
Proof.
  unfold working_response. destruct (Reqb di 0); [destruct (Reqb wt 0); reflexivity|].
  destruct (npdiv dl (1 / di * wt)) as [q|]; cbn; [|reflexivity]. f_equal. ring.
Qed.
Lemma deviance_moved fv v : deviance e fv = Ok v -> deviance e' (map (moved a) fv) = Ok v.
Proof.
  unfold deviance. rewrite Ec, Ew, Ey. fold d.
  rewrite (map2_both (d_logpdf d) (d_logpdf d)); [auto|]. intros y th. apply HL.
Qed.
Definition wk_twin (p : nat) (v b : list R * dbg) : Prop :=
  length (fst v) = n /\ length (g_wt (snd v)) = n /\ length (g_wv (snd v)) = n /\
  fst b = map (fun x => x + location a p) (fst v) /\ g_wt (snd b) = g_wt (snd v) /\ g_wv (snd b) = map (fun x => x + location a p) (g_wv (snd v)).
Lemma working_moved up p fv v : length fv = n -> working e up p fv = Ok v ->
  exists b, working e' up p (map (moved a) fv) = Ok b /\ wk_twin p v b.
Proof.
  intros L. unfold working, forget_vector. rewrite Ec, Ew, Ey, Ep, map_length. fold d.
  destruct (all_some (map (d_link d p) (col fv p))) as [eta|] eqn:E1; [|discriminate]. cbn [bind].
  destruct (all_some (map2 (d_dl1 d p) (e_y e) fv)) as [dl1|] eqn:E2; [|discriminate]. cbn [bind].
  destruct (all_some (map2 (d_dl2 d p) (e_y e) fv)) as [dl2|] eqn:E3; [|discriminate]. cbn [bind].
  destruct (all_some (map2 _ (combine eta dl1) _)) as [wv|] eqn:E4; [|discriminate]. cbn [bind].
  assert (E1' : all_some (map (d_link d p) (col (map (moved a) fv) p)) = Ok (map (fun x => x + location a p) eta)).
  { rewrite col_moved, map_map. rewrite (map_ext _ (fun x => omap (fun v => v + location a p) (d_link d p x))) by (intros x; apply link_moved).
    rewrite <- (map_map (d_link d p)). now apply all_some_omap. }
  rewrite E1'. cbn [bind].
  rewrite (map2_both (d_dl1 d p) (d_dl1 d p)) by (intros y th; apply HL).
  rewrite (map2_both (d_dl2 d p) (d_dl2 d p)) by (intros y th; apply HL). rewrite E2, E3. cbn [bind].
  assert (E5 : map (d_dinv d p) (map (fun x => x + location a p) eta) = map (d_dinv d p) eta).
  { rewrite map_map. apply map_ext. intros x. apply dinv_moved. }
  rewrite E5. set (wt := map2 (if up then update_weight else fit_weight) dl2 (map (d_dinv d p) eta)) in *.
  assert (E6 : all_some (map2 (fun q b => working_response (fst q) (snd q) (fst b) (snd b))
      (combine (map (fun x => x + location a p) eta) dl1) (combine (map (d_dinv d p) eta) wt)) = Ok (map (fun x => x + location a p) wv)).
  { apply (all_some_omap (fun x => x + location a p)) in E4. rewrite <- E4. f_equal. clear.
    generalize (combine (map (d_dinv d p) eta) wt). revert dl1. induction eta as [|x eta IH]; intros [|l dl1] [|q m]; cbn [map combine map2]; auto.
    cbn [fst snd]. now rewrite response_moved, IH. }
  rewrite E6. cbn [bind]. destruct (_ || _); [|discriminate]. intros H. injection H as <-.
  eexists. split; [reflexivity|].
  pose proof (all_some_length _ _ E1) as L1. rewrite map_length, col_len in L1.
  pose proof (all_some_length _ _ E2) as L2. rewrite (map2_len_eq _ _ _ n Hy L) in L2.
  pose proof (all_some_length _ _ E3) as L3. rewrite (map2_len_eq _ _ _ n Hy L) in L3.
  assert (L4 : length wt = n) by (apply map2_len_eq; [|rewrite map_length]; congruence).
  unfold wk_twin. cbn [fst snd g_wt g_wv].
  split; [congruence|]. split; [exact L4|]. split; [|auto].
  apply all_some_length in E4. rewrite E4. apply map2_len_eq; rewrite combine_length, ?map_length; lia.
Qed.

(** * One iteration *)
Definition cand_twin (p : nat) (q q' : cand) : Prop :=
  (p < d_n d)%nat /\
  pair_rel (K p) (T p) (u p) (location a p) (f p) (c_x q) (c_y q) (c_x q') (c_y q') /\
  coef_rel (K p) (T p) (u p) (c_beta q) (c_beta q') /\
  c_path q' = c_path q /\ c_msd q' = c_msd q /\ c_dv q' = c_dv q /\ c_wt q' = c_wt q /\
  length (c_fv q) = n /\ c_fv q' = map (moved a) (c_fv q).
Definition fv_twin (l l' : list vec) : Prop := length l = n /\ l' = map (moved a) l.
Lemma W_fv s s' : W s s' -> fv_twin (w_fv s) (w_fv s').
Proof. intros (L & _ & _ & _ & _ & ? & ? & ? & ? & ? & ? & ? & ? & ? & ? & ->). split; [exact L|reflexivity]. Qed.
Ltac same_field := intros ? ? (_ & _ & _ & _ & _ & ? & ? & ? & ? & ? & ? & ? & ? & ? & ? & ->); reflexivity.
Lemma zip_rel p X X' : Forall2 (row_rel (K p) (T p) (u p) (location a p)) X X' -> forall z w, length z = length X -> length w = length X ->
  Forall2 (obs_rel (K p) (T p) (u p) (location a p)) (zip_obs X z w) (zip_obs X' (map (fun x => x + location a p) z) w).
Proof.
  induction 1 as [|x x' X X' Hx H IH]; intros [|y z] [|b w] L1 L2; cbn in *; try discriminate; constructor.
  - split; [exact Hx|]. cbn. auto.
  - apply IH; lia.
Qed.
Lemma zip_weights X z w : length z = length X -> length w = length X -> Forall (fun v => 0 <= v) w -> weights_nonneg (zip_obs X z w).
Proof.
  revert z w. induction X as [|x X IH]; intros [|y z] [|b w] L1 L2 H; cbn in *; try discriminate; [constructor..|].
  inversion H; subst. constructor; [assumption|]. apply IH; auto.
Qed.

Lemma sim_fit_candidate p io it step dvo fv path : (p < d_n d)%nat -> length fv = n ->
  sim (cand_twin p) (fit_candidate ops e p io it step dvo fv path) (fit_candidate ops e' p io it step dvo (map (moved a) fv) path).
Proof.
  intros Hp Lf. unfold fit_candidate.
  apply (sim_bnd (fun v b => wk_twin p v b /\ Forall (fun x => 0 <= x) (map2 Rmult (e_w e) (g_wt (snd v))))).
  { apply sim_lift. intros v E. destruct (working_moved false p fv v Lf E) as (b & Eb & Hb). exists b. split; [exact Eb|]. split; [exact Hb|].
    destruct v as [eta g]. apply (working_weights e false p fv eta g E); auto; congruence. }
  intros [eta g] [eta' g'] [(Le & Lt & Lv & Ee & Eg & Ev) Pw]. cbn [fst snd] in *. subst eta'.
  apply (sim_bnd eq); [apply sim_put_dbg|]. intros _ _ _.
  pose proof (HlX p Hp) as LX. pose proof (HX p Hp) as HXp. destruct (HK p Hp) as [K1 K2].
  destruct (e_X e p) as [q X], (e_X e' p) as [q' X']. cbn [fst snd] in *. subst q q'. rewrite Ec, Ep, Ew, Er, Eg, Ev. fold d.
  set (wts := map2 Rmult (e_w e) (g_wt g)) in *.
  assert (Lw : length wts = n) by now apply map2_len_eq.
  pose proof (F2_length _ _ _ HXp) as LX'.
  set (V := zip_obs X (g_wv g) wts). set (V' := zip_obs X' (map (fun x => x + location a p) (g_wv g)) wts).
  destruct (zip_obs_fields X (g_wv g) wts) as (V1 & V2 & V3); [congruence..|]. fold V in V1, V2, V3.
  destruct (zip_obs_fields X' (map (fun x => x + location a p) (g_wv g)) wts) as (V1' & V2' & V3'); [rewrite ?map_length; congruence..|]. fold V' in V1', V2', V3'.
  assert (HV : Forall2 (obs_rel (K p) (T p) (u p) (location a p)) V V') by (apply zip_rel; congruence).
  assert (WV : weights_nonneg V) by (apply zip_weights; congruence).
  apply (sim_bnd (fun x x' => pair_rel (K p) (T p) (u p) (location a p) (f p) x (init_y_gram X (g_wv g) wts (f p)) x'
      (init_y_gram X' (map (fun x => x + location a p) (g_wv g)) wts (f p)))).
  { apply sim_lift. cbn [op_init_x ols_ops]. intros x E.
    destruct (fit_rel (K p) (T p) (T' p) (u p) (location a p) (HT p Hp) inv (f p) V V' x HI (Hf p) WV HV) as (x' & Ex' & Hx').
    { rewrite V1, V3. exact E. }
    rewrite V1, V2, V3, V1', V2', V3' in *. exists x'. auto. }
  intros xg xg' Hg.
  set (yg := init_y_gram X (g_wv g) wts (f p)) in *. set (yg' := init_y_gram X' _ wts (f p)) in *.
  pose proof (pair_coef (K p) (T p) (T' p) (u p) (location a p) (HT p Hp) (f p) _ _ _ _ (Hf p) Hg) as Hb.
  apply (sim_bnd eq); [apply sim_get; same_field|]. intros m _ <-.
  apply (sim_bnd (fun r r' => r = (ols_beta (K p) xg yg, None, None) /\ r' = (ols_beta (K p) xg' yg', None, None))).
  { cbn [op_path_based op_fit_beta ols_ops].
    apply (sim_bnd (fun r r' => r = (m, ols_beta (K p) xg yg) /\ r' = (m, ols_beta (K p) xg' yg'))).
    { apply sim_lift. intros v E. injection E as <-. eexists. split; [reflexivity|]. auto. }
    intros r r' [-> ->]. apply (sim_bnd eq); [apply sim_set_wmethod|]. intros _ _ _. apply sim_ret. auto. }
  intros r r' [-> ->]. apply (sim_bnd eq); [apply sim_put_dbg_coef|]. intros _ _ _.
  apply (sim_bnd fv_twin); [apply sim_peek; apply W_fv|]. intros fv0 ? [L0 ->].
  set (beta := ols_beta (K p) xg yg) in *. set (beta' := ols_beta (K p) xg' yg') in *.
  set (pred := map2 (fun x et => step * dot (K p) x beta + (1 - step) * et) X eta).
  assert (Epred : map2 (fun x et => step * dot (K p) x beta' + (1 - step) * et) X' (map (fun x => x + location a p) eta) = map (fun x => x + location a p) pred).
  { unfold pred. clearbody beta beta'. clear - HXp Hb. revert eta. induction HXp as [|x x' X X' Hx H IH]; intros [|y eta]; cbn [map map2]; auto.
    rewrite IH. f_equal. rewrite (dot_rel _ _ _ _ x x' beta beta' Hx Hb). ring. }
  rewrite Epred, map_map. rewrite (map_ext (fun x => d_inv d p (x + location a p)) (fun x => d_inv d p x + location a p)) by (intros; apply inv_moved).
  rewrite <- (map_map (d_inv d p) (fun x => x + location a p)), set_col_moved. set (fv1 := set_col fv0 p (map (d_inv d p) pred)).
  assert (Lp : length pred = n) by (apply map2_len_eq; assumption).
  assert (L1 : length fv1 = n) by (apply set_col_len; rewrite ?map_length; assumption).
  apply (sim_bnd eq). { apply sim_lift. intros v E. exists v. split; [|reflexivity]. now apply deviance_moved. }
  intros dv _ <-. apply sim_ret. unfold cand_twin. cbn [c_x c_y c_beta c_path c_msd c_dv c_wt c_fv].
  repeat (split; [assumption || reflexivity|]). reflexivity.
Qed.

Lemma gram_some p x y x' y' x0 : gram_twin (p_forget (e_prep e)) a K T u p x y x' y' -> x = Some x0 ->
  exists y0 x0' y0', y = Some y0 /\ x' = Some x0' /\ y' = Some y0' /\ pair_rel (K p) (T p) (u p) (location a p) (f p) x0 y0 x0' y0'.
Proof.
  intros [[-> _]|(x1 & y1 & x1' & y1' & -> & -> & -> & -> & H)] E; [discriminate|]. injection E as <-. eauto 10.
Qed.
(** The stored statistics of a parameter are read together. *)
Lemma sim_read_gram {A} (Q : A -> A -> Prop) p (g g' : mat -> vec -> st (work unit) A) (h h' : mat -> st (work unit) mat) :
  (p < d_n d)%nat ->
  (forall x0 y0 x0' y0', pair_rel (K p) (T p) (u p) (location a p) (f p) x0 y0 x0' y0' ->
     sim Q (xg <-- h x0;; g xg y0) (xg <-- h' x0';; g' xg y0')) ->
  (forall x0 s s1 v, h x0 s = (s1, Ok v) -> s1 = s) -> (forall x0 s s1 v, h' x0 s = (s1, Ok v) -> s1 = s) ->
  sim Q (x0 <-- get (fun s => w_x s p);; xg <-- h x0;; y0 <-- get (fun s => w_y s p);; g xg y0)
        (x0 <-- get (fun s => w_x s p);; xg <-- h' x0;; y0 <-- get (fun s => w_y s p);; g' xg y0).
Proof.
  intros Hp H Hh Hh' s s' s1 v HW E.
  apply bnd_inv in E. destruct E as (x0 & t & E1 & E). apply get_inv in E1. destruct E1 as [-> E1].
  apply bnd_inv in E. destruct E as (xg & t & E2 & E). pose proof (Hh _ _ _ _ E2) as ->.
  apply bnd_inv in E. destruct E as (y0 & t & E3 & E). apply get_inv in E3. destruct E3 as [-> E3].
  destruct (gram_some p _ _ _ _ x0 (proj1 (proj2 HW) p Hp) E1) as (y0' & x1 & y1 & Ey0 & Ex1 & Ey1 & HP).
  rewrite E3 in Ey0. injection Ey0 as <-.
  destruct (H _ _ _ _ HP s s' s1 v HW) as (s1' & b & Hs & HW1 & HQ). { unfold bnd. now rewrite E2. }
  exists s1', b. split; [|auto]. unfold bnd at 1, get at 1. rewrite Ex1.
  apply bnd_inv in Hs. destruct Hs as (xg' & t & F2 & F). pose proof (Hh' _ _ _ _ F2) as ->.
  unfold bnd at 1. rewrite F2. unfold bnd at 1, get at 1. now rewrite Ey1.
Qed.
Lemma sim_update_candidate gdev p io it fv : (p < d_n d)%nat -> concave_in d p -> length fv = n ->
  sim (cand_twin p) (update_candidate ops e gdev p io it fv) (update_candidate ops e' gdev p io it (map (moved a) fv)).
Proof.
  intros Hp Hc Lf. unfold update_candidate.
  apply (sim_bnd (fun v b => wk_twin p v b /\ Forall (fun x => 0 <= x) (map2 Rmult (e_w e) (g_wt (snd v))))).
  { apply sim_lift. intros v E. destruct (working_moved true p fv v Lf E) as (b & Eb & Hb). exists b. split; [exact Eb|]. split; [exact Hb|].
    destruct v as [eta g]. apply (working_weights e true p fv eta g E); auto; congruence. }
  intros [eta g] [eta' g'] [(Le & Lt & Lv & Ee & Eg & Ev) Pw]. cbn [fst snd] in *. subst eta'.
  apply (sim_bnd eq); [apply sim_put_dbg|]. intros _ _ _.
  pose proof (HlX p Hp) as LX. pose proof (HX p Hp) as HXp. destruct (HK p Hp) as [K1 K2].
  destruct (e_X e p) as [q X], (e_X e' p) as [q' X']. cbn [fst snd] in *. subst q q'. rewrite Ec, Ep, Ew, Er, Eg, Ev, En, Ey, map_length. fold d.
  set (wts := map2 Rmult (e_w e) (g_wt g)) in *.
  assert (Lw : length wts = n) by now apply map2_len_eq.
  pose proof (F2_length _ _ _ HXp) as LX'.
  set (V := zip_obs X (g_wv g) wts). set (V' := zip_obs X' (map (fun x => x + location a p) (g_wv g)) wts).
  destruct (zip_obs_fields X (g_wv g) wts) as (V1 & V2 & V3); [congruence..|]. fold V in V1, V2, V3.
  destruct (zip_obs_fields X' (map (fun x => x + location a p) (g_wv g)) wts) as (V1' & V2' & V3'); [rewrite ?map_length; congruence..|]. fold V' in V1', V2', V3'.
  assert (HV : Forall2 (obs_rel (K p) (T p) (u p) (location a p)) V V') by (apply zip_rel; congruence).
  assert (WV : weights_nonneg V) by (apply zip_weights; congruence).
  apply (sim_bnd eq); [apply sim_get; same_field|]. intros m _ <-.
  apply (sim_read_gram (cand_twin p) p
    (fun xg y0 => _) (fun xg y0 => _) (fun x0 => lift (op_update_x ops (K p) x0 X (f p) wts)) (fun x0 => lift (op_update_x ops (K p) x0 X' (f p) wts)) Hp);
    [|intros x0 s s1 v H; now apply lift_inv in H..].
  intros x0 y0 x0' y0' H0.
  apply (sim_bnd (fun x x' => pair_rel (K p) (T p) (u p) (location a p) (f p) x (update_y_gram y0 X (g_wv g) (f p) wts) x'
      (update_y_gram y0' X' (map (fun x => x + location a p) (g_wv g)) (f p) wts))).
  { apply sim_lift. cbn [op_update_x ols_ops]. intros x E.
    destruct (update_rel (K p) (T p) (u p) (location a p) (f p) x0 y0 x0' y0' V V' x (Hf p) H0 WV HV) as (x' & Ex' & Hx').
    { rewrite V1, V3. exact E. }
    rewrite V1, V2, V3, V1', V2', V3' in *. exists x'. auto. }
  intros xg xg' Hg.
  set (yg := update_y_gram y0 X (g_wv g) (f p) wts) in *. set (yg' := update_y_gram y0' X' _ (f p) wts) in *.
  pose proof (pair_coef (K p) (T p) (T' p) (u p) (location a p) (HT p Hp) (f p) _ _ _ _ (Hf p) Hg) as Hb.
  apply (sim_bnd (fun r r' => r = (ols_beta (K p) xg yg, None, None) /\ r' = (ols_beta (K p) xg' yg', None, None))).
  { cbn [op_path_based op_update_beta ols_ops].
    apply (sim_bnd (fun _ _ => True)); [apply sim_peek; auto|]. intros b0 b0' _.
    apply (sim_bnd (fun r r' => r = (m, ols_beta (K p) xg yg) /\ r' = (m, ols_beta (K p) xg' yg'))).
    { apply sim_lift. intros v E. injection E as <-. eexists. split; [reflexivity|]. auto. }
    intros r r' [-> ->]. apply (sim_bnd eq); [apply sim_set_wmethod|]. intros _ _ _. apply sim_ret. auto. }
  intros r r' [-> ->]. apply (sim_bnd eq); [apply sim_put_dbg_coef|]. intros _ _ _.
  apply (sim_bnd eq); [apply sim_get; same_field|]. intros mw _ <-.
  apply (sim_bnd (fun _ _ => True)); [apply sim_peek; auto|]. intros old old' _.
  apply (sim_bnd fv_twin); [apply sim_peek; apply W_fv|]. intros fv0 ? [L0 ->].
  set (beta := ols_beta (K p) xg yg) in *. set (beta' := ols_beta (K p) xg' yg') in *.
  set (pred := map (fun x => dot (K p) x beta) X).
  assert (Epred : map (fun x => dot (K p) x beta') X' = map (fun x => x + location a p) pred).
  { unfold pred. clearbody beta beta'. clear - HXp Hb. induction HXp as [|x x' X X' Hx H IH]; cbn [map]; auto.
    rewrite IH. f_equal. exact (dot_rel _ _ _ _ x x' beta beta' Hx Hb). }
  rewrite Epred, map_map. rewrite (map_ext (fun x => d_inv d p (x + location a p)) (fun x => d_inv d p x + location a p)) by (intros; apply inv_moved).
  rewrite <- (map_map (d_inv d p) (fun x => x + location a p)), set_col_moved. set (fv1 := set_col fv0 p (map (d_inv d p) pred)).
  assert (Lp : length pred = n) by (unfold pred; now rewrite map_length).
  assert (L1 : length fv1 = n) by (apply set_col_len; rewrite ?map_length; assumption).
  apply (sim_bnd eq). { apply sim_lift. intros v E. exists v. split; [|reflexivity]. now apply deviance_moved. }
  intros dv _ <-. apply sim_ret. unfold cand_twin. cbn [c_x c_y c_beta c_path c_msd c_dv c_wt c_fv].
  repeat (split; [assumption || reflexivity|]). reflexivity.
Qed.

(** * The loops *)
Lemma twin_next (p : nat) (t : bool) fv q : length fv = n -> length q = n ->
  (if t then map (moved a) fv else set_col (map (moved a) fv) p (col (map (moved a) q) p)) =
  map (moved a) (if t then fv else set_col fv p (col q p)) /\ length (if t then fv else set_col fv p (col q p)) = n.
Proof.
  intros H1 H2. destruct t; [auto|]. rewrite col_moved, set_col_moved. split; [reflexivity|]. apply set_col_len; rewrite ?col_len; assumption.
Qed.
Lemma gram_fupd p q (x x' : nat -> option mat) (y y' : nat -> option vec) x0 y0 x0' y0' :
  gram_twin (p_forget (e_prep e)) a K T u q (x q) (y q) (x' q) (y' q) ->
  pair_rel (K p) (T p) (u p) (location a p) (f p) x0 y0 x0' y0' ->
  gram_twin (p_forget (e_prep e)) a K T u q (fupd x p (Some x0) q) (fupd y p (Some y0) q) (fupd x' p (Some x0') q) (fupd y' p (Some y0') q).
Proof.
  intros H1 H2. unfold fupd. destruct (Nat.eqb_spec q p); [subst q|exact H1]. right. exists x0, y0, x0', y0'. auto.
Qed.
Section Fit.
Hypothesis Hcond : o_cond_start (e_cfg e) = false.
Hypothesis Hfl : fl.
Definition loop_twin {B} (p : nat) (v b : cand * nat * bool * B) : Prop :=
  let '(q, it, bad, tr) := v in let '(q', it', bad', tr') := b in cand_twin p q q' /\ it' = it /\ bad' = bad /\ tr' = tr.
Lemma sim_inner_fit_loop p io m j : forall it fv dvs cnt path, length fv = n ->
  sim (loop_twin p) (inner_fit_loop ops e p io m j it fv dvs cnt path) (inner_fit_loop ops e' p io m j it (map (moved a) fv) dvs cnt path).
Proof.
  induction j as [|j IH]; intros it fv dvs cnt path Lf; cbn [inner_fit_loop]; [apply sim_raise|].
  apply (sim_bnd (fun v b => v = b /\ (p < d_n d)%nat)); [apply sim_read_step|]. intros step _ [<- Hp].
  rewrite Ec, Hcond, !andb_false_r.
  apply (sim_bnd (fun v b => v = fv /\ b = map (moved a) fv)). { apply sim_ret. auto. }
  intros _ _ [-> ->].
  apply (sim_bnd (cand_twin p)). { now apply sim_fit_candidate. }
  intros q q' Hq. pose proof Hq as (_ & _ & _ & Qp & _ & Qd & _ & Ql & Qf). rewrite Qd, Qp, Qf.
  apply (sim_bnd eq). { destruct (_ && _); [apply sim_set_step|now apply sim_ret]. }
  intros _ _ _. unfold fit_stop. rewrite Ec.
  destruct (_ || Nat.eqb j 0).
  { apply sim_ret. cbn. auto. }
  apply (sim_bnd (loop_twin p)).
  { destruct (twin_next p (Rltb (dvs it) (c_dv q)) fv (c_fv q) Lf Ql) as [-> L]. now apply IH. }
  intros [[[q1 it1] bad1] tr1] [[[q2 it2] bad2] tr2] (K1 & -> & -> & ->). apply sim_ret. cbn. auto.
Qed.
Lemma sim_store_fit p q q' : cand_twin p q q' -> sim eq (store_fit e p q) (store_fit e' p q').
Proof.
  intros (Hp & Q1 & Q2 & Q4 & Q5 & _ & Qt & Lf & Qf). apply sim_write. wtwin.
  rewrite Q4, Q5, Qt, Qf, Ew, col_moved, set_col_moved.
  split; [apply set_col_len; rewrite ?col_len; assumption|].
  split; [intros r Hr; apply gram_fupd; auto|]. split; [exact N|]. split; [|split; [auto|repeat eexists]].
  intros r Hr. wproj. unfold fupd. destruct (Nat.eqb_spec r p); [subst r; auto|auto].
Qed.
Lemma sim_inner_fit p io : sim eq (inner_fit ops e p io) (inner_fit ops e' p io).
Proof.
  unfold inner_fit. apply (sim_bnd fv_twin); [apply sim_peek; apply W_fv|]. intros fv ? [Lf ->].
  apply (sim_bnd eq). { apply sim_lift. intros v E. exists v. split; [|reflexivity]. now apply deviance_moved. }
  intros dv0 _ <-. apply (sim_bnd eq); [apply sim_read_iter|]. intros m _ <-.
  apply (sim_bnd (loop_twin p)); [now apply sim_inner_fit_loop|].
  intros [[[q1 it1] bad1] tr1] [[[q2 it2] bad2] tr2] (K1 & -> & -> & ->).
  apply (sim_bnd eq). { destruct (_ || _); [now apply sim_store_fit|now apply sim_ret]. }
  intros _ _ _. apply (sim_bnd eq); [apply sim_set_itinner|]. intros _ _ _. apply sim_ret.
  destruct K1 as (_ & _ & _ & _ & _ & -> & _). reflexivity.
Qed.
Lemma sim_fit_cycle ps : forall io dev, sim eq (fit_cycle ops e ps io dev) (fit_cycle ops e' ps io dev).
Proof.
  induction ps as [|p ps IH]; intros io dev; cbn [fit_cycle]; [now apply sim_ret|].
  apply (sim_bnd eq); [apply sim_inner_fit|]. intros r _ <-. apply IH.
Qed.
Lemma sim_outer_fit_loop fuel : forall it dev0 dev, sim eq (outer_fit_loop ops e fuel it dev0 dev) (outer_fit_loop ops e' fuel it dev0 dev).
Proof.
  induction fuel as [|fuel IH]; intros it dev0 dev; cbn [outer_fit_loop]; [apply sim_raise|].
  apply (sim_bnd eq); [apply sim_peek; same_field|]. intros mn _ <-.
  unfold outer_converged. rewrite Ec, Ep.
  destruct (_ && _); [now apply sim_ret|].
  apply (sim_bnd eq); [apply sim_fit_cycle|]. intros dev' _ <-. apply IH.
Qed.
Lemma sim_outer_fit fuel : sim eq (outer_fit ops e fuel) (outer_fit ops e' fuel).
Proof.
  unfold outer_fit. apply (sim_bnd fv_twin); [apply sim_peek; apply W_fv|]. intros fv ? [Lf ->].
  apply (sim_bnd eq). { apply sim_lift. intros v E. exists v. split; [|reflexivity]. now apply deviance_moved. }
  intros dv0 _ <-. apply sim_outer_fit_loop.
Qed.
End Fit.

Section Update.
Hypothesis Hc : forall p, (p < d_n d)%nat -> concave_in d p.
Definition pair_twin (p : nat) (v b : cand * nat) : Prop := cand_twin p (fst v) (fst b) /\ snd b = snd v.
Lemma sim_inner_update_loop gdev p io j : forall it fv dvs cnt, length fv = n ->
  sim (pair_twin p) (inner_update_loop ops e gdev p io j it fv dvs cnt) (inner_update_loop ops e' gdev p io j it (map (moved a) fv) dvs cnt).
Proof.
  induction j as [|j IH]; intros it fv dvs cnt Lf; cbn [inner_update_loop]; [apply sim_raise|].
  apply (sim_bnd (fun v b => v = b /\ (p < d_n d)%nat)); [apply sim_read_step|]. intros step _ [<- Hp].
  apply (sim_bnd (cand_twin p)). { apply sim_update_candidate; auto. }
  intros q q' Hq. pose proof Hq as (_ & _ & _ & Qp & _ & Qd & _ & Ql & Qf). rewrite Qd, Qf.
  apply (sim_bnd eq). { destruct (Rltb _ _); [apply sim_set_step|now apply sim_ret]. }
  intros _ _ _. unfold update_stop. rewrite Ec.
  destruct (_ || Nat.eqb j 0).
  { apply sim_ret. split; [exact Hq|reflexivity]. }
  destruct (twin_next p (Rltb (dvs it) (c_dv q)) fv (c_fv q) Lf Ql) as [-> L]. now apply IH.
Qed.
Lemma sim_store_update p it q q' sumw : cand_twin p q q' -> sim eq (store_update e p it q sumw) (store_update e' p it q' sumw).
Proof.
  intros (Hp & Q1 & Q2 & Q4 & Q5 & _ & Qt & Lf & Qf). apply sim_write. wtwin.
  rewrite Q4, Q5, Qt, Qf, Ew, Ep, Et, col_moved, set_col_moved.
  split; [apply set_col_len; rewrite ?col_len; assumption|].
  split; [exact G|]. split; [intros r Hr; apply gram_fupd; auto|]. split; [|split; [|repeat eexists]].
  2: { intros r Hr. wproj. unfold fupd. destruct (Nat.eqb_spec r p); [right; discriminate|auto]. }
  intros r Hr. wproj. unfold fupd. destruct (Nat.eqb_spec r p); [subst r; auto|auto].
Qed.
Lemma sim_inner_update gdev p io : sim eq (inner_update ops e gdev p io) (inner_update ops e' gdev p io).
Proof.
  unfold inner_update. apply (sim_bnd fv_twin); [apply sim_peek; apply W_fv|]. intros fv ? [Lf ->].
  apply (sim_bnd eq). { apply sim_lift. intros v E. exists v. split; [|reflexivity]. now apply deviance_moved. }
  intros dv0 _ <-. apply (sim_bnd eq); [apply sim_read_iter|]. intros m _ <-.
  rewrite Ep, Ey, map_length.
  apply (sim_bnd (pair_twin p)); [now apply sim_inner_update_loop|].
  intros [q1 it1] [q2 it2] [K1 K2]. cbn [fst snd] in *. subst it2.
  apply (sim_bnd eq); [apply sim_get; same_field|]. intros sumw _ <-.
  apply (sim_bnd eq); [now apply sim_store_update|]. intros _ _ _. apply sim_ret.
  destruct K1 as (_ & _ & _ & _ & _ & -> & _). reflexivity.
Qed.
Lemma sim_update_cycle gdev ps : forall io dev, sim eq (update_cycle ops e gdev ps io dev) (update_cycle ops e' gdev ps io dev).
Proof.
  induction ps as [|p ps IH]; intros io dev; cbn [update_cycle]; [now apply sim_ret|].
  apply (sim_bnd eq); [apply sim_inner_update|]. intros r _ <-. apply IH.
Qed.
Lemma sim_outer_update_loop gdev fuel : forall it dev0 dev, sim eq (outer_update_loop ops e gdev fuel it dev0 dev) (outer_update_loop ops e' gdev fuel it dev0 dev).
Proof.
  induction fuel as [|fuel IH]; intros it dev0 dev; cbn [outer_update_loop]; [apply sim_raise|].
  apply (sim_bnd eq); [apply sim_peek; same_field|]. intros mn _ <-.
  unfold outer_converged. rewrite Ec, Ep.
  destruct (_ && _); [now apply sim_ret|].
  apply (sim_bnd eq); [apply sim_update_cycle|]. intros dev' _ <-. apply IH.
Qed.
Lemma sim_outer_update gdev fuel : sim eq (outer_update ops e gdev fuel) (outer_update ops e' gdev fuel).
Proof.
  unfold outer_update. apply (sim_bnd fv_twin); [apply sim_peek; apply W_fv|]. intros fv ? [Lf ->].
  apply (sim_bnd eq). { apply sim_lift. intros v E. exists v. split; [|reflexivity]. now apply deviance_moved. }
  intros dv0 _ <-. rewrite Ep, Ey, map_length. apply sim_outer_update_loop.
Qed.
End Update.
End Equi.
