(** Successful calls of fit and update taken apart; the outer loops. *)
From Coq Require Import Reals List Bool Arith ZArith Lra Lia.
From Verif Require Import Base Lin Data M_Gram M_OLS M_Scaler M_Utils M_Links M_State M_LM M_Equation M_GAMLSS L_GAM1.
Import ListNotations.
Open Scope R_scope.

Lemma bnd_inv {S A B} (m : st S A) (k : A -> st S B) s s' b :
  bnd m k s = (s', Ok b) -> exists a s1, m s = (s1, Ok a) /\ k a s1 = (s', Ok b).
Proof. unfold bnd. destruct (m s) as [s1 [a|x]]; [eauto|discriminate]. Qed.
Lemma lift_inv {S A} (r : res A) (s s' : S) a : lift r s = (s', Ok a) -> s' = s /\ r = Ok a.
Proof. unfold lift. intros H. injection H as -> ->. auto. Qed.
Lemma ret_inv {S A} (a b : A) (s s' : S) : ret a s = (s', Ok b) -> s' = s /\ a = b.
Proof. unfold ret. intros H. injection H as -> ->. auto. Qed.
Lemma write_inv {S} (f : S -> S) s s' u : write f s = (s', Ok u) -> s' = f s.
Proof. unfold write. intros H. now injection H as ->. Qed.
Lemma read_inv {S A} (f : S -> option A) s s' a : read f s = (s', Ok a) -> s' = s /\ f s = Some a.
Proof. unfold read. destruct (f s); intros H; [injection H as -> ->; auto|discriminate]. Qed.
Lemma get_inv {M A} (f : work M -> option A) s s' a : get f s = (s', Ok a) -> s' = s /\ f s = Some a.
Proof. unfold get. destruct (f s); intros H; [injection H as -> ->; auto|discriminate]. Qed.
Lemma peek_inv {M A} (f : work M -> A) s s' a : peek f s = (s', Ok a) -> s' = s /\ f s = a.
Proof. unfold peek. intros H. injection H as -> ->. auto. Qed.
Lemma read_iter_inv {M} i (s s' : work M) n : read_iter i s = (s', Ok n) -> s' = s /\ nth_error (w_iter s) (i - 1) = Some n.
Proof. unfold read_iter. destruct (nth_error _ _); intros H; [injection H as -> ->; auto|discriminate]. Qed.
Lemma read_step_inv {M} (e : env M) i j p (s s' : work M) v : read_step e i j p s = (s', Ok v) ->
  s' = s /\ w_step s (i - 1) j p = v /\ (p < length (values (p_steps (e_prep e))))%nat /\ (p < d_n (o_dist (e_cfg e)))%nat.
Proof.
  unfold read_step. destruct (_ && _) eqn:E; [|discriminate].
  apply andb_prop in E. destruct E as [E1 E2]. apply Nat.ltb_lt in E1. apply Nat.ltb_lt in E2.
  intros H. apply peek_inv in H. tauto.
Qed.

(** One step of taking a successful computation apart. *)
Ltac peel H :=
  let a := fresh "a" in let s := fresh "s" in let H1 := fresh "P" in
  apply bnd_inv in H; destruct H as (a & s & H1 & H).
Ltac peel_as H a s H1 := apply bnd_inv in H; destruct H as (a & s & H1 & H).

Lemma unpair {A B} (q : A * B) : q = (fst q, snd q). Proof. now destruct q. Qed.

(** * Outer loops *)
Section Outer.
Context {M : Type} (ops : method_ops M) (e : env M).
Notation c := (e_cfg e).

Lemma inner_fit_range p io s s' r : inner_fit ops e p io s = (s', Ok r) ->
  (io - 1 < length (w_iter s))%nat.
Proof.
  intros H. unfold inner_fit in H.
  peel_as H fv s1 P1. apply peek_inv in P1. destruct P1 as [-> <-].
  peel_as H dv s2 P2. apply lift_inv in P2. destruct P2 as [-> _].
  peel_as H n s3 P3. apply read_iter_inv in P3. destruct P3 as [_ E].
  apply nth_error_Some. congruence.
Qed.
Lemma fit_cycle_range ps io dev s s' r : ps <> [] -> fit_cycle ops e ps io dev s = (s', Ok r) ->
  (io - 1 < length (w_iter s))%nat.
Proof.
  destruct ps as [|p ps]; [congruence|]. intros _ H. cbn [fit_cycle] in H.
  peel_as H q s1 P. eapply inner_fit_range; eauto.
Qed.
Lemma inner_update_range g p io s s' r : inner_update ops e g p io s = (s', Ok r) ->
  (io - 1 < length (w_iter s))%nat.
Proof.
  intros H. unfold inner_update in H.
  peel_as H fv s1 P1. apply peek_inv in P1. destruct P1 as [-> <-].
  peel_as H dv s2 P2. apply lift_inv in P2. destruct P2 as [-> _].
  peel_as H n s3 P3. apply read_iter_inv in P3. destruct P3 as [_ E].
  apply nth_error_Some. congruence.
Qed.
Lemma update_cycle_range g ps io dev s s' r : ps <> [] -> update_cycle ops e g ps io dev s = (s', Ok r) ->
  (io - 1 < length (w_iter s))%nat.
Proof.
  destruct ps as [|p ps]; [congruence|]. intros _ H. cbn [update_cycle] in H.
  peel_as H q s1 P. eapply inner_update_range; eauto.
Qed.

Lemma plan_of {A} (m : st (work M) A) s s' r : keeps plan m -> m s = (s', r) ->
  w_iter s' = w_iter s /\ w_min s' = w_min s.
Proof. intros K H. specialize (K s). rewrite H in K. unfold plan in K. cbn in K. split; congruence. Qed.

Lemma outer_fit_loop_ok : p_order (e_prep e) <> [] -> forall fuel it dev0 dev s s' dv n,
  length (w_iter s) = o_max_outer c -> (it <= o_max_outer c)%nat ->
  outer_fit_loop ops e fuel it dev0 dev s = (s', Ok (dv, n)) ->
  (w_min s <= n <= o_max_outer c)%nat /\ w_iter s' = w_iter s /\ w_min s' = w_min s /\ (it <= n)%nat.
Proof.
  intros Ho. induction fuel as [|fuel IH]; intros it dev0 dev s s' dv n L Hit H; cbn [outer_fit_loop] in H; [discriminate|].
  peel_as H mn s1 P. apply peek_inv in P. destruct P as [-> <-].
  destruct ((w_min s <=? it)%nat && _) eqn:E.
  - apply ret_inv in H. destruct H as [-> H]. injection H as -> <-.
    apply andb_prop in E. destruct E as [E _]. apply Nat.leb_le in E. auto.
  - peel_as H dev' s1 P. pose proof (fit_cycle_range _ _ _ _ _ _ Ho P) as Rg.
    destruct (plan_of _ _ _ _ (fit_cycle_plan ops e _ _ _) P) as [I1 I2].
    apply IH in H; [|congruence|lia].
    rewrite I1, I2 in H. destruct H as (H1 & H2 & H3 & H4). repeat split; try tauto; lia.
Qed.
Lemma outer_fit_ok fuel s s' dv n : p_order (e_prep e) <> [] -> length (w_iter s) = o_max_outer c ->
  outer_fit ops e fuel s = (s', Ok (dv, n)) ->
  (w_min s <= n <= o_max_outer c)%nat /\ w_iter s' = w_iter s /\ w_min s' = w_min s.
Proof.
  intros Ho L H. unfold outer_fit in H.
  peel_as H fv s1 P1. apply peek_inv in P1. destruct P1 as [-> <-].
  peel_as H dev s2 P2. apply lift_inv in P2. destruct P2 as [-> _].
  apply outer_fit_loop_ok in H; auto; [tauto|lia].
Qed.
Lemma outer_update_loop_ok g : p_order (e_prep e) <> [] -> forall fuel it dev0 dev s s' dv n,
  length (w_iter s) = o_max_outer c -> (it <= o_max_outer c)%nat ->
  outer_update_loop ops e g fuel it dev0 dev s = (s', Ok (dv, n)) ->
  (w_min s <= n <= o_max_outer c)%nat /\ w_iter s' = w_iter s /\ w_min s' = w_min s /\ (it <= n)%nat.
Proof.
  intros Ho. induction fuel as [|fuel IH]; intros it dev0 dev s s' dv n L Hit H; cbn [outer_update_loop] in H; [discriminate|].
  peel_as H mn s1 P. apply peek_inv in P. destruct P as [-> <-].
  destruct ((w_min s <=? it)%nat && _) eqn:E.
  - apply ret_inv in H. destruct H as [-> H]. injection H as -> <-.
    apply andb_prop in E. destruct E as [E _]. apply Nat.leb_le in E. auto.
  - peel_as H dev' s1 P. pose proof (update_cycle_range _ _ _ _ _ _ _ Ho P) as Rg.
    destruct (plan_of _ _ _ _ (update_cycle_plan ops e _ _ _ _) P) as [I1 I2].
    apply IH in H; [|congruence|lia].
    rewrite I1, I2 in H. destruct H as (H1 & H2 & H3 & H4). repeat split; try tauto; lia.
Qed.
Lemma outer_update_ok g fuel s s' dv n : p_order (e_prep e) <> [] -> length (w_iter s) = o_max_outer c ->
  outer_update ops e g fuel s = (s', Ok (dv, n)) ->
  (w_min s <= n <= o_max_outer c)%nat /\ w_iter s' = w_iter s /\ w_min s' = w_min s.
Proof.
  intros Ho L H. unfold outer_update in H.
  peel_as H fv s1 P1. apply peek_inv in P1. destruct P1 as [-> <-].
  peel_as H dev s2 P2. apply lift_inv in P2. destruct P2 as [-> _].
  apply outer_update_loop_ok in H; auto; [tauto|lia].
Qed.

(** More fuel changes nothing. *)
Lemma outer_fit_loop_fuel : p_order (e_prep e) <> [] -> forall f1 f2 it dev0 dev s,
  length (w_iter s) = o_max_outer c -> (it <= o_max_outer c)%nat ->
  (o_max_outer c < it + f1)%nat -> (o_max_outer c < it + f2)%nat ->
  outer_fit_loop ops e f1 it dev0 dev s = outer_fit_loop ops e f2 it dev0 dev s.
Proof.
  intros Ho. induction f1 as [|f1 IH]; intros f2 it dev0 dev s L Hit H1 H2; [lia|].
  destruct f2 as [|f2]; [lia|]. cbn [outer_fit_loop]. unfold bnd at 1 3. cbn [peek].
  destruct ((w_min s <=? it)%nat && _); [reflexivity|].
  unfold bnd. destruct (fit_cycle ops e (p_order (e_prep e)) (S it) dev s) as [s1 [dev'|x]] eqn:P; [|reflexivity].
  pose proof (fit_cycle_range _ _ _ _ _ _ Ho P) as Rg.
  destruct (plan_of _ _ _ _ (fit_cycle_plan ops e _ _ _) P) as [I1 I2].
  apply IH; [congruence|lia|lia|lia].
Qed.
Lemma outer_update_loop_fuel g : p_order (e_prep e) <> [] -> forall f1 f2 it dev0 dev s,
  length (w_iter s) = o_max_outer c -> (it <= o_max_outer c)%nat ->
  (o_max_outer c < it + f1)%nat -> (o_max_outer c < it + f2)%nat ->
  outer_update_loop ops e g f1 it dev0 dev s = outer_update_loop ops e g f2 it dev0 dev s.
Proof.
  intros Ho. induction f1 as [|f1 IH]; intros f2 it dev0 dev s L Hit H1 H2; [lia|].
  destruct f2 as [|f2]; [lia|]. cbn [outer_update_loop]. unfold bnd at 1 3. cbn [peek].
  destruct ((w_min s <=? it)%nat && _); [reflexivity|].
  unfold bnd. destruct (update_cycle ops e g (p_order (e_prep e)) (S it) dev s) as [s1 [dev'|x]] eqn:P; [|reflexivity].
  pose proof (update_cycle_range _ _ _ _ _ _ _ Ho P) as Rg.
  destruct (plan_of _ _ _ _ (update_cycle_plan ops e _ _ _ _) P) as [I1 I2].
  apply IH; [congruence|lia|lia|lia].
Qed.
Lemma C58_fuel_lemma g fuel s : p_order (e_prep e) <> [] -> length (w_iter s) = o_max_outer c ->
  (enough_fuel c <= fuel)%nat ->
  outer_fit ops e fuel s = outer_fit ops e (enough_fuel c) s /\
  outer_update ops e g fuel s = outer_update ops e g (enough_fuel c) s.
Proof.
  unfold enough_fuel. intros Ho L Hf. split.
  - unfold outer_fit, bnd. cbn [peek lift]. destruct (deviance e (w_fv s)); [|reflexivity].
    apply outer_fit_loop_fuel; auto; lia.
  - unfold outer_update, bnd. cbn [peek lift]. destruct (deviance e (w_fv s)); [|reflexivity].
    apply outer_update_loop_fuel; auto; lia.
Qed.

(** If no inner fit raises, the outer loop returns. *)
Lemma C58_returns_lemma : p_order (e_prep e) <> [] -> forall fuel s,
  length (w_iter s) = o_max_outer c -> (w_min s <= o_max_outer c)%nat -> (enough_fuel c <= fuel)%nat ->
  (exists dv, deviance e (w_fv s) = Ok dv) ->
  (forall p io s1, In p (p_order (e_prep e)) -> (1 <= io <= o_max_outer c)%nat ->
     w_iter s1 = w_iter s -> exists r, snd (inner_fit ops e p io s1) = Ok r) ->
  exists dv n, snd (outer_fit ops e fuel s) = Ok (dv, n).
Proof.
  intros Ho fuel s L Hm Hf [dv0 Hdv] Hin.
  assert (Cyc : forall io, (1 <= io <= o_max_outer c)%nat -> forall ps dev s1, incl ps (p_order (e_prep e)) ->
     w_iter s1 = w_iter s -> exists r, snd (fit_cycle ops e ps io dev s1) = Ok r).
  { intros io Hio ps. induction ps as [|p ps IH]; intros dev s1 Hi E; cbn [fit_cycle]; [exists dev; reflexivity|].
    destruct (Hin p io s1 (Hi p (or_introl eq_refl)) Hio E) as [r Hr].
    unfold bnd. destruct (inner_fit ops e p io s1) as [s2 r2] eqn:P. cbn in Hr. subst r2.
    apply IH; [intros q Hq; apply Hi; cbn; auto|].
    destruct (plan_of _ _ _ _ (inner_fit_plan ops e p io) P) as [I1 _]. congruence. }
  assert (Lp : forall k it dev1 dev2 s1, (o_max_outer c < it + k)%nat -> (it <= o_max_outer c)%nat ->
     w_iter s1 = w_iter s -> w_min s1 = w_min s ->
     exists dv n, snd (outer_fit_loop ops e k it dev1 dev2 s1) = Ok (dv, n)).
  { induction k as [|k IH]; intros it dev1 dev2 s1 H1 H2 E1 E2; [lia|]. cbn [outer_fit_loop].
    unfold bnd at 1. cbn [peek]. rewrite E2. destruct ((w_min s <=? it)%nat && _) eqn:Et.
    { eexists; eexists; reflexivity. }
    destruct (Nat.eq_dec it (o_max_outer c)) as [Em|Em].
    { exfalso. apply andb_false_iff in Et. destruct Et as [Et|Et].
      - apply Nat.leb_gt in Et. lia.
      - rewrite Em, Nat.leb_refl, orb_true_r in Et. discriminate. }
    destruct (Cyc (S it) ltac:(lia) (p_order (e_prep e)) dev2 s1 (incl_refl _) E1) as [r Hr].
    unfold bnd. destruct (fit_cycle ops e _ _ _ s1) as [s2 r2] eqn:P. cbn in Hr. subst r2.
    destruct (plan_of _ _ _ _ (fit_cycle_plan ops e _ _ _) P) as [I1 I2].
    apply IH; try lia; congruence. }
  unfold outer_fit, bnd. cbn [peek lift]. rewrite Hdv. apply Lp; auto; unfold enough_fuel in *; lia.
Qed.
End Outer.

(** * The object *)
Section Object.
Context {M : Type} (ops : method_ops M) (c : gam_cfg M).

Definition start_env (pr : prep) (b : batch) (X : nat -> nat * list vec) : env M :=
  let n := lsum (ws (b_rows b)) in
  mk_env c pr n (fun p => effective_training_length (p_forget pr p) n) (gam_isreg pr) X (ys (b_rows b)) (ws (b_rows b)).

Lemma gfit_scaler_ok forget b (s s' : gam M) sc : gfit_scaler c forget b s = (s', Ok sc) ->
  scaler_fit forget (o_scale c) (b_p b) (b_rows b) = Ok sc /\
  s' = mk_gam (s_prep s) (Some (Some sc)) (s_nfin s) (s_nobs s) (s_ntrain s) (s_J s) (s_isreg s) (s_work s) (s_dev s).
Proof.
  unfold gfit_scaler. destruct (scaler_fit forget (o_scale c) (b_p b) (b_rows b)) as [sc'|x] eqn:E.
  - intros H. peel H. apply write_inv in P. apply ret_inv in H. destruct H as [-> ->]. subst. auto.
  - destruct x; intros H; try discriminate H; destruct (selection _ _); unfold bnd, gset_scaler, write, raise in H; discriminate H.
Qed.
Lemma on_work_inv {A} (m : st (work M) A) (s s' : gam M) a : on_work m s = (s', Ok a) ->
  exists w w', s_work s = Some w /\ m w = (w', Ok a) /\
    s' = mk_gam (s_prep s) (s_scaler s) (s_nfin s) (s_nobs s) (s_ntrain s) (s_J s) (s_isreg s) (Some w') (s_dev s).
Proof.
  unfold on_work. destruct (s_work s) as [w|]; [|discriminate].
  destruct (m w) as [w' r] eqn:E. intros H. injection H as <- ->. eauto.
Qed.
Lemma validate_support_inv l (s s' : gam M) u : validate_support c l s = (s', Ok u) -> s' = s /\
  existsb (fun o => below (oy o) (d_lo (o_dist c))) l = false /\
  existsb (fun o => above (oy o) (d_hi (o_dist c))) l = false.
Proof.
  unfold validate_support. destruct (existsb _ l); [discriminate|]. destruct (existsb _ l); [discriminate|].
  intros H. apply ret_inv in H. destruct H as [-> _]. auto.
Qed.

Ltac proj H := cbn [s_prep s_scaler s_nfin s_nobs s_ntrain s_J s_isreg s_work s_dev] in H.
Ltac wri H := apply write_inv in H; proj H.
Lemma gam_fit_ok b s s' : gam_fit ops c b s = (s', Ok tt) ->
  exists pr methods fv js sc X w dv n,
    prepare c = Ok (pr, methods) /\
    (1 <= length (b_rows b))%nat /\ (1 <= b_p b)%nat /\
    existsb (fun o => below (oy o) (d_lo (o_dist c))) (b_rows b) = false /\
    existsb (fun o => above (oy o) (d_hi (o_dist c))) (b_rows b) = false /\
    d_init (o_dist c) (ys (b_rows b)) = Ok fv /\
    all_J pr (b_p b) (seq 0 (d_n (o_dist c))) = Ok js /\
    scaler_fit (p_forget pr O) (o_scale c) (b_p b) (b_rows b) = Ok sc /\
    arrays c pr (b_p b) (map (scaler_transform sc) (Xs (b_rows b))) = Ok X /\
    outer_fit ops (start_env pr b X) (enough_fuel c) (start_work c pr methods fv) = (w, Ok (dv, n)) /\
    s' = mk_gam (Some pr) (Some (Some sc)) (Some (b_p b)) (Some (lsum (ws (b_rows b))))
           (Some (e_ntrain (start_env pr b X))) (Some (fun p => nth p js O)) (Some (gam_isreg pr)) (Some w) (Some (dv, n)).
Proof.
  intros H. destruct s as [a1 a2 a3 a4 a5 a6 a7 a8 a9]. unfold gam_fit in H.
  peel_as H pm s1 P. apply lift_inv in P. destruct P as [-> Ep]. destruct pm as [pr methods].
  peel_as H u s2 P. wri P. subst s2.
  peel_as H u2 s3 P. unfold gvalidate_new in P.
  destruct ((length (b_rows b) <? 1)%nat || (b_p b <? 1)%nat) eqn:Ev; [discriminate|].
  apply orb_false_iff in Ev. destruct Ev as [Ev1 Ev2]. apply Nat.ltb_ge in Ev1. apply Nat.ltb_ge in Ev2.
  wri P. subst s3.
  peel_as H u3 s4 P. apply validate_support_inv in P. destruct P as (-> & Elo & Ehi).
  peel_as H u4 s5 P. wri P. subst s5.
  peel_as H u5 s6 P. wri P. subst s6.
  peel_as H fv s7 P. apply lift_inv in P. destruct P as [-> Efv].
  peel_as H js s8 P. apply lift_inv in P. destruct P as [-> Ejs].
  peel_as H u6 s9 P. wri P. subst s9.
  peel_as H sc s10 P. apply gfit_scaler_ok in P. proj P. destruct P as [Esc ->].
  peel_as H X s11 P. apply lift_inv in P. destruct P as [-> EX].
  peel_as H u7 s12 P. wri P. subst s12.
  peel_as H r s13 P. apply on_work_inv in P. destruct P as (w0 & w & Ew & Eo & ->).
  cbn in Ew. injection Ew as <-. destruct r as [dv n].
  wri H. subst s'.
  exists pr, methods, fv, js, sc, X, w, dv, n. repeat (split; [assumption|]). reflexivity.
Qed.

Definition again_env (pr : prep) isreg (n0 : R) (b : batch) (X : nat -> nat * list vec) : env M :=
  let n := n0 + lsum (ws (b_rows b)) in
  mk_env c pr n (fun p => effective_training_length (p_forget pr p) n) isreg X (ys (b_rows b)) (ws (b_rows b)).

(** The working state at the start of the outer loop of update. *)
Definition again_work (pr : prep) (b : batch) (fv : list vec) (w : work M) : res (work M) :=
  let w1 := restart_work c pr fv (if (0 <? o_prefit_update c)%nat then o_prefit_update c else w_min w) w in
  if o_cautious c then
    do lh <- cautious_bounds c fv;
    Ok (cautious_work c (existsb (fun o => Rltb (oy o) (fst lh) || Rltb (snd lh) (oy o)) (b_rows b)) w1)
  else Ok w1.

Lemma gupdate_scaler_ok b (s s' : gam M) sc : gupdate_scaler b s = (s', Ok sc) ->
  exists sc0, s_scaler s = Some (Some sc0) /\
    sc_do sc0 && negb (forallb (fun j => j <? b_p b)%nat (sc_sel sc0)) = false /\
    scaler_update sc0 (b_rows b) = Ok sc /\
    s' = mk_gam (s_prep s) (Some (Some sc)) (s_nfin s) (s_nobs s) (s_ntrain s) (s_J s) (s_isreg s) (s_work s) (s_dev s).
Proof.
  unfold gupdate_scaler. intros H.
  peel_as H o s1 P. apply read_inv in P. destruct P as [-> E].
  destruct o as [sc0|]; [|discriminate]. exists sc0. split; [exact E|].
  destruct (sc_do sc0 && _) eqn:Ed.
  { peel_as H u s2 P. discriminate. }
  split; [reflexivity|].
  peel_as H sc' s2 P. apply lift_inv in P. destruct P as [-> Eu].
  peel_as H u s3 P. wri P. subst s3.
  apply ret_inv in H. destruct H as [-> ->]. auto.
Qed.
Lemma predict_parameters_ok response p X (s s' : gam M) out : predict_parameters c response p X s = (s', Ok out) ->
  exists sc pr A w, s' = s /\ s_scaler s = Some (Some sc) /\ s_prep s = Some pr /\ s_work s = Some w /\
    (1 <= length X)%nat /\ (1 <= p)%nat /\ (forall q, s_nfin s = Some q -> q = p) /\
    sc_do sc && negb (forallb (fun j => j <? p)%nat (sc_sel sc)) = false /\
    arrays c pr p (map (scaler_transform sc) X) = Ok A /\
    out = map (fun i q => let eta := dot (fst (A q)) (nth i (snd (A q)) (fun _ => 0)) (w_coef w q) in
                          if response then d_inv (o_dist c) q eta else eta) (seq 0 (length X)).
Proof.
  unfold predict_parameters. destruct (gfitted s); [|discriminate]. intros H.
  peel_as H u s1 P. unfold gvalidate_old in P.
  destruct ((length X <? 1)%nat || (p <? 1)%nat) eqn:Ev; [discriminate|].
  apply orb_false_iff in Ev. destruct Ev as [Ev1 Ev2]. apply Nat.ltb_ge in Ev1. apply Nat.ltb_ge in Ev2.
  assert (Q : s1 = s /\ forall q, s_nfin s = Some q -> q = p).
  { destruct (s_nfin s) as [q|]; [destruct (Nat.eqb_spec p q); [|discriminate]|]; injection P as <-; split; auto; congruence. }
  destruct Q as [-> Q].
  peel_as H o s2 P2. apply read_inv in P2. destruct P2 as [-> E].
  destruct o as [sc|]; [|discriminate].
  destruct (sc_do sc && _) eqn:Ed; [discriminate|].
  peel_as H pr s3 P3. apply read_inv in P3. destruct P3 as [-> Epr].
  peel_as H A s4 P4. apply lift_inv in P4. destruct P4 as [-> EA].
  peel_as H w s5 P5. apply read_inv in P5. destruct P5 as [-> Ew].
  apply ret_inv in H. destruct H as [-> <-].
  exists sc, pr, A, w. repeat (split; [assumption || reflexivity|]).
  apply map_ext. intros i. apply FunctionalExtensionality.functional_extensionality. intros q.
  destruct (A q) as [k rows]. reflexivity.
Qed.
Lemma predict_parameters_run response p X (s : gam M) sc pr A w :
  s_scaler s = Some (Some sc) -> s_prep s = Some pr -> s_work s = Some w ->
  (1 <= length X)%nat -> (1 <= p)%nat -> (forall q, s_nfin s = Some q -> q = p) ->
  sc_do sc && negb (forallb (fun j => j <? p)%nat (sc_sel sc)) = false ->
  arrays c pr p (map (scaler_transform sc) X) = Ok A ->
  predict_parameters c response p X s =
    (s, Ok (map (fun i q => let eta := dot (fst (A q)) (nth i (snd (A q)) (fun _ => 0)) (w_coef w q) in
                            if response then d_inv (o_dist c) q eta else eta) (seq 0 (length X)))).
Proof.
  destruct s as [a1 a2 a3 a4 a5 a6 a7 a8 a9]. cbn [s_prep s_scaler s_nfin s_work].
  intros -> -> -> HX Hp Hq Hs HA. unfold predict_parameters, gfitted. cbn [s_nfin s_nobs s_ntrain s_J s_work].
  assert (G : match a3, a4, a5, a6 with None, None, None, None => true | _, _, _, _ => true end = true)
    by (destruct a3, a4, a5, a6; reflexivity).
  rewrite G. unfold gvalidate_old, bnd, read, lift, ret.
  destruct ((length X <? 1)%nat || (p <? 1)%nat) eqn:Ev.
  { apply orb_prop in Ev. destruct Ev as [Ev|Ev]; apply Nat.ltb_lt in Ev; lia. }
  cbn [s_nfin s_scaler s_prep s_work].
  assert (V : match a3 with Some q => if Nat.eqb p q then true else false | None => true end = true).
  { destruct a3 as [q|]; [|reflexivity]. rewrite (Hq q eq_refl), Nat.eqb_refl. reflexivity. }
  destruct a3 as [q|]; [destruct (Nat.eqb p q); [|discriminate]|]; cbn [s_nfin s_scaler s_prep s_work];
    rewrite Hs; cbn [s_nfin s_scaler s_prep s_work]; rewrite HA; f_equal; f_equal; apply map_ext; intros i;
    apply FunctionalExtensionality.functional_extensionality; intros q'; destruct (A q'); reflexivity.
Qed.
Lemma gvalidate_old_inv p n (s s' : gam M) u : gvalidate_old p n s = (s', Ok u) ->
  s' = s /\ (1 <= n)%nat /\ (1 <= p)%nat /\ (forall q, s_nfin s = Some q -> q = p).
Proof.
  unfold gvalidate_old. destruct ((n <? 1)%nat || (p <? 1)%nat) eqn:Ev; [discriminate|].
  apply orb_false_iff in Ev. destruct Ev as [Ev1 Ev2]. apply Nat.ltb_ge in Ev1. apply Nat.ltb_ge in Ev2.
  intros P. destruct (s_nfin s) as [q|]; [destruct (Nat.eqb_spec p q); [|discriminate]|]; injection P as <-; repeat split; auto; congruence.
Qed.

Lemma gam_update_ok b s s' : gam_update ops c b s = (s', Ok tt) ->
  exists n0 pr fv sc0 sc X w0 w1 w dev0 it0 isreg dv n,
    (1 <= length (b_rows b))%nat /\ (1 <= b_p b)%nat /\ (forall q, s_nfin s = Some q -> q = b_p b) /\
    existsb (fun o => below (oy o) (d_lo (o_dist c))) (b_rows b) = false /\
    existsb (fun o => above (oy o) (d_hi (o_dist c))) (b_rows b) = false /\
    s_nobs s = Some n0 /\ s_prep s = Some pr /\ s_scaler s = Some (Some sc0) /\
    s_work s = Some w0 /\ s_dev s = Some (dev0, it0) /\ s_isreg s = Some isreg /\
    snd (predict_parameters c true (b_p b) (Xs (b_rows b)) s) = Ok fv /\
    scaler_update sc0 (b_rows b) = Ok sc /\
    arrays c pr (b_p b) (map (scaler_transform sc) (Xs (b_rows b))) = Ok X /\
    again_work pr b fv w0 = Ok w1 /\
    outer_update ops (again_env pr isreg n0 b X) dev0 (enough_fuel c) w1 = (w, Ok (dv, n)) /\
    s' = mk_gam (Some pr) (Some (Some sc)) (s_nfin s) (Some (n0 + lsum (ws (b_rows b))))
           (Some (e_ntrain (again_env pr isreg n0 b X))) (s_J s) (Some isreg) (Some (commit_work w)) (Some (dv, n)).
Proof.
  intros H. destruct s as [a1 a2 a3 a4 a5 a6 a7 a8 a9]. unfold gam_update in H. cbn [s_prep s_scaler s_nfin s_nobs s_ntrain s_J s_isreg s_work s_dev].
  peel_as H u s1 P. apply gvalidate_old_inv in P. destruct P as (-> & V1 & V2 & V3).
  peel_as H u2 s2 P. apply validate_support_inv in P. destruct P as (-> & Elo & Ehi).
  peel_as H n0 s3 P. apply read_inv in P. destruct P as [-> En].
  peel_as H u3 s4 P. wri P. subst s4.
  peel_as H pr s5 P. apply read_inv in P. destruct P as [-> Epr].
  peel_as H u4 s6 P. wri P. subst s6.
  peel_as H fv s7 P. pose proof P as Pp. apply predict_parameters_ok in P.
  destruct P as (sc0 & pr' & A & w0 & -> & Esc & Epr' & Ew & _ & _ & _ & Esel & EA & Efv).
  cbn in Epr, Epr', Esc, Ew. rewrite Epr in Epr'. injection Epr' as <-.
  assert (Pfv : snd (predict_parameters c true (b_p b) (Xs (b_rows b)) (mk_gam a1 a2 a3 a4 a5 a6 a7 a8 a9)) = Ok fv).
  { rewrite (predict_parameters_run true (b_p b) (Xs (b_rows b)) (mk_gam a1 a2 a3 a4 a5 a6 a7 a8 a9) sc0 pr A w0);
      cbn [s_prep s_scaler s_nfin s_work snd]; auto; [|unfold Xs; rewrite map_length; lia].
    rewrite Efv. reflexivity. }
  peel_as H sc s8 P. apply gupdate_scaler_ok in P. destruct P as (sc0' & Esc' & _ & Eu & ->).
  cbn in Esc'. rewrite Esc in Esc'. injection Esc' as <-.
  peel_as H X s9 P. apply lift_inv in P. destruct P as [-> EX].
  peel_as H u5 s10 P. apply on_work_inv in P. destruct P as (w & w' & Ew1 & P & ->).
  cbn in Ew1. rewrite Ew in Ew1. injection Ew1 as <-. wri P. subst w'.
  peel_as H u6 s11 P.
  set (w1 := restart_work c pr fv _ w0) in *.
  assert (Q : exists w2, again_work pr b fv w0 = Ok w2 /\
    s11 = mk_gam (Some pr) (Some (Some sc)) a3 (Some (n0 + lsum (ws (b_rows b))))
      (Some (fun p => effective_training_length (p_forget pr p) (n0 + lsum (ws (b_rows b))))) a6 a7 (Some w2) a9).
  { unfold again_work. fold w1. destruct (o_cautious c).
    - peel_as P lh s12 P1. apply lift_inv in P1. destruct P1 as [-> Elh]. rewrite Elh. cbn [bind].
      apply on_work_inv in P. destruct P as (w2 & w3 & E2 & P & ->). cbn in E2. injection E2 as <-.
      wri P. subst w3. cbn. rewrite Epr. eauto.
    - apply ret_inv in P. destruct P as [-> _]. cbn. rewrite Epr. eauto. }
  destruct Q as (w2 & Ew2 & ->).
  peel_as H g s13 P1. apply read_inv in P1. destruct P1 as [-> Eg]. cbn in Eg.
  peel_as H isreg s14 P1. apply read_inv in P1. destruct P1 as [-> Ei]. cbn in Ei.
  peel_as H r s15 P1. apply on_work_inv in P1. destruct P1 as (w3 & w4 & E3 & Eo & ->).
  cbn in E3. injection E3 as <-. destruct r as [dv n].
  peel_as H u7 s16 P1. apply on_work_inv in P1. destruct P1 as (w5 & w6 & E5 & P1 & ->).
  cbn in E5. injection E5 as <-. wri P1. subst w6.
  wri H. subst s'. destruct g as [dev0 it0].
  exists n0, pr, fv, sc0, sc, X, w0, w2, w4, dev0, it0, isreg, dv, n.
  cbn [s_prep s_scaler s_nfin s_nobs s_ntrain s_J s_isreg s_work s_dev fst].
  repeat (split; [assumption|]). rewrite Ei. reflexivity.
Qed.
End Object.
