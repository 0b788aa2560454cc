(** Lemmas on the predictions of the distributional regression and on the option
    cond_start_val. *)
From Coq Require Import Reals List Bool Arith Lia Lra String.
From Verif Require Import Base Lin Data M_Scaler M_State M_LM M_Equation M_GAMLSS M_GAMDist M_Links M_DistTable M_Dist M_Mixed M_Scipy M_Predict.
From Verif Require Import S_Dist S_Mixed S_Equation S_GAMLSS S_Scipy L_GAM1 L_GAM2 L_GAM10 L_GAM12 L_GAM13 L_Scipy L_Scipy2 L_Scipy3.
Import ListNotations.
Open Scope R_scope.
Open Scope st_scope.

Section Predict.
Context {M : Type} (c : gam_cfg M).
Variables (lgam dg tg : R -> R) (ft : list R -> R * R * R) (fj : list R -> R * R * R * R) (gi : bool).
Variables (pf : dist -> R -> vec -> option R) (cond : dist -> list R -> list vec -> nat -> res (list vec)) (D : dist).
Hypothesis Ec : o_dist c = shipped_default lgam dg tg ft fj gi pf cond D.

Lemma map_res_map {A B} (f : A -> res B) (g : A -> B) l : (forall a, In a l -> f a = Ok (g a)) -> map_res f l = Ok (map g l).
Proof.
  induction l as [|a l IH]; intros H; [reflexivity|]. cbn. rewrite (H a (or_introl eq_refl)). cbn.
  rewrite IH; [reflexivity|]. intros; apply H; now right.
Qed.
Lemma C88_predict_lemma euler ncol X (s s' : gam M) params : ~ mixed D ->
  predict_parameters c true ncol X s = (s', Ok params) -> List.Forall (moderate D) params ->
  predict_mean c (dist_mean euler D) ncol X s = (s', Ok (map (expected_mean euler D) params)).
Proof.
  intros Hm H Mo. unfold predict_mean, bnd. rewrite H. unfold lift.
  rewrite (map_res_map _ (expected_mean euler D)); [reflexivity|].
  intros th Hin. apply C88_values_lemma; [exact Hm|exact (C64_valid_lemma _ _ _ _ _ _ _ _ _ _ _ _ _ _ _ Ec H th Hin)|].
  rewrite Forall_forall in Mo. now apply Mo.
Qed.
Lemma C89_mean_lemma euler ncol X (s s' : gam M) params : mixed D ->
  predict_parameters c true ncol X s = (s', Ok params) ->
  predict_mean c (dist_mean euler D) ncol X s = (s', Raise AttributeError).
Proof.
  intros Hm H. unfold predict_mean, bnd. rewrite H. unfold lift.
  apply predict_parameters_ok in H. destruct H as (sc & pr & A & w & _ & _ & _ & _ & HX & _ & _ & _ & _ & ->).
  destruct X as [|x X]; [cbn in HX; lia|]. cbn [List.length seq map map_res].
  unfold dist_mean. rewrite frozen_mixed by now apply mixed_iff. reflexivity.
Qed.
End Predict.

Section Any.
Context {M : Type} (c : gam_cfg M).
Lemma C89_median_lemma ncol X (s : gam M) :
  exists s' x, predict_median c ncol X s = (s', Raise x) /\
    (forall s'' params, predict_parameters c true ncol X s = (s'', Ok params) -> x = AttributeError).
Proof.
  unfold predict_median, bnd. destruct (predict_parameters c true ncol X s) as [s' [params|x]] eqn:E.
  - exists s', AttributeError. split; [reflexivity|]. auto.
  - exists s', x. split; [reflexivity|]. intros s'' params H. discriminate.
Qed.

Lemma transpose_nth {A} (z : A) n a i : (i < n)%nat -> nth_error (transpose z n a) i = Some (map (fun row => nth i row z) a).
Proof. intros H. unfold transpose. rewrite nth_error_map, nth_error_seq by exact H. reflexivity. Qed.
Lemma nth_map_In {A B} (f : A -> B) l i z th : nth_error l i = Some th -> nth i (map f l) z = f th.
Proof. intros H. apply nth_error_nth. now rewrite nth_error_map, H. Qed.

Lemma C90_array_lemma l ncol X (s s' : gam M) params : predict_parameters c true ncol X s = (s', Ok params) ->
  exists out, predict_quantile c (QArray l) ncol X s = (s', Ok out) /\ List.length out = List.length X /\
    forall i th, nth_error params i = Some th -> nth_error out i = Some (map (fun q => d_ppf (o_dist c) q th) l).
Proof.
  intros H. unfold predict_quantile, bnd. rewrite H. unfold ret.
  assert (Hl : List.length params = List.length X).
  { apply predict_parameters_ok in H. destruct H as (sc & pr & A & w & _ & _ & _ & _ & _ & _ & _ & _ & _ & ->). now rewrite map_length, seq_length. }
  eexists. split; [reflexivity|]. split; [unfold transpose; now rewrite map_length, seq_length|].
  intros i th Hi. rewrite transpose_nth by (apply nth_error_Some; congruence). f_equal. rewrite map_map.
  apply map_ext. intros q. exact (nth_map_In _ _ _ _ _ Hi).
Qed.
Lemma C90_number_lemma q ncol X (s s' : gam M) params : predict_parameters c true ncol X s = (s', Ok params) ->
  predict_quantile c (QNumber q) ncol X s = (s', Ok (map (fun th => [d_ppf (o_dist c) q th]) params)).
Proof. intros H. unfold predict_quantile, bnd. rewrite H. unfold ret. now rewrite map_map. Qed.
Lemma C90_list_lemma l ncol X (s s' : gam M) params : predict_parameters c true ncol X s = (s', Ok params) ->
  (List.length l = List.length params ->
     exists out, predict_quantile c (QList l) ncol X s = (s', Ok out) /\ List.length out = List.length params /\
       forall i q th, nth_error l i = Some q -> nth_error params i = Some th -> nth_error out i = Some [d_ppf (o_dist c) q th]) /\
  (List.length l <> List.length params -> List.length l <> 1%nat -> List.length params <> 1%nat ->
     predict_quantile c (QList l) ncol X s = (s', Raise ValueError)).
Proof.
  intros H. unfold predict_quantile, bnd. rewrite H. unfold ret, lift, broadcast. split.
  - intros Hl. rewrite (proj2 (Nat.eqb_eq _ _) Hl). eexists. split; [reflexivity|].
    split; [rewrite map_length, map2_length by exact Hl; exact Hl|].
    intros i q th Hq Ht. rewrite nth_error_map, map2_nth_error, Hq, Ht. reflexivity.
  - intros H1 H2 H3. rewrite (proj2 (Nat.eqb_neq _ _) H1).
    destruct l as [|a [|a' l]], params as [|b [|b' params]]; cbn in *; try lia; reflexivity.
Qed.
Lemma C90_list_transposed_lemma l ncol X (s s' : gam M) th : predict_parameters c true ncol X s = (s', Ok [th]) ->
  l <> [] -> predict_quantile c (QList l) ncol X s = (s', Ok (map (fun q => [d_ppf (o_dist c) q th]) l)).
Proof.
  intros H Hl. unfold predict_quantile, bnd. rewrite H. unfold ret, lift, broadcast.
  destruct l as [|a [|a' l]]; [contradiction|reflexivity|]. cbn. now rewrite map_map.
Qed.

(** ** Contributions *)
Lemma lsum_map_seq k f : lsum (map f (seq 0 k)) = bsum k f.
Proof.
  induction k as [|k IH]; [reflexivity|]. rewrite seq_S, map_app, lsum_app, IH. cbn. ring.
Qed.
Lemma C94_lemma what ncol X (s s' : gam M) pred contrib : predict_contributions c what ncol X s = (s', Ok (pred, contrib)) ->
  s' = s /\ (what = "response" \/ what = "link")%string /\ List.length pred = List.length X /\
  forall i p, (i < List.length X)%nat ->
    nth i pred (fun _ => 0) p =
      let eta := lsum (nth i (contrib p) []) in if String.eqb what "response" then d_inv (o_dist c) p eta else eta.
Proof.
  intros H. unfold predict_contributions in H. peel_as H pr0 s1 P.
  assert (W : exists b : bool, (what = if b then "response" else "link")%string /\ predict_parameters c b ncol X s = (s1, Ok pr0)).
  { unfold predict_what in P. destruct (String.eqb what "response") eqn:E1.
    - exists true. split; [now apply String.eqb_eq|exact P].
    - destruct (String.eqb what "link") eqn:E2; [exists false; split; [now apply String.eqb_eq|exact P]|].
      peel_as P u s2 Q. discriminate. }
  clear P. destruct W as (b & Ew & P).
  apply predict_parameters_ok in P. destruct P as (sc & pr & A & w & -> & Esc & Epr & Ewk & _ & _ & _ & _ & EA & ->).
  peel_as H o s2 P. apply read_inv in P. destruct P as [-> E]. rewrite Esc in E. injection E as <-.
  peel_as H pr' s3 P. apply read_inv in P. destruct P as [-> E]. rewrite Epr in E. injection E as <-.
  peel_as H A' s4 P. apply lift_inv in P. destruct P as [-> E]. rewrite EA in E. injection E as <-.
  peel_as H w' s5 P. apply read_inv in P. destruct P as [-> E]. rewrite Ewk in E. injection E as <-.
  apply ret_inv in H. destruct H as [-> H]. injection H as <- <-.
  split; [reflexivity|]. split; [destruct b; auto|]. split; [now rewrite map_length, seq_length|].
  intros i p Hi. cbv zeta.
  match goal with |- nth i (map ?g _) ?z p = _ => refine (eq_trans (f_equal (fun v : vec => v p) (nth_map_seq g (List.length X) i z Hi)) _) end. cbv beta zeta.
  assert (K : dot (fst (A p)) (nth i (snd (A p)) (fun _ => 0)) (w_coef w p)
     = lsum (nth i (let (k, rows) := A p in map (fun x => map (fun j => x j * w_coef w p j) (seq 0 k)) rows) [])).
  { destruct (A p) as [k rows]. cbn [fst snd]. destruct (nth_error rows i) as [x|] eqn:Er.
    - rewrite (nth_error_nth _ _ _ Er). rewrite (nth_map_In _ _ _ [] _ Er). rewrite lsum_map_seq. reflexivity.
    - apply nth_error_None in Er. rewrite !nth_overflow by (rewrite ?map_length; exact Er). cbn.
      unfold dot. rewrite (bsum_ext k _ (fun _ => 0)) by (intros; ring). apply bsum_0. }
  rewrite <- K. subst what. destruct b; reflexivity.
Qed.
Lemma C94_invalid_lemma what ncol X (s : gam M) : what <> "response"%string -> what <> "link"%string ->
  exists s' x, predict_contributions c what ncol X s = (s', Raise x) /\ predict_what c what ncol X s = (s', Raise x) /\
    (forall s'' out, predict_parameters c false ncol X s = (s'', Ok out) -> x = ValueError).
Proof.
  intros H1 H2. unfold predict_contributions, predict_what.
  rewrite (proj2 (String.eqb_neq _ _) H1), (proj2 (String.eqb_neq _ _) H2). unfold bnd.
  destruct (predict_parameters c false ncol X s) as [s' [out|x]].
  - exists s', ValueError. auto.
  - exists s', x. split; [reflexivity|]. split; [reflexivity|]. intros; discriminate.
Qed.
End Any.

(** ** cond_start_val *)
Section Cond.
Context {M : Type} (ops : method_ops M) (e : env M).
Notation c := (e_cfg e).
Variable p : nat.
Hypothesis (Hp : (1 <= p)%nat) (Hc : o_cond_start c = true) (Hr : forall fv, exists x, d_cond (o_dist c) (e_y e) fv p = Raise x).

Lemma cond_inner s s' r : inner_fit ops e p 1 s <> (s', Ok r).
Proof.
  intros H. unfold inner_fit in H.
  peel_as H fv s1 P1. peel_as H dv0 s2 P2. peel_as H n s3 P3. peel_as H q s4 P4. clear H.
  destruct n as [|n]; cbn [inner_fit_loop] in P4; [discriminate|].
  peel_as P4 step s5 P5. peel_as P4 fv' s6 P6. cbn [Nat.eqb andb] in P6.
  rewrite (proj2 (Nat.leb_le _ _) Hp), Hc in P6. cbn [andb] in P6. apply lift_inv in P6. destruct P6 as [_ P6].
  destruct (Hr fv) as [x E]. congruence.
Qed.
Lemma cond_cycle ps : forall dev s s' r, In p ps -> fit_cycle ops e ps 1 dev s <> (s', Ok r).
Proof.
  induction ps as [|q ps IH]; intros dev s s' r Hin H; [contradiction|]. cbn [fit_cycle] in H.
  peel_as H dnew s1 P. destruct Hin as [->|Hin]; [exact (cond_inner _ _ _ P)|exact (IH _ _ _ _ Hin H)].
Qed.
Lemma cond_outer fuel s s' dv n : In p (p_order (e_prep e)) -> outer_fit ops e fuel s = (s', Ok (dv, n)) -> n = O.
Proof.
  intros Hin H. unfold outer_fit in H. peel_as H fv s1 P1. peel_as H dev s2 P2.
  destruct fuel as [|fuel]; cbn [outer_fit_loop] in H; [discriminate|].
  peel_as H mn s3 P3. destruct ((mn <=? 0)%nat && _).
  - apply ret_inv in H. destruct H as [_ H]. congruence.
  - peel_as H dev' s4 P4. exfalso. exact (cond_cycle _ _ _ _ _ Hin P4).
Qed.
End Cond.

Lemma C93_fit_lemma {M} (ops : method_ops M) (c : gam_cfg M) lgam dg tg ft fj gi pf minimise D links b s s' :
  o_dist c = shipped lgam dg tg ft fj gi pf (fun d => conditional_start lgam minimise d links) D links ->
  no_start D -> o_cond_start c = true ->
  gam_fit ops c b s = (s', Ok tt) -> cycles s' = Some O.
Proof.
  intros Ec Hn Hc H. apply gam_fit_ok in H.
  destruct H as (pr & methods & fv & js & sc & X & w & dv & n & Ep & _ & _ & _ & _ & _ & _ & _ & _ & Eo & ->).
  unfold cycles. cbn. f_equal.
  assert (N : (1 < n_params D)%nat) by (destruct Hn as [->|[->|[->|[->| ->]]]]; cbn; lia).
  eapply (cond_outer ops (start_env c pr b X) 1); [lia|exact Hc| | |exact Eo].
  - intros fv'. cbn [start_env e_cfg]. rewrite Ec. cbn [shipped d_cond]. apply C93_raises_lemma; assumption.
  - cbn [start_env e_prep]. eapply prepare_order; [exact Ep|]. rewrite Ec. exact N.
Qed.

Lemma Forall2_map_r {A B} (P : A -> B -> Prop) (f : A -> B) l : (forall a, In a l -> P a (f a)) -> List.Forall2 P l (map f l).
Proof. induction l as [|a l IH]; intros H; cbn; constructor; [apply H; now left|apply IH; intros; apply H; now right]. Qed.
Lemma C90_array_quantiles_lemma {M} (c : gam_cfg M) lgam dg tg ft fj gi std_cdf std_ppf cond D l ncol X (s s' : gam M) params :
  scipy_laws std_cdf std_ppf ->
  o_dist c = shipped_default lgam dg tg ft fj gi (dist_ppf std_ppf) cond D ->
  List.Forall (fun q => 0 < q < 1) l ->
  predict_parameters c true ncol X s = (s', Ok params) ->
  exists out, predict_quantile c (QArray l) ncol X s = (s', Ok out) /\ List.length out = List.length X /\
    forall i th, nth_error params i = Some th -> exists row, nth_error out i = Some row /\
      List.Forall2 (fun q v => exists x, v = Some x /\ is_quantile (cdf_domain D) (fun y => dist_cdf std_cdf D y th) q x) l row.
Proof.
  intros L Ec Hl H. destruct (C90_array_lemma c l ncol X s s' params H) as (out & E & Hn & K).
  exists out. split; [exact E|]. split; [exact Hn|]. intros i th Hi. eexists. split; [exact (K i th Hi)|].
  apply Forall2_map_r. intros q Hq. rewrite Forall_forall in Hl.
  pose proof (C64_valid_lemma _ _ _ _ _ _ _ _ _ _ _ _ _ _ _ Ec H th (nth_error_In _ _ Hi)) as V.
  destruct (C90_quantile_lemma std_cdf std_ppf L D th q V (Hl q Hq)) as (x & Ex & Kx).
  exists x. split; [|exact Kx]. rewrite Ec. exact Ex.
Qed.
Lemma C90_one_lemma {M} (c : gam_cfg M) q ncol X (s s' : gam M) params :
  predict_parameters c true ncol X s = (s', Ok params) ->
  exists out, predict_quantile c (QNumber q) ncol X s = (s', Ok out) /\
    predict_quantile c (QArray [q]) ncol X s = (s', Ok out) /\ List.length out = List.length X.
Proof.
  intros H. eexists. split; [exact (C90_number_lemma c q ncol X s s' params H)|].
  destruct (C90_array_lemma c [q] ncol X s s' params H) as (out & E & Hn & K).
  assert (Hl : List.length params = List.length X).
  { apply predict_parameters_ok in H. destruct H as (sc & pr & A & w & _ & _ & _ & _ & _ & _ & _ & _ & _ & ->). now rewrite map_length, seq_length. }
  split; [|now rewrite map_length]. rewrite E. do 2 f_equal.
  apply nth_ext with (d := []) (d' := []); [now rewrite map_length, Hl|].
  intros i Hi. destruct (nth_error params i) as [th|] eqn:Et.
  - rewrite (nth_error_nth _ _ _ (K i th Et)). symmetry. apply nth_error_nth. now rewrite nth_error_map, Et.
  - apply nth_error_None in Et. lia.
Qed.
