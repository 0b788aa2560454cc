(** Expected Hessians. *)
From Coq Require Import Reals List Lra Lia Bool ZArith.
From Coquelicot Require Import Coquelicot.
From Verif Require Import Base M_Links S_Links L_Links L_Links2 M_DistTable M_Dist S_Dist
  L_Dist1 L_Dist2 L_Dist3 L_Dist4.
Import ListNotations.
Open Scope R_scope.

Lemma is_derive_const_R (c x : R) : is_derive (fun _ : R => c) x 0.
Proof. auto_derive; [exact I|reflexivity]. Qed.

Lemma htrue_derive dg tg d y th p q :
  (closed_form d = false -> is_trigamma dg tg) -> d <> JSU ->
  valid_theta d th -> y_support d y -> (p < n_params d)%nat -> (q < n_params d)%nat ->
  is_derive (fun v => score dg d y (upd th q v) p) (th q) (htrue dg tg d y th p q).
Proof.
  intros Ht Hj Hv Hy Hp Hq.
  destruct d; cbn [closed_form] in Ht; try (now elim Hj);
    try specialize (Ht eq_refl);
    try (apply h_normal; cbn [In]; now auto);
    try (apply h_gumbel; cbn [In]; now auto);
    try (now apply h_lnm); try (now apply h_logistic); try (now apply h_ig);
    try (now apply h_exp); try (now apply h_igamma); try (now apply h_student).
  - cbn [valid_theta y_support] in *.
    destruct q as [|[|q]]; cbn in Hp, Hq; try lia; cbn [score htrue upd Nat.eqb]; cbv zeta;
    now apply h_gamma_core.
  - cbn [valid_theta y_support] in *.
    destruct q as [|[|q]]; cbn in Hp, Hq; try lia; cbn [score htrue upd Nat.eqb]; cbv zeta;
    now apply h_beta_core.
  { cbn [valid_theta y_support] in *.
    assert (Hc : Reqb y 0 || Reqb y 1 = false -> 0 < y < 1).
    { intros E. apply orb_false_iff in E. destruct E as [E0 E1]. apply Reqb_false in E0, E1. lra. }
    destruct Hv as [[Hm Hs] [Hn Htt]].
    destruct p as [|[|[|[|p]]]]; cbn in Hp; try lia;
    destruct q as [|[|[|[|q]]]]; cbn in Hq; try lia;
    cbn [score htrue upd Nat.eqb]; cbv zeta.
    all: try (destruct (Reqb y 0 || Reqb y 1) eqn:E; [apply is_derive_const_R|];
              apply (h_beta_core dg tg Ht y (th 0%nat) (th 1%nat)); now auto).
    all: try apply is_derive_const_R.
    all: destruct (Reqb y 0); destruct (Reqb y 1); (auto_derive; [nz|]); field; nz. }
  { cbn [valid_theta y_support] in *.
    assert (Hc : Reqb y 0 = false -> 0 < y < 1).
    { intros E0. apply Reqb_false in E0. lra. }
    destruct Hv as [[Hm Hs] Hn].
    destruct p as [|[|[|p]]]; cbn in Hp; try lia;
    destruct q as [|[|[|q]]]; cbn in Hq; try lia;
    cbn [score htrue upd Nat.eqb]; cbv zeta.
    all: try (destruct (Reqb y 0) eqn:E; [apply is_derive_const_R|];
              apply (h_beta_core dg tg Ht y (th 0%nat) (th 1%nat)); now auto).
    all: try apply is_derive_const_R.
    all: destruct (Reqb y 0); (auto_derive; [nz|]); field; nz. }
  { cbn [valid_theta y_support] in *.
    assert (Hc : Reqb y 0 = false -> 0 < y).
    { intros E0. apply Reqb_false in E0. lra. }
    destruct Hv as [[Hm Hs] Hn].
    destruct p as [|[|[|p]]]; cbn in Hp; try lia;
    destruct q as [|[|[|q]]]; cbn in Hq; try lia;
    cbn [score htrue upd Nat.eqb]; cbv zeta.
    all: try (destruct (Reqb y 0) eqn:E; [apply is_derive_const_R|];
              apply (h_gamma_core dg tg Ht y (th 0%nat) (th 1%nat)); now auto).
    all: try apply is_derive_const_R.
    all: destruct (Reqb y 0); (auto_derive; [nz|]); field; nz. }
Qed.

Lemma htrue_partial2 lgam dg tg d y th p q :
  (closed_form d = false -> is_digamma lgam dg /\ is_trigamma dg tg) -> d <> JSU ->
  valid_theta d th -> y_support d y -> (p < n_params d)%nat -> (q < n_params d)%nat ->
  partial2 (logpdf lgam d y) th p q (htrue dg tg d y th p q).
Proof.
  intros Ht Hj Hv Hy Hp Hq. exists (fun v => score dg d y (upd th q v) p). split.
  - eapply filter_imp; [|exact (valid_open d th q Hv Hq)].
    intros v Hv'. apply score_partial; auto. intros E. now apply Ht.
  - apply htrue_derive; auto. intros E. now apply Ht.
Qed.

(** Linear combinations of functions with known means. *)
Fixpoint lin (cs : list R) (ms : list ((R -> R) * R)) (y : R) : R :=
  match cs, ms with
  | c :: cs', m :: ms' => c * fst m y + lin cs' ms' y
  | _, _ => 0
  end.
Fixpoint linval (cs : list R) (ms : list ((R -> R) * R)) : R :=
  match cs, ms with
  | c :: cs', m :: ms' => c * snd m + linval cs' ms'
  | _, _ => 0
  end.

Section Expect.
Variables (supp : R -> Prop) (E : (R -> R) -> R -> Prop).
Hypothesis HE : expectation supp E.

Lemma E_lin ms : has_moments E ms -> forall cs c0,
  E (fun y => c0 + lin cs ms y) (c0 + linval cs ms).
Proof.
  induction ms as [|m ms IH]; intros Hm cs c0.
  - replace (c0 + linval cs []) with c0 by (destruct cs; cbn; ring).
    eapply (E_ext _ _ HE); [|apply (E_const _ _ HE c0)].
    intros y _. destruct cs; cbn; ring.
  - inversion Hm as [|a b Ha Hb]; subst. destruct cs as [|c cs].
    + cbn [linval]. rewrite Rplus_0_r.
      eapply (E_ext _ _ HE); [|apply (E_const _ _ HE c0)].
      intros y _. cbn [lin]. ring.
    + cbn [linval].
      replace (c0 + (c * snd m + linval cs ms)) with (c * snd m + (c0 + linval cs ms)) by ring.
      eapply (E_ext _ _ HE); [|apply (E_plus _ _ HE _ _ _ _ (E_scal _ _ HE c _ _ Ha) (IH Hb cs c0))].
      intros y _. cbn [lin]. ring.
Qed.

Lemma E_unique f a b : E f a -> E f b -> a = b.
Proof.
  intros Ha Hb.
  assert (H0 : forall u v, E f u -> E f v -> 0 <= u - v).
  { intros u v Hu Hv. apply (E_pos _ _ HE (fun y => f y + -1 * f y)).
    - intros y _. lra.
    - replace (u - v) with (u + -1 * v) by ring.
      apply (E_plus _ _ HE); auto. now apply (E_scal _ _ HE). }
  pose proof (H0 a b Ha Hb). pose proof (H0 b a Hb Ha). lra.
Qed.

Lemma E_agree ms h k cs c0 ds d0 :
  has_moments E ms ->
  (forall y, supp y -> h y = c0 + lin cs ms y) ->
  (forall y, supp y -> k y = d0 + lin ds ms y) ->
  c0 + linval cs ms = d0 + linval ds ms ->
  exists v, E h v /\ E k v.
Proof.
  intros Hm Hh Hk Hv. exists (c0 + linval cs ms). split.
  - eapply (E_ext _ _ HE); [|apply (E_lin ms Hm cs c0)]. intros y Hy. symmetry. auto.
  - rewrite Hv. eapply (E_ext _ _ HE); [|apply (E_lin ms Hm ds d0)]. intros y Hy. symmetry. auto.
Qed.
End Expect.

Lemma htrue_mean dg tg d th p E :
  d <> JSU -> d <> Gumbel -> d <> ReverseGumbel ->
  valid_theta d th -> (p < n_params d)%nat -> unclipped tg d th p ->
  expectation (y_support d) E -> has_moments E (moments dg d th) ->
  exists v, E (fun y => htrue dg tg d y th p p) v /\ E (fun y => hess dg tg d y th p) v.
Proof.
  intros Hj Hg Hr Hv Hp Hu HE Hm.
  destruct d; try (now elim Hj); try (now elim Hg); try (now elim Hr); clear Hj Hg Hr;
    pcases p Hp; cbn [valid_theta] in Hv;
    repeat match goal with H : _ /\ _ |- _ => destruct H end.
  (* Normal *)
  - apply (E_agree _ _ HE _ _ _ [] (- (1 / th 1%nat ^ 2)) [] (- (1 / th 1%nat ^ 2)) Hm);
      [intros y _; cbn; ring | intros y _; cbn; ring | reflexivity].
  - apply (E_agree _ _ HE _ _ _ [0; - 3 / th 1%nat ^ 4] (1 / th 1%nat ^ 2) [] (- (2 / th 1%nat ^ 2)) Hm);
      [intros y _; cbn; field; lra | intros y _; cbn; ring | cbn; field; lra].
  (* NormalMeanVariance *)
  - apply (E_agree _ _ HE _ _ _ [] (- (1 / th 1%nat)) [] (- (1 / th 1%nat)) Hm);
      [intros y _; cbn; ring | intros y _; cbn; ring | reflexivity].
  - apply (E_agree _ _ HE _ _ _ [0; - 1 / th 1%nat ^ 3] (1 / (2 * th 1%nat ^ 2)) [] (- (1 / (2 * th 1%nat ^ 2))) Hm);
      [intros y _; cbn; field; lra | intros y _; cbn; ring | cbn; field; lra].
  (* LogNormal *)
  - apply (E_agree _ _ HE _ _ _ [] (- 1 / th 1%nat ^ 2) [] (- 1 / th 1%nat ^ 2) Hm);
      [intros y _; cbn; ring | intros y _; cbn; ring | reflexivity].
  - apply (E_agree _ _ HE _ _ _ [0; - 3 / th 1%nat ^ 4] (1 / th 1%nat ^ 2) [] (- 2 / th 1%nat ^ 2) Hm);
      [intros y _; cbn; field; lra | intros y _; cbn; ring | cbn; field; lra].
  (* LogNormalMedian *)
  - apply (E_agree _ _ HE _ _ _ [- 1 / (th 0%nat ^ 2 * th 1%nat ^ 2)] (- 1 / (th 0%nat ^ 2 * th 1%nat ^ 2))
             [] (- 1 / (th 0%nat ^ 2 * th 1%nat ^ 2)) Hm);
      [intros y _; cbn; field; lra | intros y _; cbn; ring | cbn; ring].
  - apply (E_agree _ _ HE _ _ _ [0; - 3 / th 1%nat ^ 4] (1 / th 1%nat ^ 2) [] (- 2 / th 1%nat ^ 2) Hm);
      [intros y _; cbn; field; lra | intros y _; cbn; ring | cbn; field; lra].
  (* Logistic *)
  - apply (E_agree _ _ HE _ _ _ [0; - 2 / th 1%nat ^ 2] 0 [] (- 1 / (3 * th 1%nat ^ 2)) Hm);
      [intros y _; cbn; field; lra | intros y _; cbn; ring | cbn; field; lra].
  - apply (E_agree _ _ HE _ _ _ [0; 0; - 2 / th 1%nat ^ 2; 0; - 2 / th 1%nat ^ 2] (1 / th 1%nat ^ 2) []
            (- (1 / (3 * th 1%nat ^ 2)) * (1 + PI ^ 2 / 3)) Hm);
      [intros y _; cbn; field; lra | intros y _; cbn; ring | cbn; field; lra].
  (* InverseGaussian *)
  - apply (E_agree _ _ HE _ _ _ [- 3 / (th 1%nat ^ 2 * th 0%nat ^ 4)] (- 1 / (th 0%nat ^ 3 * th 1%nat ^ 2)) []
            (- 1 / (th 0%nat ^ 3 * th 1%nat ^ 2)) Hm);
      [intros y _; cbn; field; lra | intros y _; cbn; ring | cbn; ring].
  - apply (E_agree _ _ HE _ _ _ [0; - 3 / (th 1%nat ^ 4 * th 0%nat ^ 2)] (1 / th 1%nat ^ 2) []
            (- 2 / th 1%nat ^ 2) Hm);
      [intros y Hy; cbn in *; field; lra | intros y _; cbn; ring | cbn; field; lra].
  (* Exponential *)
  - apply (E_agree _ _ HE _ _ _ [- 2 / th 0%nat ^ 3] (1 / th 0%nat ^ 2) [] (- 1 / th 0%nat ^ 2) Hm);
      [intros y _; cbn; field; lra | intros y _; cbn; ring | cbn; field; lra].
  (* Gamma *)
  - apply (E_agree _ _ HE _ _ _ [- 2 / (th 1%nat ^ 2 * th 0%nat ^ 3)] (1 / (th 1%nat ^ 2 * th 0%nat ^ 2)) []
            (- 1 / (th 1%nat ^ 2 * th 0%nat ^ 2)) Hm);
      [intros y _; cbn; field; lra | intros y _; cbn; ring | cbn; field; lra].
  - apply (E_agree _ _ HE _ _ _ [- 6 / (th 1%nat ^ 4 * th 0%nat); 6 / th 1%nat ^ 4]
            (- 6 / th 1%nat ^ 4 * (ln (th 0%nat) + ln (th 1%nat ^ 2) - 1 + dg (1 / th 1%nat ^ 2))
             + 2 / th 1%nat ^ 3 * (2 / th 1%nat - 2 / th 1%nat ^ 3 * tg (1 / th 1%nat ^ 2))) []
            (4 / th 1%nat ^ 4 - 4 / th 1%nat ^ 6 * tg (1 / th 1%nat ^ 2)) Hm).
    + intros y _. cbn [htrue gamma_true moments lin fst snd]. field. lra.
    + intros y _. cbn [hess gamma_hess lin]. ring.
    + cbn [moments linval fst snd]. rewrite ln_mult by pos.
      generalize (dg (1 / th 1%nat ^ 2)), (tg (1 / th 1%nat ^ 2)), (ln (th 1%nat ^ 2)). intros; field; lra.
  (* InverseGamma *)
  - apply (E_agree _ _ HE _ _ _ [] (- 1 / (th 1%nat ^ 2 * th 0%nat ^ 2)) []
            (- 1 / (th 1%nat ^ 2 * th 0%nat ^ 2)) Hm);
      [intros y _; cbn; field; lra | intros y _; cbn; ring | reflexivity].
  - pose (a := 1 / th 1%nat ^ 2). assert (Ha : 0 < a) by (unfold a; pos).
    apply (E_agree _ _ HE _ _ _ [- 6 / th 1%nat ^ 4 * th 0%nat; - 6 / th 1%nat ^ 4]
            (6 / th 1%nat ^ 4 * (ln (th 0%nat) + a / (a + 1) + ln (a + 1) - dg a)
             + 4 / th 1%nat ^ 6 * (1 / (a + 1) ^ 2 + 1 / (a + 1) - tg a)) []
            (- 4 * (tg a - th 1%nat ^ 2 * (1 + 2 * th 1%nat ^ 2) / (1 + th 1%nat ^ 2) ^ 2) / th 1%nat ^ 6) Hm).
    + intros y Hy. cbn [htrue moments lin fst snd y_support] in *. cbv zeta. fold a. field. repeat split; lra.
    + intros y _. cbn [hess lin]. cbv zeta. fold a. ring.
    + cbn [moments linval fst snd]. fold a.
      replace (th 0%nat * (1 + th 1%nat ^ 2) / th 1%nat ^ 2) with (th 0%nat * (a + 1)) by (unfold a; field; lra).
      rewrite ln_mult by lra. generalize (ln (a + 1)), (dg a), (tg a), (ln (th 0%nat)). intros l g g' l0.
      unfold a. field. repeat split; try lra; nra.
  (* Beta *)
  - apply (E_agree _ _ HE _ _ _ [] (beta_hess tg (th 0%nat) (th 1%nat) 0) []
            (beta_hess tg (th 0%nat) (th 1%nat) 0) Hm);
      [intros y _; cbn; field; lra | intros y _; cbn; ring | reflexivity].
  - pose (a := beta_a (th 0%nat) (th 1%nat)). pose (b := beta_b (th 0%nat) (th 1%nat)).
    apply (E_agree _ _ HE _ _ _ [6 / th 1%nat ^ 4 * th 0%nat; 6 / th 1%nat ^ 4 * (1 - th 0%nat)]
            (6 / th 1%nat ^ 4 * (th 0%nat * (- dg a + dg (a + b)) + (1 - th 0%nat) * (- dg b + dg (a + b)))
             + 4 / th 1%nat ^ 6 * (- th 0%nat ^ 2 * tg a - (1 - th 0%nat) ^ 2 * tg b + tg (a + b))) []
            (beta_hess tg (th 0%nat) (th 1%nat) 1) Hm).
    + intros y _. cbn [htrue beta_true moments lin fst snd]. fold a b. ring.
    + intros y _. cbn [hess lin]. ring.
    + cbn [moments linval fst snd beta_hess]. fold (beta_a (th 0%nat) (th 1%nat)) (beta_b (th 0%nat) (th 1%nat)).
      fold a b. field. lra.
  (* StudentT *)
  - apply (E_agree _ _ HE _ _ _ [3 * (th 2%nat + 1) / (th 2%nat * th 1%nat ^ 2); - 2 * (th 2%nat + 1) / (th 2%nat * th 1%nat ^ 2)]
            (- (th 2%nat + 1) / (th 2%nat * th 1%nat ^ 2)) []
            (- (th 2%nat + 1) / ((th 2%nat + 3) * th 1%nat ^ 2)) Hm).
    + intros y _. cbn [htrue moments lin fst snd]. cbv zeta.
      generalize (((y - th 0%nat) / th 1%nat) ^ 2 / (th 2%nat + ((y - th 0%nat) / th 1%nat) ^ 2)).
      intros u. field. lra.
    + intros y _. cbn [hess lin]. ring.
    + cbn [moments linval fst snd]. field. lra.
  - apply (E_agree _ _ HE _ _ _ [- 3 * (th 2%nat + 1) / th 1%nat ^ 2; 2 * (th 2%nat + 1) / th 1%nat ^ 2]
            (1 / th 1%nat ^ 2) []
            (- (2 * th 2%nat) / ((th 2%nat + 3) * th 1%nat ^ 2)) Hm).
    + intros y _. cbn [htrue moments lin fst snd]. cbv zeta.
      generalize (((y - th 0%nat) / th 1%nat) ^ 2 / (th 2%nat + ((y - th 0%nat) / th 1%nat) ^ 2)).
      intros u. field. lra.
    + intros y _. cbn [hess lin]. ring.
    + cbn [moments linval fst snd]. field. lra.
  - destruct (Hu eq_refl eq_refl) as [Hn1 Hn2]. cbv zeta in Hn1, Hn2. set (n := th 2%nat) in *.
    apply (E_agree _ _ HE _ _ _ [/ 2 * (1 / n + (1 - (n + 1) / n) / n - (n + 1) / n ^ 2); / 2 * ((n + 1) / n ^ 2)]
            (/ 2 * (1 / n ^ 2 + / 2 * tg ((n + 1) / 2) - / 2 * tg (n / 2))) []
            ((tg ((n + 1) / 2) - tg (n / 2) + 2 * (n + 5) / (n * (n + 1) * (n + 3))) / 4) Hm).
    + intros y _. cbn [htrue moments lin fst snd]. cbv zeta. fold n.
      generalize (((y - th 0%nat) / th 1%nat) ^ 2 / (n + ((y - th 0%nat) / th 1%nat) ^ 2)).
      intros u. field. lra.
    + intros y _. cbn [hess lin]. cbv zeta. fold n. rewrite (Rmin_left n LARGE) by exact Hn1.
      rewrite Rmin_left by exact Hn2. ring.
    + cbn [moments linval fst snd]. fold n. field. lra.
  (* BetaInflated *)
  - pose (c := beta_hess tg (th 0%nat) (th 1%nat) 0).
    apply (E_agree _ _ HE _ _ _ [- c; - c] c [- c; - c] c Hm); [| |reflexivity].
    + intros y _. cbn [htrue moments lin fst snd]. cbv zeta. unfold indicator.
      destruct (Reqb y 0) eqn:E0; destruct (Reqb y 1) eqn:E1; cbn [orb].
      * apply Reqb_true in E0, E1. lra.
      * ring.
      * ring.
      * unfold c. cbn [beta_true beta_hess]. field. lra.
    + intros y _. cbn [hess moments lin fst snd]. cbv zeta. fold c. unfold indicator.
      destruct (Reqb y 0) eqn:E0; destruct (Reqb y 1) eqn:E1; cbn [orb]; try ring.
      apply Reqb_true in E0, E1. lra.
  - pose (a := beta_a (th 0%nat) (th 1%nat)). pose (b := beta_b (th 0%nat) (th 1%nat)).
    pose (c := beta_hess tg (th 0%nat) (th 1%nat) 1).
    pose (c0 := 6 / th 1%nat ^ 4 * (th 0%nat * (- dg a + dg (a + b)) + (1 - th 0%nat) * (- dg b + dg (a + b)))
             + 4 / th 1%nat ^ 6 * (- th 0%nat ^ 2 * tg a - (1 - th 0%nat) ^ 2 * tg b + tg (a + b))).
    apply (E_agree _ _ HE _ _ _ [- c0; - c0; 6 / th 1%nat ^ 4 * th 0%nat; 6 / th 1%nat ^ 4 * (1 - th 0%nat)] c0 [- c; - c] c Hm).
    + intros y _. cbn [htrue moments lin fst snd]. cbv zeta. unfold indicator.
      destruct (Reqb y 0) eqn:E0; destruct (Reqb y 1) eqn:E1; cbn [orb].
      * apply Reqb_true in E0, E1. lra.
      * ring.
      * ring.
      * unfold c0. cbn [beta_true]. fold a b. ring.
    + intros y _. cbn [hess moments lin fst snd]. cbv zeta. fold c. unfold indicator.
      destruct (Reqb y 0) eqn:E0; destruct (Reqb y 1) eqn:E1; cbn [orb]; try ring.
      apply Reqb_true in E0, E1. lra.
    + cbn [moments linval fst snd]. fold (beta_a (th 0%nat) (th 1%nat)) (beta_b (th 0%nat) (th 1%nat)).
      unfold c, c0, beta_hess. fold a b. field. lra.
  - set (n := th 2%nat) in *. set (t := th 3%nat) in *.
    apply (E_agree _ _ HE _ _ _ [- 1 / n ^ 2] (1 / (1 + n + t) ^ 2) [] (- (1 + t) / (n * (1 + n + t) ^ 2)) Hm).
    + intros y _. cbn [htrue moments lin fst snd]. cbv zeta. unfold indicator. fold n t.
      destruct (Reqb y 0); field; lra.
    + intros y _. cbn [hess lin]. cbv zeta. fold n t. ring.
    + cbn [moments linval fst snd]. cbv zeta. fold n t. field. lra.
  - set (n := th 2%nat) in *. set (t := th 3%nat) in *.
    apply (E_agree _ _ HE _ _ _ [0; - 1 / t ^ 2] (1 / (1 + n + t) ^ 2) [] (- (1 + n) / (t * (1 + n + t) ^ 2)) Hm).
    + intros y _. cbn [htrue moments lin fst snd]. cbv zeta. unfold indicator. fold n t.
      destruct (Reqb y 1); field; lra.
    + intros y _. cbn [hess lin]. cbv zeta. fold n t. ring.
    + cbn [moments linval fst snd]. cbv zeta. fold n t. field. lra.
  (* BetaInflatedZero *)
  - pose (c := beta_hess tg (th 0%nat) (th 1%nat) 0).
    apply (E_agree _ _ HE _ _ _ [- c] c [- c] c Hm); [| |reflexivity].
    + intros y _. cbn [htrue moments lin fst snd]. cbv zeta. unfold indicator.
      destruct (Reqb y 0) eqn:E0; [ring|].
      unfold c. cbn [beta_true beta_hess]. field. lra.
    + intros y _. cbn [hess moments lin fst snd]. cbv zeta. fold c. unfold indicator.
      destruct (Reqb y 0) eqn:E0; ring.
  - pose (a := beta_a (th 0%nat) (th 1%nat)). pose (b := beta_b (th 0%nat) (th 1%nat)).
    pose (c := beta_hess tg (th 0%nat) (th 1%nat) 1).
    pose (c0 := 6 / th 1%nat ^ 4 * (th 0%nat * (- dg a + dg (a + b)) + (1 - th 0%nat) * (- dg b + dg (a + b)))
             + 4 / th 1%nat ^ 6 * (- th 0%nat ^ 2 * tg a - (1 - th 0%nat) ^ 2 * tg b + tg (a + b))).
    apply (E_agree _ _ HE _ _ _ [- c0; 6 / th 1%nat ^ 4 * th 0%nat; 6 / th 1%nat ^ 4 * (1 - th 0%nat)] c0 [- c] c Hm).
    + intros y _. cbn [htrue moments lin fst snd]. cbv zeta. unfold indicator.
      destruct (Reqb y 0) eqn:E0; [ring|].
      unfold c0. cbn [beta_true]. fold a b. ring.
    + intros y _. cbn [hess moments lin fst snd]. cbv zeta. fold c. unfold indicator.
      destruct (Reqb y 0) eqn:E0; ring.
    + cbn [moments linval fst snd]. fold (beta_a (th 0%nat) (th 1%nat)) (beta_b (th 0%nat) (th 1%nat)).
      unfold c, c0, beta_hess. fold a b. field. lra.
  - set (n := th 2%nat) in *.
    apply (E_agree _ _ HE _ _ _ [- 1 / n ^ 2] (1 / (1 + n) ^ 2) [] (- 1 / (n * (1 + n) ^ 2)) Hm).
    + intros y _. cbn [htrue moments lin fst snd]. cbv zeta. unfold indicator. fold n.
      destruct (Reqb y 0); field; lra.
    + intros y _. cbn [hess lin]. cbv zeta. fold n. ring.
    + cbn [moments linval fst snd]. cbv zeta. fold n. field. lra.
  (* ZeroAdjustedGamma *)
  - pose (c := - 1 / (th 1%nat ^ 2 * th 0%nat ^ 2)).
    apply (E_agree _ _ HE _ _ _ [c; - 2 / (th 1%nat ^ 2 * th 0%nat ^ 3)] (- c) [- c] c Hm).
    + intros y _. cbn [htrue moments lin fst snd]. cbv zeta. unfold indicator.
      destruct (Reqb y 0) eqn:E0; [ring|].
      unfold c. cbn [gamma_true]. field. lra.
    + intros y _. cbn [hess moments lin fst snd gamma_hess]. cbv zeta. fold c. unfold indicator.
      destruct (Reqb y 0) eqn:E0; ring.
    + cbn [moments linval fst snd]. cbv zeta. unfold c. field. lra.
  - pose (c := 4 / th 1%nat ^ 4 - 4 / th 1%nat ^ 6 * tg (1 / th 1%nat ^ 2)).
    pose (c0 := - 6 / th 1%nat ^ 4 * (ln (th 0%nat) + ln (th 1%nat ^ 2) - 1 + dg (1 / th 1%nat ^ 2))
             + 2 / th 1%nat ^ 3 * (2 / th 1%nat - 2 / th 1%nat ^ 3 * tg (1 / th 1%nat ^ 2))).
    apply (E_agree _ _ HE _ _ _ [- c0; - 6 / (th 1%nat ^ 4 * th 0%nat); 6 / th 1%nat ^ 4] c0 [- c] c Hm).
    + intros y _. cbn [htrue moments lin fst snd]. cbv zeta. unfold indicator.
      destruct (Reqb y 0) eqn:E0; [ring|].
      unfold c0. cbn [gamma_true]. field. lra.
    + intros y _. cbn [hess moments lin fst snd gamma_hess]. cbv zeta. fold c. unfold indicator.
      destruct (Reqb y 0) eqn:E0; ring.
    + cbn [moments linval fst snd]. cbv zeta. rewrite ln_mult by pos. unfold c, c0.
      generalize (dg (1 / th 1%nat ^ 2)), (tg (1 / th 1%nat ^ 2)), (ln (th 1%nat ^ 2)). intros; field; lra.
  - set (n := th 2%nat) in *.
    apply (E_agree _ _ HE _ _ _ [- 1 / n ^ 2 + 1 / (1 - n) ^ 2] (- 1 / (1 - n) ^ 2) [] (- 1 / (n * (1 - n))) Hm).
    + intros y _. cbn [htrue moments lin fst snd]. cbv zeta. unfold indicator. fold n.
      destruct (Reqb y 0); field; lra.
    + intros y _. cbn [hess lin]. cbv zeta. fold n. ring.
    + cbn [moments linval fst snd]. cbv zeta. fold n. field. lra.
Qed.
