(** Expected cross derivatives; Gumbel families; positivity of the weights. *)
From Coq Require Import Reals List Lra Lia Bool ZArith.
From Coquelicot Require Import Coquelicot.
From Verif Require Import Base M_Links S_Links L_Links L_Links2 M_DistTable M_Dist S_Dist
  L_Dist1 L_Dist2 L_Dist3 L_Dist4 L_Dist5.
Import ListNotations.
Open Scope R_scope.

Lemma htrue_sym dg tg d y th p q :
  (p < n_params d)%nat -> (q < n_params d)%nat ->
  htrue dg tg d y th p q = htrue dg tg d y th q p.
Proof.
  intros Hp Hq. destruct d; pcases p Hp; pcases q Hq; reflexivity.
Qed.

Lemma cross_mean dg tg d th p q E :
  d <> JSU -> d <> Gumbel -> d <> ReverseGumbel ->
  valid_theta d th -> (p < q)%nat -> (q < n_params d)%nat ->
  expectation (y_support d) E -> has_moments E (moments dg d th) ->
  exists v, E (fun y => htrue dg tg d y th p q) v /\ E (fun y => cross dg tg d y th p q) v.
Proof.
  intros Hj Hg Hr Hv Hpq Hq HE Hm.
  destruct d; try (now elim Hj); try (now elim Hg); try (now elim Hr); clear Hj Hg Hr;
    destruct p as [|[|[|[|p]]]]; destruct q as [|[|[|[|q]]]]; cbn in Hq; try lia;
    cbn [valid_theta] in Hv;
    repeat match goal with H : _ /\ _ |- _ => destruct H end.
  (* pairs of separate factors *)
  all: try (apply (E_agree _ _ HE _ _ _ [] 0 [] 0 Hm);
      [intros y _; cbn; ring | intros y _; cbn; ring | reflexivity]).
  (* Normal *)
  - apply (E_agree _ _ HE _ _ _ [- 2 / th 1%nat ^ 3] 0 [] 0 Hm);
      [intros y _; cbn; field; lra | intros y _; cbn; ring | cbn; field; lra].
  - apply (E_agree _ _ HE _ _ _ [- 1 / th 1%nat ^ 2] 0 [] 0 Hm);
      [intros y _; cbn; field; lra | intros y _; cbn; ring | cbn; field; lra].
  - apply (E_agree _ _ HE _ _ _ [- 2 / th 1%nat ^ 3] 0 [] 0 Hm);
      [intros y _; cbn; field; lra | intros y _; cbn; ring | cbn; field; lra].
  - apply (E_agree _ _ HE _ _ _ [- 2 / (th 0%nat * th 1%nat ^ 3)] 0 [] 0 Hm);
      [intros y _; cbn; field; lra | intros y _; cbn; ring | cbn; field; lra].
  (* Logistic *)
  - apply (E_agree _ _ HE _ _ _ [- 2 / th 1%nat ^ 2; 0; 0; - 2 / th 1%nat ^ 2] (1 / th 1%nat ^ 2) [] 0 Hm);
      [intros y _; cbn; field; lra | intros y _; cbn; ring | cbn; field; lra].
  (* InverseGaussian *)
  - apply (E_agree _ _ HE _ _ _ [- 2 / (th 1%nat ^ 3 * th 0%nat ^ 3)] 0 [] 0 Hm);
      [intros y _; cbn; field; lra | intros y _; cbn; ring | cbn; field; lra].
  (* Gamma *)
  - apply (E_agree _ _ HE _ _ _ [- 2 / (th 1%nat ^ 3 * th 0%nat ^ 2)] (2 * th 0%nat / (th 1%nat ^ 3 * th 0%nat ^ 2)) [] 0 Hm);
      [intros y _; cbn; field; lra | intros y _; cbn; ring | cbn; field; lra].
  (* InverseGamma *)
  - apply (E_agree _ _ HE _ _ _ [2 / th 1%nat ^ 3] (- 2 / (th 1%nat ^ 3 * th 0%nat)) []
       (- (2 / (th 0%nat * th 1%nat * (1 + th 1%nat ^ 2)))) Hm);
      [intros y Hy; cbn in *; field; lra | intros y _; cbn; ring | cbn; field; repeat split; try lra; nra].
  (* Beta *)
  - pose (a := beta_a (th 0%nat) (th 1%nat)). pose (b := beta_b (th 0%nat) (th 1%nat)).
    apply (E_agree _ _ HE _ _ _ [- 2 / th 1%nat ^ 3; 2 / th 1%nat ^ 3]
      (- 2 / th 1%nat ^ 3 * (- dg a + dg b) + beta_cross tg (th 0%nat) (th 1%nat)) []
      (beta_cross tg (th 0%nat) (th 1%nat)) Hm).
    + intros y _. cbn [htrue beta_true moments lin fst snd]. unfold beta_cross. fold a b. field. lra.
    + intros y _. cbn [cross lin]. ring.
    + cbn [moments linval fst snd]. fold (beta_a (th 0%nat) (th 1%nat)) (beta_b (th 0%nat) (th 1%nat)).
      fold a b. field. lra.
  (* StudentT *)
  - set (n := th 2%nat) in *.
    apply (E_agree _ _ HE _ _ _ [0; 0; 0; - 2 * n * (n + 1) / th 1%nat ^ 2] 0 [] 0 Hm).
    + intros y _. cbn [htrue moments lin fst snd]. cbv zeta. fold n.
      generalize ((y - th 0%nat) / th 1%nat / (n + ((y - th 0%nat) / th 1%nat) ^ 2) ^ 2).
      intros u. rewrite !Rmult_0_l. field. lra.
    + intros y _. cbn [cross lin]. ring.
    + cbn [moments linval fst snd]. ring.
  - set (n := th 2%nat) in *.
    apply (E_agree _ _ HE _ _ _ [0; 0; 1 / th 1%nat; - (n + 1) / th 1%nat] 0 [] 0 Hm).
    + intros y _. cbn [htrue moments lin fst snd]. cbv zeta. fold n.
      generalize ((y - th 0%nat) / th 1%nat / (n + ((y - th 0%nat) / th 1%nat) ^ 2) ^ 2).
      generalize ((y - th 0%nat) / th 1%nat / (n + ((y - th 0%nat) / th 1%nat) ^ 2)).
      intros u v. rewrite !Rmult_0_l. field. lra.
    + intros y _. cbn [cross lin]. ring.
    + cbn [moments linval fst snd]. ring.
  - set (n := th 2%nat) in *.
    apply (E_agree _ _ HE _ _ _ [(1 - (n + 1) / n) / th 1%nat; (n + 1) / n / th 1%nat] 0 []
      (2 / (th 1%nat * (n + 3) * (n + 1))) Hm).
    + intros y _. cbn [htrue moments lin fst snd]. cbv zeta. fold n.
      generalize (((y - th 0%nat) / th 1%nat) ^ 2 / (n + ((y - th 0%nat) / th 1%nat) ^ 2)).
      intros u. field. lra.
    + intros y _. cbn [cross lin]. cbv zeta. fold n. ring.
    + cbn [moments linval fst snd]. cbv zeta. fold n. field. lra.
  (* BetaInflated *)
  - pose (a := beta_a (th 0%nat) (th 1%nat)). pose (b := beta_b (th 0%nat) (th 1%nat)).
    pose (c := beta_cross tg (th 0%nat) (th 1%nat)).
    pose (c0 := - 2 / th 1%nat ^ 3 * (- dg a + dg b) + c).
    apply (E_agree _ _ HE _ _ _ [- c0; - c0; - 2 / th 1%nat ^ 3; 2 / th 1%nat ^ 3] c0 [- c; - c] c Hm).
    + intros y _. cbn [htrue moments lin fst snd]. cbv zeta. unfold indicator.
      destruct (Reqb y 0) eqn:E0; destruct (Reqb y 1) eqn:E1; cbn [orb].
      * apply Reqb_true in E0, E1. lra.
      * ring.
      * ring.
      * unfold c0, c, beta_cross. cbn [beta_true]. fold a b. field. lra.
    + intros y _. cbn [cross moments lin fst snd]. cbv zeta. fold c. unfold indicator.
      destruct (Reqb y 0) eqn:E0; destruct (Reqb y 1) eqn:E1; cbn [orb]; try ring.
      apply Reqb_true in E0, E1. lra.
    + cbn [moments linval fst snd]. fold (beta_a (th 0%nat) (th 1%nat)) (beta_b (th 0%nat) (th 1%nat)).
      unfold c0. fold a b. field. lra.
  - set (n := th 2%nat) in *. set (t := th 3%nat) in *.
    apply (E_agree _ _ HE _ _ _ [] (1 / (1 + n + t) ^ 2) [] (1 / (1 + n + t) ^ 2) Hm);
      [intros y _; cbn; fold n t; field; lra | intros y _; cbn; fold n t; field; lra | reflexivity].
  (* BetaInflatedZero *)
  - pose (a := beta_a (th 0%nat) (th 1%nat)). pose (b := beta_b (th 0%nat) (th 1%nat)).
    pose (c := beta_cross tg (th 0%nat) (th 1%nat)).
    pose (c0 := - 2 / th 1%nat ^ 3 * (- dg a + dg b) + c).
    apply (E_agree _ _ HE _ _ _ [- c0; - 2 / th 1%nat ^ 3; 2 / th 1%nat ^ 3] c0 [- c] c Hm).
    + intros y _. cbn [htrue moments lin fst snd]. cbv zeta. unfold indicator.
      destruct (Reqb y 0) eqn:E0; [ring|].
      unfold c0, c, beta_cross. cbn [beta_true]. fold a b. field. lra.
    + intros y _. cbn [cross moments lin fst snd]. cbv zeta. fold c. unfold indicator.
      destruct (Reqb y 0) eqn:E0; ring.
    + cbn [moments linval fst snd]. fold (beta_a (th 0%nat) (th 1%nat)) (beta_b (th 0%nat) (th 1%nat)).
      unfold c0. fold a b. field. lra.
  (* ZeroAdjustedGamma *)
  - pose (c0 := 2 * th 0%nat / (th 1%nat ^ 3 * th 0%nat ^ 2)).
    apply (E_agree _ _ HE _ _ _ [- c0; - 2 / (th 1%nat ^ 3 * th 0%nat ^ 2)] c0 [] 0 Hm).
    + intros y _. cbn [htrue moments lin fst snd]. cbv zeta. unfold indicator.
      destruct (Reqb y 0) eqn:E0; [ring|].
      unfold c0. cbn [gamma_true]. field. lra.
    + intros y _. cbn [cross lin]. ring.
    + cbn [moments linval fst snd]. cbv zeta. unfold c0. field. lra.
Qed.

(** Valid requests of second derivatives. *)
Lemma dl2_valid dg tg d y th p :
  (p < n_params d)%nat ->
  dl2_dp2 dg tg d y th (Z.of_nat p) = Ok (Some (hess dg tg d y th p)).
Proof.
  intros Hp.
  assert (E : (Z.of_nat (n_params d) <=? Z.of_nat p)%Z = false) by (apply Z.leb_gt; lia).
  assert (E0 : (0 <=? Z.of_nat p)%Z = true) by (apply Z.leb_le; lia).
  assert (E2 : n_params d = 2%nat -> (Z.of_nat p <? 2)%Z = true) by (intros; apply Z.ltb_lt; lia).
  unfold dl2_dp2, validate_param. rewrite E, E0, Nat2Z.id.
  destruct d; try reflexivity; rewrite E2 by reflexivity; reflexivity.
Qed.

Lemma dpp_valid dg tg d y th p q :
  (p < q)%nat -> (q < n_params d)%nat ->
  dl2_dpp dg tg d y th (Z.of_nat p) (Z.of_nat q) = Ok (Some (cross dg tg d y th p q)) /\
  dl2_dpp dg tg d y th (Z.of_nat q) (Z.of_nat p) = Ok (Some (cross dg tg d y th p q)).
Proof.
  intros Hpq Hq.
  assert (E : (Z.of_nat (n_params d) <=? Z.of_nat q)%Z = false) by (apply Z.leb_gt; lia).
  assert (E0 : (0 <=? Z.of_nat p)%Z = true) by (apply Z.leb_le; lia).
  assert (Epq : (Z.of_nat p =? Z.of_nat q)%Z = false) by (apply Z.eqb_neq; lia).
  assert (Eqp : (Z.of_nat q =? Z.of_nat p)%Z = false) by (apply Z.eqb_neq; lia).
  unfold dl2_dpp, validate_params.
  rewrite (Z.max_r (Z.of_nat p)), (Z.min_l (Z.of_nat p)), (Z.max_l (Z.of_nat q)), (Z.min_r (Z.of_nat q)) by lia.
  rewrite E, E0, Epq, Eqp, !Nat2Z.id.
  destruct d; cbn [n_params parameter_support length] in Hq; split; try reflexivity;
    destruct p as [|[|p]]; destruct q as [|[|q]]; try lia; try reflexivity.
Qed.

(** C40 *)
Lemma exact_ne d : exact_hessian d = true -> d <> JSU /\ d <> Gumbel /\ d <> ReverseGumbel.
Proof. destruct d; cbn; intros H; repeat split; intros E; discriminate. Qed.

Lemma C40_diagonal_lemma lgam dg tg d th p :
  is_digamma lgam dg -> is_trigamma dg tg -> exact_hessian d = true ->
  valid_theta d th -> (p < n_params d)%nat -> unclipped tg d th p ->
  exists h : R -> R,
    (forall y, y_support d y -> partial2 (logpdf lgam d y) th p p (h y)) /\
    forall E k,
      expectation (y_support d) E -> has_moments E (moments dg d th) ->
      (forall y, dl2_dp2 dg tg d y th (Z.of_nat p) = Ok (Some (k y))) ->
      exists v, E h v /\ E k v.
Proof.
  intros Hd Ht Hx Hv Hp Hu. apply exact_ne in Hx. destruct Hx as [H1 [H2 H3]].
  exists (fun y => htrue dg tg d y th p p). split.
  - intros y Hy. apply htrue_partial2; auto.
  - intros E k HE Hm Hk.
    destruct (htrue_mean dg tg d th p E H1 H2 H3 Hv Hp Hu HE Hm) as [v [A B]].
    exists v. split; [exact A|].
    eapply (E_ext _ _ HE); [|exact B]. intros y _.
    specialize (Hk y). rewrite dl2_valid in Hk by assumption. congruence.
Qed.

Lemma C40_cross_lemma lgam dg tg d th p q :
  is_digamma lgam dg -> is_trigamma dg tg -> exact_hessian d = true ->
  valid_theta d th -> (p < n_params d)%nat -> (q < n_params d)%nat -> p <> q ->
  exists h : R -> R,
    (forall y, y_support d y -> partial2 (logpdf lgam d y) th p q (h y)) /\
    forall E k,
      expectation (y_support d) E -> has_moments E (moments dg d th) ->
      (forall y, dl2_dpp dg tg d y th (Z.of_nat p) (Z.of_nat q) = Ok (Some (k y))) ->
      exists v, E h v /\ E k v.
Proof.
  intros Hd Ht Hx Hv Hp Hq Hne. apply exact_ne in Hx. destruct Hx as [H1 [H2 H3]].
  exists (fun y => htrue dg tg d y th p q). split.
  - intros y Hy. apply htrue_partial2; auto.
  - intros E k HE Hm Hk.
    assert (L : (p < q \/ q < p)%nat) by lia. destruct L as [L|L].
    + destruct (cross_mean dg tg d th p q E H1 H2 H3 Hv L Hq HE Hm) as [v [A B]].
      exists v. split; [exact A|].
      eapply (E_ext _ _ HE); [|exact B]. intros y _.
      specialize (Hk y). rewrite (proj1 (dpp_valid dg tg d y th p q L Hq)) in Hk. congruence.
    + destruct (cross_mean dg tg d th q p E H1 H2 H3 Hv L Hp HE Hm) as [v [A B]].
      exists v. split.
      * eapply (E_ext _ _ HE); [|exact A]. intros y _. now apply htrue_sym.
      * eapply (E_ext _ _ HE); [|exact B]. intros y _.
        specialize (Hk y). rewrite (proj2 (dpp_valid dg tg d y th q p L Hp)) in Hk. congruence.
Qed.

(** The Gumbel families use rounded constants. *)
Lemma C40_gumbel_lemma lgam dg tg th :
  valid_theta Gumbel th ->
  exists h00 h11 h01 : R -> R,
    (forall y, partial2 (logpdf lgam Gumbel y) th 0 0 (h00 y)) /\
    (forall y, partial2 (logpdf lgam Gumbel y) th 1 1 (h11 y)) /\
    (forall y, partial2 (logpdf lgam Gumbel y) th 0 1 (h01 y)) /\
    forall E m1 m2, let z y := (y - th 0%nat) / th 1%nat in
      expectation (fun _ => True) E ->
      E (fun y => exp (z y)) 1 -> E (fun y => z y * (exp (z y) - 1)) 1 ->
      E (fun y => z y * exp (z y)) m1 -> E (fun y => z y ^ 2 * exp (z y)) m2 ->
      exists v00 v11 v01,
        E h00 v00 /\ E h11 v11 /\ E h01 v01 /\
        forall y,
          dl2_dp2 dg tg Gumbel y th 0 = Ok (Some v00) /\
          dl2_dp2 dg tg Gumbel y th 1 = Ok (Some (v11 + (m2 - 82368 / 100000) / th 1%nat ^ 2)) /\
          dl2_dpp dg tg Gumbel y th 0 1 = Ok (Some (v01 + (m1 - 422784 / 1000000) / th 1%nat ^ 2)).
Proof.
  intros Hv. pose proof Hv as Hs. cbn [valid_theta] in Hs.
  exists (fun y => htrue dg tg Gumbel y th 0 0), (fun y => htrue dg tg Gumbel y th 1 1),
         (fun y => htrue dg tg Gumbel y th 0 1).
  split; [|split; [|split]];
    try (intros y; apply htrue_partial2; [discriminate|discriminate|exact Hv|exact I|cbn; lia|cbn; lia]).
  intros E m1 m2 z HE He Hz H1 H2.
  pose (ms := [(fun y => exp (z y), 1); (fun y => z y * (exp (z y) - 1), 1);
               (fun y => z y * exp (z y), m1); (fun y => z y ^ 2 * exp (z y), m2)] : list ((R -> R) * R)).
  assert (Hms : has_moments E ms).
  { repeat constructor; assumption. }
  set (s := th 1%nat) in *.
  exists (- 1 / s ^ 2), (- (1 + m2) / s ^ 2), (- m1 / s ^ 2).
  split; [|split; [|split]].
  - replace (- 1 / s ^ 2) with (0 + linval [- 1 / s ^ 2] ms) by (cbn; field; lra).
    eapply (E_ext _ _ HE); [|apply (E_lin _ _ HE ms Hms)]. intros y _. cbn [lin ms fst htrue].
    cbv zeta. fold s. fold (z y). field. lra.
  - replace (- (1 + m2) / s ^ 2) with (1 / s ^ 2 + linval [0; - 2 / s ^ 2; 0; - 1 / s ^ 2] ms) by (cbn; field; lra).
    eapply (E_ext _ _ HE); [|apply (E_lin _ _ HE ms Hms)]. intros y _. cbn [lin ms fst htrue].
    cbv zeta. fold s. fold (z y). field. lra.
  - replace (- m1 / s ^ 2) with (1 / s ^ 2 + linval [- 1 / s ^ 2; 0; - 1 / s ^ 2] ms) by (cbn; field; lra).
    eapply (E_ext _ _ HE); [|apply (E_lin _ _ HE ms Hms)]. intros y _. cbn [lin ms fst htrue].
    cbv zeta. fold s. fold (z y). field. lra.
  - intros y. cbn [dl2_dp2 Z.leb Z.ltb Z.compare andb Pos.compare Pos.compare_cont Z.to_nat Pos.to_nat Pos.iter_op hess].
    split; [reflexivity|]. split.
    + change (Pos.to_nat 1) with 1%nat. cbv iota. do 2 f_equal. fold s. field. lra.
    + unfold dl2_dpp, validate_params. cbn -[Rdiv pow Rmult Rplus Rminus Ropp IZR]. do 2 f_equal. fold s. field. lra.
Qed.

(** JSU: minus products of scores. *)
Lemma C40_jsu_lemma dg tg y th p q a b :
  dl1_dp1 dg JSU y th (Z.of_nat p) = Ok (Some a) ->
  dl1_dp1 dg JSU y th (Z.of_nat q) = Ok (Some b) ->
  dl2_dp2 dg tg JSU y th (Z.of_nat p) = Ok (Some (- (a * a))) /\
  (p <> q -> dl2_dpp dg tg JSU y th (Z.of_nat p) (Z.of_nat q) = Ok (Some (- (a * b)))).
Proof.
  assert (K : forall r c, dl1_dp1 dg JSU y th (Z.of_nat r) = Ok (Some c) ->
               (r < 4)%nat /\ c = score dg JSU y th r).
  { intros r c H. unfold dl1_dp1, validate_param in H.
    destruct (Z.of_nat (n_params JSU) <=? Z.of_nat r)%Z eqn:E; cbn [bind] in H; [discriminate|].
    apply Z.leb_gt in E. cbn in E.
    assert (E0 : (0 <=? Z.of_nat r)%Z = true) by (apply Z.leb_le; lia).
    rewrite E0, Nat2Z.id in H. split; [lia|congruence]. }
  intros Ha Hb. destruct (K _ _ Ha) as [Hp ->]. destruct (K _ _ Hb) as [Hq ->]. split.
  - now rewrite (dl2_valid dg tg JSU y th p Hp).
  - intros Hne. assert (L : (p < q \/ q < p)%nat) by lia. destruct L as [L|L].
    + now rewrite (proj1 (dpp_valid dg tg JSU y th p q L Hq)).
    + rewrite (proj2 (dpp_valid dg tg JSU y th q p L Hp)). do 2 f_equal. cbn [cross].
      generalize (score dg JSU y th p), (score dg JSU y th q). intros; ring.
Qed.

(** C41 *)
Lemma exp_convex w : exp w - 1 <= w * exp w.
Proof.
  assert (H := exp_ineq1_le (- w)). assert (P := exp_pos w).
  rewrite exp_Ropp in H.
  assert (exp w * (1 + - w) <= exp w * / exp w) by (apply Rmult_le_compat_l; lra).
  rewrite Rinv_r in H0 by lra. lra.
Qed.

Lemma C41_lemma lgam dg tg th :
  valid_theta ReverseGumbel th ->
  (exists h : R -> R,
    (forall y, partial2 (logpdf lgam ReverseGumbel y) th 0 1 (h y)) /\
    forall E v, expectation (fun _ => True) E ->
      E (fun y => exp (- ((y - th 0%nat) / th 1%nat))) 1 -> E h v -> 0 <= v) /\
  forall y, exists c, dl2_dpp dg tg ReverseGumbel y th 0 1 = Ok (Some c) /\ c < 0.
Proof.
  intros Hv. pose proof Hv as Hs. cbn [valid_theta] in Hs. split.
  - exists (fun y => htrue dg tg ReverseGumbel y th 0 1). split.
    + intros y; apply htrue_partial2; [discriminate|discriminate|exact Hv|exact I|cbn; lia|cbn; lia].
    + intros E v HE He Hh. set (s := th 1%nat) in *.
      assert (H : 0 <= v + (- 2 / s ^ 2 * 1 + 2 / s ^ 2)).
      { pose proof (E_plus _ _ HE _ _ _ _ Hh
          (E_plus _ _ HE _ _ _ _ (E_scal _ _ HE (- 2 / s ^ 2) _ _ He) (E_const _ _ HE (2 / s ^ 2)))) as K.
        apply (E_pos _ _ HE _ _) in K; [exact K|]. clear K.
        intros y _. cbn [htrue]. cbv zeta. fold s.
        pose proof (exp_convex (- ((y - th 0%nat) / s))) as C.
        generalize dependent (exp (- ((y - th 0%nat) / s))). intros e C.
        generalize dependent ((y - th 0%nat) / s). intros z C.
        replace (- (1 - e + z * e) / s ^ 2 + (- 2 / s ^ 2 * e + 2 / s ^ 2))
          with ((1 - e - z * e) / s ^ 2) by (field; lra).
        apply Rle_mult_inv_pos; [lra|nra]. }
      replace (v + (- 2 / s ^ 2 * 1 + 2 / s ^ 2)) with v in H by (field; lra). exact H.
  - intros y. exists (- (422784 / 1000000) / th 1%nat ^ 2). split; [reflexivity|].
    assert (0 < 422784 / 1000000 / th 1%nat ^ 2) by (apply Rdiv_lt_0_compat; [lra|nra]).
    unfold Rdiv in *. lra.
Qed.

(** C42 *)
Lemma gamma_hess_neg tg m s p : trigamma_bounds tg -> 0 < m -> 0 < s -> gamma_hess tg m s p < 0.
Proof.
  intros Ht Hm Hs. unfold gamma_hess. destruct p.
  - assert (0 < 1 / (s ^ 2 * m ^ 2)) by pos. unfold Rdiv in *. lra.
  - assert (Ha : 0 < 1 / s ^ 2) by pos. destruct (Ht _ Ha) as [H _].
    assert (0 < 1 / (2 * (1 / s ^ 2) ^ 2)) by pos.
    assert (H2 : s ^ 2 < tg (1 / s ^ 2)).
    { replace (1 / (1 / s ^ 2)) with (s ^ 2) in H by (field; lra). lra. }
    replace (4 / s ^ 4) with (4 / s ^ 6 * s ^ 2) by (field; lra).
    assert (0 < 4 / s ^ 6) by pos. nra.
Qed.

Lemma beta_hess_neg tg m s p :
  trigamma_bounds tg -> 0 < m < 1 -> 0 < s < 1 -> beta_hess tg m s p < 0.
Proof.
  intros Ht Hm Hs. unfold beta_hess. cbv zeta.
  assert (Ha := beta_a_pos m s Hm Hs). assert (Hb := beta_b_pos m s Hm Hs).
  assert (Hc : 0 < beta_a m s + beta_b m s) by lra.
  destruct (Ht _ Ha) as [A _]. destruct (Ht _ Hb) as [B _]. destruct (Ht _ Hc) as [_ C].
  assert (0 < 1 / beta_a m s) by pos. assert (0 < 1 / beta_b m s) by pos.
  assert (0 < 1 / (2 * beta_a m s ^ 2)) by pos. assert (0 < 1 / (2 * beta_b m s ^ 2)) by pos.
  destruct p.
  - assert (0 < (1 - s ^ 2) ^ 2 / s ^ 4) by (assert (0 < 1 - s ^ 2) by nra; pos). nra.
  - assert (K : tg (beta_a m s + beta_b m s) < m ^ 2 * tg (beta_a m s) + (1 - m) ^ 2 * tg (beta_b m s)).
    { assert (Eab := beta_ab m s ltac:(lra)). set (c := (1 - s ^ 2) / s ^ 2) in *.
      assert (Ea : beta_a m s = m * c) by (unfold beta_a, c; field; lra).
      assert (Eb : beta_b m s = (1 - m) * c) by (unfold beta_b, c; field; lra).
      assert (Hcp : 0 < c) by lra. rewrite Eab in C |- *.
      eapply Rlt_le_trans; [exact C|].
      replace (1 / c + 1 / c ^ 2) with
        (m ^ 2 * (1 / (m * c) + 1 / (2 * (m * c) ^ 2))
         + (1 - m) ^ 2 * (1 / ((1 - m) * c) + 1 / (2 * ((1 - m) * c) ^ 2))) by (field; lra).
      rewrite <- Ea, <- Eb. apply Rplus_le_compat; apply Rmult_le_compat_l; try lra; apply pow2_ge_0. }
    assert (0 < 4 / s ^ 6) by pos. nra.
Qed.

Lemma C42_positive_lemma dg tg d y th p :
  d <> JSU -> (needs_trigamma d = true -> trigamma_bounds tg) ->
  valid_theta d th -> (p < n_params d)%nat -> ~ inflated_point d y p ->
  exists h, dl2_dp2 dg tg d y th (Z.of_nat p) = Ok (Some h) /\ 0 < - h.
Proof.
  intros Hj Ht Hv Hp Hi. exists (hess dg tg d y th p). split; [now apply dl2_valid|].
  assert (Hneg : forall a b, 0 < a -> 0 < b -> 0 < - (- a / b)).
  { intros a b A B. replace (- (- a / b)) with (a / b) by (field; lra). now apply div_pos. }
  assert (HL : 0 < LARGE) by (pose proof LARGE_gt1; lra).
  destruct d; try (now elim Hj); clear Hj; cbn [needs_trigamma] in Ht; try specialize (Ht eq_refl);
    pcases p Hp; cbn [valid_theta] in Hv;
    repeat match goal with H : _ /\ _ |- _ => destruct H end;
    cbn [hess]; cbv zeta; rewrite ?Ropp_involutive; try (apply Hneg; pos); try (solve [pos]);
    try (change (IPR 1) with 1; lra).
  - rewrite Ropp_mult_distr_l_reverse, Ropp_involutive.
    pose proof PI_RGT_0. assert (0 < PI ^ 2 / 3) by pos. pos.
  - pose proof (gamma_hess_neg tg (th 0%nat) (th 1%nat) 1 Ht ltac:(lra) ltac:(lra)). lra.
  - assert (Ha : 0 < 1 / th 1%nat ^ 2) by pos. destruct (Ht _ Ha) as [K _].
    assert (K2 : th 1%nat ^ 2 * (1 + 2 * th 1%nat ^ 2) / (1 + th 1%nat ^ 2) ^ 2 < tg (1 / th 1%nat ^ 2)).
    { eapply Rle_lt_trans; [|exact K]. set (s := th 1%nat) in *. assert (0 < s ^ 2) by nra.
      replace (1 / (1 / s ^ 2) + 1 / (2 * (1 / s ^ 2) ^ 2)) with (s ^ 2 + s ^ 4 / 2) by (field; lra).
      apply (Rmult_le_reg_r ((1 + s ^ 2) ^ 2)); [pos|].
      unfold Rdiv at 1. rewrite Rmult_assoc, Rinv_l by (apply Rgt_not_eq; pos). rewrite Rmult_1_r.
      replace (s ^ 4) with (s ^ 2 * s ^ 2) by ring. clear - H1. generalize dependent (s ^ 2). intros x Hx. nra. }
    assert (0 < 1 / th 1%nat ^ 6) by pos.
    replace (- (- 4 * (tg (1 / th 1%nat ^ 2) - th 1%nat ^ 2 * (1 + 2 * th 1%nat ^ 2) / (1 + th 1%nat ^ 2) ^ 2) / th 1%nat ^ 6))
      with (4 * (tg (1 / th 1%nat ^ 2) - th 1%nat ^ 2 * (1 + 2 * th 1%nat ^ 2) / (1 + th 1%nat ^ 2) ^ 2) * (1 / th 1%nat ^ 6))
      by (unfold Rdiv; ring).
    nra.
  - pose proof (beta_hess_neg tg (th 0%nat) (th 1%nat) 0 Ht ltac:(lra) ltac:(lra)). lra.
  - pose proof (beta_hess_neg tg (th 0%nat) (th 1%nat) 1 Ht ltac:(lra) ltac:(lra)). lra.
  - assert (0 < / LARGE) by (now apply Rinv_0_lt_compat).
    match goal with |- 0 < - Rmin ?a ?b => pose proof (Rmin_r a b) end. lra.
  - pose proof (beta_hess_neg tg (th 0%nat) (th 1%nat) 0 Ht ltac:(lra) ltac:(lra)).
    destruct (Reqb y 0) eqn:E0; [exfalso; apply Hi; apply Reqb_true in E0; split; [lia|auto]|].
    destruct (Reqb y 1) eqn:E1; [exfalso; apply Hi; apply Reqb_true in E1; split; [lia|auto]|].
    cbn [orb]. lra.
  - pose proof (beta_hess_neg tg (th 0%nat) (th 1%nat) 1 Ht ltac:(lra) ltac:(lra)).
    destruct (Reqb y 0) eqn:E0; [exfalso; apply Hi; apply Reqb_true in E0; split; [lia|auto]|].
    destruct (Reqb y 1) eqn:E1; [exfalso; apply Hi; apply Reqb_true in E1; split; [lia|auto]|].
    cbn [orb]. lra.
  - pose proof (beta_hess_neg tg (th 0%nat) (th 1%nat) 0 Ht ltac:(lra) ltac:(lra)).
    destruct (Reqb y 0) eqn:E0; [exfalso; apply Hi; apply Reqb_true in E0; split; [lia|auto]|]. lra.
  - pose proof (beta_hess_neg tg (th 0%nat) (th 1%nat) 1 Ht ltac:(lra) ltac:(lra)).
    destruct (Reqb y 0) eqn:E0; [exfalso; apply Hi; apply Reqb_true in E0; split; [lia|auto]|]. lra.
  - pose proof (gamma_hess_neg tg (th 0%nat) (th 1%nat) 0 Ht ltac:(lra) ltac:(lra)).
    destruct (Reqb y 0) eqn:E0; [exfalso; apply Hi; apply Reqb_true in E0; split; [lia|auto]|]. lra.
  - pose proof (gamma_hess_neg tg (th 0%nat) (th 1%nat) 1 Ht ltac:(lra) ltac:(lra)).
    destruct (Reqb y 0) eqn:E0; [exfalso; apply Hi; apply Reqb_true in E0; split; [lia|auto]|]. lra.
Qed.

Lemma C42_jsu_lemma dg tg y th p :
  (p < 4)%nat ->
  exists s h, dl1_dp1 dg JSU y th (Z.of_nat p) = Ok (Some s) /\
    dl2_dp2 dg tg JSU y th (Z.of_nat p) = Ok (Some h) /\ 0 <= - h /\ (h = 0 <-> s = 0).
Proof.
  intros Hp. exists (score dg JSU y th p), (hess dg tg JSU y th p).
  split; [now apply dl1_valid|]. split; [now apply (dl2_valid dg tg JSU)|].
  cbn [hess]. cbv zeta. generalize (score dg JSU y th p). intros s. split; [nra|].
  split; intros H; nra.
Qed.

Lemma C42_inflated_lemma dg tg d y th p :
  inflated_point d y p -> dl2_dp2 dg tg d y th (Z.of_nat p) = Ok (Some 0).
Proof.
  intros [Hp H].
  destruct d; try (now elim H); rewrite dl2_valid by (cbn; lia); cbn [hess]; cbv zeta;
    destruct p as [|[|p]]; try lia.
  1, 2: destruct H as [-> | ->]; rewrite Reqb_refl; rewrite ?orb_true_r; reflexivity.
  all: rewrite H, Reqb_refl; reflexivity.
Qed.

(** C46 *)
Lemma C46_first_lemma dg tg d y th (param : Z) :
  (0 <= param)%Z ->
  ((param < Z.of_nat (n_params d))%Z ->
     (exists v, dl1_dp1 dg d y th param = Ok (Some v)) /\
     (exists v, dl2_dp2 dg tg d y th param = Ok (Some v))) /\
  ((Z.of_nat (n_params d) <= param)%Z ->
     dl1_dp1 dg d y th param = Raise ValueError /\ dl2_dp2 dg tg d y th param = Raise ValueError).
Proof.
  intros H0. split; intros H.
  - replace param with (Z.of_nat (Z.to_nat param)) by lia.
    split; eexists; [apply dl1_valid|apply dl2_valid]; lia.
  - apply Z.leb_le in H. unfold dl1_dp1, dl2_dp2, validate_param. rewrite H. cbn [bind].
    assert (E2 : n_params d = 2%nat -> (param <? 2)%Z = false)
      by (intros E; apply Z.ltb_ge; apply Z.leb_le in H; lia).
    destruct d; try (split; reflexivity); rewrite E2 by reflexivity; rewrite andb_false_r; split; reflexivity.
Qed.

Lemma C46_cross_lemma dg tg d y th (a b : Z) :
  d <> InverseGaussian -> (0 <= a)%Z -> (0 <= b)%Z ->
  let n := Z.of_nat (n_params d) in
  ((a < n)%Z /\ (b < n)%Z /\ a <> b -> exists v, dl2_dpp dg tg d y th a b = Ok (Some v)) /\
  ((n <= a)%Z \/ (n <= b)%Z \/ a = b -> dl2_dpp dg tg d y th a b = Raise ValueError).
Proof.
  intros Hd Ha Hb n. split.
  - intros [H1 [H2 H3]]. unfold n in *.
    replace a with (Z.of_nat (Z.to_nat a)) by lia. replace b with (Z.of_nat (Z.to_nat b)) by lia.
    assert (L : (Z.to_nat a < Z.to_nat b \/ Z.to_nat b < Z.to_nat a)%nat) by lia.
    destruct L as [L|L]; eexists.
    + apply (proj1 (dpp_valid dg tg d y th _ _ L ltac:(lia))).
    + apply (proj2 (dpp_valid dg tg d y th _ _ L ltac:(lia))).
  - intros H. assert (E : validate_params d a b = Raise ValueError).
    { unfold validate_params. fold n. destruct (n <=? Z.max a b)%Z eqn:E; [reflexivity|].
      apply Z.leb_gt in E. assert (a = b) by lia. subst. now rewrite Z.eqb_refl. }
    unfold dl2_dpp. rewrite E. destruct d; try reflexivity. now elim Hd.
Qed.

Lemma C46_inverse_gaussian_lemma dg tg y th (a b : Z) :
  dl2_dpp dg tg InverseGaussian y th a b = if (a =? b)%Z then Raise ValueError else Ok (Some 0).
Proof. reflexivity. Qed.

Lemma C46_negative_lemma dg tg d y th (param : Z) :
  (param < 0)%Z ->
  match d with
  | Gumbel | InverseGaussian => dl1_dp1 dg d y th param = Raise ValueError
  | Exponential => exists v, dl1_dp1 dg d y th param = Ok (Some v)
  | _ => dl1_dp1 dg d y th param = Ok None
  end /\
  match d with
  | Gumbel | InverseGaussian | InverseGamma => dl2_dp2 dg tg d y th param = Raise ValueError
  | Exponential => exists v, dl2_dp2 dg tg d y th param = Ok (Some v)
  | _ => dl2_dp2 dg tg d y th param = Ok None
  end.
Proof.
  intros H.
  assert (E0 : (0 <=? param)%Z = false) by (apply Z.leb_gt; lia).
  assert (E : (Z.of_nat (n_params d) <=? param)%Z = false) by (apply Z.leb_gt; lia).
  unfold dl1_dp1, dl2_dp2, validate_param. rewrite E, E0. cbn [bind andb].
  destruct d; split; try reflexivity; eexists; reflexivity.
Qed.
