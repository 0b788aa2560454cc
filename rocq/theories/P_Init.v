(** C69, continued: what the initial values match. *)
From Coq Require Import Reals List Bool Arith Lra Lia Permutation Sorted.
From Verif Require Import Base M_Links M_DistTable M_Dist M_Init L_Init2.
Import ListNotations.
Open Scope R_scope.

(** The first parameter is the sample mean. *)
Theorem C69_location : forall fit_t fit_jsu gamlss d ys y mu rest,
  In d [Normal; NormalMeanVariance; Logistic; Gumbel; InverseGaussian; Exponential; Gamma; InverseGamma; Beta; BetaInflated; BetaInflatedZero; ZeroAdjustedGamma] ->
  initial_values fit_t fit_jsu gamlss d ys y = Some mu :: rest -> INR (length ys) * mu = lsum ys.
Proof. exact C69_location_lemma. Qed.
Print Assumptions C69_location.

(** The second parameter from the squared deviations; LogNormalMedian starts at the sample
    median, the geometric mean of the two middle values of an even sample. *)
Theorem C69_scale : forall fit_t fit_jsu gamlss d ys y mu v,
  initial_values fit_t fit_jsu gamlss d ys y = [Some mu; Some v] ->
  let n := INR (length ys) in let dev := lsum (map (fun x => (x - mu) ^ 2) ys) in
  match d with
  | Normal => 0 <= v /\ (n - 1) * v ^ 2 = dev
  | NormalMeanVariance => (n - 1) * v = dev
  | Logistic => 0 <= v /\ (n - 1) * (PI * v ^ 2 / 3) = dev
  | Gumbel => 0 <= v /\ n * (PI ^ 2 * v ^ 2 / 6) = dev
  | InverseGaussian => 0 <= v /\ n * (mu * v ^ 2) = dev
  | InverseGamma => 0 <= v /\ (n - 1) * (mu * v ^ 2) = dev
  | LogNormal => n * mu = lsum (map ln ys) /\ 0 <= v /\ (n - 1) * v ^ 2 = lsum (map (fun x => (ln x - mu) ^ 2) ys)
  | LogNormalMedian =>
      (forall s, Permutation s ys -> StronglySorted Rle s ->
         2 * ln mu = ln (nth ((length ys - 1) / 2) s 0) + ln (nth (length ys / 2) s 0)) /\
      0 <= v /\ n * v ^ 2 = lsum (map (fun x => (ln x - lsum (map ln ys) / n) ^ 2) ys)
  | _ => True
  end.
Proof. exact C69_scale_lemma. Qed.
Print Assumptions C69_scale.

Example C69_scale_example : exists mu v, initial_values (fun _ => (1, 0, 1)) (fun _ => (0, 1, 0, 1)) false InverseGaussian [2; 6] 2 = [Some mu; Some v] /\
  mu = 4 /\ v = 1.
Proof.
  exists ((2 + (6 + 0)) / (1 + 1)), (sqrt (((2 - (2 + (6 + 0)) / (1 + 1)) ^ 2 + ((6 - (2 + (6 + 0)) / (1 + 1)) ^ 2 + 0)) / (1 + 1)) / sqrt ((2 + (6 + 0)) / (1 + 1))).
  assert (E1 : (2 + (6 + 0)) / (1 + 1) = 4) by field.
  assert (E2 : ((2 - 4) ^ 2 + ((6 - 4) ^ 2 + 0)) / (1 + 1) = 4) by field.
  assert (E3 : sqrt 4 = 2) by (replace 4 with (2 * 2) by ring; apply sqrt_square; lra).
  rewrite !E1, E2, E3. split; [|split; [reflexivity|field]].
  cbn [initial_values]. unfold np_std, np_var, np_mean, total. cbn [length fold_right INR map obind].
  assert (N : forall a, npdiv a (1 + 1) = Some (a / (1 + 1))).
  { intros a. unfold npdiv. rewrite (proj2 (Reqb_false _ _)); [reflexivity|lra]. }
  rewrite N. cbn [obind Nat.leb Nat.sub]. change (INR 2) with (1 + 1). rewrite N, E1, E2. cbn [obind]. unfold npsqrt. rewrite (proj2 (Rltb_false _ _)) by lra. cbn [obind].
  rewrite E3. unfold npdiv. rewrite (proj2 (Reqb_false _ _)) by lra. reflexivity.
Qed.
