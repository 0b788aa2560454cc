(** Second derivatives of the log densities. *)
From Coq Require Import Reals List Lra Lia Bool ZArith.
From Coquelicot Require Import Coquelicot.
From Verif Require Import Base M_Links S_Links L_Links L_Links2 M_DistTable M_Dist S_Dist
  L_Dist1 L_Dist2 L_Dist3.
Import ListNotations.
Open Scope R_scope.

Section Second.
Variables dg tg : R -> R.

Definition gamma_true (y m s : R) (p q : nat) : R :=
  match p, q with
  | O, O => - 1 / (s ^ 2 * m ^ 2) - 2 * (y - m) / (s ^ 2 * m ^ 3)
  | 1%nat, 1%nat =>
      - 6 / s ^ 4 * (y / m - ln y + ln m + ln (s ^ 2) - 1 + dg (1 / s ^ 2))
      + 2 / s ^ 3 * (2 / s - 2 / s ^ 3 * tg (1 / s ^ 2))
  | _, _ => - 2 * (y - m) / (s ^ 3 * m ^ 2)
  end.

Definition beta_true (y m s : R) (p q : nat) : R :=
  let a := beta_a m s in let b := beta_b m s in let c := (1 - s ^ 2) / s ^ 2 in
  match p, q with
  | O, O => - c ^ 2 * (tg a + tg b)
  | 1%nat, 1%nat =>
      6 / s ^ 4 * (m * (- dg a + dg (a + b) + ln y) + (1 - m) * (- dg b + dg (a + b) + ln (1 - y)))
      + 4 / s ^ 6 * (- m ^ 2 * tg a - (1 - m) ^ 2 * tg b + tg (a + b))
  | _, _ =>
      - 2 / s ^ 3 * (- dg a + dg b + ln y - ln (1 - y))
      + 2 * c / s ^ 3 * (m * tg a - (1 - m) * tg b)
  end.

Definition htrue (d : dist) (y : R) (th : theta) (p q : nat) : R :=
  let m := th 0%nat in let s := th 1%nat in let n := th 2%nat in let t := th 3%nat in
  let z := (y - m) / s in
  let P := logistic_cdf z in
  let D := n + z ^ 2 in let u := z ^ 2 / D in
  match d with
  | Normal =>
      match p, q with
      | O, O => - (1 / s ^ 2)
      | 1%nat, 1%nat => 1 / s ^ 2 - 3 * (y - m) ^ 2 / s ^ 4
      | _, _ => - 2 * (y - m) / s ^ 3
      end
  | NormalMeanVariance =>
      match p, q with
      | O, O => - (1 / s)
      | 1%nat, 1%nat => 1 / (2 * s ^ 2) - (y - m) ^ 2 / s ^ 3
      | _, _ => - (y - m) / s ^ 2
      end
  | LogNormal =>
      match p, q with
      | O, O => - 1 / s ^ 2
      | 1%nat, 1%nat => 1 / s ^ 2 - 3 * (ln y - m) ^ 2 / s ^ 4
      | _, _ => - 2 * (ln y - m) / s ^ 3
      end
  | LogNormalMedian =>
      match p, q with
      | O, O => - (1 + (ln y - ln m)) / (m ^ 2 * s ^ 2)
      | 1%nat, 1%nat => 1 / s ^ 2 - 3 * (ln y - ln m) ^ 2 / s ^ 4
      | _, _ => - 2 * (ln y - ln m) / (m * s ^ 3)
      end
  | Logistic =>
      match p, q with
      | O, O => - 2 * (P * (1 - P)) / s ^ 2
      | 1%nat, 1%nat => (1 - 2 * (z * (2 * P - 1)) - 2 * (z ^ 2 * (P * (1 - P)))) / s ^ 2
      | _, _ => - ((2 * P - 1) + 2 * (z * (P * (1 - P)))) / s ^ 2
      end
  | Gumbel =>
      match p, q with
      | O, O => - exp z / s ^ 2
      | 1%nat, 1%nat => (1 - 2 * z * (exp z - 1) - z ^ 2 * exp z) / s ^ 2
      | _, _ => - (exp z - 1 + z * exp z) / s ^ 2
      end
  | ReverseGumbel =>
      match p, q with
      | O, O => - exp (- z) / s ^ 2
      | 1%nat, 1%nat => (1 - 2 * z * (1 - exp (- z)) - z ^ 2 * exp (- z)) / s ^ 2
      | _, _ => - (1 - exp (- z) + z * exp (- z)) / s ^ 2
      end
  | InverseGaussian =>
      match p, q with
      | O, O => (- m - 3 * (y - m)) / (s ^ 2 * m ^ 4)
      | 1%nat, 1%nat => 1 / s ^ 2 - 3 * ((y - m) ^ 2 / y) / (s ^ 4 * m ^ 2)
      | _, _ => - 2 * (y - m) / (s ^ 3 * m ^ 3)
      end
  | Exponential => - 1 / m ^ 2 - 2 * (y - m) / m ^ 3
  | Gamma => gamma_true y m s p q
  | InverseGamma =>
      let a := 1 / s ^ 2 in
      match p, q with
      | O, O => - a / m ^ 2
      | 1%nat, 1%nat =>
          6 / s ^ 4 * (ln m + a / (a + 1) + ln (a + 1) - dg a - ln y - m / y)
          + 4 / s ^ 6 * (1 / (a + 1) ^ 2 + 1 / (a + 1) - tg a)
      | _, _ => - 2 / s ^ 3 * (1 / m - 1 / y)
      end
  | Beta => beta_true y m s p q
  | StudentT =>
      match p, q with
      | O, O => - (n + 1) / (n * s ^ 2) * (1 - 3 * u + 2 * u ^ 2)
      | 1%nat, 1%nat => - ((n + 1) * u - 1) / s ^ 2 - 2 * (n + 1) * (u - u ^ 2) / s ^ 2
      | 2%nat, 2%nat =>
          / 2 * (u / n + (u - (n + 1) * (u - u ^ 2) / n) / n - ((n + 1) * u - 1) / n ^ 2
                 + / 2 * tg ((n + 1) / 2) - / 2 * tg (n / 2))
      | O, 1%nat | 1%nat, O => - 2 * n * (n + 1) * (z / D ^ 2) / s ^ 2
      | O, 2%nat | 2%nat, O => (z / D - (n + 1) * (z / D ^ 2)) / s
      | _, _ => (u - (n + 1) * (u - u ^ 2) / n) / s
      end
  | BetaInflated =>
      match p, q with
      | O, O | O, 1%nat | 1%nat, O | 1%nat, 1%nat =>
          if Reqb y 0 || Reqb y 1 then 0 else beta_true y m s p q
      | 2%nat, 2%nat => (if Reqb y 0 then - 1 / n ^ 2 else 0) + 1 / (1 + n + t) ^ 2
      | 3%nat, 3%nat => (if Reqb y 1 then - 1 / t ^ 2 else 0) + 1 / (1 + n + t) ^ 2
      | 2%nat, 3%nat | 3%nat, 2%nat => 1 / (1 + n + t) ^ 2
      | _, _ => 0
      end
  | BetaInflatedZero =>
      match p, q with
      | O, O | O, 1%nat | 1%nat, O | 1%nat, 1%nat =>
          if Reqb y 0 then 0 else beta_true y m s p q
      | 2%nat, 2%nat => (if Reqb y 0 then - 1 / n ^ 2 else 0) + 1 / (1 + n) ^ 2
      | _, _ => 0
      end
  | ZeroAdjustedGamma =>
      match p, q with
      | O, O | O, 1%nat | 1%nat, O | 1%nat, 1%nat =>
          if Reqb y 0 then 0 else gamma_true y m s p q
      | 2%nat, 2%nat => if Reqb y 0 then - 1 / n ^ 2 else - 1 / (1 - n) ^ 2
      | _, _ => 0
      end
  | JSU => 0
  end.

Ltac gen2 := generalize dependent 1%nat.

Lemma h_normal d y th p q :
  In d [Normal; NormalMeanVariance; LogNormal] -> valid_theta d th -> (p < 2)%nat -> (q < 2)%nat ->
  is_derive (fun v => score dg d y (upd th q v) p) (th q) (htrue d y th p q).
Proof.
  intros Hd Hv Hp Hq. cbn [In] in Hd.
  assert (Hs : 0 < th 1%nat) by (destruct Hd as [<- | [<- | [<- | []]]]; exact Hv).
  destruct Hd as [<- | [<- | [<- | []]]];
  destruct p as [|[|p]]; try lia; destruct q as [|[|q]]; try lia;
  cbn [score htrue upd Nat.eqb]; cbv zeta; clear Hv;
  generalize dependent (th 1%nat); generalize (th 0%nat); intros m s Hs;
  (auto_derive; [nz|]); field; nz.
Qed.

Lemma h_lnm y th p q :
  0 < y -> valid_theta LogNormalMedian th -> (p < 2)%nat -> (q < 2)%nat ->
  is_derive (fun v => score dg LogNormalMedian y (upd th q v) p) (th q) (htrue LogNormalMedian y th p q).
Proof.
  intros Hy Hv Hp Hq. cbn [valid_theta] in Hv.
  destruct p as [|[|p]]; try lia; destruct q as [|[|q]]; try lia;
  cbn [score htrue upd Nat.eqb]; cbv zeta;
  generalize dependent (th 1%nat); generalize dependent (th 0%nat); intros m s [Hm Hs];
  (auto_derive; [nz|]); field; nz.
Qed.

Lemma h_logistic y th p q :
  valid_theta Logistic th -> (p < 2)%nat -> (q < 2)%nat ->
  is_derive (fun v => score dg Logistic y (upd th q v) p) (th q) (htrue Logistic y th p q).
Proof.
  intros Hv Hp Hq. cbn [valid_theta] in Hv.
  destruct p as [|[|p]]; try lia; destruct q as [|[|q]]; try lia;
  cbn [score htrue upd Nat.eqb]; cbv zeta; unfold logistic_cdf;
  generalize dependent (th 1%nat); generalize dependent (th 0%nat); intros m s Hs;
  pose proof (exp_pos ((y - m) / s)) as He;
  (auto_derive; [repeat split; try lra; try nz;
     change (y + - m) with (y - m); change ((y - m) * / s) with ((y - m) / s); lra|]);
  change (y + - m) with (y - m); change ((y - m) * / s) with ((y - m) / s);
  generalize dependent (exp ((y - m) / s)); intros e He; field; nz.
Qed.

Lemma h_gumbel d y th p q :
  In d [Gumbel; ReverseGumbel] -> valid_theta d th -> (p < 2)%nat -> (q < 2)%nat ->
  is_derive (fun v => score dg d y (upd th q v) p) (th q) (htrue d y th p q).
Proof.
  intros Hd Hv Hp Hq. cbn [In] in Hd.
  assert (Hs : 0 < th 1%nat) by (destruct Hd as [<- | [<- | []]]; exact Hv).
  destruct Hd as [<- | [<- | []]];
  destruct p as [|[|p]]; try lia; destruct q as [|[|q]]; try lia;
  cbn [score htrue upd Nat.eqb]; cbv zeta; clear Hv;
  generalize dependent (th 1%nat); generalize (th 0%nat); intros m s Hs;
  (auto_derive; [nz|]);
  change (y + - m) with (y - m); change ((y - m) * / s) with ((y - m) / s);
  first [ generalize (exp ((y - m) / s)); intros e; field; nz
        | generalize (exp (- ((y - m) / s))); intros e; field; nz ].
Qed.

Lemma h_ig y th p q :
  0 < y -> valid_theta InverseGaussian th -> (p < 2)%nat -> (q < 2)%nat ->
  is_derive (fun v => score dg InverseGaussian y (upd th q v) p) (th q) (htrue InverseGaussian y th p q).
Proof.
  intros Hy Hv Hp Hq. cbn [valid_theta] in Hv.
  destruct p as [|[|p]]; try lia; destruct q as [|[|q]]; try lia;
  cbn [score htrue upd Nat.eqb]; cbv zeta;
  generalize dependent (th 1%nat); generalize dependent (th 0%nat); intros m s [Hm Hs];
  (auto_derive; [nz|]); field; nz.
Qed.

Lemma h_exp y th p q :
  valid_theta Exponential th -> (p < 1)%nat -> (q < 1)%nat ->
  is_derive (fun v => score dg Exponential y (upd th q v) p) (th q) (htrue Exponential y th p q).
Proof.
  intros Hv Hp Hq. cbn [valid_theta] in Hv.
  destruct p as [|p]; try lia; destruct q as [|q]; try lia;
  cbn [score htrue upd Nat.eqb]; cbv zeta;
  generalize dependent (th 0%nat); intros m Hm;
  (auto_derive; [nz|]); field; nz.
Qed.

Hypothesis Htg : is_trigamma dg tg.
Lemma Derive_dg x : 0 < x -> Derive dg x = tg x.
Proof. intros. apply is_derive_unique. now apply Htg. Qed.
Lemma ex_dg x : 0 < x -> ex_derive dg x.
Proof. intros. exists (tg x). now apply Htg. Qed.

Lemma h_gamma_core y m s p :
  0 < y -> 0 < m -> 0 < s -> (p < 2)%nat ->
  is_derive (fun v => gamma_score dg y v s p) m (gamma_true y m s p 0) /\
  is_derive (fun v => gamma_score dg y m v p) s (gamma_true y m s p 1).
Proof.
  intros Hy Hm Hs Hp. unfold gamma_score, gamma_true. assert (H : 0 < 1 / s ^ 2) by pos.
  destruct p as [|[|p]]; try lia; split.
  - auto_derive; [nz|]. field. nz.
  - auto_derive; [nz|]. field. nz.
  - auto_derive; [nz|]. field. nz.
  - auto_derive.
    + repeat split; try nz. apply ex_dg. exact H.
    + change (1 * / (s * (s * 1))) with (1 / s ^ 2). change (fun x : R => dg x) with dg.
      rewrite Derive_dg by exact H. change (s * (s * 1)) with (s ^ 2).
      generalize (dg (1 / s ^ 2)), (tg (1 / s ^ 2)), (ln (s ^ 2)). intros g g' l. field. nz.
Qed.

Lemma h_igamma y th p q :
  0 < y -> valid_theta InverseGamma th -> (p < 2)%nat -> (q < 2)%nat ->
  is_derive (fun v => score dg InverseGamma y (upd th q v) p) (th q) (htrue InverseGamma y th p q).
Proof.
  intros Hy Hv Hp Hq. cbn [valid_theta] in Hv.
  destruct p as [|[|p]]; try lia; destruct q as [|[|q]]; try lia;
  cbn [score htrue upd Nat.eqb]; cbv zeta;
  generalize dependent (th 1%nat); generalize dependent (th 0%nat); intros m s [Hm Hs];
  assert (H : 0 < 1 / s ^ 2) by pos.
  - auto_derive; [nz|]. field. nz.
  - auto_derive; [nz|]. field. nz.
  - auto_derive; [nz|]. field. repeat split; try lra; nra.
  - auto_derive.
    + repeat split; try nz; try (apply ex_dg; exact H);
      change (1 * / (s * (s * 1))) with (1 / s ^ 2); lra.
    + change (1 * / (s * (s * 1))) with (1 / s ^ 2). change (fun x : R => dg x) with dg.
      rewrite Derive_dg by exact H.
      generalize (dg (1 / s ^ 2)), (tg (1 / s ^ 2)), (ln (1 / s ^ 2 + 1)). intros g g' l.
      field. repeat split; try lra; nra.
Qed.

Lemma h_beta_core y m s p :
  0 < y < 1 -> 0 < m < 1 -> 0 < s < 1 -> (p < 2)%nat ->
  is_derive (fun v => beta_score dg y v s p) m (beta_true y m s p 0) /\
  is_derive (fun v => beta_score dg y m v p) s (beta_true y m s p 1).
Proof.
  intros Hy Hm Hs Hp. unfold beta_score, beta_true. cbv zeta.
  assert (Ha := beta_a_pos m s Hm Hs). assert (Hb := beta_b_pos m s Hm Hs).
  assert (Hc : 0 < beta_a m s + beta_b m s) by lra.
  pose proof (Derive_dg _ Ha) as Da. pose proof (Derive_dg _ Hb) as Db.
  pose proof (Derive_dg _ Hc) as Dc. pose proof (ex_dg _ Ha) as Ea.
  pose proof (ex_dg _ Hb) as Eb. pose proof (ex_dg _ Hc) as Ec.
  revert Da Db Dc Ea Eb Ec. clear Ha Hb Hc. unfold beta_a, beta_b. intros.
  destruct p as [|[|p]]; try lia; split;
  (auto_derive; [repeat split; try nz; assumption|]);
  change (s * (s * 1)) with (s ^ 2); unfold Rdiv in *; unfold Rminus in *;
  change (fun x : R => dg x) with dg; rewrite ?Da, ?Db, ?Dc;
  generalize (dg (m * (1 + - s ^ 2) * / s ^ 2 + (1 + - m) * (1 + - s ^ 2) * / s ^ 2));
  generalize (tg (m * (1 + - s ^ 2) * / s ^ 2 + (1 + - m) * (1 + - s ^ 2) * / s ^ 2));
  generalize (dg (m * (1 + - s ^ 2) * / s ^ 2));
  generalize (tg (m * (1 + - s ^ 2) * / s ^ 2));
  generalize (dg ((1 + - m) * (1 + - s ^ 2) * / s ^ 2));
  generalize (tg ((1 + - m) * (1 + - s ^ 2) * / s ^ 2));
  generalize (ln (1 + - y)); intros; field; nz.
Qed.

Lemma h_student y th p q :
  valid_theta StudentT th -> (p < 3)%nat -> (q < 3)%nat ->
  is_derive (fun v => score dg StudentT y (upd th q v) p) (th q) (htrue StudentT y th p q).
Proof.
  intros Hv Hp Hq. cbn [valid_theta] in Hv.
  assert (H1 : 0 <= (y - th 0%nat) ^ 2) by apply pow2_ge_0.
  assert (H2 : 0 < th 2%nat * th 1%nat ^ 2) by (destruct Hv; pos).
  assert (H3 : 0 <= (y - th 0%nat) ^ 2 / th 1%nat ^ 2)
    by (apply Rle_mult_inv_pos; [assumption|destruct Hv; nra]).
  assert (H4 : 0 <= (y - th 0%nat) ^ 2 / th 1%nat ^ 2 / th 2%nat)
    by (apply Rle_mult_inv_pos; [assumption|tauto]).
  destruct p as [|[|[|p]]]; try lia; destruct q as [|[|[|q]]]; try lia;
  cbn [score htrue upd Nat.eqb]; cbv zeta;
  generalize dependent (th 2%nat); generalize dependent (th 1%nat);
  generalize dependent (th 0%nat); intros m H1 s H3 n [Hs Hn] H2 H4.
  all: auto_derive.
  all: try (repeat split; try lra; try nz; try (apply ex_dg; lra); fail).
  all: change (n * / 2) with (n / 2); change ((n + 1) * / 2) with ((n + 1) / 2);
       change (fun x : R => dg x) with dg; rewrite ?Derive_dg by lra.
  all: try (field; repeat split; try lra; intros E; nra).
  all: repeat match goal with |- _ /\ _ => split end; try exact I; try nz; try (apply ex_dg; lra).
  all: first [ change (n + (y - m) ^ 2 / s ^ 2 <> 0); lra
             | change (0 < 1 + (y - m) ^ 2 / s ^ 2 / n); lra ].
Qed.
End Second.
