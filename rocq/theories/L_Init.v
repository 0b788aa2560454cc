(** Lemmas for C69. *)
From Coq Require Import Reals List Bool Arith Lra Lia Psatz.
From Coquelicot Require Import Coquelicot.
From Verif Require Import Base M_Links S_Links M_DistTable M_Dist S_Dist M_Init S_Init
  L_Links2 L_Dist1 L_Dist3 L_Mixed.
Import ListNotations.
Open Scope R_scope.

Lemma npsqrt_some x : 0 <= x -> npsqrt x = Some (sqrt x).
Proof. intros H. unfold npsqrt. now rewrite Rltb_no. Qed.

Lemma len_pos (l : list R) : l <> [] -> 0 < INR (length l).
Proof. destruct l as [|x l]; [easy|]. intros _. apply lt_0_INR. cbn; lia. Qed.

Lemma mean_some l : l <> [] -> np_mean l = Some (total l / INR (length l)).
Proof. intros H. unfold np_mean. apply npdiv_some. pose proof (len_pos l H). lra. Qed.

Lemma total_bounds lo hi l :
  List.Forall (fun x => lo <= x <= hi) l -> lo * INR (length l) <= total l <= hi * INR (length l).
Proof.
  induction 1 as [|x l Hx _ IH]; [cbn; lra|].
  cbn [total fold_right length]. fold (total l). rewrite S_INR. lra.
Qed.

Lemma total_ge lo l : List.Forall (fun x => lo <= x) l -> lo * INR (length l) <= total l.
Proof.
  induction 1 as [|x l Hx _ IH]; [cbn; lra|].
  cbn [total fold_right length]. fold (total l). rewrite S_INR. lra.
Qed.
Lemma total_le hi l : List.Forall (fun x => x <= hi) l -> total l <= hi * INR (length l).
Proof.
  induction 1 as [|x l Hx _ IH]; [cbn; lra|].
  cbn [total fold_right length]. fold (total l). rewrite S_INR. lra.
Qed.
Lemma total_gt lo l a : List.Forall (fun x => lo <= x) l -> In a l -> a <> lo -> lo * INR (length l) < total l.
Proof.
  induction 1 as [|x l Hx Hl IH]; [now intros []|]. intros Hin Hne.
  cbn [total fold_right length]. fold (total l). rewrite S_INR.
  destruct Hin as [-> | Hin].
  - pose proof (total_ge lo l Hl). lra.
  - specialize (IH Hin Hne). lra.
Qed.
Lemma total_lt hi l a : List.Forall (fun x => x <= hi) l -> In a l -> a <> hi -> total l < hi * INR (length l).
Proof.
  induction 1 as [|x l Hx Hl IH]; [now intros []|]. intros Hin Hne.
  cbn [total fold_right length]. fold (total l). rewrite S_INR.
  destruct Hin as [-> | Hin].
  - pose proof (total_le hi l Hl). lra.
  - specialize (IH Hin Hne). lra.
Qed.

Lemma mean_gt lo l a : List.Forall (fun x => lo <= x) l -> In a l -> a <> lo ->
  lo < total l / INR (length l).
Proof.
  intros F I N. assert (Hl : l <> []) by (intros ->; easy). pose proof (len_pos l Hl).
  pose proof (total_gt lo l a F I N). apply (Rmult_lt_reg_r (INR (length l))); [lra|].
  unfold Rdiv. rewrite Rmult_assoc, Rinv_l by lra. lra.
Qed.
Lemma mean_lt hi l a : List.Forall (fun x => x <= hi) l -> In a l -> a <> hi ->
  total l / INR (length l) < hi.
Proof.
  intros F I N. assert (Hl : l <> []) by (intros ->; easy). pose proof (len_pos l Hl).
  pose proof (total_lt hi l a F I N). apply (Rmult_lt_reg_r (INR (length l))); [lra|].
  unfold Rdiv. rewrite Rmult_assoc, Rinv_l by lra. lra.
Qed.

Lemma varied_len ys : varied ys -> (2 <= length ys)%nat.
Proof.
  intros [a [b [Ha [Hb N]]]]. destruct ys as [|x [|y ys]]; cbn in *; try easy; try lia.
  destruct Ha as [<- | []], Hb as [<- | []]. now elim N.
Qed.

Lemma varied_dev ys m : varied ys -> 0 < total (map (fun x => (x - m) ^ 2) ys).
Proof.
  intros [a [b [Ha [Hb N]]]].
  assert (F : List.Forall (fun x => 0 <= x) (map (fun x => (x - m) ^ 2) ys)).
  { apply List.Forall_forall. intros x Hx. apply in_map_iff in Hx. destruct Hx as [z [<- _]]. apply pow2_ge_0. }
  destruct (Req_dec a m) as [-> | Na].
  - pose proof (total_gt 0 _ ((b - m) ^ 2) F (in_map _ _ _ Hb)) as K.
    rewrite Rmult_0_l in K. apply K. apply pow_nonzero. lra.
  - pose proof (total_gt 0 _ ((a - m) ^ 2) F (in_map _ _ _ Ha)) as K.
    rewrite Rmult_0_l in K. apply K. apply pow_nonzero. lra.
Qed.

Lemma var_pos ddof ys : (ddof <= 1)%nat -> varied ys -> exists v, np_var ddof ys = Some v /\ 0 < v.
Proof.
  intros Hd Hv. pose proof (varied_len ys Hv) as L2.
  assert (Hne : ys <> []) by (intros ->; cbn in L2; lia).
  unfold np_var. rewrite (mean_some ys Hne). cbn [obind].
  destruct (Nat.leb_spec (length ys) ddof) as [|Hlt]; [lia|].
  assert (HI : 0 < INR (length ys - ddof)) by (apply lt_0_INR; lia).
  rewrite npdiv_some by lra. eexists; split; [reflexivity|].
  apply Rdiv_lt_0_compat; [now apply varied_dev|assumption].
Qed.

Lemma std_pos ddof ys : (ddof <= 1)%nat -> varied ys -> exists v, np_std ddof ys = Some v /\ 0 < v.
Proof.
  intros Hd Hv. destruct (var_pos ddof ys Hd Hv) as [v [E P]].
  unfold np_std. rewrite E. cbn [obind]. rewrite npsqrt_some by lra.
  eexists; split; [reflexivity|]. now apply sqrt_lt_R0.
Qed.

Lemma logs_some ys : List.Forall (fun y => 0 < y) ys -> np_logs ys = Some (map ln ys).
Proof.
  induction 1 as [|x l Hx _ IH]; [reflexivity|]. cbn [np_logs map].
  rewrite nplog_some by assumption. cbn [obind]. now rewrite IH.
Qed.

Lemma varied_ln ys : List.Forall (fun y => 0 < y) ys -> varied ys -> varied (map ln ys).
Proof.
  intros F [a [b [Ha [Hb N]]]]. exists (ln a), (ln b).
  split; [now apply in_map|]. split; [now apply in_map|].
  intros E. apply N. rewrite List.Forall_forall in F. apply ln_inv; auto.
Qed.

Lemma median_some l : l <> [] -> exists v, np_median l = Some v.
Proof. destruct l; [easy|]. intros _. eexists; reflexivity. Qed.

Definition row2 (a b : R) : theta := fun p => match p with O => a | _ => b end.
Definition rowl (l : list R) : theta := fun p => nth p l 0.

Lemma C69_lemma fit_t fit_jsu gamlss d ys y :
  (d = StudentT -> 0 < snd (fit_t ys) /\ 0 < fst (fst (fit_t ys))) ->
  (d = JSU -> gamlss = false -> 0 < snd (fit_jsu ys) /\ 0 < snd (fst (fst (fit_jsu ys)))) ->
  good_sample d ys ->
  exists th, finite_row d (initial_values fit_t fit_jsu gamlss d ys y) th /\ valid_theta d th.
Proof.
  intros HT HJ [Hne [F G]].
  assert (Fin : forall l row, length row = n_params d -> row = map Some l ->
            valid_theta d (rowl l) -> exists th, finite_row d row th /\ valid_theta d th).
  { intros l row L E V. exists (rowl l). split; [split; [exact L|]|exact V].
    intros p Hp. rewrite E. unfold rowl. rewrite <- L, E, map_length in Hp.
    rewrite (nth_indep _ None (Some 0)) by (now rewrite map_length).
    apply (map_nth Some). }
  assert (Pi := PI_RGT_0).
  assert (S3 : 0 < sqrt 3) by (apply sqrt_lt_R0; lra).
  assert (S6 : 0 < sqrt 6) by (apply sqrt_lt_R0; lra).
  assert (SP : 0 < sqrt PI) by (now apply sqrt_lt_R0).
  pose proof (mean_some ys Hne) as EM.
  set (m := total ys / INR (length ys)) in *.
  assert (Pos : forall P : R -> Prop, (forall x, P x -> 0 < x) -> List.Forall P ys -> 0 < m).
  { intros P HP FP. destruct ys as [|x l]; [easy|].
    apply (mean_gt 0 _ x); [|left; reflexivity|].
    - eapply List.Forall_impl; [|exact FP]. intros a Ha. apply HP in Ha. lra.
    - inversion FP as [|? ? K _]; subst. apply HP in K. lra. }
  assert (Lt1 : forall P : R -> Prop, (forall x, P x -> x < 1) -> List.Forall P ys -> m < 1).
  { intros P HP FP. destruct ys as [|x l]; [easy|].
    apply (mean_lt 1 _ x); [|left; reflexivity|].
    - eapply List.Forall_impl; [|exact FP]. intros a Ha. apply HP in Ha. lra.
    - inversion FP as [|? ? K _]; subst. apply HP in K. lra. }
  destruct d; cbn [y_support] in F; cbn [initial_values].
  - destruct (std_pos 1 ys (le_n _) G) as [s [E P]].
    apply (Fin [m; s]); [reflexivity|now rewrite EM, E|exact P].
  - destruct (var_pos 1 ys (le_n _) G) as [s [E P]].
    apply (Fin [m; s]); [reflexivity|now rewrite EM, E|exact P].
  - rewrite (logs_some ys F). cbn [obind].
    destruct (std_pos 1 (map ln ys) (le_n _) (varied_ln ys F G)) as [s [E P]].
    rewrite mean_some by (destruct ys; [easy|discriminate]).
    eapply (Fin [_; s]); [reflexivity|now rewrite E|exact P].
  - rewrite (logs_some ys F). cbn [obind].
    destruct (std_pos 0 (map ln ys) (le_S _ _ (le_n _)) (varied_ln ys F G)) as [s [E P]].
    destruct (median_some (map ln ys)) as [v Ev]; [destruct ys; [easy|discriminate]|].
    apply (Fin [exp v; s]); [reflexivity|now rewrite E, Ev|split; [apply exp_pos|exact P]].
  - destruct (std_pos 1 ys (le_n _) G) as [s [E P]].
    apply (Fin [m; sqrt 3 * s / sqrt PI]); [reflexivity|now rewrite EM, E|].
    cbn. pos.
  - destruct (std_pos 0 ys (le_S _ _ (le_n _)) G) as [s [E P]].
    apply (Fin [m; sqrt 6 * s / PI]); [reflexivity|now rewrite EM, E|].
    cbn. pos.
  - destruct (std_pos 0 ys (le_S _ _ (le_n _)) G) as [s [E P]].
    apply (Fin [m + 5772157 / 10000000 * (sqrt 6 * s / PI); sqrt 6 * s / PI]);
      [reflexivity|now rewrite EM, E|].
    cbn. pos.
  - destruct (std_pos 0 ys (le_S _ _ (le_n _)) G) as [s [E P]].
    assert (Hm : 0 < m) by (apply (Pos _ (fun _ K => K) F)).
    assert (Hs := sqrt_lt_R0 m Hm).
    apply (Fin [m; s / sqrt m]); [reflexivity| |].
    + rewrite EM, E. cbn [obind]. rewrite npsqrt_some by lra. cbn [obind]. now rewrite npdiv_some by lra.
    + cbn. split; [exact Hm|pos].
  - apply (Fin [m]); [reflexivity|now rewrite EM|].
    cbn. destruct G as [a [Ia Na]]. apply (mean_gt 0 ys a F Ia Na).
  - destruct gamlss.
    + apply (Fin [(m + y) / 2; 1 / 10; 0; 1 / 2]); [reflexivity|now rewrite EM|]. cbn. lra.
    + destruct (HJ eq_refl eq_refl) as [A B]. destruct (fit_jsu ys) as [[[a b] loc] scale].
      apply (Fin [loc; scale; a; b]); [reflexivity|reflexivity|]. cbn in *. lra.
  - apply (Fin [m; 1]); [reflexivity|now rewrite EM|].
    cbn. split; [|lra]. apply (Pos _ (fun _ K => K) F).
  - destruct (std_pos 1 ys (le_n _) G) as [s [E P]].
    assert (Hm : 0 < m) by (apply (Pos _ (fun _ K => K) F)).
    assert (Hs := sqrt_lt_R0 m Hm).
    apply (Fin [m; s / sqrt m]); [reflexivity| |].
    + rewrite EM, E. cbn [obind]. rewrite npsqrt_some by lra. cbn [obind]. now rewrite npdiv_some by lra.
    + cbn. split; [exact Hm|pos].
  - apply (Fin [m; 1 / 2]); [reflexivity|now rewrite EM|].
    cbn. split; [|lra]. split; [apply (Pos _ (fun _ K => proj1 K) F)|apply (Lt1 _ (fun _ K => proj2 K) F)].
  - destruct (HT eq_refl) as [A B]. destruct (fit_t ys) as [[df loc] scale].
    apply (Fin [loc; scale; df]); [reflexivity|reflexivity|]. cbn in *. lra.
  - apply (Fin [m; 1 / 2; 5; 5]); [reflexivity|now rewrite EM|].
    destruct G as [[a [Ia Na]] [b [Ib Nb]]].
    cbn. split; [|lra]. split; [|lra]. split.
    + apply (mean_gt 0 ys a); [|assumption|assumption]. eapply List.Forall_impl; [|exact F]. cbn. intros; lra.
    + apply (mean_lt 1 ys b); [|assumption|assumption]. eapply List.Forall_impl; [|exact F]. cbn. intros; lra.
  - apply (Fin [m; 1 / 2; m]); [reflexivity|now rewrite EM|].
    destruct G as [a [Ia Na]].
    assert (0 < m).
    { apply (mean_gt 0 ys a); [|assumption|assumption]. eapply List.Forall_impl; [|exact F]. cbn. intros; lra. }
    cbn. split; [|lra]. split; [|lra]. split; [assumption|apply (Lt1 _ (fun _ K => proj2 K) F)].
  - apply (Fin [m; 1; 1 / 2]); [reflexivity|now rewrite EM|].
    destruct G as [a [Ia Na]]. cbn. split; [|lra]. split; [|lra]. apply (mean_gt 0 ys a F Ia Na).
Qed.

(** Constant samples. *)
Lemma total_repeat c n : total (repeat c n) = c * INR n.
Proof.
  induction n; [cbn; ring|]. cbn [repeat total fold_right]. fold (total (repeat c n)).
  rewrite IHn, S_INR. ring.
Qed.

Lemma std_const ddof c n : (ddof < n)%nat -> np_std ddof (repeat c n) = Some 0.
Proof.
  intros H. unfold np_std, np_var.
  assert (Hn : 0 < INR n) by (apply lt_0_INR; lia).
  rewrite mean_some by (destruct n; [lia|discriminate]). cbn [obind].
  rewrite repeat_length, total_repeat.
  destruct (Nat.leb_spec n ddof); [lia|].
  replace (c * INR n / INR n) with c by (field; lra).
  replace (map (fun x => (x - c) ^ 2) (repeat c n)) with (repeat 0 n).
  - rewrite total_repeat.
    assert (0 < INR (n - ddof)) by (apply lt_0_INR; lia).
    rewrite npdiv_some by lra. cbn [obind].
    rewrite npsqrt_some by (unfold Rdiv; rewrite !Rmult_0_l; lra).
    unfold Rdiv. rewrite !Rmult_0_l. now rewrite sqrt_0.
  - clear H Hn H0. induction n; [reflexivity|]. cbn [repeat map]. rewrite <- IHn. f_equal. ring.
Qed.

Lemma C69_constant_lemma fit_t fit_jsu gamlss d c n y :
  In d [Normal; Logistic; Gumbel; ReverseGumbel] -> (2 <= n)%nat ->
  exists a, initial_values fit_t fit_jsu gamlss d (repeat c n) y = [a; Some 0].
Proof.
  intros Hd Hn. pose proof (std_const 1 c n ltac:(lia)) as E1. pose proof (std_const 0 c n ltac:(lia)) as E0.
  cbn [In] in Hd. destruct Hd as [<- | [<- | [<- | [<- | []]]]]; cbn [initial_values]; cbv zeta;
    rewrite ?E1, ?E0; cbn [omap]; eexists; try reflexivity;
    unfold Rdiv; rewrite ?Rmult_0_r, ?Rmult_0_l; reflexivity.
Qed.

(** ReverseGumbel: the location estimate is shifted the wrong way. *)
Lemma C69_reverse_gumbel_lemma fit_t fit_jsu gamlss ys y mu sigma :
  0 < sigma ->
  np_mean ys = Some (mu + 5772157 / 10000000 * sigma) ->
  np_std 0 ys = Some (PI * sigma / sqrt 6) ->
  initial_values fit_t fit_jsu gamlss ReverseGumbel ys y =
    [Some (mu + 2 * (5772157 / 10000000) * sigma); Some sigma].
Proof.
  intros Hs Em Es. cbn [initial_values]. cbv zeta. rewrite Em, Es. cbn [omap obind].
  assert (0 < sqrt 6) by (apply sqrt_lt_R0; lra). pose proof PI_RGT_0.
  replace (sqrt 6 * (PI * sigma / sqrt 6) / PI) with sigma by (field; split; lra).
  f_equal. f_equal. ring.
Qed.

(** Logistic: the scale estimate is too large by the factor sqrt(pi). *)
Lemma C69_logistic_lemma fit_t fit_jsu gamlss ys y mu sigma :
  0 < sigma ->
  np_mean ys = Some mu -> np_std 1 ys = Some (PI * sigma / sqrt 3) ->
  initial_values fit_t fit_jsu gamlss Logistic ys y = [Some mu; Some (sqrt PI * sigma)].
Proof.
  intros Hs Em Es. cbn [initial_values]. rewrite Em, Es. cbn [omap obind].
  assert (0 < sqrt 3) by (apply sqrt_lt_R0; lra). pose proof PI_RGT_0.
  assert (0 < sqrt PI) by (now apply sqrt_lt_R0).
  do 3 f_equal. rewrite <- (sqrt_sqrt PI) at 1 by lra. field. split; lra.
Qed.
