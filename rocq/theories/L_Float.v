(** Comparisons of floats; coordinate descent in floating point. *)
From Coq Require Import ZArith Reals List Bool Arith Lia Lra Permutation.
From Flocq Require Import Core BinarySingleNaN.
From Verif Require Import Base M_CD M_Float.
Import ListNotations.

(** ** Comparisons *)
Lemma compare_none (a b : float) : Bcompare a b = None -> is_nan a = true \/ is_nan b = true.
Proof.
  destruct a as [sa|sa| |sa ma ea Ha], b as [sb|sb| |sb mb eb Hb]; cbn; auto; try discriminate.
  all: repeat match goal with |- context [if ?x then _ else _] => destruct x end; try discriminate.
  all: repeat match goal with |- context [match ?x with _ => _ end] => destruct x end; discriminate.
Qed.
Lemma compare_refl (a : float) : is_nan a = false -> Bcompare a a = Some Eq.
Proof.
  intros H. pose proof (Beqb_refl 53 1024 a) as E. unfold Beqb, SpecFloat.SFeqb in E.
  rewrite H in E. unfold Bcompare. destruct (SpecFloat.SFcompare _ _) as [[]|]; try discriminate. reflexivity.
Qed.
Lemma fle_refl a : is_nan a = false -> fle a a = true.
Proof.
  intros H. unfold fle, Bleb, SpecFloat.SFleb. pose proof (compare_refl a H) as E. unfold Bcompare in E. rewrite E. reflexivity.
Qed.
Lemma not_flt a b : is_nan a = false -> is_nan b = false -> flt a b = false -> fle b a = true.
Proof.
  intros Ha Hb. unfold flt, fle, Bltb, Bleb, SpecFloat.SFltb, SpecFloat.SFleb.
  pose proof (Bcompare_swap 53 1024 a b) as S. pose proof (compare_none a b) as N. unfold Bcompare in *.
  rewrite S. destruct (SpecFloat.SFcompare (B2SF a) (B2SF b)) as [[]|]; cbn; try discriminate; auto.
  destruct (N eq_refl); congruence.
Qed.
Lemma fle_nan a b : fle a b = true -> is_nan a = false /\ is_nan b = false.
Proof.
  unfold fle, Bleb, SpecFloat.SFleb. destruct a, b; cbn; auto; discriminate.
Qed.
Lemma flt_nan a b : flt a b = true -> is_nan a = false /\ is_nan b = false.
Proof.
  unfold flt, Bltb, SpecFloat.SFltb. destruct a, b; cbn; auto; discriminate.
Qed.

Definition within (lo up v : float) : Prop := is_nan v = true \/ (fle lo v = true /\ fle v up = true).

Lemma clip_within lo up v : fle lo up = true -> within lo up (pymin (pymax v lo) up).
Proof.
  intros H. destruct (fle_nan _ _ H) as [Hl Hu]. unfold within, pymin, pymax.
  destruct (flt v lo) eqn:E1.
  - destruct (flt up lo) eqn:E2; right.
    + split; [auto|apply fle_refl; auto].
    + split; [apply fle_refl; auto|auto].
  - destruct (is_nan v) eqn:Nv.
    + destruct (flt up v) eqn:E2; [destruct (flt_nan _ _ E2); congruence|left; auto].
    + destruct (flt up v) eqn:E2; right.
      * split; [auto|apply fle_refl; auto].
      * split; [apply not_flt; auto|apply not_flt; auto].
Qed.

(** ** Coordinate descent *)
Lemma fvset_same b j v : fvset b j v j = v.
Proof. unfold fvset. rewrite Nat.eqb_refl. reflexivity. Qed.
Lemma fvset_other b j v k : k <> j -> fvset b j v k = b k.
Proof. intros H. unfold fvset. destruct (Nat.eqb_spec k j); congruence. Qed.

Lemma fvisit_cases a first b j b' : fcd_visit a first b j = Ok b' ->
  (first = false /\ feq (b j) (fint 0) = true /\ b' = b) \/
  (exists v, fcd_coord a b j = Ok v /\ b' = fvset b j v).
Proof.
  unfold fcd_visit. destruct first; cbn [orb].
  - destruct (fcd_coord a b j) as [v|]; cbn; [|discriminate]. intros [= <-]. eauto.
  - destruct (feq (b j) (fint 0)) eqn:E; cbn [negb]; [intros [= <-]; auto|].
    destruct (fcd_coord a b j) as [v|]; cbn; [|discriminate]. intros [= <-]. eauto.
Qed.
Lemma fcoord_within a b j v : fle (fc_lo a j) (fc_up a j) = true -> fcd_coord a b j = Ok v ->
  within (fc_lo a j) (fc_up a j) v.
Proof.
  intros H. unfold fcd_coord. destruct (feq _ _); [discriminate|]. intros [= <-]. apply clip_within; auto.
Qed.

Lemma fsweep_keep a first j (P : float -> Prop) : (forall b v, fcd_coord a b j = Ok v -> P v) ->
  forall JJ b b', fcd_sweep a first JJ b = Ok b' -> P (b j) -> P (b' j).
Proof.
  intros HP. induction JJ as [|i JJ IH]; cbn [fcd_sweep]; intros b b' H Hb; [injection H as <-; auto|].
  destruct (fcd_visit a first b i) as [b1|] eqn:E; cbn [bind] in H; [|discriminate].
  apply (IH b1 b' H). destruct (fvisit_cases _ _ _ _ _ E) as [(_ & _ & ->)|(v & Hv & ->)]; auto.
  destruct (Nat.eq_dec j i) as [->|Hne]; [rewrite fvset_same; eauto|rewrite fvset_other; auto].
Qed.
Lemma fsweep_visit a j (P : float -> Prop) : (forall b v, fcd_coord a b j = Ok v -> P v) ->
  forall JJ b b', In j JJ -> fcd_sweep a true JJ b = Ok b' -> P (b' j).
Proof.
  intros HP. induction JJ as [|i JJ IH]; cbn [fcd_sweep]; intros b b' Hin H; [destruct Hin|].
  destruct (fcd_visit a true b i) as [b1|] eqn:E; cbn [bind] in H; [|discriminate].
  destruct (in_dec Nat.eq_dec j JJ) as [J|J]; [eauto|].
  destruct Hin as [->|Hin]; [|contradiction].
  apply (fsweep_keep a true j P HP JJ b1 b' H).
  destruct (fvisit_cases _ _ _ _ _ E) as [(K & _)|(v & Hv & ->)]; [discriminate|]. rewrite fvset_same. eauto.
Qed.
Lemma fsweep_zero a j JJ : forall b b', feq (b j) (fint 0) = true -> fcd_sweep a false JJ b = Ok b' -> b' j = b j.
Proof.
  induction JJ as [|i JJ IH]; cbn [fcd_sweep]; intros b b' Hz H; [injection H as <-; auto|].
  destruct (fcd_visit a false b i) as [b1|] eqn:E; cbn [bind] in H; [|discriminate].
  assert (K : b1 j = b j).
  { unfold fcd_visit in E. cbn [orb] in E. destruct (feq (b i) (fint 0)) eqn:Q; cbn [negb] in E; [injection E as <-; auto|].
    destruct (fcd_coord a b i) as [v|]; cbn in E; [|discriminate]. injection E as <-. apply fvset_other. congruence. }
  rewrite (IH b1 b'); auto. rewrite K. auto.
Qed.
Lemma fsweep_raise a first JJ : forall b e, fcd_sweep a first JJ b = Raise e ->
  e = ZeroDivisionError /\ exists j, In j JJ /\ feq (fcd_den a j) (fint 0) = true.
Proof.
  induction JJ as [|i JJ IH]; cbn [fcd_sweep]; intros b e H; [discriminate|].
  destruct (fcd_visit a first b i) as [b1|x] eqn:E; cbn [bind] in H.
  - destruct (IH b1 e H) as (? & j & ? & ?). split; auto. exists j. cbn. auto.
  - injection H as ->. unfold fcd_visit in E. destruct (first || _); [|discriminate].
    unfold fcd_coord in E. destruct (feq (fcd_den a i) (fint 0)) eqn:Q; cbn in E; [|discriminate].
    injection E as <-. split; auto. exists i. cbn. auto.
Qed.
Lemma fsweep_first_raises a JJ : forall b j, In j JJ -> feq (fcd_den a j) (fint 0) = true ->
  exists e, fcd_sweep a true JJ b = Raise e.
Proof.
  induction JJ as [|i JJ IH]; cbn [fcd_sweep]; intros b j Hin Hj; [destruct Hin|].
  destruct (fcd_visit a true b i) as [b1|x] eqn:E; cbn [bind]; [|eauto].
  destruct Hin as [->|Hin]; [|eauto].
  unfold fcd_visit, fcd_coord in E. cbn [orb] in E. rewrite Hj in E. discriminate.
Qed.

(** One sweep, then either the result or a run with zeros kept. *)
Lemma floop_keeps a random perm tol maxit (P : fvec -> Prop) :
  (forall i b b', fcd_sweep a false (fcd_order a random perm i) b = Ok b' -> P b -> P b') ->
  forall fuel i b b' n, (1 <= i)%nat -> P b -> fcd_loop fuel a random perm tol maxit i b = Ok (b', n) -> P b'.
Proof.
  intros HP. induction fuel as [|fuel IH]; intros i b b' n Hi Hb H; [discriminate|].
  cbn [fcd_loop] in H. cbv zeta in H.
  replace (S i <? 2)%nat with false in H by (symmetry; apply Nat.ltb_ge; lia).
  destruct (fcd_sweep a false _ b) as [b1|] eqn:E; cbn [bind] in H; [|discriminate].
  assert (P b1) by eauto.
  destruct (fle _ _); [injection H as <- <-; auto|].
  destruct (maxit <? S i)%nat; [injection H as <- <-; auto|].
  apply (IH (S i) b1 b' n); auto.
Qed.
Lemma order_one a random perm : fcd_order a random perm 1 = seq 0 (fc_J a).
Proof. unfold fcd_order. destruct random; reflexivity. Qed.

Lemma fcd_split a random perm tol maxit b b' n :
  float_coordinate_descent a random perm tol maxit b = Ok (b', n) ->
  exists b1, fcd_sweep a true (seq 0 (fc_J a)) b = Ok b1 /\
    (b' = b1 \/ fcd_loop maxit a random perm tol maxit 1 b1 = Ok (b', n)).
Proof.
  unfold float_coordinate_descent. cbn [fcd_loop]. cbv zeta. rewrite order_one.
  change (1 <? 2)%nat with true.
  destruct (fcd_sweep a true _ b) as [b1|]; cbn [bind]; [|discriminate].
  intros H. exists b1. split; auto.
  destruct (fle _ _); [injection H as <- <-; auto|].
  destruct (maxit <? 1)%nat; [injection H as <- <-; auto|auto].
Qed.

Lemma C100_bounds_lemma a random perm tol maxit b b' n j :
  float_coordinate_descent a random perm tol maxit b = Ok (b', n) -> (j < fc_J a)%nat ->
  fle (fc_lo a j) (fc_up a j) = true ->
  is_nan (b' j) = true \/ (fle (fc_lo a j) (b' j) = true /\ fle (b' j) (fc_up a j) = true).
Proof.
  intros H Hj Hb. destruct (fcd_split _ _ _ _ _ _ _ _ H) as (b1 & E & K).
  assert (P1 : within (fc_lo a j) (fc_up a j) (b1 j)).
  { apply (fsweep_visit a j (within (fc_lo a j) (fc_up a j))) with (3 := E).
    - intros c v. apply fcoord_within; auto.
    - apply in_seq. lia. }
  destruct K as [->|K]; [exact P1|].
  refine (floop_keeps a random perm tol maxit (fun c => within (fc_lo a j) (fc_up a j) (c j)) _ maxit 1 b1 b' n (le_n 1) P1 K).
  intros i c c' Hs Hc. apply (fsweep_keep a false j (within (fc_lo a j) (fc_up a j))) with (2 := Hs); auto.
  intros d v. apply fcoord_within; auto.
Qed.

Lemma floop_term a random perm tol maxit : forall fuel i b, (i + fuel = S maxit)%nat -> (1 <= fuel)%nat ->
  match fcd_loop fuel a random perm tol maxit i b with
  | Ok (b', n) => (i < n <= maxit + 1)%nat /\
      ((n <= maxit)%nat -> exists c, fle (fmax_abs (fc_J a) (fun k => fsub (b' k) (c k))) (fmul tol (fmax_abs (fc_J a) b')) = true)
  | Raise e => e = ZeroDivisionError
  end.
Proof.
  induction fuel as [|fuel IH]; intros i b Hi Hf; [lia|]. cbn [fcd_loop]. cbv zeta.
  destruct (fcd_sweep a _ _ b) as [b1|e] eqn:E; cbn [bind].
  2:{ apply (fsweep_raise _ _ _ _ _ E). }
  destruct (fle _ _) eqn:T. { split; [lia|]. intros _. eauto. }
  destruct (maxit <? S i)%nat eqn:Mx. { apply Nat.ltb_lt in Mx. split; [lia|]. intros; lia. }
  apply Nat.ltb_ge in Mx. specialize (IH (S i) b1 ltac:(lia) ltac:(lia)).
  destruct (fcd_loop fuel a random perm tol maxit (S i) b1) as [[b' n]|]; auto. destruct IH as [I1 I2]. split; [lia|auto].
Qed.

Lemma C100_terminates_lemma a random perm tol maxit b :
  match float_coordinate_descent a random perm tol maxit b with
  | Ok (b', n) => (1 <= n <= maxit + 1)%nat
  | Raise e => e = ZeroDivisionError
  end.
Proof.
  pose proof (floop_term a random perm tol maxit (S maxit) 0 b eq_refl ltac:(lia)) as H.
  unfold float_coordinate_descent. destruct (fcd_loop _ _ _ _ _ _ _ _) as [[b' n]|]; auto. lia.
Qed.

Lemma fmaximum_nan a b : is_nan (fmaximum a b) = false -> is_nan a = false /\ is_nan b = false.
Proof.
  unfold fmaximum. destruct (is_nan a) eqn:A; [congruence|]. destruct (is_nan b) eqn:B; [congruence|auto].
Qed.
Lemma fmax_abs_nan n v : is_nan (fmax_abs n v) = false -> forall j, (j < n)%nat -> is_nan (v j) = false.
Proof.
  induction n as [|n IH]; intros H j Hj; [lia|]. cbn [fmax_abs] in H. apply fmaximum_nan in H. destruct H as [H1 H2].
  destruct (Nat.eq_dec j n) as [->|]; [|apply IH; auto; lia].
  unfold fabs in H2. rewrite is_nan_Babs in H2. exact H2.
Qed.
Lemma fmul_nan a b : is_nan (fmul a b) = false -> is_nan a = false /\ is_nan b = false.
Proof. unfold fmul. destruct a, b; cbn; auto; discriminate. Qed.

Lemma C100_no_nan_lemma a random perm tol maxit b b' n j :
  float_coordinate_descent a random perm tol maxit b = Ok (b', n) -> (n <= maxit)%nat -> (j < fc_J a)%nat ->
  is_nan (b' j) = false.
Proof.
  intros H Hn Hj. pose proof (floop_term a random perm tol maxit (S maxit) 0 b eq_refl ltac:(lia)) as T.
  unfold float_coordinate_descent in H. rewrite H in T. destruct T as [_ T]. destruct (T Hn) as (c & Hc).
  apply fle_nan in Hc. destruct Hc as [_ Hc]. apply fmul_nan in Hc. destruct Hc as [_ Hc].
  exact (fmax_abs_nan _ _ Hc j Hj).
Qed.

Lemma C100_zeros_lemma a random perm tol maxit b b1 b' n j :
  float_coordinate_descent a random perm tol 0 b = Ok (b1, 1%nat) -> (j < fc_J a)%nat ->
  feq (b1 j) (fint 0) = true ->
  float_coordinate_descent a random perm tol maxit b = Ok (b', n) -> b' j = b1 j.
Proof.
  intros H1 Hj Hz H. destruct (fcd_split _ _ _ _ _ _ _ _ H1) as (c & E & K).
  assert (c = b1). { destruct K as [->|K]; auto. discriminate. } subst c.
  destruct (fcd_split _ _ _ _ _ _ _ _ H) as (c & E' & K'). rewrite E in E'. injection E' as <-.
  destruct K' as [->|K']; auto.
  refine (floop_keeps a random perm tol maxit (fun c => c j = b1 j) _ maxit 1 b1 b' n (le_n 1) eq_refl K').
  intros i c c' Hs Hc. rewrite <- Hc. eapply fsweep_zero; [|exact Hs]. rewrite Hc. auto.
Qed.

Lemma forder_lt a random perm i j : (forall i, Permutation (perm i) (seq 0 (fc_J a))) ->
  In j (fcd_order a random perm i) -> (j < fc_J a)%nat.
Proof.
  intros Hp. unfold fcd_order. destruct (random && _); intros H.
  - apply (Permutation_in _ (Hp i)) in H. apply in_seq in H. lia.
  - apply in_seq in H. lia.
Qed.
Lemma C100_raises_lemma a random perm tol maxit b : (forall i, Permutation (perm i) (seq 0 (fc_J a))) ->
  (float_coordinate_descent a random perm tol maxit b = Raise ZeroDivisionError <->
   exists j, (j < fc_J a)%nat /\ feq (fcd_den a j) (fint 0) = true).
Proof.
  intros Hp. split.
  - unfold float_coordinate_descent. generalize (S maxit) as fuel. intros fuel. generalize 0%nat. revert b.
    induction fuel as [|fuel IH]; intros b i H; [discriminate|]. cbn [fcd_loop] in H. cbv zeta in H.
    destruct (fcd_sweep a _ _ b) as [b1|e] eqn:E; cbn [bind] in H.
    + destruct (fle _ _); [discriminate|]. destruct (maxit <? S i)%nat; [discriminate|]. eauto.
    + destruct (fsweep_raise _ _ _ _ _ E) as (_ & j & Hin & Hj). exists j. split; auto. eapply forder_lt; eauto.
  - intros (j & Hj & Hd). unfold float_coordinate_descent. cbn [fcd_loop]. cbv zeta. rewrite order_one.
    change (1 <? 2)%nat with true.
    destruct (fsweep_first_raises a (seq 0 (fc_J a)) b j) as (e & E); auto; [apply in_seq; lia|].
    rewrite E. cbn [bind]. destruct (fsweep_raise _ _ _ _ _ E) as [-> _]. reflexivity.
Qed.
