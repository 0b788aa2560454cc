(** Lemmas on estimation method objects. *)
From Coq Require Import Reals List Bool Arith Lia String.
From Verif Require Import Base Lin M_OLS M_CD M_Path M_Ridge M_Factory S_Factory.
Import ListNotations.
Open Scope nat_scope.

Lemma put_length h a o : List.length (put h a o) = List.length h.
Proof. revert a; induction h as [|x h IH]; intros [|a]; simpl; auto. Qed.

Lemma put_same h a o : a < List.length h -> nth_error (put h a o) a = Some o.
Proof. revert a; induction h as [|x h IH]; intros [|a] H; simpl in *; try lia; auto. apply IH; lia. Qed.

Lemma put_other h a b o : a <> b -> nth_error (put h a o) b = nth_error h b.
Proof. revert a b; induction h as [|x h IH]; intros [|a] [|b] H; simpl; try reflexivity; try lia. apply IH; lia. Qed.

Lemma put_est_length l i e : List.length (put_est l i e) = List.length l.
Proof. revert i; induction l as [|x h IH]; intros [|a]; simpl; auto. Qed.

Lemma put_est_same l i e : i < List.length l -> nth_error (put_est l i e) i = Some e.
Proof. revert i; induction l as [|x h IH]; intros [|a] H; simpl in *; try lia; auto. apply IH; lia. Qed.

Lemma put_est_other l i j e : i <> j -> nth_error (put_est l i e) j = nth_error l j.
Proof. revert i j; induction l as [|x h IH]; intros [|a] [|b] H; simpl; try reflexivity; try lia. apply IH; lia. Qed.

Section Factory.
Variable inv : nat -> mat -> option mat.

(** Calls on [own] change only the objects at these addresses. *)
Lemma run_calls_length own cs : forall h h' rs,
  run_calls inv own h cs = (h', rs) -> List.length h' = List.length h.
Proof.
  induction cs as [|[p c] cs IH]; intros h h' rs H; simpl in H.
  - now inversion H.
  - destruct (nth_error own p) as [a|]; [destruct (nth_error h a) as [o|] eqn:E|].
    + destruct (invoke inv o c) as [o' r]. destruct (run_calls inv own (put h a o') cs) as [h2 r2] eqn:E2.
      inversion H; subst. rewrite (IH _ _ _ E2). apply put_length.
    + destruct (run_calls inv own h cs) as [h2 r2] eqn:E2. inversion H; subst. eauto.
    + destruct (run_calls inv own h cs) as [h2 r2] eqn:E2. inversion H; subst. eauto.
Qed.

Lemma run_calls_frame own cs : forall h h' rs b,
  run_calls inv own h cs = (h', rs) -> ~ In b own -> nth_error h' b = nth_error h b.
Proof.
  induction cs as [|[p c] cs IH]; intros h h' rs b H N; simpl in H.
  - now inversion H.
  - destruct (nth_error own p) as [a|] eqn:Ea; [destruct (nth_error h a) as [o|] eqn:E|].
    + destruct (invoke inv o c) as [o' r]. destruct (run_calls inv own (put h a o') cs) as [h2 r2] eqn:E2.
      inversion H; subst. rewrite (IH _ _ _ b E2 N). apply put_other.
      intros ->. apply N. eapply nth_error_In; eauto.
    + destruct (run_calls inv own h cs) as [h2 r2] eqn:E2. inversion H; subst. eauto.
    + destruct (run_calls inv own h cs) as [h2 r2] eqn:E2. inversion H; subst. eauto.
Qed.

Lemma from_string_named s : from_string s = match named s with Some o => Ok o | None => Raise ValueError end.
Proof.
  unfold from_string, named. destruct (String.eqb_spec s "ols") as [->|N1]; [reflexivity|].
  destruct (String.eqb_spec s "elasticnet") as [->|N2]; [reflexivity|].
  destruct (String.eqb_spec s "lasso") as [->|N3]; reflexivity.
Qed.

(** The factory only appends. *)
Lemma get_prefix h m h1 r : get_estimation_method h m = (h1, r) ->
  exists t, h1 = h ++ t /\ (forall a, r = Ok a -> a = List.length h /\ List.length t = 1 /\
    nth_error h1 a = pristine h m).
Proof.
  unfold get_estimation_method, pristine. intros H. destruct m as [s|a|].
  - rewrite from_string_named in H. destruct (named s) as [o|] eqn:E; inversion H; subst.
    + exists [o]. split; auto. intros a Ha. inversion Ha; subst. split; [reflexivity|split; [reflexivity|]].
      rewrite nth_error_app2 by lia. now rewrite Nat.sub_diag.
    + exists []. rewrite app_nil_r. split; auto. discriminate.
  - destruct (nth_error h a) as [o|] eqn:E; inversion H; subst.
    + exists [o]. split; auto. intros b Hb. inversion Hb; subst. split; [reflexivity|split; [reflexivity|]].
      rewrite nth_error_app2 by lia. now rewrite Nat.sub_diag.
    + exists []. rewrite app_nil_r. split; auto. discriminate.
  - inversion H; subst. exists []. rewrite app_nil_r. split; auto. discriminate.
Qed.

Lemma gets_prefix ms : forall h h1 r, gets h ms = (h1, r) ->
  exists t, h1 = h ++ t /\
    (forall l, r = Ok l -> l = seq (List.length h) (List.length ms) /\ List.length t = List.length ms).
Proof.
  induction ms as [|m ms IH]; intros h h1 r H; simpl in H.
  - inversion H; subst. exists []. rewrite app_nil_r. split; auto. intros l Hl. now inversion Hl.
  - destruct (get_estimation_method h m) as [h2 [a|e]] eqn:E.
    + destruct (gets h2 ms) as [h3 r3] eqn:E3.
      destruct (get_prefix _ _ _ _ E) as (t & -> & Ht). destruct (Ht a eq_refl) as (-> & Lt & _).
      destruct (IH _ _ _ E3) as (t2 & -> & Ht2).
      destruct r3 as [l|e3]; inversion H; subst; exists (t ++ t2); rewrite app_assoc; (split; [reflexivity|]).
      * intros l' Hl. inversion Hl; subst. destruct (Ht2 l eq_refl) as (-> & L2).
        rewrite !app_length in *. rewrite Lt, L2. simpl. split; [|lia]. f_equal. f_equal. lia.
      * discriminate.
    + inversion H; subst. destruct (get_prefix _ _ _ _ E) as (t & -> & _). exists t. split; auto. discriminate.
Qed.

(** Whether and what the factory makes depends on the arguments' objects only. *)
Definition same_user (h0 h : heap) : Prop := forall a, a < List.length h0 -> nth_error h a = nth_error h0 a.

Lemma pristine_same h0 h m : same_user h0 h -> (forall a, m = MRef a -> a < List.length h0) ->
  pristine h m = pristine h0 m.
Proof. intros S U. destruct m as [s|a|]; simpl; auto. Qed.

Lemma gets_pristine h0 ms : user_refs h0 ms -> forall h h1 r,
  List.length h0 <= List.length h -> same_user h0 h -> gets h ms = (h1, r) ->
  match r with
  | Ok l => (forall p m, nth_error ms p = Some m ->
       nth_error h1 (List.length h + p) = pristine h0 m /\ pristine h0 m <> None)
  | Raise e => e = ValueError /\ exists p m, nth_error ms p = Some m /\ pristine h0 m = None
  end.
Proof.
  induction ms as [|m ms IH]; intros U h h1 r Le S H; simpl in H.
  - inversion H; subst. intros [|p] m Hm; discriminate.
  - assert (Um : forall a, m = MRef a -> a < List.length h0) by (intros a ->; apply U; now left).
    assert (Us : user_refs h0 ms) by (intros a Ha; apply U; now right).
    destruct (get_estimation_method h m) as [h2 [a|e]] eqn:E.
    + destruct (gets h2 ms) as [h3 r3] eqn:E3.
      destruct (get_prefix _ _ _ _ E) as (t & E2 & Ht). destruct (Ht a eq_refl) as (Ea & Lt & Pa).
      assert (L2 : List.length h2 = List.length h + 1) by (rewrite E2, app_length; lia).
      assert (S2 : same_user h0 h2).
      { intros b Hb. rewrite E2, nth_error_app1 by lia. now apply S. }
      specialize (IH Us h2 h3 r3 ltac:(lia) S2 E3).
      destruct (gets_prefix _ _ _ _ E3) as (t3 & E3' & _).
      destruct r3 as [l|e3]; inversion H; subst r h1.
      * intros [|p] m' Hm; simpl in Hm.
        { inversion Hm; subst m'. rewrite <- (pristine_same h0 h m S Um), <- Pa.
          rewrite Nat.add_0_r, <- Ea. rewrite E3', nth_error_app1 by lia. split; auto.
          apply nth_error_Some. lia. }
        { destruct (IH p m' Hm) as [I1 I2]. split; auto. rewrite <- I1. f_equal. lia. }
      * destruct IH as (-> & p & m' & Hp & Hm). split; [reflexivity|]. exists (Datatypes.S p), m'. auto.
    + inversion H; subst. assert (K : e = ValueError /\ pristine h m = None).
      { unfold get_estimation_method in E. unfold pristine. destruct m as [s|a|].
        * rewrite from_string_named in E. destruct (named s); [discriminate|]. now injection E as <- <-.
        * pose proof (Um a eq_refl) as La. destruct (nth_error h a) eqn:Ea; [discriminate|]. apply nth_error_None in Ea. lia.
        * now injection E as <- <-. }
      destruct K as [-> K]. split; [reflexivity|]. exists 0, m. split; auto. rewrite <- (pristine_same h0 h m S Um). exact K.
Qed.

(** Invariant: every estimator owns its own objects, none of them the user's. *)
Definition inv_world (n0 : nat) (w : world) : Prop :=
  (forall i e own, nth_error (w_ests w) i = Some e -> e_own e = Some own ->
     NoDup own /\ (forall a, In a own -> n0 <= a < List.length (w_heap w))) /\
  (forall i j e f own own' a, i <> j -> nth_error (w_ests w) i = Some e -> nth_error (w_ests w) j = Some f ->
     e_own e = Some own -> e_own f = Some own' -> In a own -> In a own' -> False).

Lemma step_inv n0 w ev w' rs : n0 <= List.length (w_heap w) -> inv_world n0 w -> step inv w ev = (w', rs) ->
  inv_world n0 w' /\ n0 <= List.length (w_heap w') /\
  (forall a, a < n0 -> nth_error (w_heap w') a = nth_error (w_heap w) a).
Proof.
  intros Le [I1 I2] H. destruct ev as [args|i cs|i cs]; simpl in H.
  - inversion H; subst; clear H. simpl. split; [|split; auto]. split; simpl.
    + intros j e own Hj Ho. destruct (lt_dec j (List.length (w_ests w))) as [L|L].
      * rewrite nth_error_app1 in Hj by lia. eauto.
      * rewrite nth_error_app2 in Hj by lia. destruct (j - List.length (w_ests w)) as [|[|k]]; simpl in Hj; try discriminate.
        inversion Hj; subst. discriminate.
    + intros j k e f own own' a N Hj Hk Ho Ho'.
      destruct (lt_dec j (List.length (w_ests w))) as [L|L].
      * rewrite nth_error_app1 in Hj by lia. destruct (lt_dec k (List.length (w_ests w))) as [L'|L'].
        { rewrite nth_error_app1 in Hk by lia. eauto. }
        { rewrite nth_error_app2 in Hk by lia. destruct (k - List.length (w_ests w)) as [|[|q]]; simpl in Hk; try discriminate.
          inversion Hk; subst. discriminate. }
      * rewrite nth_error_app2 in Hj by lia. destruct (j - List.length (w_ests w)) as [|[|q]]; simpl in Hj; try discriminate.
        inversion Hj; subst. discriminate.
  - destruct (nth_error (w_ests w) i) as [e|] eqn:Ei; [|inversion H; subst; split; [split|]; auto].
    destruct (gets (w_heap w) (e_args e)) as [h1 [own|ex]] eqn:Eg.
    + destruct (run_calls inv own h1 cs) as [h2 r2] eqn:Er. inversion H; subst; clear H. simpl.
      destruct (gets_prefix _ _ _ _ Eg) as (t & -> & Ht). destruct (Ht own eq_refl) as (Eown & Lt).
      pose proof (run_calls_length _ _ _ _ _ Er) as L2. rewrite app_length in L2.
      assert (Li : i < List.length (w_ests w)) by (apply nth_error_Some; congruence).
      split; [split|split; [lia|]]; simpl.
      * intros j f own' Hj Ho. destruct (Nat.eq_dec i j) as [<-|N].
        { rewrite put_est_same in Hj by auto. inversion Hj; subst f. simpl in Ho. inversion Ho; subst own'.
          rewrite Eown. split; [apply seq_NoDup|]. intros a Ha. apply in_seq in Ha. lia. }
        { rewrite put_est_other in Hj by auto. destruct (I1 _ _ _ Hj Ho) as [D B]. split; auto.
          intros a Ha. specialize (B a Ha). lia. }
      * intros j k f g o1 o2 a N Hj Hk Ho1 Ho2 A1 A2.
        destruct (Nat.eq_dec i j) as [<-|Nj].
        { rewrite put_est_same in Hj by auto. inversion Hj; subst f. simpl in Ho1. inversion Ho1; subst o1.
          rewrite put_est_other in Hk by auto. destruct (I1 _ _ _ Hk Ho2) as [_ B]. specialize (B a A2).
          rewrite Eown in A1. apply in_seq in A1. lia. }
        { rewrite put_est_other in Hj by auto. destruct (Nat.eq_dec i k) as [<-|Nk].
          { rewrite put_est_same in Hk by auto. inversion Hk; subst g. simpl in Ho2. inversion Ho2; subst o2.
            destruct (I1 _ _ _ Hj Ho1) as [_ B]. specialize (B a A1).
            rewrite Eown in A2. apply in_seq in A2. lia. }
          { rewrite put_est_other in Hk by auto. exact (I2 _ _ _ _ _ _ _ N Hj Hk Ho1 Ho2 A1 A2). } }
      * intros a Ha. rewrite (run_calls_frame _ _ _ _ _ a Er).
        { apply nth_error_app1. lia. }
        { rewrite Eown. intros A. apply in_seq in A. lia. }
    + inversion H; subst; clear H. destruct (gets_prefix _ _ _ _ Eg) as (t & -> & _). simpl.
      split; [split|split]; simpl.
      * intros j f own' Hj Ho. destruct (I1 _ _ _ Hj Ho) as [D B]. split; auto.
        intros a Ha. specialize (B a Ha). rewrite app_length. lia.
      * exact I2.
      * rewrite app_length. lia.
      * intros a Ha. apply nth_error_app1. lia.
  - destruct (nth_error (w_ests w) i) as [e|] eqn:Ei; [|inversion H; subst; split; [split|]; auto].
    destruct (e_own e) as [own|] eqn:Eo; [|inversion H; subst; split; [split|]; auto].
    destruct (run_calls inv own (w_heap w) cs) as [h2 r2] eqn:Er. inversion H; subst; clear H. simpl.
    pose proof (run_calls_length _ _ _ _ _ Er) as L2.
    split; [split|split]; simpl.
    + intros j f own' Hj Ho. rewrite L2. eauto.
    + exact I2.
    + lia.
    + intros a Ha. apply (run_calls_frame _ _ _ _ _ a Er).
      intros A. destruct (I1 _ _ _ Ei Eo) as [_ B]. specialize (B a A). lia.
Qed.

Lemma start_inv h0 : inv_world (List.length h0) (start h0).
Proof. split; simpl; intros; destruct i; discriminate. Qed.

Lemma steps_inv n0 evs : forall w, n0 <= List.length (w_heap w) -> inv_world n0 w ->
  inv_world n0 (steps inv w evs) /\ n0 <= List.length (w_heap (steps inv w evs)) /\
  (forall a, a < n0 -> nth_error (w_heap (steps inv w evs)) a = nth_error (w_heap w) a).
Proof.
  induction evs as [|ev evs IH]; intros w L I; simpl; auto.
  destruct (step inv w ev) as [w' rs] eqn:E. destruct (step_inv _ _ _ _ _ L I E) as (I' & L' & F). simpl.
  destruct (IH w' L' I') as (I2 & L2 & F2). split; [exact I2|split; [exact L2|]].
  intros a Ha. rewrite F2; auto.
Qed.

Lemma steps_app w evs1 evs2 : steps inv w (evs1 ++ evs2) = steps inv (steps inv w evs1) evs2.
Proof. revert w; induction evs1; intros w; simpl; auto. Qed.

(** The user's objects are never changed. *)
Lemma C66_user_lemma h0 evs a : a < List.length h0 ->
  nth_error (w_heap (steps inv (start h0) evs)) a = nth_error h0 a.
Proof. intros H. apply (steps_inv (List.length h0) evs (start h0)); simpl; auto. apply start_inv. Qed.

(** Calls on the objects [seq n k] of a heap: parameter by parameter. *)
Lemma run_calls_split own : NoDup own -> forall cs h h' rs p a o,
  run_calls inv own h cs = (h', rs) -> nth_error own p = Some a -> nth_error h a = Some o ->
  results_for p cs rs = snd (invokes inv o (calls_for p cs)) /\
  nth_error h' a = Some (fst (invokes inv o (calls_for p cs))).
Proof.
  intros ND. induction cs as [|[q c] cs IH]; intros h h' rs p a o H Hp Ha; cbn [run_calls] in H.
  - inversion H; subst. simpl. auto.
  - assert (La : a < List.length h) by (apply nth_error_Some; congruence).
    destruct (Nat.eq_dec q p) as [->|N].
    + rewrite Hp, Ha in H. unfold results_for, calls_for. simpl. 
      destruct (invoke inv o c) as [o' r] eqn:Ei.
      destruct (run_calls inv own (put h a o') cs) as [h2 r2] eqn:E2. inversion H; subst; clear H.
      destruct (IH _ _ _ p a o' E2 Hp (put_same _ _ _ La)) as [R1 R2].
      simpl. rewrite Nat.eqb_refl. simpl. rewrite Ei.
      fold (calls_for p cs). fold (results_for p cs r2).
      rewrite R1. destruct (invokes inv o' (calls_for p cs)) as [o2 rs2]. simpl in *. auto.
    + assert (Eb : Nat.eqb q p = false) by now apply Nat.eqb_neq.
      assert (X : forall x rest, results_for p ((q, c) :: cs) (x :: rest) = results_for p cs rest).
      { intros x rest. unfold results_for. simpl. now rewrite Eb. }
      assert (Y : calls_for p ((q, c) :: cs) = calls_for p cs).
      { unfold calls_for. simpl. now rewrite Eb. }
      destruct (nth_error own q) as [b|] eqn:Hq; [destruct (nth_error h b) as [ob|] eqn:E|].
      * assert (b <> a).
        { intros ->. apply N. apply (proj1 (NoDup_nth_error own) ND); [apply nth_error_Some; congruence|congruence]. }
        destruct (invoke inv ob c) as [o' r] eqn:Ei.
        destruct (run_calls inv own (put h b o') cs) as [h2 r2] eqn:E2. inversion H; subst; clear H.
        rewrite X, Y. apply (IH _ _ _ p a o E2 Hp). rewrite put_other; auto.
      * destruct (run_calls inv own h cs) as [h2 r2] eqn:E2. inversion H; subst; clear H.
        rewrite X, Y. apply (IH _ _ _ p a o E2 Hp Ha).
      * destruct (run_calls inv own h cs) as [h2 r2] eqn:E2. inversion H; subst; clear H.
        rewrite X, Y. apply (IH _ _ _ p a o E2 Hp Ha).
Qed.

(** The [i]-th estimator keeps its arguments. *)
Lemma step_args w ev w' rs i e : step inv w ev = (w', rs) -> nth_error (w_ests w) i = Some e ->
  exists e', nth_error (w_ests w') i = Some e' /\ e_args e' = e_args e.
Proof.
  intros H Hi. assert (Li : i < List.length (w_ests w)) by (apply nth_error_Some; congruence).
  destruct ev as [args|j cs|j cs]; simpl in H.
  - inversion H; subst. exists e. split; auto. simpl. rewrite nth_error_app1; auto.
  - destruct (nth_error (w_ests w) j) as [f|] eqn:Ej; [|inversion H; subst; eauto].
    destruct (gets (w_heap w) (e_args f)) as [h1 [own|ex]]; [|inversion H; subst; eauto].
    destruct (run_calls inv own h1 cs) as [h2 r2]. inversion H; subst. simpl.
    destruct (Nat.eq_dec j i) as [->|N].
    + rewrite put_est_same by auto. eexists; split; [reflexivity|]. simpl. congruence.
    + rewrite put_est_other by auto. eauto.
  - destruct (nth_error (w_ests w) j) as [f|] eqn:Ej; [|inversion H; subst; eauto].
    destruct (e_own f); [|inversion H; subst; eauto].
    destruct (run_calls inv l (w_heap w) cs) as [h2 r2]. inversion H; subst. eauto.
Qed.

(** A fit after any history: the calls for each parameter act as on a pristine object. *)
Lemma C66_fit_lemma h0 evs i e cs w' rs :
  nth_error (w_ests (steps inv (start h0) evs)) i = Some e ->
  user_refs h0 (e_args e) ->
  step inv (steps inv (start h0) evs) (EFit i cs) = (w', rs) ->
  ((forall m, In m (e_args e) -> pristine h0 m <> None) ->
     exists own, nth_error (w_ests w') i = Some (mk_est (e_args e) (Some own)) /\
     forall p m o, nth_error (e_args e) p = Some m -> pristine h0 m = Some o ->
       results_for p cs rs = snd (invokes inv o (calls_for p cs)) /\
       exists a, nth_error own p = Some a /\
                 nth_error (w_heap w') a = Some (fst (invokes inv o (calls_for p cs)))) /\
  (forall m, In m (e_args e) -> pristine h0 m = None -> rs = [Raise ValueError] /\ w_ests w' = w_ests (steps inv (start h0) evs)).
Proof.
  intros Hi U H. set (w := steps inv (start h0) evs) in *.
  destruct (steps_inv (List.length h0) evs (start h0) ltac:(simpl; auto) (start_inv h0)) as (I & L & F).
  fold w in I, L, F. simpl in F.
  simpl in H. rewrite Hi in H.
  assert (Li : i < List.length (w_ests w)) by (apply nth_error_Some; congruence).
  destruct (gets (w_heap w) (e_args e)) as [h1 [own|ex]] eqn:Eg.
  - pose proof (gets_pristine h0 _ U _ _ _ L F Eg) as G. simpl in G.
    destruct (run_calls inv own h1 cs) as [h2 r2] eqn:Er. inversion H; subst; clear H. simpl.
    destruct (gets_prefix _ _ _ _ Eg) as (t & E1 & Ht). destruct (Ht own eq_refl) as (Eown & Lt).
    split.
    + intros _. exists own. split; [now apply put_est_same|].
      intros p m o Hp Ho.
      assert (Lp : p < List.length (e_args e)) by (apply nth_error_Some; congruence).
      assert (Hq : nth_error own p = Some (List.length (w_heap w) + p)).
      { rewrite Eown. rewrite (nth_error_nth' _ 0) by (rewrite seq_length; lia). rewrite seq_nth by lia. reflexivity. }
      destruct (G p m Hp) as [G1 _]. rewrite Ho in G1.
      destruct (run_calls_split own ltac:(rewrite Eown; apply seq_NoDup) cs h1 h2 rs p _ o Er Hq G1) as [R1 R2].
      split; [exact R1|]. eauto.
    + intros m Hm Hn. exfalso. apply In_nth_error in Hm. destruct Hm as [p Hp].
      destruct (G p m Hp) as [_ G2]. contradiction.
  - pose proof (gets_pristine h0 _ U _ _ _ L F Eg) as G. simpl in G. inversion H; subst; clear H.
    destruct G as (-> & p & m & Hp & Hm). split; [|intros; split; reflexivity]. intros A. apply nth_error_In in Hp.
    exfalso. exact (A m Hp Hm).
Qed.

(** Events of other estimators do not touch the objects of estimator [i]. *)
Lemma step_other n0 w ev w' rs i e own : n0 <= List.length (w_heap w) -> inv_world n0 w ->
  step inv w ev = (w', rs) -> of_other i ev ->
  nth_error (w_ests w) i = Some e -> e_own e = Some own ->
  nth_error (w_ests w') i = Some e /\
  forall a, In a own -> nth_error (w_heap w') a = nth_error (w_heap w) a.
Proof.
  intros L [I1 I2] H N Hi Ho. assert (Li : i < List.length (w_ests w)) by (apply nth_error_Some; congruence).
  destruct (I1 _ _ _ Hi Ho) as [_ B].
  destruct ev as [args|j cs|j cs]; simpl in H, N.
  - inversion H; subst. simpl. rewrite nth_error_app1; auto.
  - destruct (nth_error (w_ests w) j) as [f|] eqn:Ej; [|inversion H; subst; auto].
    destruct (gets (w_heap w) (e_args f)) as [h1 [ownf|ex]] eqn:Eg.
    + destruct (run_calls inv ownf h1 cs) as [h2 r2] eqn:Er. inversion H; subst. simpl.
      rewrite put_est_other by auto. split; auto. intros a Ha. specialize (B a Ha).
      destruct (gets_prefix _ _ _ _ Eg) as (t & -> & Ht). destruct (Ht ownf eq_refl) as (Eown & _).
      rewrite (run_calls_frame _ _ _ _ _ a Er).
      * apply nth_error_app1. lia.
      * rewrite Eown. intros A. apply in_seq in A. lia.
    + inversion H; subst. simpl. split; auto. intros a Ha. specialize (B a Ha).
      destruct (gets_prefix _ _ _ _ Eg) as (t & -> & _). apply nth_error_app1. lia.
  - destruct (nth_error (w_ests w) j) as [f|] eqn:Ej; [|inversion H; subst; auto].
    destruct (e_own f) as [ownf|] eqn:Eo; [|inversion H; subst; auto].
    destruct (run_calls inv ownf (w_heap w) cs) as [h2 r2] eqn:Er. inversion H; subst. simpl. split; auto.
    intros a Ha. apply (run_calls_frame _ _ _ _ _ a Er). intros A.
    exact (I2 _ _ _ _ _ _ _ N Ej Hi Eo Ho A Ha).
Qed.

Lemma steps_other n0 evs : forall w i e own, n0 <= List.length (w_heap w) -> inv_world n0 w ->
  Forall (of_other i) evs -> nth_error (w_ests w) i = Some e -> e_own e = Some own ->
  nth_error (w_ests (steps inv w evs)) i = Some e /\
  forall a, In a own -> nth_error (w_heap (steps inv w evs)) a = nth_error (w_heap w) a.
Proof.
  induction evs as [|ev evs IH]; intros w i e own L I N Hi Ho; simpl; auto.
  inversion N; subst. destruct (step inv w ev) as [w' rs] eqn:E. simpl.
  destruct (step_inv _ _ _ _ _ L I E) as (I' & L' & _).
  destruct (step_other _ _ _ _ _ _ _ _ L I E H1 Hi Ho) as [Hi' Ha].
  destruct (IH w' i e own L' I' H2 Hi' Ho) as [A B]. split; auto.
  intros a Hin. rewrite (B a Hin). auto.
Qed.

(** The results of calls depend on the owned objects only. *)
Lemma run_calls_same own cs : forall h h' , (forall a, In a own -> nth_error h' a = nth_error h a) ->
  snd (run_calls inv own h' cs) = snd (run_calls inv own h cs).
Proof.
  induction cs as [|[p c] cs IH]; intros h h' H; simpl; auto.
  destruct (nth_error own p) as [a|] eqn:Ep.
  - assert (Ia : In a own) by (eapply nth_error_In; eauto). rewrite (H a Ia).
    destruct (nth_error h a) as [o|] eqn:E.
    + destruct (invoke inv o c) as [o' r].
      specialize (IH (put h a o') (put h' a o')).
      destruct (run_calls inv own (put h' a o') cs) as [h1 r1], (run_calls inv own (put h a o') cs) as [h2 r2].
      simpl in *. f_equal. apply IH. intros b Hb. destruct (Nat.eq_dec a b) as [<-|Nb].
      * rewrite !put_same; auto; apply nth_error_Some; [rewrite E|rewrite (H a Ia), E]; discriminate.
      * rewrite !put_other by auto. auto.
    + specialize (IH h h' H). destruct (run_calls inv own h' cs), (run_calls inv own h cs). simpl in *. congruence.
  - specialize (IH h h' H). destruct (run_calls inv own h' cs), (run_calls inv own h cs). simpl in *. congruence.
Qed.

(** What an update returns does not depend on what was done with other estimators. *)
Lemma C66_other_lemma h0 evs evs' i e own cs :
  nth_error (w_ests (steps inv (start h0) evs)) i = Some e -> e_own e = Some own ->
  Forall (of_other i) evs' ->
  snd (step inv (steps inv (start h0) (evs ++ evs')) (EUpdate i cs)) =
  snd (step inv (steps inv (start h0) evs) (EUpdate i cs)).
Proof.
  intros Hi Ho N. rewrite steps_app. set (w := steps inv (start h0) evs) in *.
  destruct (steps_inv (List.length h0) evs (start h0) ltac:(simpl; auto) (start_inv h0)) as (I & L & _).
  fold w in I, L.
  destruct (steps_other _ evs' w i e own L I N Hi Ho) as [A B].
  simpl. rewrite A, Hi, Ho.
  pose proof (run_calls_same own cs (w_heap w) (w_heap (steps inv w evs')) B) as C.
  destruct (run_calls inv own (w_heap (steps inv w evs')) cs), (run_calls inv own (w_heap w) cs). simpl in *. auto.
Qed.

End Factory.

(** The attributes after a call which returns, as in [M_Path] and [M_Ridge]. *)
Lemma en_filled_ok c perm J x y isreg c' P :
  fit_beta_path c perm J x y isreg = Ok (c', P) -> c' = en_filled c J.
Proof.
  unfold fit_beta_path, bind, set_and_validate_bounds. intros H.
  destruct (negb _); [discriminate|]. destruct (negb _); [discriminate|].
  destruct (get_lambda_max J x y isreg); [|discriminate].
  destruct (geomspace _ _ _); [|discriminate].
  destruct (online_coordinate_descent_path _ _ _ _ _ _ _ _ _); [|discriminate].
  now inversion H.
Qed.

Lemma ridge_filled_ok inv c perm J x y isreg c' b :
  ridge_fit inv c perm J x y isreg = Ok (c', b) -> c' = ridge_filled c J x.
Proof.
  unfold ridge_fit, bind, ridge_filled, ridge_bounds. intros H.
  destruct (negb _); [discriminate|]. destruct (negb _); [discriminate|].
  destruct (online_coordinate_descent _ _ _ _ _ _); [|discriminate].
  now inversion H.
Qed.

(** What a method object keeps of its first fit when it is used directly. *)
Lemma C66_memory_lemma inv :
  (forall e perm J x y isreg o out, invoke inv (OEn e) (CFitPath perm J x y isreg) = (o, Ok out) ->
     forall perm' J' x' y' isreg', J' <> J -> snd (invoke inv o (CFitPath perm' J' x' y' isreg')) = Raise ValueError) /\
  (forall r perm J x y isreg o out, invoke inv (ORidge r) (CFitBeta perm J x y isreg) = (o, Ok out) ->
     forall perm' J' x' y' isreg',
     (J' <> J -> snd (invoke inv o (CFitBeta perm' J' x' y' isreg')) = Raise ValueError) /\
     (J' = J -> snd (invoke inv o (CFitBeta perm' J' x' y' isreg')) =
        snd (invoke inv (ORidge (with_penalty r (match ri_lambda r with Some l => l | None => mtrace J x / INR J end)))
               (CFitBeta perm' J' x' y' isreg')))).
Proof.
  split.
  - intros e perm J x y isreg o out H perm' J' x' y' isreg' HJ. cbn in H. injection H as <- H. cbn [invoke snd].
    unfold fit_beta_path, set_and_validate_bounds in *. cbn [en_filled en_lower en_upper fill_bound] in *.
    destruct (Nat.eqb (List.length (fill_bound (en_lower e) J)) J) eqn:E; [|discriminate]. apply Nat.eqb_eq in E. rewrite E.
    replace (Nat.eqb J J') with false by (symmetry; apply Nat.eqb_neq; congruence). reflexivity.
  - intros r perm J x y isreg o out H perm' J' x' y' isreg'. cbn in H. injection H as <- H. cbn [invoke snd].
    unfold ridge_fit, ridge_filled, ridge_bounds in *. cbn [ri_lower ri_upper fill_bound ri_lambda ri_start ri_random ri_tol ri_maxit with_penalty] in *.
    destruct (Nat.eqb (List.length (fill_bound (ri_lower r) J)) J) eqn:E; [|discriminate].
    destruct (Nat.eqb (List.length (fill_bound (ri_upper r) J)) J) eqn:E'; [|discriminate].
    split; intros HJ.
    + apply Nat.eqb_eq in E. rewrite E. replace (Nat.eqb J J') with false by (symmetry; apply Nat.eqb_neq; congruence). reflexivity.
    + subst J'. rewrite E, E'. cbn [negb bind]. unfold ridge_lambda. cbn [ri_lambda]. reflexivity.
Qed.
