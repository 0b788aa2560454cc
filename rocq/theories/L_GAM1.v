(** Lemmas about the loops of the distributional regression: what they leave unchanged. *)
From Coq Require Import Reals List Bool Arith ZArith Lra Lia.
From Verif Require Import Base Lin Data M_Gram M_OLS M_Scaler M_Utils M_Links M_State M_LM M_Equation M_GAMLSS.
Import ListNotations.
Open Scope R_scope.

(** [m] does not change the part [f] of the state, whether it raises or not. *)
Definition keeps {S A B} (f : S -> B) (m : st S A) : Prop := forall s, f (fst (m s)) = f s.

Lemma keeps_bnd {S A B C} (f : S -> C) (m : st S A) (k : A -> st S B) :
  keeps f m -> (forall a, keeps f (k a)) -> keeps f (bnd m k).
Proof.
  intros H1 H2 s. unfold bnd. specialize (H1 s). destruct (m s) as [s1 [a|x]]; cbn in *; [|exact H1].
  now rewrite H2.
Qed.
Lemma keeps_ret {S A B} (f : S -> B) (a : A) : keeps f (ret a).
Proof. intros s. reflexivity. Qed.
Lemma keeps_raise {S A B} (f : S -> B) x : keeps f (@raise S A x).
Proof. intros s. reflexivity. Qed.
Lemma keeps_lift {S A B} (f : S -> B) (r : res A) : keeps f (lift r).
Proof. intros s. reflexivity. Qed.
Lemma keeps_write {S B} (f : S -> B) g : (forall s, f (g s) = f s) -> keeps f (write g).
Proof. intros H s. exact (H s). Qed.
Lemma keeps_get {M A B} (f : work M -> B) (g : work M -> option A) : keeps f (get g).
Proof. intros s. unfold get. destruct (g s); reflexivity. Qed.
Lemma keeps_peek {M A B} (f : work M -> B) (g : work M -> A) : keeps f (peek g).
Proof. intros s. reflexivity. Qed.
Lemma keeps_read_iter {M B} (f : work M -> B) i : keeps f (read_iter i).
Proof. intros s. unfold read_iter. destruct (nth_error _ _); reflexivity. Qed.
Lemma keeps_read {S A B} (f : S -> B) (g : S -> option A) : keeps f (read g).
Proof. intros s. unfold read. destruct (g s); reflexivity. Qed.
Lemma keeps_read_step {M B} (f : work M -> B) (e : env M) i j p : keeps f (read_step e i j p).
Proof. unfold read_step. destruct (_ && _); [apply keeps_peek|apply keeps_raise]. Qed.

Ltac keep_step :=
  first
    [ apply keeps_bnd; [|intros ?] | apply keeps_ret | apply keeps_raise | apply keeps_lift
    | apply keeps_get | apply keeps_peek | apply keeps_read_iter | apply keeps_read_step | apply keeps_read
    | apply keeps_write; intros ?; cbn; (reflexivity || (match goal with |- context [if ?b then _ else _] => destruct b end; reflexivity))
    | match goal with
      | |- keeps _ (match ?x with _ => _ end) => destruct x
      | |- keeps _ (let '(_, _) := ?x in _) => destruct x
      | |- keeps _ (if ?x then _ else _) => destruct x
      end ].
Ltac keep := repeat keep_step.

Section Frames.
Context {M : Type} (ops : method_ops M) (e : env M).

(** The attributes that an inner fit does not touch before it stores its result. *)
Definition loop_frame (s : work M) :=
  (w_fv s, w_x s, w_y s, w_rss s, w_msd s, (w_coef s, w_path s, w_sum s, w_mean s, w_iter s),
   (w_itinner s, w_min s, w_xn s, w_yn s, w_sumn s, w_meann s, w_rss_old s, w_msd_old s)).

Lemma put_dbg_frame k v dv : keeps loop_frame (put_dbg e k v dv).
Proof. apply keeps_write. intros s. destruct (o_debug _); reflexivity. Qed.
Lemma put_dbg_coef_frame k v path : keeps loop_frame (put_dbg_coef e k v path).
Proof. apply keeps_write. intros s. destruct (o_debug _); reflexivity. Qed.

Lemma fit_candidate_frame p io it step dvo fv path :
  keeps loop_frame (fit_candidate ops e p io it step dvo fv path).
Proof.
  unfold fit_candidate, set_wmethod.
  repeat first [apply put_dbg_frame | apply put_dbg_coef_frame | keep_step].
Qed.
Lemma inner_fit_loop_frame p io n k : forall it fv dvs cnt path,
  keeps loop_frame (inner_fit_loop ops e p io n k it fv dvs cnt path).
Proof.
  induction k as [|k IH]; intros; cbn [inner_fit_loop]; [apply keeps_raise|].
  unfold set_step.
  repeat first [apply fit_candidate_frame | apply IH | keep_step].
Qed.
Lemma update_candidate_frame g p io it fv : keeps loop_frame (update_candidate ops e g p io it fv).
Proof.
  unfold update_candidate, set_wmethod.
  repeat first [apply put_dbg_frame | apply put_dbg_coef_frame | keep_step].
Qed.
Lemma inner_update_loop_frame g p io k : forall it fv dvs cnt,
  keeps loop_frame (inner_update_loop ops e g p io k it fv dvs cnt).
Proof.
  induction k as [|k IH]; intros; cbn [inner_update_loop]; [apply keeps_raise|].
  unfold set_step.
  repeat first [apply update_candidate_frame | apply IH | keep_step].
Qed.

(** Schedules of the outer loop. *)
Definition plan (s : work M) := (w_iter s, w_min s).
Lemma keeps_sub {A B C} (f : work M -> B) (g : B -> C) (m : st (work M) A) :
  keeps f m -> keeps (fun s => g (f s)) m.
Proof. intros H s. now rewrite (H s). Qed.

Lemma inner_fit_loop_plan p io n k it fv dvs cnt path :
  keeps plan (inner_fit_loop ops e p io n k it fv dvs cnt path).
Proof.
  intros s. pose proof (inner_fit_loop_frame p io n k it fv dvs cnt path s) as H.
  unfold loop_frame in H. unfold plan. congruence.
Qed.
Lemma inner_fit_plan p io : keeps plan (inner_fit ops e p io).
Proof.
  unfold inner_fit, store_fit, set_itinner.
  repeat first [apply inner_fit_loop_plan | keep_step].
Qed.
Lemma fit_cycle_plan ps : forall io dev, keeps plan (fit_cycle ops e ps io dev).
Proof.
  induction ps as [|p ps IH]; intros; cbn [fit_cycle]; [apply keeps_ret|].
  repeat first [apply inner_fit_plan | apply IH | keep_step].
Qed.
Lemma inner_update_loop_plan g p io k it fv dvs cnt :
  keeps plan (inner_update_loop ops e g p io k it fv dvs cnt).
Proof.
  intros s. pose proof (inner_update_loop_frame g p io k it fv dvs cnt s) as H.
  unfold loop_frame in H. unfold plan. congruence.
Qed.
Lemma inner_update_plan g p io : keeps plan (inner_update ops e g p io).
Proof.
  unfold inner_update, store_update.
  repeat first [apply inner_update_loop_plan | keep_step].
Qed.
Lemma update_cycle_plan g ps : forall io dev, keeps plan (update_cycle ops e g ps io dev).
Proof.
  induction ps as [|p ps IH]; intros; cbn [update_cycle]; [apply keeps_ret|].
  repeat first [apply inner_update_plan | apply IH | keep_step].
Qed.
End Frames.
