(** Specifications for the distribution functions of the mixed families: what the
    model assumes about scipy's continuous distributions, quantile functions and
    jumps. *)
From Coq Require Import Reals.
From Verif Require Import Base.
Open Scope R_scope.

(** [Q] gives the smallest point at which [F] reaches [q], among the points that
    satisfy [P]. *)
Definition quantile_function (P : R -> Prop) (F : R -> R) (Q : R -> option R) : Prop :=
  forall q, 0 < q < 1 ->
    exists x, Q q = Some x /\ forall y, P y -> (x <= y <-> q <= F y).

Definition nondecreasing (F : R -> R) : Prop := forall x y, x <= y -> F x <= F y.

(** The jump of [F] at [x]: its value there minus its limit from the left. *)
Definition jump (F : R -> R) (x m : R) : Prop :=
  forall eps, 0 < eps -> exists delta, 0 < delta /\
    forall y, x - delta < y < x -> Rabs (F x - F y - m) < eps.

(** A continuous distribution on (0,1), such as scipy's beta. *)
Record law_on_unit (F : R -> R) (Q : R -> option R) : Prop := {
  lu_mono : nondecreasing F;
  lu_low : forall y, y <= 0 -> F y = 0;
  lu_high : forall y, 1 <= y -> F y = 1;
  lu_below : forall y, y < 1 -> F y < 1;
  lu_left : jump F 1 0;
  lu_quantile : quantile_function (fun _ => True) F Q
}.

(** A continuous distribution on (0,oo), such as scipy's gamma. *)
Record law_on_positive (F : R -> R) (Q : R -> option R) : Prop := {
  lp_mono : nondecreasing F;
  lp_low : forall y, y <= 0 -> F y = 0;
  lp_high : forall y, F y < 1;
  lp_quantile : quantile_function (fun _ => True) F Q
}.

(** A continuous distribution on the real line, such as scipy's norm. *)
Record law_on_line (F : R -> R) (Q : R -> option R) : Prop := {
  ll_mono : nondecreasing F;
  ll_low : forall y, 0 < F y;
  ll_high : forall y, F y < 1;
  ll_quantile : quantile_function (fun _ => True) F Q
}.

(** scipy's beta density and log density belong together: [bpdf a b y] is positive
    inside (0,1) and its logarithm is the documented log density. *)
Definition beta_density (lgam : R -> R) (bpdf : R -> R -> R -> R) : Prop :=
  forall a b y, 0 < a -> 0 < b -> 0 < y < 1 ->
    0 < bpdf a b y /\
    ln (bpdf a b y) = (a - 1) * ln y + (b - 1) * ln (1 - y) - (lgam a + lgam b - lgam (a + b)).

(** The mixed families. *)
Definition strictly_inside (f l : option R) : Prop :=
  exists v, f = Some v /\ 0 < v /\ l = Some (ln v).
