(** Specifications for the link functions: ranges and derivatives. *)
From Coq Require Import Reals List.
From Coquelicot Require Import Coquelicot.
From Verif Require Import Base M_Links.
Import ListNotations.
Open Scope R_scope.

(** Range of parameter values on which the link is not clipped. *)
Definition regular_value (l : link) (x : R) : Prop :=
  match l with
  | Identity => True
  | Log => SMALL <= x <= LARGE
  | LogShiftValue v => v <= x /\ x + SMALL <= v + LARGE
  | LogIdent => SMALL <= x
  | Logit => 0 < x < 1 /\ SMALL * (1 - x) <= x <= LARGE * (1 - x)
  | Sqrt => 0 <= x
  | SqrtShiftValue v => v <= x
  | InverseSoftPlus => SMALL <= x
  | InverseSoftPlusShiftValue v => v + SMALL <= x
  end.

(** The error of the round trip through the link. *)
Definition round_trip_error (l : link) : R :=
  match l with
  | LogShiftValue _ | SqrtShiftValue _ => / 10 ^ 10
  | _ => 0
  end.

(** Range of predictors on which the inverse is not clipped. *)
Definition regular_predictor (l : link) (e : R) : Prop :=
  match l with
  | Identity => True
  | Log | Logit | LogShiftValue _ => ln SMALL <= e <= ln LARGE
  | LogIdent => ln SMALL <= e
  | Sqrt | SqrtShiftValue _ => 0 <= e
  | InverseSoftPlus | InverseSoftPlusShiftValue _ =>
      ln (exp SMALL - 1) <= e <= ln (exp 40 - 1) \/ 40 < e
  end.

(** The open range into which [inverse] must map. *)
Definition link_range (l : link) (x : R) : Prop :=
  match l with
  | Identity => True
  | Log | LogIdent | InverseSoftPlus => 0 < x
  | LogShiftValue v | InverseSoftPlusShiftValue v => v < x
  | Logit => 0 < x < 1
  | Sqrt => 0 <= x
  | SqrtShiftValue v => v <= x
  end.

(** [f], which may return non-finite values, is finite around [x] and has
    derivative [d] there. *)
Definition has_derivative (f : R -> option R) (x d : R) : Prop :=
  exists g : R -> R, locally x (fun y => f y = Some (g y)) /\ is_derive g x d.

(** Second derivative. *)
Definition has_derivative2 (f : R -> option R) (x d : R) : Prop :=
  exists g : R -> R, locally x (fun y => has_derivative f y (g y)) /\ is_derive g x d.

(** Points at which the first derivative of the link is claimed. *)
Definition d1_range (l : link) (x : R) : Prop :=
  match l with
  | Identity => True
  | Log => SMALL < x
  | LogShiftValue v => v < x
  | Logit => 0 < x < 1 /\ SMALL * (1 - x) < x
  | Sqrt => 0 < x
  | SqrtShiftValue v => v <= x
  | InverseSoftPlusShiftValue v => v + SMALL < x < v + 40 /\ / 10 ^ 8 < 1 - exp (v - x)
  | LogIdent | InverseSoftPlus => False
  end.

(** Points at which the second derivative of the link is claimed. *)
Definition d2_range (l : link) (x : R) : Prop :=
  match l with
  | Identity => True
  | Log => SMALL < x
  | LogShiftValue v => v < x
  | Logit => 0 < x < 1 /\ SMALL * (1 - x) < x
  | Sqrt => 0 < x
  | SqrtShiftValue v => v <= x
  | InverseSoftPlus => SMALL < x < 40 /\ / 10 ^ 8 < 2 * cosh x - 2
  | InverseSoftPlusShiftValue v => v + SMALL < x < v + 40 /\ / 10 ^ 8 < 2 * cosh (x - v) - 2
  | LogIdent => False
  end.

(** Predictors at which the derivative of the inverse is claimed. *)
Definition dinv_range (l : link) (e : R) : Prop :=
  match l with
  | Identity | LogIdent | Sqrt | SqrtShiftValue _ => True
  | Log | LogShiftValue _ | Logit => e < ln LARGE
  | InverseSoftPlus | InverseSoftPlusShiftValue _ => - ln LARGE <= e < 40
  end.

(** Membership in a support (closed interval with possibly infinite ends). *)
Definition above (b : bound) (x : R) : Prop :=
  match b with NegInf => True | Fin r => r <= x | PosInf => False end.
Definition below (b : bound) (x : R) : Prop :=
  match b with NegInf => False | Fin r => x <= r | PosInf => True end.
Definition in_support (s : support) (x : R) : Prop := above (fst s) x /\ below (snd s) x.
Definition contained (s t : support) : Prop := forall x, in_support s x -> in_support t x.
