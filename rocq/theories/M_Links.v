(** Model of the link functions, /repo/src/ondil/links/.
    Simplification: float64 is modelled by the reals, one array element at a
    time (every function here is element-wise).  A value [None] stands for a
    non-finite result (nan or inf) where numpy divides by zero or takes the root
    of a negative number.  Overflow and rounding of float64 are not modelled. *)
From Coq Require Import Reals List Lra Bool.
From Verif Require Import Base.
Import ListNotations.
Open Scope R_scope.

(** robust_math.py L4-7. *)
Definition SMALL : R := / 10 ^ 10.
Definition LARGE : R := 10 ^ 15.
Definition LOG_SMALL : R := ln SMALL.
Definition LOG_LARGE : R := ln LARGE.

(** robust_math.py L11-22. *)
Definition robust_log (x : R) : R := if Rltb SMALL x then ln x else LOG_SMALL.

(** robust_math.py L26-34. *)
Definition robust_exp (x : R) : R := if Rltb LOG_LARGE x then LARGE else exp x.

(** robust_math.py L48-52. *)
Definition robust_softplus (v : R) : R := if Rltb 40 v then v else ln (1 + exp v).

(** robust_math.py L56-62. *)
Definition robust_softplus_inverse (v : R) : R :=
  if Rltb 40 v then v
  else if Rltb v SMALL then - (30)
  else ln (exp v - 1).

(** [np.isclose(b, 0)] with the default tolerances: |b - 0| <= 1e-8 + 1e-5*|0|. *)
Definition isclose0 (b : R) : bool := Rleb (Rabs b) (/ 10 ^ 8).

(** robust_math.py L66-82. *)
Definition zero_safe_division (a b : R) : R :=
  if isclose0 b then LARGE else if isclose0 a then LARGE else a / b.

(** numpy division and square root; [None] is a non-finite result. *)
Definition npdiv (a b : R) : option R := if Reqb b 0 then None else Some (a / b).
Definition npsqrt (x : R) : option R := if Rltb x 0 then None else Some (sqrt x).
Definition omap {A B} (f : A -> B) (o : option A) : option B :=
  match o with Some a => Some (f a) | None => None end.
Definition obind {A B} (o : option A) (f : A -> option B) : option B :=
  match o with Some a => f a | None => None end.

(** The link classes: identitylinks.py, loglinks.py, logitlinks.py, sqrtlinks.py,
    softpluslinks.py.  LogShiftTwo (loglinks.py L70-82), SqrtShiftTwo and
    InverseSoftPlusShiftTwo (softpluslinks.py L82-89) are the shift 2. *)
Inductive link : Type :=
| Identity | Log | LogShiftValue (v : R) | LogIdent | Logit
| Sqrt | SqrtShiftValue (v : R)
| InverseSoftPlus | InverseSoftPlusShiftValue (v : R).

Definition LogShiftTwo : link := LogShiftValue 2.
Definition SqrtShiftTwo : link := SqrtShiftValue 2.
Definition InverseSoftPlusShiftTwo : link := InverseSoftPlusShiftValue 2.

(** Method [link]: identitylinks.py L18-19, loglinks.py L21-22, L54-55, L98-99,
    logitlinks.py L18-19, sqrtlinks.py L20-21, L53-54, softpluslinks.py L33-34,
    L63-67. *)
Definition link_fun (l : link) (x : R) : option R :=
  match l with
  | Identity => Some x
  | Log => Some (robust_log x)
  | LogShiftValue v => Some (robust_log (x - v + SMALL))
  | LogIdent => Some (if Rleb x 1 then robust_log x else x - 1)
  | Logit => omap robust_log (npdiv x (1 - x))
  | Sqrt => npsqrt x
  | SqrtShiftValue v => npsqrt (x - v + SMALL)
  | InverseSoftPlus => Some (robust_softplus_inverse x)
  | InverseSoftPlusShiftValue v => Some (robust_softplus_inverse (x - v))
  end.

(** Method [inverse]: identitylinks.py L21-22, loglinks.py L24-25, L57-58,
    L101-102, logitlinks.py L21-22, sqrtlinks.py L23-24, L56-57,
    softpluslinks.py L36-37, L69-70. *)
Definition link_inv (l : link) (e : R) : R :=
  match l with
  | Identity => e
  | Log => robust_exp e
  | LogShiftValue v => v + robust_exp e
  | LogIdent => if Rleb e 0 then robust_exp e else e + 1
  | Logit => robust_exp e / (robust_exp e + 1)
  | Sqrt => e ^ 2
  | SqrtShiftValue v => v + e ^ 2
  | InverseSoftPlus => robust_softplus e
  | InverseSoftPlusShiftValue v => robust_softplus e + v
  end.

(** Method [inverse_derivative]: identitylinks.py, loglinks.py L27-28, L60-61,
    L104-105, logitlinks.py L24-25, sqrtlinks.py L26-27, L59-60,
    softpluslinks.py L47-48, L72-73. *)
Definition link_inv_d (l : link) (e : R) : R :=
  match l with
  | Identity => 1
  | Log => robust_exp e
  | LogShiftValue v => robust_exp e
  | LogIdent => if Rleb e 0 then robust_exp e else 1
  | Logit => robust_exp e / (robust_exp e + 1) ^ 2
  | Sqrt => 2 * e
  | SqrtShiftValue v => 2 * e
  | InverseSoftPlus => zero_safe_division 1 (robust_exp (- e) + 1)
  | InverseSoftPlusShiftValue v => zero_safe_division 1 (robust_exp (- e) + 1)
  end.

(** Method [link_derivative]: identitylinks.py, loglinks.py L30-31, L63-64,
    L107-108 (calls the abstract method, base/link.py L25-28, which raises),
    logitlinks.py L27-28, sqrtlinks.py L29-30, L62-63, softpluslinks.py L39-40,
    L75-76. *)
Definition link_d (l : link) (x : R) : res (option R) :=
  match l with
  | Identity => Ok (Some 1)
  | Log => Ok (npdiv 1 x)
  | LogShiftValue v => Ok (npdiv 1 (x - v + SMALL))
  | LogIdent => Raise NotImplementedErr
  | Logit => Ok (npdiv 1 (x * (1 - x)))
  | Sqrt => Ok (obind (npsqrt x) (fun r => npdiv 1 (2 * r)))
  | SqrtShiftValue v => Ok (obind (npsqrt (x - v + SMALL)) (fun r => npdiv 1 (2 * r)))
  | InverseSoftPlus => Ok (Some (zero_safe_division 1 ((robust_exp x - 1) + 1)))
  | InverseSoftPlusShiftValue v =>
      Ok (Some (zero_safe_division 1 (1 - robust_exp (v - x))))
  end.

(** x ** (3 / 2): nan for negative x, 0 for x = 0. *)
Definition nppow32 (x : R) : option R :=
  if Rltb x 0 then None else if Reqb x 0 then Some 0 else Some (Rpower x (3 / 2)).

(** Method [link_second_derivative]: identitylinks.py, loglinks.py L33-34,
    L66-67, L110-111 (raises), logitlinks.py L30-31, sqrtlinks.py L32-33,
    L65-66, softpluslinks.py L42-45, L78-79. *)
Definition link_d2 (l : link) (x : R) : res (option R) :=
  match l with
  | Identity => Ok (Some 0)
  | Log => Ok (npdiv (-1) (x ^ 2))
  | LogShiftValue v => Ok (npdiv (-1) ((x - v + SMALL) ^ 2))
  | LogIdent => Raise NotImplementedErr
  | Logit => Ok (npdiv (- (1 - 2 * x)) (x ^ 2 * (1 - x) ^ 2))
  | Sqrt => Ok (obind (nppow32 x) (fun r => npdiv (-1) (4 * r)))
  | SqrtShiftValue v =>
      Ok (obind (nppow32 (x - v + SMALL)) (fun r => npdiv (-1) (4 * r)))
  | InverseSoftPlus => Ok (Some (zero_safe_division 1 (2 - 2 * cosh x)))
  | InverseSoftPlusShiftValue v =>
      Ok (Some (zero_safe_division 1 (2 - 2 * cosh (v - x))))
  end.

(** Support bounds: floats including the infinities. *)
Inductive bound : Type := NegInf | Fin (r : R) | PosInf.

Definition bound_ltb (a b : bound) : bool :=
  match a, b with
  | NegInf, NegInf => false
  | NegInf, _ => true
  | Fin _, NegInf => false
  | Fin x, Fin y => Rltb x y
  | Fin _, PosInf => true
  | PosInf, _ => false
  end.

(** np.nextafter(0, 1) and np.nextafter(1, 0). *)
Definition next0 : R := powerRZ 2 (-1074).
Definition prev1 : R := 1 - powerRZ 2 (-53).

Definition support : Type := (bound * bound)%type.
Definition whole : support := (NegInf, PosInf).
Definition positive : support := (Fin next0, PosInf).
Definition unit_open : support := (Fin next0, Fin prev1).

(** Attribute [link_support] of the link classes: identitylinks.py L13,
    logitlinks.py L13, loglinks.py L16, L51-52, L93, softpluslinks.py L28,
    L60-61, sqrtlinks.py L15, L50-51.  The sum [value + nextafter(0,1)] is taken
    exactly; float64 rounds it to [value] unless value is (nearly) 0. *)
Definition link_support (l : link) : support :=
  match l with
  | Identity => whole
  | Log | LogIdent | Sqrt | InverseSoftPlus => positive
  | Logit => unit_open
  | LogShiftValue v | SqrtShiftValue v | InverseSoftPlusShiftValue v =>
      (Fin (v + next0), PosInf)
  end.

(** base/distribution.py L67-78, one entry of [self.links.items()]. *)
Inductive warning : Type := LowerOutside (param : nat) | UpperOutside (param : nat).

Definition validate_link (param : nat) (ls ps : support) : list warning :=
  (if bound_ltb (fst ls) (fst ps) then [LowerOutside param] else []) ++
  (if bound_ltb (snd ps) (snd ls) then [UpperOutside param] else []).

(** base/distribution.py L13-15 and L67-78: the constructor; the result is the
    list of warnings, in order.  The dictionaries are given as lists of
    (parameter, support) with the same keys. *)
Fixpoint validate_links (lss : list (nat * (support * support))) : list warning :=
  match lss with
  | [] => []
  | (p, (ls, ps)) :: t => validate_link p ls ps ++ validate_links t
  end.
