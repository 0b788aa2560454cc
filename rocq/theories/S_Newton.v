(** Specifications for the inner iterations of the distributional regression: the
    log-likelihood as a function of the coefficients of one distribution parameter. *)
From Coq Require Import Reals List.
From Coquelicot Require Import Coquelicot.
From Verif Require Import Base Lin M_Links S_Links M_DistTable M_Dist S_Dist.
Import ListNotations.
Open Scope R_scope.

(** Discounted sum (newest last) of values that may not be finite. *)
Fixpoint opt_dsum {A} (g : R) (f : A -> option R) (l : list A) : option R :=
  match l with
  | [] => Some 0
  | o :: t => match f o, opt_dsum g f t with
              | Some a, Some s => Some (g ^ length t * a + s)
              | _, _ => None
              end
  end.

(** Weighted log-likelihood of the observations [ys] with covariates [X], where parameter
    [p] has the coefficients [b] and link [l], and the others have their values in [fv]. *)
Definition loglik (lgam : R -> R) (D : dist) (l : link) (p : nat) (g : R) (k : nat) (X fv : list vec) (wts ys : list R)
    (b : vec) : option R :=
  opt_dsum g (fun i => option_map (Rmult (nth i wts 0))
    (logpdf lgam D (nth i ys 0) (upd (nth i fv (fun _ => 0)) p (link_inv l (dot k (nth i X (fun _ => 0)) b)))))
    (seq 0 (length ys)).

(** The point [b + t * v]. *)
Definition along (b v : vec) (t : R) : vec := fun j => b j + t * v j.
(** [f] has slope [s] at [b] in direction [v]. *)
Definition slope (f : vec -> option R) (b v : vec) (s : R) : Prop := has_derivative (fun t => f (along b v t)) 0 s.

(** The values of parameter [p] in [fv] come from the coefficients [b] (inside the range
    where the link is not cut off); values and observations are admissible. *)
Definition from_coefs (D : dist) (l : link) (p k : nat) (X fv : list vec) (ys : list R) (b : vec) : Prop :=
  forall i, (i < length ys)%nat ->
    let th := nth i fv (fun _ => 0) in let eta := dot k (nth i X (fun _ => 0)) b in
    valid_theta D th /\ y_support D (nth i ys 0) /\ th p = link_inv l eta /\ link_fun l (th p) = Some eta /\ dinv_range l eta.
