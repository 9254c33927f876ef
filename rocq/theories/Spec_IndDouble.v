(** Specification vocabulary for C123: indicator fitness from scratch, over the reals, and greedy removal up to a tolerance. *)
From Coq Require Import Reals.
From Verif Require Import Base RVec Spec_Indicator.
Open Scope R_scope.

Section Spec.
Context {M : Type} (ex : M -> M -> R).
(** Minus the sum of the exponentials of a member against the others. *)
Definition scratch (m : M) (others : list M) : R := - rsum (map (ex m) others).
(** Greedy removal up to [tol]: as long as there are too many members, one goes whose from-scratch fitness exceeds nobody's by more than [tol]. *)
Inductive trims_upto (tol : R) (pop_size : nat) : list M -> list M -> Prop :=
| tu_done pop : (length pop <= pop_size)%nat -> trims_upto tol pop_size pop pop
| tu_step pop k w pop' : (pop_size < length pop)%nat -> nth_error pop k = Some w ->
    (forall i m, nth_error pop i = Some m -> scratch w (without k pop) <= scratch m (without i pop) + tol) ->
    trims_upto tol pop_size (without k pop) pop' -> trims_upto tol pop_size pop pop'.
(** [bound] bounds every member's sum of exponentials against the others. *)
Definition sums_within (bound : R) (pop : list M) : Prop :=
  forall i m, nth_error pop i = Some m -> rsum (map (ex m) (without i pop)) <= bound.
End Spec.
