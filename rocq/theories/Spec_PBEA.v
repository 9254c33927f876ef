(** Specification vocabulary: Pareto dominance over real vectors, all components minimised. *)
From Verif Require Import Base.
From Coq Require Import Reals.
Open Scope R_scope.
Definition rdominates (a b : list R) : Prop :=
  Forall2 Rle a b /\ exists i x y, nth_error a i = Some x /\ nth_error b i = Some y /\ x < y.
