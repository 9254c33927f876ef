(** What is said about the best solutions of a run: rows that no other row of a list dominates. *)
From Verif Require Import Base Spec_Fronts.
From Coq Require Import Reals.
Open Scope nat_scope.

Section Spec.
Context {X : Type} (fit : X -> list R).
(** Position [j] of [rows] holds a row that no row of [rows] dominates. *)
Definition unbeaten (rows : list X) (j : nat) : Prop := exists x, nth_error rows j = Some x /\ forall y, In y rows -> ~ rdominates (fit y) (fit x).
(** At most [n] positions of [rows] hold such rows. *)
Definition at_most_best (n : nat) (rows : list X) : Prop := forall js, NoDup js -> (forall j, In j js -> unbeaten rows j) -> length js <= n.
End Spec.
