(** Preferred ranges in double precision: ReferenceVectors.py:418-445 (interactive_adapt_4); M_RefVec has it over the reals. Arithmetic and sums as in M_RefDouble; the unit-cube sample of pyDOE.lhs, one row per current vector,
    is an argument; overflow of differences and products is not followed. *)
From Coq Require Import Reals.
From Flocq Require Import Core.
From Verif Require Import Base RVec M_RefVec M_Double M_RefDouble.
Open Scope R_scope.
(** Line 440: w * (upper_limits - lower_limits) + lower_limits, the arithmetic of CreateIndividuals.py:46. *)
Definition range_samples_fl (lo hi : list R) (w : list (list R)) : list (list R) := map (fun row => scale_row_fl row lo hi) w.
(** Lines 443-445 ([values]). *)
Definition adapt_ranges_fl (t : order) (lo hi : list R) (w : list (list R)) : list (list R) := map (unit_row_fl t) (range_samples_fl lo hi w).
