(** Double precision versions of two pieces of arithmetic that the other files model over the real numbers: the scaling of initial individuals
    (CreateIndividuals.py:46, 55) and the SBX formula (SimulatedBinaryCrossover.py:66-69). IEEE 754 binary64 with rounding to nearest even, gradual underflow,
    and no overflow (the exponent is not bounded above). numpy evaluates the expressions operation by operation, without fused multiply-add. *)
From Coq Require Import Reals.
From Flocq Require Import Core.
From Verif Require Import Base.
Open Scope R_scope.

(** The numbers m * 2^e with |m| < 2^53 and e >= -1074, and rounding to the nearest of them. *)
Definition double (x : R) : Prop := generic_format radix2 (FLT_exp (-1074) 53) x.
Definition fl (x : R) : R := round radix2 (FLT_exp (-1074) 53) ZnearestE x.

(** CreateIndividuals.py:46 / 55, one gene: individuals * (upper - lower) + lower. *)
Definition scale_gene_fl (s l u : R) : R := fl (fl (s * fl (u - l)) + l).
Fixpoint scale_row_fl (ss lbs ubs : list R) : list R :=
  match ss, lbs, ubs with
  | s :: ss', l :: lbs', u :: ubs' => scale_gene_fl s l u :: scale_row_fl ss' lbs' ubs'
  | _, _, _ => []
  end.
(** CreateIndividuals.py:41-57. *)
Definition scaled_design_fl (pop_size n_vars : nat) (samples : nat -> nat -> R) (lbs ubs : list R) : res (list (list R)) :=
  if Nat.eqb (length lbs) n_vars && Nat.eqb (length ubs) n_vars
  then Ok (map (fun i => scale_row_fl (map (samples i) (seq 0 n_vars)) lbs ubs) (seq 0 pop_size))
  else Err ValueError.

(** numpy's random(): k * 2^-53 with an integer 0 <= k < 2^53 (external). *)
Definition np_random (x : R) : Prop := exists k : Z, (0 <= k < 2 ^ 53)%Z /\ x = IZR k / IZR (2 ^ 53).

(** pyDOE.lhs (external), one coordinate of the sample in the stratum from [a] to [b]: u * (b - a) + a. *)
Definition lhs_point (u a b : R) : R := fl (fl (u * fl (b - a)) + a).

(** SimulatedBinaryCrossover.py:66-69, one gene; division by 2 is exact except for the smallest numbers. *)
Definition sbx_pair_fl (beta x y : R) : R * R :=
  let avg := fl (fl (x + y) / 2) in
  let diff := fl (fl (x - y) / 2) in
  (fl (avg + fl (beta * diff)), fl (avg - fl (beta * diff))).
