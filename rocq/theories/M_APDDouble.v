(** Angle penalized distance and the choice made by it (APD_Select_constraints.py:60-145) in double precision, without constraints; M_APD has it over the reals. Arithmetic and sums as in M_RefDouble:
    binary64, to nearest even, products and sums rounded one by one in an arbitrary order, no fused multiply-add. np.amin, comparisons and argmin are exact. Simplifications: one order for all rows of an array;
    arccos correctly rounded (as in M_RefDouble); the norm's overflow is followed in the normalisation only ([unit_row_fl]); failed evaluations are in M_APDnan. *)
From Coq Require Import Reals.
From Flocq Require Import Core.
From Verif Require Import Base RVec M_APD M_Double M_RefDouble.
Open Scope R_scope.

(** Line 67. *)
Definition translated_fl (ideal f : list R) : list R := map fl (vsub f ideal).
(** Lines 68-86 for one individual and one vector: the norm (0 replaced by eps: [unit_row_fl]), the quotient, np.dot, the cut to [0, 1]. [t1], [t2]: the orders of the two sums. *)
Definition cosine_fl (t1 t2 : order) (tr v : list R) : R := clip01 (dot_fl t2 (unit_row_fl t1 tr) v).
(** Lines 87, 89. *)
Definition theta_fl (t1 t2 : order) (tr v : list R) : R := fl (acos (cosine_fl t1 t2 tr v)).
Definition assigned_fl (t1 t2 : order) (vecs : list (list R)) (tr : list R) : nat :=
  match argmax (map (cosine_fl t1 t2 tr) vecs) with Some k => k | None => O end.
(** Lines 95-97. *)
Definition niche_fl (t1 t2 : order) (vecs trs : list (list R)) (k : nat) : list nat :=
  filter (fun i => Nat.eqb (assigned_fl t1 t2 vecs (row trs i)) k) (seq 0 (length trs)).
(** Lines 124-134: np.sqrt(np.sum(np.power(.., 2), axis=1)) times 1 + penalty * (theta / angle), the angle 0 having become eps (line 94). *)
Definition magnitude_fl (t3 : order) (tr : list R) : R := fl (sqrt (sum_fl t3 (fun i => fl (nth i tr 0 * nth i tr 0)))).
Definition apd_fl (t1 t2 t3 : order) (penalty : R) (vecs trs : list (list R)) (gam : list R) (k i : nat) : R :=
  fl (magnitude_fl t3 (row trs i) * fl (1 + fl (penalty * fl (theta_fl t1 t2 (row trs i) (row vecs k) / zero_eps (nth k gam 0))))).
(** Lines 117-144. *)
Definition choose_fl (t1 t2 t3 : order) (penalty : R) (vecs trs : list (list R)) (gam : list R) (k : nat) : list nat :=
  match niche_fl t1 t2 vecs trs k with
  | [] => []
  | [i] => [i]
  | sub => match argmin (map (apd_fl t1 t2 t3 penalty vecs trs gam k) sub) with Some j => [nth j sub O] | None => [] end
  end.
(** Lines 60-145. *)
Definition apd_select_fl (t1 t2 t3 : order) (penalty : R) (ideal pop_ideal : list R) (fit vecs : list (list R)) (gam : list R) : res (list R * list nat) :=
  bind (new_ideal ideal pop_ideal fit) (fun z =>
    let trs := map (translated_fl z) fit in
    Ok (z, flat_map (choose_fl t1 t2 t3 penalty vecs trs gam) (seq 0 (length vecs)))).
