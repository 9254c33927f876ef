(** NSGA-III's association of solutions to reference directions (NSGAIII_select.py:221-236, 244-256) in double precision; M_NSGA3 has it over the reals. Arithmetic and sums as in M_RefDouble (binary64, to
    nearest even, every operation rounded, sums in an arbitrary order); overflow is not followed; comparisons and argmin are exact. Simplification: one order for all rows of an array. *)
From Coq Require Import Reals.
From Flocq Require Import Core.
From Verif Require Import Base RVec M_NSGA3 M_Double M_RefDouble M_NbDouble M_APDDouble.
Open Scope R_scope.

(** Lines 224-230, one individual: utopian_epsilon is 0.0, so the utopian point is the ideal; denom 0 becomes the double nearest to 1e-12. *)
Definition denom_fl (ideal nadir : list R) : list R := map (fun d => if Req_EM_T d 0 then fl (1 / 1000000000000) else d) (map fl (vsub nadir ideal)).
Definition normalise_fl (ideal nadir f : list R) : list R := vmap2 (fun d x => fl (x / d)) (denom_fl ideal nadir) (map fl (vsub f ideal)).
(** Lines 248-251: norm of the direction, np.sum(v * u) / norm, that times u divided by the norm. *)
Definition projection_fl (t1 t2 : order) (v u : list R) : list R :=
  let m := magnitude_fl t1 u in let p := fl (dot_fl t2 v u / m) in map (fun x => fl (fl (p * x) / m)) u.
(** Line 252: the norm of the differences. *)
Definition perp_fl (t1 t2 t3 : order) (v u : list R) : R :=
  let r := projection_fl t1 t2 v u in fl (sqrt (sum_fl t3 (fun i => fl (fl (nth i r 0 - nth i v 0) * fl (nth i r 0 - nth i v 0))))).
(** Line 233. *)
Definition niche_of_fl (t1 t2 t3 : order) (dirs : list (list R)) (v : list R) : nat := match argmin (map (perp_fl t1 t2 t3 v) dirs) with Some k => k | None => O end.
(** Line 234. *)
Definition niche_dist_fl (t1 t2 t3 : order) (dirs : list (list R)) (v : list R) : R := perp_fl t1 t2 t3 v (nth (niche_of_fl t1 t2 t3 dirs v) dirs []).
