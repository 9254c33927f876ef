(** The normalisation and adaptation of reference vectors, and the cosines of their angles, in double precision (ReferenceVectors.py:243-273); M_RefVec has them over the reals.
    Arithmetic as in M_Double (binary64, to nearest even, gradual underflow); the only overflow followed is the one of the norm. *)
From Coq Require Import Reals.
From Flocq Require Import Core.
From Verif Require Import Base RVec M_RefVec M_Double.
Open Scope R_scope.

(** The order in which numpy (or BLAS) adds the entries 0 .. n-1 of a row: any tree with these leaves. *)
Inductive order := Leaf (i : nat) | Node (l r : order).
Fixpoint leaves (t : order) : list nat := match t with Leaf i => [i] | Node l r => leaves l ++ leaves r end.
Fixpoint sum_fl (t : order) (f : nat -> R) : R := match t with Leaf i => f i | Node l r => fl (sum_fl l f + sum_fl r f) end.

(** np.linalg.norm(values, axis=1) of one row: sqrt(add.reduce(x * x)). [None]: infinity, when the squares or their sum exceed the largest double (all terms being non-negative, some partial sum is infinite
    exactly if the sum computed without bound on the exponent is above 2^1024). *)
Definition norm_fl (t : order) (v : list R) : option R :=
  let s := sum_fl t (fun i => fl (nth i v 0 * nth i v 0)) in
  if Rlt_dec s (bpow radix2 1024) then Some (fl (sqrt s)) else None.
(** ReferenceVectors.py:248-249 for one row: a zero norm is replaced by np.finfo(float).eps = 2^-52; finite / infinity = 0. *)
Definition unit_row_fl (t : order) (v : list R) : list R :=
  match norm_fl t v with
  | None => map (fun _ => 0) v
  | Some q => let q := if Req_EM_T q 0 then bpow radix2 (-52) else q in map (fun x => fl (x / q)) v
  end.

(** ReferenceVectors.py:269-273: initial_values * (max_val - min_val), then normalised; [fitness] has at least one row. *)
Definition ranges_fl (fitness : list (list R)) : list R := map fl (vsub (colmaxR fitness) (colminR fitness)).
Definition adapt_fl (t : order) (init : list (list R)) (fitness : list (list R)) : list (list R) :=
  map (fun v => unit_row_fl t (map fl (vmap2 Rmult v (ranges_fl fitness)))) init.

(** ReferenceVectors.py:254-258: np.dot(values, values.T) (products and sums rounded one by one, no fused multiply-add), sorted, clipped, arccos. *)
Definition dot_fl (t : order) (v w : list R) : R := sum_fl t (fun i => fl (nth i v 0 * nth i w 0)).
Definition neighbouring_angle_fl (t : order) (vs : list (list R)) (v : list R) : option R :=
  option_map (fun x => fl (acos (clip1 x))) (second_largest (map (dot_fl t v) vs)).
