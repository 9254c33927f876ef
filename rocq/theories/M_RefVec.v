(** Model of desdeo_emo/utilities/ReferenceVectors.py 13-112 (rotations), 117-241 (creation; the lattice itself is M_Lattice.v) and
    243-483 (normalisation, adaptation, edge vectors) and of the callers SelectionBase.py 102-104, 259-301. Arrays are lists of rows of reals. Not modelled: rounding.
    A division by zero in the planar normalisation (line 250, rows summing to 0) gives NaN in numpy and an unspecified real here. *)
From Verif Require Import Base RVec M_APD M_BaseEA M_Lattice.
From Coq Require Import Reals.
Open Scope R_scope.

Record rv := mkRV {
  values : list (list R); planar : list (list R);             (* values, values_planar *)
  init_values : list (list R); init_planar : list (list R);
  n_obj : nat; n_vec : nat }.                                  (* number_of_objectives, number_of_vectors *)

(** ReferenceVectors.py:243-250. *)
Definition unit_row (v : list R) : list R := map (fun x => x / zero_eps (norm v)) v.
Definition planar_row (v : list R) : list R := map (fun x => x / rsum v) v.
Definition normalize_rv (s : rv) : rv :=
  mkRV (map unit_row (values s)) (map planar_row (planar s)) (init_values s) (init_planar s) (n_obj s) (length (values s)).

Definition set_rows (s : rv) (v p : list (list R)) : rv := mkRV v p (init_values s) (init_planar s) (n_obj s) (n_vec s).

(** np.amax / np.amin(fitness, axis=0). *)
Definition colmaxR (rows : list (list R)) : list R := match rows with [] => [] | r :: t => fold_left (vmap2 Rmax) t r end.
Definition colminR (rows : list (list R)) : list R := match rows with [] => [] | r :: t => fold_left (vmap2 Rmin) t r end.

(** ReferenceVectors.py:262-273; [np.amax] of an empty array raises ValueError. *)
Definition adapt (s : rv) (fitness : list (list R)) : res rv :=
  match fitness with
  | [] => Err ValueError
  | _ => Ok (normalize_rv (set_rows s (map (fun v => vmap2 Rmult v (vsub (colmaxR fitness) (colminR fitness))) (init_values s)) (planar s)))
  end.

(** [t * rows + (1 - t) * z] *)
Definition shifted (t : R) (z : list R) (rows : list (list R)) : list (list R) := map (fun v => vadd (vscale t v) (vscale (1 - t) z)) rows.

(** ReferenceVectors.py:275-325. One preferred solution and several give the same formula; with none, np.concatenate([]) (line 322)
    raises ValueError. *)
Definition interactive_adapt_1 (s : rv) (z : list (list R)) (n_solutions : nat) : res rv :=
  if Nat.eqb (length z) n_solutions
  then Ok (normalize_rv (set_rows s (init_values s) (init_planar s)))
  else if Nat.eqb (length z) 0 then Err ValueError
  else Ok (normalize_rv (set_rows s (flat_map (fun zi => shifted (2/10) zi (init_values s)) z)
                                (flat_map (fun zi => shifted (2/10) zi (init_planar s)) z))).

(** ReferenceVectors.py:327-391. *)
Definition norm1 (v : list R) : R := rsum (map Rabs v).
Definition far_enough (d : R) (zs : list (list R)) (v : list R) : bool :=
  forallb (fun z => if Rle_dec d (norm (vsub (map (fun x => x / norm1 z) z) v)) then true else false) zs.
(** numpy boolean indexing: the mask must have one entry per row. *)
Definition masked {A} (mask : list bool) (rows : list A) : res (list A) :=
  if Nat.eqb (length mask) (length rows) then Ok (mask_sel mask rows) else Err IndexError.
Definition interactive_adapt_2 (s : rv) (z : list (list R)) (n_solutions : nat) : res rv :=
  if Nat.eqb (length z) n_solutions
  then Ok (normalize_rv (set_rows s (init_values s) (init_planar s)))
  else let mask := map (far_enough (2/10) z) (planar s) in
       bind (masked mask (values s)) (fun v => bind (masked mask (planar s)) (fun p => Ok (set_rows s v p))).

(** ReferenceVectors.py:393-416. *)
Definition interactive_adapt_3 (s : rv) (ref : list R) : rv :=
  normalize_rv (set_rows s (shifted (2/10) ref (init_values s)) (shifted (2/10) ref (init_planar s))).

(** ReferenceVectors.py:418-445; [w]: the unit-cube sample of pyDOE.lhs, one row per current vector. *)
Definition interactive_adapt_4 (s : rv) (ranges : list (R * R)) (w : list (list R)) : rv :=
  let rows := map (fun u => vmap2 (fun x r => x * (snd r - fst r) + fst r) u ranges) w in
  normalize_rv (set_rows s rows rows).

(** ReferenceVectors.py:472-483. [values.shape[1]] is the number of objectives, also for an array from which all rows were
    removed (numpy keeps the number of columns). *)
Definition unit_vec (n i : nat) : list R := map (fun j => if Nat.eqb i j then 1 else 0) (seq 0 n).
Definition eye (n : nat) : list (list R) := map (unit_vec n) (seq 0 n).
Definition add_edges (s : rv) : rv :=
  normalize_rv (set_rows s (values s ++ eye (n_obj s)) (planar s ++ eye (n_obj s))).

(** SelectionBase.py:259-301: what a preference does to the vectors. [ideal]: pop.ideal_fitness_val; [mult]: _max_multiplier. *)
Definition ref_direction (ref mult ideal : list R) : list R :=
  let r := vsub (vmap2 Rmult ref mult) ideal in map (fun x => x / norm r) r.
Inductive pref_action :=
| PrefPoint (ref mult ideal : list R)
| PrefSolutions (z : list (list R)) (n_solutions : nat)
| PrefNonPreferred (z : list (list R)) (n_solutions : nat)
| PrefRanges (ranges : list (R * R)) (w : list (list R)).
Definition manage (s : rv) (p : pref_action) : res rv :=
  bind (match p with
        | PrefPoint ref mult ideal => Ok (interactive_adapt_3 s (ref_direction ref mult ideal))
        | PrefSolutions z n => interactive_adapt_1 s z n
        | PrefNonPreferred z n => interactive_adapt_2 s z n
        | PrefRanges r w => Ok (interactive_adapt_4 s r w)
        end) (fun s' => Ok (add_edges s')).
(** One interaction: no preference (SelectionBase.py:241, 102-104) re-adapts to the fitness ranges. Whatever raises does so before
    the first assignment, so the vectors stay as they were. *)
Definition interact (s : rv) (a : pref_action + list (list R)) : rv :=
  match (match a with inl p => manage s p | inr fitness => adapt s fitness end) with Ok s' => s' | Err _ => s end.

(** ReferenceVectors.py:252-260, for one vector: the cosines with all vectors sorted in descending order, values above 1
    replaced by 1, arccos of the second. [None]: fewer than two vectors (IndexError). Taking one maximal entry out and then the
    maximum of the rest stands for position 1 of the sorted row. *)
Definition drop_at {A} (i : nat) (l : list A) : list A := firstn i l ++ skipn (S i) l.
Definition clip1 (x : R) : R := if Rlt_dec 1 x then 1 else x.
Definition second_largest (l : list R) : option R :=
  match argmax l with
  | None => None
  | Some k => match argmax (drop_at k l) with
              | None => None
              | Some j => nth_error (drop_at k l) j
              end
  end.
Definition neighbouring_angle (vs : list (list R)) (v : list R) : option R :=
  option_map (fun x => acos (clip1 x)) (second_largest (map (dot v) vs)).
Definition neighbouring_angles (vs : list (list R)) : list (option R) := map (neighbouring_angle vs) vs.

(** ** Rotations. Matrices are functions of two indices with a size. *)
(** ReferenceVectors.py:13-23, a single vector ([None]: zero vector, 0/0). *)
Definition normalize1 (v : list R) : option (list R) :=
  if Req_EM_T (norm v) 0 then None else Some (map (fun x => x / norm v) v).
Definition matrix := nat -> nat -> R.
(** ReferenceVectors.py:66-73 ([None]: zero vector, 0/0). *)
Definition householder (v : list R) : option matrix :=
  if Req_EM_T (dot v v) 0 then None
  else Some (fun i j => (if Nat.eqb i j then 1 else 0) - 2 * (nth i v 0 * nth j v 0) / dot v v).
Definition matmul (n : nat) (A B : matrix) : matrix := fun i j => rsum (map (fun k => A i k * B k j) (seq 0 n)).
(** One row of np.matmul(other_vectors, transpose(m)). *)
Definition apply_mat (n : nat) (A : matrix) (x : list R) : list R :=
  map (fun i => rsum (map (fun j => nth j x 0 * A i j) (seq 0 n))) (seq 0 n).

Definition obind {A B} (a : option A) (f : A -> option B) : option B := match a with Some x => f x | None => None end.

(** ReferenceVectors.py:49-63. [None]: NaN. *)
Definition rotate (initial rotated : list R) (other_vectors : list (list R)) : option (list (list R)) :=
  obind (normalize1 initial) (fun a =>
  obind (normalize1 rotated) (fun b =>
  obind (normalize1 (vadd a b)) (fun m =>
  obind (householder (vsub a m)) (fun Q1 =>
  obind (householder (vsub m b)) (fun Q2 =>
  let n := length initial in
  Some (map (apply_mat n (matmul n Q2 Q1)) other_vectors)))))).

(** ReferenceVectors.py:76-112. np.linalg.solve of the 2x2 system by Cramer's rule; [None] for a singular matrix or NaN. *)
Definition rotate_toward (initial final : list R) (other_vectors : list (list R)) (degrees : R) : option (list (list R) * bool) :=
  obind (normalize1 final) (fun f =>
  obind (normalize1 initial) (fun a =>
  let cos_phi := dot a f in
  let theta := degrees * PI / 180 in
  let cos_theta := cos theta in
  let phi := acos cos_phi in
  if Rlt_dec phi theta then option_map (fun r => (r, true)) (rotate a f other_vectors)
  else
    let cos_phi_theta := cos (phi - theta) in
    let det := cos_phi * cos_phi - 1 in
    if Req_EM_T det 0 then None
    else
      let x0 := (cos_phi_theta * cos_phi - cos_theta) / det in
      let x1 := (cos_phi * cos_theta - cos_phi_theta) / det in
      option_map (fun r => (r, false)) (rotate a (vadd (vscale x0 a) (vscale x1 f)) other_vectors))).

(** ** Creation *)
(** ReferenceVectors.py:117-179, 190-214 ("Uniform"), for a positive resolution: lattice, normalisation, copies for later adaptation. *)
Definition create_from (rows : list (list R)) (n : nat) : rv :=
  let s := normalize_rv (mkRV rows rows [] [] n (length rows)) in
  mkRV (values s) (planar s) (values s) (planar s) n (n_vec s).
Definition create_uniform (h n : nat) : res rv :=
  bind (lattice_weights h n) (fun ws => Ok (create_from (map (map (fun z => IZR z / INR h)) ws) n)).

(** itertools.product of [k] copies of [0, 1, -1]. *)
Fixpoint product01 (k : nat) : list (list R) :=
  match k with
  | O => [[]]
  | S k' => flat_map (fun x => map (cons x) (product01 k')) [0; 1; -1]
  end.
Fixpoint all_some {A} (l : list (option A)) : option (list A) :=
  match l with
  | [] => Some []
  | None :: _ => None
  | Some x :: t => option_map (cons x) (all_some t)
  end.
(** ReferenceVectors.py:26-46, one row. *)
Definition shear_row (degrees : R) (v : list R) : option (list R) :=
  let m := 1 / tan (degrees * PI / 180) in
  normalize1 (removelast v ++ [last v 0 + norm v * m]).
(** ReferenceVectors.py:217-226 and 232-240: rows around the last axis. [base]: the non-zero directions of the other axes. *)
Definition cone (n : nat) (base : list (list R)) : option (list (list R)) :=
  obind (all_some (map normalize1 base)) (fun initial =>
  obind (all_some (map (shear_row 5) (map (fun v => v ++ [0]) initial))) (fun final =>
  Some ((repeat 0 (n - 1) ++ [1]) :: final))).
(** ReferenceVectors.py:215-241 then 176-177. [None]: NaN. *)
Definition create_cone (n : nat) (base : list (list R)) (ref_point : list R) : option rv :=
  obind (cone n base) (fun final =>
  obind (rotate (repeat 0 (n - 1) ++ [1]) ref_point final) (fun rows =>
  let s := add_edges (normalize_rv (mkRV rows rows [] [] n (length rows))) in
  Some (mkRV (values s) (planar s) (values s) (planar s) n (n_vec s)))).
Definition create_focused (n : nat) (ref_point : list R) : option rv := create_cone n (tl (product01 (n - 1))) ref_point.
Definition create_sparse_focused (n : nat) (ref_point : list R) : option rv :=
  create_cone n (eye (n - 1) ++ map (map Ropp) (eye (n - 1))) ref_point.

(** ReferenceVectors.py:447-470. First component [None]: nothing done (line 463-464); the outer [None]: NaN (or IndexError when
    there is no vector). *)
Definition list_eqR (u v : list R) : bool := if list_eq_dec Req_EM_T u v then true else false.
Definition slow_interactive_adapt (s : rv) (ref_point : list R) : option (rv * option bool) :=
  match values s with
  | [] => None
  | v0 :: _ =>
      if list_eqR v0 ref_point then Some (s, None)
      else option_map (fun r => (normalize_rv (add_edges (set_rows s (fst r) (fst r))), Some (snd r)))
             (rotate_toward v0 ref_point (firstn (length (values s) - n_obj s) (values s)) 5)
  end.
