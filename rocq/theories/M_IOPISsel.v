(** Model of desdeo_emo/selection/IOPIS_APD.py and selection/IOPIS_NSGAIII.py: selection in the space of scalarisation values.
    A scalarisation method (desdeo_tools, external) maps the fitness matrix and the reference point to one value per individual. *)
From Verif Require Import Base RVec M_APD M_NSGA3.
From Coq Require Import Reals.
Open Scope R_scope.

Notation scalarisation := (list (list R) -> list R -> list R).
(** IOPIS_APD.py:52-57, IOPIS_NSGAIII.py:45-50: np.asarray([scalar(pop.fitness, reference_point) for scalar in methods]).T
    (every method returns one value per individual). *)
Definition scalarised (methods : list scalarisation) (fit : list (list R)) (ref : list R) : list (list R) :=
  map (fun i => map (fun s => nth i (s fit ref) 0) methods) (seq 0 (length fit)).

(** IOPIS_APD.py:23-32: the constructor; [alpha] is ignored, line 30 sets 2. *)
Record apd_op := mkApdOp { ao_alpha : nat; ao_n : nat; ao_methods : list scalarisation }.
Definition new_apd_op (methods : list scalarisation) (alpha : nat) : apd_op := mkApdOp 2 (length methods) methods.

(** IOPIS_APD.py:117-131 ([time]: the value of time_penalty_function()). *)
Definition partial_penalty (o : apd_op) (time : R) : R :=
  let p := time ^ ao_alpha o * INR (ao_n o) in
  let p := if Rlt_dec p 0 then 0 else p in
  if Rlt_dec 1 p then 1 else p.

(** IOPIS_APD.py:93-112: the position selected for vector [k]; the chosen position is the first minimum ([selx[0]]), NaN does not occur. *)
Definition iopis_choose (penalty : R) (vecs trs : list (list R)) (gam : list R) (k : nat) : list nat :=
  let sub := niche vecs trs k in
  match argmin (map (apd penalty vecs trs gam k) sub) with
  | Some j => [nth j sub O]
  | None => []
  end.
(** IOPIS_APD.py:34-114. *)
Definition iopis_apd_do (o : apd_op) (time : R) (fit : list (list R)) (ref : list R) (vecs : list (list R)) (gam : list R) : res (list nat) :=
  let penalty := partial_penalty o time in
  let f := scalarised (ao_methods o) fit ref in
  match colmin f with
  | None => Err ValueError
  | Some fmin =>
      let trs := map (fun r => vsub r fmin) f in
      Ok (flat_map (iopis_choose penalty vecs trs gam) (seq 0 (length vecs)))
  end.

(** IOPIS_NSGAIII.py:11-25: the state; [None] for the infinite initial ideal and worst vectors. n_survive is set only when not given. *)
Record st3i := mkSt3i { i3i : option (list R); w3i : option (list R); e3i : option (list (list R)); n3i : option nat }.
Definition init3i (pop_size : nat) (n_survive : option nat) : st3i :=
  mkSt3i None None None (match n_survive with None => Some pop_size | Some _ => None end).
(** IOPIS_NSGAIII.py:27-125; the inherited helpers are those of NSGAIII_select. *)
Definition iopis_nsga3_do (fnds : list (list R) -> list (list nat)) (solve : list (list R) -> list R -> option (list R)) (rng : rng3)
    (methods : list scalarisation) (dirs : list (list R)) (s : st3i) (fit : list (list R)) (ref : list R) : res (st3i * list nat) :=
  let f := scalarised methods fit ref in
  let fronts := fnds f in
  match fronts with
  | [] => Err IndexError
  | nd :: _ =>
      match colmin f, colmax f, colmax (map (row f) nd) with
      | Some fmin, Some wpop, Some wfront =>
          let ideal := match i3i s with None => fmin | Some i => vmin i fmin end in
          let worst := match w3i s with None => wpop | Some w => vmax w wpop end in
          let ext := extreme_points (map (row f) nd) ideal (e3i s) in
          let nadir := nadir_point solve ext ideal worst wpop wfront in
          match n3i s with
          | None => Err AttributeError
          | Some n =>
              bind (survive rng n (length dirs)
                      (fun i => niche_of dirs (normalise ideal nadir (row f i)))
                      (fun i => niche_dist dirs (normalise ideal nadir (row f i))) fronts)
                   (fun sel => Ok (mkSt3i (Some ideal) (Some worst) (Some ext) (n3i s), sel))
          end
      | _, _, _ => Err ValueError
      end
  end.
