(** Model of desdeo_emo/selection/NSGAIII_select.py over the reals. External code appears as
    arguments: [fnds] (desdeo_tools fast_non_dominated_sort followed by np.where, line 52-53: a
    list of fronts, each the list of its row numbers), [solve] (np.linalg.solve, None =
    LinAlgError), [rng] (np.random.randint / shuffle). Not modelled: rounding, NaN, infinite
    fitness values, numpy versions without [np.int], and exceptions for ragged arrays. *)
From Verif Require Import Base RVec M_APD.
From Coq Require Import Reals.
Open Scope R_scope.

(** Lines 28-34. [n3 = None]: the attribute [n_survive] does not exist. [w3 = None]: minus infinity. *)
Record st3 := mkSt3 { i3 : list R; w3 : option (list R); e3 : option (list (list R)); n3 : option nat }.
Definition init3 (pop_ideal : list R) (pop_size : nat) (n_survive : option nat) : st3 :=
  mkSt3 pop_ideal None None (match n_survive with None => Some pop_size | Some _ => None end).

Definition vmax := vmap2 Rmax.
Definition colmax (rows : list (list R)) : option (list R) :=
  match rows with [] => None | r :: t => Some (fold_left vmax t r) end.

(** Lines 128-148. *)
Definition asf_weight (k j : nat) : R := if Nat.eqb k j then 1 else 1000000.
Definition snap_small (x : R) : R := if Rlt_dec x (1 / 1000) then 0 else x.
Definition asf (k : nat) (ideal f : list R) : R :=
  let l := vmap2 (fun j x => snap_small x * asf_weight k j) (seq 0 (length f)) (vsub f ideal) in
  match l with [] => 0 | x :: t => fold_left Rmax t x end.
Definition extreme_points (front : list (list R)) (ideal : list R) (old : option (list (list R))) : list (list R) :=
  let rows := match old with Some e => e ++ front | None => front end in
  flat_map (fun k => match argmin (map (asf k ideal) rows) with
                     | Some i => [nth i rows []]
                     | None => []
                     end) (seq 0 (length ideal)).

(** np.allclose(a, b) with the default tolerances. *)
Definition allclose (a b : list R) : bool :=
  forallb (fun p => if Rle_dec (Rabs (fst p - snd p)) (1 / 100000000 + 1 / 100000 * Rabs (snd p)) then true else false)
          (combine a b).

(** Lines 150-181. The caller (lines 67-73) passes worst_of_population where this function expects
    worst_of_front and vice versa: [wfront] and [wpop] below are the parameters as received. An
    infinite intercept (zero plane component) fails one of the tests of lines 170-173. *)
Definition nadir_point (solve : list (list R) -> list R -> option (list R)) (ext : list (list R)) (ideal worst wfront wpop : list R) : list R :=
  let M := map (fun e => vsub e ideal) ext in
  let b := repeat 1 (length ideal) in
  let nadir :=
    match solve M b with
    | None => wfront
    | Some plane =>
        if existsb (fun x => is_zero x) plane then wfront else
        let intercepts := map (fun x => 1 / x) plane in
        let nd := vadd ideal intercepts in
        if negb (allclose (map (fun r => dot r plane) M) b)
           || existsb (fun x => if Rle_dec x (1 / 1000000) then true else false) intercepts
           || existsb (fun p => if Rlt_dec (snd p) (fst p) then true else false) (combine nd worst)
        then wfront else nd
    end in
  vmap2 (fun n iw => if Rle_dec (n - fst iw) (1 / 1000000) then snd iw else n) nadir (combine ideal wpop).

(** Lines 244-256: distance of a point to the line through a direction. *)
Definition perp_dist (v u : list R) : R :=
  norm (vsub (map (fun x => dot v u / norm u * x / norm u) u) v).

(** Lines 221-236, one individual: normalisation, nearest direction, its distance. *)
Definition normalise (ideal nadir f : list R) : list R :=
  vmap2 (fun d x => x / d) (map (fun d => if Req_EM_T d 0 then 1 / 1000000000000 else d) (vsub nadir ideal)) (vsub f ideal).
Definition niche_of (dirs : list (list R)) (v : list R) : nat :=
  match argmin (map (perp_dist v) dirs) with Some k => k | None => O end.
Definition niche_dist (dirs : list (list R)) (v : list R) : R := perp_dist v (nth (niche_of dirs v) dirs []).

(** Lines 76-84: accumulate fronts until at least [need] rows are covered; None: never. *)
Fixpoint cut_fronts (need : nat) (acc : list (list nat)) (fronts : list (list nat)) : option (list (list nat) * list nat) :=
  match fronts with
  | [] => None
  | f :: t => if Nat.ltb (length (concat (acc ++ [f]))) need then cut_fronts need (acc ++ [f]) t else Some (acc, f)
  end.

Record rng3 := mkRng3 { r_pick : nat -> nat; r_shuf : nat -> list nat -> list nat }.

Section Niching.
Context (rng : rng3) (n_dirs : nat) (niches : list nat) (dists : list R).   (* niche_of_individuals, dist_to_niche *)

Definition available (mask : list bool) (k i : nat) : bool := nth i mask false && Nat.eqb (nth i niches O) k.

(** Lines 191-217, one turn of the while loop: the chosen row of the last front and its niche. *)
Definition niche_pick (t : nat) (counts : list nat) (mask : list bool) : res (nat * nat) :=
  let nexts := filter (fun k => existsb (available mask k) (seq 0 (length mask))) (seq 0 n_dirs) in
  match nexts with
  | [] => Err ValueError                         (* min of an empty array *)
  | k0 :: ks =>
      let least := fold_left Nat.min (map (fun k => nth k counts O) ks) (nth k0 counts O) in
      let ties := filter (fun k => Nat.eqb (nth k counts O) least) nexts in
      let k := nth (Nat.modulo (r_pick rng t) (length ties)) ties O in
      let inds := r_shuf rng t (filter (available mask k) (seq 0 (length mask))) in
      if Nat.eqb (nth k counts O) 0 then
        match argmin (map (fun i => nth i dists 0) inds) with
        | Some j => Ok (nth j inds O, k)
        | None => Err ValueError
        end
      else match inds with i :: _ => Ok (i, k) | [] => Err IndexError end
  end.

(** Lines 183-219; every turn adds one survivor, so the loop runs n_remaining times. *)
Fixpoint niching (n_remaining t : nat) (counts : list nat) (mask : list bool) : res (list nat) :=
  match n_remaining with
  | O => Ok []
  | S r => bind (niche_pick t counts mask) (fun ik =>
             bind (niching r (S t) (set_nth (snd ik) (S (nth (snd ik) counts O)) counts) (set_nth (fst ik) false mask))
                  (fun l => Ok (fst ik :: l)))
  end.
End Niching.

(** Lines 238-242. *)
Definition niche_counts (n_dirs : nat) (ns : list nat) : list nat := map (fun k => count_occ Nat.eq_dec ns k) (seq 0 n_dirs).

(** Lines 75-126, given the niche and the distance of every row. *)
Definition survive (rng : rng3) (n_survive n_dirs : nat) (niche : nat -> nat) (dist : nat -> R) (fronts : list (list nat)) : res (list nat) :=
  match cut_fronts n_survive [] fronts with
  | None => Ok []                                  (* selection stays empty *)
  | Some (before, last) =>
      let until := concat before in
      let selection := until ++ last in
      if Nat.ltb n_survive (length selection) then
        bind (niching rng n_dirs (map niche last) (map dist last) (n_survive - length until) 0
                (niche_counts n_dirs (map niche until)) (repeat true (length last)))
             (fun l => Ok (until ++ map (fun i => nth i last O) l))
      else Ok selection
  end.

(** Lines 36-126 [do]. *)
Definition nsga3_do (fnds : list (list R) -> list (list nat)) (solve : list (list R) -> list R -> option (list R)) (rng : rng3)
    (dirs : list (list R)) (s : st3) (fit : list (list R)) : res (st3 * list nat) :=
  let fronts := fnds fit in
  match fronts with
  | [] => Err IndexError
  | nd :: _ =>
      match colmin fit, colmax fit, colmax (map (row fit) nd) with
      | Some fmin, Some wpop, Some wfront =>
          let ideal := vmin (i3 s) fmin in
          let worst := match w3 s with None => wpop | Some w => vmax w wpop end in
          let ext := extreme_points (map (row fit) nd) ideal (e3 s) in
          let nadir := nadir_point solve ext ideal worst wpop wfront in
          match n3 s with
          | None => Err AttributeError
          | Some n =>
              bind (survive rng n (length dirs)
                      (fun i => niche_of dirs (normalise ideal nadir (row fit i)))
                      (fun i => niche_dist dirs (normalise ideal nadir (row fit i))) fronts)
                   (fun sel => Ok (mkSt3 ideal (Some worst) (Some ext) (n3 s), sel))
          end
      | _, _, _ => Err ValueError
      end
  end.
