(** Model of desdeo_emo/selection/NSGAIII_select.py [do] 36-126 and its helpers 128-256 with failed evaluations: fitness values may be infinite or NaN. As M_NSGA3.v otherwise
    (external: [fnds], [solve], [rng]); numbers are those of M_APDnan.v: finite arithmetic is that of the reals, the rest follows IEEE 754 (no signed zero: an intercept 1/0 is taken as
    +infinity; with -infinity the same branch is taken), np.amin, np.amax and np.max propagate NaN, np.argmin returns the first NaN, comparisons with NaN are false. Reference directions
    are finite. The minus infinity of line 28 is a number here. *)
From Coq Require Import Reals.
From Verif Require Import Base RVec M_APD M_APDnan M_IndNaN M_NSGA3.
Open Scope R_scope.

(** a <= b; false if one of them is NaN. *)
Definition xleb (a b : xr) : bool := negb (is_nan a) && negb (is_nan b) && negb (xltb b a).
(** Lines 28-34. *)
Record st3x := mkSt3X { xi3 : list xr; xw3 : list xr; xe3 : option (list (list xr)); xn3 : option nat }.
Definition init3_x (pop_ideal : list xr) (pop_size : nat) (n_survive : option nat) : st3x :=
  mkSt3X pop_ideal (repeat MInf (length pop_ideal)) None (match n_survive with None => Some pop_size | Some _ => None end).

Definition xvmax := vmap2 xmax.
(** np.amax(rows, axis=0) *)
Definition xcolmax (rows : list (list xr)) : option (list xr) :=
  match rows with [] => None | r :: t => Some (fold_left xvmax t r) end.

(** Lines 128-148; line 141 leaves NaN alone. *)
Definition snap_small_x (a : xr) : xr := if xltb a (Fin (1 / 1000)) then Fin 0 else a.
Definition asf_x (k : nat) (ideal f : list xr) : xr :=
  let l := vmap2 (fun j x => xmul (snap_small_x x) (Fin (asf_weight k j))) (seq 0 (length f)) (xvsub f ideal) in
  match l with [] => Fin 0 | x :: t => fold_left xmax t x end.
Definition extreme_points_x (front : list (list xr)) (ideal : list xr) (old : option (list (list xr))) : list (list xr) :=
  let rows := match old with Some e => e ++ front | None => front end in
  flat_map (fun k => match xargmin (map (asf_x k ideal) rows) with
                     | Some i => [nth i rows []]
                     | None => []
                     end) (seq 0 (length ideal)).

(** np.allclose against finite numbers. *)
Definition close_x (a b : xr) : bool :=
  match a, b with
  | Fin x, Fin y => if Rle_dec (Rabs (x - y)) (1 / 100000000 + 1 / 100000 * Rabs y) then true else false
  | _, _ => false
  end.
Definition allclose_x (a b : list xr) : bool := forallb (fun p => close_x (fst p) (snd p)) (combine a b).
(** Lines 150-181, with the swapped arguments of lines 67-73 (see M_NSGA3.v). *)
Definition nadir_point_x (solve : list (list xr) -> list xr -> option (list xr)) (ext : list (list xr)) (ideal worst wfront wpop : list xr) : list xr :=
  let M := map (fun e => xvsub e ideal) ext in
  let b := repeat (Fin 1) (length ideal) in
  let nadir :=
    match solve M b with
    | None => wfront
    | Some plane =>
        let intercepts := map (fun x => xdiv (Fin 1) x) plane in
        let nd := vmap2 xadd ideal intercepts in
        if negb (allclose_x (map (fun r => xdot r plane) M) b)
           || existsb (fun x => xleb x (Fin (1 / 1000000))) intercepts
           || existsb (fun p => xltb (snd p) (fst p)) (combine nd worst)
        then wfront else nd
    end in
  vmap2 (fun n iw => if xleb (xsub n (fst iw)) (Fin (1 / 1000000)) then snd iw else n) nadir (combine ideal wpop).

(** Lines 244-256. *)
Definition perp_dist_x (v : list xr) (u : list R) : xr :=
  xnorm (xvsub (map (fun x => xdiv (xmul (xdiv (xdot v (map Fin u)) (Fin (norm u))) (Fin x)) (Fin (norm u))) u) v).
(** Lines 221-236. *)
Definition denom_x (d : xr) : xr := match d with Fin x => if Req_EM_T x 0 then Fin (1 / 1000000000000) else d | _ => d end.
Definition normalise_x (ideal nadir f : list xr) : list xr :=
  vmap2 (fun d x => xdiv x d) (map denom_x (xvsub nadir ideal)) (xvsub f ideal).
Definition niche_of_x (dirs : list (list R)) (v : list xr) : nat :=
  match xargmin (map (perp_dist_x v) dirs) with Some k => k | None => O end.
Definition niche_dist_x (dirs : list (list R)) (v : list xr) : xr := perp_dist_x v (nth (niche_of_x dirs v) dirs []).

Section NichingX.
Context (rng : rng3) (n_dirs : nat) (niches : list nat) (dists : list xr).
(** Lines 191-217. *)
Definition niche_pick_x (t : nat) (counts : list nat) (mask : list bool) : res (nat * nat) :=
  let nexts := filter (fun k => existsb (available niches mask k) (seq 0 (length mask))) (seq 0 n_dirs) in
  match nexts with
  | [] => Err ValueError
  | k0 :: ks =>
      let least := fold_left Nat.min (map (fun k => nth k counts O) ks) (nth k0 counts O) in
      let ties := filter (fun k => Nat.eqb (nth k counts O) least) nexts in
      let k := nth (Nat.modulo (r_pick rng t) (length ties)) ties O in
      let inds := r_shuf rng t (filter (available niches mask k) (seq 0 (length mask))) in
      if Nat.eqb (nth k counts O) 0 then
        match xargmin (map (fun i => nth i dists (Fin 0)) inds) with
        | Some j => Ok (nth j inds O, k)
        | None => Err ValueError
        end
      else match inds with i :: _ => Ok (i, k) | [] => Err IndexError end
  end.
(** Lines 183-219. *)
Fixpoint niching_x (n_remaining t : nat) (counts : list nat) (mask : list bool) : res (list nat) :=
  match n_remaining with
  | O => Ok []
  | S r => bind (niche_pick_x t counts mask) (fun ik =>
             bind (niching_x r (S t) (set_nth (snd ik) (S (nth (snd ik) counts O)) counts) (set_nth (fst ik) false mask))
                  (fun l => Ok (fst ik :: l)))
  end.
End NichingX.
(** Lines 75-126, given the niche and the distance of every row. *)
Definition survive_x (rng : rng3) (n_survive n_dirs : nat) (niche : nat -> nat) (dist : nat -> xr) (fronts : list (list nat)) : res (list nat) :=
  match cut_fronts n_survive [] fronts with
  | None => Ok []
  | Some (before, last) =>
      let until := concat before in
      let selection := until ++ last in
      if Nat.ltb n_survive (length selection) then
        bind (niching_x rng n_dirs (map niche last) (map dist last) (n_survive - length until) 0
                (niche_counts n_dirs (map niche until)) (repeat true (length last)))
             (fun l => Ok (until ++ map (fun i => nth i last O) l))
      else Ok selection
  end.

(** Lines 36-126 [do]. *)
Definition nsga3_do_x (fnds : list (list xr) -> list (list nat)) (solve : list (list xr) -> list xr -> option (list xr)) (rng : rng3)
    (dirs : list (list R)) (s : st3x) (fit : list (list xr)) : res (st3x * list nat) :=
  let fronts := fnds fit in
  match fronts with
  | [] => Err IndexError
  | nd :: _ =>
      match xcolmin fit, xcolmax fit, xcolmax (map (row_x fit) nd) with
      | Some fmin, Some wpop, Some wfront =>
          let ideal := xvmin (xi3 s) fmin in
          let worst := xvmax (xw3 s) wpop in
          let ext := extreme_points_x (map (row_x fit) nd) ideal (xe3 s) in
          let nadir := nadir_point_x solve ext ideal worst wpop wfront in
          match xn3 s with
          | None => Err AttributeError
          | Some n =>
              bind (survive_x rng n (length dirs)
                      (fun i => niche_of_x dirs (normalise_x ideal nadir (row_x fit i)))
                      (fun i => niche_dist_x dirs (normalise_x ideal nadir (row_x fit i))) fronts)
                   (fun sel => Ok (mkSt3X ideal worst (Some ext) (xn3 s), sel))
          end
      | _, _, _ => Err ValueError
      end
  end.
