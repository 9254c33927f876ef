(** Model of desdeo_emo/utilities/newRV.py (class newRV, a subclass of ReferenceVectors with two more interactions). Its module-level
    [rotate], [normalize], [householder] (65-94) are the same functions as in ReferenceVectors.py (M_RefVec.v: rotate, normalize1,
    householder). Not modelled: rounding; vectors that contain NaN: wherever numpy produces NaN in some row the model gives [None] for
    the whole set; a reference point with a single entry (numpy would broadcast it);
    the vectors an exception leaves behind. [newvals == []] and [delete_rows == []] (lines 44, 58) are false for arrays, as in the numpy releases
    that only warn about such comparisons. *)
From Verif Require Import Base RVec M_APD M_BaseEA M_Lattice M_RefVec.
From Coq Require Import Reals.
Open Scope R_scope.

(** newRV.py:12, 15: the axis is written out for three objectives. *)
Definition axis3 : list R := [0; 0; 1].

(** newRV.py:11-15 (rotate_to_axis, revert_rotation): a reference point of another length cannot be added to the axis (line 72), vectors
    of another length cannot be multiplied by the 3 x 3 matrix (line 78): ValueError. *)
Definition rotate3 (a b : list R) (rows : list (list R)) : res (option (list (list R))) :=
  if negb (Nat.eqb (length a) 3 && Nat.eqb (length b) 3 && forallb (fun v => Nat.eqb (length v) 3) rows) then Err ValueError
  else Ok (rotate a b rows).

(** newRV.py:97-105 (dist_based_translation). np.amax of no rows raises ValueError. All rows zero: 1/0 - 1/0 is NaN; a zero row among
    others: 1/(1 + inf) = 0. *)
Definition t_factor (d dmax : R) : R :=
  if Req_EM_T d 0 then 0 else 1 / (1 + 5 * (1 / (d * d) - 1 / (dmax * dmax))).
Definition dist_based_translation (rows : list (list R)) : res (option (list (list R))) :=
  match map norm rows with
  | [] => Err ValueError
  | d :: ds =>
      let dmax := fold_left Rmax ds d in
      if Req_EM_T dmax 0 then Ok None
      else Ok (Some (map (fun v => vscale (t_factor (norm v) dmax) v) rows))
  end.

(** newRV.py:21-25 (translate_to_hypersphere), given the entries before the last. [None]: square root of a negative number. *)
Definition lift_row (w : list R) : option (list R) :=
  let z := 1 - rsum (map (fun x => x * x) w) in
  if Rle_dec 0 z then Some (w ++ [sqrt z]) else None.

Definition rbind {A B} (r : res (option A)) (f : A -> res (option B)) : res (option B) :=
  match r with Err e => Err e | Ok None => Ok None | Ok (Some x) => f x end.

Definition set_values (s : rv) (v : list (list R)) : rv := mkRV v (planar s) (init_values s) (init_planar s) (n_obj s) (n_vec s).

(** newRV.py:27-34 (interact_v2). Project_to_hyperplane (17-19) only overwrites the last entry, which is overwritten again in
    translate_to_hypersphere, so that the entries before the last are all that is kept. *)
Definition interact_v2 (s : rv) (ref_point : list R) : res (option rv) :=
  rbind (rotate3 ref_point axis3 (values s)) (fun u =>
  rbind (dist_based_translation (map (@removelast R) u)) (fun w =>
  rbind (Ok (all_some (map lift_row w))) (fun y =>
  rbind (rotate3 axis3 ref_point y) (fun rows => Ok (Some (set_values s rows)))))).

(** itertools.product([-1, 1], repeat=k). *)
Fixpoint product_signs (k : nat) : list (list R) :=
  match k with
  | O => [[]]
  | S k' => flat_map (fun x => map (cons x) (product_signs k')) [-1; 1]
  end.
(** newRV.py:40-41: all sign patterns, the last entry of each replaced by the only distinct absolute value, 1. *)
Definition combinations (k : nat) : list (list R) := map (fun c => removelast c ++ [1]) (product_signs k).
Definition nonnegative (v : list R) : bool := forallb (fun x => if Rlt_dec x 0 then false else true) v.

(** newRV.py:36-62 (interact_v3). [shape[1]] is the number of objectives. Lines 42-47 stack initial_values * combination for every
    pattern in order; 48-51 append the column that translate_to_hypersphere then overwrites; 54-62 delete the rows with a negative entry. *)
Definition interact_v3 (s : rv) (ref_point : list R) : res (option rv) :=
  let newvals := flat_map (fun c => map (fun v => vmap2 Rmult v c) (init_values s)) (combinations (n_obj s)) in
  rbind (dist_based_translation (map (@removelast R) newvals)) (fun w =>
  rbind (Ok (all_some (map lift_row w))) (fun y =>
  rbind (rotate3 axis3 ref_point y) (fun rows => Ok (Some (set_values s (filter nonnegative rows)))))).
