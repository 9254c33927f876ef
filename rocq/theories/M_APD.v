(** Model of desdeo_emo/selection/APD_Select_constraints.py (selection operator of RVEA), over the
    reals. Arrays are lists of rows. Not modelled: rounding, NaN / infinite fitness values (then
    the [np.isnan(apd).all()] branch, lines 131-132, is dead), and the shape of the returned array. *)
From Verif Require Import Base RVec.
From Coq Require Import Reals.
Open Scope R_scope.

(** SelectionBase.py:84-90. An unknown selection type returns None, on which line 63 fails. *)
Inductive sel_type := SelMean | SelOptimistic | SelRobust | SelOther.
Definition calc_fitness (t : sel_type) (fit : list (list R)) (unc : option (list (list R))) : res (list (list R)) :=
  match t, unc with
  | SelMean, _ => Ok fit
  | SelOptimistic, Some u => Ok (vmap2 vsub fit u)
  | SelRobust, Some u => Ok (vmap2 vadd fit u)
  | SelOther, _ => Err ValueError   (* np.amin(None, axis=0): AxisError, a ValueError *)
  | _, None => Err TypeError
  end.

(** np.finfo(float).eps *)
Definition eps : R := / 2 ^ 52.
Definition zero_eps (x : R) : R := if Req_EM_T x 0 then eps else x.

Definition vmin := vmap2 Rmin.
(** np.amin(rows, axis=0); None: empty array (ValueError). *)
Definition colmin (rows : list (list R)) : option (list R) :=
  match rows with [] => None | r :: t => Some (fold_left vmin t r) end.

(** APD_Select_constraints.py:63-66: the new [self.ideal]. *)
Definition new_ideal (ideal pop_ideal : list R) (fit : list (list R)) : res (list R) :=
  match colmin fit with
  | None => Err ValueError
  | Some fmin => Ok (vmin (vmin ideal fmin) pop_ideal)
  end.

(** Lines 68-79: normalised translated fitness of one individual times one vector. *)
Definition cosine_raw (tr v : list R) : R := dot (map (fun x => x / zero_eps (norm tr)) tr) v.
(** Lines 80-85. *)
Definition clip01 (x : R) : R := if Rlt_dec 1 x then 1 else if Rlt_dec x 0 then 0 else x.
Definition cosine (tr v : list R) : R := clip01 (cosine_raw tr v).
(** Line 89, np.argmax over the vectors; the default is used only with no vectors at all. *)
Definition assigned (vecs : list (list R)) (tr : list R) : nat :=
  match argmax (map (cosine tr) vecs) with Some k => k | None => O end.

Definition row (rows : list (list R)) (i : nat) : list R := nth i rows [].

(** Lines 95-97. *)
Definition niche (vecs trs : list (list R)) (k : nat) : list nat :=
  filter (fun i => Nat.eqb (assigned vecs (row trs i)) k) (seq 0 (length trs)).

(** Lines 101-105. *)
Definition violation (c : list R) : list R := map (Rmax 0) c.
Definition is_zero (x : R) : bool := if Req_EM_T x 0 then true else false.
Definition feasible_row (c : list R) : bool := forallb is_zero (violation c).
(** Lines 99-115. *)
Definition constraint_filter (cons : option (list (list R))) (sub : list nat) : list nat :=
  match cons with
  | Some c =>
      if Nat.ltb 1 (length sub) then
        if existsb (fun i => feasible_row (row c i)) sub
        then filter (fun i => feasible_row (row c i)) sub
        else match map (fun i => rsum (violation (row c i))) sub with
             | [] => []
             | v :: vs => filter (fun i => if Req_EM_T (rsum (violation (row c i))) (rmin_list v vs) then true else false) sub
             end
      else sub
  | None => sub
  end.

(** Lines 124-133 for one individual: theta = arccos(cosine), divided by the neighbouring angle of
    the vector (0 replaced by eps, line 94). *)
Definition apd (penalty : R) (vecs trs : list (list R)) (gam : list R) (k i : nat) : R :=
  norm (row trs i) * (1 + penalty * (acos (cosine (row trs i) (row vecs k)) / zero_eps (nth k gam 0))).

(** Lines 117-144: the position chosen for vector [k], if any. *)
Definition choose (penalty : R) (vecs trs : list (list R)) (gam : list R) (cons : option (list (list R))) (k : nat) : list nat :=
  match constraint_filter cons (niche vecs trs k) with
  | [] => []
  | [i] => [i]
  | sub => match argmin (map (apd penalty vecs trs gam k) sub) with
           | Some j => [nth j sub O]
           | None => []
           end
  end.

(** Lines 43-145: the new ideal point and the selected positions. *)
Definition apd_select (penalty : R) (ideal pop_ideal : list R) (fit : list (list R)) (cons : option (list (list R)))
    (vecs : list (list R)) (gam : list R) : res (list R * list nat) :=
  bind (new_ideal ideal pop_ideal fit) (fun z =>
    let trs := map (fun f => vsub f z) fit in
    Ok (z, flat_map (choose penalty vecs trs gam cons) (seq 0 (length vecs)))).
