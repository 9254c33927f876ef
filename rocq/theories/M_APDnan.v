(** Model of desdeo_emo/selection/APD_Select_constraints.py [do] 43-145 with failed evaluations: fitness values may be infinite or NaN. Finite arithmetic is that of the
    real numbers (M_APD.v; no rounding, no overflow, no signed zero), the rest follows IEEE 754 and numpy: np.amin and np.argmax propagate NaN, comparisons with NaN are false,
    np.nanmin ignores NaN. Reference vectors, their neighbouring angles, the penalty factor and constraint values are finite. Warnings are not modelled. *)
From Verif Require Import Base RVec M_APD.
From Coq Require Import Reals.
Open Scope R_scope.

Inductive xr := Fin (x : R) | PInf | MInf | NaN.

(** IEEE arithmetic on the extended numbers. *)
Definition xopp (a : xr) : xr := match a with Fin x => Fin (- x) | PInf => MInf | MInf => PInf | NaN => NaN end.
Definition xadd (a b : xr) : xr :=
  match a, b with
  | NaN, _ | _, NaN => NaN
  | Fin x, Fin y => Fin (x + y)
  | PInf, MInf | MInf, PInf => NaN
  | PInf, _ | _, PInf => PInf
  | MInf, _ | _, MInf => MInf
  end.
Definition xsub (a b : xr) : xr :=
  match a, b with
  | NaN, _ | _, NaN => NaN
  | Fin x, Fin y => Fin (x - y)
  | PInf, PInf | MInf, MInf => NaN
  | PInf, _ | _, MInf => PInf
  | MInf, _ | _, PInf => MInf
  end.
(** An infinite factor times a finite one. *)
Definition inf_times (x : R) : xr := if Req_EM_T x 0 then NaN else if Rlt_dec 0 x then PInf else MInf.
Definition xmul (a b : xr) : xr :=
  match a, b with
  | NaN, _ | _, NaN => NaN
  | Fin x, Fin y => Fin (x * y)
  | Fin x, PInf | PInf, Fin x => inf_times x
  | Fin x, MInf | MInf, Fin x => xopp (inf_times x)
  | PInf, PInf | MInf, MInf => PInf
  | PInf, MInf | MInf, PInf => MInf
  end.
Definition xdiv (a b : xr) : xr :=
  match a, b with
  | NaN, _ | _, NaN => NaN
  | Fin x, Fin y => if Req_EM_T y 0 then inf_times x else Fin (x / y)
  | Fin x, _ => Fin 0
  | PInf, Fin y => if Req_EM_T y 0 then PInf else inf_times y
  | MInf, Fin y => if Req_EM_T y 0 then MInf else xopp (inf_times y)
  | _, _ => NaN
  end.
Definition xsqrt (a : xr) : xr :=
  match a with Fin x => if Rlt_dec x 0 then NaN else Fin (sqrt x) | PInf => PInf | MInf => NaN | NaN => NaN end.
(** a < b; false if one of them is NaN. *)
Definition xltb (a b : xr) : bool :=
  match a, b with
  | Fin x, Fin y => if Rlt_dec x y then true else false
  | MInf, Fin _ | MInf, PInf | Fin _, PInf => true
  | _, _ => false
  end.
Definition is_nan (a : xr) : bool := match a with NaN => true | _ => false end.
(** np.minimum / np.amin of two values. *)
Definition xmin (a b : xr) : xr := if is_nan a || is_nan b then NaN else if xltb b a then b else a.

Fixpoint xdot (u v : list xr) : xr :=
  match u, v with x :: u', y :: v' => xadd (xmul x y) (xdot u' v') | _, _ => Fin 0 end.
Definition xnorm (v : list xr) : xr := xsqrt (xdot v v).
Definition xvsub := vmap2 xsub.
Definition xvmin := vmap2 xmin.
(** np.amin(rows, axis=0); None: empty array (ValueError). *)
Definition xcolmin (rows : list (list xr)) : option (list xr) :=
  match rows with [] => None | r :: t => Some (fold_left xvmin t r) end.

(** APD_Select_constraints.py:63-66: the new [self.ideal]. *)
Definition new_ideal_x (ideal pop_ideal : list xr) (fit : list (list xr)) : res (list xr) :=
  match xcolmin fit with
  | None => Err ValueError
  | Some fmin => Ok (xvmin (xvmin ideal fmin) pop_ideal)
  end.

(** Line 75. *)
Definition zero_eps_x (a : xr) : xr := match a with Fin x => Fin (zero_eps x) | _ => a end.
(** Lines 68-79. *)
Definition cosine_raw_x (tr : list xr) (v : list R) : xr := xdot (map (fun x => xdiv x (zero_eps_x (xnorm tr))) tr) (map Fin v).
(** Lines 80-85. *)
Definition clip01_x (a : xr) : xr := match a with Fin x => Fin (clip01 x) | PInf => Fin 1 | MInf => Fin 0 | NaN => NaN end.
Definition cosine_x (tr : list xr) (v : list R) : xr := clip01_x (cosine_raw_x tr v).
(** The position of the first element with a property. *)
Fixpoint first_pos {A} (p : A -> bool) (l : list A) : option nat :=
  match l with [] => None | x :: t => if p x then Some O else option_map S (first_pos p t) end.
Definition fin_part (a : xr) : R := match a with Fin x => x | _ => 0 end.
(** Line 89, np.argmax: the first NaN if there is one; the other values are finite after clipping. *)
Definition xargmax (l : list xr) : option nat :=
  match first_pos is_nan l with Some k => Some k | None => argmax (map fin_part l) end.
Definition assigned_x (vecs : list (list R)) (tr : list xr) : nat :=
  match xargmax (map (cosine_x tr) vecs) with Some k => k | None => O end.

Definition row_x (rows : list (list xr)) (i : nat) : list xr := nth i rows [].
(** Lines 95-97. *)
Definition niche_x (vecs : list (list R)) (trs : list (list xr)) (k : nat) : list nat :=
  filter (fun i => Nat.eqb (assigned_x vecs (row_x trs i)) k) (seq 0 (length trs)).

(** Line 87, np.arccos of a clipped value. *)
Definition xacos (a : xr) : xr := match a with Fin x => Fin (acos x) | _ => NaN end.
(** Lines 124-133 for one individual. *)
Definition apd_x (penalty : R) (vecs : list (list R)) (trs : list (list xr)) (gam : list R) (k i : nat) : xr :=
  xmul (xnorm (row_x trs i))
    (xadd (Fin 1) (xmul (Fin penalty) (xdiv (xacos (cosine_x (row_x trs i) (row vecs k))) (Fin (zero_eps (nth k gam 0)))))).

(** Lines 134 and 137: the first position of the smallest value that is not NaN; None if all are (lines 135-136). *)
Fixpoint nanmin_from (best : option (nat * xr)) (i : nat) (l : list xr) : option (nat * xr) :=
  match l with
  | [] => best
  | x :: t => nanmin_from (if is_nan x then best else match best with
                                                      | None => Some (i, x)
                                                      | Some (_, b) => if xltb x b then Some (i, x) else best
                                                      end) (S i) t
  end.
Definition nanmin_pos (l : list xr) : option nat := option_map fst (nanmin_from None 0 l).

(** Lines 117-144: the position chosen for vector [k], if any. *)
Definition choose_x (penalty : R) (vecs : list (list R)) (trs : list (list xr)) (gam : list R) (cons : option (list (list R))) (k : nat) : list nat :=
  match constraint_filter cons (niche_x vecs trs k) with
  | [] => []
  | [i] => [i]
  | sub => match nanmin_pos (map (apd_x penalty vecs trs gam k) sub) with
           | Some j => [nth j sub O]
           | None => []
           end
  end.

(** Lines 43-145: the new ideal point and the selected positions. *)
Definition apd_select_x (penalty : R) (ideal pop_ideal : list xr) (fit : list (list xr)) (cons : option (list (list R)))
    (vecs : list (list R)) (gam : list R) : res (list xr * list nat) :=
  bind (new_ideal_x ideal pop_ideal fit) (fun z =>
    let trs := map (fun f => xvsub f z) fit in
    Ok (z, flat_map (choose_x penalty vecs trs gam cons) (seq 0 (length vecs)))).
