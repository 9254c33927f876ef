(** Extended numbers (infinities and NaN) in the creation, crossover, mutation and repair of real-valued individuals: CreateIndividuals.py:41-57, SimulatedBinaryCrossover.py:44-69,
    BoundedPolynomialMutation.py:33-65, Population.py:274-291. M_Create and M_Recombination have them for finite numbers. Bounds may be infinite (the defaults of desdeo_problem's variables are). No rounding. *)
From Coq Require Import Reals.
From Verif Require Import Base M_APDnan M_Recombination.
Open Scope R_scope.

(** CreateIndividuals.py:46 / 55: individuals * (upper - lower) + lower, one row of samples. *)
Definition scale_gene_x (s : R) (l u : xr) : xr := xadd (xmul (Fin s) (xsub u l)) l.
Fixpoint scale_row_x (ss : list R) (lbs ubs : list xr) : list xr :=
  match ss, lbs, ubs with s :: ss', l :: lbs', u :: ubs' => scale_gene_x s l u :: scale_row_x ss' lbs' ubs' | _, _, _ => [] end.

(** x ** y with y > 0 ([npow] is undefined only for negative x and a y that is no integer: NaN). *)
Definition xpow (x : xr) (y : R) : xr :=
  match x with
  | Fin v => match npow v y with Some z => Fin z | None => NaN end
  | PInf => PInf
  | MInf => if Req_EM_T y (IZR (Int_part y)) then (if Z.odd (Int_part y) then MInf else PInf) else PInf
  | NaN => NaN
  end.

(** SimulatedBinaryCrossover.py:65-68, one gene; [beta]: lines 59-64, any number. *)
Definition sbx_gene_x (beta x y : xr) : xr * xr :=
  let avg := xdiv (xadd x y) (Fin 2) in
  let diff := xdiv (xsub x y) (Fin 2) in
  (xadd avg (xmul beta diff), xsub avg (xmul beta diff)).
Fixpoint sbx_row_x (beta : nat -> xr) (j : nat) (p q : list xr) : list (xr * xr) :=
  match p, q with x :: p', y :: q' => sbx_gene_x (beta j) x y :: sbx_row_x beta (S j) p' q' | _, _ => [] end.
Definition sbx_pair_x (beta : nat -> nat -> xr) (k : nat) (p q : list xr) : list xr * list xr :=
  (map fst (sbx_row_x (beta k) 0 p q), map snd (sbx_row_x (beta k) 0 p q)).
(** SBX_xover.do (lines 44-69). *)
Definition sbx_do_x (beta : nat -> nat -> xr) (pop : list (list xr)) (ids : list Z) : res (list (list xr)) :=
  bind (take_rows pop ids) (fun mp => Ok (pairs_loop (sbx_pair_x beta) 0 (close_odd mp))).

(** BoundedPolynomialMutation.py:63-64: both clamps. *)
Definition clamp_x (lb ub v : xr) : xr :=
  let v := if xltb ub v then ub else v in
  if xltb v lb then lb else v.
(** BoundedPolynomialMutation.py:35-64, one gene with draws [k], [miu]. *)
Definition bp_gene_x (ProM DisM : R) (lb ub : xr) (k miu : R) (x : xr) : xr :=
  let range := xsub ub lb in
  let scaled := xdiv (xsub x lb) range in
  let x1 :=
    if Rle_dec k ProM then
      if Rlt_dec miu (1/2) then
        xadd x (xmul range (xsub (xpow (xadd (Fin (2 * miu)) (xmul (Fin (1 - 2 * miu)) (xpow (xsub (Fin 1) scaled) (DisM + 1)))) (1 / (DisM + 1))) (Fin 1)))
      else
        xadd x (xmul range (xsub (Fin 1) (xpow (xadd (Fin (2 * (1 - miu))) (xmul (Fin (2 * (miu - 1/2))) (xpow scaled (DisM + 1)))) (1 / (DisM + 1)))))
    else x in
  clamp_x lb ub x1.
Fixpoint bp_row_x (ProM DisM : R) (dr : nat -> R * R) (j : nat) (lbs ubs xs : list xr) : list xr :=
  match lbs, ubs, xs with
  | l :: lbs', u :: ubs', x :: xs' => bp_gene_x ProM DisM l u (fst (dr j)) (snd (dr j)) x :: bp_row_x ProM DisM dr (S j) lbs' ubs' xs'
  | _, _, _ => []
  end.
Fixpoint bp_rows_x (ProM DisM : R) (dr : nat -> nat -> R * R) (i : nat) (lbs ubs : list xr) (m : list (list xr)) : list (list xr) :=
  match m with [] => [] | r :: t => bp_row_x ProM DisM (dr i) 0 lbs ubs r :: bp_rows_x ProM DisM dr (S i) lbs ubs t end.
(** BP_mutation.do; rows and bounds of different lengths do not broadcast. *)
Definition bp_do_x (ProM DisM : R) (dr : nat -> nat -> R * R) (lbs ubs : list xr) (m : list (list xr)) : res (list (list xr)) :=
  if forallb (fun r => Nat.eqb (length r) (length lbs) && Nat.eqb (length r) (length ubs)) m then Ok (bp_rows_x ProM DisM dr 0 lbs ubs m) else Err ValueError.
(** Population.mate with the default operators (Population.py:234-239). *)
Definition mate_x (ProM DisM : R) (beta : nat -> nat -> xr) (dm : nat -> nat -> R * R) (lbs ubs : list xr) (pop : list (list xr)) (ids : list Z) : res (list (list xr)) :=
  bind (sbx_do_x beta pop ids) (bp_do_x ProM DisM dm lbs ubs).

(** Population.py:286-289 (both tests before both assignments), one gene. *)
Definition repair_gene_x (lb ub x : xr) : xr :=
  let up := xltb ub x in
  let lo := xltb x lb in
  let x1 := if up then ub else x in
  if lo then lb else x1.
Fixpoint repair_x (lbs ubs xs : list xr) : list xr :=
  match lbs, ubs, xs with l :: lbs', u :: ubs', x :: xs' => repair_gene_x l u x :: repair_x lbs' ubs' xs' | _, _, _ => [] end.
