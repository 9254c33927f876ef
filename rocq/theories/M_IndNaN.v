(** Model of the environmental selection of the indicator based EAs with failed evaluations: objectives and fitness values may be infinite or NaN.
    desdeo_emo/EAs/BaseIndicatorEA.py [_next_gen] 106-119, IBEA.py [_fitness_assignment] 86-97 and [_environmental_selection] 99-108, PBEA.py 94-125.
    As M_Indicator.v and M_PBEA.v otherwise; numbers are those of M_APDnan.v (finite arithmetic is that of the reals, the rest follows IEEE 754): np.argmin returns the first NaN if there
    is one, np.min and np.max propagate NaN, comparisons with NaN are false. kappa, delta and the reference point are finite. The indicators of desdeo_tools, not in this
    repository, are restated as in M_PBEA.v: epsilon_indicator keeps the largest difference found so far unless the next one is greater (so a NaN difference is passed over). *)
From Coq Require Import Reals.
From Verif Require Import Base RVec M_APDnan M_Indicator.
Open Scope R_scope.

(** np.exp *)
Definition xexp (a : xr) : xr := match a with Fin x => Fin (exp x) | PInf => PInf | MInf => Fin 0 | NaN => NaN end.
(** np.maximum *)
Definition xmax (a b : xr) : xr := if is_nan a || is_nan b then NaN else if xltb a b then b else a.
(** np.argmin: the first NaN, otherwise the first minimum. *)
Fixpoint xargmin_from (best : nat) (bv : xr) (i : nat) (l : list xr) : nat :=
  match l with
  | [] => best
  | x :: t => if negb (is_nan bv) && (is_nan x || xltb x bv) then xargmin_from i x (S i) t else xargmin_from best bv (S i) t
  end.
Definition xargmin (l : list xr) : option nat := match l with [] => None | x :: t => Some (xargmin_from 0 x 1 t) end.

Section IndicatorX.
Context {M : Type} (ind : M -> M -> xr) (kappa : R).

(** np.exp(-indicator(a, b) / kappa), IBEA.py:93, 106. *)
Definition term_x (a b : M) : xr := xexp (xdiv (xopp (ind a b)) (Fin kappa)).
(** IBEA.py:90-96: the inner loop for one [i]. *)
Definition assign_one_x (pop : list M) (i : nat) (m : M) : xr :=
  fold_left (fun acc p => if Nat.eqb (fst p) i then acc else xadd acc (xopp (term_x m (snd p))))
    (combine (seq 0 (length pop)) pop) (Fin 0).
(** IBEA.py:86-97. *)
Definition fitness_assignment_x (pop : list M) : list xr :=
  map (fun p => assign_one_x pop (fst p) (snd p)) (combine (seq 0 (length pop)) pop).
(** IBEA.py:99-108. *)
Definition env_update_x (pop : list M) (fit : list xr) (worst : nat) (w : M) : list xr :=
  map (fun p => if Nat.eqb worst (fst p) then fst (snd p) else xadd (fst (snd p)) (term_x (snd (snd p)) w))
    (combine (seq 0 (length pop)) (combine fit pop)).
(** BaseIndicatorEA.py:114-119: the while loop. [None]: not finished with this fuel. *)
Fixpoint env_loop_x (fuel : nat) (pop_size : nat) (pop : list M) (fit : list xr) : option (res (list M * list xr)) :=
  if Nat.ltb pop_size (length pop) then
    match fuel with
    | O => None
    | S fuel' =>
        match xargmin fit with
        | None => Some (Err ValueError)
        | Some worst =>
            match nth_error pop worst with
            | None => Some (Err IndexError)
            | Some w => env_loop_x fuel' pop_size (delete_row worst pop) (delete_row worst (env_update_x pop fit worst w))
            end
        end
    end
  else Some (Ok (pop, fit)).
(** BaseIndicatorEA.py:110-119: assignment and removal. *)
Definition env_x (pop_size : nat) (pop : list M) : option (res (list M * list xr)) :=
  env_loop_x (length pop) pop_size pop (fitness_assignment_x pop).
End IndicatorX.

(** desdeo_tools.utilities.quality_indicator.epsilon_indicator. *)
Definition eps_ind_x (s1 s2 : list xr) : xr := fold_left (fun e v => if xltb e v then v else e) (vmap2 xsub s2 s1) (Fin 0).
(** desdeo_tools.scalarization.SimpleASF(ones): np.max; of nothing it raises, which is not modelled. *)
Fixpoint xmax_list (x : xr) (l : list xr) : xr := match l with [] => x | y :: t => xmax x (xmax_list y t) end.
Fixpoint xmin_list (x : xr) (l : list xr) : xr := match l with [] => x | y :: t => xmin x (xmin_list y t) end.
Definition simple_asf_x (f : list xr) (ref : list R) : xr := match vmap2 xsub f (map Fin ref) with [] => Fin 0 | x :: t => xmax_list x t end.
(** desdeo_tools.utilities.quality_indicator.preference_indicator. *)
Definition pref_ind_x (s1 s2 : list xr) (min_asf : xr) (ref : list R) (delta : R) : xr :=
  xdiv (eps_ind_x s1 s2) (xsub (xadd (simple_asf_x s2 ref) (Fin delta)) min_asf).

(** A row of the population: objectives and fitness. *)
Record member_x := mkMemberX { x_obj : list xr; x_fit : list xr }.
(** IBEA.py:93, 106. *)
Definition ibea_ind_x (a b : member_x) : xr := eps_ind_x (x_fit a) (x_fit b).
(** PBEA.py:97-100. *)
Definition pbea_min_asf_x (ref : list R) (pop : list member_x) : xr :=
  match map (fun m => simple_asf_x (x_obj m) ref) pop with [] => Fin 0 | x :: t => xmin_list x t end.
(** PBEA.py:105-106, 121-123; [pop0]: the population at the start of the generation. *)
Definition pbea_ind_x (ref : list R) (delta : R) (pop0 : list member_x) (a b : member_x) : xr :=
  pref_ind_x (x_fit a) (x_fit b) (pbea_min_asf_x ref pop0) ref delta.
(** BaseIndicatorEA.py:106-119 of an IBEA and of a PBEA. *)
Definition ibea_env_x (kappa : R) (pop_size : nat) (pop : list member_x) : option (res (list member_x * list xr)) :=
  env_x ibea_ind_x kappa pop_size pop.
Definition pbea_env_x (ref : list R) (delta kappa : R) (pop_size : nat) (pop : list member_x) : option (res (list member_x * list xr)) :=
  env_x (pbea_ind_x ref delta pop) kappa pop_size pop.
