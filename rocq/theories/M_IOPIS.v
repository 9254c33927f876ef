(** Model of desdeo_emo/problem/IOPIS.py (IOPISProblem) and of the IOPIS algorithms of EAs/IOPIS.py.
    The preference incorporated space (desdeo_tools, external) is a function [pis] of its map (utopian and nadir vectors), the
    preference and an objective vector (already multiplied by max_multiplier). Not modelled: NaN, rounding, ragged arrays. *)
From Verif Require Import Base.
From Coq Require Import QArith Qminmax String.
Open Scope nat_scope.

Fixpoint zipq {A B C} (f : A -> B -> C) (l : list A) (l' : list B) : list C :=
  match l, l' with x :: t, y :: t' => f x y :: zipq f t t' | _, _ => [] end.
Definition qmulv := zipq Qmult.
Definition qminv := zipq Qmin.
(** np.amin(np.vstack((first, rows)), axis=0) *)
Definition amin_rows (first : list Q) (rows : list (list Q)) : list Q := fold_left qminv rows first.

Section Problem.
Context {P : Type} (pis : list Q -> list Q -> P -> list Q -> list Q).

(** The attributes: _max_multiplier, nadir, ideal, ideal_fitness, nadir_fitness, and the state of the PIS object. *)
Record iprob := mkIP {
  ip_mult : list Q; ip_nadir : list Q; ip_ideal : list Q; ip_ideal_fit : list Q; ip_nadir_fit : list Q;
  pis_utopian : list Q; pis_nadir : list Q; pis_pref : P }.

Definition space (s : iprob) (obj : list Q) : list Q := pis (pis_utopian s) (pis_nadir s) (pis_pref s) (qmulv obj (ip_mult s)).

(** IOPIS.py:39-115 (an unknown PIS_type raises ValueError and is not modelled; [p]: initial_preference). *)
Definition new_iprob (mult ideal nadir : list Q) (p : P) : iprob :=
  let u := qmulv ideal mult in let n := qmulv nadir mult in
  mkIP mult nadir ideal (pis u n p u) (pis u n p n) u n p.

(** IOPIS.py:121-130 *)
Definition evaluate_fitness (s : iprob) (objs : list (list Q)) : list (list Q) := map (space s) objs.

(** IOPIS.py:157-178 *)
Definition update_ideal (s : iprob) (objs fits : list (list Q)) : iprob :=
  let ifit := amin_rows (ip_ideal_fit s) fits in
  let ideal := qmulv (amin_rows (qmulv (ip_ideal s) (ip_mult s)) (map (fun o => qmulv o (ip_mult s)) objs)) (ip_mult s) in
  mkIP (ip_mult s) (ip_nadir s) ideal ifit (ip_nadir_fit s) (qmulv ideal (ip_mult s)) (qmulv (ip_nadir s) (ip_mult s)) (pis_pref s).

(** IOPIS.py:132-146 *)
Definition reevaluate_fitness (s : iprob) (objs : list (list Q)) : iprob * list (list Q) :=
  let fits := evaluate_fitness s objs in
  let s1 := mkIP (ip_mult s) (ip_nadir s) (ip_ideal s) (space s (ip_ideal s)) (ip_nadir_fit s) (pis_utopian s) (pis_nadir s) (pis_pref s) in
  (update_ideal s1 objs fits, fits).

(** IOPIS.py:148-155 *)
Definition update_preference (s : iprob) (p : P) : iprob :=
  mkIP (ip_mult s) (ip_nadir s) (ip_ideal s) (ip_ideal_fit s) (ip_nadir_fit s) (pis_utopian s) (pis_nadir s) p.

(** IOPIS.py:196-225, PIS types IOPIS and MultiDM, with a preference of the right type ([pop_ideal], [pop_nadir]: the population's vectors);
    for Classification a TypeError is raised and nothing changes. *)
Inductive pis_type := TypeIOPIS | TypeMultiDM | TypeClassification.
Definition manage_preferences (t : pis_type) (right_type : bool) (s : iprob) (pop_ideal pop_nadir : list Q) (p : P) : iprob * res unit :=
  match t with
  | TypeClassification => (s, Err TypeError)
  | _ => if negb right_type then (s, Err TypeError)
         else (mkIP (ip_mult s) (ip_nadir s) (ip_ideal s) (ip_ideal_fit s) (ip_nadir_fit s)
                    (qmulv pop_ideal (ip_mult s)) (qmulv pop_nadir (ip_mult s)) p, Ok tt)
  end.

(** BaseEA.py:271-275 with interaction location "Problem": manage_preferences, then population.reevaluate_fitness. *)
Definition ea_preferences (t : pis_type) (right_type : bool) (s : iprob) (pop_ideal pop_nadir : list Q) (p : P) (objs : list (list Q))
  : iprob * res (list (list Q)) :=
  match manage_preferences t right_type s pop_ideal pop_nadir p with
  | (s', Ok _) => let '(s'', f) := reevaluate_fitness s' objs in (s'', Ok f)
  | (s', Err e) => (s', Err e)
  end.

(** What can happen to a problem: evaluations (MOProblem.evaluate, external, calls update_ideal), re-evaluations, preferences. *)
Inductive op := OpUpdate (objs fits : list (list Q)) | OpReeval (objs : list (list Q)) | OpPref (p : P)
              | OpManage (t : pis_type) (right_type : bool) (pop_ideal pop_nadir : list Q) (p : P).
Definition apply_op (s : iprob) (o : op) : iprob :=
  match o with
  | OpUpdate objs fits => update_ideal s objs fits
  | OpReeval objs => fst (reevaluate_fitness s objs)
  | OpPref p => update_preference s p
  | OpManage t b i n p => fst (manage_preferences t b s i n p)
  end.
End Problem.
Arguments iprob : clear implicits.
Arguments op : clear implicits.

(** *** The IOPIS algorithms: attribute lookup in the selection operators. *)
Local Open Scope string_scope.
Inductive cls := C_SelectionBase | C_Interactive | C_NSGAIII_select | C_IOPIS_APD | C_IOPIS_NSGAIII | C_APD_Select.
(** Base classes: SelectionBase.py:17, 37; IOPIS_APD.py:9; IOPIS_NSGAIII.py:10; NSGAIII_select.py; APD_Select_constraints.py. *)
Definition base (c : cls) : option cls :=
  match c with
  | C_SelectionBase => None
  | C_Interactive => Some C_SelectionBase
  | C_NSGAIII_select | C_APD_Select => Some C_Interactive
  | C_IOPIS_APD => Some C_SelectionBase
  | C_IOPIS_NSGAIII => Some C_NSGAIII_select
  end.
(** Methods defined in each class body. *)
Definition methods (c : cls) : list string :=
  match c with
  | C_SelectionBase => ["do"]
  | C_Interactive => ["_calculate_fitness"; "set_interaction_type"; "adapt_RVs"; "request_preferences"; "request_reference_point";
                      "request_preferred_solutions"; "request_non_preferred_solutions"; "request_preferred_ranges"; "manage_preferences";
                      "manage_preferred_solutions"; "manage_non_preferred_solutions"; "manage_preferred_ranges"; "manage_reference_point"]
  | C_NSGAIII_select => ["do"; "get_extreme_points_c"; "get_nadir_point"; "niching"; "associate_to_niches"; "calc_niche_count"; "calc_perpendicular_distance"; "_calculate_fitness"]
  | C_APD_Select => ["do"; "_partial_penalty_factor"]
  | C_IOPIS_APD => ["do"; "_partial_penalty_factor"]
  | C_IOPIS_NSGAIII => ["do"]
  end.
(** Attributes set by the constructor: IOPIS_APD.py:23-32, IOPIS_NSGAIII.py:11-25 (neither calls the base constructor);
    SelectionBase.py:44-82 through super().__init__ for the others. *)
Definition attributes (c : cls) : list string :=
  match c with
  | C_IOPIS_APD => ["time_penalty_function"; "alpha"; "n_of_objectives"; "scalarization_methods"]
  | C_IOPIS_NSGAIII => ["scalarization_methods"; "worst_fitness"; "extreme_points"; "n_survive"; "ideal"]
  | C_NSGAIII_select => ["vectors"; "selection_type"; "_interaction_request_id"; "allowable_interaction_types"; "interaction_type";
                         "worst_fitness"; "extreme_points"; "n_survive"; "ideal"]
  | C_APD_Select => ["vectors"; "selection_type"; "_interaction_request_id"; "allowable_interaction_types"; "interaction_type";
                     "time_penalty_function"; "alpha"; "n_of_fitnesses"; "ideal"]
  | _ => []
  end.
Fixpoint has_method (fuel : nat) (c : cls) (m : string) : bool :=
  match fuel with
  | O => false
  | S f => if existsb (String.eqb m) (methods c) then true
           else match base c with Some b => has_method f b m | None => false end
  end.
(** SelectionBase.py:102-104: adapt_RVs uses self.vectors. *)
Definition adapt_RVs (c : cls) : res unit :=
  if negb (has_method 4 c "adapt_RVs") then Err AttributeError
  else if existsb (String.eqb "vectors") (attributes c) then Ok tt else Err AttributeError.

(** BaseEA attributes relevant here: interact, _interaction_location (None for the IOPIS algorithms, which never set it),
    interaction_type_set_bool; the operator. *)
Inductive location := LocSelection | LocProblem | LocPopulation | LocEA.
Record ea := mkEA { ea_op : cls; ea_interact : bool; ea_loc : option location; ea_set : bool }.
Definition iopis_rvea : ea := mkEA C_IOPIS_APD true None false.
Definition iopis_nsga3 : ea := mkEA C_IOPIS_NSGAIII true None false.
(** EAs/RVEA.py with the default arguments, for comparison. *)
Definition plain_rvea : ea := mkEA C_APD_Select false None false.

Definition loc_is_selection (l : option location) : bool := match l with Some LocSelection => true | _ => false end.
(** BaseEA.py:437-442. *)
Definition pre_iteration (e : ea) : res unit :=
  bind (if negb (ea_interact e) then adapt_RVs (ea_op e) else Ok tt) (fun _ =>
  if negb (loc_is_selection (ea_loc e)) then adapt_RVs (ea_op e) else Ok tt).
(** BaseEA.py:211-243: with no interaction location nothing happens and None is returned. *)
Definition set_interaction_type (e : ea) : ea :=
  match ea_loc e with
  | None => e
  | Some LocEA => mkEA (ea_op e) (ea_interact e) (ea_loc e) false
  | Some _ => mkEA (ea_op e) (ea_interact e) (ea_loc e) true
  end.
(** BaseEA.py:82-104 (the population and the operator exist). *)
Definition start (e : ea) : res unit := if ea_interact e && negb (ea_set e) then Err EaError else Ok tt.
(** BaseEA.py:138-152: [manage]: the outcome of manage_preferences (EAs/IOPIS.py:91-126); [gens]: the outcome of the generations. *)
Definition iterate (e : ea) (manage gens : res unit) : res unit :=
  bind manage (fun _ => bind (pre_iteration e) (fun _ => gens)).
