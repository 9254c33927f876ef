(** Specification vocabulary for constructor calls, independent of how the classes forward arguments. *)
From Coq Require Import String QArith.
From Verif Require Import Base M_Ctor.
Open Scope string_scope.

(** The caller passed [v] for parameter [x]: at [x]'s position, or by keyword. *)
Definition passed (names : list string) (pos : list val) (kw : list (string * val)) (x : string) (v : val) : Prop :=
  (exists k, nth_error names k = Some x /\ nth_error pos k = Some v) \/ In (x, v) kw.

(** The value of [x] is the one passed, or [d] if none was. *)
Definition given_or (names : list string) pos kw (x : string) (d : val) (v : val) : Prop :=
  passed names pos kw x v \/ ((forall w, ~ passed names pos kw x w) /\ v = d).

(** When Python accepts a call of a function with parameters [names], [req] being those without default:
    not too many positional arguments; keywords name parameters, none of them already given by position;
    every required parameter is passed. *)
Definition accepted (names req : list string) (pos : list val) (kw : list (string * val)) : Prop :=
  (List.length pos <= List.length names)%nat /\
  (forall x v, In (x, v) kw -> In x names) /\
  (forall x v k, In (x, v) kw -> nth_error names k = Some x -> (List.length pos <= k)%nat) /\
  (forall x, In x req -> exists v, passed names pos kw x v).

(** The parameter lists of the public classes, in order (as documented). *)
Definition params (c : cls) : list string :=
  match c with
  | RVEA => ["problem"; "population_size"; "population_params"; "initial_population"; "alpha"; "lattice_resolution";
             "selection_type"; "interact"; "use_surrogates"; "n_iterations"; "n_gen_per_iter";
             "total_function_evaluations"; "time_penalty_component"; "keep_archive"; "save_non_dominated"]
  | NSGAIII => ["problem"; "population_size"; "population_params"; "n_survive"; "initial_population";
                "lattice_resolution"; "selection_type"; "interact"; "use_surrogates"; "n_iterations"; "n_gen_per_iter";
                "total_function_evaluations"; "keep_archive"; "save_non_dominated"]
  | MOEA_D => ["problem"; "n_neighbors"; "n_parents"; "use_repair"; "initial_population"; "population_size";
               "population_params"; "lattice_resolution"; "interact"; "n_iterations"; "n_gen_per_iter"; "use_surrogates";
               "total_function_evaluations"; "scalarization_function"; "keep_archive"; "save_non_dominated"]
  | IK_RVEA => ["problem"; "population_size"; "population_params"; "initial_population"; "alpha"; "lattice_resolution";
                "selection_type"; "a_priori"; "interact"; "use_surrogates"; "n_iterations"; "n_gen_per_iter";
                "number_of_update"; "total_function_evaluations"; "time_penalty_component"]
  | IBEA => ["problem"; "population_size"; "initial_population"; "a_priori"; "interact"; "population_params";
             "n_iterations"; "n_gen_per_iter"; "total_function_evaluations"; "use_surrogates"; "kappa"; "indicator"]
  | PBEA => ["problem"; "population_size"; "initial_population"; "a_priori"; "interact"; "n_iterations"; "n_gen_per_iter";
             "total_function_evaluations"; "use_surrogates"; "kappa"; "indicator"; "population_params";
             "reference_point"; "delta"]
  | PPGA => ["problem"; "population_size"; "population_params"; "initial_population"; "n_iterations"; "n_gen_per_iter";
             "predator_pop_size"; "prey_max_moves"; "prob_prey_move"; "offspring_place_attempts"; "kill_interval";
             "max_rank"; "neighbourhood_radius"]
  | TournamentEA => ["problem"; "initial_population"; "n_gen_per_iter"; "n_iterations"; "tournament_size"; "population_size"]
  | IOPIS_RVEA => ["problem"; "population_size"; "population_params"; "initial_population"; "alpha"; "lattice_resolution";
                   "n_iterations"; "n_gen_per_iter"; "total_function_evaluations"; "time_penalty_component"; "use_surrogates"]
  | IOPIS_NSGAIII => ["problem"; "population_size"; "population_params"; "initial_population"; "lattice_resolution";
                      "n_iterations"; "n_gen_per_iter"; "total_function_evaluations"; "use_surrogates"]
  end.

(** The parameters that must be passed. *)
Definition required (c : cls) : list string :=
  match c with
  | IBEA => ["problem"; "population_size"]
  | PBEA => ["problem"; "population_size"; "initial_population"]
  | TournamentEA => ["problem"; "initial_population"]
  | _ => ["problem"]
  end.

(** The run settings common to all classes, with the attribute that holds each. *)
Definition setting (i : inst) (x : string) : option val :=
  if String.eqb x "a_priori" then Some (i_a_priori i)
  else if String.eqb x "interact" then Some (i_interact i)
  else if String.eqb x "n_iterations" then Some (i_n_iterations i)
  else if String.eqb x "n_gen_per_iter" then Some (i_n_gen_per_iter i)
  else if String.eqb x "total_function_evaluations" then Some (i_total_fe i)
  else if String.eqb x "use_surrogates" then Some (i_surrogates i)
  else if String.eqb x "keep_archive" then Some (i_archive i)
  else if String.eqb x "save_non_dominated" then Some (i_save_nd i)
  else None.

(** Their documented defaults; the interactive IOPIS algorithms are always interactive. *)
Definition setting_default (c : cls) (x : string) : val :=
  match c with
  | IOPIS_RVEA | IOPIS_NSGAIII =>
      if String.eqb x "a_priori" then VBool true else if String.eqb x "interact" then VBool true
      else if String.eqb x "n_iterations" then VInt 10 else if String.eqb x "n_gen_per_iter" then VInt 100
      else if String.eqb x "total_function_evaluations" then VInt 0 else VBool false
  | PPGA | TournamentEA =>
      if String.eqb x "n_iterations" then VInt 10 else if String.eqb x "n_gen_per_iter" then VInt 10
      else if String.eqb x "total_function_evaluations" then VInt 0 else VBool false
  | _ =>
      if String.eqb x "n_iterations" then VInt 10 else if String.eqb x "n_gen_per_iter" then VInt 100
      else if String.eqb x "total_function_evaluations" then VInt 0 else VBool false
  end.

(** Class specific options and the attribute under which the object (or its selection operator) keeps
    them, with the documented default. *)
Definition own_options (c : cls) : list (string * string * val) :=
  match c with
  | RVEA => [("alpha", "alpha", VInt 2); ("selection_type", "selection_type", VNone)]
  | NSGAIII => [("selection_type", "selection_type", VNone); ("n_survive", "n_survive", VNone)]
  | MOEA_D => [("use_repair", "use_repair", VBool true); ("n_parents", "n_parents", VInt 2);
               ("scalarization_function", "scalarization_function", VObj "PBI"); ("n_neighbors", "n_neighbors", VInt 20)]
  | IBEA => [("kappa", "kappa", VFloat (5#100)); ("indicator", "indicator", VObj "epsilon_indicator")]
  | PBEA => [("kappa", "kappa", VFloat (5#100)); ("delta", "delta", VFloat (1#10));
             ("indicator", "indicator", VObj "preference_indicator"); ("reference_point", "reference_point", VNone)]
  | PPGA => [("population_size", "target_pop_size", VInt 100); ("predator_pop_size", "predator_pop_size", VInt 50);
             ("prey_max_moves", "prey_max_moves", VInt 10); ("prob_prey_move", "prob_prey_move", VFloat (3#10));
             ("offspring_place_attempts", "offspring_place_attempts", VInt 10); ("kill_interval", "kill_interval", VInt 7);
             ("max_rank", "max_rank", VInt 20); ("neighbourhood_radius", "neighbourhood_radius", VInt 3)]
  | TournamentEA => [("tournament_size", "tournament_size", VInt 5); ("population_size", "target_pop_size", VInt 500)]
  | IOPIS_RVEA => [("alpha", "alpha", VNone)]
  | IK_RVEA | IOPIS_NSGAIII => []
  end.
