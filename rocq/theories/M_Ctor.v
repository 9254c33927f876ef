(** Model of the constructors of every evolutionary algorithm class: how Python binds the caller's
    arguments to the parameters, and how each [__init__] hands them on to its base class.
    Files: desdeo_emo/EAs/{BaseEA,BaseIndicatorEA,RVEA,NSGAIII,MOEAD,IKRVEA,IBEA,PBEA,PPGA,
    TournamentEA,IOPIS}.py. *)
From Verif Require Import Base M_BaseEA.
From Coq Require Import String QArith.
Open Scope string_scope.

(** Which class a problem object belongs to. *)
Inductive pkind := PkMO | PkData | PkIOPIS | PkSurrogate.
(** A problem object as the constructors see it. [pr_bounds]: both [ideal] and [nadir] are known. *)
Record prob := mkProb { pr_id : nat; pr_kind : pkind; pr_nfit : nat; pr_bounds : bool }.
(** A population object. *)
Record popobj := mkPopobj { po_id : nat; po_nfit : nat; po_size : nat }.

(** Python values that may be passed. [VObj]: any other object. *)
Inductive val :=
| VNone | VBool (b : bool) | VInt (z : Z) | VFloat (q : Q) | VStr (s : string)
| VProblem (p : prob) | VPop (p : popobj) | VObj (s : string).

(** ** Call binding (Python language semantics) *)
(** A signature: parameter names in order with their defaults ([None]: required). *)
Notation signature := (list (string * option val)).
Notation env := (list (string * val)).

Fixpoint lookup (x : string) (e : env) : option val :=
  match e with
  | [] => None
  | (y, v) :: t => if String.eqb x y then Some v else lookup x t
  end.

Definition has_param (sg : signature) (x : string) : bool := existsb (fun p => String.eqb (fst p) x) sg.

(** The parameters filled by keyword or default, [sg] being those left after the positional ones. *)
Fixpoint fill (sg : signature) (kw : env) : res env :=
  match sg with
  | [] => Ok []
  | (x, d) :: t =>
      match lookup x kw, d with
      | Some v, _ | None, Some v => bind (fill t kw) (fun e => Ok ((x, v) :: e))
      | None, None => Err TypeError                      (* missing required argument *)
      end
  end.

(** Names bound by the positional arguments; too many: TypeError. *)
Fixpoint fill_pos (sg : signature) (pos : list val) (kw : env) : res env :=
  match pos, sg with
  | [], _ => fill sg kw
  | v :: pos', [] => Err TypeError                        (* too many positional arguments *)
  | v :: pos', (x, _) :: sg' =>
      match lookup x kw with
      | Some _ => Err TypeError                           (* multiple values for argument *)
      | None => bind (fill_pos sg' pos' kw) (fun e => Ok ((x, v) :: e))
      end
  end.

Definition bind_call (sg : signature) (pos : list val) (kw : env) : res env :=
  if forallb (fun p => has_param sg (fst p)) kw           (* unexpected keyword argument *)
  then fill_pos sg pos kw else Err TypeError.

(** Reading a bound parameter (every parameter is bound after [bind_call]). *)
Definition get (e : env) (x : string) : val := match lookup x e with Some v => v | None => VNone end.

(** ** What a constructed object holds *)
(** The population of the new object: the one given, or a new one made of
    [Population(problem, size, params, use_surrogates)]. *)
Inductive popsrc := Given (p : popobj) | Created (problem : prob) (size : Z) (params surrogates : val).

(** Where interaction is handled (BaseEA.py:383-387). *)
Inductive where_ := Nowhere | InSelection | InProblem.

Record inst := mkInst {
  i_a_priori : val; i_interact : val; i_n_iterations : val; i_n_gen_per_iter : val;
  i_total_gen : Z; i_total_fe : val; i_selop : val; i_surrogates : val; i_archive : val; i_save_nd : val;
  i_fec : Z; i_loc : where_; i_type_set : bool; i_pop : option popsrc;
  i_own : env }.                     (* class specific attributes *)

Definition truthy (v : val) : bool :=
  match v with
  | VNone => false | VBool b => b | VInt z => negb (Z.eqb z 0)
  | VFloat q => negb (Qeq_bool q 0) | VStr s => negb (String.eqb s "") | _ => true
  end.

(** [a * b] as the code needs it: integers (a bool is one); [None] raises; other types are not modelled. *)
Definition as_int (v : val) : option Z :=
  match v with VInt z => Some z | VBool b => Some (if b then 1 else 0)%Z | _ => None end.
Definition py_mul (a b : val) : res Z :=
  match a, b with
  | VNone, _ | _, VNone => Err TypeError
  | _, _ => match as_int a, as_int b with Some x, Some y => Ok (x * y)%Z | _, _ => Err Unmodelled end
  end.

(** BaseEA.py:24-37. *)
Definition sig_BaseEA : signature :=
  [("a_priori", Some (VBool false)); ("interact", Some (VBool false)); ("selection_operator", Some VNone);
   ("n_iterations", Some (VInt 10)); ("n_gen_per_iter", Some (VInt 100));
   ("total_function_evaluations", Some (VInt 0)); ("use_surrogates", Some (VBool false));
   ("keep_archive", Some (VBool false)); ("save_non_dominated", Some (VBool false))].

(** BaseEA.py:38-61. *)
Definition init_BaseEA (kw : env) : res inst :=
  bind (bind_call sig_BaseEA [] kw) (fun e =>
  bind (py_mul (get e "n_gen_per_iter") (get e "n_iterations")) (fun tot =>
  Ok (mkInst (get e "a_priori") (get e "interact") (get e "n_iterations") (get e "n_gen_per_iter") tot
        (get e "total_function_evaluations") (get e "selection_operator") (get e "use_surrogates")
        (get e "keep_archive") (get e "save_non_dominated") 0 Nowhere false None []))).

(** A constructor call forwards the named parameters [x = x]. *)
Definition forward (e : env) (xs : list string) : env := map (fun x => (x, get e x)) xs.

Definition with_pop (i : inst) (p : popsrc) (fe : Z) : inst :=
  mkInst (i_a_priori i) (i_interact i) (i_n_iterations i) (i_n_gen_per_iter i) (i_total_gen i) (i_total_fe i)
    (i_selop i) (i_surrogates i) (i_archive i) (i_save_nd i) (i_fec i + fe) (i_loc i) (i_type_set i) (Some p) (i_own i).
Definition with_loc (i : inst) (l : where_) (b : bool) : inst :=
  mkInst (i_a_priori i) (i_interact i) (i_n_iterations i) (i_n_gen_per_iter i) (i_total_gen i) (i_total_fe i)
    (i_selop i) (i_surrogates i) (i_archive i) (i_save_nd i) (i_fec i) l b (i_pop i) (i_own i).
Definition with_selop (i : inst) (v : val) : inst :=
  mkInst (i_a_priori i) (i_interact i) (i_n_iterations i) (i_n_gen_per_iter i) (i_total_gen i) (i_total_fe i)
    v (i_surrogates i) (i_archive i) (i_save_nd i) (i_fec i) (i_loc i) (i_type_set i) (i_pop i) (i_own i).
Definition with_own (i : inst) (e : env) : inst :=
  mkInst (i_a_priori i) (i_interact i) (i_n_iterations i) (i_n_gen_per_iter i) (i_total_gen i) (i_total_fe i)
    (i_selop i) (i_surrogates i) (i_archive i) (i_save_nd i) (i_fec i) (i_loc i) (i_type_set i) (i_pop i) (i_own i ++ e).

(** BaseEA.py:358-372. *)
Definition sig_Decomposition : signature :=
  [("problem", Some VNone); ("initial_population", Some VNone); ("population_size", Some VNone);
   ("population_params", Some VNone); ("lattice_resolution", Some VNone); ("interact", Some (VBool false));
   ("n_iterations", Some (VInt 10)); ("n_gen_per_iter", Some (VInt 100)); ("use_surrogates", Some (VBool false));
   ("total_function_evaluations", Some (VInt 0)); ("keep_archive", Some (VBool false));
   ("save_non_dominated", Some (VBool false))].

Definition is_none (v : val) : bool := match v with VNone => true | _ => false end.

(** [problem.n_of_fitnesses] needs a problem object; the population likewise. *)
Definition as_problem (v : val) : res prob := match v with VProblem p => Ok p | _ => Err AttributeError end.
Definition as_pop (v : val) : res popobj := match v with VPop p => Ok p | _ => Err AttributeError end.

(** BaseEA.py:399-413: the size of a new population. [comb] on naturals; other argument types not modelled. *)
Definition new_size (p : prob) (size lattice : val) : res Z :=
  if is_none size then
    bind (if is_none lattice then default_resolution (pr_nfit p)
          else match lattice with VInt (Z.pos r) => Ok (Pos.to_nat r) | VInt 0 => Ok O | _ => Err Unmodelled end) (fun r =>
    Ok (Z.of_nat (binom (r + pr_nfit p - 1) (pr_nfit p - 1))))
  else match size with VInt z => Ok z | _ => Err Unmodelled end.

(** BaseEA.py:383-387. [isinstance(problem, (MOProblem, DataProblem))] also holds for an IOPISProblem
    (problem/IOPIS.py:21), whose branch then overrides. *)
Definition locate (i : inst) (problem : val) : inst :=
  if truthy (i_interact i) then
    match problem with
    | VProblem p => match pr_kind p with
                    | PkMO | PkData => with_loc i InSelection false
                    | PkIOPIS => with_loc i InProblem true
                    | PkSurrogate => i
                    end
    | _ => i
    end
  else i.

(** BaseEA.py:372-419. *)
Definition init_Decomposition (kw : env) : res inst :=
  bind (bind_call sig_Decomposition [] kw) (fun e =>
  bind (init_BaseEA (forward e ["interact"; "n_iterations"; "n_gen_per_iter"; "total_function_evaluations";
                                "use_surrogates"; "keep_archive"; "save_non_dominated"])) (fun i0 =>
  let i := locate i0 (get e "problem") in
  if negb (is_none (get e "initial_population")) then
    if negb (is_none (get e "problem")) then Err EaError
    else bind (as_pop (get e "initial_population")) (fun p => Ok (with_pop i (Given p) 0))
  else if is_none (get e "problem") then Err EaError
  else bind (as_problem (get e "problem")) (fun p =>
       bind (new_size p (get e "population_size") (get e "lattice_resolution")) (fun n =>
       Ok (with_pop i (Created p n (get e "population_params") (get e "use_surrogates")) n))))).

(** RVEA.py:99-117. *)
Definition sig_RVEA : signature :=
  [("problem", None); ("population_size", Some VNone); ("population_params", Some VNone);
   ("initial_population", Some VNone); ("alpha", Some (VInt 2)); ("lattice_resolution", Some VNone);
   ("selection_type", Some VNone); ("interact", Some (VBool false)); ("use_surrogates", Some (VBool false));
   ("n_iterations", Some (VInt 10)); ("n_gen_per_iter", Some (VInt 100));
   ("total_function_evaluations", Some (VInt 0)); ("time_penalty_component", Some VNone);
   ("keep_archive", Some (VBool false)); ("save_non_dominated", Some (VBool false))].

(** RVEA.py:131-173: the time penalty, [UnboundLocalError] if neither a float nor one of the three
    names (the eaErrors are built but not raised). The result is the name of the function used. *)
Definition penalty (interact total tpc : val) : res val :=
  let v := match tpc with
           | VNone => if match interact with VBool true => true | _ => false end then Ok (VStr "interactive")
                      else match as_int total with
                           | Some z => Ok (VStr (if (0 <? z)%Z then "function_count" else "original"))
                           | None => Err Unmodelled
                           end
           | v => Ok v
           end in
  bind v (fun v => match v with
    | VFloat q => Ok (VFloat q)
    | VStr s => if String.eqb s "original" || String.eqb s "function_count" || String.eqb s "interactive"
                then Ok (VStr s) else Err UnboundLocalError
    | _ => Err UnboundLocalError
    end).

(** RVEA.py:118-182; [operator_alpha] is the exponent the operator keeps
    (selection/APD_Select_constraints.py:36-38). The selection operator is assumed to be constructed without an exception
    (here and in the other classes). *)
Definition init_RVEA (pos : list val) (kw : env) : res inst :=
  bind (bind_call sig_RVEA pos kw) (fun e =>
  bind (init_Decomposition (forward e ["problem"; "population_size"; "population_params"; "initial_population";
          "lattice_resolution"; "interact"; "use_surrogates"; "n_iterations"; "n_gen_per_iter";
          "total_function_evaluations"; "keep_archive"; "save_non_dominated"])) (fun i =>
  bind (penalty (get e "interact") (get e "total_function_evaluations") (get e "time_penalty_component")) (fun p =>
  Ok (with_selop (with_own i (("time_penalty", p) :: ("operator_alpha", if is_none (get e "alpha") then VInt 2 else get e "alpha")
                              :: forward e ["alpha"; "selection_type"])) (VObj "APD_Select"))))).

(** NSGAIII.py:59-97. *)
Definition sig_NSGAIII : signature :=
  [("problem", None); ("population_size", Some VNone); ("population_params", Some VNone); ("n_survive", Some VNone);
   ("initial_population", Some VNone); ("lattice_resolution", Some VNone); ("selection_type", Some VNone);
   ("interact", Some (VBool false)); ("use_surrogates", Some (VBool false)); ("n_iterations", Some (VInt 10));
   ("n_gen_per_iter", Some (VInt 100)); ("total_function_evaluations", Some (VInt 0));
   ("keep_archive", Some (VBool false)); ("save_non_dominated", Some (VBool false))].
Definition init_NSGAIII (pos : list val) (kw : env) : res inst :=
  bind (bind_call sig_NSGAIII pos kw) (fun e =>
  bind (init_Decomposition (forward e ["problem"; "population_size"; "population_params"; "initial_population";
          "lattice_resolution"; "interact"; "use_surrogates"; "n_iterations"; "n_gen_per_iter";
          "total_function_evaluations"; "keep_archive"; "save_non_dominated"])) (fun i =>
  Ok (with_selop (with_own i (forward e ["selection_type"; "n_survive"])) (VObj "NSGAIII_select")))).

(** MOEAD.py:63-113. [n_parents != 2]: an int 2 or a float 2.0 is accepted. *)
Definition sig_MOEA_D : signature :=
  [("problem", None); ("n_neighbors", Some (VInt 20)); ("n_parents", Some (VInt 2)); ("use_repair", Some (VBool true));
   ("initial_population", Some VNone); ("population_size", Some VNone); ("population_params", Some VNone);
   ("lattice_resolution", Some VNone); ("interact", Some (VBool false)); ("n_iterations", Some (VInt 10));
   ("n_gen_per_iter", Some (VInt 100)); ("use_surrogates", Some (VBool false));
   ("total_function_evaluations", Some (VInt 0)); ("scalarization_function", Some (VObj "PBI"));
   ("keep_archive", Some (VBool false)); ("save_non_dominated", Some (VBool false))].
Definition is_two (v : val) : bool :=
  match v with VInt z => Z.eqb z 2 | VFloat q => Qeq_bool q 2 | _ => false end.
Definition init_MOEA_D (pos : list val) (kw : env) : res inst :=
  bind (bind_call sig_MOEA_D pos kw) (fun e =>
  bind (init_Decomposition (forward e ["problem"; "population_params"; "population_size"; "keep_archive";
          "initial_population"; "lattice_resolution"; "interact"; "use_surrogates"; "n_iterations";
          "n_gen_per_iter"; "total_function_evaluations"; "save_non_dominated"])) (fun i =>
  if is_two (get e "n_parents") then
    Ok (with_selop (with_own i (forward e ["use_repair"; "n_parents"; "scalarization_function"; "n_neighbors"])) (VObj "MOEAD_select"))
  else Err ValueError)).

(** IKRVEA.py:105-141: the call of [RVEA.__init__] passes [a_priori]. *)
Definition sig_IK_RVEA : signature :=
  [("problem", None); ("population_size", Some VNone); ("population_params", Some VNone);
   ("initial_population", Some VNone); ("alpha", Some (VInt 2)); ("lattice_resolution", Some VNone);
   ("selection_type", Some VNone); ("a_priori", Some (VBool false)); ("interact", Some (VBool true));
   ("use_surrogates", Some (VBool false)); ("n_iterations", Some (VInt 10)); ("n_gen_per_iter", Some (VInt 100));
   ("number_of_update", Some (VInt 10)); ("total_function_evaluations", Some (VInt 0));
   ("time_penalty_component", Some VNone)].
Definition init_IK_RVEA (pos : list val) (kw : env) : res inst :=
  bind (bind_call sig_IK_RVEA pos kw) (fun e =>
  bind (init_RVEA [] (forward e ["problem"; "population_size"; "population_params"; "initial_population";
          "lattice_resolution"; "a_priori"; "interact"; "use_surrogates"; "n_iterations"; "n_gen_per_iter";
          "total_function_evaluations"])) (fun i =>
  Ok (with_own i (forward e ["number_of_update"])))).

(** BaseIndicatorEA.py:58-100. *)
Definition sig_Indicator : signature :=
  [("problem", None); ("population_size", None); ("selection_operator", Some VNone); ("population_params", Some VNone);
   ("initial_population", Some VNone); ("a_priori", Some (VBool false)); ("interact", Some (VBool false));
   ("n_iterations", Some (VInt 10)); ("n_gen_per_iter", Some (VInt 100)); ("total_function_evaluations", Some (VInt 0));
   ("use_surrogates", Some (VBool false)); ("fitnesses", Some VNone)].
Definition init_Indicator (kw : env) : res inst :=
  bind (bind_call sig_Indicator [] kw) (fun e =>
  bind (init_BaseEA (forward e ["a_priori"; "interact"; "n_iterations"; "n_gen_per_iter";
          "total_function_evaluations"; "selection_operator"; "use_surrogates"])) (fun i =>
  if negb (is_none (get e "initial_population")) then
    bind (as_pop (get e "initial_population")) (fun p => Ok (with_pop i (Given p) 0))
  else bind (as_problem (get e "problem")) (fun p =>
       match get e "population_size" with
       | VInt n => Ok (with_pop i (Created p n (get e "population_params") (get e "use_surrogates")) n)
       | _ => Err Unmodelled
       end))).

(** IBEA.py:54-84. *)
Definition sig_IBEA : signature :=
  [("problem", None); ("population_size", None); ("initial_population", Some VNone); ("a_priori", Some (VBool false));
   ("interact", Some (VBool false)); ("population_params", Some VNone); ("n_iterations", Some (VInt 10));
   ("n_gen_per_iter", Some (VInt 100)); ("total_function_evaluations", Some (VInt 0));
   ("use_surrogates", Some (VBool false)); ("kappa", Some (VFloat (5#100))); ("indicator", Some (VObj "epsilon_indicator"))].
Definition indicator_args : list string :=
  ["problem"; "population_size"; "population_params"; "a_priori"; "interact"; "n_iterations"; "initial_population";
   "n_gen_per_iter"; "total_function_evaluations"; "use_surrogates"].
Definition init_IBEA (pos : list val) (kw : env) : res inst :=
  bind (bind_call sig_IBEA pos kw) (fun e =>
  bind (init_Indicator (forward e indicator_args)) (fun i =>
  Ok (with_selop (with_own i (forward e ["indicator"; "kappa"])) (VObj "TournamentSelection")))).

(** PBEA.py:59-96. *)
Definition sig_PBEA : signature :=
  [("problem", None); ("population_size", None); ("initial_population", None); ("a_priori", Some (VBool false));
   ("interact", Some (VBool false)); ("n_iterations", Some (VInt 10)); ("n_gen_per_iter", Some (VInt 100));
   ("total_function_evaluations", Some (VInt 0)); ("use_surrogates", Some (VBool false)); ("kappa", Some (VFloat (5#100)));
   ("indicator", Some (VObj "preference_indicator")); ("population_params", Some VNone);
   ("reference_point", Some VNone); ("delta", Some (VFloat (1#10)))].
Definition init_PBEA (pos : list val) (kw : env) : res inst :=
  bind (bind_call sig_PBEA pos kw) (fun e =>
  bind (init_Indicator (forward e indicator_args)) (fun i =>
  Ok (with_selop (with_own i (forward e ["kappa"; "delta"; "indicator"; "reference_point"])) (VObj "TournamentSelection")))).

(** PPGA.py:76-118. The lattice is assumed to be constructed without an exception. *)
Definition sig_PPGA : signature :=
  [("problem", None); ("population_size", Some (VInt 100)); ("population_params", Some VNone);
   ("initial_population", Some VNone); ("n_iterations", Some (VInt 10)); ("n_gen_per_iter", Some (VInt 10));
   ("predator_pop_size", Some (VInt 50)); ("prey_max_moves", Some (VInt 10)); ("prob_prey_move", Some (VFloat (3#10)));
   ("offspring_place_attempts", Some (VInt 10)); ("kill_interval", Some (VInt 7)); ("max_rank", Some (VInt 20));
   ("neighbourhood_radius", Some (VInt 3))].
Definition init_PPGA (pos : list val) (kw : env) : res inst :=
  bind (bind_call sig_PPGA pos kw) (fun e =>
  bind (init_BaseEA (forward e ["n_gen_per_iter"; "n_iterations"])) (fun i =>
  if is_none (get e "initial_population") then Err EaError
  else bind (as_pop (get e "initial_population")) (fun p =>
       Ok (with_own (with_pop i (Given p) 0)
             (("target_pop_size", get e "population_size")
              :: forward e ["predator_pop_size"; "prey_max_moves"; "prob_prey_move"; "offspring_place_attempts";
                            "kill_interval"; "max_rank"; "neighbourhood_radius"]))))).

(** TournamentEA.py:8-40. *)
Definition sig_TournamentEA : signature :=
  [("problem", None); ("initial_population", None); ("n_gen_per_iter", Some (VInt 10)); ("n_iterations", Some (VInt 10));
   ("tournament_size", Some (VInt 5)); ("population_size", Some (VInt 500))].
Definition init_TournamentEA (pos : list val) (kw : env) : res inst :=
  bind (bind_call sig_TournamentEA pos kw) (fun e =>
  bind (init_BaseEA (forward e ["n_gen_per_iter"; "n_iterations"])) (fun i =>
  if is_none (get e "initial_population") then Err EaError
  else bind (as_pop (get e "initial_population")) (fun p =>
       Ok (with_selop (with_own (with_pop i (Given p) 0)
             (("target_pop_size", get e "population_size") :: forward e ["tournament_size"])) (VObj "TournamentSelection"))))).

(** IOPIS.py:20-89. [problem.ideal] is read first (AttributeError on None). The two scalarizations make
    the space 2-dimensional, hence the default resolution 49 and [n + 1] reference vectors for resolution
    [n] (utilities/ReferenceVectors.py; property C45). *)
Definition sig_IOPIS_base : signature :=
  [("problem", None); ("population_size", Some VNone); ("population_params", Some VNone);
   ("initial_population", Some VNone); ("lattice_resolution", Some VNone); ("n_iterations", Some (VInt 10));
   ("n_gen_per_iter", Some (VInt 100)); ("total_function_evaluations", Some (VInt 0)); ("use_surrogates", Some (VBool false))].
Definition init_IOPIS_base (kw : env) : res inst :=
  bind (bind_call sig_IOPIS_base [] kw) (fun e =>
  bind (as_problem (get e "problem")) (fun p =>
  if negb (pr_bounds p) then Err EaError
  else
  bind (init_BaseEA (("a_priori", VBool true) :: ("interact", VBool true)
          :: forward e ["n_iterations"; "n_gen_per_iter"; "total_function_evaluations"; "use_surrogates"])) (fun i =>
  bind (if is_none (get e "lattice_resolution") then default_resolution 2
        else match get e "lattice_resolution" with VInt (Z.pos r) => Ok (Pos.to_nat r) | VInt 0 => Ok O | _ => Err Unmodelled end) (fun r =>
  if negb (is_none (get e "initial_population")) then
    bind (as_pop (get e "initial_population")) (fun q => Ok (with_pop i (Given q) 0))
  else
    bind (if is_none (get e "population_size") then Ok (Z.of_nat (r + 1))
          else match get e "population_size" with VInt z => Ok z | _ => Err Unmodelled end) (fun n =>
    Ok (with_pop i (Created p n (get e "population_params") (get e "use_surrogates")) n)))))).

(** IOPIS.py:236-304: the time penalty reads [self.interact], which is True. The operator's exponent is
    set to 2 whatever [alpha] is (selection/IOPIS_APD.py:29). *)
Definition sig_IOPIS_RVEA : signature :=
  [("problem", None); ("population_size", Some VNone); ("population_params", Some VNone);
   ("initial_population", Some VNone); ("alpha", Some VNone); ("lattice_resolution", Some VNone);
   ("n_iterations", Some (VInt 10)); ("n_gen_per_iter", Some (VInt 100)); ("total_function_evaluations", Some (VInt 0));
   ("time_penalty_component", Some VNone); ("use_surrogates", Some (VBool false))].
Definition iopis_args : list string :=
  ["problem"; "population_size"; "population_params"; "initial_population"; "lattice_resolution"; "n_iterations";
   "n_gen_per_iter"; "total_function_evaluations"; "use_surrogates"].
Definition init_IOPIS_RVEA (pos : list val) (kw : env) : res inst :=
  bind (bind_call sig_IOPIS_RVEA pos kw) (fun e =>
  bind (init_IOPIS_base (forward e iopis_args)) (fun i =>
  bind (penalty (i_interact i) (get e "total_function_evaluations") (get e "time_penalty_component")) (fun p =>
  Ok (with_selop (with_own i (("time_penalty", p) :: ("operator_alpha", VInt 2) :: forward e ["alpha"])) (VObj "IOPIS_APD_Select"))))).

(** IOPIS.py:328-354. *)
Definition sig_IOPIS_NSGAIII : signature := sig_IOPIS_base.
Definition init_IOPIS_NSGAIII (pos : list val) (kw : env) : res inst :=
  bind (bind_call sig_IOPIS_NSGAIII pos kw) (fun e =>
  bind (init_IOPIS_base (forward e iopis_args)) (fun i =>
  Ok (with_selop i (VObj "IOPIS_NSGAIII_select")))).

(** ** All the public classes *)
Inductive cls := RVEA | NSGAIII | MOEA_D | IK_RVEA | IBEA | PBEA | PPGA | TournamentEA | IOPIS_RVEA | IOPIS_NSGAIII.
Definition sig_of (c : cls) : signature :=
  match c with
  | RVEA => sig_RVEA | NSGAIII => sig_NSGAIII | MOEA_D => sig_MOEA_D | IK_RVEA => sig_IK_RVEA
  | IBEA => sig_IBEA | PBEA => sig_PBEA | PPGA => sig_PPGA | TournamentEA => sig_TournamentEA
  | IOPIS_RVEA => sig_IOPIS_RVEA | IOPIS_NSGAIII => sig_IOPIS_NSGAIII
  end.
(** The call [C( *pos, **kw)]. *)
Definition construct (c : cls) (pos : list val) (kw : env) : res inst :=
  match c with
  | RVEA => init_RVEA pos kw | NSGAIII => init_NSGAIII pos kw | MOEA_D => init_MOEA_D pos kw
  | IK_RVEA => init_IK_RVEA pos kw | IBEA => init_IBEA pos kw | PBEA => init_PBEA pos kw
  | PPGA => init_PPGA pos kw | TournamentEA => init_TournamentEA pos kw
  | IOPIS_RVEA => init_IOPIS_RVEA pos kw | IOPIS_NSGAIII => init_IOPIS_NSGAIII pos kw
  end.
