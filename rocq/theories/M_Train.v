(** Model of the training runs of the surrogate models: which evolutionary algorithm they start, with which
    arguments, and how the run proceeds.
    desdeo_emo/surrogatemodels/EvoNN.py 83-109, EvoDN2.py 104-127, BioGP.py 369-422;
    desdeo_emo/EAs/TournamentEA.py 57-78; desdeo_emo/selection/TournamentSelection.py 27. *)
From Coq Require Import String.
From Verif Require Import Base M_Ctor.
Open Scope string_scope.

(** surrogatemodels/Problem.py:4-10 and desdeo_problem's ProblemBase: no ideal, no nadir; not an MOProblem. *)
Definition surrogate_problem : prob := mkProb 0 PkSurrogate 2 false.

(** TournamentSelection.py:27: [def do(self, pop, fitness)]. *)
Definition sig_tournament_do : list (string * option val) := [("self", None); ("pop", None); ("fitness", None)].

(** TournamentEA.py:77-78: [self.selection_operator.do(self.population)]; what [do] returns when the call binds
    is modelled elsewhere (M_Indicator), here only whether it binds. *)
Definition tournament_select (p : popobj) : res unit :=
  bind (bind_call sig_tournament_do [VObj "TournamentSelection"; VPop p] []) (fun _ => Ok tt).

Section Run.
(** One generation of each class but TournamentEA, on some state [S] (modelled in the other files). *)
Context {S : Type} (gen : cls -> inst -> S -> res S).

(** TournamentEA.py:57-75: selection comes first; the rest of the generation is [gen]. *)
Definition next_gen (c : cls) (i : inst) (s : S) : res S :=
  match c with
  | TournamentEA => match i_pop i with
                    | Some (Given p) => bind (tournament_select p) (fun _ => gen c i s)
                    | _ => Err Unmodelled
                    end
  | _ => gen c i s
  end.

Fixpoint repeat_res (n : nat) (f : S -> res S) (s : S) : res S :=
  match n with O => Ok s | Datatypes.S k => bind (f s) (repeat_res k f) end.

(** [while evolver.continue_evolution(): evolver.iterate()] with no evaluation limit
    ([total_function_evaluations] is 0 in all these calls), no archive and no interaction: BaseEA.py:136-155, 187-197.
    With these settings the loop is [n_iterations] times [n_gen_per_iter] generations (property C18). *)
Definition run (c : cls) (i : inst) (s : S) : res S :=
  match i_n_iterations i, i_n_gen_per_iter i, i_total_fe i with
  | VInt n, VInt g, VInt 0 => repeat_res (Z.to_nat n) (repeat_res (Z.to_nat g) (next_gen c i)) s
  | _, _, _ => Err Unmodelled
  end.

(** EvoNN.py:92-105, EvoDN2.py:112-123; [pop]: the SurrogatePopulation of [pop_size] individuals. The drawing of
    the figure is not modelled. *)
Definition train_network (c : cls) (pop : popobj) (s : S) : res (inst * S) :=
  bind (construct c [VProblem surrogate_problem] [("initial_population", VPop pop)]) (fun i =>
  bind (run c i s) (fun s' => Ok (i, s'))).

(** BioGP.py:382-418: first the single objective stage with TournamentEA, then the chosen algorithm. *)
Definition train_biogp (c : cls) (pop : popobj) (pop_size single_obj_generations : Z) (s : S) : res (inst * S) :=
  bind (construct TournamentEA [VProblem surrogate_problem]
          [("initial_population", VPop pop); ("population_size", VInt pop_size);
           ("n_gen_per_iter", VInt single_obj_generations); ("n_iterations", VInt 1)]) (fun t =>
  bind (run TournamentEA t s) (fun s1 =>
  bind (construct c [VProblem surrogate_problem]
          [("initial_population", VPop pop); ("population_size", VInt pop_size);
           ("n_gen_per_iter", VInt 10); ("n_iterations", VInt 10)]) (fun i =>
  bind (run c i s1) (fun s2 => Ok (i, s2))))).

(** BioGP.py:306: the default of [single_obj_generations]. *)
Definition default_single_obj_generations : Z := 10.
End Run.
