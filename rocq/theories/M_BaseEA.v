(** Model of desdeo_emo/EAs/BaseEA.py: counters, iteration loop, snapshots
    (non-interactive path), and the constructor of BaseDecompositionEA. *)
From Verif Require Import Base.
Open Scope Z_scope.

(** Constructor arguments kept in the object (BaseEA.py:24-60). *)
Record cfg := mkCfg {
  n_iterations : Z; n_gen_per_iter : Z; total_fe : Z;   (* total_function_evaluations *)
  use_surrogates : bool; keep_archive : bool }.

Section Loop.
Context {P : Type}.              (* population contents *)

(** A snapshot entry: (generation key, (iteration, population)); newest first. A Python dict
    keyed by the generation count: looking a key up finds the newest entry. *)
Record st := mkSt {
  it_count : Z;                  (* _iteration_counter *)
  gen_in_iter : Z;               (* _gen_count_in_curr_iteration *)
  gen_count : Z;                 (* _current_gen_count *)
  fe_count : Z;                  (* _function_evaluation_count *)
  popul : P;
  snaps : list (Z * (Z * P));    (* self.archive *)
  true_evals : Z }.              (* ghost: individuals really evaluated through this EA *)

Definition snap_get (k : Z) (l : list (Z * (Z * P))) : option (Z * P) :=
  match find (fun e => fst e =? k) l with Some e => Some (snd e) | None => None end.

(** What one generation does to the population: [gen g p] is the population after mating,
    adding, selecting and keeping in generation number [g], and the number of offspring
    rows ([offspring.shape[0]], all evaluated by [population.add]). Random draws are in [gen]. *)
Context (gen : Z -> P -> P * nat) (c : cfg).

(** BaseEA.py:420-435 [_next_gen]. *)
Definition next_gen (s : st) : st :=
  let (p', k) := gen (gen_count s) (popul s) in
  let ev := if use_surrogates c then 0 else Z.of_nat k in
  mkSt (it_count s) (gen_in_iter s + 1) (gen_count s + 1)
       (if use_surrogates c then fe_count s else fe_count s + Z.of_nat k)
       p' (snaps s) (true_evals s + ev).

(** BaseEA.py:198-209 [check_FE_count]. *)
Definition check_FE (s : st) : bool :=
  if total_fe c =? 0 then true
  else if fe_count s <=? total_fe c then true else false.

(** BaseEA.py:187-192. *)
Definition continue_iteration (s : st) : bool :=
  (gen_in_iter s <? n_gen_per_iter c) && check_FE s.

(** BaseEA.py:194-196. *)
Definition continue_evolution (s : st) : bool :=
  (it_count s <? n_iterations c) && check_FE s.

(** BaseEA.py:154-181: snapshot before an iteration (the reference-vector adaptation of
    BaseDecompositionEA.pre_iteration does not touch these fields). *)
Definition snapshot (s : st) : st :=
  if keep_archive c
  then mkSt (it_count s) (gen_in_iter s) (gen_count s) (fe_count s) (popul s)
            ((gen_count s, (it_count s, popul s)) :: snaps s) (true_evals s)
  else s.

Definition reset_gen (s : st) : st :=
  mkSt (it_count s) 0 (gen_count s) (fe_count s) (popul s) (snaps s) (true_evals s).
Definition bump_iter (s : st) : st :=
  mkSt (it_count s + 1) (gen_in_iter s) (gen_count s) (fe_count s) (popul s) (snaps s) (true_evals s).

(** BaseEA.py:148-149, the while loop; [None] = fuel exhausted. *)
Fixpoint gen_loop (fuel : nat) (s : st) : option st :=
  match fuel with
  | O => None
  | S f => if continue_iteration s then gen_loop f (next_gen s) else Some s
  end.

(** BaseEA.py:138-152 [iterate] without preference. *)
Definition iterate (fuel : nat) (s : st) : option st :=
  option_map bump_iter (gen_loop fuel (reset_gen (snapshot s))).

(** Fuel that the theorems show to be always enough. *)
Definition enough : nat := S (Z.to_nat (n_gen_per_iter c)).

(** [k] successive calls of iterate, whatever continue_evolution says. *)
Fixpoint iterates (k : nat) (s : st) : option st :=
  match k with
  | O => Some s
  | S k' => match iterates k' s with Some s' => iterate enough s' | None => None end
  end.

(** The documented driver loop [while ea.continue_evolution(): ea.iterate()];
    [None] = out of fuel. *)
Fixpoint evolve (fuel : nat) (s : st) : option st :=
  match fuel with
  | O => None
  | S f => if continue_evolution s
           then match iterate enough s with Some s' => evolve f s' | None => None end
           else Some s
  end.

(** BaseEA.py:105-133 [end]: one more snapshot. *)
Definition finish (s : st) : st := snapshot s.

(** Object state right after construction with [problem] (BaseEA.py:24-60, 410-414):
    [n] individuals created and evaluated. *)
Definition init_problem (p : P) (n : nat) : st :=
  mkSt 0 0 0 (Z.of_nat n) p [] (if use_surrogates c then 0 else Z.of_nat n).
(** ... and with [initial_population] (BaseEA.py:386-393): nothing evaluated, nothing counted. *)
Definition init_population (p : P) : st := mkSt 0 0 0 0 p [] 0.

End Loop.
Arguments st : clear implicits.
Close Scope Z_scope.

(** ** Constructor argument handling, BaseEA.py:381-414 *)
(** scipy.special.comb(n, k, exact=True) for naturals. *)
Fixpoint binom (n k : nat) : nat :=
  match n, k with
  | _, O => 1
  | O, S _ => 0
  | S n', S k' => binom n' k' + binom n' (S k')
  end.

Definition lattice_res_options : list nat := [49; 13; 7; 5; 4; 3; 3; 3; 3].

(** Line 403-405; [num_fitnesses - 2] may be -1, Python's last element. *)
Definition default_resolution (m : nat) : res nat :=
  if Nat.ltb m 11 then
    match norm_idx (length lattice_res_options) (Z.of_nat m - 2) with
    | Some i => Ok (nth i lattice_res_options 0)
    | None => Err IndexError
    end
  else Ok 3.

Record ctor_args := mkArgs {
  arg_problem : option nat;          (* number of fitnesses of the given problem *)
  arg_initial : option (nat * nat);  (* initial population: (n_of_fitnesses, pop_size) *)
  arg_size : option nat;             (* population_size *)
  arg_lattice : option nat }.        (* lattice_resolution *)

Inductive built := FromInitial (fe : nat) | NewPopulation (size fe : nat).

(** BaseEA.py:386-414: population used and initial evaluation count. *)
Definition construct (a : ctor_args) : res built :=
  match arg_initial a with
  | Some _ => match arg_problem a with
              | Some _ => Err EaError
              | None => Ok (FromInitial 0)
              end
  | None =>
      match arg_problem a with
      | None => Err EaError
      | Some m =>
          match arg_size a with
          | Some n => Ok (NewPopulation n n)
          | None =>
              bind (match arg_lattice a with
                    | Some r => Ok r
                    | None => default_resolution m
                    end)
                   (fun r => let n := binom (r + m - 1) (m - 1) in Ok (NewPopulation n n))
          end
      end
  end.
