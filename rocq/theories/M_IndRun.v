(** Interactive sessions of the indicator based EAs (IBEA, PBEA): desdeo_emo/EAs/BaseEA.py start 82-103, iterate 138-152, continue_iteration 187-192, continue_evolution
    194-196, check_FE_count 198-209, set_interaction_type 211-243, with manage_preferences, request_preferences and requests of BaseIndicatorEA.py 143-230 ([ind_manage] of
    [M_Preferences]). What a generation does to the population is left out: [off n] is the number of offspring evaluated by the n-th generation of the object's life, or
    the exception that ends it (both may depend on the population and on random draws). Plot requests are left out. *)
From Verif Require Import Base M_Preferences.
Open Scope Z_scope.

Section IndRun.
Context {Payload : Type} (to_fitness : Payload -> Payload).

Record irun := mkIRun {
  ir_interact : bool; ir_gpi : Z;              (* constructor arguments interact, n_gen_per_iter *)
  ir_prefs : ind_state Payload;                (* reference_point, n_iterations, total_function_evaluations *)
  ir_reqid : option nat;
  ir_type_set : bool;                          (* interaction_type_set_bool *)
  ir_it : Z; ir_gen : Z; ir_gin : Z; ir_fe : Z;
  ir_clock : nat                               (* generations begun (ghost) *) }.

Definition set_prefs (s : irun) (p : ind_state Payload) : irun :=
  mkIRun (ir_interact s) (ir_gpi s) p (ir_reqid s) (ir_type_set s) (ir_it s) (ir_gen s) (ir_gin s) (ir_fe s) (ir_clock s).
Definition set_counts (s : irun) (it gen gin fe : Z) (clock : nat) : irun :=
  mkIRun (ir_interact s) (ir_gpi s) (ir_prefs s) (ir_reqid s) (ir_type_set s) it gen gin fe clock.

(** BaseIndicatorEA.__init__ 72-93: [fe0] is population_size when the population is created here and 0 when one is given. *)
Definition ind_new (interact : bool) (n_iterations n_gen_per_iter total_fe fe0 : Z) (ref : option Payload) : irun :=
  mkIRun interact n_gen_per_iter (mkInd ref n_iterations total_fe) None false 0 0 0 fe0 0.

Definition ind_check_FE (s : irun) : bool := if ind_fe (ir_prefs s) =? 0 then true else ir_fe s <=? ind_fe (ir_prefs s).
Definition ind_continue_iteration (s : irun) : bool := (ir_gin s <? ir_gpi s) && ind_check_FE s.
Definition ind_continue_evolution (s : irun) : bool := (ir_it s <? ind_iters (ir_prefs s)) && ind_check_FE s.

(** BaseIndicatorEA.py:177-212, 229-230; [rnd]: np.random.randint. *)
Definition ind_requests (rnd : nat) (s : irun) : irun :=
  if ir_interact s then mkIRun (ir_interact s) (ir_gpi s) (ir_prefs s) (Some rnd) (ir_type_set s) (ir_it s) (ir_gen s) (ir_gin s) (ir_fe s) (ir_clock s) else s.
(** BaseEA.py:211-243: the interaction location of these algorithms is None, so nothing happens. *)
Definition ind_set_type (a : itype_arg) (s : irun) : irun * res unit := (s, Ok tt).
(** BaseEA.py:82-103 (population and selection operator exist; save_non_dominated is False). *)
Definition ind_start (rnd : nat) (s : irun) : irun * res unit :=
  if ir_interact s && negb (ir_type_set s) then (s, Err EaError) else (ind_requests rnd s, Ok tt).

Section Gens.
Context (off : nat -> res nat).
(** BaseIndicatorEA.py:106-128. *)
Definition ind_gen (s : irun) : irun * res unit :=
  match off (ir_clock s) with
  | Err e => (set_counts s (ir_it s) (ir_gen s) (ir_gin s) (ir_fe s) (S (ir_clock s)), Err e)
  | Ok k => (set_counts s (ir_it s) (ir_gen s + 1) (ir_gin s + 1) (ir_fe s + Z.of_nat k) (S (ir_clock s)), Ok tt)
  end.
Fixpoint ind_gens (fuel : nat) (s : irun) : irun * res unit :=
  if ind_continue_iteration s then
    match fuel with
    | O => (s, Err Unmodelled)
    | S f => match ind_gen s with (s', Ok _) => ind_gens f s' | (s', Err e) => (s', Err e) end
    end
  else (s, Ok tt).
(** BaseEA.py:138-152; the fuel always suffices. *)
Definition ind_iterate (p : option (pref Payload)) (rnd : nat) (s : irun) : irun * res unit :=
  match ind_manage to_fitness (ir_interact s) (ir_reqid s) (ir_prefs s) p with
  | (q, Err e) => (set_prefs s q, Err e)
  | (q, Ok _) =>
      let s1 := set_prefs s q in
      let s2 := set_counts s1 (ir_it s1) (ir_gen s1) 0 (ir_fe s1) (ir_clock s1) in
      match ind_gens (Z.to_nat (ir_gpi s2)) s2 with
      | (s3, Err e) => (s3, Err e)
      | (s3, Ok _) => (ind_requests rnd (set_counts s3 (ir_it s3 + 1) (ir_gen s3) (ir_gin s3) (ir_fe s3) (ir_clock s3)), Ok tt)
      end
  end.

(** What a user does, exceptions caught. *)
Inductive icall := ISetType (a : itype_arg) | IStart (rnd : nat) | IRequests (rnd : nat) | IIterate (p : option (pref Payload)) (rnd : nat).
Definition ind_do (s : irun) (c : icall) : irun * res unit :=
  match c with
  | ISetType a => ind_set_type a s
  | IStart r => ind_start r s
  | IRequests r => (ind_requests r s, Ok tt)
  | IIterate p r => ind_iterate p r s
  end.
Definition ind_session (s : irun) (cs : list icall) : irun := fold_left (fun s c => fst (ind_do s c)) cs s.
End Gens.
End IndRun.
Arguments irun : clear implicits.
Arguments icall : clear implicits.
