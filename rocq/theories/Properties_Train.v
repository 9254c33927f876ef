(** C98: training a surrogate model with an evolutionary algorithm of the user's choice. *)
From Coq Require Import String.
From Verif Require Import Base M_Ctor M_Train.
Open Scope string_scope.

Section C98.
Context {S : Type} (gen : cls -> inst -> S -> res S).

(** The neural networks train with PPGA: ten iterations of ten generations on the population of networks. *)
Lemma run_eq c i s n g : i_n_iterations i = VInt n -> i_n_gen_per_iter i = VInt g -> i_total_fe i = VInt 0 ->
  run gen c i s = repeat_res (Z.to_nat n) (repeat_res (Z.to_nat g) (next_gen gen c i)) s.
Proof. intros H1 H2 H3. unfold run. rewrite H1, H2, H3. reflexivity. Qed.

Theorem C98_network_trains_with_PPGA : forall pop s,
  exists i, construct PPGA [VProblem surrogate_problem] [("initial_population", VPop pop)] = Ok i /\
    i_pop i = Some (Given pop) /\ i_total_gen i = 100%Z /\
    train_network gen PPGA pop s =
      bind (repeat_res 10 (repeat_res 10 (gen PPGA i)) s) (fun s' => Ok (i, s')).
Proof.
  intros pop s. unfold train_network.
  destruct (construct PPGA [VProblem surrogate_problem] [("initial_population", VPop pop)]) as [i|] eqn:E; [|discriminate E].
  exists i. split; [reflexivity|]. cbn [bind].
  assert (A : i_pop i = Some (Given pop) /\ i_total_gen i = 100%Z /\ i_n_iterations i = VInt 10 /\ i_n_gen_per_iter i = VInt 10 /\
              i_total_fe i = VInt 0) by (cbn in E; injection E as <-; repeat (split; [reflexivity|]); reflexivity).
  destruct A as (A1 & A2 & A3 & A4 & A5). split; [exact A1|]. split; [exact A2|].
  rewrite (run_eq PPGA i s 10 10 A3 A4 A5). change (Z.to_nat 10) with 10%nat. reflexivity.
Qed.

(** ... and with no other class: whatever the data and the operators, the call that should start the training
    raises, or (TournamentEA) the first generation does. *)
Theorem C98_network_other_algorithms_refuted : forall c pop s, c <> PPGA ->
  train_network gen c pop s =
    Err match c with RVEA | NSGAIII | MOEA_D | IOPIS_RVEA | IOPIS_NSGAIII => EaError | _ => TypeError end.
Proof.
  intros c pop s Hc. destruct c; try reflexivity. destruct (Hc eq_refl).
Qed.

(** The target size of the training run is PPGA's default 100, whatever [pop_size] the model was given. *)
Theorem C98_network_size_refuted : forall pop s i s',
  train_network gen PPGA pop s = Ok (i, s') -> lookup "target_pop_size" (i_own i) = Some (VInt 100).
Proof.
  intros pop s i s' H. unfold train_network in H. cbn [construct] in H.
  match type of H with bind ?r _ = _ => change r with (construct PPGA [VProblem surrogate_problem] [("initial_population", VPop pop)]) in H end.
  destruct (construct PPGA [VProblem surrogate_problem] [("initial_population", VPop pop)]) as [j|] eqn:E; [|discriminate H].
  cbn [bind] in H. destruct (run gen PPGA j s); [|discriminate H]. injection H as <- _.
  cbn in E. injection E as <-. reflexivity.
Qed.

(** BioGP: with at least one single objective generation (the default is ten) training always raises TypeError, whatever
    the data, sizes and algorithm: TournamentEA calls its selection operator without the fitness argument. *)
Theorem C98_biogp_never_trains_refuted : forall c pop n g s, (1 <= g)%Z ->
  train_biogp gen c pop n g s = Err TypeError.
Proof.
  intros c pop n g s Hg. unfold train_biogp.
  destruct (construct TournamentEA _ _) as [t|] eqn:E; cbn in E; [|discriminate E]. injection E as <-. cbn [bind].
  unfold run. cbn [i_n_iterations i_n_gen_per_iter i_total_fe with_selop with_own with_pop get lookup forward map String.eqb Ascii.eqb Bool.eqb].
  replace (Z.to_nat g) with (Datatypes.S (Nat.pred (Z.to_nat g))) by lia. reflexivity.
Qed.
Theorem C98_biogp_default_refuted : forall c pop n s,
  train_biogp gen c pop n default_single_obj_generations s = Err TypeError.
Proof. intros c pop n s. apply C98_biogp_never_trains_refuted. unfold default_single_obj_generations. lia. Qed.

(** Without the single objective stage BioGP trains with PPGA, IBEA or PBEA on the population of trees, PPGA aiming
    at the requested size. *)
Theorem C98_biogp_two_objective_stage : forall c pop n g s, (g <= 0)%Z -> c = PPGA \/ c = IBEA \/ c = PBEA ->
  exists i, i_pop i = Some (Given pop) /\ i_total_gen i = 100%Z /\
    (c = PPGA -> lookup "target_pop_size" (i_own i) = Some (VInt n)) /\
    train_biogp gen c pop n g s = bind (repeat_res 10 (repeat_res 10 (gen c i)) s) (fun s' => Ok (i, s')).
Proof.
  intros c pop n g s Hg Hc. unfold train_biogp.
  destruct (construct TournamentEA _ _) as [t|] eqn:E; cbn in E; [|discriminate E]. injection E as <-. cbn [bind].
  assert (R0 : Z.to_nat g = 0%nat) by lia.
  unfold run at 1. cbn [i_n_iterations i_n_gen_per_iter i_total_fe with_selop with_own with_pop get lookup forward map String.eqb Ascii.eqb Bool.eqb].
  rewrite R0. change (Z.to_nat 1) with 1%nat. cbn [repeat_res bind].
  destruct (construct c [VProblem surrogate_problem]
          [("initial_population", VPop pop); ("population_size", VInt n);
           ("n_gen_per_iter", VInt 10); ("n_iterations", VInt 10)]) as [i|] eqn:E; [|destruct Hc as [-> | [-> | ->]]; discriminate E].
  exists i. cbn [bind].
  assert (A : i_pop i = Some (Given pop) /\ i_total_gen i = 100%Z /\ i_n_iterations i = VInt 10 /\ i_n_gen_per_iter i = VInt 10 /\
              i_total_fe i = VInt 0 /\ (c = PPGA -> lookup "target_pop_size" (i_own i) = Some (VInt n)) /\ next_gen gen c i = gen c i).
  { destruct Hc as [-> | [-> | ->]]; cbn in E; injection E as <-; do 5 (split; [reflexivity|]);
      (split; [first [reflexivity|discriminate]|reflexivity]). }
  destruct A as (A1 & A2 & A3 & A4 & A5 & A6 & A7). split; [exact A1|]. split; [exact A2|]. split; [exact A6|].
  rewrite (run_eq c i s 10 10 A3 A4 A5), A7. change (Z.to_nat 10) with 10%nat. reflexivity.
Qed.
Theorem C98_biogp_decomposition_refuted : forall c pop n g s, (g <= 0)%Z -> c = RVEA \/ c = NSGAIII \/ c = MOEA_D ->
  train_biogp gen c pop n g s = Err EaError.
Proof.
  intros c pop n g s Hg Hc. unfold train_biogp.
  destruct (construct TournamentEA _ _) as [t|] eqn:E; cbn in E; [|discriminate E]. injection E as <-. cbn [bind].
  assert (R0 : Z.to_nat g = 0%nat) by lia.
  unfold run at 1. cbn [i_n_iterations i_n_gen_per_iter i_total_fe with_selop with_own with_pop get lookup forward map String.eqb Ascii.eqb Bool.eqb].
  rewrite R0. change (Z.to_nat 1) with 1%nat. cbn [repeat_res bind].
  destruct Hc as [-> | [-> | ->]]; reflexivity.
Qed.
End C98.

Print Assumptions C98_network_trains_with_PPGA.
Print Assumptions C98_network_other_algorithms_refuted.
Print Assumptions C98_biogp_never_trains_refuted.
Print Assumptions C98_biogp_two_objective_stage.

(** ** Non-vacuity: a run counting its generations. *)
Definition count_gen (_ : cls) (_ : inst) (k : nat) : res nat := Ok (Datatypes.S k).
Example ex_train : exists i, train_network count_gen PPGA (mkPopobj 1 2 500) 0%nat = Ok (i, 100%nat).
Proof. eexists. vm_compute. reflexivity. Qed.
Example ex_train_rvea : train_network count_gen RVEA (mkPopobj 1 2 500) 0%nat = Err EaError.
Proof. reflexivity. Qed.
Example ex_train_gp : exists i, train_biogp count_gen IBEA (mkPopobj 1 2 500) 500 0 0%nat = Ok (i, 100%nat).
Proof. eexists. vm_compute. reflexivity. Qed.
Example ex_train_gp_default : train_biogp count_gen PPGA (mkPopobj 1 2 500) 500 10 0%nat = Err TypeError.
Proof. reflexivity. Qed.
