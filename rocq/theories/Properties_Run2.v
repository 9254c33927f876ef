(** C104, continued: what continue_evolution answers after any number of iterate() calls, and the loop [while ea.continue_evolution(): ea.iterate()]. *)
From Verif Require Import Base Pareto M_Population M_Run Spec_Run P_Run P_Run2 P_Run3 Properties_Run.
From Coq Require Import Lia.
Open Scope nat_scope.

Section T.
Context {I O F C U : Type} (dom : F -> F -> bool) (w : world I O F C U) (c : cfg) (nc : nat).

Lemma continue_iff (s : st I O F C U) : continue_evolution c s = true <-> (s_iter s < c_n_iterations c)%Z /\ (c_total_fe c = 0%Z \/ (s_fe s <= c_total_fe c)%Z).
Proof.
  unfold continue_evolution, check_FE. rewrite Bool.andb_true_iff, Z.ltb_lt. destruct (c_total_fe c =? 0)%Z eqn:E.
  - apply Z.eqb_eq in E. tauto.
  - apply Z.eqb_neq in E. rewrite Z.leb_le. tauto.
Qed.
(** C104. After a run on a problem, without surrogates, of [k] iterate() calls: the evolution goes on exactly if fewer than n_iterations of them were made and the budget (if there is one) is not exceeded by all evaluations made. *)
Theorem C104_continues : forall rows s1 k s2, c_surrogates c = false ->
  s1 = on_problem w c nc rows \/ start dom c (on_problem w c nc rows) = (s1, Ok tt) -> ran dom w c k s1 s2 ->
  (continue_evolution c s2 = true <-> (Z.of_nat k < c_n_iterations c)%Z /\ (c_total_fe c = 0%Z \/ (real_evals (s_log s2) <= c_total_fe c)%Z)).
Proof.
  intros rows s1 k s2 Hs H1 Hr. destruct (C104_run_counts_everything dom w c nc rows s1 k s2 Hs H1 Hr) as (A & B & _). rewrite continue_iff, A, B. reflexivity.
Qed.
(** C104. So the loop [while ea.continue_evolution(): ea.iterate()] makes at most n_iterations calls. *)
Inductive evolve : nat -> st I O F C U -> st I O F C U -> Prop :=
| Stop : forall s, continue_evolution c s = false -> evolve 0 s s
| Go : forall k s s1 s2, continue_evolution c s = true -> iterate dom w c s = (s1, Ok tt) -> evolve k s1 s2 -> evolve (S k) s s2.
Lemma evolve_ran k s s' : evolve k s s' -> ran dom w c k s s'.
Proof. induction 1; econstructor; eauto. Qed.
Theorem C104_loop : forall rows s1 k s2, c_surrogates c = false -> s1 = on_problem w c nc rows \/ start dom c (on_problem w c nc rows) = (s1, Ok tt) -> evolve k s1 s2 ->
  (Z.of_nat k <= Z.max 0 (c_n_iterations c))%Z /\ ((c_n_iterations c <= Z.of_nat k)%Z \/ c_total_fe c <> 0%Z /\ (c_total_fe c < real_evals (s_log s2))%Z).
Proof.
  intros rows s1 k s2 Hs H1 He. split.
  - destruct k as [|k]; [lia|]. assert (G : exists s, ran dom w c k s1 s /\ continue_evolution c s = true).
    { clear H1. revert s1 He. induction k as [|k IH]; intros s1 He; inversion He as [|k' a b d Hc Hi Hr]; subst.
      - exists s1. split; [constructor|exact Hc].
      - destruct (IH _ Hr) as (s & A & B). exists s. split; [econstructor; eassumption|exact B]. }
    destruct G as (s & A & B). apply (proj1 (C104_continues rows s1 k s Hs H1 A)) in B. lia.
  - assert (E : continue_evolution c s2 = false) by (clear - He; induction He; assumption). pose proof (C104_continues rows s1 k s2 Hs H1 (evolve_ran _ _ _ He)) as G. rewrite E in G.
    destruct (Z_lt_le_dec (Z.of_nat k) (c_n_iterations c)) as [L|L]; [right|left; exact L]. destruct (Z.eq_dec (c_total_fe c) 0) as [Z0|Z0].
    + exfalso. assert (false = true) by (apply G; split; [exact L|left; exact Z0]). discriminate.
    + split; [exact Z0|]. destruct (Z_lt_le_dec (c_total_fe c) (real_evals (s_log s2))) as [H|H]; [exact H|]. exfalso. assert (false = true) by (apply G; split; [exact L|right; exact H]). discriminate.
Qed.
End T.
Print Assumptions C104_continues.
Print Assumptions C104_loop.
(** The loop on the reference run (two iterations of two generations, after start()). *)
Example ex_loop : exists s, evolve dominates (ref_world ob plain (fun _ => None)) (ref_cfg KDecomposition false 0) 2 (fst (start dominates (ref_cfg KDecomposition false 0) (ref_on ob KDecomposition))) s.
Proof.
  eexists. apply (Go dominates _ _ 1 _ (fst (iterate dominates (ref_world ob plain (fun _ => None)) (ref_cfg KDecomposition false 0) (fst (start dominates (ref_cfg KDecomposition false 0) (ref_on ob KDecomposition))))));
    [vm_compute; reflexivity|vm_compute; reflexivity|].
  eapply Go; [vm_compute; reflexivity|vm_compute; reflexivity|]. apply Stop. vm_compute. reflexivity.
Qed.
