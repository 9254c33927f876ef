(** C106: environmental selection of IBEA and PBEA and Pareto dominance. *)
From Verif Require Import Base RVec Spec_Indicator M_Indicator P_Indicator Spec_PBEA M_PBEA P_PBEA.
From Coq Require Import Reals Lra Permutation.
Open Scope R_scope.

Lemma rsum_dominates a b : rdominates a b -> rsum a < rsum b.
Proof.
  intros [H (i & x & y & H1 & H2 & Hlt)]. revert i H1 H2. induction H as [|p q a b H Hf IH]; intros [|i] H1 H2; cbn [nth_error] in *; try discriminate; cbn [rsum].
  - injection H1 as ->. injection H2 as ->. assert (rsum a <= rsum b) by (clear -Hf; induction Hf; cbn [rsum]; lra). lra.
  - specialize (IH i H1 H2). lra.
Qed.
Lemma best_exists (l : list member) : l <> [] -> exists b, In b l /\ forall a, In a l -> ~ rdominates (m_fit a) (m_fit b).
Proof.
  intros H. destruct (argmin_some (map (fun m => rsum (m_fit m)) l)) as [k Hk]; [destruct l; [congruence|discriminate]|].
  destruct (argmin_spec _ _ Hk) as (v & V1 & V2 & _). rewrite nth_error_map in V1. destruct (nth_error l k) as [b|] eqn:Eb; [|discriminate]. injection V1 as <-.
  exists b. split; [eapply nth_error_In; eauto|]. intros a Ha Hd. apply rsum_dominates in Hd. specialize (V2 _ (in_map (fun m => rsum (m_fit m)) _ _ Ha)). cbv beta in V2. lra.
Qed.

(** What is promised of a selection of [pop'] from [pop]: [pop'] is [pop] without some members, none of which dominates a survivor (so whoever dominates a survivor survives); it has
    min(pop_size, size) members; if there are any, some survivor is dominated by nobody of the original population. *)
Definition keeps_dominators (pop_size : nat) (pop pop' : list member) : Prop :=
  (exists removed, Permutation (removed ++ pop') pop /\ forall a b, In a removed -> In b pop' -> ~ rdominates (m_fit a) (m_fit b)) /\
  length pop' = Nat.min pop_size (length pop) /\
  (pop' <> [] -> exists b, In b pop' /\ forall a, In a pop -> ~ rdominates (m_fit a) (m_fit b)).

Lemma env_keeps ind kappa pop_size pop : 0 < kappa -> respects ind (fun a b => rdominates (m_fit a) (m_fit b)) pop ->
  exists pop' fit', env_loop ind kappa (length pop) pop_size pop (fitness_assignment ind kappa pop) = Some (Ok (pop', fit')) /\ keeps_dominators pop_size pop pop'.
Proof.
  intros Hk Hr. destruct (env_loop_spec ind kappa (length pop) pop_size pop _ (assignment_exact ind kappa pop)) as (p & f & H1 & H2 & H3); [lia|].
  exists p, f. split; auto. destruct (trims_up_closed ind kappa _ Hk _ _ _ H2 Hr) as (rem & P1 & P2). split; [eauto|]. split; [apply (trims_size ind kappa _ _ _ H2)|].
  intros Hne. destruct (best_exists p Hne) as (b & B1 & B2). exists b. split; auto. intros a Ha Hd. apply (Permutation_in a (Permutation_sym P1)) in Ha. apply in_app_or in Ha. destruct Ha; [apply (P2 a b)|apply (B2 a)]; auto.
Qed.

(** C106. IBEA, any mixture of minimised and maximised objectives (dominance is between fitness vectors). *)
Theorem C106_ibea_keeps_dominators : forall kappa pop_size pop, 0 < kappa ->
  exists pop' fit', ibea_env kappa pop_size pop = Some (Ok (pop', fit')) /\ keeps_dominators pop_size pop pop'.
Proof. intros kappa pop_size pop Hk. apply env_keeps; [exact Hk|apply ibea_respects]. Qed.
(** C106. PBEA when all objectives are minimised (fitness and objectives are the same), for every reference point and every population ... *)
Theorem C106_pbea_keeps_dominators_partial : forall ref delta kappa pop_size pop, 0 < delta -> 0 < kappa ->
  (forall m, In m pop -> m_fit m = m_obj m) ->
  exists pop' fit', pbea_env ref delta kappa pop_size pop = Some (Ok (pop', fit')) /\ keeps_dominators pop_size pop pop'.
Proof. intros ref delta kappa pop_size pop Hd Hk Hf. apply env_keeps; [exact Hk|apply pbea_respects; auto]. Qed.

Lemma exp_gt_1 x : 0 < x -> 1 < exp x.
Proof. intros H. rewrite <- exp_0. apply exp_increasing. exact H. Qed.

(** ... but false of the code when objectives are maximised: two objectives, both maximised, reference point (0,0), default delta. Of (2,2) and (1,1), (2,2) is removed, for every kappa. *)
Definition max_member (o : list R) : member := mkMember o (map Ropp o).
Theorem C106_pbea_maximised_refuted : forall kappa, 0 < kappa ->
  rdominates (m_fit (max_member [2; 2])) (m_fit (max_member [1; 1])) /\
  exists fit', pbea_env [0; 0] (1/10) kappa 1 [max_member [2; 2]; max_member [1; 1]] = Some (Ok ([max_member [1; 1]], fit')).
Proof.
  intros kappa Hk. set (a := max_member [2; 2]). set (b := max_member [1; 1]). split.
  { split; [repeat constructor; cbn; lra|]. exists 0%nat, (-(2)), (-(1)). cbn. split; auto. split; auto. lra. }
  assert (Emin : pbea_min_asf [0; 0] [a; b] = 1).
  { unfold pbea_min_asf, a, b, max_member. cbn [map m_obj simple_asf vmap2 rmax_list rmin_list]. rewrite (Rmax_left (2 - 0)) by lra. rewrite (Rmax_left (1 - 0)) by lra. rewrite Rmin_right; lra. }
  assert (Eab : pbea_ind [0; 0] (1/10) [a; b] a b = - (10/19)).
  { unfold pbea_ind, pref_ind. rewrite Emin. replace (eps_ind (m_fit a) (m_fit b)) with 1.
    - replace (simple_asf (m_fit b) [0; 0] + 1/10 - 1) with (-(19/10)); [field|]. unfold simple_asf, b, max_member. cbn [m_fit map vmap2 rmax_list]. rewrite Rmax_left by lra. lra.
    - unfold eps_ind, a, b, max_member. cbn [m_fit map vmap2 fold_left]. destruct (Rlt_dec 0 (- (1) - - (2))); [|lra]. destruct (Rlt_dec (- (1) - - (2)) (- (1) - - (2))); lra. }
  assert (Eba : pbea_ind [0; 0] (1/10) [a; b] b a = 0).
  { unfold pbea_ind, pref_ind. replace (eps_ind (m_fit b) (m_fit a)) with 0; [unfold Rdiv; ring|].
    unfold eps_ind, a, b, max_member. cbn [m_fit map vmap2 fold_left]. destruct (Rlt_dec 0 (- (2) - - (1))); [lra|]. destruct (Rlt_dec 0 (- (2) - - (1))); lra. }
  assert (Ef : fitness_assignment (pbea_ind [0; 0] (1/10) [a; b]) kappa [a; b] = [0 + - exp (- (- (10/19)) / kappa); 0 + - exp (- 0 / kappa)]).
  { unfold fitness_assignment, assign_one. cbn [length seq combine map fst snd fold_left Nat.eqb]. rewrite Eab, Eba. reflexivity. }
  unfold pbea_env. rewrite Ef. cbn [length]. set (ind := pbea_ind [0; 0] (1/10) [a; b]). cbn [env_loop length]. change (Nat.ltb 1 2) with true. cbv iota.
  assert (Hlt : 0 + - exp (- (- (10/19)) / kappa) < 0 + - exp (- 0 / kappa)).
  { replace (- 0 / kappa) with 0 by (unfold Rdiv; ring). rewrite exp_0. assert (1 < exp (- (- (10/19)) / kappa)); [|lra]. apply exp_gt_1. unfold Rdiv at 1. apply Rmult_lt_0_compat; [lra|apply Rinv_0_lt_compat; exact Hk]. }
  unfold argmin. cbn [argmin_from]. destruct (Rlt_dec (0 + - exp (- 0 / kappa)) (0 + - exp (- (- (10/19)) / kappa))) as [Hc|_]; [lra|].
  cbn [nth_error]. unfold delete_row at 1. cbn [firstn skipn app]. change (Nat.ltb 1 (length [b])) with false. cbv iota. eexists. reflexivity.
Qed.

Print Assumptions C106_ibea_keeps_dominators.
Print Assumptions C106_pbea_keeps_dominators_partial.
Print Assumptions C106_pbea_maximised_refuted.

(** A population of three to be trimmed to two, reference point (0,1): (1,1) dominates (2,2), so it survives if (2,2) does. *)
Definition min_member (o : list R) : member := mkMember o o.
Example ex_pbea : rdominates [1; 1] [2; 2] /\ exists pop' fit', pbea_env [0; 1] (1/10) (1/20) 2 [min_member [2; 2]; min_member [1; 1]; min_member [0; 3]] = Some (Ok (pop', fit')) /\ length pop' = 2%nat /\
  (In (min_member [2; 2]) pop' -> In (min_member [1; 1]) pop').
Proof.
  assert (D : rdominates [1; 1] [2; 2]) by (split; [repeat constructor; lra|]; exists 0%nat, 1, 2; cbn; split; auto; split; auto; lra). split; auto.
  destruct (C106_pbea_keeps_dominators_partial [0; 1] (1/10) (1/20) 2 [min_member [2; 2]; min_member [1; 1]; min_member [0; 3]]) as (pop' & fit' & H1 & (rem & P1 & P2) & L & _); [lra|lra| |].
  { intros m [<-|[<-|[<-|[]]]]; reflexivity. }
  exists pop', fit'. split; auto. split; [exact L|]. intros Hin. assert (In (min_member [1; 1]) (rem ++ pop')) by (apply (Permutation_in _ (Permutation_sym P1)); cbn; auto).
  apply in_app_or in H. destruct H as [H|H]; auto. exfalso. apply (P2 _ _ H Hin). exact D.
Qed.
