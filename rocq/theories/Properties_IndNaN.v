(** C127: failed evaluations (infinite or NaN objective values) in the environmental selection of IBEA and PBEA. *)
From Coq Require Import Reals Lra Lia Permutation.
From Verif Require Import Base RVec Spec_Indicator Spec_PBEA M_APDnan P_APDnan M_Indicator P_Indicator M_PBEA P_PBEA M_IndNaN P_IndNaN P_IndNaN2 P_IndNaN3.
Open Scope R_scope.

(** A member all of whose values are numbers, as in the model without failures. *)
Definition number_member (m : member) : member_x := mkMemberX (map Fin (m_obj m)) (map Fin (m_fit m)).
Definition number_result (r : option (res (list member * list R))) : option (res (list member_x * list xr)) :=
  match r with None => None | Some (Err e) => Some (Err e) | Some (Ok p) => Some (Ok (map number_member (fst p), map Fin (snd p))) end.

(** C127. Without failures this is the selection of C41, C42, C73 and C106: IBEA ... *)
Theorem C127_ibea_finite_values : forall kappa pop_size (pop : list member), kappa <> 0 ->
  ibea_env_x kappa pop_size (map number_member pop) = number_result (ibea_env kappa pop_size pop).
Proof.
  intros kappa ps pop Hk. apply (env_fin number_member ibea_ind ibea_ind_x kappa Hk ps pop). intros a b _ _. apply eps_x_fin.
Qed.
Lemma rmax_list_fin l : forall x, xmax_list (Fin x) (map Fin l) = Fin (rmax_list x l).
Proof.
  induction l as [|y l IH]; intros x; cbn [map xmax_list rmax_list]; [reflexivity|]. rewrite IH. unfold xmax. cbn [is_nan orb xltb].
  destruct (Rlt_dec x (rmax_list y l)); [rewrite Rmax_right by lra|rewrite Rmax_left by lra]; reflexivity.
Qed.
Lemma rmin_list_fin l : forall x, xmin_list (Fin x) (map Fin l) = Fin (rmin_list x l).
Proof. induction l as [|y l IH]; intros x; cbn [map xmin_list rmin_list]; [reflexivity|]. rewrite IH, xmin_fin. reflexivity. Qed.
Lemma asf_fin f ref : simple_asf_x (map Fin f) ref = Fin (simple_asf f ref).
Proof.
  unfold simple_asf_x, simple_asf. change (vmap2 xsub) with xvsub. rewrite xvsub_fin. change vsub with (vmap2 Rminus).
  destruct (vmap2 Rminus f ref) as [|x t]; [reflexivity|]. apply rmax_list_fin.
Qed.
Lemma min_asf_fin ref pop : pbea_min_asf_x ref (map number_member pop) = Fin (pbea_min_asf ref pop).
Proof.
  unfold pbea_min_asf_x, pbea_min_asf. rewrite map_map. rewrite (map_ext _ (fun m => Fin (simple_asf (m_obj m) ref))) by (intros; apply asf_fin).
  rewrite <- (map_map (fun m => simple_asf (m_obj m) ref) Fin). destruct (map (fun m => simple_asf (m_obj m) ref) pop) as [|x t]; [reflexivity|]. apply rmin_list_fin.
Qed.
(** ... and PBEA when all objectives are minimised. *)
Theorem C127_pbea_finite_values : forall ref delta kappa pop_size (pop : list member), kappa <> 0 -> 0 < delta ->
  (forall m, In m pop -> m_fit m = m_obj m) ->
  pbea_env_x ref delta kappa pop_size (map number_member pop) = number_result (pbea_env ref delta kappa pop_size pop).
Proof.
  intros ref delta kappa ps pop Hk Hd Hf.
  apply (env_fin number_member (pbea_ind ref delta pop) (pbea_ind_x ref delta (map number_member pop)) kappa Hk ps pop).
  intros a b _ Hb. unfold pbea_ind_x, pbea_ind, pref_ind_x, pref_ind. rewrite min_asf_fin. cbn [x_fit number_member]. rewrite eps_x_fin, asf_fin. cbn [xadd xsub xdiv].
  destruct (Req_EM_T _ 0) as [E|E]; [exfalso|reflexivity]. rewrite (Hf b Hb) in E. pose proof (pbea_min_le ref pop b Hb). lra.
Qed.

(** The fitness of a member consists of numbers. *)
Definition evaluated (m : member_x) : bool := forallb is_fin (x_fit m).

(** C127. IBEA, evaluations that failed with the fitness +infinity: the selection is exactly the one from the successfully evaluated members alone (survivors, their order and
    their indicator fitness); only if there are fewer of these than pop_size do failed ones survive, and then all the successful ones do. *)
Theorem C127_ibea_infinite : forall kappa n_obj pop_size pop, 0 < kappa -> (0 < n_obj)%nat ->
  (forall m, In m pop -> length (x_fit m) = n_obj /\ (evaluated m = true \/ x_fit m = repeat PInf n_obj)) ->
  ((pop_size <= length (filter evaluated pop))%nat ->
     ibea_env_x kappa pop_size pop = ibea_env_x kappa pop_size (filter evaluated pop)) /\
  ((length (filter evaluated pop) <= pop_size)%nat ->
     exists survivors fit, ibea_env_x kappa pop_size pop = Some (Ok (survivors, fit)) /\
       filter evaluated survivors = filter evaluated pop /\ length survivors = Nat.min pop_size (length pop) /\ subseq survivors pop).
Proof.
  intros kappa k ps pop Hkap Hk Hr.
  destruct (inf_loop kappa k Hkap Hk ps (length pop) pop (fitness_assignment_x ibea_ind_x kappa pop)) as [A B].
  - exact Hr.
  - apply assignment_exact_x. apply (rows_inf_terms kappa k Hkap Hk). exact Hr.
  - lia.
  - split; [exact A|]. intros H. destruct (B H) as (s & f & E1 & E2). exists s, f. split; [exact E1|]. split; [exact E2|].
    destruct (env_loop_total ibea_ind_x kappa (length pop) ps pop (fitness_assignment_x ibea_ind_x kappa pop)) as (s' & f' & E' & _ & L' & S'); [apply assignment_length|lia|].
    rewrite E1 in E'. injection E' as <- <-. split; [exact L'|exact S'].
Qed.

(** C127. IBEA, evaluations that failed with NaN: still nobody is removed who dominates a survivor, and if a failed member survives, then whoever was removed was at least as bad as
    every surviving successful member in every objective ... *)
Theorem C127_ibea_nan_partial : forall kappa n_obj pop_size pop, 0 < kappa -> (0 < n_obj)%nat ->
  (forall m, In m pop -> length (x_fit m) = n_obj /\ (evaluated m = true \/ x_fit m = repeat NaN n_obj)) ->
  exists survivors fit, ibea_env_x kappa pop_size pop = Some (Ok (survivors, fit)) /\ length survivors = Nat.min pop_size (length pop) /\
    (exists removed, Permutation (removed ++ survivors) pop /\
       forall a b u v, In a removed -> In b survivors -> x_fit a = map Fin u -> x_fit b = map Fin v -> ~ rdominates u v) /\
    ((exists b, In b survivors /\ evaluated b = false) ->
     exists removed, Permutation (removed ++ survivors) pop /\
       forall a b u v, In a removed -> In b survivors -> x_fit a = map Fin u -> x_fit b = map Fin v -> Forall2 Rle v u).
Proof.
  intros kappa k ps pop Hkap Hk Hr.
  assert (Hag : agrees (fun m => m) ind_nan ibea_ind_x pop) by (intros a b Ha Hb; exact (ind_nan_spec k a b (Hr a Ha) (Hr b Hb))).
  pose proof (env_fin (fun m => m) ind_nan ibea_ind_x kappa (Rgt_not_eq _ _ Hkap) ps pop Hag) as E. rewrite map_id in E.
  destruct (env_loop_spec ind_nan kappa (length pop) ps pop _ (assignment_exact ind_nan kappa pop)) as (s & f & E1 & T & _); [lia|].
  exists s, (map Fin f). split; [unfold ibea_env_x; rewrite E, E1; unfold lift_x; cbn [fst snd]; rewrite map_id; reflexivity|].
  split; [apply (trims_size ind_nan kappa _ _ _ T)|]. 
  assert (Hfin : forall m u, x_fit m = map Fin u -> successful m = true /\ map fin_part (x_fit m) = u).
  { intros m u H. split; [apply successful_fin; eauto|]. rewrite H, map_map. cbn [fin_part]. apply map_id. }
  split.
  - destruct (trims_up_closed ind_nan kappa better_ok Hkap _ _ _ T (nan_respects pop)) as (rem & P1 & P2). exists rem. split; [exact P1|].
    intros a b u v Ha Hb Eu Ev Hd. destruct (Hfin a u Eu) as [A1 A2]. destruct (Hfin b v Ev) as [B1 B2]. apply (P2 a b Ha Hb). split; [exact A1|]. split; [exact B1|]. rewrite A2, B2. exact Hd.
  - intros Hb. destruct (nan_trims kappa Hkap ps pop s T Hb) as (rem & P1 & P2). exists rem. split; [exact P1|].
    intros a b u v Ha Hb' Eu Ev. destruct (Hfin a u Eu) as [A1 A2]. destruct (Hfin b v Ev) as [B1 B2].
    specialize (P2 a b Ha Hb'). unfold ind_nan in P2. rewrite A1, B1, A2, B2 in P2. cbn [andb] in P2. apply eps_zero_le; [exact P2|].
    assert (In a pop) as Ia by (apply (Permutation_in _ P1), in_or_app; now left). assert (In b pop) as Ib by (apply (Permutation_in _ P1), in_or_app; now right).
    pose proof (proj1 (Hr a Ia)) as La. pose proof (proj1 (Hr b Ib)) as Lb. rewrite Eu, map_length in La. rewrite Ev, map_length in Lb. lia.
Qed.
(** ... but a failed member may survive in place of a successful one: of a successful member and one that failed with NaN, the successful one is removed, for every kappa. *)
Theorem C127_ibea_nan_refuted : forall kappa, 0 < kappa ->
  let good := mkMemberX [Fin 1; Fin 1] [Fin 1; Fin 1] in let failed := mkMemberX [NaN; NaN] [NaN; NaN] in
  exists fit, ibea_env_x kappa 1 [good; failed] = Some (Ok ([failed], fit)).
Proof.
  intros kappa Hk good failed. unfold ibea_env_x, env_x.
  assert (E : fitness_assignment_x ibea_ind_x kappa [good; failed] = map Fin [0 + - exp (- 0 / kappa); 0 + - exp (- 0 / kappa)]).
  { unfold fitness_assignment_x, assign_one_x, term_x, ibea_ind_x, eps_ind_x, good, failed.
    cbn [length seq combine map fold_left fst snd Nat.eqb x_fit vmap2 xsub xltb xopp xdiv]. destruct (Req_EM_T kappa 0); [lra|]. cbn [xexp xopp xadd]. reflexivity. }
  rewrite E. cbn [length env_loop_x Nat.ltb Nat.leb]. rewrite xargmin_fin. cbn [argmin argmin_from]. destruct (Rlt_dec _ _) as [H|_]; [lra|].
  cbn [nth_error]. eexists. reflexivity.
Qed.

(** C127. PBEA: as soon as one member has a NaN objective value, environmental selection is blind: it keeps the last pop_size rows of the population, whatever their quality, so all
    parents are lost when there are pop_size offspring. *)
Theorem C127_pbea_nan_refuted : forall ref delta kappa pop_size pop m j,
  In m pop -> nth_error (x_obj m) j = Some NaN -> (j < length ref)%nat -> (0 < pop_size)%nat ->
  exists fit, pbea_env_x ref delta kappa pop_size pop = Some (Ok (skipn (length pop - pop_size) pop, fit)).
Proof.
  intros ref delta kappa ps pop m j Hm Hj Hl Hp. unfold pbea_env_x, env_x. pose proof (pbea_nan_ind ref delta pop m j Hm Hj Hl) as Hall.
  destruct (le_lt_dec (length pop) 1) as [H1|H1].
  - rewrite env_loop_done by lia. replace (length pop - ps)%nat with 0%nat by lia. eauto.
  - apply allnan_loop; auto; [apply allnan_assignment; auto; lia|apply assignment_length|lia].
Qed.

Lemma pbea_min_asf_up ref pop k : length ref = k -> (0 < k)%nat -> (exists g, In g pop /\ evaluated g = true) ->
  (forall m, In m pop -> x_fit m = x_obj m /\ length (x_obj m) = k /\ (evaluated m = true \/ x_obj m = repeat PInf k)) ->
  exists v, pbea_min_asf_x ref pop = Fin v /\ forall g u, In g pop -> x_obj g = map Fin u -> v <= simple_asf u ref.
Proof.
  intros Lr Hk Hg Hr. unfold pbea_min_asf_x.
  assert (A : forall m, In m pop -> simple_asf_x (x_obj m) ref = PInf /\ evaluated m = false \/ exists u, x_obj m = map Fin u /\ simple_asf_x (x_obj m) ref = Fin (simple_asf u ref)).
  { intros m Hm. destruct (Hr m Hm) as (E & L & [H|H]).
    - right. exists (map fin_part (x_obj m)). unfold evaluated in H. rewrite E in H. pose proof (fin_row_map _ H) as F. split; [exact F|]. rewrite F at 1. apply asf_fin.
    - left. split.
      + rewrite H. unfold simple_asf_x. clear -Lr Hk. destruct ref as [|r ref]; [cbn in Lr; lia|]. subst k. clear Hk. cbn [length repeat map vmap2 xsub].
        induction ref as [|q ref IH]; cbn [length repeat map vmap2 xsub xmax_list]; [reflexivity|]. rewrite IH. reflexivity.
      + unfold evaluated. rewrite E, H. destruct k; [lia|]. reflexivity. }
  clear Hr.
  assert (G : forall l, (forall m, In m l -> In m pop) -> forall x, (x = PInf \/ exists r, x = Fin r) ->
    (xmin_list x (map (fun m => simple_asf_x (x_obj m) ref) l) = PInf \/ exists v, xmin_list x (map (fun m => simple_asf_x (x_obj m) ref) l) = Fin v) /\
    (forall y, (x = Fin y \/ exists g u, In g l /\ x_obj g = map Fin u /\ y = simple_asf u ref) ->
      exists v, xmin_list x (map (fun m => simple_asf_x (x_obj m) ref) l) = Fin v /\ v <= y)).
  { induction l as [|m l IH]; intros Hl x Hx; cbn [map xmin_list].
    - split; [exact Hx|]. intros y [->|(g & u & [] & _)]. exists y. split; [reflexivity|lra].
    - assert (Hm : simple_asf_x (x_obj m) ref = PInf \/ exists r, simple_asf_x (x_obj m) ref = Fin r).
      { destruct (A m) as [[A1 _]|(u & _ & A1)]; [apply Hl; now left|left; exact A1|right; eauto]. }
      destruct (IH (fun m' H => Hl m' (or_intror H)) _ Hm) as [I1 I2]. split.
      + destruct Hx as [->|[r ->]]; destruct I1 as [->|[v ->]]; cbn; auto; try (right; eauto; fail).
        right. unfold xmin. cbn [is_nan orb xltb]. destruct (Rlt_dec v r); eauto.
      + intros y Hy.
        assert (Hc : x = Fin y \/ exists v, xmin_list (simple_asf_x (x_obj m) ref) (map (fun m => simple_asf_x (x_obj m) ref) l) = Fin v /\ v <= y).
        { destruct Hy as [Hy|(g & u & [<-|Hg2] & E1 & E2)]; [now left| |]; right; apply I2.
          - left. rewrite E1, asf_fin, E2. reflexivity.
          - right. exists g, u. auto. }
        destruct Hc as [->|(v & -> & Hv)].
        * destruct I1 as [->|[v ->]]; [exists y; split; [reflexivity|lra]|]. unfold xmin. cbn [is_nan orb xltb]. destruct (Rlt_dec v y); [exists v|exists y]; split; auto; lra.
        * destruct Hx as [->|[r ->]]; unfold xmin; cbn [is_nan orb xltb]; [exists v; auto|]. destruct (Rlt_dec v r); [exists v; auto|exists r; split; [auto|lra]]. }
  destruct pop as [|m pop]; [destruct Hg as (g & [] & _)|]. cbn [map].
  assert (Hm : simple_asf_x (x_obj m) ref = PInf \/ exists r, simple_asf_x (x_obj m) ref = Fin r).
  { destruct (A m) as [[A1 _]|(u & _ & A1)]; [now left|left; exact A1|right; eauto]. }
  destruct (G pop (fun m' H => or_intror H) _ Hm) as [G1 G2].
  assert (B : forall g u, In g (m :: pop) -> x_obj g = map Fin u -> exists v, xmin_list (simple_asf_x (x_obj m) ref) (map (fun m => simple_asf_x (x_obj m) ref) pop) = Fin v /\ v <= simple_asf u ref).
  { intros g u [<-|Hg2] E; apply G2; [left; rewrite E; apply asf_fin|right; exists g, u; auto]. }
  destruct Hg as (g & Hg & Eg). destruct (A g Hg) as [[_ A1]|(u & A1 & _)]; [congruence|]. destruct (B g u Hg A1) as (v & Ev & _).
  exists v. split; [exact Ev|]. intros g' u' H' E'. destruct (B g' u' H' E') as (v' & Ev' & Hv'). rewrite Ev in Ev'. injection Ev' as <-. exact Hv'.
Qed.

(** C127. PBEA with evaluations that failed with +infinity (all objectives minimised): the failed members are the last to go. If n members have to go, the first n of the
    successfully evaluated ones go, whatever their quality (all of them if there are no more than n); a failed member is removed only when no successful one is left. *)
Theorem C127_pbea_infinite_refuted : forall ref delta kappa n_obj pop_size pop, 0 < delta -> 0 < kappa -> (0 < n_obj)%nat -> length ref = n_obj ->
  (forall m, In m pop -> x_fit m = x_obj m /\ length (x_obj m) = n_obj /\ (evaluated m = true \/ x_obj m = repeat PInf n_obj)) ->
  (exists m, In m pop /\ evaluated m = false) ->
  exists survivors fit, pbea_env_x ref delta kappa pop_size pop = Some (Ok (survivors, fit)) /\ length survivors = Nat.min pop_size (length pop) /\
    filter evaluated survivors = skipn (length pop - pop_size) (filter evaluated pop).
Proof.
  intros ref delta kappa k ps pop Hd Hkap Hk Lr Hr Hb. unfold pbea_env_x, env_x.
  destruct (env_loop_total (pbea_ind_x ref delta pop) kappa (length pop) ps pop (fitness_assignment_x (pbea_ind_x ref delta pop) kappa pop)) as (s & f & E & _ & L & Sub); [apply assignment_length|lia|].
  exists s, f. split; [exact E|]. split; [exact L|].
  destruct (existsb evaluated pop) eqn:Ex.
  - apply existsb_exists in Ex. destruct (pbea_min_asf_up ref pop k Lr Hk Ex Hr) as (v & Ev & Hv).
    assert (Fit : forall m, In m pop -> evaluated m = true -> exists u, x_obj m = map Fin u /\ x_fit m = map Fin u).
    { intros m Hm Em. destruct (Hr m Hm) as (E1 & _). exists (map fin_part (x_fit m)). unfold evaluated in Em. pose proof (fin_row_map _ Em) as F. split; [rewrite <- E1|]; exact F. }
    assert (Bad : forall m, In m pop -> evaluated m = false -> x_fit m = repeat PInf k).
    { intros m Hm Em. destruct (Hr m Hm) as (E1 & _ & [H|H]); congruence. }
    assert (AsfInf : simple_asf_x (repeat PInf k) ref = PInf).
    { unfold simple_asf_x. clear -Lr Hk. destruct ref as [|r ref]; [cbn in Lr; lia|]. subst k. clear Hk. cbn [length repeat map vmap2 xsub].
      induction ref as [|q ref IH]; cbn [length repeat map vmap2 xsub xmax_list]; [reflexivity|]. rewrite IH. reflexivity. }
    destruct (half_loop (pbea_ind_x ref delta pop) kappa evaluated pop) with (ps := ps) (fuel := length pop) (pop := pop) (fit := fitness_assignment_x (pbea_ind_x ref delta pop) kappa pop) as (s' & f' & E' & Q).
    + intros a b Ha Hb' Ea. assert (Eind : pbea_ind_x ref delta pop a b = Fin 0).
      { unfold pbea_ind_x, pref_ind_x. rewrite (Bad a Ha Ea), Ev. destruct (evaluated b) eqn:Eb.
        - destruct (Fit b Hb' Eb) as (u & U1 & U2). rewrite U2, eps_x_bad_fin by auto. rewrite asf_fin. cbn [xadd xsub xdiv].
          destruct (Req_EM_T _ 0) as [E0|E0]; [exfalso; specialize (Hv b u Hb' U1); lra|]. f_equal. unfold Rdiv. apply Rmult_0_l.
        - rewrite (Bad b Hb' Eb), eps_x_bad_bad by auto. rewrite AsfInf. cbn [xadd xsub xdiv]. reflexivity. }
      unfold term_x. rewrite Eind. cbn [xopp xdiv]. destruct (Req_EM_T kappa 0); [lra|]. cbn [xexp]. eauto.
    + auto.
    + apply half_assignment; [| |exact Hb].
      * intros a b Ha Hb' Ea Eb. assert (Eind : pbea_ind_x ref delta pop a b = NaN); [|unfold term_x; rewrite Eind; reflexivity].
        destruct (Fit a Ha Ea) as (u & U1 & U2). unfold pbea_ind_x, pref_ind_x. rewrite U2, (Bad b Hb' Eb), Ev, AsfInf. cbn [xadd xsub].
        rewrite eps_x_fin_inf; [reflexivity|exact Hk|]. rewrite <- (map_length Fin), <- U1. apply (Hr a Ha).
      * intros a b Ha Hb' Ea. assert (Eind : pbea_ind_x ref delta pop a b = Fin 0).
        { unfold pbea_ind_x, pref_ind_x. rewrite (Bad a Ha Ea), Ev. destruct (evaluated b) eqn:Eb.
          - destruct (Fit b Hb' Eb) as (u & U1 & U2). rewrite U2, eps_x_bad_fin by auto. rewrite asf_fin. cbn [xadd xsub xdiv].
            destruct (Req_EM_T _ 0) as [E0|E0]; [exfalso; specialize (Hv b u Hb' U1); lra|]. f_equal. unfold Rdiv. apply Rmult_0_l.
          - rewrite (Bad b Hb' Eb), eps_x_bad_bad by auto. rewrite AsfInf. cbn [xadd xsub xdiv]. reflexivity. }
        unfold term_x. rewrite Eind. cbn [xopp xdiv]. destruct (Req_EM_T kappa 0); [lra|]. cbn [xexp]. eauto.
    + lia.
    + rewrite E in E'. injection E' as <- <-. exact Q.
  - assert (N : forall l, subseq l pop -> filter evaluated l = []).
    { intros l Hs. clear -Hs Ex. induction Hs as [|x l l' _ IH|x l l' _ IH]; cbn [existsb] in *; [reflexivity| |].
      - apply IH. destruct (evaluated x); [discriminate|exact Ex].
      - cbn [filter]. destruct (evaluated x); [discriminate|]. apply IH. exact Ex. }
    rewrite (N s Sub), (N pop (subseq_refl pop)), skipn_nil. reflexivity.
Qed.

Print Assumptions C127_ibea_finite_values.
Print Assumptions C127_pbea_finite_values.
Print Assumptions C127_ibea_infinite.
Print Assumptions C127_ibea_nan_partial.
Print Assumptions C127_ibea_nan_refuted.
Print Assumptions C127_pbea_nan_refuted.
Print Assumptions C127_pbea_infinite_refuted.

(** The hypotheses are met. *)
Definition exm (x y : R) : member_x := mkMemberX [Fin x; Fin y] [Fin x; Fin y].
Definition ex_inf : member_x := mkMemberX [PInf; PInf] [PInf; PInf].
Definition ex_nan : member_x := mkMemberX [NaN; NaN] [NaN; NaN].
(** Three successful members and two failed ones, three are to survive: the successful ones do. *)
Example ex_ibea_inf : exists fit, ibea_env_x (5/100) 3 [ex_inf; exm 1 2; exm 2 1; ex_inf; exm 3 3] = Some (Ok ([exm 1 2; exm 2 1; exm 3 3], fit)).
Proof.
  destruct (C127_ibea_infinite (5/100) 2 3 [ex_inf; exm 1 2; exm 2 1; ex_inf; exm 3 3]) as [A _]; [lra|lia| |].
  - intros m [<-|[<-|[<-|[<-|[<-|[]]]]]]; (split; [reflexivity|]); ((left; reflexivity) || (right; reflexivity)).
  - eexists. rewrite A by (cbn; lia). unfold ibea_env_x, env_x. cbn [filter evaluated forallb is_fin x_fit ex_inf exm andb]. rewrite env_loop_done by (cbn; lia). reflexivity.
Qed.
(** Two parents, the first of which dominates everybody, and two offspring, one of which failed: with two to survive, PBEA removes the parents in both cases. *)
Example ex_pbea_nan : exists fit, pbea_env_x [0; 0] (1/10) (5/100) 2 [exm 1 1; exm 2 2; exm 3 3; ex_nan] = Some (Ok ([exm 3 3; ex_nan], fit)).
Proof.
  apply (C127_pbea_nan_refuted [0; 0] (1/10) (5/100) 2 [exm 1 1; exm 2 2; exm 3 3; ex_nan] ex_nan 0); [right; right; right; left; reflexivity|reflexivity|cbn; lia|lia].
Qed.
Example ex_pbea_inf : exists s fit, pbea_env_x [0; 0] (1/10) (5/100) 2 [exm 1 1; exm 2 2; exm 3 3; ex_inf] = Some (Ok (s, fit)) /\ length s = 2%nat /\ filter evaluated s = [exm 3 3].
Proof.
  destruct (C127_pbea_infinite_refuted [0; 0] (1/10) (5/100) 2 2 [exm 1 1; exm 2 2; exm 3 3; ex_inf]) as (s & f & E & L & F); [lra|lra|lia|reflexivity| | |].
  - intros m [<-|[<-|[<-|[<-|[]]]]]; (split; [reflexivity|split; [reflexivity|]]); ((left; reflexivity) || (right; reflexivity)).
  - exists ex_inf. split; [right; right; right; left; reflexivity|reflexivity].
  - exists s, f. split; [exact E|]. split; [exact L|]. rewrite F. reflexivity.
Qed.
Example ex_ibea_nan : forall m, In m [exm 1 2; ex_nan] -> length (x_fit m) = 2%nat /\ (evaluated m = true \/ x_fit m = repeat NaN 2).
Proof. intros m [<-|[<-|[]]]; (split; [reflexivity|]); ((left; reflexivity) || (right; reflexivity)). Qed.
