(** C29-C32: RVEA's APD selection. *)
From Verif Require Import Base RVec M_APD Spec_APD P_APD.
From Coq Require Import Reals Lra.
Open Scope R_scope.

(** Selection succeeds on every well-formed input. *)
Theorem C29_selection_total : forall m penalty ideal pop_ideal fit cons vecs gam,
  selection_input m ideal pop_ideal fit cons vecs gam ->
  exists z s, apd_select penalty ideal pop_ideal fit cons vecs gam = Ok (z, s).
Proof.
  intros m penalty ideal pop_ideal fit cons vecs gam SI.
  destruct (new_ideal_total ideal pop_ideal fit (proj1 (si_fit _ _ _ _ _ _ _ SI))) as (z & E).
  unfold apd_select. rewrite E. simpl. eauto.
Qed.

(** C29. Distinct valid positions; for every vector, exactly one of the individuals closest to it
    (if there is any) is selected, and every selected individual is counted for one vector; the
    selection of a non-empty population is not empty. *)
Theorem C29_one_per_niche : forall m penalty ideal pop_ideal fit cons vecs gam z s,
  selection_input m ideal pop_ideal fit cons vecs gam ->
  apd_select penalty ideal pop_ideal fit cons vecs gam = Ok (z, s) ->
  NoDup s /\ s <> [] /\
  (forall i, In i s -> (i < length fit)%nat /\ exists k, (k < length vecs)%nat /\ closest z fit vecs i k) /\
  (forall k, (exists i, closest z fit vecs i k) -> exists! i, In i s /\ closest z fit vecs i k).
Proof.
  intros m penalty ideal pop_ideal fit cons vecs gam z s SI H. unfold apd_select in H.
  destruct (new_ideal ideal pop_ideal fit) as [z'|] eqn:Ez; [|discriminate]. simpl in H. injection H as Hz <-. subst z'.
  fold (sel penalty fit cons vecs gam z).
  assert (K : forall k, (exists i, closest z fit vecs i k) -> exists! i, In i (sel penalty fit cons vecs gam z) /\ closest z fit vecs i k).
  { intros k Hk.
    destruct (choose_spec penalty m ideal pop_ideal fit cons vecs gam z SI Ez k) as [[_ N]|(i & E & A & _)]; [contradiction|].
    exists i. split.
    - split; [|apply A]. eapply In_sel; eauto. exists k. rewrite E. left; auto.
    - intros i' [H1 H2]. eapply In_sel in H1; eauto. destruct H1 as (k' & H1).
      assert (k' = k) as -> by (eapply closest_unique; eauto; eapply choose_closest; eauto).
      rewrite E in H1. destruct H1 as [->|[]]; auto. }
  split; [eapply sel_NoDup; eauto|]. split.
  - pose proof (proj1 (si_fit _ _ _ _ _ _ _ SI)) as NE. destruct fit as [|f t] eqn:Ef; [congruence|].
    destruct (assigned_closest m ideal pop_ideal (f :: t) cons vecs gam z SI Ez 0 f eq_refl) as [_ C].
    destruct (K _ (ex_intro (fun i => closest z (f :: t) vecs i _) 0%nat C)) as (i & [Hi _] & _).
    intros H. rewrite H in Hi. destruct Hi.
  - split; [|exact K]. intros i Hi. eapply In_sel in Hi; eauto. destruct Hi as (k & Hi). 
    eapply choose_closest in Hi; eauto. split; [eapply closest_lt; eauto|]. exists k. split; [eapply closest_vec; eauto|exact Hi].
Qed.
Print Assumptions C29_one_per_niche.

(** C30 and C31. The individual selected for vector k is admissible in its niche (see C31) and has
    the smallest angle penalised distance among the admissible ones, the first one on a tie. [g] is
    the angle from the vector to its nearest neighbour; the code uses 2^-52 in place of 0. *)
Theorem C30_smallest_apd : forall m penalty ideal pop_ideal fit cons vecs gam z s i k f v g g',
  selection_input m ideal pop_ideal fit cons vecs gam ->
  apd_select penalty ideal pop_ideal fit cons vecs gam = Ok (z, s) ->
  In i s -> closest z fit vecs i k -> nth_error fit i = Some f -> nth_error vecs k = Some v -> nth_error gam k = Some g ->
  (g <> 0 -> g' = g) -> (g = 0 -> g' = / 2 ^ 52) ->
  admissible z fit cons vecs k i /\
  forall j fj, admissible z fit cons vecs k j -> nth_error fit j = Some fj ->
    APD penalty g' z f v <= APD penalty g' z fj v /\ ((j < i)%nat -> APD penalty g' z f v < APD penalty g' z fj v).
Proof.
  intros m penalty ideal pop_ideal fit cons vecs gam z s i k f v g g' SI H Hi Hc Hf Hv Hg Hg1 Hg2. unfold apd_select in H.
  destruct (new_ideal ideal pop_ideal fit) as [z'|] eqn:Ez; [|discriminate]. simpl in H. injection H as Hz <-. subst z'.
  fold (sel penalty fit cons vecs gam z) in Hi. eapply In_sel in Hi; eauto. destruct Hi as (k' & Hi).
  assert (k' = k) as -> by (eapply closest_unique; eauto; eapply choose_closest; eauto).
  assert (G : zero_eps g = g').
  { unfold zero_eps. destruct (Req_EM_T g 0); [rewrite Hg2|rewrite Hg1]; auto. }
  destruct (choose_spec penalty m ideal pop_ideal fit cons vecs gam z SI Ez k) as [[E _]|(i0 & E & A & M)]; rewrite E in Hi; [destruct Hi|destruct Hi as [->|[]]].
  split; [exact A|]. intros j fj Hj Hfj. specialize (M j Hj).
  rewrite (apd_APD penalty m ideal pop_ideal fit cons vecs gam z SI Ez k i f v g Hf Hv Hg) in M.
  rewrite (apd_APD penalty m ideal pop_ideal fit cons vecs gam z SI Ez k j fj v g Hfj Hv Hg) in M. rewrite G in M. exact M.
Qed.

(** C31. With constraints: if some individual of a selected individual's niche is feasible, the
    selected one is feasible; otherwise none of the niche has a smaller total violation. *)
Theorem C31_feasible_first : forall m penalty ideal pop_ideal fit c vecs gam z s i k ci,
  selection_input m ideal pop_ideal fit (Some c) vecs gam ->
  apd_select penalty ideal pop_ideal fit (Some c) vecs gam = Ok (z, s) ->
  In i s -> closest z fit vecs i k -> nth_error c i = Some ci ->
  (forall j cj, closest z fit vecs j k -> nth_error c j = Some cj -> feasible cj -> feasible ci) /\
  ((forall j cj, closest z fit vecs j k -> nth_error c j = Some cj -> ~ feasible cj) ->
   forall j cj, closest z fit vecs j k -> nth_error c j = Some cj -> total_violation ci <= total_violation cj).
Proof.
  intros m penalty ideal pop_ideal fit c vecs gam z s i k ci SI H Hi Hc Hci.
  pose proof Hc as (f & v & Hf & Hv & _).
  destruct (nth_error gam k) as [g|] eqn:Eg.
  2:{ exfalso. apply nth_error_None in Eg. rewrite (si_gam _ _ _ _ _ _ _ SI) in Eg.
      assert (k < length vecs)%nat by (apply nth_error_Some; congruence). lia. }
  destruct (C30_smallest_apd m penalty ideal pop_ideal fit (Some c) vecs gam z s i k f v g (zero_eps g) SI H Hi Hc Hf Hv Eg) as [A _].
  { unfold zero_eps. destruct (Req_EM_T g 0); tauto. }
  { unfold zero_eps. destruct (Req_EM_T g 0); tauto. }
  destruct A as [_ (ci' & Hci' & A)]. rewrite Hci in Hci'. injection Hci' as <-. split.
  - intros j cj Hj Hcj F. destruct A as [A|A]; [exact A|]. destruct (A j cj Hj Hcj) as [A1 _]. contradiction.
  - intros N j cj Hj Hcj. destruct A as [A|A]; [exfalso; exact (N i ci Hc Hci A)|]. apply (A j cj Hj Hcj).
Qed.

(** C32, one selection: the ideal point does not increase, is at most every fitness of the population and at
    most the problem's ideal; each component is attained by the old ideal, the problem's ideal or a member; so
    the translated fitness values are non-negative. *)
Theorem C32_ideal_step : forall m penalty ideal pop_ideal fit cons vecs gam z s,
  selection_input m ideal pop_ideal fit cons vecs gam ->
  apd_select penalty ideal pop_ideal fit cons vecs gam = Ok (z, s) ->
  length z = m /\ Forall2 Rle z ideal /\ Forall2 Rle z pop_ideal /\ (forall f, In f fit -> Forall2 Rle z f) /\
  (forall f x, In f fit -> In x (vsub f z) -> 0 <= x) /\
  (forall j x, nth_error z j = Some x ->
     nth_error ideal j = Some x \/ nth_error pop_ideal j = Some x \/ exists f, In f fit /\ nth_error f j = Some x).
Proof.
  intros m penalty ideal pop_ideal fit cons vecs gam z s SI H. unfold apd_select in H.
  destruct (new_ideal ideal pop_ideal fit) as [z'|] eqn:Ez; [|discriminate]. simpl in H. injection H as Hz Hs. subst z'.
  destruct (new_ideal_spec m ideal pop_ideal fit z) as (A & B & C & D & E); [apply (si_ideal _ _ _ _ _ _ _ SI)|apply (si_ideal _ _ _ _ _ _ _ SI)|apply (si_fit _ _ _ _ _ _ _ SI)|exact Ez|].
  split; [exact A|]. split; [exact B|]. split; [exact C|]. split; [exact D|]. split; [|exact E]. intros f x Hf. apply vsub_nonneg; auto.
Qed.

(** C32 over a history of selections (population, problem ideal, constraints, vectors and penalty
    changing arbitrarily between them): the ideal only improves and stays at most every fitness ever seen. *)
Record call := mkCall { c_pen : R; c_pi : list R; c_fit : list (list R); c_cons : option (list (list R)); c_vecs : list (list R); c_gam : list R }.
Inductive history (m : nat) : list R -> list call -> list R -> Prop :=
| history_nil z : history m z [] z
| history_cons z c z1 s rest z2 :
    selection_input m z (c_pi c) (c_fit c) (c_cons c) (c_vecs c) (c_gam c) ->
    apd_select (c_pen c) z (c_pi c) (c_fit c) (c_cons c) (c_vecs c) (c_gam c) = Ok (z1, s) ->
    history m z1 rest z2 -> history m z (c :: rest) z2.
Theorem C32_ideal_history : forall m z calls z', history m z calls z' ->
  Forall2 Rle z' z /\ forall c f, In c calls -> In f (c_fit c) -> Forall2 Rle z' f.
Proof.
  induction 1 as [z|z c z1 s rest z2 SI E H [IH1 IH2]].
  - split; [apply Forall2_Rle_refl|intros c f []].
  - destruct (C32_ideal_step _ _ _ _ _ _ _ _ _ _ SI E) as (_ & A & _ & B & _). split; [eapply Forall2_Rle_trans; eauto|].
    intros c' f [<-|Hc] Hf; [|eauto]. eapply Forall2_Rle_trans; eauto.
Qed.

(** selection_type: "optimistic" / "robust" shift every fitness value by minus / plus its
    uncertainty, which must exist; other names fail. *)
Theorem C32_selection_types : forall fit unc i j f u x y,
  nth_error fit i = Some f -> nth_error unc i = Some u -> nth_error f j = Some x -> nth_error u j = Some y ->
  (exists fo ro, calc_fitness SelOptimistic fit (Some unc) = Ok fo /\ calc_fitness SelRobust fit (Some unc) = Ok ro /\
    (exists f', nth_error fo i = Some f' /\ nth_error f' j = Some (x - y)) /\
    (exists f', nth_error ro i = Some f' /\ nth_error f' j = Some (x + y))) /\
  calc_fitness SelMean fit (Some unc) = Ok fit /\ calc_fitness SelMean fit None = Ok fit.
Proof.
  intros fit unc i j f u x y Hf Hu Hx Hy. split; [|split; reflexivity]. do 2 eexists. split; [reflexivity|]. split; [reflexivity|].
  split; eexists; (split; [rewrite vmap2_nth, Hf, Hu; reflexivity|]); unfold vsub, vadd; rewrite vmap2_nth, Hx, Hy; reflexivity.
Qed.
Print Assumptions C32_ideal_history.

(** A concrete case: 3 individuals, 2 objectives, one constraint, vectors (1,0) and (0,1). The
    new ideal is (1,1); individuals 1 and 2 share the niche of vector 0. *)
Example input_ok : selection_input 2 [1; 5] [4; 1] [[1; 2]; [2; 1]; [3; 1]] (Some [[-1]; [2]; [-3]]) [[1; 0]; [0; 1]] [PI / 2; PI / 2].
Proof.
  constructor; simpl; auto.
  - split; [discriminate|]. intros f [<-|[<-|[<-|[]]]]; auto.
  - split; [discriminate|]. intros v [<-|[<-|[]]]; (split; [auto|split]).
    + unfold norm; simpl. replace (1 * 1 + (0 * 0 + 0)) with 1 by ring. apply sqrt_1.
    + intros x [<-|[<-|[]]]; lra.
    + unfold norm; simpl. replace (0 * 0 + (1 * 1 + 0)) with 1 by ring. apply sqrt_1.
    + intros x [<-|[<-|[]]]; lra.
Qed.
Example ideal_ex : new_ideal [1; 5] [4; 1] [[1; 2]; [2; 1]; [3; 1]] = Ok [1; 1].
Proof. unfold new_ideal, colmin, vmin; simpl. repeat f_equal; unfold Rmin; repeat destruct (Rle_dec _ _); lra. Qed.
Example closest_ex : closest [1; 1] [[1; 2]; [2; 1]; [3; 1]] [[1; 0]; [0; 1]] 1 0 /\ closest [1; 1] [[1; 2]; [2; 1]; [3; 1]] [[1; 0]; [0; 1]] 2 0.
Proof.
  assert (N1 : norm [1; 0] = 1) by (unfold norm; simpl; replace (1 * 1 + (0 * 0 + 0)) with 1 by ring; apply sqrt_1).
  assert (N2 : norm [0; 1] = 1) by (unfold norm; simpl; replace (0 * 0 + (1 * 1 + 0)) with 1 by ring; apply sqrt_1).
  split; do 2 eexists; (split; [reflexivity|]); (split; [reflexivity|]); intros [|[|k']] v' H; simpl in H; try (destruct k'; discriminate);
    injection H as <-; (split; [|lia]); unfold cos_between; rewrite ?N1, ?N2; simpl; try lra.
  - replace (norm (vsub [2; 1] [1; 1])) with 1. lra. unfold norm; simpl. replace ((2 - 1) * (2 - 1) + ((1 - 1) * (1 - 1) + 0)) with 1 by ring. rewrite sqrt_1; auto.
  - replace (norm (vsub [3; 1] [1; 1])) with 2. rewrite Rmult_1_r. lra. unfold norm; simpl. replace ((3 - 1) * (3 - 1) + ((1 - 1) * (1 - 1) + 0)) with (2 * 2) by ring. rewrite sqrt_square; lra.
Qed.
(** ... so the feasible individual 2 is selected for vector 0, although 1 is nearer to the ideal. *)
Example selected_ex : forall pen z s, apd_select pen [1; 5] [4; 1] [[1; 2]; [2; 1]; [3; 1]] (Some [[-1]; [2]; [-3]]) [[1; 0]; [0; 1]] [PI / 2; PI / 2] = Ok (z, s) ->
  In 2%nat s /\ ~ In 1%nat s.
Proof.
  intros pen z s H. assert (z = [1; 1]) as ->.
  { unfold apd_select in H. rewrite ideal_ex in H. simpl in H. congruence. }
  destruct (C29_one_per_niche _ _ _ _ _ _ _ _ _ _ input_ok H) as (_ & _ & _ & U).
  destruct closest_ex as [C1 C2].
  assert (N1 : ~ In 1%nat s).
  { intros I. destruct (C31_feasible_first _ _ _ _ _ _ _ _ _ _ 1%nat 0%nat [2] input_ok H I C1 eq_refl) as [F _].
    specialize (F 2%nat [-3] C2 eq_refl). assert (F' : feasible [2]) by (apply F; intros x [<-|[]]; lra).
    specialize (F' 2 (or_introl eq_refl)). lra. }
  split; [|exact N1].
  destruct (U 0%nat (ex_intro (fun i => closest _ _ _ i 0%nat) 1%nat C1)) as (i & [Hi Ci] & _).
  assert (Hlt : (i < 3)%nat) by exact (closest_lt _ _ _ _ _ Ci).
  destruct i as [|[|[|i]]]; [|contradiction|exact Hi|lia].
  exfalso. destruct Ci as (f & v & Hf & Hv & M). injection Hf as <-. injection Hv as <-.
  destruct (M 1%nat [0; 1] eq_refl) as [L _]. unfold cos_between in L.
  replace (norm [1; 0]) with 1 in L by (unfold norm; simpl; replace (1 * 1 + (0 * 0 + 0)) with 1 by ring; rewrite sqrt_1; auto).
  replace (norm [0; 1]) with 1 in L by (unfold norm; simpl; replace (0 * 0 + (1 * 1 + 0)) with 1 by ring; rewrite sqrt_1; auto).
  simpl in L. replace (norm (vsub [1; 2] [1; 1])) with 1 in L. lra.
  unfold norm; simpl. replace ((1 - 1) * (1 - 1) + ((2 - 1) * (2 - 1) + 0)) with 1 by ring. rewrite sqrt_1; auto.
Qed.
