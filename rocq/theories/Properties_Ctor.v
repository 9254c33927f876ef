(** C87, C99: what a constructor call does with its arguments, for every algorithm class and every call.
    C98: training surrogate models with any algorithm class. *)
From Coq Require Import String QArith.
From Verif Require Import Base M_BaseEA P_BaseEA M_Ctor Spec_Ctor P_Ctor.
Open Scope string_scope.

(** Python binding itself: a call binds exactly when it is accepted, and every parameter then has the value
    passed or its default; otherwise TypeError. *)
Theorem C87_call_binding : forall sg pos kw, NoDup (map fst sg) -> NoDup (map fst kw) ->
  (accepted (map fst sg) (required_of sg) pos kw ->
     exists e, bind_call sg pos kw = Ok e /\ map fst e = map fst sg /\
       forall x d, In (x, d) sg -> exists v, lookup x e = Some v /\
         match d with Some dv => given_or (map fst sg) pos kw x dv v | None => passed (map fst sg) pos kw x v end) /\
  (~ accepted (map fst sg) (required_of sg) pos kw -> bind_call sg pos kw = Err TypeError).
Proof.
  intros sg pos kw N K. pose proof (bind_call_spec sg pos kw N K) as H.
  destruct (bind_call sg pos kw) as [e|er] eqn:E.
  - destruct H as (A & B & C). split; [|intros X; destruct (X A)]. intros _. exists e. split; [reflexivity|]. split; [exact B|].
    intros x d Hx. destruct (C x d Hx) as (v & C1 & C2). exists v. split; [exact C1|].
    destruct d as [dv|].
    + destruct C2 as [C2|[C2 C3]]; [left; exact C2|right]. split; [exact C2|congruence].
    + destruct C2 as [C2|[_ C3]]; [exact C2|discriminate].
  - destruct H as [-> H]. split; [intros X; destruct (H X)|reflexivity].
Qed.

(** A call with unknown, repeated, surplus or missing arguments raises TypeError in every class. *)
Theorem C87_malformed_call_rejected : forall c pos kw, NoDup (map fst kw) ->
  ~ accepted (params c) (required c) pos kw -> construct c pos kw = Err TypeError.
Proof.
  intros c pos kw K H. rewrite <- sig_params, <- sig_required in H.
  pose proof (bind_call_spec (sig_of c) pos kw (sig_nodup c) K) as S0.
  destruct (bind_call (sig_of c) pos kw) as [e|er] eqn:E; [destruct S0 as [A _]; destruct (H A)|].
  destruct S0 as [-> _].
  destruct c; cbn [construct sig_of] in *; match goal with |- ?f pos kw = _ => unfold f end; rewrite E; reflexivity.
Qed.

(** Every run setting of a constructed object is the value the caller passed, or the documented default;
    settings a class does not offer have their default. *)
Theorem C87_settings_as_given : forall c pos kw i x v, NoDup (map fst kw) ->
  construct c pos kw = Ok i -> setting i x = Some v ->
  (In x (params c) -> given_or (params c) pos kw x (setting_default c x) v) /\
  (~ In x (params c) -> v = setting_default c x).
Proof.
  intros c pos kw i x v K H Hs. destruct (construct_inv c pos kw i H) as (e & E & A & _).
  assert (G : forall d, In (x, Some d) (sig_of c) -> get e x = v -> given_or (params c) pos kw x d v).
  { intros d H1 H2. rewrite <- sig_params. apply (bind_call_get (sig_of c) pos kw e x (Some d) v (sig_nodup c) K E H1 H2). }
  unfold setting in Hs.
  destruct c; try (rewrite construct_IK_RVEA in H; discriminate H);
    cbn [expected] in A; injection A as A1 A2 A3 A4 A5 A6 A7 A8;
    rewrite ?A1, ?A2, ?A3, ?A4, ?A5, ?A6, ?A7, ?A8 in Hs;
    repeat match type of Hs with
    | (if String.eqb x ?s then _ else _) = _ =>
        let Q := fresh "Q" in destruct (String.eqb x s) eqn:Q;
        [apply String.eqb_eq in Q; subst x; injection Hs as Hs|]
    end; try discriminate Hs;
    (split;
     [ first [ intros Hn; exfalso; cbn [params In] in Hn; intuition discriminate
             | intros _; apply G; [cbn [sig_of setting_default String.eqb Ascii.eqb Bool.eqb]; unfold sig_RVEA, sig_NSGAIII, sig_MOEA_D, sig_IBEA, sig_PBEA, sig_PPGA, sig_TournamentEA, sig_IOPIS_RVEA, sig_IOPIS_NSGAIII, sig_IOPIS_base; cbn [In]; tauto | exact Hs] ]
     | first [ intros _; rewrite <- Hs; reflexivity
             | intros Hn; exfalso; apply Hn; cbn [params In]; tauto ] ]).
Qed.

(** Likewise the options specific to each class. *)
Theorem C87_own_options_as_given : forall c pos kw i x attr d, NoDup (map fst kw) ->
  construct c pos kw = Ok i -> In (x, attr, d) (own_options c) ->
  exists v, lookup attr (i_own i) = Some v /\ given_or (params c) pos kw x d v.
Proof.
  intros c pos kw i x attr d K H Ho. destruct (construct_inv c pos kw i H) as (e & E & _ & _ & _ & O & _).
  exists (get e x). split; [apply (O x attr d Ho)|]. rewrite <- sig_params.
  apply (bind_call_get (sig_of c) pos kw e x (Some d) (get e x) (sig_nodup c) K E); [|reflexivity].
  destruct c; cbn [own_options In] in Ho;
    repeat match type of Ho with _ \/ _ => destruct Ho as [Ho|Ho] end;
    match type of Ho with False => destruct Ho | _ => injection Ho as <- <- <- end; cbn; tauto.
Qed.

(** The planned number of generations. *)
Theorem C87_total_generations : forall c pos kw i g n,
  construct c pos kw = Ok i -> i_n_gen_per_iter i = VInt g -> i_n_iterations i = VInt n ->
  i_total_gen i = (g * n)%Z.
Proof.
  intros c pos kw i g n H Hg Hn. destruct (construct_inv c pos kw i H) as (e & _ & _ & T & _).
  rewrite Hg, Hn in T. injection T as T. symmetry. exact T.
Qed.

Definition arg (c : cls) pos kw (x : string) (v : val) : Prop := given_or (params c) pos kw x VNone v.

Lemma arg_get c pos kw e x : NoDup (map fst kw) -> bind_call (sig_of c) pos kw = Ok e ->
  In (x, None) (sig_of c) \/ In (x, Some VNone) (sig_of c) -> arg c pos kw x (get e x).
Proof.
  intros K E [H|H]; unfold arg; rewrite <- sig_params.
  - left. apply (bind_call_get (sig_of c) pos kw e x None (get e x) (sig_nodup c) K E H eq_refl).
  - apply (bind_call_get (sig_of c) pos kw e x (Some VNone) (get e x) (sig_nodup c) K E H eq_refl).
Qed.

(** RVEA, NSGA-III and MOEA/D: either the given population is used and nothing has been evaluated, or a new one
    of the given problem is made: of the given size, or of the lattice size for the given resolution or for the
    default one; exactly its size is counted as evaluated. Never both or neither of problem and population. *)
Theorem C87_decomposition_population : forall c pos kw i, NoDup (map fst kw) ->
  (c = RVEA \/ c = NSGAIII \/ c = MOEA_D) -> construct c pos kw = Ok i ->
  (exists p, i_pop i = Some (Given p) /\ i_fec i = 0%Z /\
     arg c pos kw "initial_population" (VPop p) /\ arg c pos kw "problem" VNone) \/
  (exists p n pp us, i_pop i = Some (Created p n pp us) /\ i_fec i = n /\
     arg c pos kw "problem" (VProblem p) /\ arg c pos kw "initial_population" VNone /\
     arg c pos kw "population_params" pp /\ us = i_surrogates i /\
     exists size, arg c pos kw "population_size" size /\
       (size = VInt n \/
        (size = VNone /\ exists lr r, arg c pos kw "lattice_resolution" lr /\
           (lr = VInt (Z.of_nat r) \/
            (lr = VNone /\ (1 <= pr_nfit p -> r = nth (pr_nfit p) [0; 3; 49; 13; 7; 5; 4; 3; 3; 3; 3] 3)%nat)) /\
           n = Z.of_nat (binom (r + pr_nfit p - 1) (pr_nfit p - 1))))).
Proof.
  intros c pos kw i K Hc H. destruct (construct_inv c pos kw i H) as (e & E & A & _ & (src & P1 & P2) & _).
  assert (G : forall x, In x ["problem"; "initial_population"; "population_size"; "population_params"; "lattice_resolution"] ->
              arg c pos kw x (get e x)).
  { intros x Hx. apply (arg_get c pos kw e x K E).
    destruct Hc as [-> | [-> | ->]]; cbn [In] in Hx;
      repeat match type of Hx with _ \/ _ => destruct Hx as [<-|Hx] end; try destruct Hx; cbn; tauto. }
  assert (P3 : dec_pop (get e "problem") (get e "initial_population") (get e "population_size") (get e "lattice_resolution")
                 (get e "population_params") (get e "use_surrogates") src (i_fec i))
    by (destruct Hc as [-> | [-> | ->]]; exact P2).
  assert (U : i_surrogates i = get e "use_surrogates").
  { destruct Hc as [-> | [-> | ->]]; cbn [expected] in A; injection A as _ _ _ _ _ X _ _; exact X. }
  pose proof (G "problem" ltac:(cbn; tauto)) as G1. pose proof (G "initial_population" ltac:(cbn; tauto)) as G2.
  pose proof (G "population_size" ltac:(cbn; tauto)) as G3. pose proof (G "population_params" ltac:(cbn; tauto)) as G4.
  pose proof (G "lattice_resolution" ltac:(cbn; tauto)) as G5. clear G.
  destruct src as [p|p n pp us]; cbn [dec_pop] in P3.
  - left. destruct P3 as (Q1 & Q2 & Q3). exists p. split; [exact P1|]. split; [exact Q3|].
    rewrite Q1 in G2. rewrite Q2 in G1. split; assumption.
  - right. destruct P3 as (Q1 & Q2 & Q3 & Q4 & Q5 & Q6). exists p, n, pp, us.
    split; [exact P1|]. split; [symmetry; exact Q3|]. rewrite Q2 in G1. rewrite Q1 in G2. subst pp.
    split; [exact G1|]. split; [exact G2|]. split; [exact G4|]. split; [congruence|].
    exists (get e "population_size"). split; [exact G3|]. unfold new_size in Q6. rewrite <- Q3 in Q6.
    destruct (get e "population_size") as [| |z| | | | |]; cbn [is_none] in Q6; try discriminate Q6.
    + right. split; [reflexivity|].
      destruct (is_none (get e "lattice_resolution")) eqn:L.
      * destruct (default_resolution (pr_nfit p)) as [r|] eqn:R0; cbn [bind] in Q6; [|discriminate].
        injection Q6 as Q6. exists VNone, r. split; [destruct (get e "lattice_resolution"); try discriminate; exact G5|].
        split; [|symmetry; exact Q6]. right. split; [reflexivity|]. intros Hm.
        rewrite (default_resolution_spec _ Hm) in R0. injection R0 as <-. reflexivity.
      * destruct (get e "lattice_resolution") as [| |z| | | | |]; try discriminate.
        destruct z as [|r|r]; cbn [bind] in Q6; try discriminate; injection Q6 as Q6.
        { exists (VInt 0), O. split; [exact G5|]. split; [left; reflexivity|symmetry; exact Q6]. }
        { exists (VInt (Z.pos r)), (Pos.to_nat r). split; [exact G5|]. split; [left; rewrite positive_nat_Z; reflexivity|symmetry; exact Q6]. }
    + left. injection Q6 as <-. reflexivity.
Qed.

(** IBEA and PBEA: the given population, or a new one of the required size. *)
Theorem C87_indicator_population : forall c pos kw i, NoDup (map fst kw) ->
  (c = IBEA \/ c = PBEA) -> construct c pos kw = Ok i ->
  (exists p, i_pop i = Some (Given p) /\ i_fec i = 0%Z /\ arg c pos kw "initial_population" (VPop p)) \/
  (exists p n pp us, i_pop i = Some (Created p n pp us) /\ i_fec i = n /\ us = i_surrogates i /\
     passed (params c) pos kw "problem" (VProblem p) /\ passed (params c) pos kw "population_size" (VInt n) /\
     arg c pos kw "initial_population" VNone /\ arg c pos kw "population_params" pp).
Proof.
  intros c pos kw i K Hc H. destruct (construct_inv c pos kw i H) as (e & E & A & _ & (src & P1 & P2) & _).
  assert (P3 : ind_pop (get e "problem") (get e "initial_population") (get e "population_size") (get e "population_params")
                 (get e "use_surrogates") src (i_fec i)) by (destruct Hc as [-> | ->]; exact P2).
  assert (U : i_surrogates i = get e "use_surrogates").
  { destruct Hc as [-> | ->]; cbn [expected] in A; injection A as _ _ _ _ _ X _ _; exact X. }
  assert (G2 : arg c pos kw "initial_population" (get e "initial_population"))
    by (apply (arg_get c pos kw e _ K E); destruct Hc as [-> | ->]; cbn; tauto).
  assert (G4 : arg c pos kw "population_params" (get e "population_params"))
    by (apply (arg_get c pos kw e _ K E); destruct Hc as [-> | ->]; cbn; tauto).
  assert (G1 : passed (params c) pos kw "problem" (get e "problem")).
  { rewrite <- sig_params. apply (bind_call_get (sig_of c) pos kw e "problem" None _ (sig_nodup c) K E); [|reflexivity].
    destruct Hc as [-> | ->]; cbn; tauto. }
  assert (G3 : passed (params c) pos kw "population_size" (get e "population_size")).
  { rewrite <- sig_params. apply (bind_call_get (sig_of c) pos kw e "population_size" None _ (sig_nodup c) K E); [|reflexivity].
    destruct Hc as [-> | ->]; cbn; tauto. }
  destruct src as [p|p n pp us]; cbn [ind_pop] in P3.
  - left. destruct P3 as (Q1 & Q2). exists p. rewrite Q1 in G2. split; [exact P1|]. split; assumption.
  - right. destruct P3 as (Q1 & Q2 & Q3 & Q4 & Q5 & Q6). exists p, n, pp, us.
    rewrite Q1 in G2. rewrite Q2 in G1. rewrite Q6, <- Q3 in G3. subst pp us.
    split; [exact P1|]. split; [symmetry; exact Q3|]. split; [symmetry; exact U|]. repeat (split; [assumption|]). assumption.
Qed.

(** PPGA and TournamentEA run on the given population. *)
Theorem C87_prey_population : forall c pos kw i, NoDup (map fst kw) ->
  (c = PPGA \/ c = TournamentEA) -> construct c pos kw = Ok i ->
  exists p, i_pop i = Some (Given p) /\ i_fec i = 0%Z /\ passed (params c) pos kw "initial_population" (VPop p).
Proof.
  intros c pos kw i K Hc H. destruct (construct_inv c pos kw i H) as (e & E & _ & _ & (src & P1 & P2) & _).
  assert (P3 : exists p, src = Given p /\ get e "initial_population" = VPop p /\ i_fec i = 0%Z)
    by (destruct Hc as [-> | ->]; exact P2).
  destruct P3 as (p & -> & P4 & P5). exists p. split; [exact P1|]. split; [exact P5|].
  destruct Hc as [-> | ->].
  - pose proof (bind_call_get (sig_of PPGA) pos kw e "initial_population" (Some VNone) _ (sig_nodup PPGA) K E ltac:(cbn; tauto) P4) as G.
    rewrite sig_params in G. destruct G as [G|[_ G]]; [exact G|discriminate].
  - pose proof (bind_call_get (sig_of TournamentEA) pos kw e "initial_population" None _ (sig_nodup TournamentEA) K E ltac:(cbn; tauto) P4) as G.
    rewrite sig_params in G. exact G.
Qed.

(** The interactive IOPIS algorithms. *)
Theorem C87_iopis_population : forall c pos kw i, NoDup (map fst kw) ->
  (c = IOPIS_RVEA \/ c = IOPIS_NSGAIII) -> construct c pos kw = Ok i ->
  (exists p, i_pop i = Some (Given p) /\ i_fec i = 0%Z /\ arg c pos kw "initial_population" (VPop p)) \/
  (exists p n pp us, i_pop i = Some (Created p n pp us) /\ i_fec i = n /\ us = i_surrogates i /\
     passed (params c) pos kw "problem" (VProblem p) /\ arg c pos kw "initial_population" VNone /\
     arg c pos kw "population_params" pp /\
     exists size, arg c pos kw "population_size" size /\
       (size = VInt n \/
        (size = VNone /\ exists lr, arg c pos kw "lattice_resolution" lr /\
           ((lr = VNone /\ n = 50%Z) \/ (exists r, lr = VInt r /\ (0 <= r)%Z /\ n = (r + 1)%Z))))).
Proof.
  intros c pos kw i K Hc H. assert (H0 := H). destruct (construct_inv c pos kw i H) as (e & E & A & _ & (src & P1 & P2) & _).
  assert (U : i_surrogates i = get e "use_surrogates").
  { destruct Hc as [-> | ->]; cbn [expected] in A; injection A as _ _ _ _ _ X _ _; exact X. }
  assert (G : forall x, In x ["problem"; "initial_population"; "population_size"; "population_params"; "lattice_resolution"] ->
              arg c pos kw x (get e x)).
  { intros x Hx. apply (arg_get c pos kw e x K E).
    destruct Hc as [-> | ->]; cbn [In] in Hx;
      repeat match type of Hx with _ \/ _ => destruct Hx as [<-|Hx] end; try destruct Hx; cbn; tauto. }
  assert (G1 : passed (params c) pos kw "problem" (get e "problem")).
  { rewrite <- sig_params. apply (bind_call_get (sig_of c) pos kw e "problem" None _ (sig_nodup c) K E); [|reflexivity].
    destruct Hc as [-> | ->]; cbn; tauto. }
  pose proof (G "initial_population" ltac:(cbn; tauto)) as G2.
  pose proof (G "population_size" ltac:(cbn; tauto)) as G3. pose proof (G "population_params" ltac:(cbn; tauto)) as G4.
  pose proof (G "lattice_resolution" ltac:(cbn; tauto)) as G5. clear G.
  destruct src as [p|p n pp us].
  - left. exists p. assert (P3 : get e "initial_population" = VPop p /\ i_fec i = 0%Z) by (destruct Hc as [-> | ->]; exact P2).
    destruct P3 as [Q1 Q2]. rewrite Q1 in G2. split; [exact P1|]. split; assumption.
  - right. exists p, n, pp, us.
    assert (P3 : get e "initial_population" = VNone /\ get e "problem" = VProblem p /\ n = i_fec i /\
         pp = get e "population_params" /\ us = get e "use_surrogates" /\
         (get e "population_size" = VNone -> get e "lattice_resolution" = VNone -> n = 50%Z) /\
         (forall r, get e "population_size" = VNone -> get e "lattice_resolution" = VInt r -> (0 <= r)%Z -> n = (r + 1)%Z) /\
         (get e "population_size" <> VNone -> get e "population_size" = VInt n)) by (destruct Hc as [-> | ->]; exact P2).
    destruct P3 as (Q1 & Q2 & Q3 & -> & -> & Q6 & Q7 & Q8). rewrite Q1 in G2. rewrite Q2 in G1.
    split; [exact P1|]. split; [symmetry; exact Q3|]. split; [symmetry; exact U|]. split; [exact G1|]. split; [exact G2|]. split; [exact G4|].
    exists (get e "population_size"). split; [exact G3|].
    destruct (is_none (get e "population_size")) eqn:Z0.
    + right. assert (Z1 : get e "population_size" = VNone) by (destruct (get e "population_size"); try discriminate; reflexivity).
      split; [exact Z1|]. exists (get e "lattice_resolution"). split; [exact G5|].
      assert (L : get e "lattice_resolution" = VNone \/ exists r, get e "lattice_resolution" = VInt r /\ (0 <= r)%Z).
      { assert (X : exists i', iopis_of e = Ok i').
        { destruct Hc as [-> | ->]; cbn [construct sig_of] in *; [unfold init_IOPIS_RVEA in H0|unfold init_IOPIS_NSGAIII in H0];
            rewrite E in H0; cbn [bind] in H0; rewrite iopis_eq in H0; destruct (iopis_of e) as [i'|]; try discriminate; exists i'; reflexivity. }
        destruct X as [i' X]. unfold iopis_of in X. destruct (as_problem (get e "problem")); [|discriminate]. cbn [bind] in X.
        destruct (pr_bounds a); cbn [negb] in X; [|discriminate]. destruct (base_core _ _ _ _ _ _ _ _ _); cbn [bind] in X; [|discriminate].
        destruct (get e "lattice_resolution") as [| |z| | | | |]; try discriminate; [left; reflexivity|right].
        exists z. split; [reflexivity|]. destruct z; try discriminate; lia. }
      destruct L as [L|(r & L & R0)].
      * left. split; [exact L|]. apply Q6; assumption.
      * right. exists r. split; [exact L|]. split; [exact R0|]. apply (Q7 r); assumption.
    + left. apply Q8. intros X. rewrite X in Z0. discriminate.
Qed.

(** IK-RVEA cannot be constructed at all: its constructor passes [a_priori] to RVEA's, which has no such parameter. *)
Theorem C99_IK_RVEA_refuted : forall pos kw, construct IK_RVEA pos kw = Err TypeError.
Proof. exact construct_IK_RVEA. Qed.

(** IOPIS/RVEA takes [alpha] but its selection always uses 2; RVEA's selection uses the given [alpha]. *)
Theorem C99_IOPIS_alpha_refuted : forall pos kw i,
  construct IOPIS_RVEA pos kw = Ok i -> lookup "operator_alpha" (i_own i) = Some (VInt 2).
Proof.
  intros pos kw i H. destruct (construct_inv IOPIS_RVEA pos kw i H) as (e & _ & _ & _ & _ & _ & _ & O & _).
  apply O. reflexivity.
Qed.
Theorem C87_RVEA_alpha : forall pos kw i, NoDup (map fst kw) -> construct RVEA pos kw = Ok i ->
  exists a, given_or (params RVEA) pos kw "alpha" (VInt 2) a /\
    lookup "operator_alpha" (i_own i) = Some (match a with VNone => VInt 2 | _ => a end).
Proof.
  intros pos kw i K H. destruct (construct_inv RVEA pos kw i H) as (e & E & _ & _ & _ & _ & _ & _ & O).
  exists (get e "alpha"). split.
  - apply (bind_call_get (sig_of RVEA) pos kw e "alpha" (Some (VInt 2)) _ (sig_nodup RVEA) K E); [|reflexivity]. cbn; tauto.
  - rewrite (O eq_refl). destruct (get e "alpha"); reflexivity.
Qed.

Lemma fill_default x d t kw : fill ((x, Some d) :: t) kw =
  bind (fill t kw) (fun e => Ok ((x, match lookup x kw with Some v => v | None => d end) :: e)).
Proof. cbn [fill]. destruct (lookup x kw); reflexivity. Qed.
Lemma fill_required x t kw : fill ((x, None) :: t) kw =
  match lookup x kw with Some v => bind (fill t kw) (fun e => Ok ((x, v) :: e)) | None => Err TypeError end.
Proof. reflexivity. Qed.

(** PPGA takes a problem and population parameters and looks at neither. *)
Theorem C99_PPGA_ignores_problem_refuted : forall pb pb' pp pp' kw,
  construct PPGA [] (("problem", pb) :: ("population_params", pp) :: kw) =
  construct PPGA [] (("problem", pb') :: ("population_params", pp') :: kw).
Proof.
  intros pb pb' pp pp' kw. cbn [construct]. unfold init_PPGA, bind_call.
  change (forallb (fun p => has_param sig_PPGA (fst p)) (("problem", pb) :: ("population_params", pp) :: kw))
    with (forallb (fun p => has_param sig_PPGA (fst p)) kw).
  change (forallb (fun p => has_param sig_PPGA (fst p)) (("problem", pb') :: ("population_params", pp') :: kw))
    with (forallb (fun p => has_param sig_PPGA (fst p)) kw).
  destruct (forallb (fun p => has_param sig_PPGA (fst p)) kw); [|reflexivity].
  unfold sig_PPGA. cbn [fill_pos]. rewrite !fill_required, !fill_default. cbn [lookup String.eqb Ascii.eqb Bool.eqb fill bind].
  reflexivity.
Qed.

(** MOEA/D refuses any number of parents but two. *)
Theorem C87_MOEAD_two_parents : forall pos kw i, NoDup (map fst kw) -> construct MOEA_D pos kw = Ok i ->
  exists v, given_or (params MOEA_D) pos kw "n_parents" (VInt 2) v /\
    match v with VInt z => z = 2%Z | VFloat q => (q == 2)%Q | _ => False end.
Proof.
  intros pos kw i K H. destruct (construct_inv MOEA_D pos kw i H) as (e & E & _ & _ & _ & _ & O & _).
  exists (get e "n_parents"). split.
  - apply (bind_call_get (sig_of MOEA_D) pos kw e "n_parents" (Some (VInt 2)) _ (sig_nodup MOEA_D) K E); [|reflexivity]. cbn; tauto.
  - specialize (O eq_refl). destruct (get e "n_parents"); try discriminate O; cbn in O.
    + apply Z.eqb_eq. exact O.
    + apply Qeq_bool_iff. exact O.
Qed.

(** Which function of time RVEA penalises with when none is named: of the iteration if interactive, else of the evaluations if their number is limited,
    else of the generations; a named one is used as given, and an unknown name is refused. *)
Theorem C87_RVEA_time_penalty : forall pos kw i, NoDup (map fst kw) -> construct RVEA pos kw = Ok i -> exists inter total t,
  given_or (params RVEA) pos kw "interact" (VBool false) inter /\ given_or (params RVEA) pos kw "total_function_evaluations" (VInt 0) total /\
  given_or (params RVEA) pos kw "time_penalty_component" VNone t /\
  (t = VNone -> inter = VBool true -> lookup "time_penalty" (i_own i) = Some (VStr "interactive")) /\
  (t = VNone -> inter <> VBool true -> forall z, total = VInt z ->
     lookup "time_penalty" (i_own i) = Some (VStr (if (0 <? z)%Z then "function_count" else "original"))) /\
  (t <> VNone -> lookup "time_penalty" (i_own i) = Some t /\
     ((exists q, t = VFloat q) \/ t = VStr "original" \/ t = VStr "function_count" \/ t = VStr "interactive")).
Proof.
  intros pos kw i K H. cbn [construct] in H. unfold init_RVEA in H.
  destruct (bind_call sig_RVEA pos kw) as [e|] eqn:E; [|discriminate]. cbn [bind] in H.
  rewrite RVEA_dec in H.
  match type of H with bind ?X _ = _ => destruct X as [i0|] eqn:E0 end; [|discriminate]. cbn [bind] in H.
  destruct (dec_core_ok _ _ _ _ _ _ _ _ _ _ _ _ _ E0) as (_ & _ & _ & D).
  destruct (penalty (get e "interact") (get e "total_function_evaluations") (get e "time_penalty_component")) as [p|] eqn:P; [|discriminate]. cbn [bind] in H.
  injection H as <-. exists (get e "interact"), (get e "total_function_evaluations"), (get e "time_penalty_component").
  assert (G : forall n d, In (n, Some d) sig_RVEA -> given_or (params RVEA) pos kw n d (get e n)).
  { intros n d Hn. apply (bind_call_get (sig_of RVEA) pos kw e n (Some d) _ (sig_nodup RVEA) K E); [exact Hn|reflexivity]. }
  split; [apply G; cbn; tauto|]. split; [apply G; cbn; tauto|]. split; [apply G; cbn; tauto|].
  cbn [with_selop with_own i_own]. rewrite D.
  change (lookup "time_penalty" _) with (Some p). unfold penalty in P. split; [|split].
  - intros Et Ei. rewrite Et, Ei in P. cbn in P. injection P as <-. reflexivity.
  - intros Et Hi z Ez. rewrite Et, Ez in P. destruct (get e "interact") as [|[]| | | | | |]; try congruence; cbn [bind as_int] in P; destruct (0 <? z)%Z; cbn in P; injection P as <-; reflexivity.
  - intros Ht. destruct (get e "time_penalty_component"); try congruence; cbn [bind] in P; try discriminate P.
    + injection P as <-. split; [reflexivity|]. left. eauto.
    + match type of P with context [if ?b then _ else _] => destruct b eqn:B end; [|discriminate]. injection P as <-. split; [reflexivity|]. right.
      apply Bool.orb_true_iff in B. rewrite Bool.orb_true_iff in B. rewrite !String.eqb_eq in B. destruct B as [[->| ->]| ->]; auto.
Qed.
Print Assumptions C87_RVEA_time_penalty.

Print Assumptions C87_call_binding.
Print Assumptions C87_malformed_call_rejected.
Print Assumptions C87_settings_as_given.
Print Assumptions C87_own_options_as_given.
Print Assumptions C87_decomposition_population.
Print Assumptions C87_iopis_population.
Print Assumptions C99_IK_RVEA_refuted.

(** ** Non-vacuity *)
Definition dtlz : prob := mkProb 7 PkMO 3 true.
Definition mypop : popobj := mkPopobj 1 3 40.
Example ex_rvea : exists i, construct RVEA [VProblem dtlz] [("n_iterations", VInt 5); ("interact", VBool true)] = Ok i /\
  i_n_iterations i = VInt 5 /\ i_interact i = VBool true /\ i_n_gen_per_iter i = VInt 100 /\ i_total_gen i = 500%Z /\
  i_fec i = 105%Z /\ i_loc i = InSelection /\ lookup "time_penalty" (i_own i) = Some (VStr "interactive").
Proof. eexists. split; [vm_compute; reflexivity|]. vm_compute. repeat (split; [reflexivity|]). reflexivity. Qed.
Example ex_rvea_pop : exists i, construct RVEA [VNone] [("initial_population", VPop mypop)] = Ok i /\
  i_pop i = Some (Given mypop) /\ i_fec i = 0%Z.
Proof. eexists. split; [vm_compute; reflexivity|]. split; reflexivity. Qed.
Example ex_both : construct NSGAIII [VProblem dtlz] [("initial_population", VPop mypop)] = Err EaError.
Proof. reflexivity. Qed.
Example ex_unknown_option : construct IBEA [VProblem dtlz; VInt 20] [("keep_archive", VBool true)] = Err TypeError.
Proof. reflexivity. Qed.
Example ex_twice : construct IBEA [VProblem dtlz; VInt 20] [("population_size", VInt 30)] = Err TypeError.
Proof. reflexivity. Qed.
Example ex_iopis : exists i, construct IOPIS_RVEA [VProblem dtlz] [("alpha", VInt 5)] = Ok i /\ i_fec i = 50%Z /\
  lookup "alpha" (i_own i) = Some (VInt 5) /\ lookup "operator_alpha" (i_own i) = Some (VInt 2).
Proof. eexists. split; [vm_compute; reflexivity|]. split; [reflexivity|]. split; reflexivity. Qed.
Example ex_ppga : exists i, construct PPGA [VNone] [("initial_population", VPop mypop); ("kill_interval", VInt 3)] = Ok i /\
  lookup "kill_interval" (i_own i) = Some (VInt 3) /\ lookup "target_pop_size" (i_own i) = Some (VInt 100).
Proof. eexists. split; [vm_compute; reflexivity|]. split; reflexivity. Qed.
Example ex_moead : exists i, construct MOEA_D [VProblem dtlz; VInt 7] [("population_size", VInt 30)] = Ok i /\
  lookup "n_neighbors" (i_own i) = Some (VInt 7) /\ i_fec i = 30%Z.
Proof. eexists. split; [vm_compute; reflexivity|]. split; reflexivity. Qed.
Example ex_pbea : exists i, construct PBEA [VProblem dtlz; VInt 20; VNone] [("delta", VFloat (1#2))] = Ok i /\
  lookup "delta" (i_own i) = Some (VFloat (1#2)) /\ i_fec i = 20%Z.
Proof. eexists. split; [vm_compute; reflexivity|]. split; reflexivity. Qed.
