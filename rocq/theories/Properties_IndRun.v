(** C43, C107: interactive sessions of the indicator based EAs. *)
From Verif Require Import Base M_Preferences M_IndRun Spec_IndRun P_IndRun.
Open Scope Z_scope.

Section T.
Context {Payload : Type} (to_fitness : Payload -> Payload) (off : nat -> res nat).
Notation session := (ind_session to_fitness off).
Notation hist := (ind_history to_fitness off).

(** C107. After any session of an interactive indicator EA: the reference point in use is the last accepted one (times the multipliers); each accepted preference has doubled both
    n_iterations and total_function_evaluations; the iteration counter is the number of iterate() calls that returned, at most the number of accepted preferences. *)
Theorem C107_limits_double : forall n gpi total fe0 ref cs,
  let s := session (ind_new true n gpi total fe0 ref) cs in let h := hist (ind_new true n gpi total fe0 ref) cs in let acc := accepted None h in
  ind_iters (ir_prefs s) = n * 2 ^ Z.of_nat (length acc) /\
  ind_fe (ir_prefs s) = total * 2 ^ Z.of_nat (length acc) /\
  ind_ref (ir_prefs s) = match rev acc with [] => ref | p :: _ => Some (to_fitness p) end /\
  ir_it s = Z.of_nat (iterations h) /\ (iterations h <= length acc)%nat /\ ir_reqid s = last_request h.
Proof.
  intros n gpi total fe0 ref cs. destruct (session_inv to_fitness off cs (ind_new true n gpi total fe0 ref) eq_refl eq_refl) as (_ & _ & _ & A & B & D & E & G & H). cbv zeta.
  split; [exact B|]. split; [exact D|]. split; [exact E|]. split; [exact G|]. split; [exact H|exact A].
Qed.
(** C107. A preference that is missing, of another class or not the answer to the last request is refused: iterate() raises and nothing at all changes (no generation is run). *)
Theorem C107_rejected_preference : forall n gpi total fe0 ref cs p rnd,
  let s0 := ind_new true n gpi total fe0 ref in answers (last_request (hist s0 cs)) p = false ->
  exists e, ind_iterate to_fitness off p rnd (session s0 cs) = (session s0 cs, Err e).
Proof.
  intros n gpi total fe0 ref cs p rnd s0 Ha. destruct (session_inv to_fitness off cs s0 eq_refl eq_refl) as (A & _ & _ & B & _).
  destruct (iterate_rejected to_fitness off (session s0 cs) p rnd A) as (e & E & _); [|eauto]. rewrite B. exact Ha.
Qed.
(** C107. An answering one is accepted: iterate() then returns unless a generation raises. *)
Theorem C107_accepted_preference : forall n gpi total fe0 ref cs p rnd, (forall k, exists m, off k = Ok m) ->
  let s0 := ind_new true n gpi total fe0 ref in answers (last_request (hist s0 cs)) p = true ->
  exists s', ind_iterate to_fitness off p rnd (session s0 cs) = (s', Ok tt) /\ ir_it s' = ir_it (session s0 cs) + 1 /\ ir_reqid s' = Some rnd.
Proof.
  intros n gpi total fe0 ref cs p rnd Hoff s0 Ha. destruct (session_inv to_fitness off cs s0 eq_refl eq_refl) as (A & _ & _ & B & _).
  change (last_request (hist s0 cs)) with (fold_left then_request (hist s0 cs) (ir_reqid s0)) in Ha. rewrite <- B in Ha.
  destruct p as [p|]; [|unfold answers in Ha; destruct (ir_reqid _); discriminate]. destruct (iterate_accepted to_fitness off _ p rnd A Ha) as (s3 & o & G & E). rewrite E.
  pose proof (gens_frame _ _ _ _ _ G) as (F1 & _ & _ & _ & _ & F6). cbn [set_counts set_prefs ir_interact ir_it] in F1, F6.
  destruct o as [[]|e]; [|exfalso].
  - eexists. split; [reflexivity|]. unfold ind_requests, set_counts. cbn [ir_interact]. rewrite F1, A. cbn [ir_it ir_reqid]. split; [lia|reflexivity].
  - revert G. set (s1 := set_counts _ _ _ _ _ _). assert (Hf : ir_gpi s1 - ir_gin s1 <= Z.of_nat (Z.to_nat (ir_gpi (session s0 cs)))) by (unfold s1; cbn [set_counts set_prefs ir_gpi ir_gin]; lia).
    revert Hf. generalize (Z.to_nat (ir_gpi (session s0 cs))) as fuel. generalize s1. clear -Hoff. intros s fuel. revert s. induction fuel as [|f IH]; intros s Hf; cbn [ind_gens]; destruct (ind_continue_iteration s) eqn:E; try discriminate.
    + unfold ind_continue_iteration in E. apply andb_prop in E. destruct E as [E _]. apply Z.ltb_lt in E. lia.
    + unfold ind_gen. destruct (Hoff (ir_clock s)) as [m ->]. apply IH. cbn [set_counts ir_gpi ir_gin]. lia.
Qed.
(** C107 (false of the code). start(), the documented way to begin, raises in every session of an interactive indicator EA, whatever types are set before. *)
Theorem C107_interactive_start_refuted : forall n gpi total fe0 ref cs rnd,
  let s := session (ind_new true n gpi total fe0 ref) cs in ind_start rnd s = (s, Err EaError).
Proof.
  intros n gpi total fe0 ref cs rnd s. destruct (session_inv to_fitness off cs (ind_new true n gpi total fe0 ref) eq_refl eq_refl) as (A & B & _). fold s in A, B. unfold ind_start. rewrite A, B. reflexivity.
Qed.

(** C107. The counters, with or without interaction and after any session: the evaluations counted are those at construction plus all offspring of the generations that returned, and these
    are the generations counted. An iterate() that returns has run, one after the other, n_gen_per_iter generations or as many as it took to use up the budget, and all of them returned. *)
Definition counted (fe0 : Z) (s : irun Payload) : Prop :=
  ir_fe s = fe0 + Z.of_nat (offspring off (ir_clock s)) /\ ir_gen s = Z.of_nat (returned off (ir_clock s)).
Lemma gens_counted fe0 : forall fuel (s s' : irun Payload) r, ind_gens off fuel s = (s', r) -> counted fe0 s -> counted fe0 s'.
Proof.
  induction fuel as [|f IH]; intros s s' r; cbn [ind_gens]; destruct (ind_continue_iteration s); try (intros H; injection H as <- <-; auto).
  unfold ind_gen. destruct (off (ir_clock s)) as [k|e] eqn:Eo; intros H (C1 & C2).
  - apply IH in H; auto. unfold counted, set_counts. cbn [ir_fe ir_gen ir_clock offspring returned]. rewrite Eo. lia.
  - injection H as <- <-. unfold counted, set_counts. cbn [ir_fe ir_gen ir_clock offspring returned]. rewrite Eo. lia.
Qed.
Lemma gens_clock : forall fuel (s s' : irun Payload), ind_gens off fuel s = (s', Ok tt) ->
  Z.of_nat (ir_clock s') - Z.of_nat (ir_clock s) = ir_gin s' - ir_gin s /\ (ir_clock s <= ir_clock s')%nat /\ (ir_gin s <= ir_gpi s -> ir_gin s' <= ir_gpi s) /\
  (forall k, (ir_clock s <= k < ir_clock s')%nat -> exists m, off k = Ok m) /\
  (forall k, (ir_clock s <= k < ir_clock s')%nat -> ind_fe (ir_prefs s) = 0 \/ ir_fe s + Z.of_nat (offspring off k) - Z.of_nat (offspring off (ir_clock s)) <= ind_fe (ir_prefs s)).
Proof.
  induction fuel as [|f IH]; intros s s'; cbn [ind_gens]; destruct (ind_continue_iteration s) eqn:E; try (intros H; injection H as <-; split; [lia|split; [lia|split; [auto|split; intros k K; lia]]]).
  unfold ind_gen. destruct (off (ir_clock s)) as [m|e] eqn:Eo; intros H; [|apply (f_equal snd) in H; discriminate H]. apply IH in H. unfold set_counts in H. cbn [ir_clock ir_gin ir_gpi ir_fe ir_prefs] in H.
  destruct H as (A & B & C & D & F). unfold ind_continue_iteration in E. apply andb_prop in E. destruct E as [E1 E2]. apply Z.ltb_lt in E1.
  split; [lia|]. split; [lia|]. split; [intros; apply C; lia|]. split.
  - intros k K. destruct (Nat.eq_dec k (ir_clock s)) as [->|]; [eauto|apply D; lia].
  - intros k K. destruct (Nat.eq_dec k (ir_clock s)) as [->|N].
    + unfold ind_check_FE in E2. destruct (Z.eqb_spec (ind_fe (ir_prefs s)) 0); [left; auto|]. apply Z.leb_le in E2. right. lia.
    + destruct (F k ltac:(lia)) as [F1|F1]; [left; auto|right]. cbn [offspring] in F1. rewrite Eo in F1. lia.
Qed.
Theorem C107_counters : forall interact n gpi total fe0 ref cs, let s := session (ind_new interact n gpi total fe0 ref) cs in
  ir_fe s = fe0 + Z.of_nat (offspring off (ir_clock s)) /\ ir_gen s = Z.of_nat (returned off (ir_clock s)).
Proof.
  intros interact n gpi total fe0 ref cs. cbv zeta. change (counted fe0 (session (ind_new interact n gpi total fe0 ref) cs)).
  assert (B : counted fe0 (ind_new interact n gpi total fe0 ref)) by (split; cbn; lia). revert B. generalize (ind_new interact n gpi total fe0 ref).
  induction cs as [|c cs IH]; intros s B; [exact B|]. cbn [ind_session fold_left]. apply IH. clear IH.
  destruct c as [a|r|r|p r]; cbn [ind_do].
  - exact B.
  - unfold ind_start, ind_requests. destruct (ir_interact s && negb (ir_type_set s)); [exact B|]. destruct (ir_interact s); exact B.
  - unfold ind_requests. destruct (ir_interact s); exact B.
  - unfold ind_iterate. destruct (ind_manage to_fitness (ir_interact s) (ir_reqid s) (ir_prefs s) p) as [q [u|e]]; [|exact B].
    destruct (ind_gens off _ _) as [s3 [u3|e]] eqn:G; apply (gens_counted fe0) in G; try exact B; cbn [fst]; [|exact G].
    unfold ind_requests. cbn [set_counts ir_interact]. destruct (ir_interact s3); exact G.
Qed.
Theorem C107_iteration_length : forall p rnd (s s' : irun Payload), 0 <= ir_gpi s -> ind_iterate to_fitness off p rnd s = (s', Ok tt) ->
  let k := (ir_clock s' - ir_clock s)%nat in
  (ir_clock s <= ir_clock s')%nat /\ (forall i, (ir_clock s <= i < ir_clock s')%nat -> exists m, off i = Ok m) /\ Z.of_nat k <= ir_gpi s /\
  (Z.of_nat k < ir_gpi s -> ind_fe (ir_prefs s') <> 0 /\ ind_fe (ir_prefs s') < ir_fe s') /\
  (* no generation was begun beyond the budget *)
  (ind_fe (ir_prefs s') <> 0 -> forall i, (ir_clock s <= i < ir_clock s')%nat ->
     ir_fe s + Z.of_nat (offspring off i) - Z.of_nat (offspring off (ir_clock s)) <= ind_fe (ir_prefs s')).
Proof.
  intros p rnd s s' Hg. unfold ind_iterate. destruct (ind_manage to_fitness (ir_interact s) (ir_reqid s) (ir_prefs s) p) as [q [u|e]]; [|discriminate].
  cbv zeta. destruct (ind_gens off _ _) as [s3 [u3|e]] eqn:G; [|discriminate]. intros H. injection H as <-. destruct u3.
  pose proof (gens_frame off _ _ _ _ G) as (F1 & F2 & F3 & _). pose proof (gens_clock _ _ _ G) as (C1 & C2 & C3 & C4 & C5).
  assert (St : ind_continue_iteration s3 = false). { apply (gens_ok off) in G; auto. cbn [set_counts set_prefs ir_gpi ir_gin]. lia. }
  cbn [set_counts set_prefs ir_clock ir_gin ir_gpi ir_fe ir_prefs] in *.
  assert (X : forall t : irun Payload, ir_clock (ind_requests rnd t) = ir_clock t /\ ir_prefs (ind_requests rnd t) = ir_prefs t /\ ir_fe (ind_requests rnd t) = ir_fe t).
  { intros t. unfold ind_requests. destruct (ir_interact t); auto. }
  destruct (X (set_counts s3 (ir_it s3 + 1) (ir_gen s3) (ir_gin s3) (ir_fe s3) (ir_clock s3))) as (X1 & X2 & X3). rewrite X1, X2, X3.
  cbn [set_counts ir_clock ir_prefs ir_fe]. split; [auto|]. split; [auto|]. split; [lia|]. split.
  - intros Lt. unfold ind_continue_iteration in St. apply Bool.andb_false_iff in St. destruct St as [St|St]; [apply Z.ltb_ge in St; lia|].
    unfold ind_check_FE in St. destruct (Z.eqb_spec (ind_fe (ir_prefs s3)) 0) as [|N]; [discriminate|]. apply Z.leb_gt in St. lia.
  - rewrite F3. intros N i Hi. destruct (C5 i Hi) as [C|C]; [congruence|exact C].
Qed.

(** C43. What does end. Without interaction: after n_iterations returned iterate() calls, whatever else was called and however many failed. *)
Lemma plain_inv : forall cs (s : irun Payload), ir_interact s = false -> let s' := session s cs in
  ir_interact s' = false /\ ir_prefs s' = ir_prefs s /\ ir_it s' = ir_it s + Z.of_nat (iterations (hist s cs)).
Proof.
  induction cs as [|c cs IH]; intros s Hi; cbv zeta; [cbn; split; auto; split; auto; lia|].
  cbn [ind_session fold_left ind_history]. change (fold_left (fun s c => fst (ind_do to_fitness off s c)) cs (fst (ind_do to_fitness off s c))) with (session (fst (ind_do to_fitness off s c)) cs).
  assert (Step : ir_interact (fst (ind_do to_fitness off s c)) = false /\ ir_prefs (fst (ind_do to_fitness off s c)) = ir_prefs s /\
    ir_it (fst (ind_do to_fitness off s c)) = ir_it s + Z.of_nat (iterations [(c, is_ok (snd (ind_do to_fitness off s c)))])).
  { destruct c as [a|r|r|p r]; cbn [ind_do].
    - cbn. split; auto. split; auto. lia.
    - unfold ind_start, ind_requests. rewrite Hi. cbn. split; auto. split; auto. lia.
    - unfold ind_requests. rewrite Hi. cbn. split; auto. split; auto. lia.
    - destruct (iterate_plain to_fitness off s p r Hi) as (s3 & o & G & E). rewrite E. apply gens_frame in G. destruct G as (G1 & G2 & G3 & G4 & G5 & G6). cbn [set_counts ir_interact ir_prefs ir_it] in *.
      destruct o as [[]|e]; cbn [fst snd is_ok iterations filter length].
      + unfold ind_requests, set_counts. cbn [ir_interact]. rewrite G1, Hi. cbn [ir_interact ir_prefs ir_it]. split; [auto|]. split; [auto|]. lia.
      + split; [congruence|]. split; [auto|]. lia. }
  destruct Step as (A & B & D). destruct (IH _ A) as (A' & B' & D'). split; [exact A'|]. split; [congruence|]. rewrite D', D.
  set (x := (c, is_ok (snd (ind_do to_fitness off s c)))). unfold iterations. cbn [filter]. destruct x as [[] []]; cbn [length]; lia.
Qed.
Theorem C43_without_interaction_ends_partial : forall n gpi total fe0 ref cs,
  let s0 := ind_new false n gpi total fe0 ref in n <= Z.of_nat (iterations (hist s0 cs)) -> ind_continue_evolution (session s0 cs) = false.
Proof.
  intros n gpi total fe0 ref cs s0 H. destruct (plain_inv cs s0 eq_refl) as (_ & B & D). unfold ind_continue_evolution. rewrite B, D. cbn [ind_new ir_prefs ir_it ind_iters s0].
  replace (0 + Z.of_nat (iterations (hist s0 cs)) <? n) with false; [reflexivity|]. symmetry. apply Z.ltb_ge. lia.
Qed.
(** C43. With or without interaction, a returned iterate() that was cut short by the evaluation budget is the last one. *)
Theorem C43_used_up_budget_ends_partial : forall p rnd (s s' : irun Payload), ind_iterate to_fitness off p rnd s = (s', Ok tt) -> ir_gin s' < ir_gpi s' ->
  ind_continue_evolution s' = false /\ ind_fe (ir_prefs s') <> 0 /\ ind_fe (ir_prefs s') < ir_fe s'.
Proof.
  intros p rnd s s' H Hg. unfold ind_iterate in H. destruct (ind_manage _ _ _ _ _) as [q [[]|e]]; [|discriminate]. cbv zeta in H.
  destruct (ind_gens off _ _) as [s3 [[]|e]] eqn:G; [|discriminate]. injection H as <-. apply gens_ok in G; [|cbn [set_counts set_prefs ir_gpi ir_gin]; lia].
  assert (F : forall (s : irun Payload), ir_gin (ind_requests rnd s) = ir_gin s /\ ir_gpi (ind_requests rnd s) = ir_gpi s /\ ir_prefs (ind_requests rnd s) = ir_prefs s /\ ir_fe (ind_requests rnd s) = ir_fe s)
    by (intros x; unfold ind_requests; destruct (ir_interact x); auto).
  destruct (F (set_counts s3 (ir_it s3 + 1) (ir_gen s3) (ir_gin s3) (ir_fe s3) (ir_clock s3))) as (F1 & F2 & F3 & F4). rewrite F1, F2 in Hg. unfold ind_continue_evolution, ind_check_FE. rewrite F3, F4.
  cbn [set_counts ir_gin ir_gpi ir_prefs ir_fe] in *. unfold ind_continue_iteration in G. replace (ir_gin s3 <? ir_gpi s3) with true in G by (symmetry; apply Z.ltb_lt; lia). cbn [andb] in G. unfold ind_check_FE in G.
  destruct (Z.eqb_spec (ind_fe (ir_prefs s3)) 0); [discriminate|]. rewrite G. apply Z.leb_gt in G. split; [apply andb_false_r|auto].
Qed.

(** C43 (false of the code). With interaction and no evaluation budget the run never ends: continue_evolution stays true in every session, and there are sessions with any number of iterations. *)
Lemma many_iterations : forall n gpi total fe0 ref (pl : Payload), (forall k, exists m, off k = Ok m) -> forall k, exists cs, iterations (hist (ind_new true n gpi total fe0 ref) cs) = k /\ last_request (hist (ind_new true n gpi total fe0 ref) cs) = Some k.
Proof.
  intros n gpi total fe0 ref pl Hoff. set (s0 := ind_new true n gpi total fe0 ref). induction k as [|k [cs [I1 I2]]].
  - exists [IRequests 0%nat]. split; reflexivity.
  - set (p := mkPref (Some ReferencePoint) k pl). exists (cs ++ [IIterate (Some p) (S k)]).
    assert (App : forall cs (s : irun Payload) c, hist s (cs ++ [c]) = hist s cs ++ [(c, is_ok (snd (ind_do to_fitness off (session s cs) c)))]).
    { clear. induction cs as [|d cs IH]; intros s c; [reflexivity|]. cbn [app ind_history ind_session fold_left]. rewrite IH. reflexivity. }
    rewrite App. cbn [ind_do]. destruct (C107_accepted_preference n gpi total fe0 ref cs (Some p) (S k) Hoff) as (s' & E & _).
    { fold s0. rewrite I2. cbn. apply Nat.eqb_refl. }
    fold s0 in E. rewrite E. cbn [snd is_ok]. split.
    + unfold iterations in *. rewrite filter_app, app_length, I1. cbn [filter length]. lia.
    + unfold last_request in *. rewrite fold_left_app, I2. reflexivity.
Qed.
Lemma two_pow k : Z.of_nat k + 1 <= 2 ^ Z.of_nat k.
Proof. induction k as [|k IH]; [cbn; lia|]. rewrite pow2_succ. lia. Qed.
Theorem C43_interactive_indicator_never_ends_refuted : forall n gpi fe0 ref, 0 < n ->
  (forall cs, ind_continue_evolution (session (ind_new true n gpi 0 fe0 ref) cs) = true) /\
  ((exists pl : Payload, True) -> (forall k, exists m, off k = Ok m) -> forall k, exists cs, iterations (hist (ind_new true n gpi 0 fe0 ref) cs) = k).
Proof.
  intros n gpi fe0 ref Hn. split.
  - intros cs. destruct (C107_limits_double n gpi 0 fe0 ref cs) as (A & B & _ & D & E & _). cbv zeta in *. unfold ind_continue_evolution, ind_check_FE. rewrite A, B, D. cbn [Z.mul Z.eqb]. rewrite andb_true_r. apply Z.ltb_lt.
    set (k := length (accepted None (hist (ind_new true n gpi 0 fe0 ref) cs))) in *. pose proof (two_pow k). nia.
  - intros [pl _] Hoff k. destruct (many_iterations n gpi 0 fe0 ref pl Hoff k) as (cs & H & _). eauto.
Qed.

(** C43 (false of the code). Nor does a budget help if one iteration fits into it: it grows faster than it is used. *)
Lemma fe_inv b : (forall k m, off k = Ok m -> Z.of_nat m <= b) -> 0 <= b -> forall cs (s : irun Payload), ir_interact s = true -> ir_type_set s = false -> 0 <= ir_gpi s ->
  ir_fe (session s cs) <= ir_fe s + b * ir_gpi s * Z.of_nat (length (accepted (ir_reqid s) (hist s cs))).
Proof.
  intros Hb Hb0. induction cs as [|c cs IH]; intros s Hi Ht Hg; [cbn; lia|].
  destruct (session_inv to_fitness off [c] s Hi Ht) as (A1 & A2 & A3 & A4 & _). cbn [ind_session fold_left ind_history] in A1, A2, A3, A4.
  cbn [ind_session fold_left ind_history accepted]. change (fold_left (fun s c => fst (ind_do to_fitness off s c)) cs (fst (ind_do to_fitness off s c))) with (session (fst (ind_do to_fitness off s c)) cs).
  rewrite <- A4. specialize (IH _ A1 A2). rewrite A3 in IH. specialize (IH Hg). rewrite app_length, Nat2Z.inj_add.
  set (h := accepted _ (hist _ cs)) in *. set (a := match c with IIterate _ _ => _ | _ => [] end).
  assert (Step : ir_fe (fst (ind_do to_fitness off s c)) <= ir_fe s + b * ir_gpi s * Z.of_nat (length a)); [|nia].
  unfold a. clear a IH h A4. destruct c as [x|r|r|p r]; cbn [ind_do].
  - cbn. lia.
  - unfold ind_start. rewrite Hi, Ht. cbn. lia.
  - unfold ind_requests. rewrite Hi. cbn. lia.
  - destruct (answers (ir_reqid s) p) eqn:Ea.
    + destruct p as [p|]; [|unfold answers in Ea; destruct (ir_reqid s); discriminate]. rewrite Ea. destruct (iterate_accepted to_fitness off s p r Hi Ea) as (s3 & o & G & E). rewrite E.
      destruct (gens_bound off b Hb Hb0 _ _ _ _ G) as (G1 & G2 & G3). cbn [set_counts set_prefs ir_gin ir_gpi ir_fe length] in *. specialize (G2 Hg).
      destruct o as [[]|e]; cbn [fst]; [unfold ind_requests, set_counts; cbn [ir_interact]; destruct (ir_interact s3); cbn [ir_fe]; nia|nia].
    + destruct (iterate_rejected to_fitness off s p r Hi Ea) as (e & E & _). rewrite E. cbn [fst]. nia.
Qed.
Theorem C43_budget_outgrows_the_run_refuted : forall n gpi total fe0 ref b, 0 < n -> 0 <= gpi -> 0 <= b -> (forall k m, off k = Ok m -> Z.of_nat m <= b) ->
  gpi * b <= total -> fe0 <= total ->
  forall cs, ind_continue_evolution (session (ind_new true n gpi total fe0 ref) cs) = true.
Proof.
  intros n gpi total fe0 ref b Hn Hg Hb0 Hb H1 H2 cs. destruct (C107_limits_double n gpi total fe0 ref cs) as (A & B & _ & D & E & _). cbv zeta in *.
  pose proof (fe_inv b Hb Hb0 cs (ind_new true n gpi total fe0 ref) eq_refl eq_refl Hg) as F. cbn [ind_new ir_fe ir_gpi ir_reqid] in F.
  set (k := length (accepted None (hist (ind_new true n gpi total fe0 ref) cs))) in *. pose proof (two_pow k). unfold ind_continue_evolution, ind_check_FE. rewrite A, B, D. apply andb_true_intro. split; [apply Z.ltb_lt; nia|].
  destruct (Z.eqb_spec (total * 2 ^ Z.of_nat k) 0); [reflexivity|]. apply Z.leb_le. change (ind_new true n gpi total fe0 ref) with (mkIRun true gpi (mkInd ref n total) None false 0 0 0 fe0 0) in F |- *. nia.
Qed.
End T.

Print Assumptions C107_limits_double.
Print Assumptions C107_rejected_preference.
Print Assumptions C107_accepted_preference.
Print Assumptions C107_interactive_start_refuted.
Print Assumptions C107_counters.
Print Assumptions C107_iteration_length.
Print Assumptions C43_without_interaction_ends_partial.
Print Assumptions C43_used_up_budget_ends_partial.
Print Assumptions C43_interactive_indicator_never_ends_refuted.
Print Assumptions C43_budget_outgrows_the_run_refuted.

(** A PBEA with n_iterations 2, 3 generations each, budget 25, 10 evaluated at construction, 5 offspring per generation, payloads integers (all objectives maximised): asked, answered, an old
    answer refused, answered again, a foreign object refused. *)
Definition ex_off (k : nat) : res nat := Ok 5%nat.
Definition rp (id : nat) (v : Z) : option (pref Z) := Some (mkPref (Some ReferencePoint) id v).
Definition ex_calls : list (icall Z) :=
  [IStart 1%nat; IIterate None 2%nat; IRequests 3%nat; IIterate (rp 3 7) 4%nat; IIterate (rp 3 8) 5%nat; IIterate (rp 4 9) 6%nat; IIterate (Some (mkPref (Some PreferredRanges) 6%nat 1)) 7%nat].
Example ex_indicator_session : let s := ind_session Z.opp ex_off (ind_new true 2 3 25 10 None) ex_calls in
  (map snd (ind_history Z.opp ex_off (ind_new true 2 3 25 10 None) ex_calls), accepted None (ind_history Z.opp ex_off (ind_new true 2 3 25 10 None) ex_calls)) =
    ([false; false; true; true; false; true; false], [7; 9]) /\
  (ind_ref (ir_prefs s), ind_iters (ir_prefs s), ind_fe (ir_prefs s), ir_it s, ir_gen s, ir_fe s, ir_reqid s) = (Some (-9), 8, 100, 2, 6, 40, Some 6%nat) /\ ind_continue_evolution s = true.
Proof. vm_compute. auto. Qed.
(** The hypotheses of the two positive statements of C43. *)
Example ex_plain_session : let s0 := ind_new false 2 3 0 10 (@None Z) in iterations (ind_history Z.opp ex_off s0 [IIterate None 1%nat; IStart 1%nat; IIterate None 1%nat]) = 2%nat /\
  ind_continue_evolution (ind_session Z.opp ex_off s0 [IIterate None 1%nat]) = true.
Proof. vm_compute. auto. Qed.
Example ex_budget_cut : exists s', ind_iterate Z.opp ex_off None 1 (ind_new false 10 100 12 10 None) = (s', Ok tt) /\ (ir_gin s', ir_fe s') = (1, 15).
Proof. eexists. vm_compute. auto. Qed.
