(** C118: sessions of the decomposition based EAs. *)
From Verif Require Import Base M_Preferences M_DecRun Spec_DecRun P_DecRun.
Open Scope Z_scope.

Section T.
Context {VS PS Payload : Type} (adapt_RVs : PS -> VS -> VS) (apply_pref : itype -> Payload -> PS -> VS -> VS * res unit)
  (problem_pref : option (pref Payload) -> PS -> PS * res unit) (gen : counts -> VS -> PS -> PS * res nat).
Notation do := (dec_do adapt_RVs apply_pref problem_pref gen).
Notation session := (dec_session adapt_RVs apply_pref problem_pref gen).
Notation hist := (dec_history adapt_RVs apply_pref problem_pref gen).
Notation iterate := (dec_iterate adapt_RVs apply_pref problem_pref gen).
(** An interactive algorithm on an ordinary problem. *)
Notation interactive := (dec_new true PlainProblem).

Lemma reach sur n gpi total fe0 (v0 : VS) (p0 : PS) cs : let s0 := interactive sur n gpi total fe0 v0 p0 in let s := session s0 cs in let h := hist s0 cs in
  located s /\ consts s0 s /\ ea_type (d_ea s) = type_in_force h /\ ea_reqid (d_ea s) = last_request h.
Proof.
  cbv zeta. destruct (session_inv adapt_RVs apply_pref problem_pref gen cs (interactive sur n gpi total fe0 v0 p0)) as (A & B & C & D & _); [split; reflexivity|]. auto.
Qed.

(** C118. A preference that is not of the class of the type chosen last, or does not carry the id drawn for the last request, is refused: iterate() raises and nothing at all changes
    (in particular no generation is run, and the pending request can still be answered). *)
Theorem C118_refused_preference : forall sur n gpi total fe0 v0 p0 cs q rnd, let s0 := interactive sur n gpi total fe0 v0 p0 in
  ~ answers (type_in_force (hist s0 cs)) (last_request (hist s0 cs)) q ->
  exists e, iterate (Some q) rnd (session s0 cs) = (session s0 cs, Err e) /\ (e = ValueError \/ e = TypeError).
Proof.
  intros sur n gpi total fe0 v0 p0 cs q rnd s0 Ha. destruct (reach sur n gpi total fe0 v0 p0 cs) as (A & B & C & D). fold s0 in A, B, C, D. rewrite <- C, <- D in Ha.
  destruct (manage_refused adapt_RVs apply_pref problem_pref q _ A Ha) as (e & E & F). exists e. unfold dec_iterate. rewrite E. auto.
Qed.

(** C118. Any other preference is acted on: with none the vectors are re-adapted to the population, with an answer of the type t they become what the type prescribes. If that raises, no
    generation is run. Otherwise every generation of the iteration uses these vectors, the generations run are n_gen_per_iter, or as many as it took to use up the budget, none being begun
    beyond it, and the counters advance by exactly these. The iteration ends with a new request for the type in force, under the id drawn for it. *)
Theorem C118_iteration : forall sur n gpi total fe0 v0 p0 cs p rnd t, let s0 := interactive sur n gpi total fe0 v0 p0 in let s := session s0 cs in
  type_in_force (hist s0 cs) = Some t ->
  (forall q, p = Some q -> answers (Some t) (last_request (hist s0 cs)) q) ->
  let new := match p with None => (adapt_RVs (d_ps s) (d_vs s), Ok tt) | Some q => apply_pref t (pf_payload q) (d_ps s) (d_vs s) end in
  (forall v e, new = (v, Err e) -> iterate p rnd s = (with_vs s v, Err e)) /\
  (forall v s', new = (v, Ok tt) -> forall o, iterate p rnd s = (s', Ok o) ->
     let c := d_c s in let start := mkCounts (c_it c) (c_gen c) 0 (c_fe c) (c_clock c) in
     exists ns c' q, generations gen sur v start (d_ps s) ns c' q /\ full_iteration sur gpi total (c_fe c) ns /\
       d_vs s' = v /\ d_ps s' = q /\
       c_it (d_c s') = c_it c + 1 /\ c_gen (d_c s') = c_gen c + Z.of_nat (length ns) /\ c_fe (d_c s') = c_fe c + total_counted sur ns /\ c_clock (d_c s') = (c_clock c + length ns)%nat /\
       o = (match t with PreferredRanges => None | _ => Some (ReqSelection t rnd) end)) /\
  (forall v s', new = (v, Ok tt) -> forall e, iterate p rnd s = (s', Err e) ->
     let c := d_c s in let start := mkCounts (c_it c) (c_gen c) 0 (c_fe c) (c_clock c) in
     exists ns c' q q', generations gen sur v start (d_ps s) ns c' q /\ gen c' v q = (q', Err e) /\ d_vs s' = v /\ d_ps s' = q' /\
       c_it (d_c s') = c_it c /\ c_gen (d_c s') = c_gen c + Z.of_nat (length ns) /\ c_fe (d_c s') = c_fe c + total_counted sur ns).
Proof.
  intros sur n gpi total fe0 v0 p0 cs p rnd t s0 s Ht Ha new. destruct (reach sur n gpi total fe0 v0 p0 cs) as (A & B & C & D). fold s0 in A, B, C, D. fold s in A, B, C, D. rewrite Ht in C. rewrite <- D in Ha.
  assert (Ha' : forall q, p = Some q -> answers (ea_type (d_ea s)) (ea_reqid (d_ea s)) q) by (rewrite C; exact Ha).
  pose proof (iterate_taken adapt_RVs apply_pref problem_pref gen p rnd s A Ha') as E.
  assert (N : steers adapt_RVs apply_pref p s = new). { unfold steers, new. rewrite C. destruct p; reflexivity. } rewrite N in E.
  destruct B as (B1 & B2 & B3 & B4). change (d_sur s0) with sur in B1. change (d_gpi s0) with gpi in B3. change (d_total s0) with total in B4.
  assert (Fin : forall s3 : drun VS PS, forall v, frame (with_c (with_vs s v) (mkCounts (c_it (d_c s)) (c_gen (d_c s)) 0 (c_fe (d_c s)) (c_clock (d_c s)))) s3 ->
     located s3 /\ ea_type (d_ea s3) = Some t /\ d_vs s3 = v /\ c_it (d_c s3) = c_it (d_c s)).
  { intros s3 v (F1 & _ & _ & _ & _ & F6 & F7). cbn in *. unfold located. rewrite F1. auto. }
  split; [|split].
  - intros v e Hn. rewrite E, Hn. reflexivity.
  - intros v s' Hn o HI. rewrite E, Hn in HI. cbn [fst snd] in HI. cbv zeta in HI. destruct (dec_gens gen _ _) as [s3 [[]|e]] eqn:G; [|discriminate].
    pose proof (gens_frame gen _ _ _ _ G) as F. destruct (Fin s3 v F) as (L3 & T3 & V3 & I3). apply gens_ok in G; [|cbn; lia]. cbn [with_c with_vs d_sur d_vs d_c d_ps d_gpi d_total c_gin c_fe] in G. rewrite B1, B3, B4 in G.
    destruct G as (ns & G1 & G2). rewrite Z.sub_0_r in G2. cbv zeta. exists ns, (d_c s3), (d_ps s3). split; [exact G1|]. split; [exact G2|].
    set (s4 := with_c s3 _) in HI. rewrite (requests_typed rnd s4 t L3 T3) in HI. injection HI as <- <-. destruct (generations_counts _ _ _ _ _ _ _ _ G1) as (K1 & K2 & K3 & K4 & K5).
    cbn in K1, K2, K4, K5. unfold s4; cbn. split; [exact V3|]. split; [reflexivity|]. split; [lia|]. split; [exact K2|]. split; [exact K4|]. split; [exact K5|reflexivity].
  - intros v s' Hn e HI. rewrite E, Hn in HI. cbn [fst snd] in HI. cbv zeta in HI. destruct (dec_gens gen _ _) as [s3 [[]|e']] eqn:G.
    + pose proof (gens_frame gen _ _ _ _ G) as F. destruct (Fin s3 v F) as (L3 & T3 & V3 & I3). set (s4 := with_c s3 _) in HI. rewrite (requests_typed rnd s4 t L3 T3) in HI. discriminate.
    + injection HI as <- <-. pose proof (gens_frame gen _ _ _ _ G) as F. destruct (Fin s3 v F) as (L3 & T3 & V3 & I3). apply gens_err in G; [|cbn; lia]. cbn [with_c with_vs d_sur d_vs d_c d_ps d_gpi d_total c_gin c_fe] in G. rewrite B1 in G.
      destruct G as (ns & c & q & q' & G1 & G2 & G3 & G4 & G5). cbv zeta. exists ns, c, q, q'. split; [exact G1|]. split; [exact G2|]. split; [exact V3|]. split; [exact G3|]. split; [exact I3|].
      destruct (generations_counts _ _ _ _ _ _ _ _ G1) as (K1 & K2 & K3 & K4 & K5). cbn in K2, K4. rewrite G5, G4. auto.
Qed.

(** C118. So with a type chosen, an iteration whose preference was taken returns unless applying it, or a generation, raises. *)
Theorem C118_iteration_returns : forall sur n gpi total fe0 v0 p0 cs p rnd t, let s0 := interactive sur n gpi total fe0 v0 p0 in let s := session s0 cs in
  type_in_force (hist s0 cs) = Some t ->
  (forall q, p = Some q -> answers (Some t) (last_request (hist s0 cs)) q /\ exists v, apply_pref t (pf_payload q) (d_ps s) (d_vs s) = (v, Ok tt)) ->
  (forall c v q, exists q' m, gen c v q = (q', Ok m)) ->
  exists s' o, iterate p rnd s = (s', Ok o).
Proof.
  intros sur n gpi total fe0 v0 p0 cs p rnd t s0 s Ht Ha Hg.
  destruct (C118_iteration sur n gpi total fe0 v0 p0 cs p rnd t Ht (fun q Hq => proj1 (Ha q Hq))) as (_ & _ & H3).
  destruct (iterate p rnd s) as [s' [o|e]] eqn:E; [eauto|]. exfalso.
  assert (Hn : exists v, match p with None => (adapt_RVs (d_ps s) (d_vs s), Ok tt) | Some q => apply_pref t (pf_payload q) (d_ps s) (d_vs s) end = (v, Ok tt)).
  { destruct p as [q|]; [apply (Ha q eq_refl)|eauto]. }
  destruct Hn as (v & Hn). destruct (H3 v s' Hn e E) as (ns & c & q & q' & _ & G & _). destruct (Hg c v q) as (q2 & m & G'). congruence.
Qed.

(** C118. Nothing but iterate() touches the vectors, the population or the counters; a call hands out at most a request for the type in force, under the id it drew; requests() returns one
    whenever a type other than "Preferred ranges" was chosen, start() too. *)
Theorem C118_other_calls : forall sur n gpi total fe0 v0 p0 cs, let s0 := interactive sur n gpi total fe0 v0 p0 in let s := session s0 cs in let t := type_in_force (hist s0 cs) in
  (forall c, (forall p r, c <> DIterate p r) -> d_vs (fst (do s c)) = d_vs s /\ d_ps (fst (do s c)) = d_ps s /\ d_c (fst (do s c)) = d_c s) /\
  (forall r, snd (do s (DRequests r)) = match t with None => Err ValueError | Some PreferredRanges => Ok None | Some u => Ok (Some (ReqSelection u r)) end) /\
  (forall r u, t = Some u -> snd (do s (DStart r)) = snd (do s (DRequests r))) /\
  (forall a, snd (do s (DSetType a)) = match a with ArgOther => Err ValueError | _ => Ok None end).
Proof.
  intros sur n gpi total fe0 v0 p0 cs s0 s t. destruct (reach sur n gpi total fe0 v0 p0 cs) as (A & B & C & D). fold s0 in A, B, C, D. fold s in A, B, C, D. fold t in C. split; [|split; [|split]].
  - intros c Hc. apply (do_inv adapt_RVs apply_pref problem_pref gen s c A). exact Hc.
  - intros r. cbn [dec_do]. destruct t as [u|] eqn:Et; [rewrite (requests_typed r s u A C); destruct u; reflexivity|rewrite (requests_untyped r s A C); reflexivity].
  - intros r u Hu. cbn [dec_do].
    assert (Sb : forall cs (x : drun VS PS), located x -> fold_left then_type (hist x cs) (@None itype) <> None -> ea_set_bool (d_ea (session x cs)) = true).
    { clear. induction cs as [|c cs IH]; intros x L H; cbn [dec_history dec_session fold_left] in *; [congruence|].
      destruct (do_inv adapt_RVs apply_pref problem_pref gen x c L) as (A & _ & _ & _ & _ & F & _).
      destruct (then_type None (c, snd (do x c))) as [w|] eqn:W; [|apply IH; auto].
      destruct (session_inv adapt_RVs apply_pref problem_pref gen cs (fst (do x c)) A) as (_ & _ & _ & _ & K). apply K. apply F. congruence. }
    assert (Sb' : ea_set_bool (d_ea s) = true). { apply Sb; [split; reflexivity|]. unfold t, type_in_force in Hu. fold s0. rewrite Hu. congruence. }
    unfold dec_start, start. destruct A as [Ai Al]. rewrite Ai, Sb'. reflexivity.
  - intros a. cbn [dec_do]. unfold dec_set_type, set_interaction_type. destruct A as [Ai Al]. rewrite Al. destruct a; reflexivity.
Qed.

(** C118. The iteration counter of a session begun by choosing a type is the number of iterate() calls that returned; so once n_iterations of them have, continue_evolution is false. *)
Theorem C118_iteration_counter : forall sur n gpi total fe0 v0 p0 t cs, let s0 := interactive sur n gpi total fe0 v0 p0 in let cs := DSetType (ArgType t) :: cs in
  c_it (d_c (session s0 cs)) = Z.of_nat (iterations (hist s0 cs)) /\ (n <= Z.of_nat (iterations (hist s0 cs)) -> dec_continue_evolution (session s0 cs) = false).
Proof.
  intros sur n gpi total fe0 v0 p0 t cs0 s0 cs.
  assert (Main : forall cs (x : drun VS PS), located x -> ea_type (d_ea x) <> None -> c_it (d_c (session x cs)) = c_it (d_c x) + Z.of_nat (iterations (hist x cs)) /\ d_iters (session x cs) = d_iters x).
  { clear. induction cs as [|c cs IH]; intros x L T; cbn [dec_session dec_history]; [cbn; split; [lia|auto]|].
    destruct (do_inv adapt_RVs apply_pref problem_pref gen x c L) as (A & B & C & D & E & F & K). cbv zeta in *.
    assert (T' : ea_type (d_ea (fst (do x c))) <> None). { rewrite C. unfold then_type. cbn. destruct c as [[]| | |]; congruence. }
    destruct (IH _ A T') as [I1 I2]. destruct B as (_ & B & _). split; [|congruence]. rewrite I1. unfold iterations. cbn [filter].
    destruct c as [a|r|r|p r]; [destruct (K) as (_ & _ & ->); [discriminate|reflexivity]|destruct (K) as (_ & _ & ->); [discriminate|reflexivity]|destruct (K) as (_ & _ & ->); [discriminate|reflexivity]|].
    clear I1 I2 K E F D C A T' IH. cbn [dec_do]. destruct (ea_type (d_ea x)) as [t|] eqn:Et; [|congruence].
    unfold dec_iterate. destruct (dec_manage adapt_RVs apply_pref problem_pref p x) as [s1 o1] eqn:M.
    assert (Ms : exists v, s1 = with_vs x v \/ s1 = x).
    { destruct L as [Li Ll]. unfold dec_manage in M. rewrite Ll in M. unfold sel_manage in M. destruct p as [q|]; [|injection M as <- <-; eauto].
      destruct (negb _) in M; [injection M as <- <-; exists (d_vs x); auto|]. rewrite Et in M.
      destruct (match pf_class q with Some _ => _ | None => _ end); [|injection M as <- <-; exists (d_vs x); auto]. destruct (apply_pref _ _ _ _) as [v o]. injection M as <- <-. eauto. }
    assert (X : d_ea s1 = d_ea x /\ c_it (d_c s1) = c_it (d_c x)) by (destruct Ms as (v & [->| ->]); auto). destruct X as [X1 X2].
    destruct o1 as [u|e]; [|cbn [fst snd]; rewrite X2; lia]. rewrite pre_selection by (unfold located; rewrite X1; exact L). cbv zeta.
    destruct (dec_gens gen _ _) as [s3 o3] eqn:G. apply gens_frame in G. destruct G as (G1 & _ & _ & _ & _ & _ & G7). cbn in G1, G7.
    destruct o3 as [u3|e]; [|cbn [fst snd]; rewrite G7, X2; lia]. set (s4 := with_c s3 _). rewrite (requests_typed r s4 t); [|unfold located, s4; cbn; rewrite G1, X1; exact L|unfold s4; cbn; rewrite G1, X1; exact Et].
    cbn [fst snd length]. unfold s4; cbn. rewrite G7, X2. lia. }
  assert (X : c_it (d_c (session s0 cs)) = Z.of_nat (iterations (hist s0 cs)) /\ d_iters (session s0 cs) = n).
  { unfold cs. cbn [dec_session dec_history]. destruct (Main cs0 (fst (do s0 (DSetType (ArgType t))))) as [M1 M2]; [split; reflexivity|cbn; congruence|]. split; [rewrite M1; reflexivity|rewrite M2; reflexivity]. }
  destruct X as [X1 X2]. split; [exact X1|]. intros Hn. unfold dec_continue_evolution. rewrite X1, X2. replace (_ <? n) with false by (symmetry; apply Z.ltb_ge; lia). reflexivity.
Qed.

(** C118 (false of the code). "An iterate() that raises for lack of an interaction type does nothing": without a type, iterate() runs the whole iteration, counts it, and raises then, when
    asking for the next preference; every such call does it again. *)
Theorem C118_untyped_iteration_refuted : forall sur n gpi total fe0 v0 p0 cs rnd, let s0 := interactive sur n gpi total fe0 v0 p0 in let s := session s0 cs in
  type_in_force (hist s0 cs) = None -> (forall c v q, exists q' m, gen c v q = (q', Ok m)) -> 0 < gpi -> total = 0 ->
  exists s', iterate None rnd s = (s', Err ValueError) /\ c_it (d_c s') = c_it (d_c s) + 1 /\ c_gen (d_c s') = c_gen (d_c s) + gpi.
Proof.
  intros sur n gpi total fe0 v0 p0 cs rnd s0 s Ht Hg Hp HT. destruct (reach sur n gpi total fe0 v0 p0 cs) as (A & B & C & D). fold s0 in A, B, C, D. fold s in A, B, C, D. rewrite Ht in C.
  rewrite (iterate_taken adapt_RVs apply_pref problem_pref gen None rnd s A) by discriminate. cbn [steers snd fst]. cbv zeta.
  destruct B as (B1 & B2 & B3 & B4). change (d_sur s0) with sur in B1. change (d_gpi s0) with gpi in B3. change (d_total s0) with total in B4.
  destruct (dec_gens gen _ _) as [s3 [[]|e]] eqn:G.
  - pose proof (gens_frame gen _ _ _ _ G) as (F1 & _ & _ & _ & _ & _ & F7). cbn in F1, F7. apply gens_ok in G; [|cbn; lia]. cbn [with_c with_vs d_sur d_vs d_c d_ps d_gpi d_total c_gin c_fe] in G. destruct G as (ns & G1 & G2 & G3 & G4).
    set (s4 := with_c s3 _). rewrite (requests_untyped rnd s4); [|unfold located, s4; cbn; rewrite F1; exact A|unfold s4; cbn; rewrite F1; exact C].
    exists s4. split; [reflexivity|]. unfold s4; cbn. split; [lia|]. destruct (generations_counts _ _ _ _ _ _ _ _ G1) as (K1 & K2 & _). cbn in K2. rewrite K2.
    rewrite B3, B4, Z.sub_0_r in *. destruct (Z_lt_dec (Z.of_nat (length ns)) gpi) as [Lt|Ge]; [destruct (G3 Lt); congruence|lia].
  - apply gens_err in G; [|cbn; lia]. destruct G as (ns & c & q & q' & _ & G & _). cbn in G. destruct (Hg c (adapt_RVs (d_ps s) (d_vs s)) q) as (q2 & m & G'). congruence.
Qed.

(** C118 (false of the code). "An interactive algorithm takes answers and refuses other preferences": one built from an initial population takes no preference seriously. Whatever is handed
    to iterate(), at any point of any session, it behaves as if nothing were. *)
Lemma none_inv k (interact : bool) (x : drun VS PS) : (interact = false \/ k = NoProblem) -> d_ea x = new_ea interact k -> forall cs, ea_loc (d_ea (session x cs)) = LocNone.
Proof.
  intros Hk Hx cs. assert (L : ea_loc (d_ea x) = LocNone) by (rewrite Hx; destruct Hk as [->| ->]; [reflexivity|destruct interact; reflexivity]).
  clear Hx Hk. revert x L. induction cs as [|c cs IH]; intros x L; cbn [dec_session]; [exact L|]. apply IH.
  assert (Rq : forall r (y : drun VS PS), ea_loc (d_ea y) = LocNone -> ea_loc (d_ea (fst (dec_requests r y))) = LocNone).
  { intros r y Hy. unfold dec_requests, request_preferences. destruct (negb (ea_interact (d_ea y))); [exact Hy|]. rewrite Hy. exact Hy. }
  destruct c as [a|r|r|p r]; cbn [dec_do].
  - unfold dec_set_type, set_interaction_type. rewrite L. exact L.
  - unfold dec_start, start. destruct (_ && _); [exact L|]. apply (Rq r x L).
  - apply Rq; exact L.
  - unfold dec_iterate, dec_manage. rewrite L. cbv zeta. destruct (dec_gens gen _ _) as [s3 o3] eqn:G. apply gens_frame in G. destruct G as (G1 & _). cbn in G1.
    assert (P : d_ea (dec_pre_iteration adapt_RVs x) = d_ea x). { unfold dec_pre_iteration. rewrite L. destruct (negb _); reflexivity. }
    rewrite P in G1. destruct o3; [apply Rq; cbn; congruence|cbn [fst]; congruence].
Qed.
Theorem C118_initial_population_ignores_preferences_refuted : forall sur n gpi total fe0 v0 p0 cs p rnd, let s := session (dec_new true NoProblem sur n gpi total fe0 v0 p0) cs in
  iterate p rnd s = iterate None rnd s.
Proof.
  intros sur n gpi total fe0 v0 p0 cs p rnd s. unfold s, dec_iterate, dec_manage. rewrite (none_inv NoProblem true (dec_new true NoProblem sur n gpi total fe0 v0 p0) (or_intror eq_refl) eq_refl cs). reflexivity.
Qed.
(** C118. Without interaction preferences are ignored too, nothing is requested, and each iteration first adapts the vectors (twice) to the population it starts from. *)
Theorem C118_non_interactive : forall k sur n gpi total fe0 v0 p0 cs p rnd, let s := session (dec_new false k sur n gpi total fe0 v0 p0) cs in
  iterate p rnd s = iterate None rnd s /\
  forall s' o, iterate p rnd s = (s', o) -> d_vs s' = adapt_RVs (d_ps s) (adapt_RVs (d_ps s) (d_vs s)) /\ (forall u, o = Ok u -> u = None).
Proof.
  intros k sur n gpi total fe0 v0 p0 cs p rnd s. pose proof (none_inv k false (dec_new false k sur n gpi total fe0 v0 p0) (or_introl eq_refl) eq_refl cs) as L. fold s in L.
  assert (I : ea_interact (d_ea s) = false).
  { unfold s. assert (I0 : ea_interact (d_ea (dec_new false k sur n gpi total fe0 v0 p0)) = false) by reflexivity. revert I0. generalize (dec_new false k sur n gpi total fe0 v0 p0). clear. induction cs as [|c cs IH]; intros x I; cbn [dec_session]; [exact I|]. apply IH.
    assert (Rq : forall r (y : drun VS PS), ea_interact (d_ea y) = false -> ea_interact (d_ea (fst (dec_requests r y))) = false) by (intros r y Hy; unfold dec_requests, request_preferences; rewrite Hy; exact Hy).
    destruct c as [a|r|r|q r]; cbn [dec_do].
    - unfold dec_set_type, set_interaction_type. destruct (ea_loc (d_ea x)) eqn:El; try (destruct (sel_set_type _ _)); cbn; auto.
    - unfold dec_start, start. rewrite I. apply (Rq r x I).
    - apply Rq; exact I.
    - unfold dec_iterate. destruct (dec_manage adapt_RVs apply_pref problem_pref q x) as [s1 o1] eqn:M.
      assert (E : d_ea s1 = d_ea x).
      { unfold dec_manage in M. destruct (ea_loc (d_ea x)); try (injection M as <- <-; reflexivity).
        - unfold sel_manage in M. destruct q as [q|]; [|injection M as <- <-; reflexivity]. destruct (negb _) in M; [injection M as <- <-; reflexivity|]. destruct (ea_type (d_ea x)); [|injection M as <- <-; reflexivity].
          destruct (match pf_class q with Some _ => _ | None => _ end); [|injection M as <- <-; reflexivity]. destruct (apply_pref _ _ _ _); injection M as <- <-; reflexivity.
        - destruct (problem_pref q (d_ps x)); injection M as <- <-; reflexivity. }
      destruct o1; [|cbn; congruence]. cbv zeta. destruct (dec_gens gen _ _) as [s3 o3] eqn:G. apply gens_frame in G. destruct G as (G1 & _). cbn in G1.
      assert (P : d_ea (dec_pre_iteration adapt_RVs s1) = d_ea s1). { unfold dec_pre_iteration. destruct (negb _); destruct (ea_loc (d_ea s1)); reflexivity. }
      rewrite P, E in G1. destruct o3; [apply Rq; cbn; congruence|cbn [fst]; congruence]. }
  split; [unfold dec_iterate, dec_manage; rewrite L; reflexivity|]. intros s' o H. unfold dec_iterate, dec_manage in H. rewrite L in H. cbv zeta in H.
  assert (P : dec_pre_iteration adapt_RVs s = with_vs s (adapt_RVs (d_ps s) (adapt_RVs (d_ps s) (d_vs s)))). { unfold dec_pre_iteration. rewrite L, I. reflexivity. }
  rewrite P in H. destruct (dec_gens gen _ _) as [s3 o3] eqn:G. apply gens_frame in G. destruct G as (G1 & _ & _ & _ & _ & G6 & _). cbn in G1, G6.
  destruct o3 as [u|e]; [|injection H as <- <-; split; [exact G6|discriminate]]. unfold dec_requests, request_preferences in H. cbn in H. rewrite G1, I in H. cbn in H. injection H as <- <-. cbn. split; [exact G6|intros w Hw; congruence].
Qed.
(** C118 (false of the code). "The user can answer in every interaction type": while "Preferred ranges" is the only type chosen, no call of the session hands out anything to answer. *)
Theorem C118_preferred_ranges_refuted : forall sur n gpi total fe0 v0 p0 cs, let s0 := interactive sur n gpi total fe0 v0 p0 in
  (forall a, In (DSetType (ArgType a)) cs -> a = PreferredRanges) -> forall c o, In (c, Ok o) (hist s0 cs) -> o = None.
Proof.
  intros sur n gpi total fe0 v0 p0 cs s0. assert (L0 : located s0) by (split; reflexivity). assert (T0 : forall t, ea_type (d_ea s0) = Some t -> t = PreferredRanges) by discriminate.
  revert L0 T0. generalize s0. clear. induction cs as [|c cs IH]; intros x L T Hcs d o Hin; cbn [dec_history] in Hin; [destruct Hin|].
  destruct (do_inv adapt_RVs apply_pref problem_pref gen x c L) as (A & B & C & D & _). cbv zeta in *.
  assert (T' : forall t, ea_type (d_ea (fst (do x c))) = Some t -> t = PreferredRanges).
  { intros t Ht. rewrite C in Ht. unfold then_type in Ht. cbn in Ht. destruct c as [[|u|]| | |]; auto. injection Ht as <-. apply Hcs. left; reflexivity. }
  destruct Hin as [Hin|Hin]; [|eapply IH; eauto; intros a Ha; apply Hcs; right; exact Ha]. injection Hin as Hc Ho.
  assert (Rq : forall r (y : drun VS PS), located y -> ea_type (d_ea y) = ea_type (d_ea x) -> forall u, snd (dec_requests r y) = Ok u -> u = None).
  { intros r y Ly Ty u. destruct (ea_type (d_ea x)) as [t|] eqn:Et; [rewrite (requests_typed r y t Ly Ty)|rewrite (requests_untyped r y Ly Ty); discriminate]. rewrite (T t eq_refl). cbn. congruence. }
  clear IH Hc. destruct c as [a|r|r|p r]; cbn [dec_do] in Ho.
  - unfold dec_set_type, set_interaction_type in Ho. destruct L as [Li Ll]. rewrite Ll in Ho. destruct a; cbn in Ho; congruence.
  - assert (St : dec_start r x = if ea_set_bool (d_ea x) then dec_requests r x else (x, Err EaError)).
    { destruct L as [Li Ll]. unfold dec_start, start. rewrite Li. cbn [andb]. destruct (ea_set_bool (d_ea x)); cbn [negb]; [reflexivity|destruct x; reflexivity]. }
    rewrite St in Ho. destruct (ea_set_bool (d_ea x)); [|discriminate]. apply (Rq r x L eq_refl o Ho).
  - apply (Rq r x L eq_refl o Ho).
  - unfold dec_iterate in Ho. destruct (dec_manage adapt_RVs apply_pref problem_pref p x) as [s1 o1] eqn:M.
    assert (E : d_ea s1 = d_ea x).
    { destruct L as [Li Ll]. unfold dec_manage in M. rewrite Ll in M. unfold sel_manage in M. destruct p as [q|]; [|injection M as <- <-; reflexivity]. destruct (negb _) in M; [injection M as <- <-; reflexivity|]. destruct (ea_type (d_ea x)); [|injection M as <- <-; reflexivity].
      destruct (match pf_class q with Some _ => _ | None => _ end); [|injection M as <- <-; reflexivity]. destruct (apply_pref _ _ _ _); injection M as <- <-; reflexivity. }
    destruct o1 as [u|e]; [|discriminate]. rewrite pre_selection in Ho by (unfold located; rewrite E; exact L). cbv zeta in Ho. destruct (dec_gens gen _ _) as [s3 [u3|e]] eqn:G; [|discriminate]. apply gens_frame in G. destruct G as (G1 & _). cbn in G1.
    eapply Rq; [| |exact Ho]; unfold located; cbn; rewrite G1, E; auto.
Qed.
End T.

Print Assumptions C118_refused_preference.
Print Assumptions C118_iteration.
Print Assumptions C118_iteration_returns.
Print Assumptions C118_other_calls.
Print Assumptions C118_iteration_counter.
Print Assumptions C118_untyped_iteration_refuted.
Print Assumptions C118_initial_population_ignores_preferences_refuted.
Print Assumptions C118_non_interactive.
Print Assumptions C118_preferred_ranges_refuted.

(** ** Non-vacuity: 2 generations per iteration, 5 offspring each, budget 22, 10 evaluated at construction; the population is a number that grows by one per generation, the vectors a list. *)
Definition ex_adapt (p : Z) (v : list Z) : list Z := [p].
Definition ex_apply (t : itype) (x p : Z) (v : list Z) : list Z * res unit := if x <? 0 then (v ++ [x], Err IndexError) else ([x; p], Ok tt).
Definition ex_gen (c : counts) (v : list Z) (p : Z) : Z * res nat := (p + 1, Ok 5%nat).
Definition ans (t : itype) (id : nat) (x : Z) : option (pref Z) := Some (mkPref (Some t) id x).
Definition ex_session : list (dcall Z) :=
  [DStart 1%nat; DSetType ArgOther; DStart 1%nat; DSetType (ArgType ReferencePoint); DStart 2%nat; DIterate (ans ReferencePoint 2 7) 3%nat; DIterate (ans ReferencePoint 2 8) 4%nat; DSetType (ArgType PreferredSolutions);
   DIterate (ans ReferencePoint 3 9) 5%nat; DIterate (ans PreferredSolutions 3 (-4)) 6%nat; DIterate (ans PreferredSolutions 3 9) 6%nat; DSetType (ArgType PreferredRanges); DRequests 7%nat].
Notation ex_s0 := (@dec_new (list Z) Z true PlainProblem false 5 2 22 10 [] 100).
Notation ex_run := (dec_session ex_adapt ex_apply (fun _ p => (p, Ok tt)) ex_gen ex_s0).
Notation ex_hist := (dec_history ex_adapt ex_apply (fun _ p => (p, Ok tt)) ex_gen ex_s0).
Example ex_outcomes : map snd (ex_hist ex_session) =
  [Err EaError; Err ValueError; Err ValueError; Ok None; Ok (Some (ReqSelection ReferencePoint 2)); Ok (Some (ReqSelection ReferencePoint 3)); Err ValueError; Ok None; Err TypeError; Err IndexError;
   Ok (Some (ReqSelection PreferredSolutions 6)); Ok None; Ok None] /\
  (type_in_force (ex_hist ex_session), last_request (ex_hist ex_session), iterations (ex_hist ex_session)) = (Some PreferredRanges, Some 7%nat, 2%nat) /\
  (d_vs (ex_run ex_session), d_ps (ex_run ex_session), d_c (ex_run ex_session)) = ([9; 102], 103, mkCounts 2 3 1 25 3) /\ dec_continue_evolution (ex_run ex_session) = false.
Proof. vm_compute. auto. Qed.
(** The hypotheses of the theorems, met in the middle of this session: an answer, a foreign object, and (before the type is chosen) an iteration without a type. *)
Example ex_hypotheses : let h := ex_hist (firstn 5 ex_session) in type_in_force h = Some ReferencePoint /\ answers (Some ReferencePoint) (last_request h) (mkPref (Some ReferencePoint) 2%nat 7) /\
  ~ answers (type_in_force h) (last_request h) (mkPref (Some PreferredRanges) 2%nat 7) /\ type_in_force (ex_hist (firstn 3 ex_session)) = None.
Proof. cbv zeta. split; [reflexivity|]. split; [split; [reflexivity|split; [discriminate|reflexivity]]|]. split; [|reflexivity]. intros (_ & _ & H). vm_compute in H. discriminate. Qed.
Example ex_untyped : let '(s, o) := dec_iterate ex_adapt ex_apply (fun _ p => (p, Ok tt)) ex_gen None 1 (@dec_new (list Z) Z true PlainProblem false 5 2 0 10 [] 100) in (o, d_ps s, c_it (d_c s), c_gen (d_c s)) = (Err ValueError, 102, 1, 2).
Proof. vm_compute. reflexivity. Qed.
