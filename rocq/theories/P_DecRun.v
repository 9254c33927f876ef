(** Lemmas for C118. *)
From Verif Require Import Base M_Preferences M_DecRun Spec_DecRun.
Open Scope Z_scope.

Section P.
Context {VS PS Payload : Type} (adapt_RVs : PS -> VS -> VS) (apply_pref : itype -> Payload -> PS -> VS -> VS * res unit)
  (problem_pref : option (pref Payload) -> PS -> PS * res unit) (gen : counts -> VS -> PS -> PS * res nat).
Notation drun := (drun VS PS).
Notation dcall := (dcall Payload).
Notation do := (dec_do adapt_RVs apply_pref problem_pref gen).
Notation session := (dec_session adapt_RVs apply_pref problem_pref gen).
Notation hist := (dec_history adapt_RVs apply_pref problem_pref gen).
Notation iterate := (dec_iterate adapt_RVs apply_pref problem_pref gen).

Lemma session_app cs : forall (s : drun) c, session s (cs ++ [c]) = fst (do (session s cs) c).
Proof. induction cs as [|d cs IH]; intros s c; [reflexivity|]. cbn [app dec_session]. apply IH. Qed.
Lemma hist_app cs : forall (s : drun) c, hist s (cs ++ [c]) = hist s cs ++ [(c, snd (do (session s cs) c))].
Proof. induction cs as [|d cs IH]; intros s c; [reflexivity|]. cbn [app dec_session dec_history]. rewrite IH. reflexivity. Qed.

(** What the generations leave alone, and what they do. *)
Definition frame (s s' : drun) : Prop :=
  d_ea s' = d_ea s /\ d_sur s' = d_sur s /\ d_iters s' = d_iters s /\ d_gpi s' = d_gpi s /\ d_total s' = d_total s /\ d_vs s' = d_vs s /\ c_it (d_c s') = c_it (d_c s).
Lemma frame_refl s : frame s s.
Proof. unfold frame; auto 10. Qed.
Lemma frame_trans a b c : frame a b -> frame b c -> frame a c.
Proof. unfold frame. intuition congruence. Qed.
Lemma gens_frame : forall fuel (s s' : drun) r, dec_gens gen fuel s = (s', r) -> frame s s'.
Proof.
  induction fuel as [|f IH]; intros s s' r; cbn [dec_gens]; destruct (dec_continue_iteration s); try (intros H; injection H as <- <-; apply frame_refl).
  unfold dec_gen. destruct (gen (d_c s) (d_vs s) (d_ps s)) as [q [n|e]]; intros H.
  - apply IH in H. eapply frame_trans; [|exact H]. unfold frame; cbn; auto 10.
  - injection H as <- <-. unfold frame; cbn; auto 10.
Qed.
Lemma after_eq (sur : bool) (c : counts) n : mkCounts (c_it c) (c_gen c + 1) (c_gin c + 1) (if sur then c_fe c else c_fe c + Z.of_nat n) (S (c_clock c)) = after sur c n.
Proof. unfold after, counted. destruct sur; f_equal; lia. Qed.
Lemma gens_ok : forall fuel (s s' : drun), d_gpi s - c_gin (d_c s) <= Z.of_nat fuel -> dec_gens gen fuel s = (s', Ok tt) ->
  exists ns, generations gen (d_sur s) (d_vs s) (d_c s) (d_ps s) ns (d_c s') (d_ps s') /\ full_iteration (d_sur s) (d_gpi s - c_gin (d_c s)) (d_total s) (c_fe (d_c s)) ns.
Proof.
  assert (Stop : forall s : drun, dec_continue_iteration s = false -> exists ns, generations gen (d_sur s) (d_vs s) (d_c s) (d_ps s) ns (d_c s) (d_ps s) /\
    full_iteration (d_sur s) (d_gpi s - c_gin (d_c s)) (d_total s) (c_fe (d_c s)) ns).
  { intros s E. exists []. split; [constructor|]. unfold full_iteration. cbn [length total_counted]. split; [lia|]. split; [|intros i Hi; inversion Hi].
    intros Hl. unfold dec_continue_iteration in E. apply Bool.andb_false_iff in E. destruct E as [E|E]; [apply Z.ltb_ge in E; lia|]. unfold dec_check_FE in E.
    destruct (Z.eqb_spec (d_total s) 0) as [HT|HT]; [discriminate|]. apply Z.leb_gt in E. split; [exact HT|lia]. }
  induction fuel as [|f IH]; intros s s' Hf; cbn [dec_gens]; destruct (dec_continue_iteration s) eqn:E; try discriminate; try (intros H; injection H as <-; apply Stop; exact E).
  unfold dec_gen. destruct (gen (d_c s) (d_vs s) (d_ps s)) as [q [n|e]] eqn:G; [|discriminate]. intros H. apply IH in H; [|cbn [with_c with_ps d_gpi d_c c_gin]; lia].
  cbn [with_c with_ps d_gpi d_c d_sur d_vs d_ps d_total c_gin c_fe] in H. rewrite after_eq in H. destruct H as (ns & Hg & H1 & H2 & H3).
  unfold dec_continue_iteration in E. apply andb_prop in E. destruct E as [E Eb]. apply Z.ltb_lt in E.
  exists (n :: ns). split; [econstructor; eauto|].
  assert (Fe : (if d_sur s then c_fe (d_c s) else c_fe (d_c s) + Z.of_nat n) = c_fe (d_c s) + counted (d_sur s) n) by (unfold counted; destruct (d_sur s); lia). rewrite Fe in H2, H3.
  unfold full_iteration. cbn [length total_counted]. split; [lia|]. split.
  - intros Hl. destruct H2 as [H2 H2']; [lia|]. split; [exact H2|lia].
  - intros i Hi. destruct i as [|i]; cbn [firstn total_counted].
    + unfold dec_check_FE in Eb. destruct (Z.eqb_spec (d_total s) 0) as [HT|HT]; [left; exact HT|]. apply Z.leb_le in Eb. right. lia.
    + destruct (H3 i) as [H3'|H3']; [lia|left; exact H3'|right; lia].
Qed.
(** The generation loop raises only what a generation raises. *)
Lemma gens_err : forall fuel (s s' : drun) e, d_gpi s - c_gin (d_c s) <= Z.of_nat fuel -> dec_gens gen fuel s = (s', Err e) ->
  exists ns c q q', generations gen (d_sur s) (d_vs s) (d_c s) (d_ps s) ns c q /\ gen c (d_vs s) q = (q', Err e) /\ d_ps s' = q' /\ c_fe (d_c s') = c_fe c /\ c_gen (d_c s') = c_gen c.
Proof.
  induction fuel as [|f IH]; intros s s' e Hf; cbn [dec_gens]; destruct (dec_continue_iteration s) eqn:E; try discriminate.
  - unfold dec_continue_iteration in E. apply andb_prop in E. destruct E as [E _]. apply Z.ltb_lt in E. lia.
  - unfold dec_gen. destruct (gen (d_c s) (d_vs s) (d_ps s)) as [q [n|e']] eqn:G; intros H.
    + apply IH in H; [|cbn [with_c with_ps d_gpi d_c c_gin]; lia]. cbn [with_c with_ps d_c d_sur d_vs d_ps] in H. rewrite after_eq in H. destruct H as (ns & c & q1 & q2 & H1 & H2 & H3 & H4).
      exists (n :: ns), c, q1, q2. split; [econstructor; eauto|auto].
    + injection H as <- <-. exists [], (d_c s), (d_ps s), q. cbn. split; [constructor|auto].
Qed.
Lemma generations_counts sur v c p ns c' q : generations gen sur v c p ns c' q ->
  c_it c' = c_it c /\ c_gen c' = c_gen c + Z.of_nat (length ns) /\ c_gin c' = c_gin c + Z.of_nat (length ns) /\ c_fe c' = c_fe c + total_counted sur ns /\ c_clock c' = (c_clock c + length ns)%nat.
Proof.
  induction 1 as [c p|c p n q ns c' q' G H IH]; cbn [length total_counted].
  - repeat (split; [lia|]). lia.
  - destruct IH as (A & B & C & D & E). unfold after in *. cbn [c_it c_gen c_gin c_fe c_clock] in *. repeat (split; [lia|]). lia.
Qed.

(** ** A selection-located session *)
(** What the calls leave alone. *)
Definition consts (s s' : drun) : Prop := d_sur s' = d_sur s /\ d_iters s' = d_iters s /\ d_gpi s' = d_gpi s /\ d_total s' = d_total s.
Definition located (s : drun) : Prop := ea_interact (d_ea s) = true /\ ea_loc (d_ea s) = LocSelection.

Lemma requests_typed r (s : drun) t : located s -> ea_type (d_ea s) = Some t ->
  dec_requests r s = (with_ea s (mkEA true LocSelection (ea_set_bool (d_ea s)) (Some t) (Some r)), Ok (match t with PreferredRanges => None | _ => Some (ReqSelection t r) end)).
Proof.
  intros [Hi Hl] Ht. unfold dec_requests, request_preferences. rewrite Hi. cbn [negb]. rewrite Hl. unfold sel_request. rewrite Ht, Hi, Hl. reflexivity.
Qed.
Lemma requests_untyped r (s : drun) : located s -> ea_type (d_ea s) = None -> dec_requests r s = (s, Err ValueError).
Proof.
  intros [Hi Hl] Ht. unfold dec_requests, request_preferences. rewrite Hi. cbn [negb]. rewrite Hl. unfold sel_request. rewrite Ht. destruct s; reflexivity.
Qed.
Definition steers (p : option (pref Payload)) (s : drun) : VS * res unit :=
  match p with None => (adapt_RVs (d_ps s) (d_vs s), Ok tt) | Some q => match ea_type (d_ea s) with Some t => apply_pref t (pf_payload q) (d_ps s) (d_vs s) | None => (d_vs s, Err ValueError) end end.
Lemma itype_eqb_true a b : itype_eqb a b = true <-> a = b.
Proof. destruct a, b; cbn; split; congruence. Qed.
Lemma manage_refused q (s : drun) : located s -> ~ answers (ea_type (d_ea s)) (ea_reqid (d_ea s)) q ->
  exists e, dec_manage adapt_RVs apply_pref problem_pref (Some q) s = (s, Err e) /\ (e = ValueError \/ e = TypeError).
Proof.
  intros [Hi Hl] Ha. unfold dec_manage. rewrite Hl. cbn [sel_manage]. destruct (ea_reqid (d_ea s)) as [i|] eqn:Er; [|cbn; eauto]. destruct (Nat.eqb_spec i (pf_id q)) as [->|Ne]; cbn; [|eauto].
  destruct (ea_type (d_ea s)) as [t|] eqn:Et; [|eauto]. destruct (pf_class q) as [c|] eqn:Ec; [|eauto]. destruct (itype_eqb c t) eqn:Eq; [|eauto].
  exfalso. apply Ha. apply itype_eqb_true in Eq. subst. unfold answers. rewrite Ec. repeat split; congruence.
Qed.
Lemma manage_taken p (s : drun) : located s -> (forall q, p = Some q -> answers (ea_type (d_ea s)) (ea_reqid (d_ea s)) q) ->
  dec_manage adapt_RVs apply_pref problem_pref p s = (with_vs s (fst (steers p s)), snd (steers p s)).
Proof.
  intros [Hi Hl] Ha. unfold dec_manage. rewrite Hl. destruct p as [q|]; cbn [sel_manage steers]; [|reflexivity].
  destruct (Ha q eq_refl) as (A & B & C). rewrite A. rewrite Nat.eqb_refl. cbn [negb]. destruct (ea_type (d_ea s)) as [t|]; [|congruence]. rewrite C.
  replace (itype_eqb t t) with true by (symmetry; apply itype_eqb_true; reflexivity). destruct (apply_pref t _ _ _); reflexivity.
Qed.
Lemma pre_selection (s : drun) : located s -> dec_pre_iteration adapt_RVs s = s.
Proof. intros [Hi Hl]. unfold dec_pre_iteration. rewrite Hi, Hl. reflexivity. Qed.

(** The invariant: the object's type and request id are those of the history. *)
Lemma do_inv (s : drun) c : located s -> let s1 := fst (do s c) in let o := snd (do s c) in
  located s1 /\ consts s s1 /\ ea_type (d_ea s1) = then_type (ea_type (d_ea s)) (c, o) /\ ea_reqid (d_ea s1) = then_request (ea_reqid (d_ea s)) (c, o) /\
  (ea_set_bool (d_ea s) = true -> ea_set_bool (d_ea s1) = true) /\ (then_type None (c, o) <> None -> ea_set_bool (d_ea s1) = true) /\
  ((forall p r, c <> DIterate p r) -> d_vs s1 = d_vs s /\ d_ps s1 = d_ps s /\ d_c s1 = d_c s).
Proof.
  intros Hs. pose proof Hs as [Hi Hl]. cbv zeta. destruct c as [a|r|r|p r]; cbn [dec_do].
  - unfold dec_set_type, set_interaction_type. rewrite Hl. unfold sel_set_type.
    destruct a as [|t|]; cbn [fst snd bind then_type then_request]; unfold located, consts, with_ea; cbn [d_ea ea_interact ea_loc ea_type ea_reqid ea_set_bool d_sur d_iters d_gpi d_total d_vs d_ps d_c]; auto 20; (split; [auto|]; split; [auto|]; split; [auto|]; split; [auto|]; split; [auto|]; split; [cbn; congruence|auto]).
  - assert (St : dec_start r s = if ea_set_bool (d_ea s) then dec_requests r s else (s, Err EaError)).
    { unfold dec_start, start. rewrite Hi. cbn [andb]. destruct (ea_set_bool (d_ea s)); cbn [negb]; [reflexivity|destruct s; reflexivity]. }
    rewrite St. destruct (ea_set_bool (d_ea s)) eqn:Eb.
    + destruct (ea_type (d_ea s)) as [t|] eqn:Et.
      * rewrite (requests_typed r s t Hs Et). cbn [fst snd then_type then_request]. unfold located, consts, with_ea; cbn [d_ea ea_interact ea_loc ea_type ea_reqid ea_set_bool d_sur d_iters d_gpi d_total d_vs d_ps d_c]. split; [auto|]; split; [auto|]; split; [auto|]; split; [auto|]; split; [auto|]; split; [cbn; congruence|auto].
      * rewrite (requests_untyped r s Hs Et). cbn [fst snd then_type then_request]. unfold consts. split; [auto|]; split; [auto|]; split; [auto|]; split; [auto|]; split; [auto|]; split; [cbn; congruence|auto].
    + cbn [fst snd then_type then_request]. unfold consts. split; [auto|]; split; [auto|]; split; [auto|]; split; [auto|]; split; [congruence|]; split; [cbn; congruence|auto].
  - destruct (ea_type (d_ea s)) as [t|] eqn:Et.
    + rewrite (requests_typed r s t Hs Et). cbn [fst snd then_type then_request]. unfold located, consts, with_ea; cbn [d_ea ea_interact ea_loc ea_type ea_reqid ea_set_bool d_sur d_iters d_gpi d_total d_vs d_ps d_c]. split; [auto|]; split; [auto|]; split; [auto|]; split; [auto|]; split; [auto|]; split; [cbn; congruence|auto].
    + rewrite (requests_untyped r s Hs Et). cbn [fst snd then_type then_request]. unfold consts. split; [auto|]; split; [auto|]; split; [auto|]; split; [auto|]; split; [auto|]; split; [cbn; congruence|auto].
  - assert (Fin : forall s3 : drun, frame s s3 \/ (exists v, frame (with_vs s v) s3) -> located s3 /\ consts s s3 /\ ea_type (d_ea s3) = ea_type (d_ea s) /\ ea_reqid (d_ea s3) = ea_reqid (d_ea s) /\ ea_set_bool (d_ea s3) = ea_set_bool (d_ea s)).
    { intros s3 F. assert (X : d_ea s3 = d_ea s /\ consts s s3). { destruct F as [F|[v F]]; unfold frame, with_vs in F; cbn in F; unfold consts; intuition. }
      destruct X as [X Y]. unfold located. rewrite X. auto. }
    assert (Err' : forall (s3 : drun) e, frame s s3 \/ (exists v, frame (with_vs s v) s3) ->
      located s3 /\ consts s s3 /\ ea_type (d_ea s3) = then_type (ea_type (d_ea s)) (DIterate p r : dcall, @Err (option request) e) /\ ea_reqid (d_ea s3) = then_request (ea_reqid (d_ea s)) (DIterate p r : dcall, @Err (option request) e) /\
      (ea_set_bool (d_ea s) = true -> ea_set_bool (d_ea s3) = true) /\ (then_type None (DIterate p r : dcall, @Err (option request) e) <> None -> ea_set_bool (d_ea s3) = true) /\
      ((forall p0 r0, (DIterate p r : dcall) <> DIterate p0 r0) -> d_vs s3 = d_vs s /\ d_ps s3 = d_ps s /\ d_c s3 = d_c s)).
    { intros s3 e F. destruct (Fin s3 F) as (A & B & C & D & G). cbn [then_type then_request fst]. split; [exact A|]. split; [exact B|]. split; [exact C|]. split; [exact D|]. split; [congruence|]. split; [congruence|]. intros X. exfalso. eapply X; reflexivity. }
    unfold dec_iterate. destruct (dec_manage adapt_RVs apply_pref problem_pref p s) as [s1 o1] eqn:M.
    assert (Ms : exists v, s1 = with_vs s v \/ s1 = s).
    { unfold dec_manage in M. rewrite Hl in M. unfold sel_manage in M. destruct p as [q|]; [|injection M as <- <-; eauto].
      destruct (negb _) in M; [injection M as <- <-; exists (d_vs s); auto|]. destruct (ea_type (d_ea s)); [|injection M as <- <-; exists (d_vs s); auto].
      destruct (match pf_class q with Some _ => _ | None => _ end); [|injection M as <- <-; exists (d_vs s); auto]. destruct (apply_pref i _ _ _) as [v o]. injection M as <- <-. eauto. }
    assert (F1 : exists v, frame (with_vs s v) s1). { destruct Ms as (v & [->| ->]); [exists v; apply frame_refl|]. exists (d_vs s). destruct s; apply frame_refl. }
    assert (L1 : located s1). { destruct F1 as (v & F1). apply Fin. eauto. }
    destruct o1 as [u|e]; [|cbn [fst snd]; apply Err'; right; exact F1]. rewrite (pre_selection s1 L1). cbv zeta.
    destruct (dec_gens gen _ _) as [s3 o3] eqn:G. apply gens_frame in G.
    assert (F3 : exists v, frame (with_vs s v) s3). { destruct F1 as (v & F1). exists v. eapply frame_trans; [exact F1|]. unfold frame in *; cbn in *; intuition congruence. }
    destruct o3 as [u3|e]; [|cbn [fst snd]; apply Err'; right; exact F3].
    destruct (Fin s3 (or_intror F3)) as (A & B & C & D & K). set (s4 := with_c s3 _). assert (L4 : located s4) by exact A.
    destruct (ea_type (d_ea s)) as [t|] eqn:Et.
    + rewrite (requests_typed r s4 t L4 C). cbn [fst snd then_type then_request]. unfold located, consts in *; cbn. rewrite K. split; [auto|]. split; [exact B|]. split; [auto|]. split; [auto|]. split; [auto|]. split; [congruence|]. intros X. exfalso. eapply X; reflexivity.
    + rewrite (requests_untyped r s4 L4 C). cbn [fst snd then_type then_request]. unfold located, consts in *; cbn. split; [auto|]. split; [exact B|]. split; [auto|]. split; [auto|]. split; [congruence|]. split; [congruence|]. intros X. exfalso. eapply X; reflexivity.
Qed.
Lemma session_inv : forall cs (s : drun), located s -> let s' := session s cs in let h := hist s cs in
  located s' /\ consts s s' /\ ea_type (d_ea s') = fold_left then_type h (ea_type (d_ea s)) /\ ea_reqid (d_ea s') = fold_left then_request h (ea_reqid (d_ea s)) /\
  (ea_set_bool (d_ea s) = true -> ea_set_bool (d_ea s') = true).
Proof.
  induction cs as [|c cs IH]; intros s Hs; cbv zeta; cbn [dec_session dec_history fold_left]; [unfold consts; auto 10|].
  destruct (do_inv s c Hs) as (A & B & C & D & E & _). specialize (IH _ A). cbv zeta in IH. destruct IH as (A' & B' & C' & D' & E'). rewrite <- C, <- D.
  split; [exact A'|]. split; [unfold consts in *; intuition congruence|]. split; [exact C'|]. split; [exact D'|auto].
Qed.
(** One iterate() of such a session whose preference is not refused. *)
Lemma iterate_taken p r (s : drun) : located s -> (forall q, p = Some q -> answers (ea_type (d_ea s)) (ea_reqid (d_ea s)) q) ->
  iterate p r s =
  match snd (steers p s) with
  | Err e => (with_vs s (fst (steers p s)), Err e)
  | Ok _ => let c := d_c s in
      match dec_gens gen (Z.to_nat (d_gpi s)) (with_c (with_vs s (fst (steers p s))) (mkCounts (c_it c) (c_gen c) 0 (c_fe c) (c_clock c))) with
      | (s3, Err e) => (s3, Err e)
      | (s3, Ok _) => let c := d_c s3 in dec_requests r (with_c s3 (mkCounts (c_it c + 1) (c_gen c) (c_gin c) (c_fe c) (c_clock c)))
      end
  end.
Proof.
  intros Hs Ha. unfold dec_iterate. rewrite (manage_taken p s Hs Ha). destruct (snd (steers p s)) as [u|e]; [|reflexivity]. rewrite pre_selection by (destruct Hs; split; auto). reflexivity.
Qed.
End P.
