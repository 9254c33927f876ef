(** Proofs about whole runs, continued: counters, the archive and sizes. *)
From Verif Require Import Base M_Population Spec_Population P_Population M_Archive P_Archive M_Run Spec_Run P_Run.
Open Scope nat_scope.

Section P.
Context {I O F C U : Type} (dom : F -> F -> bool) (w : world I O F C U) (c : cfg).
Notation pop := (pop I O F C U).
Notation st := (st I O F C U).
Notation results := (results O F C U).
Notation op := (op I O F C U).
Notation member := (member I O F C U).

(** *** Counters *)
Open Scope Z_scope.
Lemma real_evals_app l1 l2 : real_evals (l1 ++ l2 : list (bool * list I * results)) = real_evals l1 + real_evals l2.
Proof. unfold real_evals. induction l1 as [|e l1 IH]; cbn [app map fold_right]; [reflexivity|]. rewrite IH. lia. Qed.
Lemma real_evals_one b rows (r : results) : real_evals [(b, rows, r) : bool * list I * results] = if b then 0 else Z.of_nat (length rows).
Proof. unfold real_evals. cbn [map fold_right fst snd]. lia. Qed.
Lemma real_evals_nonneg l : 0 <= real_evals (l : list (bool * list I * results)).
Proof. unfold real_evals. induction l as [|e l IH]; cbn [map fold_right]; [lia|]. destruct (fst (fst e)); lia. Qed.

(** The counters and the log of a state. *)
Notation log_t := (list (bool * list I * results)).
Record counts := mkCounts { n_fe : Z; n_log : log_t; n_gen : Z; n_gi : Z; n_it : Z }.
Definition counts_of (s : st) : counts := mkCounts (s_fe s) (s_log s) (s_gen s) (s_gen_in_iter s) (s_iter s).
Definition quiet {A} (m : st -> st * res A) : Prop := forall s, counts_of (fst (m s)) = counts_of s.
Definition ct {A} (P : counts -> Prop) (m : st -> st * res A) (Q : A -> counts -> Prop) (E : counts -> Prop) : Prop :=
  triple (fun s => P (counts_of s)) m (fun a s => Q a (counts_of s)) (fun s => E (counts_of s)).
Lemma ct_quiet {A} (m : st -> st * res A) (P E : counts -> Prop) : quiet m -> (forall n, P n -> E n) -> ct P m (fun _ => P) E.
Proof. intros Hq HE s Hs. specialize (Hq s). destruct (m s) as [s' [a|e]]; cbn [fst] in Hq; rewrite Hq; auto. Qed.
Lemma q_ask {A} (f : nat -> pop -> res A) : quiet (ask f).
Proof. intros s. reflexivity. Qed.
Lemma q_keep zs : quiet (do_keep zs : st -> _).
Proof. intros s. unfold do_keep. destruct (keep (s_pop s) zs). reflexivity. Qed.
Lemma q_delete zs : quiet (do_delete zs : st -> _).
Proof. intros s. unfold do_delete. destruct (delete (s_pop s) zs). reflexivity. Qed.
Lemma q_reeval g : quiet (do_reeval g : st -> _).
Proof. intros s. unfold do_reeval. destruct (reevaluate (s_pop s) g). reflexivity. Qed.
Lemma q_replace zs i r : quiet (do_replace zs i r : st -> _).
Proof. intros s. unfold do_replace. destruct (first_row r); [destruct (replace (s_pop s) zs i r0)|]; reflexivity. Qed.
Lemma q_archive rows r : quiet (do_archive dom rows r : st -> _).
Proof. intros s. unfold do_archive. destruct (s_nd s); reflexivity. Qed.
Lemma q_andthen {A B} (m : st -> st * res A) (f : A -> st -> st * res B) : quiet m -> (forall a, quiet (f a)) -> quiet (andthen m f).
Proof. intros H1 H2 s. unfold andthen. specialize (H1 s). destruct (m s) as [s' [a|e]]; cbn [fst] in *; auto. rewrite H2. auto. Qed.
Lemma q_skip : quiet (upd (fun s => s) : st -> _).
Proof. intros s. reflexivity. Qed.
Lemma q_env fuel n : quiet (env_sel w fuel n).
Proof.
  induction fuel as [|f IH]; intros s; cbn [env_sel]; destruct (rows_count s) as [k|]; auto; destruct (Nat.ltb n k); auto.
  revert s. apply q_andthen; [apply q_ask|]. intros z. apply q_andthen; [apply q_delete|]. intros ?. exact IH.
Qed.

Definition more_log (n : counts) (e : bool * list I * results) : counts := mkCounts (n_fe n) (n_log n ++ [e]) (n_gen n) (n_gi n) (n_it n).
Lemma ct_add (P E : counts -> Prop) (b : bool) (o : offs I) (rows : list I) :
  (forall n, P n -> E n) -> (forall n r, P n -> E (more_log n (b, rows, r))) -> ct P (do_add w b o rows) (fun _ n' => exists n r, P n /\ n' = more_log n (b, rows, r)) E.
Proof.
  intros HP HE s Hs. unfold do_add. destruct (w_fails w (s_clock s) b rows); [apply (HP _ Hs)|]. unfold take_results. destruct (add (s_pop s) o (w_eval w (s_clock s) b rows)) as [p out].
  assert (Ec : forall r, counts_of (set_pop (logged (tick s) (b, rows, r)) p (OpAdd o r)) = more_log (counts_of s) (b, rows, r)) by (intros r; reflexivity).
  destruct out; rewrite Ec; eauto.
Qed.
Lemma ct_and {A B} (P : counts -> Prop) (m : st -> st * res A) (R : A -> counts -> Prop) (f : A -> st -> st * res B) (Q : B -> counts -> Prop) E : ct P m R E -> (forall a, ct (R a) (f a) Q E) -> ct P (andthen m f) Q E.
Proof. intros H1 H2. eapply t_andthen; [exact H1|]. intros a. apply H2. Qed.
Lemma ct_upd (P : counts -> Prop) (f : st -> st) (Q : unit -> counts -> Prop) E : (forall s : st, P (counts_of s) -> Q tt (counts_of (f s))) -> ct P (upd f) Q E.
Proof. intros H. apply t_upd. exact H. Qed.
Lemma ct_weaken {A} (P P' : counts -> Prop) (m : st -> st * res A) (Q Q' : A -> counts -> Prop) (E E' : counts -> Prop) :
  ct P m Q E -> (forall n, P' n -> P n) -> (forall a n, Q a n -> Q' a n) -> (forall n, E n -> E' n) -> ct P' m Q' E'.
Proof. intros H HP HQ HE. eapply t_weaken; [exact H| | | ]; cbv beta; auto. Qed.

(** During a generation that began at [a]: nothing is counted that was not evaluated. *)
Definition within (a n : counts) : Prop := exists lg, n_log n = n_log a ++ lg /\ one_generation c lg /\
  n_it n = n_it a /\ 0 <= n_fe n - n_fe a <= real_evals lg /\ n_gen n - n_gen a = n_gi n - n_gi a /\ n_gen a <= n_gen n <= n_gen a + 1.
(** ... and at the end of it, everything evaluated has been counted. *)
Definition one_gen (a n : counts) : Prop := exists lg, n_log n = n_log a ++ lg /\ one_generation c lg /\
  n_it n = n_it a /\ n_fe n - n_fe a = real_evals lg /\ n_gen n = n_gen a + 1 /\ n_gi n = n_gi a + 1.
(** In between: [lg] logged, of which [fe] are counted. *)
Definition mid (a n : counts) (fe : Z) (lg : log_t) (g : Z) : Prop := n = mkCounts (n_fe a + fe) (n_log a ++ lg) (n_gen a + g) (n_gi a + g) (n_it a).

Lemma mid_within a n fe lg g : 0 <= fe <= real_evals lg -> one_generation c lg -> 0 <= g <= 1 -> mid a n fe lg g -> within a n.
Proof. intros H1 H2 H4 ->. exists lg. cbn [n_fe n_log n_gen n_gi n_it]. split; auto. split; auto. lia. Qed.
Lemma ct_q {A} (m : st -> st * res A) a fe lg g : quiet m -> 0 <= fe <= real_evals lg -> one_generation c lg -> 0 <= g <= 1 -> ct (fun n => mid a n fe lg g) m (fun _ n => mid a n fe lg g) (within a).
Proof. intros Hq H1 H3 H4. apply ct_quiet; auto. intros n. apply mid_within; auto. Qed.
Lemma ct_add_mid {A} a fe lg g (b : bool) (o : offs I) (rows : list I) (f : results -> st -> st * res A) (Q : A -> counts -> Prop) :
  0 <= fe <= real_evals lg -> (forall r, one_generation c (lg ++ [(b, rows, r)])) -> 0 <= g <= 1 -> one_generation c lg ->
  (forall r r', ct (fun n => mid a n fe (lg ++ [(b, rows, r')]) g) (f r) Q (within a)) ->
  ct (fun n => mid a n fe lg g) (andthen (do_add w b o rows) f) Q (within a).
Proof.
  intros H1 H3 H4 H5 Hf.
  assert (T : forall n r, mid a n fe lg g -> mid a (more_log n (b, rows, r)) fe (lg ++ [(b, rows, r)]) g).
  { intros n r ->. unfold mid, more_log. cbn [n_fe n_log n_gen n_gi n_it]. now rewrite app_assoc. }
  eapply ct_and; [apply ct_add with (P := fun n => mid a n fe lg g) (E := within a)|].
  - intros n Hn. eapply mid_within; [exact H1|exact H5|exact H4|exact Hn].
  - intros n r Hn. eapply mid_within with (fe := fe) (lg := lg ++ [(b, rows, r)]) (g := g); [|auto|lia|apply T; exact Hn].
    rewrite real_evals_app, real_evals_one. destruct b; lia.
  - intros r s (n & r' & Hn & Es). apply (Hf r r' s). rewrite Es. apply T. exact Hn.
Qed.
Lemma mid_0 a : mid a a 0 [] 0.
Proof. destruct a. unfold mid. cbn [n_fe n_log n_gen n_gi n_it]. rewrite app_nil_r. f_equal; lia. Qed.
Lemma one_gen_nil : one_generation c ([] : log_t).
Proof. unfold one_generation. split; [intros ? []|]. destruct (c_kind c); cbn [length]; try lia. split; [lia|intros ? []]. Qed.
Lemma one_gen_single (e : bool * list I * results) : (match c_kind c with KMoead _ _ => False | _ => True end) -> fst (fst e) = by_surrogate c -> one_generation c ([e] : log_t).
Proof. intros H1 H2. unfold one_generation. split; [intros x [<-|[]]; exact H2|]. destruct (c_kind c); cbn [length]; try lia; contradiction. Qed.
Hint Resolve one_gen_nil one_gen_single : core.

Ltac cts := unfold counts_of in *; cbn [bump_gen add_fe s_fe s_log s_gen s_gen_in_iter s_iter n_fe n_log n_gen n_gi n_it] in *.
Ltac quick := apply ct_q; [auto using q_ask, q_keep, q_delete, q_replace, q_archive, q_skip, q_env|first [assumption | lia | (cbn; lia)]|auto|lia].

Lemma ct_dec a : c_kind c = KDecomposition -> ct (fun n => n = a) (dec_gen dom w c) (fun _ => one_gen a) (within a).
Proof.
  intros Hk. assert (Hs1 : match c_kind c with KMoead _ _ => False | _ => True end) by (rewrite Hk; auto). assert (Hs2 : c_surrogates c = by_surrogate c) by (unfold by_surrogate; rewrite Hk; auto).
  eapply ct_weaken with (P := fun n => mid a n 0 [] 0) (Q := fun _ => one_gen a) (E := within a); [|intros n ->; apply mid_0|auto|auto].
  unfold dec_gen. eapply ct_and; [quick|]. intros off. apply ct_add_mid; [cbn; lia|intros r; apply one_gen_single; auto|lia|auto|]. intros r r'. cbn [app].
  assert (H0 : 0 <= 0 <= real_evals [(c_surrogates c, off, r')]) by (rewrite real_evals_one; destruct (c_surrogates c); lia).
  eapply ct_and with (R := fun _ n => mid a n 0 [(c_surrogates c, off, r')] 0); [destruct (c_save_nd c); quick|]. intros ?.
  eapply ct_and; [quick|]. intros sel. eapply ct_and; [quick|]. intros ?.
  apply ct_upd. intros s Hs. unfold mid in Hs. unfold counts_of in Hs. injection Hs as E1 E2 E3 E4 E5.
  exists [(c_surrogates c, off, r')]. rewrite real_evals_one. destruct (c_surrogates c); cts; (split; [auto|]); (split; [auto|]); lia.
Qed.
Lemma real_evals_singles lg : (forall e : bool * list I * results, In e lg -> fst (fst e) = c_surrogates c /\ length (snd (fst e)) = 1%nat) ->
  real_evals lg = if c_surrogates c then 0 else Z.of_nat (length lg).
Proof.
  induction lg as [|[[b rows] r] lg IH]; intros H; [destruct (c_surrogates c); reflexivity|]. change ((b, rows, r) :: lg) with ([(b, rows, r)] ++ lg).
  rewrite real_evals_app, real_evals_one, IH by (intros e He; apply H; right; auto). destruct (H (b, rows, r) (or_introl eq_refl)) as [E1 E2]. cbn [fst snd] in E1, E2. rewrite E1, E2.
  rewrite app_length. cbn [length]. destruct (c_surrogates c); lia.
Qed.
Definition singles (lg : log_t) : Prop := forall e, In e lg -> fst (fst e) = c_surrogates c /\ length (snd (fst e)) = 1%nat.
Definition at_sub (a n : counts) (j : nat) : Prop := exists lg, singles lg /\ length lg = j /\ mid a n (real_evals lg) lg 0.
Lemma singles_one m ur lg : c_kind c = KMoead m ur -> singles lg -> (length lg <= m)%nat -> one_generation c lg.
Proof. intros Hk H1 H2. unfold one_generation, by_surrogate. rewrite Hk. split; [intros e He; apply H1; auto|]. split; auto. intros e He. apply H1; auto. Qed.
Lemma ct_sub a m ur ur' i j : c_kind c = KMoead m ur' -> (S j <= m)%nat ->
  ct (fun n => at_sub a n j) (moead_sub dom w c ur i) (fun _ n => at_sub a n (S j)) (within a).
Proof.
  intros Hk Hj.
  assert (T : forall lg, singles lg -> length lg = j -> ct (fun n => mid a n (real_evals lg) lg 0) (moead_sub dom w c ur i) (fun _ n => at_sub a n (S j)) (within a)).
  2: { intros s (lg & H1 & H2 & H3). exact (T lg H1 H2 s H3). }
  intros lg Hs Hl. assert (Hg : one_generation c lg) by (apply singles_one with (m := m) (ur := ur'); auto; lia). pose proof (real_evals_nonneg lg).
  unfold moead_sub. eapply ct_and; [quick|]. intros par. eapply ct_and; [quick|]. intros [|o offs].
  { intros s Hs'. eapply mid_within; [| | |exact Hs']; auto; lia. }
  cbv zeta. set (off := if ur then w_repair w o else o).
  assert (Hg' : forall r, singles (lg ++ [(c_surrogates c, [off], r)])).
  { intros r e He. apply in_app_or in He. destruct He as [He|[<-|[]]]; auto. }
  assert (Hg1 : forall r, one_generation c (lg ++ [(c_surrogates c, [off], r)])).
  { intros r. apply singles_one with (m := m) (ur := ur'); auto. rewrite app_length. cbn [length]. lia. }
  apply ct_add_mid; [lia|auto|lia|auto|]. intros r r'. set (lg' := lg ++ [(c_surrogates c, [off], r')]).
  assert (H0 : real_evals lg' = real_evals lg + if c_surrogates c then 0 else 1) by (unfold lg'; rewrite real_evals_app, real_evals_one; cbn [length]; reflexivity).
  specialize (Hg1 r'). specialize (Hg' r'). fold lg' in Hg1, Hg'.
  eapply ct_and with (R := fun _ n => mid a n (real_evals lg') lg' 0).
  { apply ct_upd. intros s Hss. unfold mid in *. rewrite H0. unfold counts_of in Hss. injection Hss as E1 E2 E3 E4 E5. destruct (c_surrogates c); cts; f_equal; auto; lia. }
  assert (0 <= real_evals lg' <= real_evals lg') by (pose proof (real_evals_nonneg lg'); lia).
  intros ?. eapply ct_and; [quick|]. intros sel. eapply ct_and; [quick|]. intros ?. eapply ct_and; [quick|]. intros ?.
  eapply ct_weaken with (P := fun n => mid a n (real_evals lg') lg' 0) (Q := fun _ n => mid a n (real_evals lg') lg' 0) (E := within a); [destruct (c_save_nd c); quick|auto| |auto].
  intros _ n Hn. exists lg'. split; [exact Hg'|]. split; [|exact Hn]. unfold lg'. rewrite app_length. cbn [length]. lia.
Qed.
Lemma ct_subs a m ur ur' is : c_kind c = KMoead m ur' -> forall j, (j + length is <= m)%nat ->
  ct (fun n => at_sub a n j) (moead_subs dom w c ur is) (fun _ n => at_sub a n (j + length is)) (within a).
Proof.
  intros Hk. induction is as [|i is IH]; intros j HK; cbn [moead_subs length].
  - rewrite Nat.add_0_r. apply ct_upd. auto.
  - cbn [length] in HK. eapply ct_and; [apply ct_sub with (m := m) (ur' := ur'); auto; lia|]. intros ?. replace (j + S (length is))%nat with (S j + length is)%nat by lia. apply IH. lia.
Qed.
Lemma ct_next a : ct (fun n => n = a) (next_gen dom w c) (fun _ => one_gen a) (within a).
Proof.
  unfold next_gen. destruct (c_kind c) as [|m ur|m| |ki] eqn:Ek; [apply ct_dec; auto| | | | ].
  - unfold moead_gen. pose proof (ct_subs a m ur ur (seq 0 m) Ek 0) as T. rewrite seq_length in T. cbn [Nat.add] in T.
    eapply ct_weaken with (P := fun n => at_sub a n 0) (Q := fun _ => one_gen a) (E := within a); [| |auto|auto].
    2: { intros n ->. exists []. split; [intros ? []|]. split; auto. apply mid_0. }
    eapply ct_and; [apply T; lia|]. intros ?. apply ct_upd. intros s (lg & H1 & H2 & H3). unfold mid in H3. unfold counts_of in H3. injection H3 as E1 E2 E3 E4 E5.
    exists lg. cts. split; [auto|]. split; [apply singles_one with (m := m) (ur := ur); auto; lia|]. lia.
  - assert (Hs1 : match c_kind c with KMoead _ _ => False | _ => True end) by (rewrite Ek; auto). assert (Hs2 : false = by_surrogate c) by (unfold by_surrogate; rewrite Ek; auto).
    eapply ct_weaken with (P := fun n => mid a n 0 [] 0) (Q := fun _ => one_gen a) (E := within a); [|intros n ->; apply mid_0|auto|auto].
    intros s Hs. unfold ind_gen. revert Hs. generalize (match rows_count s with Some m => m | None => 0%nat end). intros fuel. revert s.
    refine (_ : ct (fun n => mid a n 0 [] 0) (andthen (env_sel w fuel m) (fun _ => _)) (fun _ => one_gen a) (within a)).
    eapply ct_and with (R := fun _ n => mid a n 0 [] 0); [quick|]. intros ?. eapply ct_and; [quick|]. intros ch. eapply ct_and; [quick|]. intros off.
    apply ct_add_mid; [cbn; lia|intros r; apply one_gen_single; auto|lia|auto|]. intros r r'. cbn [app].
    apply ct_upd. intros s Hs. unfold mid in Hs. unfold counts_of in Hs. injection Hs as E1 E2 E3 E4 E5. exists [(false, off, r')]. rewrite real_evals_one. cts. split; [auto|]. split; [auto|]. lia.
  - assert (Hs1 : match c_kind c with KMoead _ _ => False | _ => True end) by (rewrite Ek; auto). assert (Hs2 : false = by_surrogate c) by (unfold by_surrogate; rewrite Ek; auto).
    eapply ct_weaken with (P := fun n => mid a n 0 [] 0) (Q := fun _ => one_gen a) (E := within a); [|intros n ->; apply mid_0|auto|auto].
    unfold tour_gen. eapply ct_and; [quick|]. intros sel. eapply ct_and; [quick|]. intros off. eapply ct_and with (R := fun _ n => mid a n 0 [] 0).
    { apply ct_q; auto; [|cbn; lia|lia]. intros s. destruct (rows_count s); [apply q_delete|reflexivity]. }
    intros ?. apply ct_add_mid; [cbn; lia|intros r; apply one_gen_single; auto|lia|auto|]. intros r r'. cbn [app].
    apply ct_upd. intros s Hs. unfold mid in Hs. unfold counts_of in Hs. injection Hs as E1 E2 E3 E4 E5. exists [(false, off, r')]. rewrite real_evals_one. cts. split; [auto|]. split; [auto|]. lia.
  - assert (Hs1 : match c_kind c with KMoead _ _ => False | _ => True end) by (rewrite Ek; auto). assert (Hs2 : false = by_surrogate c) by (unfold by_surrogate; rewrite Ek; auto).
    eapply ct_weaken with (P := fun n => mid a n 0 [] 0) (Q := fun _ => one_gen a) (E := within a); [|intros n ->; apply mid_0|auto|auto].
    unfold ppga_gen. eapply ct_and; [quick|]. intros prs. eapply ct_and; [quick|]. intros off. eapply ct_and; [quick|]. intros placed. cbv zeta. set (kept := pick_rows placed off).
    apply ct_add_mid; [cbn; lia|intros r; apply one_gen_single; auto|lia|auto|]. intros r r'. cbn [app]. set (lg := [(false, kept, r')]).
    assert (Hl : real_evals lg = Z.of_nat (length kept)) by (unfold lg; rewrite real_evals_one; reflexivity).
    assert (one_generation c lg) by (unfold lg; apply one_gen_single; auto).
    eapply ct_and with (R := fun _ n => mid a n (Z.of_nat (length kept)) lg 1).
    { apply ct_upd. intros s Hs. unfold mid in *. unfold counts_of in Hs. injection Hs as E1 E2 E3 E4 E5. cts. f_equal; auto; lia. }
    intros ?. eapply ct_and with (R := fun _ n => mid a n (Z.of_nat (length kept)) lg 1).
    { apply ct_q; auto; [|lia|lia]. intros s. destruct (Nat.eqb ki 0); [reflexivity|]. destruct (Z.eqb _ 0); [|reflexivity]. revert s. apply q_andthen; [apply q_ask|]. intros z. apply q_delete. }
    intros ?. eapply ct_and; [quick|]. intros dead.
    eapply ct_weaken with (P := fun n => mid a n (Z.of_nat (length kept)) lg 1) (Q := fun _ n => mid a n (Z.of_nat (length kept)) lg 1) (E := within a); [quick|auto| |auto].
    intros _ n ->. exists lg. cts. split; [auto|]. split; [auto|]. lia.
Qed.

(** The loop of iterate(), begun at [a]. *)
Definition in_budget (a n : counts) : Prop := c_total_fe c <> 0 -> n_log n = n_log a \/
  exists l1 l2, n_log n = n_log a ++ l1 ++ l2 /\ n_fe a + real_evals l1 <= c_total_fe c /\ one_generation c l2.
Definition flagged (lg : log_t) : Prop := forall e, In e lg -> fst (fst e) = by_surrogate c.
Definition loop_inv (a n : counts) : Prop := exists lg, n_log n = n_log a ++ lg /\ flagged lg /\
  n_it n = n_it a /\ n_fe n - n_fe a = real_evals lg /\ n_gen n - n_gen a = n_gi n /\ 0 <= n_gi n <= Z.max 0 (c_n_gen_per_iter c) /\ in_budget a n.
Definition loop_err (a n : counts) : Prop := exists l1 l2, n_log n = n_log a ++ l1 ++ l2 /\ flagged l1 /\ one_generation c l2 /\
  n_it n = n_it a /\ 0 <= n_fe n - n_fe a - real_evals l1 <= real_evals l2 /\ 0 <= n_gen n - n_gen a <= Z.max 0 (c_n_gen_per_iter c) /\ in_budget a n.
Definition loop_done (a n : counts) : Prop :=
  loop_inv a n /\ (n_gi n = Z.max 0 (c_n_gen_per_iter c) \/ (c_total_fe c <> 0 /\ c_total_fe c < n_fe n)).

Lemma ct_loop a fuel : forall n0, loop_inv a n0 -> (Z.to_nat (c_n_gen_per_iter c - n_gi n0) < fuel)%nat ->
  ct (fun n => n = n0) (gen_loop dom w c fuel) (fun _ => loop_done a) (loop_err a).
Proof.
  induction fuel as [|f IH]; intros n0 Hn Hf; [lia|].
  intros s Hs. cbn [gen_loop]. assert (Hgi : s_gen_in_iter s = n_gi n0) by (rewrite <- Hs; reflexivity). assert (Hfe : s_fe s = n_fe n0) by (rewrite <- Hs; reflexivity).
  unfold continue_iteration, check_FE. rewrite Hgi, Hfe.
  destruct (n_gi n0 <? c_n_gen_per_iter c) eqn:E1; cbn [andb].
  2: { rewrite Hs. split; auto. left. destruct Hn as (_ & _ & _ & _ & _ & _ & Hb & _). apply Z.ltb_ge in E1. lia. }
  apply Z.ltb_lt in E1. destruct (if c_total_fe c =? 0 then true else n_fe n0 <=? c_total_fe c) eqn:E2.
  2: { rewrite Hs. split; auto. right. destruct (c_total_fe c =? 0) eqn:E3; [discriminate|]. apply Z.eqb_neq in E3. apply Z.leb_gt in E2. auto. }
  assert (Hb : c_total_fe c <> 0 -> n_fe n0 <= c_total_fe c).
  { intros H. destruct (c_total_fe c =? 0) eqn:E3; [apply Z.eqb_eq in E3; lia|]. apply Z.leb_le in E2. auto. }
  revert s Hs Hgi Hfe. assert (T : ct (fun n => n = n0) (andthen (next_gen dom w c) (fun _ => gen_loop dom w c f)) (fun _ => loop_done a) (loop_err a)); [|intros s Hs _ _; exact (T s Hs)].
  destruct Hn as (l0 & N0 & Nf & N1 & N3 & N4 & N5 & N6).
  assert (Bud : forall n lg, n_log n = n_log n0 ++ lg -> one_generation c lg -> in_budget a n).
  { intros n lg W0 Wg Ht. right. exists l0, lg. rewrite W0, N0, app_assoc. split; auto. split; auto. rewrite <- N3. specialize (Hb Ht). lia. }
  eapply ct_and with (R := fun _ => one_gen n0).
  - eapply ct_weaken with (P := fun n => n = n0) (Q := fun _ => one_gen n0) (E := within n0); [apply ct_next|auto|auto|].
    intros n (lg & W0 & Wg & W1 & W2 & W4 & W5). exists l0, lg. rewrite W0, N0, app_assoc. split; auto. split; auto. split; auto. split; [lia|]. split; [lia|]. split; [lia|]. eapply Bud; eauto.
  - intros x s Hs. apply (IH (counts_of s)); [|destruct Hs as (lg & W0 & Wg & W1 & W2 & W4 & W5); lia|reflexivity].
    destruct Hs as (lg & W0 & Wg & W1 & W2 & W4 & W5). exists (l0 ++ lg). rewrite W0, N0, real_evals_app, app_assoc. split; auto. split; [intros e He; apply in_app_or in He; destruct He; [auto|apply Wg; auto]|]. split; [lia|]. split; [lia|]. split; [lia|]. split; [lia|]. eapply Bud; eauto.
Qed.
Lemma iterate_counts s : match iterate dom w c s with
  | (s', Ok _) => loop_done (counts_of s) (mkCounts (s_fe s') (s_log s') (s_gen s') (s_gen_in_iter s') (s_iter s' - 1))
  | (s', Err _) => loop_err (counts_of s) (counts_of s')
  end.
Proof.
  set (a := counts_of s). pose (a0 := mkCounts (n_fe a) (n_log a) (n_gen a) 0 (n_it a)).
  assert (Ba : forall n, n_log n = n_log a -> in_budget a n) by (intros n Hn Ht; left; exact Hn).
  assert (La : forall n, n = a -> loop_err a n).
  { intros n ->. exists [], []. cbn [app]. rewrite app_nil_r. split; auto. split; [intros ? []|]. split; auto. split; auto. change (real_evals ([] : log_t)) with 0. split; [lia|]. split; [lia|auto]. }
  assert (La0 : loop_inv a a0).
  { exists []. rewrite app_nil_r. split; auto. split; [intros ? []|]. split; auto. split; [cbn; lia|]. split; [cbn; lia|]. split; [cbn; lia|]. apply Ba. reflexivity. }
  assert (T : ct (fun n => n = a) (iterate dom w c) (fun _ n => loop_done a (mkCounts (n_fe n) (n_log n) (n_gen n) (n_gi n) (n_it n - 1))) (loop_err a)).
  { unfold iterate. eapply ct_and; [apply ct_quiet; [apply q_ask|auto]|]. intros g.
    eapply ct_and; [apply ct_quiet; [destruct g; [apply q_reeval|apply q_skip]|auto]|]. intros ?.
    eapply ct_and with (R := fun _ n => n = a); [apply ct_upd; intros s0 Hs0; rewrite <- Hs0; destruct (c_keep_archive c); reflexivity|]. intros ?.
    eapply ct_and; [apply ct_quiet; [apply q_ask|auto]|]. intros ?.
    eapply ct_and with (R := fun _ n => n = a0); [apply ct_upd; intros s0 Hs0; unfold a0; rewrite <- Hs0; reflexivity|]. intros ?.
    eapply ct_and; [apply ct_loop; [exact La0|unfold a0; cbn [n_gi]; rewrite Z.sub_0_r; lia]|]. intros ?.
    apply ct_upd. intros s0 Hs0. unfold counts_of at 1 2 3 4 5. cbn [bump_iter s_fe s_log s_gen s_gen_in_iter s_iter n_fe n_log n_gen n_gi n_it].
    replace (s_iter s0 + 1 - 1) with (s_iter s0) by lia. exact Hs0. }
  specialize (T s eq_refl). destruct (iterate dom w c s) as [s' [x|e]]; exact T.
Qed.
End P.
