(** C110: runs go on. With the selection operators of the code behind [w_select], no iterate() of a properly started run raises, however many there are, and the population keeps its size bounds. *)
From Verif Require Import Base RVec M_Population Spec_Population P_Population M_Archive P_Archive M_Run Spec_Run P_Run P_Run2 P_Run3 Spec_RunSel P_RunSel.
From Verif Require Import M_NSGA3 P_NSGA3 Properties_NSGA3 Spec_APD M_APD Properties_APD M_MOEAD Spec_Indicator M_Indicator Properties_Indicator Spec_Fronts.
From Coq Require Import Reals QArith Lra.
Open Scope nat_scope.

(** Positions as the array of indices [do] returns. *)
Definition positions {S : Type} (x : res (S * list nat)) : res (list Z) := match x with Ok (_, sel) => Ok (map Z.of_nat sel) | Err e => Err e end.
Definition positions1 (x : res (list nat)) : res (list Z) := match x with Ok sel => Ok (map Z.of_nat sel) | Err e => Err e end.

Section Ops.
Context {I O C U : Type}.
(** Every answer of [w_select] is the one of NSGAIII_select.do with n_survive = [n] on the fitness of the given population, in some internal state and with some random numbers. *)
Definition by_nsga3 (n : nat) (w : world I O (list R) C U) : Prop := forall k p fit, p_fit p = Some fit ->
  exists fnds solve rng dirs s, fnds_contract fnds /\ shuffles rng /\ dirs <> [] /\ n3 s = Some n /\ w_select w k p 0 = positions (nsga3_do fnds solve rng dirs s fit).
(** Likewise APD_Select.do with [N] reference vectors (unit length, no negative entries) of [m] objectives. *)
Definition by_apd (m N : nat) (w : world I O (list R) (list R) U) : Prop := forall k p fit, p_fit p = Some fit ->
  exists penalty ideal pop_ideal vecs gam, length ideal = m /\ length pop_ideal = m /\ length vecs = N /\ vecs <> [] /\
    (forall v, In v vecs -> length v = m /\ norm v = 1%R /\ forall x, In x v -> (0 <= x)%R) /\ length gam = length vecs /\
    w_select w k p 0 = positions (apd_select penalty ideal pop_ideal fit (p_con p) vecs gam).
(** MOEAD_select.do and choose_parents, with [n] neighbourhoods among [N] rows and vectors, each of at least two rows. *)
Definition by_moead (n N : nat) (w : world I O (list Q) C U) : Prop := exists vectors nbs,
  length vectors = N /\ length nbs = n /\ (forall nb, In nb nbs -> 2 <= length nb /\ forall j, In j nb -> j < N) /\
  (forall k p fit i, p_fit p = Some fit -> exists SF ideal, w_select w k p i = positions1 (moead_do (fun f => f) SF vectors nbs ideal fit i)) /\
  (forall k i, exists pick, (forall len, 2 <= len -> fst (pick len) < len /\ snd (pick len) < len) /\
     w_parents w k i = positions1 (match choose_parents pick nbs i with Ok (a, b) => Ok [a; b] | Err e => Err e end)).
(** TournamentSelection.do with tournaments of [t] rows, whenever there are more than [t] rows. *)
Definition by_tournament {F : Type} (t : nat) (w : world I O F C U) : Prop := forall k p l, p_ind p = Some l -> t < length l ->
  exists fitness draws, length fitness = length l /\ (forall j, valid_draw (length fitness - 1) t (draws j)) /\ w_select w k p 0 = positions1 (tournament_do t fitness draws).
End Ops.

Section T.
Context {I O F C U : Type} (dom : F -> F -> bool) (w : world I O F C U) (c : cfg) (nc : nat) (u : bool).
Lemma reached ops0 s0 ks is : honest nc u w -> constructed w c nc u ops0 s0 -> let s := session dom w c s0 ks in p_ind (s_pop s) = Some is -> (p_unc (s_pop s) <> None <-> u = true) ->
  exists ms, holds nc u (s_pop s) ms /\ map m_ind ms = is.
Proof.
  intros Hw Hc s Hi Hu. assert (J : inv w nc u ops0 s).
  { apply session_inv; auto. destruct Hc as [[-> (rows & ->)]|(-> & A & B & D)]; [apply inv_on_problem; auto|apply inv_on_population; auto]. }
  destruct J as (E & (G1 & G2 & G3 & _) & _).
  assert (R : rel nc (spec_run (s_ops s)) (s_pop s)).
  { rewrite E. apply (run_rel nc (s_ops s) (false, None) (fresh nc)); auto; [split; [reflexivity|split; [reflexivity|left; reflexivity]]|]. destruct u; [left; auto|right; split; auto]. }
  destruct R as (Hnc & R & _). destruct (snd (spec_run (s_ops s))) as [ms|] eqn:Es; [|cbn in R; congruence]. exists ms. split; [split; auto|]. destruct R as (R & _). congruence.
Qed.
End T.

Lemma select_nsga3 {I O C U : Type} (w : world I O (list R) C U) nc u n : by_nsga3 n w -> dec_select w nc u (fun _ => True) n n.
Proof.
  intros Hn. intros k' p ms' H1 _ H2 H3. destruct H1 as ((_ & _ & Rf & _) & _). destruct (Hn k' p _ Rf) as (fnds & solve & rng & dirs & s3 & A1 & A2 & A3 & A4 & A5).
    destruct (C33_exact_count fnds solve rng dirs s3 (map m_fit ms') n A1 A2 A3) as (s3' & sel & E & L & ND & B & _); [intros X; apply map_eq_nil in X; auto|auto|rewrite map_length; auto|].
    rewrite map_length in B. rewrite A5, E. cbn [positions]. eexists. split; [reflexivity|]. split; [apply in_range_nats; auto|]. unfold spec_keep. rewrite length_select_nats; auto. lia.
Qed.
(** C110. NSGA-III: once the population has at least n_survive rows (and, if an archive is kept, start() was called), any number of iterate() calls succeeds; after the first generation the population
    has exactly n_survive rows, for ever. *)
Theorem C110_nsga3_runs_on : forall (I O C U : Type) (dom : list R -> list R -> bool) (w : world I O (list R) C U) (c : cfg) nc u ops0 s0 ks is n,
  honest nc u w -> smooth w -> by_nsga3 n w -> c_kind c = KDecomposition -> constructed w c nc u ops0 s0 ->
  let s := session dom w c s0 ks in p_ind (s_pop s) = Some is -> (p_unc (s_pop s) <> None <-> u = true) -> (c_save_nd c = true -> s_nd s <> None) -> 0 < n <= length is ->
  forall k, exists s' is', ran dom w c k s s' /\ p_ind (s_pop s') = Some is' /\ n <= length is' /\ (s_gen s <= s_gen s')%Z /\
    ((s_gen s < s_gen s')%Z -> length is' = n) /\ (s_gen s' = s_gen s -> is' = is).
Proof.
  intros I O C U dom w c nc u ops0 s0 ks is n Hw Hs Hn Hk Hc s Hi Hu Hd Hl k. destruct (reached dom w c nc u ops0 s0 ks is Hw Hc Hi Hu) as (ms & HH & Hms). fold s in HH.
  destruct (runs_on dom w c nc u (fun _ => True) (proj1 Hs)) with (X := fun q => q = s -> True) (A := fun x => n <= x) (B := fun x => n <= x <= n) (g0 := s_gen s) (is0 := is) (k := k) (s := s) as (s' & R1 & R2); try exact (proj2 Hs).
  { split; auto. }
  { intros x. lia. }
  { intros ms' Hms'. unfold next_gen. rewrite Hk. apply T_dec; auto; [exact (proj1 Hs)|split; auto|apply select_nsga3; auto|lia]. }
  { exists ms. split; [split; [exact HH|split; [apply Forall_forall; auto|exact Hd]]|]. assert (length ms = length is) by (rewrite <- Hms, map_length; auto). split; [lia|]. split; [lia|]. split; [lia|auto]. }
  destruct R2 as (ms' & ((((Ri & _) & _) & _) & R3 & R4 & R5 & R6)). exists s', (map m_ind ms'). rewrite map_length. split; auto. split; auto. split; auto. split; auto. split; auto. intros Hg. specialize (R5 Hg). lia.
Qed.
Print Assumptions C110_nsga3_runs_on.

Lemma select_rvea {I O U : Type} (w : world I O (list R) (list R) U) nc u m N : by_apd m N w -> dec_select w nc u (fun f => length f = m) 1 N.
Proof.
  intros Hn. intros k' p ms' H1 Hok H2 H3. destruct H1 as (Rp & Hnc' & _). pose proof Rp as (_ & _ & Rf & Rc & _). destruct (Hn k' p _ Rf) as (pen & ideal & pid & vecs & gam & A1 & A2 & A3 & A4 & A5 & A6 & A7).
    assert (SI : selection_input m ideal pid (map m_fit ms') (p_con p) vecs gam).
    { constructor; auto.
      - split; [intros X; apply map_eq_nil in X; auto|]. intros f Hf'. apply in_map_iff in Hf'. destruct Hf' as (x & <- & Hx). rewrite Forall_forall in Hok. apply Hok. auto.
      - destruct (p_con p) as [cc|] eqn:Ec; auto. rewrite map_length. apply (f_equal (@length _)) in Rc. rewrite !map_length in Rc. cbn [rows_opt] in Rc. rewrite map_length in Rc. auto. }
    destruct (C29_selection_total m pen _ _ _ _ _ _ SI) as (z & sel & E). destruct (C29_one_per_niche m pen _ _ _ _ _ _ z sel SI E) as (ND & NE & B1 & B2).
    rewrite A7, E. cbn [positions]. eexists. split; [reflexivity|]. rewrite map_length in B1. assert (Bd : forall i, In i sel -> i < length ms') by (intros i Hi'; apply B1; auto).
    split; [apply in_range_nats; auto|]. unfold spec_keep. rewrite length_select_nats; auto. split; [destruct sel; [congruence|cbn; lia]|].
    rewrite <- A3. clear - B1 B2 ND. (* each selected position is the only selected one closest to its vector *)
    assert (INJ : exists g : nat -> nat, (forall i, In i sel -> g i < length vecs /\ closest z (map m_fit ms') vecs i (g i))).
    { assert (P : forall l : list nat, (forall i, In i l -> exists k, k < length vecs /\ closest z (map m_fit ms') vecs i k) -> exists g : nat -> nat, forall i, In i l -> g i < length vecs /\ closest z (map m_fit ms') vecs i (g i)).
      { induction l as [|a l IH]; intros H; [exists (fun x => x); intros ? []|]. destruct (IH ltac:(intros i Hi; apply H; right; auto)) as (g & Hg). destruct (H a ltac:(left; auto)) as (k & Hk).
        exists (fun i => if Nat.eqb i a then k else g i). intros i [<-|Hi]; [rewrite Nat.eqb_refl; auto|]. destruct (Nat.eqb_spec i a) as [->|]; auto. }
      apply P. intros i Hi. apply B1. auto. }
    destruct INJ as (g & Hg). rewrite <- (map_length g sel), <- (seq_length (length vecs) 0). apply NoDup_incl_length.
    - assert (J : forall a b, In a sel -> In b sel -> g a = g b -> a = b).
      { intros a b Ha Hb Eg. destruct (Hg a Ha) as [_ Ca]. destruct (Hg b Hb) as [_ Cb]. rewrite <- Eg in Cb. destruct (B2 (g a)) as (x & _ & Ux); [eauto|]. rewrite <- (Ux a) by auto. apply Ux. auto. }
      clear - J ND. induction sel as [|a l IH]; cbn [map]; [constructor|]. inversion ND as [|? ? N1 N2]; subst. constructor.
      + intros X. apply in_map_iff in X. destruct X as (b & Eb & Hb). apply N1. rewrite (J a b); auto; [left; auto|right; auto].
      + apply IH; auto. intros x y Hx Hy. apply J; right; auto.
    - intros x Hx. apply in_map_iff in Hx. destruct Hx as (i & <- & Hi). apply in_seq. destruct (Hg i Hi). lia.
Qed.
(** C110. RVEA with [N] reference vectors: likewise; the population never becomes empty, and from the first generation on has at most [N] rows. *)
Theorem C110_rvea_runs_on : forall (I O U : Type) (dom : list R -> list R -> bool) (w : world I O (list R) (list R) U) (c : cfg) nc u ops0 s0 ks is fs m N,
  honest nc u w -> smooth w -> by_apd m N w -> fitness_ok (fun f => length f = m) w -> c_kind c = KDecomposition -> constructed w c nc u ops0 s0 ->
  let s := session dom w c s0 ks in p_ind (s_pop s) = Some is -> is <> [] -> p_fit (s_pop s) = Some fs -> (forall f, In f fs -> length f = m) -> (p_unc (s_pop s) <> None <-> u = true) ->
  (c_save_nd c = true -> s_nd s <> None) ->
  forall k, exists s' is', ran dom w c k s s' /\ p_ind (s_pop s') = Some is' /\ is' <> [] /\ (s_gen s <= s_gen s')%Z /\ ((s_gen s < s_gen s')%Z -> length is' <= N) /\ (s_gen s' = s_gen s -> is' = is).
Proof.
  intros I O U dom w c nc u ops0 s0 ks is fs m N Hw Hs Hn Hf Hk Hc s Hi Hne Hfs Hlen Hu Hd k. destruct (reached dom w c nc u ops0 s0 ks is Hw Hc Hi Hu) as (ms & HH & Hms). fold s in HH.
  destruct (runs_on dom w c nc u (fun f => length f = m) (proj1 Hs)) with (X := fun q => q = s -> True) (A := fun x => 1 <= x) (B := fun x => 1 <= x <= N) (g0 := s_gen s) (is0 := is) (k := k) (s := s) as (s' & R1 & R2); auto; try exact (proj2 Hs).
  { intros x. lia. }
  { intros ms' Hms'. unfold next_gen. rewrite Hk. apply T_dec; auto; [exact (proj1 Hs)|apply select_rvea; auto]. }
  { exists ms. split; [split; [exact HH|split; [|exact Hd]]|].
    - apply Forall_forall. intros x Hx. apply Hlen. destruct HH as ((_ & _ & Rf & _) & _). assert (fs = map m_fit ms) as -> by congruence. apply in_map. auto.
    - assert (length ms = length is) by (rewrite <- Hms, map_length; auto). split; [destruct is; [congruence|cbn in *; lia]|]. split; [lia|]. split; [lia|auto]. }
  destruct R2 as (ms' & ((((Ri & _) & _) & _) & R3 & R4 & R5 & R6)). exists s', (map m_ind ms'). rewrite map_length. split; auto. split; auto. split; [destruct ms'; [cbn in R3; lia|discriminate]|]. split; auto. split; auto. intros Hg. specialize (R5 Hg). lia.
Qed.
Print Assumptions C110_rvea_runs_on.

Lemma select_moead {I O C U : Type} (w : world I O (list Q) C U) nc u n N : by_moead n N w -> moead_contract w nc u (fun _ => True) n N.
Proof.
  intros Hn. destruct Hn as (vectors & nbs & V1 & V2 & V3 & V4 & V5). split.
    - intros k' i Hi'. destruct (V5 k' i) as (pick & P1 & P2). rewrite P2. unfold choose_parents. destruct (nth_error nbs i) as [nb|] eqn:En; [|apply nth_error_None in En; lia].
      destruct (V3 nb (nth_error_In _ _ En)) as [L B]. destruct (Nat.ltb_spec (length nb) 2); [lia|]. destruct (P1 (length nb) L) as [Q1 Q2].
      destruct (nth_error nb (fst (pick (length nb)))) as [a|] eqn:Ea; [|apply nth_error_None in Ea; lia]. destruct (nth_error nb (snd (pick (length nb)))) as [b|] eqn:Eb; [|apply nth_error_None in Eb; lia].
      cbn [positions1]. eexists. split; [reflexivity|]. split; [discriminate|]. apply in_range_nats. intros j [<-|[<-|[]]]; apply B; eapply nth_error_In; eauto.
    - intros k' p ms' i Hi' ((_ & _ & Rf & _) & _) _ L. destruct (V4 k' p _ i Rf) as (SF & ideal & E). rewrite E. unfold moead_do. destruct (nth_error nbs i) as [nb|] eqn:En; [|apply nth_error_None in En; lia].
      destruct (V3 nb (nth_error_In _ _ En)) as [_ B]. rewrite map_id.
      assert (TA : forall (A : Type) (l : list A) idxs, (forall j, In j idxs -> j < length l) -> exists r, take_all l idxs = Ok r).
      { intros A l. induction idxs as [|j t IH]; intros H; cbn [take_all]; [eauto|]. destruct (nth_error l j) as [x|] eqn:Ej; [|apply nth_error_None in Ej; specialize (H j (or_introl eq_refl)); lia].
        destruct IH as [r ->]; [intros j' Hj'; apply H; right; auto|]. cbn [bind]. eauto. }
      destruct (TA _ (map m_fit ms') nb) as [cur ->]; [intros j Hj; rewrite map_length, L; specialize (B j Hj); lia|]. cbn [bind].
      destruct (rev (map m_fit ms')) as [|off rest] eqn:Er. { apply (f_equal (@length _)) in Er. rewrite rev_length, map_length, L in Er. discriminate. }
      destruct (TA _ vectors nb) as [ws ->]; [intros j Hj; rewrite V1; apply B; auto|]. cbn [bind positions1]. eexists. split; [reflexivity|]. apply in_range_nats. intros j Hj.
      assert (Hin : forall nb' cur' ws', In j (outperformed SF nb' cur' ws' off ideal) -> In j nb').
      { induction nb' as [|a nb' IH]; intros [|x cur'] [|y ws']; cbn [outperformed]; try (intros []; fail). destruct (negb _); [intros [<-|X]; [left; auto|right; eapply IH; eauto]|intros X; right; eapply IH; eauto]. }
      specialize (B j (Hin _ _ _ Hj)). lia.
Qed.
(** C110. MOEA/D with [n] subproblems: every iterate() succeeds, and the population keeps its size for ever. *)
Theorem C110_moead_runs_on : forall (I O C U : Type) (dom : list Q -> list Q -> bool) (w : world I O (list Q) C U) (c : cfg) nc u ops0 s0 ks is n ur,
  honest nc u w -> smooth w -> by_moead n (length is) w -> c_kind c = KMoead n ur -> constructed w c nc u ops0 s0 ->
  let s := session dom w c s0 ks in p_ind (s_pop s) = Some is -> is <> [] -> (p_unc (s_pop s) <> None <-> u = true) -> (c_save_nd c = true -> s_nd s <> None) ->
  forall k, exists s' is', ran dom w c k s s' /\ p_ind (s_pop s') = Some is' /\ length is' = length is /\ (s_gen s <= s_gen s')%Z /\ (s_gen s' = s_gen s -> is' = is).
Proof.
  intros I O C U dom w c nc u ops0 s0 ks is n ur Hw Hs Hn Hk Hc s Hi Hne Hu Hd k. destruct (reached dom w c nc u ops0 s0 ks is Hw Hc Hi Hu) as (ms & HH & Hms). fold s in HH.
  assert (Hpos : 1 <= length is) by (destruct is; [congruence|cbn; lia]).
  destruct (runs_on dom w c nc u (fun _ => True) (proj1 Hs)) with (X := fun q => q = s -> True) (A := fun x => x = length is) (B := fun x => x = length is) (g0 := s_gen s) (is0 := is) (k := k) (s := s) as (s' & R1 & R2); auto; try exact (proj2 Hs).
  { split; auto. }
  { intros ms' Hms'. unfold next_gen. rewrite Hk. apply T_moead; auto; [exact (proj1 Hs)|split; auto|apply select_moead; auto]. }
  { exists ms. split; [split; [exact HH|split; [apply Forall_forall; auto|exact Hd]]|]. assert (length ms = length is) by (rewrite <- Hms, map_length; auto). split; [lia|]. split; [lia|]. split; [lia|auto]. }
  destruct R2 as (ms' & ((((Ri & _) & _) & _) & R3 & R4 & R5 & R6)). exists s', (map m_ind ms'). rewrite map_length. split; auto.
Qed.
Print Assumptions C110_moead_runs_on.

Lemma picks_by_tournament {I O F C U : Type} (w : world I O F C U) nc u ok t lo : by_tournament t w -> 0 < t < lo -> picks w nc u ok lo.
Proof.
  intros Ht Hlo k p ms ((Ri & _) & _) _ Hl. destruct (Ht k p _ Ri) as (fitness & draws & L & V & E); [rewrite map_length; lia|]. rewrite map_length in L.
  destruct (C40_total t fitness draws) as (par & Ep & B); [lia|lia|auto|]. destruct (C40_best_of_each_tournament _ _ _ _ Ep) as [Lp _]. rewrite E, Ep. cbn [positions1].
  eexists. split; [reflexivity|]. rewrite map_length. split; [congruence|]. apply in_range_nats. intros i Hi. rewrite <- L. auto.
Qed.
Lemma worst_ok {I O F C U : Type} (w : world I O F C U) nc u : (forall k p l, p_ind p = Some l -> l <> [] -> (0 <= w_worst w k p < Z.of_nat (length l))%Z) -> worst_in_range w nc u.
Proof.
  intros Hz. intros k' p ms' ((Ri & _) & _) Hne. destruct (Hz k' p _ Ri) as [Z1 Z2]; [intros X; apply map_eq_nil in X; auto|]. rewrite map_length in Z2. lia.
Qed.
(** C110. Indicator-based algorithms: with pop_size and the population larger than the tournament, every iterate() succeeds; the population never shrinks to the size of a tournament. *)
Theorem C110_indicator_runs_on : forall (I O F C U : Type) (dom : F -> F -> bool) (w : world I O F C U) (c : cfg) nc u ops0 s0 ks is n t,
  honest nc u w -> smooth w -> by_tournament t w -> (forall k p l, p_ind p = Some l -> l <> [] -> (0 <= w_worst w k p < Z.of_nat (length l))%Z) -> c_kind c = KIndicator n -> constructed w c nc u ops0 s0 ->
  let s := session dom w c s0 ks in p_ind (s_pop s) = Some is -> (p_unc (s_pop s) <> None <-> u = true) -> (c_save_nd c = true -> s_nd s <> None) -> 0 < t < n -> t < length is ->
  forall k, exists s' is', ran dom w c k s s' /\ p_ind (s_pop s') = Some is' /\ t < length is' /\ (s_gen s <= s_gen s')%Z /\ (s_gen s' = s_gen s -> is' = is).
Proof.
  intros I O F C U dom w c nc u ops0 s0 ks is n t Hw Hs Ht Hz Hk Hc s Hi Hu Hd Hn Hl k. destruct (reached dom w c nc u ops0 s0 ks is Hw Hc Hi Hu) as (ms & HH & Hms). fold s in HH.
  destruct (runs_on dom w c nc u (fun _ => True) (proj1 Hs)) with (X := fun q => q = s -> True) (A := fun x => S t <= x) (B := fun x => S t <= x) (g0 := s_gen s) (is0 := is) (k := k) (s := s) as (s' & R1 & R2); auto; try exact (proj2 Hs).
  { split; auto. }
  { intros ms' Hms'. unfold next_gen. rewrite Hk. apply T_ind; auto; [exact (proj1 Hs)|split; auto|apply worst_ok; auto|apply (picks_by_tournament w nc u _ t); auto; lia|lia]. }
  { exists ms. split; [split; [exact HH|split; [apply Forall_forall; auto|exact Hd]]|]. assert (length ms = length is) by (rewrite <- Hms, map_length; auto). split; [lia|]. split; [lia|]. split; [lia|auto]. }
  destruct R2 as (ms' & ((((Ri & _) & _) & _) & R3 & R4 & R5 & R6)). exists s', (map m_ind ms'). rewrite map_length. split; auto.
Qed.
Print Assumptions C110_indicator_runs_on.

(** C110. TournamentEA: likewise, if recombination answers with at least as many offspring as it got parents. *)
Theorem C110_tournament_runs_on : forall (I O F C U : Type) (dom : F -> F -> bool) (w : world I O F C U) (c : cfg) nc u ops0 s0 ks is t,
  honest nc u w -> smooth w -> by_tournament t w -> (forall k p zs rows, w_mate w k p (Some zs) = Ok rows -> length zs <= length rows) -> c_kind c = KTournament -> constructed w c nc u ops0 s0 ->
  let s := session dom w c s0 ks in p_ind (s_pop s) = Some is -> (p_unc (s_pop s) <> None <-> u = true) -> (c_save_nd c = true -> s_nd s <> None) -> 0 < t < length is ->
  forall k, exists s' is', ran dom w c k s s' /\ p_ind (s_pop s') = Some is' /\ t < length is' /\ (s_gen s <= s_gen s')%Z /\ (s_gen s' = s_gen s -> is' = is).
Proof.
  intros I O F C U dom w c nc u ops0 s0 ks is t Hw Hs Ht Hm Hk Hc s Hi Hu Hd Hl k. destruct (reached dom w c nc u ops0 s0 ks is Hw Hc Hi Hu) as (ms & HH & Hms). fold s in HH.
  destruct (runs_on dom w c nc u (fun _ => True) (proj1 Hs)) with (X := fun q => q = s -> True) (A := fun x => S t <= x) (B := fun x => S t <= x) (g0 := s_gen s) (is0 := is) (k := k) (s := s) as (s' & R1 & R2); auto; try exact (proj2 Hs).
  { split; auto. }
  { intros ms' Hms'. unfold next_gen. rewrite Hk. apply T_tour; auto; [exact (proj1 Hs)|split; auto|apply (picks_by_tournament w nc u _ t); auto; lia|lia]. }
  { exists ms. split; [split; [exact HH|split; [apply Forall_forall; auto|exact Hd]]|]. assert (length ms = length is) by (rewrite <- Hms, map_length; auto). split; [lia|]. split; [lia|]. split; [lia|auto]. }
  destruct R2 as (ms' & ((((Ri & _) & _) & _) & R3 & R4 & R5 & R6)). exists s', (map m_ind ms'). rewrite map_length. split; auto.
Qed.
Print Assumptions C110_tournament_runs_on.

(** ** The hypotheses are met: decision vectors are integers, one more than a parent is its offspring; three rows at the start, archive kept. *)
Definition basic_world {F C : Type} (ev : Z -> F) (sel : pop Z (list Q) F C unit -> nat -> res (list Z)) (par : nat -> res (list Z)) : world Z (list Q) F C unit :=
  mkWorld (fun _ p par => match p_ind p with Some (x :: l) => Ok (map (fun x => x + 1)%Z (match par with None => x :: l | Some zs => map (fun _ => x) zs end)) | _ => Err TypeError end)
    (fun x => x) (fun _ _ rows => mkRes (map (fun _ => []) rows) (map ev rows) None None) (fun _ _ _ => None) (fun _ p i => sel p i) (fun _ i => par i) (fun _ _ => 0%Z) (fun _ => Ok []) (fun _ _ => []) (fun _ _ => []) (fun _ _ => Ok [])
    (fun _ _ => Ok None) (fun _ _ => Ok tt).
Lemma basic_honest {F C : Type} (ev : Z -> F) sel par : honest 0 false (basic_world (C := C) ev sel par).
Proof. intros k b rows. cbn. unfold good_results. cbn. rewrite !map_length. repeat split; auto; intros X; congruence. Qed.
Lemma basic_smooth {F C : Type} (ev : Z -> F) sel par : smooth (basic_world (C := C) ev sel par).
Proof.
  split; [|reflexivity]. constructor; cbn; eauto. intros k p [zs|] x l E H; rewrite E; cbn; eauto. destruct (H zs eq_refl) as [Hz _]. destruct zs; [congruence|]. cbn. eauto.
Qed.
Definition basic_start {F C : Type} (dom : F -> F -> bool) (w : world Z (list Q) F C unit) (k : kind) : st Z (list Q) F C unit :=
  session dom w (mkCfg k false true false 2 2 0) (on_problem w (mkCfg k false true false 2 2 0) 0 [1; 5; 4]%Z) [CStart].
Lemma basic_started {F C : Type} (dom : F -> F -> bool) (ev : Z -> F) sel par k : let s := basic_start dom (basic_world (C := C) ev sel par) k in
  p_ind (s_pop s) = Some [1; 5; 4]%Z /\ p_fit (s_pop s) = Some [ev 1; ev 5; ev 4]%Z /\ (p_unc (s_pop s) <> None <-> false = true) /\ s_nd s <> None.
Proof. cbn. repeat split; try congruence; intros X; congruence. Qed.

Definition nsga3_select (p : pop Z (list Q) (list R) unit unit) (_ : nat) : res (list Z) := match p_fit p with
  | Some fit => positions (nsga3_do ref_fnds (fun _ _ => None) (mkRng3 (fun t => t) (fun _ l => l)) [[1; 0]; [0; 1]]%R (init3 [1; 1]%R 2 None) fit) | None => Err TypeError end.
Example ex_nsga3 : let w := basic_world (fun x => [IZR x; - IZR x]%R) nsga3_select (fun _ => Ok []) in
  honest 0 false w /\ smooth w /\ by_nsga3 2 w /\ 2 <= length [1; 5; 4]%Z /\ constructed w (mkCfg KDecomposition false true false 2 2 0) 0 false [] (on_problem w (mkCfg KDecomposition false true false 2 2 0) 0 [1; 5; 4]%Z).
Proof.
  split; [apply basic_honest|]. split; [apply basic_smooth|]. split; [|split; [cbn; lia|left; eauto]].
  intros k p fit E. exists ref_fnds, (fun _ _ => None), (mkRng3 (fun t => t) (fun _ l => l)), [[1; 0]; [0; 1]]%R, (init3 [1; 1]%R 2 None). split; [exact fnds_contract_ref|]. split; [exact shuffles_id|]. split; [discriminate|]. split; [reflexivity|].
  cbn [basic_world w_select]. unfold nsga3_select. rewrite E. reflexivity.
Qed.
Definition apd_pick (p : pop Z (list Q) (list R) (list R) unit) (_ : nat) : res (list Z) := match p_fit p with
  | Some fit => positions (apd_select 1 [0; 0]%R [0; 0]%R fit (p_con p) [[1; 0]; [0; 1]]%R [1; 1]%R) | None => Err TypeError end.
Example ex_rvea : let w := basic_world (fun x => [IZR x; - IZR x]%R) apd_pick (fun _ => Ok []) in
  honest 0 false w /\ smooth w /\ by_apd 2 2 w /\ fitness_ok (fun f => length f = 2) w.
Proof.
  split; [apply basic_honest|]. split; [apply basic_smooth|]. split.
  - intros k p fit E. exists 1%R, [0; 0]%R, [0; 0]%R, [[1; 0]; [0; 1]]%R, [1; 1]%R. split; [reflexivity|]. split; [reflexivity|]. split; [reflexivity|]. split; [discriminate|]. split; [|split; [reflexivity|cbn [basic_world w_select]; unfold apd_pick; rewrite E; reflexivity]].
    intros v [<-|[<-|[]]]; (split; [reflexivity|split]).
    + unfold norm; simpl. replace (1 * 1 + (0 * 0 + 0))%R with 1%R by ring. apply sqrt_1.
    + intros x [<-|[<-|[]]]; lra.
    + unfold norm; simpl. replace (0 * 0 + (1 * 1 + 0))%R with 1%R by ring. apply sqrt_1.
    + intros x [<-|[<-|[]]]; lra.
  - split; [|discriminate]. cbn. intros k b rows f Hf. apply in_map_iff in Hf. destruct Hf as (x & <- & _). reflexivity.
Qed.
Definition ex_near : list (list nat) := [[0; 1]; [1; 2]; [2; 1]].
Definition ex_SF (f wt ideal : list Q) : Q := fold_right Qplus 0%Q f.
Definition moead_pick (p : pop Z (list Q) (list Q) unit unit) (i : nat) : res (list Z) := match p_fit p with
  | Some fit => positions1 (moead_do (fun f => f) ex_SF [[1; 0]; [1; 1]; [0; 1]]%Q ex_near [0; 0]%Q fit i) | None => Err TypeError end.
Definition moead_parents (i : nat) : res (list Z) := positions1 (match choose_parents (fun _ => (0, 1)) ex_near i with Ok (a, b) => Ok [a; b] | Err e => Err e end).
Definition ex_moead_world := basic_world (C := unit) (fun x => [inject_Z x; inject_Z (x * x)]) moead_pick moead_parents.
Example ex_moead : honest 0 false ex_moead_world /\ smooth ex_moead_world /\ by_moead 3 (length [1; 5; 4]%Z) ex_moead_world.
Proof.
  split; [apply basic_honest|]. split; [apply basic_smooth|]. exists [[1; 0]; [1; 1]; [0; 1]]%Q, ex_near. split; [reflexivity|]. split; [reflexivity|]. split; [|split].
  - intros nb [<-|[<-|[<-|[]]]]; (split; [cbn; lia|]); intros j [<-|[<-|[]]]; cbn; lia.
  - intros k p fit i E. exists ex_SF, [0; 0]%Q. cbn [ex_moead_world basic_world w_select]. unfold moead_pick. rewrite E. reflexivity.
  - intros k i. exists (fun _ => (0, 1)). split; [cbn; intros; lia|reflexivity].
Qed.
(** ... and the run itself: after one iterate() of two generations the offspring 2, 3 of the first row have replaced what they improve. *)
Example ex_moead_run : exists s', ran Pareto.dominates ex_moead_world (mkCfg (KMoead 3 false) false true false 2 2 0) 1 (basic_start Pareto.dominates ex_moead_world (KMoead 3 false)) s' /\ p_ind (s_pop s') = Some [1; 2; 2]%Z.
Proof. eexists. split; [econstructor; [vm_compute; reflexivity|constructor]|vm_compute; reflexivity]. Qed.
Definition tour_pick (p : pop Z (list Q) (list Q) unit unit) (_ : nat) : res (list Z) := match p_ind p with
  | Some l => positions1 (tournament_do 1 (map IZR l) (fun _ => [0])) | None => Err TypeError end.
Definition ex_tour_world := basic_world (C := unit) (fun x => [inject_Z x]) tour_pick (fun _ => Ok []).
(** A tournament of one: the first row is drawn each time. *)
Example ex_tour : honest 0 false ex_tour_world /\ smooth ex_tour_world /\ by_tournament 1 ex_tour_world /\ (forall k p zs rows, w_mate ex_tour_world k p (Some zs) = Ok rows -> length zs <= length rows) /\
  (forall k p l, p_ind p = Some l -> l <> [] -> (0 <= w_worst ex_tour_world k p < Z.of_nat (length l))%Z).
Proof.
  split; [apply basic_honest|]. split; [apply basic_smooth|]. split; [|split].
  - intros k p l E Hl. exists (map IZR l), (fun _ => [0]). rewrite map_length. split; auto. split.
    + intros j. split; [reflexivity|]. split; [repeat constructor; intros []|]. intros i [<-|[]]. lia.
    + cbn [ex_tour_world basic_world w_select]. unfold tour_pick. rewrite E. reflexivity.
  - cbn. intros k p zs rows. destruct (p_ind p) as [[|x l]|]; try discriminate. intros X. injection X as <-. rewrite !map_length. auto.
  - cbn. intros k p l _ Hl. destruct l; [congruence|cbn; lia].
Qed.
