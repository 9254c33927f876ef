(** C130: an evaluation that raises, at any point of a run. *)
From Verif Require Import Base RVec M_Population Spec_Population P_Population M_Archive P_Archive M_Run Spec_Run P_Run P_Run2 P_Run3 Spec_RunSel P_RunSel.
From Verif Require Import M_NSGA3 P_NSGA3 Properties_NSGA3 Spec_APD M_APD Properties_APD M_MOEAD Spec_Indicator M_Indicator Properties_Indicator Spec_Fronts Properties_RunSel.
From Verif Require Import Spec_Crash P_Crash P_Crash2 P_Crash3.
From Coq Require Import Reals QArith Lra.
Open Scope nat_scope.

Section T.
Context {I O F C U : Type} (dom : F -> F -> bool) (w : world I O F C U) (c : cfg) (nc : nat) (u : bool).
(** C130. Decomposition-based algorithms: a generation whose evaluation raises passes the exception on and leaves the object as it was: population, archive, counters, snapshots. *)
Theorem C130_decomposition_generation : forall s off e, c_kind c = KDecomposition -> w_mate w (s_clock s) (s_pop s) None = Ok off ->
  w_fails w (S (s_clock s)) (c_surrogates c) off = Some e -> exists s', next_gen dom w c s = (s', Err e) /\ untouched s s'.
Proof. intros s off e Hk Hm Hf. unfold next_gen. rewrite Hk. exact (dec_raises dom w c s off e Hm Hf). Qed.
(** C130. ... and retrying loses nothing: if recombination, evaluation and selection depend on what they are asked only, then after any number of iterate() calls, with evaluations raising
    anywhere in them, the population, the archive, the log and the counts of generations and evaluations are those of some number of undisturbed generations. *)
Theorem C130_same_course : forall s n, c_kind c = KDecomposition -> timeless w -> (forall k p g, w_prefs w k p <> Ok (Some g)) ->
  (forall j, exists s', generations dom (never_raising w) c j s s') ->
  exists j s', generations dom (never_raising w) c j s s' /\ s_gen s' = (s_gen s + Z.of_nat j)%Z /\ same_results s' (session dom w c s (repeat CIterate n)).
Proof.
  intros s n Hk Ht Hp Hg. destruct (session_along dom w c Hk Ht s Hg Hp n s) as (j & s' & G & X); [exists 0, s; split; [constructor|unfold same_results; auto 10]|].
  exists j, s'. split; auto. split; auto. clear -G. induction G as [s|j s s1 s2 _ IH E]; [lia|].
  pose proof (ct_next dom (never_raising w) c (counts_of s1) s1 eq_refl) as T. rewrite E in T. destruct T as (lg & _ & _ & _ & _ & Tg & _). unfold counts_of in Tg. cbn [n_gen] in Tg. lia.
Qed.
(** C130. TournamentEA loses its whole population: it is deleted before the offspring are evaluated. After one evaluation that raises there is none, whatever is called later; every
    later iterate() that would run a generation raises, and so does end(). *)
Theorem C130_tournament_refuted : forall ops0 s0 ks is s sel off e, honest nc u w -> constructed w c nc u ops0 s0 -> c_kind c = KTournament ->
  s = session dom w c s0 ks -> p_ind (s_pop s) = Some is -> (p_unc (s_pop s) <> None <-> u = true) ->
  w_select w (s_clock s) (s_pop s) 0 = Ok sel -> w_mate w (S (s_clock s)) (s_pop s) (Some sel) = Ok off -> w_fails w (S (S (s_clock s))) false off = Some e ->
  exists s', next_gen dom w c s = (s', Err e) /\ forall ks', let s2 := session dom w c s' ks' in p_ind (s_pop s2) = None /\
    ((0 < c_n_gen_per_iter c)%Z -> check_FE c s2 = true -> exists s3 e3, iterate dom w c s2 = (s3, Err e3)) /\
    (forall (V : Type) (dom' : V -> V -> bool) (f : O -> V), snd (finish c dom' f s2) = Err TypeError).
Proof.
  intros ops0 s0 ks is s sel off e Hw Hc Hk -> Hi Hu H1 H2 H3. destruct (reached dom w c nc u ops0 s0 ks is Hw Hc Hi Hu) as (ms & HH & _).
  destruct (tour_raises w nc u ms _ sel off e HH H1 H2 H3) as (s' & E & L & _). exists s'. unfold next_gen. rewrite Hk. split; [exact E|]. intros ks'. set (s2 := session dom w c s' ks').
  assert (L2 : lost s2) by (apply session_lost; auto). split; [exact L2|]. split.
  - intros Hg Hfe. pose proof (iterate_lost dom w c s2 Hk L2) as T. destruct (iterate dom w c s2) as [s3 [x|e3]]; [|eauto]. destruct T as [_ [T|T]]; [lia|congruence].
  - intros V dom' f. unfold finish. rewrite L2. destruct (c_keep_archive c); reflexivity.
Qed.
End T.
Print Assumptions C130_decomposition_generation.
Print Assumptions C130_same_course.
Print Assumptions C130_tournament_refuted.

Lemma At_reached {I O F C U : Type} (w : world I O F C U) c nc u (ok : F -> Prop) (s : st I O F C U) ms : holds nc u (s_pop s) ms -> (forall f, ok f) -> (c_save_nd c = true -> s_nd s <> None) -> At c nc u ok ms s.
Proof. intros A B D. split; auto. split; auto. apply Forall_forall. auto. Qed.

Lemma gen_dec {I O F C U : Type} (dom : F -> F -> bool) (w : world I O F C U) (c : cfg) nc u (ok : F -> Prop) lo hi : honest nc u w -> steady w -> fitness_ok ok w -> c_kind c = KDecomposition ->
  dec_select w nc u ok lo hi -> 1 <= lo -> forall ms, lo <= length ms ->
  triple (At c nc u ok ms) (next_gen dom w c) (fun _ q => exists ms2, At c nc u ok ms2 q /\ lo <= length ms2) (fun q => broke w q /\ usable c nc u ok (fun x => lo <= x) q).
Proof.
  intros Hw Hs Hf Hk Hsel H1 ms Hms q Hq. unfold next_gen. rewrite Hk.
  assert (HE : forall q0, At c nc u ok ms q0 -> broke w q0 -> broke w q0 /\ usable c nc u ok (fun x => lo <= x) q0) by (intros q0 B1 B2; split; auto; exists ms; split; [exact B1|exact Hms]).
  pose proof (T_dec dom w c nc u ok Hw Hs Hf (fun q => broke w q /\ usable c nc u ok (fun x => lo <= x) q) lo hi ms HE Hsel H1 Hms q Hq) as T.
  destruct (dec_gen dom w c q) as [q' [x|e]]; [|exact T]. destruct T as (ms2 & A1 & A2). exists ms2. split; auto. lia.
Qed.
(** C130. NSGA-III: evaluations may raise at any time, any number of times; after whatever start() and iterate() calls follow, the population still has at least n_survive rows, and from
    the moment evaluations stop raising every iterate() succeeds. *)
Theorem C130_nsga3_survives : forall (I O C U : Type) (dom : list R -> list R -> bool) (w : world I O (list R) C U) (c : cfg) nc u ops0 s0 ks is n,
  honest nc u w -> steady w -> by_nsga3 n w -> c_kind c = KDecomposition -> constructed w c nc u ops0 s0 ->
  let s := session dom w c s0 ks in p_ind (s_pop s) = Some is -> (p_unc (s_pop s) <> None <-> u = true) -> (c_save_nd c = true -> s_nd s <> None) -> 0 < n <= length is ->
  forall ks', let s' := session dom w c s ks' in
    (exists is', p_ind (s_pop s') = Some is' /\ n <= length is') /\
    (calm_from w (s_clock s') -> forall k, exists s2 is2, ran dom w c k s' s2 /\ p_ind (s_pop s2) = Some is2 /\ n <= length is2).
Proof.
  intros I O C U dom w c nc u ops0 s0 ks is n Hw Hs Hn Hk Hc s Hi Hu Hd Hl ks' s'. destruct (reached dom w c nc u ops0 s0 ks is Hw Hc Hi Hu) as (ms & HH & Hms). fold s in HH.
  assert (Hf : fitness_ok (fun _ : list R => True) w) by (split; auto).
  assert (Gen : forall ms', n <= length ms' -> triple (At c nc u (fun _ => True) ms') (next_gen dom w c) (fun _ q => exists ms2, At c nc u (fun _ => True) ms2 q /\ n <= length ms2) (fun q => broke w q /\ usable c nc u (fun _ => True) (fun x => n <= x) q)).
  { apply (gen_dec dom w c nc u (fun _ => True) n n); auto; [apply select_nsga3; auto|lia]. }
  assert (U0 : usable c nc u (fun _ => True) (fun x => n <= x) s).
  { exists ms. split; [apply (At_reached w); auto|]. rewrite <- Hms, map_length in Hl. lia. }
  pose proof (usable_session dom w c nc u (fun _ => True) Hs Hf (fun x => n <= x) Gen ks' s U0) as U1. fold s' in U1.
  split.
  - destruct U1 as (ms' & (((Ri & _) & _) & _) & L). exists (map m_ind ms'). rewrite map_length. auto.
  - intros Hcalm k. destruct (usable_ran dom w c nc u (fun _ => True) Hs Hf (fun x => n <= x) Gen k s' U1 Hcalm) as (s2 & R1 & (ms' & (((Ri & _) & _) & _) & L)). exists s2, (map m_ind ms'). rewrite map_length. auto.
Qed.
Print Assumptions C130_nsga3_survives.

(** C130. RVEA: likewise, the population never becomes empty. *)
Theorem C130_rvea_survives : forall (I O U : Type) (dom : list R -> list R -> bool) (w : world I O (list R) (list R) U) (c : cfg) nc u ops0 s0 ks is fs m N,
  honest nc u w -> steady w -> by_apd m N w -> fitness_ok (fun f => length f = m) w -> c_kind c = KDecomposition -> constructed w c nc u ops0 s0 ->
  let s := session dom w c s0 ks in p_ind (s_pop s) = Some is -> is <> [] -> p_fit (s_pop s) = Some fs -> (forall f, In f fs -> length f = m) -> (p_unc (s_pop s) <> None <-> u = true) ->
  (c_save_nd c = true -> s_nd s <> None) ->
  forall ks', let s' := session dom w c s ks' in
    (exists is', p_ind (s_pop s') = Some is' /\ is' <> []) /\
    (calm_from w (s_clock s') -> forall k, exists s2 is2, ran dom w c k s' s2 /\ p_ind (s_pop s2) = Some is2 /\ is2 <> []).
Proof.
  intros I O U dom w c nc u ops0 s0 ks is fs m N Hw Hs Hn Hf Hk Hc s Hi Hne Hfs Hlen Hu Hd ks' s'. destruct (reached dom w c nc u ops0 s0 ks is Hw Hc Hi Hu) as (ms & HH & Hms). fold s in HH.
  set (ok := fun f : list R => length f = m) in *.
  assert (Gen : forall ms', 1 <= length ms' -> triple (At c nc u ok ms') (next_gen dom w c) (fun _ q => exists ms2, At c nc u ok ms2 q /\ 1 <= length ms2) (fun q => broke w q /\ usable c nc u ok (fun x => 1 <= x) q)).
  { apply (gen_dec dom w c nc u ok 1 N); auto. apply select_rvea; auto. }
  assert (U0 : usable c nc u ok (fun x => 1 <= x) s).
  { exists ms. split; [split; [exact HH|split; [|exact Hd]]|].
    - apply Forall_forall. intros x Hx. apply Hlen. destruct HH as ((_ & _ & Rf & _) & _). assert (fs = map m_fit ms) as -> by congruence. apply in_map. auto.
    - rewrite <- (map_length m_ind), Hms. destruct is; [congruence|cbn; lia]. }
  pose proof (usable_session dom w c nc u ok Hs Hf (fun x => 1 <= x) Gen ks' s U0) as U1. fold s' in U1.
  split.
  - destruct U1 as (ms' & (((Ri & _) & _) & _) & L). exists (map m_ind ms'). split; auto. destruct ms'; [cbn in L; lia|discriminate].
  - intros Hcalm k. destruct (usable_ran dom w c nc u ok Hs Hf (fun x => 1 <= x) Gen k s' U1 Hcalm) as (s2 & R1 & (ms' & (((Ri & _) & _) & _) & L)). exists s2, (map m_ind ms'). split; auto. split; auto. destruct ms'; [cbn in L; lia|discriminate].
Qed.
Print Assumptions C130_rvea_survives.

(** C130. MOEA/D: likewise, and the population keeps its size exactly. *)
Theorem C130_moead_survives : forall (I O C U : Type) (dom : list Q -> list Q -> bool) (w : world I O (list Q) C U) (c : cfg) nc u ops0 s0 ks is n ur,
  honest nc u w -> steady w -> by_moead n (length is) w -> c_kind c = KMoead n ur -> constructed w c nc u ops0 s0 ->
  let s := session dom w c s0 ks in p_ind (s_pop s) = Some is -> is <> [] -> (p_unc (s_pop s) <> None <-> u = true) -> (c_save_nd c = true -> s_nd s <> None) ->
  forall ks', let s' := session dom w c s ks' in
    (exists is', p_ind (s_pop s') = Some is' /\ length is' = length is) /\
    (calm_from w (s_clock s') -> forall k, exists s2 is2, ran dom w c k s' s2 /\ p_ind (s_pop s2) = Some is2 /\ length is2 = length is) /\
    (** A generation stopped by an evaluation: the subproblems before it are done, each with its one evaluation counted; every row is an old one or one of these. *)
    (forall s1 e, next_gen dom w c s' = (s1, Err e) -> exists lg new old, s_log s1 = s_log s' ++ lg /\ length lg < n /\ (forall x, In x lg -> length (snd (fst x)) = 1) /\
      p_ind (s_pop s') = Some old /\ p_ind (s_pop s1) = Some new /\ length new = length old /\ s_gen s1 = s_gen s' /\ (c_surrogates c = false -> s_fe s1 = (s_fe s' + Z.of_nat (length lg))%Z) /\
      (forall j x, nth_error new j = Some x -> nth_error old j = Some x \/ exists y, In y lg /\ In x (snd (fst y)))).
Proof.
  intros I O C U dom w c nc u ops0 s0 ks is n ur Hw Hs Hn Hk Hc s Hi Hne Hu Hd ks' s'. destruct (reached dom w c nc u ops0 s0 ks is Hw Hc Hi Hu) as (ms & HH & Hms). fold s in HH.
  assert (Hf : fitness_ok (fun _ : list Q => True) w) by (split; auto). assert (Hm := select_moead w nc u n (length is) Hn). assert (Hpos : 1 <= length is) by (destruct is; [congruence|cbn; lia]).
  set (A := fun x => x = length is).
  assert (Gen : forall ms', A (length ms') -> triple (At c nc u (fun _ => True) ms') (next_gen dom w c) (fun _ q => exists ms2, At c nc u (fun _ => True) ms2 q /\ A (length ms2)) (fun q => broke w q /\ usable c nc u (fun _ => True) A q)).
  { intros ms' Hms'. unfold next_gen. rewrite Hk. apply (T_moead dom w c nc u (fun _ => True) Hw Hs Hf _ n (length is)); auto. intros ms2 q L Hq Hb. split; auto. exists ms2. split; [exact Hq|exact L]. }
  assert (U0 : usable c nc u (fun _ => True) A s).
  { exists ms. split; [apply (At_reached w); auto|]. unfold A. rewrite <- Hms, map_length. auto. }
  pose proof (usable_session dom w c nc u (fun _ => True) Hs Hf A Gen ks' s U0) as U1. fold s' in U1. clearbody s'.
  split; [|split].
  - destruct U1 as (ms' & (((Ri & _) & _) & _) & L). exists (map m_ind ms'). rewrite map_length. auto.
  - intros Hcalm k. destruct (usable_ran dom w c nc u (fun _ => True) Hs Hf A Gen k s' U1 Hcalm) as (s2 & R1 & (ms' & (((Ri & _) & _) & _) & L)). exists s2, (map m_ind ms'). rewrite map_length. auto.
  - intros s1 e E. destruct U1 as (ms' & HA & L). unfold next_gen in E. rewrite Hk in E. unfold M_Run.moead_gen in E. rewrite andthen_eq in E.
    destruct (moead_subs dom w c ur (seq 0 n) s') as [s2 [[]|e2]] eqn:E2; [discriminate|]. injection E as <- <-.
    destruct (subs_raises dom w c nc u (fun _ => True) Hw Hs Hf n (length is) ur Hm Hpos (seq 0 n) ms' s' s2 e2) as (is1 & i & is2 & sd & P1 & P2 & P3 & P4); auto; [intros i Hi'; apply in_seq in Hi'; lia|].
    assert (Hold : p_ind (s_pop s') = Some (map m_ind ms')) by apply HA. destruct P3 as (V1 & V2 & V3 & V4 & V5 & V6 & V7 & V8).
    assert (Hne' : map m_ind ms' <> []) by (unfold A in L; destruct ms'; [cbn in L; lia|discriminate]).
    destruct (moead_subs_pop dom w c ur is1 s' sd (map m_ind ms') P2 Hold Hne') as (lg & new & L1 & L2 & L3 & L4 & L5).
    exists lg, new, (map m_ind ms'). rewrite V8, V1, V3, V6. split; auto.
    assert (Lis : length is1 < n) by (apply (f_equal (@length _)) in P1; rewrite seq_length, app_length in P1; cbn in P1; lia).
    pose proof (ct_subs dom w c (counts_of s') n ur ur is1 Hk 0 ltac:(cbn; lia) s') as T. rewrite P2 in T. cbn [Nat.add] in T.
    destruct T as (lg' & S1 & S2 & S3). { exists []. split; [intros ? []|]. split; auto. apply mid_0. }
    unfold mid, counts_of in S3. cbn [n_fe n_log n_gen n_gi n_it] in S3. injection S3 as X1 X2 X3 X4 X5. assert (lg' = lg) as -> by (rewrite L1 in X2; apply app_inv_head in X2; auto).
    split; [lia|]. split; [intros x Hx; apply S1; auto|]. split; auto. split; auto. split; auto. split; [lia|]. split.
    + intros Hsu. rewrite X1, (real_evals_singles c lg S1), Hsu. reflexivity.
    + intros j x Hj. destruct (L5 j x Hj) as [H|H]; auto. right. unfold rows_in in H. apply in_flat_map in H. exact H.
Qed.
Print Assumptions C130_moead_survives.

(** C130. Indicator-based algorithms: likewise, more rows than a tournament remain. A generation stopped by its evaluation has done its environmental selection: min(pop_size, present)
    of the old rows are left, nothing else is changed. *)
Theorem C130_indicator_survives : forall (I O F C U : Type) (dom : F -> F -> bool) (w : world I O F C U) (c : cfg) nc u ops0 s0 ks is n t,
  honest nc u w -> steady w -> by_tournament t w -> (forall k p l, p_ind p = Some l -> l <> [] -> (0 <= w_worst w k p < Z.of_nat (length l))%Z) -> c_kind c = KIndicator n -> constructed w c nc u ops0 s0 ->
  let s := session dom w c s0 ks in p_ind (s_pop s) = Some is -> (p_unc (s_pop s) <> None <-> u = true) -> (c_save_nd c = true -> s_nd s <> None) -> 0 < t < n -> t < length is ->
  forall ks', let s' := session dom w c s ks' in
    (exists is', p_ind (s_pop s') = Some is' /\ t < length is') /\
    (calm_from w (s_clock s') -> forall k, exists s2 is2, ran dom w c k s' s2 /\ p_ind (s_pop s2) = Some is2 /\ t < length is2) /\
    (forall s1 e, next_gen dom w c s' = (s1, Err e) -> exists old kept, p_ind (s_pop s') = Some old /\ p_ind (s_pop s1) = Some kept /\ length kept = Nat.min n (length old) /\ incl kept old /\
      (NoDup old -> NoDup kept) /\ s_log s1 = s_log s' /\ s_fe s1 = s_fe s' /\ s_gen s1 = s_gen s' /\ s_nd s1 = s_nd s').
Proof.
  intros I O F C U dom w c nc u ops0 s0 ks is n t Hw Hs Ht Hz Hk Hc s Hi Hu Hd Hn Hl ks' s'. destruct (reached dom w c nc u ops0 s0 ks is Hw Hc Hi Hu) as (ms & HH & Hms). fold s in HH.
  assert (Hf : fitness_ok (fun _ : F => True) w) by (split; auto). assert (Hzr := worst_ok w nc u Hz). assert (Hpk : picks w nc u (fun _ => True) (S t)) by (apply (picks_by_tournament w nc u _ t); auto; lia).
  set (A := fun x => S t <= x).
  assert (Gen : forall ms', A (length ms') -> triple (At c nc u (fun _ => True) ms') (next_gen dom w c) (fun _ q => exists ms2, At c nc u (fun _ => True) ms2 q /\ A (length ms2)) (fun q => broke w q /\ usable c nc u (fun _ => True) A q)).
  { intros ms' Hms'. unfold next_gen. rewrite Hk. apply (T_ind w c nc u (fun _ => True) Hw Hs Hf _ (S t)); auto; [|lia]. intros ms2 q L Hq Hb. split; auto. exists ms2. split; auto. unfold A in *. lia. }
  assert (U0 : usable c nc u (fun _ => True) A s).
  { exists ms. split; [apply (At_reached w); auto|]. unfold A. rewrite <- (map_length m_ind), Hms. lia. }
  pose proof (usable_session dom w c nc u (fun _ => True) Hs Hf A Gen ks' s U0) as U1. fold s' in U1. clearbody s'.
  split; [|split].
  - destruct U1 as (ms' & (((Ri & _) & _) & _) & L). exists (map m_ind ms'). rewrite map_length. auto.
  - intros Hcalm k. destruct (usable_ran dom w c nc u (fun _ => True) Hs Hf A Gen k s' U1 Hcalm) as (s2 & R1 & (ms' & (((Ri & _) & _) & _) & L)). exists s2, (map m_ind ms'). rewrite map_length. auto.
  - intros s1 e E. destruct U1 as (ms' & HA & L). unfold next_gen in E. rewrite Hk in E. assert (Hold : p_ind (s_pop s') = Some (map m_ind ms')) by apply HA.
    destruct (ind_raises w c nc u (fun _ => True) Hw Hs Hf (S t) n ms' s' s1 e (map m_ind ms') Hzr Hpk ltac:(lia) L HA Hold E) as (kept & K1 & K2 & K3 & K4 & K5 & K6 & K7).
    unfold counts_of in K6. injection K6 as X1 X2 X3 X4 X5. exists (map m_ind ms'), kept. auto 12.
Qed.
Print Assumptions C130_indicator_survives.
