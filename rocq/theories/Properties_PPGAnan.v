(** C129: failed evaluations (infinite or NaN fitness) in the predator-prey algorithm. *)
From Coq Require Import QArith Lia Permutation.
From Verif Require Import Base Pareto Spec_Fronts M_PPGA P_PPGA P_PPGA2 P_PPGA3 Properties_PPGA M_MOEADnan M_PPGAnan P_PPGAnan P_PPGAnan2.
Open Scope nat_scope.

(** ** Vocabulary *)
Definition fails_nan (f : list xq) : Prop := forall a, In a f -> a = QNaN.
Definition fails_inf (f : list xq) : Prop := forall a, In a f -> a = QPInf.
Definition succeeds (f : list xq) : Prop := forall a, In a f -> exists q, a = QFin q.
(** Pareto dominance; nothing compares with NaN. *)
Definition xqle (a b : xq) : Prop := a <> QNaN /\ b <> QNaN /\ xqlt b a = false.
Definition xqdominates (a b : list xq) : Prop :=
  Forall2 xqle a b /\ exists i x y, nth_error a i = Some x /\ nth_error b i = Some y /\ xqlt x y = true.
Definition xqrow_dom (fit : list (list xq)) (i j : nat) : Prop :=
  exists a b, nth_error fit i = Some a /\ nth_error fit j = Some b /\ xqdominates a b.
(** Contract of fast_non_dominated_sort for members that have NaN in all objectives or in none. *)
Definition nds_x_contract (nds : list (list xq) -> list (list nat)) : Prop :=
  forall fit, (forall f, In f fit -> fails_nan f \/ ~ In QNaN f) -> sorted_fronts (length fit) (xqrow_dom fit) (nds fit).

(** ** Without failures *)
Definition emb (b : Q * Z) : xq * Z := (QFin (fst b), snd b).
Section Finite.
Context {A : Type} (g : A -> list Q).
Notation fx := (fun m : A => map QFin (g m)).
Lemma badness_fin (pop : list A) np i t : badness_x fx pop np i t = option_map QFin (badness g pop np i t).
Proof. unfold badness_x, badness. destruct (nth_error pop (Z.to_nat (t - 1))) as [m|]; [|reflexivity]. destruct (g m) as [|o1 [|o2 r]]; reflexivity. Qed.
Lemma weakest_fin (pop : list A) np i ts : forall sorted best, steady tuple_lt sorted -> hd_error (rev sorted) = option_map emb best ->
  weakest_x fx pop np i sorted ts = bind (weakest g pop np i best ts) (fun w => Ok (option_map emb w)).
Proof.
  induction ts as [|t ts IH]; intros sorted best St E; cbn [weakest_x weakest]; [rewrite E; reflexivity|].
  rewrite badness_fin. destruct (badness g pop np i t) as [f|]; [|reflexivity]. cbn [option_map].
  destruct (py_sort_append tuple_lt tuple_asym sorted (QFin f, t) (QFin f, t) St) as (P1 & P2 & P3).
  apply (IH _ (match best with None => Some (f, t) | Some b => if worse b (f, t) then Some (f, t) else Some b end)); [exact P1|].
  rewrite (hd_rev_last _ (QFin f, t) P2), P3. destruct sorted as [|a sorted]; [destruct best; [discriminate|reflexivity]|].
  rewrite (hd_rev_last (a :: sorted) (QFin f, t)) in E by discriminate. destruct best as [b|]; [|discriminate]. cbn [option_map] in E. assert (E' : last (a :: sorted) (QFin f, t) = emb b) by congruence. rewrite E'. unfold emb at 1 2.
  rewrite tuple_fin, <- surjective_pairing. destruct (worse b (f, t)); reflexivity.
Qed.
Lemma predator_step_fin (pop : list A) radius np i d s p killed : predator_step_x fx pop radius np i d s p killed = predator_step g pop radius np i d s p killed.
Proof.
  unfold predator_step_x, predator_step. destruct (filter _ _) as [|t ts]; [reflexivity|].
  rewrite (weakest_fin pop np i (t :: ts) [] None); [|intros [|k] y z H; discriminate|reflexivity].
  destruct (weakest g pop np i None (t :: ts)) as [[[f u]|]|e]; reflexivity.
Qed.
Lemma predator_steps_fin (pop : list A) radius np draw i n : forall m s p killed, predator_steps_x fx pop radius np draw n m i s p killed = predator_steps g pop radius np draw n m i s p killed.
Proof.
  induction n as [|n IH]; intros m s p killed; cbn [predator_steps_x predator_steps]; [reflexivity|]. rewrite predator_step_fin.
  destruct (predator_step g pop radius np i (draw i m) s p killed) as [[[s' p'] k']|e]; cbn [bind]; [apply IH|reflexivity].
Qed.
Lemma predator_turns_fin (pop : list A) radius np draw mm n : forall i s killed, predator_turns_x fx pop radius np draw n mm i s killed = predator_turns g pop radius np draw n mm i s killed.
Proof.
  induction n as [|n IH]; intros i s killed; cbn [predator_turns_x predator_turns]; [reflexivity|]. destruct (nth_error (predators_loc s) i) as [p|]; [|reflexivity].
  rewrite predator_steps_fin. destruct (predator_steps g pop radius np draw mm 0 i s p killed) as [[s' k']|e]; cbn [bind fst snd]; [apply IH|reflexivity].
Qed.
(** C129. Without failures the generation is that of C52-C55 and C79-C82. *)
Theorem C129_finite_values : forall nds ndsx (mate : list A -> list (nat * nat) -> list A) c r st,
  (forall f, ndsx (map (map QFin) f) = nds f) ->
  ppga_gen_x fx ndsx mate c r st = ppga_gen g nds mate c r st.
Proof.
  intros nds ndsx mate c r [[[s pop] gen] fe] Hn. unfold ppga_gen_x, ppga_gen. destruct (move_prey (gd_prey r) s) as [s1 m]. destruct m as [pairs|e]; [|reflexivity]. cbn [bind].
  destruct (place_offspring (pc_attempts c) (gd_place r) (length (mate pop pairs)) s1) as [s2 placed].
  set (kept := flat_map _ _). rewrite <- (map_map g (map QFin)), Hn.
  destruct (if Nat.eqb (pc_kill_interval c) 0 then _ else _) as [[s3 pop2]|e]; [|reflexivity]. cbn [bind fst snd]. unfold move_predator_x, move_predator.
  rewrite predator_turns_fin. reflexivity.
Qed.
End Finite.

(** ** Whatever fails *)
Section History.
Context {A : Type} (fitness : A -> list xq) (nds : list (list xq) -> list (list nat)) (mate : list A -> list (nat * nat) -> list A).
Variable c : ppga_cfg.
(** As [reachable] of C52. *)
Inductive reachable_x : lat * list A * nat * nat -> Prop :=
| rx_start : forall sample1 sample2 sy sx s pop gen fe, sampling sample1 -> sampling sample2 ->
    new_lattice sample1 sample2 sy sx (pc_predators c) (length pop) = Ok s -> reachable_x (s, pop, gen, fe)
| rx_gen : forall s pop gen fe r st, reachable_x (s, pop, gen, fe) -> in_shape s c r ->
    ppga_gen_x fitness nds mate c r (s, pop, gen, fe) = Ok st -> reachable_x st
| rx_raise : forall s pop gen fe r s' e, reachable_x (s, pop, gen, fe) -> move_prey (gd_prey r) s = (s', Err e) -> reachable_x (s', pop, gen, fe).
Hypothesis objs : forall m, 2 <= length (fitness m).
Hypothesis cok : sensible c.

Lemma reachable_x_inv st : reachable_x st -> wf (fst (fst (fst st))) /\ alive (fst (fst (fst st))) (snd (fst (fst st))) /\
  length (predators_loc (fst (fst (fst st)))) = pc_predators c.
Proof.
  destruct cok as (K1 & K2 & K3). induction 1 as [sample1 sample2 sy sx s pop gen fe S1 S2 E|s pop gen fe r st H IH (D1 & D2) E|s pop gen fe r s' e H IH E]; cbn [fst snd] in *.
  - pose proof (new_lattice_spec sample1 sample2 sy sx (pc_predators c) (length pop) S1 S2) as N. rewrite E in N. destruct N as (N1 & N2 & N3 & N4 & N5 & N6 & _).
    split; auto. split; auto. split; auto.
  - destruct IH as (W & Al & P). assert (Ck : cfg_ok c s) by (constructor; auto). assert (Dk : draws_ok c s r) by (constructor; auto).
    pose proof (ppga_gen_x_spec fitness nds mate c objs r s pop gen fe Ck Dk W Al) as G. rewrite E in G. destruct st as [[[s' pop'] gen'] fe'].
    destruct G as (s1 & pairs & placed & culled & killed & _ & _ & _ & _ & _ & _ & _ & _ & _ & _ & _ & _ & W' & A' & _ & _ & C'). cbn [fst snd]. split; auto. split; auto. apply C'.
  - destruct IH as (W & Al & P). destruct (move_prey_spec _ _ _ _ W E) as (W' & F & _). split; auto. split; [eapply alive_frame; eauto|]. destruct F as (_ & _ & F & _). congruence.
Qed.
(** C129. Whatever fails and however, the lattice agrees with the population after any history, and a generation ends normally or with the library's own exception (nobody found a mate). *)
Theorem C129_lattice_consistent : forall s pop gen fe r, reachable_x (s, pop, gen, fe) -> in_shape s c r ->
  consistent s pop /\ length (predators_loc s) = pc_predators c /\
  (forall e, ppga_gen_x fitness nds mate c r (s, pop, gen, fe) = Err e -> e = EaError /\ snd (move_prey (gd_prey r) s) = Err EaError).
Proof.
  intros s pop gen fe r H (D1 & D2). pose proof (reachable_x_inv _ H) as (W & Al & P). cbn [fst snd] in *. split; [apply consistent_iff; auto|]. split; [exact P|]. intros e E.
  destruct cok as (K1 & K2 & K3). assert (Ck : cfg_ok c s) by (constructor; auto). assert (Dk : draws_ok c s r) by (constructor; auto).
  pose proof (ppga_gen_x_spec fitness nds mate c objs r s pop gen fe Ck Dk W Al) as G. rewrite E in G. exact G.
Qed.
(** C129. The predators never kill below the target size: a generation is mating, placing, the cull (when due) of [culled], and the killing of at most the surplus. *)
Theorem C129_never_below_target : forall s pop gen fe r s' pop' gen' fe', reachable_x (s, pop, gen, fe) -> in_shape s c r ->
  ppga_gen_x fitness nds mate c r (s, pop, gen, fe) = Ok (s', pop', gen', fe') ->
  exists s1 pairs new culled killed, move_prey (gd_prey r) s = (s1, Ok pairs) /\ (forall x, In x new -> In x (mate pop pairs)) /\
    culled = (if Nat.eqb (S gen mod pc_kill_interval c) 0 then ppga_select (nds (map fitness (pop ++ new))) (length (pop ++ new)) (pc_max_rank c) else []) /\
    let left := select_pos (fun i => negb (mem_nat i culled)) (pop ++ new) in
    pop' = select_pos (fun i => negb (mem_nat i killed)) left /\ length killed <= length left - pc_target c /\ length pop' + length killed = length left /\
    gen' = S gen /\ fe' = fe + length new.
Proof.
  intros s pop gen fe r s' pop' gen' fe' H (D1 & D2) E. pose proof (reachable_x_inv _ H) as (W & Al & P). cbn [fst snd] in *. destruct cok as (K1 & K2 & K3).
  assert (Ck : cfg_ok c s) by (constructor; auto). assert (Dk : draws_ok c s r) by (constructor; auto).
  pose proof (ppga_gen_x_spec fitness nds mate c objs r s pop gen fe Ck Dk W Al) as G. rewrite E in G.
  destruct G as (s1 & pairs & placed & culled & killed & G1 & G2 & G3 & G4 & G5 & G6 & G7 & G8 & G9 & G10 & G11 & G12 & G13 & G14 & _).
  exists s1, pairs, (select_pos (fun i => mem_nat i placed) (mate pop pairs)), culled, killed. split; [exact G1|].
  split. { intros x Hx. unfold select_pos in Hx. apply select_pos_in in Hx. destruct Hx as (k & Hk & _). eapply nth_error_In; eauto. }
  split; [exact G5|]. cbv zeta. split; [exact G9|]. split.
  { eapply Nat.le_trans; [exact G8|]. unfold max_moves. apply Nat.mul_div_le. lia. }
  split. { rewrite G9. unfold select_pos at 1. rewrite select_pos_from_length. apply filter_not_killed; assumption. }
  split; [exact G11|]. rewrite G12. f_equal. rewrite select_pos_filter_length, G4, filter_mem. reflexivity.
Qed.
End History.

(** ** Whom a predator kills *)
Section Kills.
Context {A : Type} (fitness : A -> list xq) (pop : list A) (radius n_predators i : nat) (d : nat * nat) (s : lat) (p : pos) (killed : list nat).
(** The situation of C79: the lattice is well-formed and the prey killed so far in this phase are known. *)
Definition hunting : Prop :=
  (forall m, In m pop -> 2 <= length (fitness m)) /\ fst d < Nat.min radius (size_y s) /\ snd d < Nat.min radius (size_x s) /\
  wf s /\ NoDup killed /\ length (preys_loc s) = length pop /\ (forall k, In k killed <-> nth_error (preys_loc s) k = Some None) /\
  nth_error (predators_loc s) i = Some p.

Lemma step_cases : hunting -> (exists j, In (prey_label j) (neighbours s p radius)) ->
  exists s' p' k f fs, let targets := filter (fun z => (0 <? z)%Z) (neighbours s p radius) in
    predator_step_x fitness pop radius n_predators i d s p killed = Ok (s', p', killed ++ [k]) /\
    map (badness_x fitness pop n_predators i) targets = map Some fs /\ scan None (combine fs targets) = Some (f, prey_label k).
Proof.
  intros (H2 & Dy & Dx & W & ND & L & K & Hi) (j & Hj).
  destruct (predator_step_x_spec fitness pop radius n_predators H2 (fun _ _ => (0, 0)) i d s p killed Dy Dx W (conj ND (conj L K)) Hi) as (s' & p' & k' & E & _ & _ & _ & _ & _ & C).
  destruct C as [(_ & _ & C)|(k & f & fs & -> & _ & _ & C1 & C2)].
  - specialize (C _ Hj). pose proof (prey_label_pos j). lia.
  - exists s', p', k, f, fs. auto.
Qed.
Lemma badness_at k m : nth_error pop k = Some m -> badness_x fitness pop n_predators i (prey_label k) =
  match fitness m with o1 :: o2 :: _ => Some (xqadd (xqscale (weight n_predators i) o1) (xqscale (1 - weight n_predators i)%Q o2)) | _ => None end.
Proof. intros H. unfold badness_x. replace (Z.to_nat (prey_label k - 1)) with k by (unfold prey_label; lia). rewrite H. reflexivity. Qed.
Lemma label_inj j k : prey_label j = prey_label k -> j = k. Proof. unfold prey_label. lia. Qed.

(** What a predator does when the weighted sum of some prey [j] in its neighbourhood is NaN. *)
Lemma nan_seen l1 j l2 m : hunting -> neighbours s p radius = l1 ++ prey_label j :: l2 -> nth_error pop j = Some m ->
  badness_x fitness pop n_predators i (prey_label j) = Some QNaN ->
  exists s' p' k, predator_step_x fitness pop radius n_predators i d s p killed = Ok (s', p', killed ++ [k]) /\
    ((forall k', ~ In (prey_label k') l2) -> k = j) /\ ((exists k', In (prey_label k') l2) -> In (prey_label k) l2).
Proof.
  intros Hh En Hm Hb. destruct (step_cases Hh) as (s' & p' & k & f & fs & E & Ef & Es); [exists j; rewrite En; apply in_or_app; right; now left|].
  exists s', p', k. split; [exact E|]. rewrite En, filter_app in Ef, Es. cbn [filter] in Ef, Es.
  assert (Hp : (0 <? prey_label j)%Z = true) by (apply Z.ltb_lt, prey_label_pos). rewrite Hp in Ef, Es.
  set (t1 := filter (fun z => (0 <? z)%Z) l1) in *. set (t2 := filter (fun z => (0 <? z)%Z) l2) in *.
  rewrite map_app in Ef. cbn [map] in Ef. rewrite Hb in Ef.
  assert (Sp : exists f1 f2, fs = f1 ++ QNaN :: f2 /\ length f1 = length t1).
  { exists (firstn (length t1) fs), (skipn (S (length t1)) fs). assert (L : length fs = length t1 + S (length t2)).
    { apply (f_equal (@length _)) in Ef. rewrite app_length in Ef. cbn [length] in Ef. rewrite !map_length in Ef. lia. }
    split; [|rewrite firstn_length; lia]. assert (N : nth_error fs (length t1) = Some QNaN).
    { assert (E2 : nth_error (map Some fs) (length t1) = Some (Some QNaN)). { rewrite <- Ef, nth_error_app2 by (rewrite map_length; lia). rewrite map_length, Nat.sub_diag. reflexivity. }
      rewrite nth_error_map in E2. destruct (nth_error fs (length t1)); cbn in E2; congruence. }
    apply nth_error_split in N. destruct N as (a & b & -> & La). rewrite <- La. rewrite firstn_app, Nat.sub_diag, firstn_all. cbn [firstn]. rewrite app_nil_r.
    replace (S (length a)) with (length (a ++ [QNaN])) by (rewrite app_length; cbn; lia). change (a ++ QNaN :: b) with (a ++ [QNaN] ++ b) at 2. rewrite app_assoc, skipn_app, skipn_all, Nat.sub_diag. reflexivity. }
  destruct Sp as (f1 & f2 & -> & L1). assert (L2 : length f2 = length t2).
  { apply (f_equal (@length _)) in Ef. rewrite app_length in Ef. cbn [length] in Ef. rewrite !map_length, app_length in Ef. cbn [length] in Ef. lia. }
  assert (EC : combine (f1 ++ QNaN :: f2) (t1 ++ prey_label j :: t2) = combine f1 t1 ++ (QNaN, prey_label j) :: combine f2 t2).
  { revert L1. clear. revert f1. induction t1 as [|t t1 IH]; intros [|x f1] L; try discriminate; [reflexivity|]. cbn [app combine]. f_equal. apply IH. cbn in L. lia. }
  rewrite EC, scan_nan in Es. split; intros H.
  - assert (E2 : t2 = []). { destruct t2 as [|t t2'] eqn:Et; [reflexivity|exfalso]. assert (In t (filter (fun z => (0 <? z)%Z) l2)) as I by (fold t2; rewrite Et; now left).
      apply filter_In in I. destruct I as (I1 & I2). apply Z.ltb_lt in I2. apply (H (Z.to_nat (t - 1))). replace (prey_label (Z.to_nat (t - 1))) with t by (unfold prey_label; lia). exact I1. }
    rewrite E2 in Es. destruct f2; [|cbn in L2; rewrite E2 in L2; discriminate]. cbn [combine] in Es. injection Es as _ Ek. symmetry. apply label_inj. exact Ek.
  - assert (I : In (prey_label k) t2).
    { destruct (combine f2 t2) as [|x l] eqn:Ec.
      - exfalso. destruct H as (k' & Hk). assert (In (prey_label k') t2) as I by (apply filter_In; split; [exact Hk|apply Z.ltb_lt, prey_label_pos]).
        destruct t2 as [|t t2']; [destruct I|]. destruct f2; [discriminate|discriminate].
      - destruct (scan_in _ _ _ Es) as [I|I]; [|discriminate]. rewrite <- Ec in I. apply in_combine_r in I. exact I. }
    apply filter_In in I. exact (proj1 I).
Qed.

(** C129. A prey that failed with NaN hides those seen before it (the neighbourhood is scanned row by row): the predator kills somebody seen after it, whoever that is compared to the
    others, and the failed prey itself only when it is the last one seen. *)
Theorem C129_nan_hides_refuted : forall l1 j l2 m, hunting -> neighbours s p radius = l1 ++ prey_label j :: l2 -> nth_error pop j = Some m -> fails_nan (fitness m) ->
  exists s' p' k, predator_step_x fitness pop radius n_predators i d s p killed = Ok (s', p', killed ++ [k]) /\
    ((forall k', ~ In (prey_label k') l2) -> k = j) /\ ((exists k', In (prey_label k') l2) -> In (prey_label k) l2).
Proof.
  intros l1 j l2 m Hh En Hm Hf. apply (nan_seen l1 j l2 m Hh En Hm). rewrite (badness_at j m Hm). destruct Hh as (H2 & _). specialize (H2 m (nth_error_In _ _ Hm)).
  destruct (fitness m) as [|o1 [|o2 r]]; cbn [length] in H2; try lia. rewrite (Hf o1), (Hf o2) by (cbn; auto). reflexivity.
Qed.
(** C129. The first and the last predator, whose weights are 0 and 1, treat prey that failed with +infinity in the same way (0 * inf is NaN). *)
Theorem C129_edge_predators_refuted : forall l1 j l2 m, i = 0 \/ S i = n_predators -> hunting ->
  neighbours s p radius = l1 ++ prey_label j :: l2 -> nth_error pop j = Some m -> fails_inf (fitness m) ->
  exists s' p' k, predator_step_x fitness pop radius n_predators i d s p killed = Ok (s', p', killed ++ [k]) /\
    ((forall k', ~ In (prey_label k') l2) -> k = j) /\ ((exists k', In (prey_label k') l2) -> In (prey_label k) l2).
Proof.
  intros l1 j l2 m He Hh En Hm Hf. apply (nan_seen l1 j l2 m Hh En Hm). rewrite (badness_at j m Hm). destruct Hh as (H2 & _). specialize (H2 m (nth_error_In _ _ Hm)).
  destruct (fitness m) as [|o1 [|o2 r]]; cbn [length] in H2; try lia. rewrite (Hf o1), (Hf o2) by (cbn; auto). f_equal.
  assert (W : (weight n_predators i == 0)%Q \/ (1 - weight n_predators i == 0)%Q).
  { destruct He as [->|He]; unfold weight; destruct (Nat.ltb_spec 1 n_predators) as [Hn|Hn].
    - left. unfold Qeq. cbn. reflexivity.
    - left. reflexivity.
    - right. subst n_predators. replace (S i - 1) with i by lia. assert (Ep : Z.pos (Pos.of_nat i) = Z.of_nat i) by (destruct i as [|i']; [lia|]; rewrite <- Pos.of_nat_succ; lia).
      unfold Qeq, Qminus, Qplus, Qopp. cbn [Qnum Qden]. rewrite Ep. lia.
    - left. reflexivity. }
  destruct W as [W|W].
  - cbn [xqscale]. apply Qeq_bool_iff in W. rewrite W. reflexivity.
  - cbn [xqscale]. apply Qeq_bool_iff in W. rewrite W. destruct (if Qeq_bool (weight n_predators i) 0 then QNaN else _); reflexivity.
Qed.
(** C129. All other predators kill a prey that failed with +infinity whenever there is one in the neighbourhood, if nobody there failed with NaN. *)
Theorem C129_infinite_killed_first : forall j m, 0 < i -> S i < n_predators -> hunting ->
  In (prey_label j) (neighbours s p radius) -> nth_error pop j = Some m -> fails_inf (fitness m) ->
  (forall m', In m' pop -> succeeds (fitness m') \/ fails_inf (fitness m')) ->
  exists s' p' k mk, predator_step_x fitness pop radius n_predators i d s p killed = Ok (s', p', killed ++ [k]) /\ nth_error pop k = Some mk /\ fails_inf (fitness mk).
Proof.
  intros j m Hi0 Hi1 Hh Hj Hm Hf Hall. destruct (step_cases Hh) as (s' & p' & k & f & fs & E & Ef & Es); [eauto|].
  assert (W : (0 < weight n_predators i)%Q /\ (0 < 1 - weight n_predators i)%Q).
  { unfold weight. destruct (Nat.ltb_spec 1 n_predators) as [Hn|Hn]; [|lia]. 
    assert (Z.pos (Pos.of_nat (n_predators - 1)) = Z.of_nat (n_predators - 1)) as Ep. { destruct (n_predators - 1) as [|q] eqn:Eq; [lia|]. rewrite <- Pos.of_nat_succ. lia. }
    unfold Qlt, Qminus, Qplus, Qopp. cbn [Qnum Qden]. rewrite ?Pos.mul_1_l, ?Ep. split; lia. }
  destruct W as (W1 & W2). set (w := weight n_predators i) in *.
  assert (Wn : forall v, (0 < v)%Q -> Qeq_bool v 0 = false /\ Qle_bool 0 v = true).
  { intros v Hv. split; [|apply Qle_bool_iff, Qlt_le_weak; exact Hv]. destruct (Qeq_bool v 0) eqn:Ev; [|reflexivity]. apply Qeq_bool_iff in Ev. rewrite Ev in Hv. apply Qlt_irrefl in Hv. destruct Hv. }
  destruct (Wn w W1) as (A1 & A2). destruct (Wn _ W2) as (B1 & B2).
  assert (Val : forall q mq x, nth_error pop q = Some mq -> badness_x fitness pop n_predators i (prey_label q) = Some x -> x <> QNaN /\ (fails_inf (fitness mq) -> x = QPInf) /\ (x = QPInf -> fails_inf (fitness mq))).
  { intros q mq x Hq Hx. rewrite (badness_at q mq Hq) in Hx. fold w in Hx. destruct Hh as (H2 & _). specialize (H2 mq (nth_error_In _ _ Hq)). specialize (Hall mq (nth_error_In _ _ Hq)).
    destruct (fitness mq) as [|o1 [|o2 r]]; cbn [length] in H2; try lia. injection Hx as <-. destruct Hall as [G|G].
    - destruct (G o1) as (q1 & ->); [now left|]. destruct (G o2) as (q2 & ->); [right; now left|]. cbn. split; [discriminate|]. split; [intros X; specialize (X (QFin q1) (or_introl eq_refl)); discriminate|discriminate].
    - rewrite (G o1), (G o2) by (cbn; auto). cbn [xqscale]. rewrite A1, A2, B1, B2. cbn. split; [discriminate|]. split; [auto|]. intros _ a [<-|[<-|Ha]]; auto. apply G. right. now right. }
  set (targets := filter (fun z => (0 <? z)%Z) (neighbours s p radius)) in *.
  assert (Lf : length fs = length targets) by (apply (f_equal (@length _)) in Ef; rewrite !map_length in Ef; lia).
  assert (Pair : forall x t, In (x, t) (combine fs targets) -> badness_x fitness pop n_predators i t = Some x).
  { revert Lf Ef. clear. revert fs. induction targets as [|u ts IH]; intros [|y fs] L Ef x t H; cbn [combine] in H; try (destruct H; fail). cbn [map] in Ef. injection Ef as Ef1 Ef2.
    destruct H as [H|H]; [injection H as <- <-; exact Ef1|]. apply (IH fs); auto. }
  assert (Tl : forall t, In t targets -> exists q mq, t = prey_label q /\ nth_error pop q = Some mq).
  { intros t Ht. apply filter_In in Ht. destruct Ht as (H1 & H2). apply Z.ltb_lt in H2. destruct Hh as (_ & _ & _ & W & _ & L & _ & Hi). destruct (wf_pred s W i p Hi) as (Bp & _).
    destruct (neighbour_prey s p radius t W Bp H1 H2) as (q & o & -> & Hq & _). exists q. destruct (nth_error pop q) as [mq|] eqn:Eq; [eauto|]. apply nth_error_None in Eq.
    assert (q < length (preys_loc s)) by (apply nth_error_Some; congruence). lia. }
  destruct (scan_inf (combine fs targets)) with (best := @None (xq * Z)) as (w' & Ew & Ei).
  - intros [x t] Hx. cbn [fst]. destruct (Tl t (in_combine_r _ _ _ _ Hx)) as (q & mq & -> & Hq). exact (proj1 (Val q mq x Hq (Pair _ _ Hx))).
  - discriminate.
  - left. assert (Ht : In (prey_label j) targets) by (apply filter_In; split; [exact Hj|apply Z.ltb_lt, prey_label_pos]).
    apply In_nth_error in Ht. destruct Ht as (n & Hn). destruct (nth_error fs n) as [x|] eqn:Ex; [|apply nth_error_None in Ex; assert (n < length targets) by (apply nth_error_Some; congruence); lia].
    exists (x, prey_label j). assert (I : In (x, prey_label j) (combine fs targets)).
    { revert Ex Hn. clear. revert fs n. induction targets as [|u ts IH]; intros [|y fs] [|n] H1 H2; cbn in *; try discriminate; [left; congruence|right; eauto]. }
    split; [exact I|]. cbn [fst]. exact (proj1 (proj2 (Val j m x Hm (Pair _ _ I))) Hf).
  - rewrite Es in Ew. injection Ew as <-. cbn [fst] in Ei. subst f. destruct (scan_in _ _ _ Es) as [I|I]; [|discriminate].
    destruct (Tl (prey_label k) (in_combine_r _ _ _ _ I)) as (q & mq & Eq & Hq). apply label_inj in Eq. subst q. exists s', p', k, mq. split; [exact E|]. split; [exact Hq|]. exact (proj2 (proj2 (Val k mq QPInf Hq (Pair _ _ I))) eq_refl).
Qed.
End Kills.

(** ** The cull *)
(** C129. A member that failed with NaN is never culled. One that failed with +infinity is culled whenever any successful one is. *)
Theorem C129_cull : forall nds fit mr, nds_x_contract nds -> (forall f, In f fit -> f <> [] /\ (succeeds f \/ fails_inf f \/ fails_nan f)) -> (forall f g, In f fit -> In g fit -> length f = length g) ->
  (forall i f, nth_error fit i = Some f -> fails_nan f -> ~ In i (ppga_select (nds fit) (length fit) mr)) /\
  (forall i f j g, nth_error fit i = Some f -> fails_inf f -> nth_error fit j = Some g -> succeeds g ->
     In j (ppga_select (nds fit) (length fit) mr) -> In i (ppga_select (nds fit) (length fit) mr)).
Proof.
  intros nds fit mr FC Hr Hl.
  assert (SF : sorted_fronts (length fit) (xqrow_dom fit) (nds fit)).
  { apply FC. intros f Hf. destruct (Hr f Hf) as (_ & [G|[G|G]]); [right|right|now left]; intros N; [destruct (G _ N) as (q & E); discriminate|specialize (G _ N); discriminate]. }
  assert (Sel : forall i, In i (ppga_select (nds fit) (length fit) mr) <-> exists a f, nth_error (nds fit) a = Some f /\ In i f /\ mr < a).
  { intros i. eapply ppga_select_spec. exact SF. }
  split.
  - intros i f Hi Hf Hs. apply Sel in Hs. destruct Hs as (a & fr & Ha & Ii & Hm). destruct a as [|a]; [lia|].
    destruct (nth_error (nds fit) a) as [f0|] eqn:E0; [|apply nth_error_None in E0; assert (S a < length (nds fit)) by (apply nth_error_Some; congruence); lia].
    destruct (sf_prev _ _ _ SF a f0 fr i E0 Ha Ii) as (j & Hj & u & v & Hu & Hv & _ & k & x & y & X1 & X2 & X3). rewrite Hi in Hv. injection Hv as <-.
    rewrite (Hf y) in X3 by (eapply nth_error_In; eauto). destruct x; discriminate.
  - intros i f j g Hi Hf Hj Hg Hs. apply Sel in Hs. destruct Hs as (b & fb & Hb & Ij & Hm). apply Sel.
    assert (Ii : In i (concat (nds fit))). { apply (Permutation_in _ (Permutation_sym (sf_perm _ _ _ SF))), in_seq. assert (i < length fit) by (apply nth_error_Some; congruence). lia. }
    apply in_concat in Ii. destruct Ii as (fa & Hfa & Ii). apply In_nth_error in Hfa. destruct Hfa as (a & Ha). exists a, fa. split; [exact Ha|]. split; [exact Ii|].
    assert (b < a); [|lia]. apply (sf_order _ _ _ SF b a fb fa j i Hb Ha Ij Ii). exists g, f. split; [exact Hj|]. split; [exact Hi|].
    assert (L : length g = length f) by (apply Hl; eapply nth_error_In; eauto). assert (NE : g <> []) by (apply (Hr g); eapply nth_error_In; eauto).
    split.
    + clear -Hf Hg L. revert f Hf L. induction g as [|x g IH]; intros [|y f] Hf L; try discriminate; constructor.
      * destruct (Hg x (or_introl eq_refl)) as (q & ->). rewrite (Hf y (or_introl eq_refl)). split; [discriminate|]. split; [discriminate|reflexivity].
      * apply IH; [intros a Ha; apply Hg; now right|intros a Ha; apply Hf; now right|cbn in L; lia].
    + destruct g as [|x g]; [congruence|]. destruct f as [|y f]; [discriminate|]. exists 0, x, y. split; [reflexivity|]. split; [reflexivity|].
      destruct (Hg x (or_introl eq_refl)) as (q & ->). rewrite (Hf y (or_introl eq_refl)). reflexivity.
Qed.

Print Assumptions C129_finite_values.
Print Assumptions C129_lattice_consistent.
Print Assumptions C129_never_below_target.
Print Assumptions C129_nan_hides_refuted.
Print Assumptions C129_edge_predators_refuted.
Print Assumptions C129_infinite_killed_first.
Print Assumptions C129_cull.

(** ** Concrete runs *)
(** A 4 x 4 lattice with three predators and six prey. *)
Definition lat3 : lat := match new_lattice first_of first_of 4 4 3 6 with Ok s => s | Err _ => mkLat 0 0 (fun _ => 0%Z) [] [] end.
Lemma lat3_ok : new_lattice first_of first_of 4 4 3 6 = Ok lat3. Proof. reflexivity. Qed.
Definition two (x : Q) : list xq := [QFin x; QFin x].
Lemma lat3_hunting (pop : list (list xq)) i p : length pop = 6 -> (forall f, In f pop -> 2 <= length f) -> nth_error (predators_loc lat3) i = Some p ->
  hunting (fun f => f) pop 3 i (1, 1) lat3 p [].
Proof.
  intros L H2 Hi. pose proof (new_lattice_spec first_of first_of 4 4 3 6 sampling_exists sampling_exists) as N. rewrite lat3_ok in N. destruct N as (W & Ny & Nx & _ & Lp & _).
  split; [exact H2|]. rewrite Ny, Nx. split; [cbn; lia|]. split; [cbn; lia|]. split; [exact W|]. split; [constructor|]. split; [congruence|]. split; [|exact Hi].
  intros k. split; [intros []|]. intros E. exfalso. do 7 (destruct k as [|k]; [cbn in E; discriminate|]). destruct k; cbn in E; discriminate.
Qed.
Lemma lat3_neighbours : neighbours lat3 (0, 1) 3 = [0; 0; 0; -1; -2; -3; 2; 3; 4]%Z. Proof. vm_compute. reflexivity. Qed.
(** NaN in prey 2 (label 3): predator 1 kills prey 3, by far the best one, rather than prey 1. *)
Definition pop_nan : list (list xq) := [two 1; two 100; [QNaN; QNaN]; two (1#2); two 2; two 3].
Example C129_nan_example : hunting (fun f => f) pop_nan 3 1 (1, 1) lat3 (0, 1) [] /\
  neighbours lat3 (0, 1) 3 = [0; 0; 0; -1; -2; -3; 2]%Z ++ prey_label 2 :: [4]%Z /\ fails_nan (nth 2 pop_nan []) /\
  exists s' p', predator_step_x (fun f => f) pop_nan 3 3 1 (1, 1) lat3 (0, 1) [] = Ok (s', p', [3]).
Proof.
  split; [apply lat3_hunting; [reflexivity|intros f [<-|[<-|[<-|[<-|[<-|[<-|[]]]]]]]; cbn; lia|reflexivity]|]. split; [exact lat3_neighbours|].
  split; [intros a [<-|[<-|[]]]; reflexivity|]. eexists; eexists. vm_compute. reflexivity.
Qed.
(** +infinity in prey 2: predator 1 (of 0, 1, 2) kills it; predator 0 in the same place would have killed prey 3. *)
Definition pop_inf : list (list xq) := [two 1; two 100; [QPInf; QPInf]; two (1#2); two 2; two 3].
Example C129_inf_example : hunting (fun f => f) pop_inf 3 1 (1, 1) lat3 (0, 1) [] /\ In (prey_label 2) (neighbours lat3 (0, 1) 3) /\
  (forall m, In m pop_inf -> succeeds m \/ fails_inf m) /\
  exists s' p', predator_step_x (fun f => f) pop_inf 3 3 1 (1, 1) lat3 (0, 1) [] = Ok (s', p', [2]).
Proof.
  split; [apply lat3_hunting; [reflexivity|intros f [<-|[<-|[<-|[<-|[<-|[<-|[]]]]]]]; cbn; lia|reflexivity]|]. split; [rewrite lat3_neighbours; cbn; auto 10|]. split.
  - assert (T : forall x, succeeds (two x)) by (intros x a [<-|[<-|[]]]; eauto).
    intros m [<-|[<-|[<-|[<-|[<-|[<-|[]]]]]]]; auto. right. intros a [<-|[<-|[]]]; reflexivity.
  - eexists; eexists. vm_compute. reflexivity.
Qed.
Lemma lat3_neighbours2 : neighbours lat3 (0, 2) 3 = [0; 0; 0; -2; -3; 1; 3; 4; 5]%Z. Proof. vm_compute. reflexivity. Qed.
(** The last predator (weight 1): the infinite prey 2 is spared, prey 4 or 3 dies. *)
Example C129_edge_example : hunting (fun f => f) pop_inf 3 2 (1, 1) lat3 (0, 2) [] /\ S 2 = 3 /\ fails_inf (nth 2 pop_inf []) /\
  neighbours lat3 (0, 2) 3 = [0; 0; 0; -2; -3; 1]%Z ++ prey_label 2 :: [4; 5]%Z /\
  exists s' p', predator_step_x (fun f => f) pop_inf 3 3 2 (1, 1) lat3 (0, 2) [] = Ok (s', p', [4]).
Proof.
  split; [apply lat3_hunting; [reflexivity|intros f [<-|[<-|[<-|[<-|[<-|[<-|[]]]]]]]; cbn; lia|reflexivity]|]. split; [reflexivity|]. split; [intros a [<-|[<-|[]]]; reflexivity|].
  split; [exact lat3_neighbours2|]. eexists; eexists. vm_compute. reflexivity.
Qed.
(** The contract of the sorting is satisfiable. *)
Lemma xqlt_irr a : xqlt a a = false. Proof. destruct (xqlt a a) eqn:E; [|reflexivity]. pose proof (xqlt_asym _ _ E). congruence. Qed.
Lemma xqle_trans a b c : xqle a b -> xqle b c -> xqle a c.
Proof.
  intros (A1 & A2 & A3) (B1 & B2 & B3). split; [exact A1|]. split; [exact B2|]. destruct a, b, c; cbn in *; auto; try congruence.
  apply negb_false_iff, Qle_bool_iff in A3. apply negb_false_iff, Qle_bool_iff in B3. apply negb_false_iff, Qle_bool_iff. eapply Qle_trans; eauto.
Qed.
Lemma xqlt_le a b c : xqlt a b = true -> xqle b c -> xqlt a c = true.
Proof.
  intros A1 (B1 & B2 & B3). destruct a, b, c; cbn in *; auto; try congruence. apply negb_false_iff, Qle_bool_iff in B3. apply negb_true_iff in A1. apply negb_true_iff.
  destruct (Qle_bool q1 q) eqn:E; [|reflexivity]. apply Qle_bool_iff in E. assert (Qle_bool q0 q = true) by (apply Qle_bool_iff; eapply Qle_trans; eauto). congruence.
Qed.
Lemma xqle_dec a b : {xqle a b} + {~ xqle a b}.
Proof.
  assert (N : forall x : xq, {x = QNaN} + {x <> QNaN}) by (intros []; [right|right|right|left]; congruence).
  destruct (N a) as [E|E]; [right; intros (H & _); auto|]. destruct (N b) as [F|F]; [right; intros (_ & H & _); auto|].
  destruct (xqlt b a) eqn:G; [right; intros (_ & _ & H); congruence|left]. split; [exact E|]. split; [exact F|exact G].
Defined.
Lemma rows_le_dec u : forall v, {Forall2 xqle u v} + {~ Forall2 xqle u v}.
Proof.
  induction u as [|a u IH]; intros [|b v]; [left; constructor|right; intros H; inversion H|right; intros H; inversion H|].
  destruct (xqle_dec a b) as [E|E]; [|right; intros H; inversion H; auto]. destruct (IH v) as [F|F]; [left; constructor; assumption|right; intros H; inversion H; auto].
Defined.
Fixpoint xq_lt_somewhere (u v : list xq) : bool := match u, v with a :: u', b :: v' => xqlt a b || xq_lt_somewhere u' v' | _, _ => false end.
Lemma xq_lt_somewhere_spec u : forall v, xq_lt_somewhere u v = true <-> exists i x y, nth_error u i = Some x /\ nth_error v i = Some y /\ xqlt x y = true.
Proof.
  induction u as [|a u IH]; intros [|b v]; cbn [xq_lt_somewhere].
  - split; [discriminate|]. intros ([|i] & x & y & H & _); discriminate.
  - split; [discriminate|]. intros ([|i] & x & y & H & _); discriminate.
  - split; [discriminate|]. intros ([|i] & x & y & _ & H & _); discriminate.
  - rewrite orb_true_iff, IH. split.
    + intros [H|(i & x & y & H)]; [exists 0, a, b; auto|exists (S i), x, y; exact H].
    + intros ([|i] & x & y & H1 & H2 & H3); [left; cbn in *; congruence|right; exists i, x, y; auto].
Qed.
Lemma xqdominates_dec u v : {xqdominates u v} + {~ xqdominates u v}.
Proof.
  destruct (rows_le_dec u v) as [F|F]; [|right; intros [H _]; auto]. destruct (xq_lt_somewhere u v) eqn:E.
  - left. split; [exact F|apply xq_lt_somewhere_spec; exact E].
  - right. intros [_ H]. apply xq_lt_somewhere_spec in H. congruence.
Defined.
Lemma xqrow_dom_dec fit i j : {xqrow_dom fit i j} + {~ xqrow_dom fit i j}.
Proof.
  unfold xqrow_dom. destruct (nth_error fit i) as [a|]; [|right; intros (a & b & X & _); discriminate].
  destruct (nth_error fit j) as [b|]; [|right; intros (a' & b & _ & X & _); discriminate].
  destruct (xqdominates_dec a b) as [D|D]; [left; exists a, b; auto|]. right. intros (a' & b' & Ea & Eb & X). injection Ea as <-. injection Eb as <-. auto.
Defined.
Definition ref_nds_x (fit : list (list xq)) : list (list nat) := peel (xqrow_dom fit) (xqrow_dom_dec fit) (length fit) (seq 0 (length fit)).
Example nds_x_exists : nds_x_contract ref_nds_x.
Proof.
  intros fit _. apply peel_sorted.
  - intros i (a & b & H1 & H2 & _ & k & x & y & X1 & X2 & X3). rewrite H1 in H2. injection H2 as <-. rewrite X1 in X2. injection X2 as <-. rewrite xqlt_irr in X3. discriminate.
  - intros i j k (a & b & H1 & H2 & F1 & p & x & y & X1 & X2 & X3) (b' & d & H3 & H4 & F2 & _). rewrite H2 in H3. injection H3 as <-.
    exists a, d. split; [exact H1|]. split; [exact H4|]. split.
    + clear -F1 F2. revert d F2. induction F1; intros d F2; inversion F2; subst; constructor; auto. eapply xqle_trans; eauto.
    + assert (exists z, nth_error d p = Some z /\ xqle y z) as (z & Hz & Lz).
      { clear -F2 X2. revert p X2. induction F2; intros [|p] X2; cbn in *; try discriminate; [injection X2 as <-; eauto|eauto]. }
      exists p, x, z. split; [exact X1|]. split; [exact Hz|]. eapply xqlt_le; eauto.
Qed.
(** A run: one generation on the lattice above, with a NaN and an infinite prey, ends normally in a consistent state. *)
Definition cfg3 : ppga_cfg := mkPC 3 3 2 1 0 3.
Definition draws3 : gen_draws := mkGD (fun i => mkPD (Nat.even i) [(2, 1)] i) (fun i => (3, i mod 4)) (fun _ _ => (1, 2)).
Definition pop_mixed : list (list xq) := [two 1; two 100; [QPInf; QPInf]; [QNaN; QNaN]; two 2; two 3].
Definition mate3 (pop : list (list xq)) (pairs : list (nat * nat)) : list (list xq) := map (fun pr => nth (fst pr) pop []) pairs.
Example C129_run : reachable_x (fun f => f) ref_nds_x mate3 cfg3 (lat3, pop_mixed, 0, 6) /\ in_shape lat3 cfg3 draws3 /\ sensible cfg3.
Proof.
  split; [|split].
  - apply (rx_start (fun f => f) ref_nds_x mate3 cfg3 first_of first_of 4 4); [exact sampling_exists|exact sampling_exists|exact lat3_ok].
  - split; intros i; [|intros m]; cbn [draws3 gd_place gd_pred fst snd]; change (size_y lat3) with 4; change (size_x lat3) with 4; [|cbn; lia]. split; [lia|]. apply Nat.mod_upper_bound. lia.
  - unfold sensible, cfg3; cbn; lia.
Qed.
