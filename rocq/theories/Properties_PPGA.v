(** Properties of the predator-prey algorithm: C52-C55, C79-C82. *)
From Verif Require Import Base M_PPGA P_PPGA P_PPGA2 P_PPGA3 Spec_Fronts Pareto.
From Coq Require Import QArith Permutation.
Open Scope nat_scope.

(** ** Specification *)
(** The lattice agrees with the population: prey i sits in exactly one cell, which holds i + 1; predator i in one holding -(i + 1);
    every other cell holds 0. *)
Record consistent {A} (s : lat) (pop : list A) : Prop := {
  cs_count : length (preys_loc s) = length pop;
  cs_prey : forall i, i < length pop -> exists p, nth_error (preys_loc s) i = Some (Some p) /\
              fst p < size_y s /\ snd p < size_x s /\ cells s p = Z.of_nat (S i);
  cs_pred : forall i p, nth_error (predators_loc s) i = Some p -> fst p < size_y s /\ snd p < size_x s /\ cells s p = (- Z.of_nat (S i))%Z;
  cs_cell : forall q, fst q < size_y s -> snd q < size_x s -> cells s q <> 0%Z ->
              (exists i, i < length pop /\ nth_error (preys_loc s) i = Some (Some q)) \/ (exists i, nth_error (predators_loc s) i = Some q) }.

Lemma consistent_iff {A} s (pop : list A) : consistent s pop <-> wf s /\ alive s pop.
Proof.
  split.
  - intros [C1 C2 C3 C4]. split; [|split; auto; intros i Hi; destruct (C2 i Hi) as (p & Hp & _); eauto]. constructor.
    + intros i p Hi. assert (Li : i < length pop) by (rewrite <- C1; apply nth_error_Some; congruence).
      destruct (C2 i Li) as (p' & Hp & B1 & B2 & B3). rewrite Hi in Hp. injection Hp as <-. split; [split; auto|]. unfold prey_label. lia.
    + intros i p Hi. destruct (C3 i p Hi) as (B1 & B2 & B3). split; [split; auto|]. unfold predator_label. lia.
    + intros q (B1 & B2) H. destruct (C4 q B1 B2 H) as [(i & _ & Hi)|]; eauto.
  - intros (W & L & Al). constructor; auto.
    + intros i Hi. destruct (Al i Hi) as (p & Hp). exists p. destruct (wf_prey s W i p Hp) as ((B1 & B2) & C). unfold prey_label in C.
      split; auto. split; auto. split; auto. lia.
    + intros i p Hi. destruct (wf_pred s W i p Hi) as ((B1 & B2) & C). unfold predator_label in C. split; auto. split; auto. lia.
    + intros q B1 B2 H. destruct (wf_cell s W q (conj B1 B2) H) as [(i & Hi)|]; auto. left. exists i. split; auto. rewrite <- L. apply nth_error_Some. congruence.
Qed.

(** Contracts of the random draws: random.sample returns that many distinct elements of the sequence; numpy's randint stays below its bound. *)
Definition sampling (sample : list pos -> nat -> list pos) : Prop := sample_ok sample.
Definition in_shape (s : lat) (c : ppga_cfg) (r : gen_draws) : Prop :=
  (forall i, fst (gd_place r i) < size_y s /\ snd (gd_place r i) < size_x s) /\
  (forall i m, fst (gd_pred r i m) < Nat.min (pc_radius c) (size_y s) /\ snd (gd_pred r i m) < Nat.min (pc_radius c) (size_x s)).
(** Contract of fast_non_dominated_sort. *)
Definition nds_contract (nds : list (list Q) -> list (list nat)) : Prop :=
  forall fit, sorted_fronts (length fit) (fun i j => exists a b, nth_error fit i = Some a /\ nth_error fit j = Some b /\ pareto a b) (nds fit).
(** Parameters a user may choose: at least one predator, one placing attempt, a positive killing interval. *)
Definition sensible (c : ppga_cfg) : Prop := 0 < pc_predators c /\ 0 < pc_attempts c /\ 0 < pc_kill_interval c.

(** The states reachable from a new lattice holding an initial population, through any number of generations (with any draws),
    including generations that stop with the exception. *)
Section History.
Context {A : Type} (fitness : A -> list Q) (nds : list (list Q) -> list (list nat)) (mate : list A -> list (nat * nat) -> list A).
Variable c : ppga_cfg.
Inductive reachable : lat * list A * nat * nat -> Prop :=
| r_start : forall sample1 sample2 sy sx s pop gen fe, sampling sample1 -> sampling sample2 ->
    new_lattice sample1 sample2 sy sx (pc_predators c) (length pop) = Ok s -> reachable (s, pop, gen, fe)
| r_gen : forall s pop gen fe r st, reachable (s, pop, gen, fe) -> in_shape s c r ->
    ppga_gen fitness nds mate c r (s, pop, gen, fe) = Ok st -> reachable st
| r_raise : forall s pop gen fe r s' e, reachable (s, pop, gen, fe) -> move_prey (gd_prey r) s = (s', Err e) -> reachable (s', pop, gen, fe).

Hypothesis objs : forall m, 2 <= length (fitness m).
Hypothesis cok : sensible c.

Lemma reachable_inv st : reachable st -> wf (fst (fst (fst st))) /\ alive (fst (fst (fst st))) (snd (fst (fst st))) /\
  length (predators_loc (fst (fst (fst st)))) = pc_predators c.
Proof.
  destruct cok as (K1 & K2 & K3). induction 1 as [sample1 sample2 sy sx s pop gen fe S1 S2 E|s pop gen fe r st H IH (D1 & D2) E|s pop gen fe r s' e H IH E]; cbn [fst snd] in *.
  - pose proof (new_lattice_spec sample1 sample2 sy sx (pc_predators c) (length pop) S1 S2) as N. rewrite E in N. destruct N as (N1 & N2 & N3 & N4 & N5 & N6 & _).
    split; auto. split; auto. split; auto.
  - destruct IH as (W & Al & P). assert (Ck : cfg_ok c s) by (constructor; auto). assert (Dk : draws_ok c s r) by (constructor; auto).
    pose proof (ppga_gen_spec fitness nds mate c objs r s pop gen fe Ck Dk W Al) as G. rewrite E in G. destruct st as [[[s' pop'] gen'] fe'].
    destruct G as (s1 & pairs & placed & culled & killed & _ & _ & _ & _ & _ & _ & _ & _ & _ & _ & _ & _ & W' & A' & _ & _ & C'). cbn [fst snd]. split; auto. split; auto. apply C'.
  - destruct IH as (W & Al & P). destruct (move_prey_spec _ _ _ _ W E) as (W' & F & _). split; auto. split; [eapply alive_frame; eauto|]. destruct F as (_ & _ & F & _). congruence.
Qed.

(** C52: at every reachable state. *)
Theorem C52_lattice_consistent : forall s pop gen fe, reachable (s, pop, gen, fe) -> consistent s pop.
Proof. intros s pop gen fe H. apply reachable_inv in H. cbn [fst snd] in H. apply consistent_iff. tauto. Qed.

Theorem C52_predator_count : forall s pop gen fe, reachable (s, pop, gen, fe) -> length (predators_loc s) = pc_predators c.
Proof. intros s pop gen fe H. apply reachable_inv in H. cbn [fst snd] in H. tauto. Qed.

(** C52: nobody shares a cell. *)
Theorem C52_no_sharing : forall s pop gen fe, reachable (s, pop, gen, fe) ->
  (forall i j p, nth_error (preys_loc s) i = Some (Some p) -> nth_error (preys_loc s) j = Some (Some p) -> i = j) /\
  (forall i j p, nth_error (predators_loc s) i = Some p -> nth_error (predators_loc s) j = Some p -> i = j) /\
  (forall i j p, nth_error (preys_loc s) i = Some (Some p) -> nth_error (predators_loc s) j = Some p -> False).
Proof.
  intros s pop gen fe H. apply reachable_inv in H. cbn [fst snd] in H. destruct H as (W & _). split; [|split].
  - intros i j p Hi Hj. destruct (wf_prey s W i p Hi) as (_ & C1). destruct (wf_prey s W j p Hj) as (_ & C2). apply prey_label_inj. congruence.
  - intros i j p Hi Hj. destruct (wf_pred s W i p Hi) as (_ & C1). destruct (wf_pred s W j p Hj) as (_ & C2). apply predator_label_inj. congruence.
  - intros i j p Hi Hj. destruct (wf_prey s W i p Hi) as (_ & C1). destruct (wf_pred s W j p Hj) as (_ & C2).
    pose proof (prey_label_pos i). pose proof (predator_label_neg j). lia.
Qed.

(** C52/C54/C82: what one generation does to the population and, in step, to the prey positions. The offspring kept are those whose drawn
    cell is free after the prey have moved and was not drawn by an earlier offspring; each of them is counted as one evaluation; the same
    individuals are then removed from the population and from the lattice, first by the cull (when due: those after front max_rank) and then by the predators (never below the target size). *)
Theorem C52_generation : forall s pop gen fe r s' pop' gen' fe', reachable (s, pop, gen, fe) -> in_shape s c r ->
  ppga_gen fitness nds mate c r (s, pop, gen, fe) = Ok (s', pop', gen', fe') ->
  exists s1 pairs placed culled killed,
    move_prey (gd_prey r) s = (s1, Ok pairs) /\ consistent s1 pop /\
    (forall i, In i placed <-> i < length (mate pop pairs) /\ cells s1 (gd_place r i) = 0%Z /\ forall j, j < i -> gd_place r j <> gd_place r i) /\
    let pop1 := pop ++ select_pos (fun i => mem_nat i placed) (mate pop pairs) in
    let loc1 := preys_loc s1 ++ map (fun j => Some (gd_place r j)) (filter (fun i => mem_nat i placed) (seq 0 (length (mate pop pairs)))) in
    let keep {B} (l : list B) := select_pos (fun i => negb (mem_nat i killed)) (select_pos (fun i => negb (mem_nat i culled)) l) in
    pop' = keep pop1 /\ preys_loc s' = keep loc1 /\ gen' = S gen /\ fe' = fe + length (select_pos (fun i => mem_nat i placed) (mate pop pairs)) /\
    (nds_contract nds -> forall i, In i culled <-> S gen mod pc_kill_interval c = 0 /\ exists a f, nth_error (nds (map fitness pop1)) a = Some f /\ In i f /\ pc_max_rank c < a) /\
    let pop2 := select_pos (fun i => negb (mem_nat i culled)) pop1 in
    NoDup killed /\ (forall k, In k killed -> k < length pop2) /\ length killed <= length pop2 - pc_target c.
Proof.
  intros s pop gen fe r s' pop' gen' fe' H (D1 & D2) E. pose proof (reachable_inv _ H) as (W & Al & P). cbn [fst snd] in *. destruct cok as (K1 & K2 & K3).
  assert (Ck : cfg_ok c s) by (constructor; auto). assert (Dk : draws_ok c s r) by (constructor; auto).
  pose proof (ppga_gen_spec fitness nds mate c objs r s pop gen fe Ck Dk W Al) as G. rewrite E in G.
  destruct G as (s1 & pairs & placed & culled & killed & G1 & G2 & G3 & G4 & G5 & G6 & G7 & G8 & G9 & G10 & G11 & G12 & G13 & G14 & _).
  assert (Fp : filter (fun i => mem_nat i placed) (seq 0 (length (mate pop pairs))) = placed) by (rewrite G4; apply filter_mem).
  exists s1, pairs, placed, culled, killed. split; auto. split. { apply consistent_iff. split; auto. eapply alive_frame; eauto. }
  split. { intros i. rewrite G4, filter_In, in_seq. unfold gets_cell. rewrite andb_true_iff, Z.eqb_eq, negb_true_iff, Nat.sub_0_r.
    split.
    - intros (Hi & Hc & He). split; [lia|]. split; auto. intros j Hj E'. assert (X : existsb (fun j => pos_eqb (gd_place r j) (gd_place r i)) (seq 0 i) = true).
      { apply existsb_exists. exists j. split; [apply in_seq; lia|]. destruct (pos_eqb_spec (gd_place r j) (gd_place r i)); auto. } congruence.
    - intros (Hi & Hc & He). split; [lia|]. split; auto. destruct (existsb _ _) eqn:X; auto. apply existsb_exists in X. destruct X as (j & Hj & X).
      apply in_seq in Hj. destruct (pos_eqb_spec (gd_place r j) (gd_place r i)) as [E'|]; [|discriminate]. exfalso. apply (He j); auto. lia. }
  cbv zeta. split; auto. split. { rewrite Fp. exact G10. }
  split; auto. split; [rewrite G12, select_pos_filter_length, Fp; auto|]. split.
  { intros Hn i. rewrite G5. destruct (Nat.eqb_spec (S gen mod pc_kill_interval c) 0) as [Hk|Hk].
    - rewrite <- (map_length fitness (pop ++ _)). rewrite (ppga_select_spec _ _ _ _ _ (Hn (map fitness (pop ++ select_pos (fun i => mem_nat i placed) (mate pop pairs))))). tauto.
    - split; [intros []|tauto]. }
  split; auto. split; auto. eapply Nat.le_trans; [exact G8|apply Nat.mul_div_le; lia].
Qed.

(** C53: the predators leave at least the smaller of the population they find and the target size; stated for a whole generation without and with a cull. *)
Lemma kill_bound n t p : 0 < p -> p * max_moves n t p <= n - t.
Proof. intros H. unfold max_moves. apply Nat.mul_div_le. lia. Qed.

Theorem C53_at_least_target : forall s pop gen fe r s' pop' gen' fe', reachable (s, pop, gen, fe) -> in_shape s c r ->
  ppga_gen fitness nds mate c r (s, pop, gen, fe) = Ok (s', pop', gen', fe') -> S gen mod pc_kill_interval c <> 0 ->
  Nat.min (length pop) (pc_target c) <= length pop'.
Proof.
  intros s pop gen fe r s' pop' gen' fe' H (D1 & D2) E Hg. pose proof (reachable_inv _ H) as (W & Al & P). cbn [fst snd] in *. destruct cok as (K1 & K2 & K3).
  assert (Ck : cfg_ok c s) by (constructor; auto). assert (Dk : draws_ok c s r) by (constructor; auto).
  pose proof (ppga_gen_spec fitness nds mate c objs r s pop gen fe Ck Dk W Al) as G. rewrite E in G.
  destruct G as (s1 & pairs & placed & culled & killed & G1 & G2 & G3 & G4 & G5 & G6 & G7 & G8 & G9 & _).
  destruct (Nat.eqb_spec (S gen mod pc_kill_interval c) 0) as [|Hne]; [contradiction|]. subst culled.
  assert (Id : forall B (l : list B), select_pos (fun i => negb (mem_nat i [])) l = l).
  { intros B l. unfold select_pos. generalize 0 as k. induction l as [|x l IH]; intros k; auto. cbn [select_pos_from mem_nat existsb negb]. f_equal. apply IH. }
  rewrite Id in *. rewrite G9. rewrite select_pos_filter_length. pose proof (filter_not_killed killed _ G6 G7) as F.
  pose proof (kill_bound (length (pop ++ select_pos (fun i => mem_nat i placed) (mate pop pairs))) (pc_target c) (pc_predators c) K1).
  rewrite app_length in *. lia.
Qed.
End History.

(** C53, for the predators' turn alone and any population. *)
Theorem C53_predators_stop_at_target : forall {A} (fitness : A -> list Q) radius n_predators target draw s (pop : list A),
  (forall m, In m pop -> 2 <= length (fitness m)) ->
  (forall i m, fst (draw i m) < Nat.min radius (size_y s) /\ snd (draw i m) < Nat.min radius (size_x s)) ->
  consistent s pop -> 0 < n_predators -> length (predators_loc s) = n_predators ->
  exists s' pop', move_predator fitness radius n_predators target draw s pop = Ok (s', pop') /\ consistent s' pop' /\
    Nat.min (length pop) target <= length pop' <= length pop /\ incl pop' pop.
Proof.
  intros A fitness radius n_predators target draw s pop H2 D C Hn Hp. apply consistent_iff in C. destruct C as (W & Al).
  destruct (move_predator_spec fitness radius n_predators target draw s pop H2 D W Al Hn Hp) as (s' & killed & E & W' & Al' & _ & _ & _ & _ & N & I & B).
  eexists; eexists. split; [exact E|]. split; [apply consistent_iff; auto|]. rewrite select_pos_filter_length. pose proof (filter_not_killed killed _ N I).
  pose proof (kill_bound (length pop) target n_predators Hn). split; [lia|].
  intros x Hx. unfold select_pos in Hx. apply select_pos_in in Hx. destruct Hx as (i & Hi & _). eapply nth_error_In; eauto.
Qed.

(** C54: placing. Whatever the (positive) number of attempts, the result is as with one attempt: the cell is drawn before the attempts. *)
Theorem C54_placed_exactly : forall attempts draw n s s' placed, 0 < attempts -> wf s ->
  (forall i, fst (draw i) < size_y s /\ snd (draw i) < size_x s) -> place_offspring attempts draw n s = (s', placed) ->
  placed = filter (fun i => mem_nat i placed) (seq 0 n) /\
  (forall i, In i placed <-> i < n /\ cells s (draw i) = 0%Z /\ forall j, j < i -> draw j <> draw i) /\
  preys_loc s' = preys_loc s ++ map (fun i => Some (draw i)) placed /\ predators_loc s' = predators_loc s /\ wf s'.
Proof.
  intros a draw n s s' placed Ha W B E. unfold place_offspring in E.
  destruct (place_from_spec _ _ _ _ _ _ _ Ha W B E) as (W2 & Hpl & Hpr & Hpd & Hy & Hx & _).
  split. { rewrite Hpl. rewrite filter_mem. auto. } split; [|auto].
  intros i. rewrite Hpl, filter_In, in_seq. unfold gets_cell. rewrite andb_true_iff, Z.eqb_eq, negb_true_iff, Nat.sub_0_r. split.
  - intros (Hi & Hc & He). split; [lia|]. split; auto. intros j Hj E'. assert (X : existsb (fun j => pos_eqb (draw j) (draw i)) (seq 0 i) = true).
    { apply existsb_exists. exists j. split; [apply in_seq; lia|]. destruct (pos_eqb_spec (draw j) (draw i)); auto. } congruence.
  - intros (Hi & Hc & He). split; [lia|]. split; auto. destruct (existsb _ _) eqn:X; auto. apply existsb_exists in X. destruct X as (j & Hj & X).
    apply in_seq in Hj. destruct (pos_eqb_spec (draw j) (draw i)) as [E'|]; [|discriminate]. exfalso. apply (He j); auto. lia.
Qed.
(** "offspring_place_attempts" has no effect beyond the first attempt: an offspring whose first cell is taken is lost although free cells remain. *)
Theorem C54_attempts_useless_refuted : forall attempts draw n s, 0 < attempts -> place_offspring attempts draw n s = place_offspring 1 draw n s.
Proof. intros. apply place_attempts; auto. Qed.

(** C55 *)
Theorem C55_wrap : forall i s, 0 < s -> (0 <= wrap1 i s < Z.of_nat s)%Z /\ exists k, wrap1 i s = (i + k * Z.of_nat s)%Z.
Proof.
  intros i s H. rewrite wrap1_mod by lia. split; [apply Z.mod_pos_bound; lia|]. exists (- (i / Z.of_nat s))%Z. rewrite Z.mod_eq by lia. lia.
Qed.
(** [q] is [k] rows (columns) after [p] on a ring of [s]. *)
Definition ring_offset (s : nat) (p q : nat) (k : Z) : Prop := exists m, Z.of_nat q = (Z.of_nat p + k + m * Z.of_nat s)%Z.

Lemma ring_mod s p k q : 0 < s -> q < s -> ring_offset s p q k <-> q = Z.to_nat ((k + Z.of_nat p) mod Z.of_nat s).
Proof.
  intros Hs Hq. split.
  - intros (m & E). replace (k + Z.of_nat p)%Z with (Z.of_nat q + (- m) * Z.of_nat s)%Z by lia. rewrite Z.mod_add by lia. rewrite Z.mod_small by lia. lia.
  - intros E. exists (- ((k + Z.of_nat p) / Z.of_nat s))%Z. pose proof (Z.mod_pos_bound (k + Z.of_nat p) (Z.of_nat s)). rewrite E, Z2Nat.id by lia. rewrite Z.mod_eq by lia. lia.
Qed.
Lemma offset_reduce s p q n : 0 < s -> q < s -> 0 < n ->
  (exists d, d < Nat.min n s /\ ring_offset s p q (Z.of_nat d - 1)) <-> (exists k, (-1 <= k <= Z.of_nat n - 2)%Z /\ ring_offset s p q k).
Proof.
  intros Hs Hq Hn. split.
  - intros (d & Hd & R). exists (Z.of_nat d - 1)%Z. split; auto. lia.
  - intros (k & Hk & m & E). exists (Z.to_nat ((k + 1) mod Z.of_nat s)). pose proof (Z.mod_pos_bound (k + 1) (Z.of_nat s)).
    pose proof (Z.mod_le (k + 1) (Z.of_nat s)). split; [lia|]. rewrite Z2Nat.id by lia. exists (m + (k + 1) / Z.of_nat s)%Z. rewrite E.
    pose proof (Z.div_mod (k + 1) (Z.of_nat s)). nia.
Qed.
(** The [n] x [n] neighbourhood of [p]: the cells from one row (column) before to n - 2 after, around the torus. *)
Theorem C55_neighbourhood : forall s p n z, fst p < size_y s -> snd p < size_x s -> 0 < n ->
  In z (neighbours s p n) <-> exists q ky kx, fst q < size_y s /\ snd q < size_x s /\ z = cells s q /\
    (-1 <= ky <= Z.of_nat n - 2)%Z /\ (-1 <= kx <= Z.of_nat n - 2)%Z /\ ring_offset (size_y s) (fst p) (fst q) ky /\ ring_offset (size_x s) (snd p) (snd q) kx.
Proof.
  intros s p n z By Bx Hn. rewrite in_neighbours. split.
  - intros (d & D1 & D2 & ->). rewrite rolled_dest by (split; auto). destruct (dest_in_bounds s p d (conj By Bx)) as (B1 & B2).
    exists (dest s d p), (Z.of_nat (fst d) - 1)%Z, (Z.of_nat (snd d) - 1)%Z. split; auto. split; auto. split; auto. split; [lia|]. split; [lia|].
    split; (apply ring_mod; [lia|auto|]); rewrite dest_wrap by lia; cbn [fst snd]; do 2 f_equal; lia.
  - intros (q & ky & kx & B1 & B2 & -> & Hy & Hx & Ry & Rx).
    destruct (proj2 (offset_reduce (size_y s) (fst p) (fst q) n ltac:(lia) B1 Hn)) as (dy & Dy & Ey); [eauto|].
    destruct (proj2 (offset_reduce (size_x s) (snd p) (snd q) n ltac:(lia) B2 Hn)) as (dx & Dx & Ex); [eauto|].
    exists (dy, dx). cbn [fst snd]. split; auto. split; auto. rewrite rolled_dest by (split; auto). f_equal. rewrite dest_wrap by lia. cbn [fst snd].
    apply ring_mod in Ey, Ex; try lia. destruct q as [qy qx]. cbn [fst snd] in *. f_equal; [rewrite Ey|rewrite Ex]; do 2 f_equal; lia.
Qed.
(** For n = 3 (prey, and predators by default) this is the Moore neighbourhood: toroidal distance at most one. *)
Corollary C55_moore : forall s p z, fst p < size_y s -> snd p < size_x s ->
  In z (neighbours s p 3) <-> exists q ky kx, fst q < size_y s /\ snd q < size_x s /\ z = cells s q /\
    (Z.abs ky <= 1)%Z /\ (Z.abs kx <= 1)%Z /\ ring_offset (size_y s) (fst p) (fst q) ky /\ ring_offset (size_x s) (snd p) (snd q) kx.
Proof.
  intros s p z By Bx. rewrite C55_neighbourhood by (auto; lia). split; intros (q & ky & kx & H1 & H2 & H3 & H4 & H5 & H6 & H7); exists q, ky, kx;
  (split; [auto|split; [auto|split; [auto|split; [lia|split; [lia|auto]]]]]).
Qed.
(** For other values of [neighbourhood_radius] the neighbourhood is not centred: with 5, on the 60 x 60 lattice, a prey two rows above the predator is not
    seen while one three rows below is. *)
Definition two_prey (q : pos) : lat := mkLat 60 60 (upd (fun _ => 0%Z) q 1) [(10, 10)] [Some q].
Theorem C55_not_centred_refuted : ~ In 1%Z (neighbours (two_prey (8, 10)) (10, 10) 5) /\ In 1%Z (neighbours (two_prey (13, 10)) (10, 10) 5).
Proof.
  split.
  - intros H. assert (E : existsb (Z.eqb 1) (neighbours (two_prey (8, 10)) (10, 10) 5) = true) by (apply existsb_exists; exists 1%Z; split; auto).
    vm_compute in E. discriminate.
  - assert (E : existsb (Z.eqb 1) (neighbours (two_prey (13, 10)) (10, 10) 5) = true) by (vm_compute; auto).
    apply existsb_exists in E. destruct E as (z & Hz & E). apply Z.eqb_eq in E. subst. auto.
Qed.

(** C79: one move of a predator. If a prey is in its neighbourhood, it kills one with the largest value of its weighted sum of the first two
    objectives and takes its place; otherwise nothing dies and the predator stays or moves to an empty cell of its neighbourhood. *)
Definition weighted_sum {A} (fitness : A -> list Q) (w : Q) (m : A) : Q :=
  (w * nth 0 (fitness m) 0 + (1 - w) * nth 1 (fitness m) 0)%Q.
Theorem C79_kills_the_weakest : forall {A} (fitness : A -> list Q) (pop : list A) radius n_predators i d s p killed,
  (forall m, In m pop -> 2 <= length (fitness m)) -> fst d < Nat.min radius (size_y s) -> snd d < Nat.min radius (size_x s) ->
  wf s -> NoDup killed -> length (preys_loc s) = length pop -> (forall k, In k killed <-> nth_error (preys_loc s) k = Some None) ->
  nth_error (predators_loc s) i = Some p ->
  exists s' p' killed', predator_step fitness pop radius n_predators i d s p killed = Ok (s', p', killed') /\ wf s' /\
    nth_error (predators_loc s') i = Some p' /\ (forall j, j <> i -> nth_error (predators_loc s') j = nth_error (predators_loc s) j) /\
    ( (killed' = killed /\ preys_loc s' = preys_loc s /\ (forall z, In z (neighbours s p radius) -> (z <= 0)%Z) /\
       (p' = p \/ (p' <> p /\ cells s p' = 0%Z))) \/
      exists k m, killed' = killed ++ [k] /\ ~ In k killed /\ nth_error pop k = Some m /\ In (prey_label k) (neighbours s p radius) /\
        nth_error (preys_loc s) k = Some (Some p') /\ nth_error (preys_loc s') k = Some None /\
        (forall j, j <> k -> nth_error (preys_loc s') j = nth_error (preys_loc s) j) /\
        (forall j m', nth_error pop j = Some m' -> In (prey_label j) (neighbours s p radius) ->
           (weighted_sum fitness (weight n_predators i) m' <= weighted_sum fitness (weight n_predators i) m)%Q) ).
Proof.
  intros A fitness pop radius n_predators i d s p killed H2 Dy Dx W N L I Hi.
  destruct (predator_step_spec fitness pop radius n_predators (fun _ _ => d) H2 i d s p killed Dy Dx W (conj N (conj L I)) Hi)
    as (s' & p' & killed' & E & W' & (_ & _ & I') & Hp' & _ & Oth & C).
  exists s', p', killed'. split; auto. split; auto. split; auto. split; auto. destruct C as [(C1 & C2 & C3 & C4)|(k & f & -> & Fr & In1 & Hk & Bf & Mx)].
  { left. split; auto. split; auto. split; auto. destruct C4 as [(_ & -> & _)|(_ & C4)]; auto. right. split; auto. intros ->.
    destruct (wf_pred s W i p Hi) as (_ & C). pose proof (predator_label_neg i). lia. }
  right.
  assert (Bd : forall j m', nth_error pop j = Some m' -> badness fitness pop n_predators i (prey_label j) = Some (weighted_sum fitness (weight n_predators i) m')).
  { intros j m' Hj. unfold badness. replace (Z.to_nat (prey_label j - 1)) with j by (unfold prey_label; lia). rewrite Hj.
    pose proof (H2 m' ltac:(eapply nth_error_In; eauto)) as T. unfold weighted_sum. destruct (fitness m') as [|o1 [|o2 t]]; simpl in T; try lia. auto. }
  assert (Lk : k < length pop) by (rewrite <- L; apply nth_error_Some; congruence).
  destruct (nth_error pop k) as [m|] eqn:Em; [|apply nth_error_None in Em; lia]. exists k, m. split; auto. split; [intros X; apply I in X; congruence|].
  split; auto. split; auto. split; auto. split; [apply I', in_app_iff; right; left; auto|]. split; auto.
  intros j m' Hj Hin. rewrite (Bd k m Em) in Bf. injection Bf as <-. apply (Mx j); auto.
Qed.
(** The weights of the predators are evenly spread over [0, 1]. *)
Theorem C79_weights : forall n i, i < n -> (0 <= weight n i <= 1)%Q /\ (1 < n -> (weight n i * inject_Z (Z.of_nat (n - 1)) == inject_Z (Z.of_nat i))%Q) /\ (n = 1 -> weight n i = 0%Q).
Proof.
  intros n i H. unfold weight. destruct (Nat.ltb_spec 1 n) as [L|L].
  - assert (P : Z.pos (Pos.of_nat (n - 1)) = Z.of_nat (n - 1)) by lia. split.
    + split; unfold Qle; simpl; lia.
    + split; [|lia]. intros _. unfold Qeq, Qmult, inject_Z. cbn [Qnum Qden]. rewrite Pos2Z.inj_mul, P. lia.
  - split; [split; discriminate|]. split; [lia|auto].
Qed.

(** C80: mating pairs. *)
Theorem C80_mating_pairs : forall draws s s' pairs, wf s -> move_prey draws s = (s', Ok pairs) ->
  pairs <> [] /\ forall a b, In (a, b) pairs -> a <> b /\ (exists p, nth_error (preys_loc s) a = Some (Some p)) /\ (exists q, nth_error (preys_loc s) b = Some (Some q)).
Proof. intros draws s s' pairs W E. apply (move_prey_spec _ _ _ _ W E). Qed.
(** When prey [i] has had its turn, its mate (if it got one) is another prey within distance one of its cell; it got none only if no other prey is that close. *)
Theorem C80_mates_are_neighbours : forall i d s p s' m, wf s -> nth_error (preys_loc s) i = Some (Some p) -> prey_turn i d s p = (s', m) ->
  exists p', nth_error (preys_loc s') i = Some (Some p') /\
  match m with
  | Some (a, b) => a = i /\ b <> i /\ In (prey_label b) (neighbours s' p' 3)
  | None => forall b, b <> i -> ~ In (prey_label b) (neighbours s' p' 3)
  end.
Proof.
  intros i d s p s' m W Hi E. destruct (prey_turn_spec _ _ _ _ _ _ W Hi E) as (W' & (F1 & F2 & F3 & F4 & F5) & M).
  destruct (proj1 (F5 i)) as (p' & Hp'); [eauto|]. exists p'. split; auto. destruct m as [[a b]|].
  - destruct M as (-> & Hb & p'' & q & H1 & H2 & o & O1 & O2 & ->). rewrite Hp' in H1. injection H1 as <-. split; auto. split; auto.
    destruct (wf_prey s' W' i p' Hp') as ((B1 & B2) & _). destruct (wf_prey s' W' b _ H2) as (_ & Cb). rewrite <- Cb.
    apply C55_neighbourhood; auto. destruct (dest_in_bounds s' p' o (conj B1 B2)) as (D1 & D2).
    exists (dest s' o p'), (Z.of_nat (fst o) - 1)%Z, (Z.of_nat (snd o) - 1)%Z. split; auto. split; auto. split; auto. split; [lia|]. split; [lia|].
    split; (apply ring_mod; [lia|auto|]); rewrite dest_wrap by lia; cbn [fst snd]; do 2 f_equal; lia.
  - intros b Hb Hin. specialize (M (prey_label b) p' Hp' Hin (prey_label_pos b)). apply prey_label_inj in M. auto.
Qed.

(** C81: with a multi-objective problem and sensible parameters, a generation of a reachable state ends normally or with the library's own
    exception, which is raised exactly when no prey found a mate. *)
Theorem C81_only_the_mating_error : forall {A} (fitness : A -> list Q) nds mate c r s (pop : list A) gen fe e,
  (forall m, 2 <= length (fitness m)) -> sensible c -> reachable fitness nds mate c (s, pop, gen, fe) -> in_shape s c r ->
  ppga_gen fitness nds mate c r (s, pop, gen, fe) = Err e -> e = EaError /\ snd (move_prey (gd_prey r) s) = Err EaError.
Proof.
  intros A fitness nds mate c r s pop gen fe e H2 Hc H (D1 & D2) E. pose proof (reachable_inv fitness nds mate c H2 Hc _ H) as (W & Al & P). cbn [fst snd] in *.
  destruct Hc as (K1 & K2 & K3). assert (Ck : cfg_ok c s) by (constructor; auto). assert (Dk : draws_ok c s r) by (constructor; auto).
  pose proof (ppga_gen_spec fitness nds mate c H2 r s pop gen fe Ck Dk W Al) as G. rewrite E in G. auto.
Qed.
(** A new lattice is refused exactly when the predators and prey do not fit. *)
Theorem C81_lattice_capacity : forall sample1 sample2 sy sx np ny, sampling sample1 -> sampling sample2 ->
  match new_lattice sample1 sample2 sy sx np ny with
  | Ok s => np + ny <= sy * sx /\ length (predators_loc s) = np /\ length (preys_loc s) = ny
  | Err e => e = ValueError /\ np + ny > sy * sx
  end.
Proof.
  intros s1 s2 sy sx np ny S1 S2. pose proof (new_lattice_spec s1 s2 sy sx np ny S1 S2) as H. destruct (new_lattice s1 s2 sy sx np ny); [|auto]. tauto.
Qed.

(** C82: the cull removes exactly the individuals of fronts after [max_rank], hence never a non-dominated one, and never everybody. *)
Theorem C82_culls_by_front : forall nds fit mr i, nds_contract nds ->
  In i (ppga_select (nds fit) (length fit) mr) <-> exists a f, nth_error (nds fit) a = Some f /\ In i f /\ mr < a.
Proof. intros nds fit mr i H. eapply ppga_select_spec. apply H. Qed.
Theorem C82_culled_are_dominated : forall nds fit mr i, nds_contract nds -> In i (ppga_select (nds fit) (length fit) mr) ->
  exists j a b, nth_error fit j = Some a /\ nth_error fit i = Some b /\ pareto a b.
Proof.
  intros nds fit mr i H Hi. apply C82_culls_by_front in Hi; auto. destruct Hi as (a & f & Ha & Hf & Hm). destruct a as [|a]; [lia|].
  destruct (nth_error (nds fit) a) as [f0|] eqn:E0; [|apply nth_error_None in E0; assert (S a < length (nds fit)) by (apply nth_error_Some; congruence); lia].
  destruct (sf_prev _ _ _ (H fit) a f0 f i E0 Ha Hf) as (j & Hj & u & v & Hu & Hv & D). exists j, u, v. auto.
Qed.
(** Every culled individual ends a chain of more than [mr] individuals, each dominating the next. *)
Theorem C82_culled_chain : forall nds fit mr i, nds_contract nds -> In i (ppga_select (nds fit) (length fit) mr) ->
  exists chain, mr < length chain /\
    (forall k x y, nth_error (chain ++ [i]) k = Some x -> nth_error (chain ++ [i]) (S k) = Some y ->
       exists a b, nth_error fit x = Some a /\ nth_error fit y = Some b /\ pareto a b).
Proof.
  intros nds fit mr i H Hi. apply C82_culls_by_front in Hi; auto. destruct Hi as (a & f & Ha & Hf & Hm).
  assert (G : forall a f i, nth_error (nds fit) a = Some f -> In i f -> exists chain, length chain = a /\
    (forall k x y, nth_error (chain ++ [i]) k = Some x -> nth_error (chain ++ [i]) (S k) = Some y ->
       exists a b, nth_error fit x = Some a /\ nth_error fit y = Some b /\ pareto a b)).
  { clear -H. induction a as [|a IH]; intros f i Ha Hf.
    - exists []. split; auto. intros [|k] x y H1 H2; [discriminate|destruct k; discriminate].
    - destruct (nth_error (nds fit) a) as [f0|] eqn:E0; [|apply nth_error_None in E0; assert (S a < length (nds fit)) by (apply nth_error_Some; congruence); lia].
      destruct (sf_prev _ _ _ (H fit) a f0 f i E0 Ha Hf) as (j & Hj & D). destruct (IH f0 j eq_refl Hj) as (ch & Lc & Hc). exists (ch ++ [j]).
      split; [rewrite app_length; simpl; lia|]. intros k x y H1 H2. destruct (Nat.lt_ge_cases (S k) (length (ch ++ [j]))) as [L|L].
      + rewrite nth_error_app1 in H1, H2 by lia. apply (Hc k); auto.
      + rewrite app_length in L. simpl in L. assert (S k < length ((ch ++ [j]) ++ [i])) by (apply nth_error_Some; congruence).
        rewrite !app_length in H0. simpl in H0. assert (k = length ch) by lia. subst k.
        rewrite nth_error_app1 in H1 by (rewrite app_length; simpl; lia). rewrite nth_error_app2, Nat.sub_diag in H1 by lia. injection H1 as <-.
        rewrite nth_error_app2 in H2 by (rewrite app_length; simpl; lia). rewrite app_length in H2. simpl length in H2. replace (S (length ch) - (length ch + 1)) with 0 in H2 by lia.
        injection H2 as <-. exact D. }
  destruct (G a f i Ha Hf) as (ch & Lc & Hc). exists ch. split; [lia|auto].
Qed.
Theorem C82_someone_survives : forall nds fit mr, nds_contract nds -> fit <> [] -> exists i, i < length fit /\ ~ In i (ppga_select (nds fit) (length fit) mr).
Proof.
  intros nds fit mr H NE. pose proof (H fit) as SF. destruct (nds fit) as [|f0 fr] eqn:E.
  - exfalso. pose proof (Permutation_length (sf_perm _ _ _ SF)) as L. rewrite seq_length in L. destruct fit; [auto|discriminate].
  - destruct f0 as [|i f0]; [exfalso; eapply (sf_nonempty _ _ _ SF); [left; eauto|auto]|]. exists i. split.
    + assert (X : In i (seq 0 (length fit))). { eapply Permutation_in; [apply (sf_perm _ _ _ SF)|]. apply in_concat. exists (i :: f0). split; [left; auto|left; auto]. }
      apply in_seq in X. lia.
    + rewrite <- E. rewrite C82_culls_by_front by auto. intros (a & f & Ha & Hf & Hm).
      assert (N : NoDup (concat (nds fit))) by (rewrite E; eapply Permutation_NoDup; [symmetry; apply (sf_perm _ _ _ SF)|apply seq_NoDup]).
      assert (0 = a). { apply (NoDup_concat_unique (nds fit) N 0 a (i :: f0) f i); auto; [rewrite E; auto|left; auto]. } lia.
Qed.

(** C53: with a positive target the population never dies out, whatever is culled. *)
Theorem C53_never_extinct : forall {A} (fitness : A -> list Q) nds mate c st, (forall m, 2 <= length (fitness m)) -> sensible c -> nds_contract nds ->
  0 < pc_target c -> reachable fitness nds mate c st ->
  forall s pop gen fe r st', st = (s, pop, gen, fe) -> pop <> [] -> in_shape s c r -> ppga_gen fitness nds mate c r st = Ok st' -> snd (fst (fst st')) <> [].
Proof.
  intros A fitness nds mate c st H2 Hc Hn Ht H s pop gen fe r st' -> NE (D1 & D2) E. pose proof (reachable_inv fitness nds mate c H2 Hc _ H) as (W & Al & P). cbn [fst snd] in *.
  destruct Hc as (K1 & K2 & K3). assert (Ck : cfg_ok c s) by (constructor; auto). assert (Dk : draws_ok c s r) by (constructor; auto).
  pose proof (ppga_gen_spec fitness nds mate c H2 r s pop gen fe Ck Dk W Al) as G. rewrite E in G. destruct st' as [[[s' pop'] gen'] fe'].
  destruct G as (s1 & pairs & placed & culled & killed & G1 & G2 & G3 & G4 & G5 & G6 & G7 & G8 & G9 & _). cbn [fst snd].
  set (pop1 := pop ++ select_pos (fun i => mem_nat i placed) (mate pop pairs)) in *.
  set (pop2 := select_pos (fun i => negb (mem_nat i culled)) pop1) in *.
  assert (NE1 : pop1 <> []) by (unfold pop1; destruct pop; [contradiction|discriminate]).
  assert (NE2 : 0 < length pop2).
  { assert (X : exists i, i < length pop1 /\ ~ In i culled).
    { rewrite G5. destruct (Nat.eqb (S gen mod pc_kill_interval c) 0).
      - destruct (C82_someone_survives nds (map fitness pop1) (pc_max_rank c) Hn) as (i & Hi & Hs); [intros X; apply map_eq_nil in X; auto|].
        rewrite map_length in *. eauto.
      - exists 0. destruct pop1; [contradiction|]. simpl. split; [lia|auto]. }
    destruct X as (i & Hi & Hs). destruct (nth_error pop1 i) as [m|] eqn:Em; [|apply nth_error_None in Em; lia].
    assert (In m pop2). { unfold pop2, select_pos. apply select_pos_in. exists i. split; auto. simpl. apply negb_true_iff. destruct (mem_nat i culled) eqn:E'; auto. apply mem_nat_In in E'. contradiction. }
    destruct pop2; [contradiction|simpl; lia]. }
  pose proof (filter_not_killed killed _ G6 G7) as F. pose proof (kill_bound (length pop2) (pc_target c) (pc_predators c) K1) as KB.
  intros X. rewrite X in G9. apply (f_equal (@length _)) in G9. rewrite select_pos_filter_length in G9. simpl in G9. lia.
Qed.

(** ** Concrete runs *)
Definition first_of : list pos -> nat -> list pos := fun l n => firstn n l.
Lemma NoDup_firstn {B} : forall n (l : list B), NoDup l -> NoDup (firstn n l).
Proof.
  induction n as [|n IH]; intros l N; [constructor|]. destruct l as [|x l]; [constructor|]. inversion N; subst. cbn [firstn]. constructor; auto.
  intros X. apply H1. rewrite <- (firstn_skipn n l). apply in_app_iff. auto.
Qed.
Example sampling_exists : sampling first_of.
Proof.
  intros l n H. unfold first_of. split; [rewrite firstn_length; lia|]. split; [intros N; apply NoDup_firstn; auto|].
  intros x Hx. rewrite <- (firstn_skipn n l). apply in_app_iff; auto.
Qed.
(** Rational reference sorting, to run the model. *)
Definition qdom (fit : list (list Q)) (i j : nat) : Prop := exists a b, nth_error fit i = Some a /\ nth_error fit j = Some b /\ pareto a b.
Lemma qdom_dec fit i j : {qdom fit i j} + {~ qdom fit i j}.
Proof.
  unfold qdom. destruct (nth_error fit i) as [a|]; [|right; intros (a & b & X & _); discriminate].
  destruct (nth_error fit j) as [b|]; [|right; intros (a' & b & _ & X & _); discriminate].
  destruct (dominates a b) eqn:E; [left; exists a, b; split; auto; split; auto; apply dominates_spec; auto|].
  right. intros (a' & b' & Ea & Eb & D). injection Ea as <-. injection Eb as <-. apply dominates_spec in D. congruence.
Defined.
Definition ref_nds (fit : list (list Q)) : list (list nat) := peel (qdom fit) (qdom_dec fit) (length fit) (seq 0 (length fit)).
Lemma pareto_irr a : ~ pareto a a.
Proof. intros (_ & i & x & y & H1 & H2 & H3). rewrite H1 in H2. injection H2 as ->. apply Qlt_irrefl in H3. auto. Qed.
Example nds_exists : nds_contract ref_nds.
Proof.
  intros fit. apply peel_sorted.
  - intros i (a & b & H1 & H2 & D). rewrite H1 in H2. injection H2 as <-. apply (pareto_irr a D).
  - intros i j k (a & b & H1 & H2 & D1) (b' & d & H3 & H4 & D2). rewrite H2 in H3. injection H3 as <-. exists a, d. split; auto. split; auto.
    apply dominates_spec in D1, D2. apply dominates_spec. apply dominates_spec in D1, D2. destruct D1 as (F1 & i0 & x & y & X1 & X2 & X3), D2 as (F2 & _).
    apply dominates_spec. split.
    + clear -F1 F2. revert d F2. induction F1; intros d F2; inversion F2; subst; constructor; auto. eapply Qle_trans; eauto.
    + assert (exists z, nth_error d i0 = Some z /\ (y <= z)%Q).
      { clear -F2 X2. revert i0 X2. induction F2; intros [|i0] X2; simpl in *; try discriminate; [injection X2 as <-; eauto|eauto]. }
      destruct H as (z & Hz & Lz). exists i0, x, z. split; auto. split; auto. eapply Qlt_le_trans; eauto.
Qed.
(** Six individuals on a 4 x 4 lattice with two predators; one generation. *)
Definition ex_fit (m : Q * Q) : list Q := [fst m; snd m].
Definition ex_pop : list (Q * Q) := [(1, 6); (2, 5); (3, 4); (4, 3); (5, 2); (6, 1)]%Q.
Definition ex_mate (pop : list (Q * Q)) (pairs : list (nat * nat)) : list (Q * Q) :=
  map (fun p => let a := nth (fst p) pop (0, 0)%Q in let b := nth (snd p) pop (0, 0)%Q in (fst a, snd b)) pairs.
Definition ex_cfg : ppga_cfg := mkPC 4 2 10 7 20 3.
Definition ex_draws : gen_draws := mkGD (fun i => mkPD (Nat.even i) [(2, 1)] i) (fun i => (3, i mod 4)) (fun _ _ => (1, 2)).
Definition ex_lat : lat := match new_lattice first_of first_of 4 4 2 6 with Ok s => s | Err _ => mkLat 0 0 (fun _ => 0%Z) [] [] end.
Example ex_reachable : reachable ex_fit ref_nds ex_mate ex_cfg (ex_lat, ex_pop, 0, 6) /\ in_shape ex_lat ex_cfg ex_draws.
Proof.
  split.
  - apply (r_start ex_fit ref_nds ex_mate ex_cfg first_of first_of 4 4); auto using sampling_exists.
  - split; [intros i; cbn [ex_draws gd_place fst snd]; split; [vm_compute; lia|]; change (size_x ex_lat) with 4; apply Nat.mod_upper_bound; lia|]. intros i m. vm_compute. lia.
Qed.
Example ex_generation : match ppga_gen ex_fit ref_nds ex_mate ex_cfg ex_draws (ex_lat, ex_pop, 0, 6) with
  | Ok (s', pop', gen', fe') => pop' = [(3, 4); (1, 5); (2, 2); (3, 1)]%Q /\ gen' = 1 /\ fe' = 10 /\
      map (fun q => cells s' q) (all_cells 4 4) = [0; 0; 0; -1; 0; 0; 0; -2; 1; 0; 0; 0; 2; 3; 4; 0]%Z /\
      map (fun q => cells ex_lat q) (all_cells 4 4) = [-1; -2; 1; 2; 3; 4; 5; 6; 0; 0; 0; 0; 0; 0; 0; 0]%Z
  | Err _ => False end.
Proof. vm_compute. auto. Qed.
(** A cull with max_rank 0 removes the dominated ones. *)
Example ex_cull : ppga_select [[0; 3]; [1]; [2]] 4 0 = [1; 2]. Proof. reflexivity. Qed.

Print Assumptions C52_lattice_consistent.
Print Assumptions C52_generation.
Print Assumptions C53_never_extinct.
Print Assumptions C54_placed_exactly.
Print Assumptions C55_neighbourhood.
Print Assumptions C79_kills_the_weakest.
Print Assumptions C80_mates_are_neighbours.
Print Assumptions C81_only_the_mating_error.
Print Assumptions C82_culled_chain.
