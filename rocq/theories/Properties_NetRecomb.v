(** C16, C68: the whole network recombination operators (EvoNN with both mutation types, EvoDN2). *)
From Verif Require Import Base M_Recombination P_Recombination M_NetRecomb Properties_Recombination.
From Coq Require Import QArith Lia.
Open Scope nat_scope.

(** ** Specification *)
(** The weight of a network at node [c], input [n] (or layer [c], position [n]). *)
Definition weight (net : list (list Q)) (c n : nat) : option Q := match nth_error net c with Some col => nth_error col n | None => None end.
(** Every network has [nodes] nodes with [inputs] weights. *)
Definition uniform_nets (nodes inputs : nat) (pop : list (list (list Q))) : Prop :=
  forall net, In net pop -> length net = nodes /\ forall col, In col net -> length col = inputs.
Definition valid_pairs {A} (pop : list A) (ms : list (nat * nat)) : Prop := forall i j, In (i, j) ms -> i < length pop /\ j < length pop.
(** [w'] is [w], or, where the position was drawn, [w] moved by [c] times the difference of the weights of [s1] and [s0] there. *)
Definition moved (drawn : bool) (c : Q) (s0 s1 : list (list Q)) (i j : nat) (w w' : Q) : Prop :=
  if drawn then exists x y, weight s0 i j = Some x /\ weight s1 i j = Some y /\ w' = (w + c * (y - x))%Q else w' = w.

(** ** Proofs *)
Lemma adapt_from_nth mut c s0 s1 ws : forall j n w, nth_error ws n = Some w ->
  nth_error (adapt_from mut c j ws s0 s1) n = Some (if mut (j + n) then (w + c * (nth (j + n)%nat s1 0 - nth (j + n)%nat s0 0))%Q else w).
Proof.
  induction ws as [|x ws IH]; intros j [|n] w H; cbn in H; try discriminate; cbn [adapt_from nth_error].
  - injection H as ->. rewrite Nat.add_0_r. auto.
  - rewrite (IH (S j) n w H). replace (S j + n) with (j + S n) by lia. auto.
Qed.
Lemma adapt_from_length mut c s0 s1 ws : forall j, length (adapt_from mut c j ws s0 s1) = length ws.
Proof. induction ws; intros; cbn; auto. Qed.
Lemma adapt_nodes_nth mut c s0 s1 net : forall i k col, nth_error net k = Some col ->
  nth_error (adapt_nodes mut c i net s0 s1) k = Some (adapt_from (mut (i + k)) c 0 col (nth (i + k) s0 []) (nth (i + k) s1 [])).
Proof.
  induction net as [|x net IH]; intros i [|k] col H; cbn in H; try discriminate; cbn [adapt_nodes nth_error].
  - injection H as ->. rewrite Nat.add_0_r. auto.
  - rewrite (IH (S i) k col H). replace (S i + k) with (i + S k) by lia. auto.
Qed.
Lemma adapt_nodes_length mut c s0 s1 net : forall i, length (adapt_nodes mut c i net s0 s1) = length net.
Proof. induction net; intros; cbn; auto. Qed.

Lemma nonzero_rows_lt pop x : In x (nonzero_rows pop) -> x < length pop.
Proof.
  unfold nonzero_rows. intros H. apply in_flat_map in H. destruct H as ((i & net) & Hp & Hr). apply repeat_spec in Hr. cbn in Hr. subst x.
  apply in_combine_l, in_seq in Hp. lia.
Qed.
Lemma nonzero_rows_nonempty pop net col w : In net pop -> In col net -> In w col -> ~ (w == 0)%Q -> nonzero_rows pop <> [].
Proof.
  intros Hn Hc Hw Nz E. apply In_nth_error in Hn. destruct Hn as (i & Hi).
  assert (Hp : In (i, net) (combine (seq 0 (length pop)) pop)).
  { assert (L : i < length pop) by (apply nth_error_Some; congruence).
    assert (X : nth i (combine (seq 0 (length pop)) pop) (0, []) = (i, net)).
    { rewrite combine_nth by (rewrite seq_length; auto). rewrite seq_nth by auto. f_equal. apply nth_error_nth; auto. }
    rewrite <- X. apply nth_In. rewrite combine_length, seq_length. lia. }
  assert (In i (nonzero_rows pop)).
  { unfold nonzero_rows. apply in_flat_map. exists (i, net). split; auto. cbn [fst snd].
    assert (X : In w (filter (fun w => negb (Qeq_bool w 0)) (concat net))).
    { apply filter_In. split; [apply in_concat; exists col; auto|]. apply Bool.negb_true_iff. destruct (Qeq_bool w 0) eqn:Q; auto.
      apply Qeq_bool_iff in Q. contradiction. }
    destruct (filter _ _); [contradiction|]. left. auto. }
  rewrite E in H. contradiction.
Qed.
Lemma pick2_spec pop c0 c1 : nonzero_rows pop <> [] -> exists s0 s1, pick2 pop c0 c1 = Ok (s0, s1) /\ In s0 pop /\ In s1 pop.
Proof.
  intros H. unfold pick2. destruct (nonzero_rows pop) as [|x l] eqn:E; [congruence|]. rewrite <- E in *.
  eexists. eexists. split; [reflexivity|].
  assert (G : forall c, In (nth (nth (c mod length (nonzero_rows pop)) (nonzero_rows pop) x) pop []) pop).
  { intros c. apply nth_In, nonzero_rows_lt, nth_In, Nat.mod_upper_bound. rewrite E. discriminate. }
  auto.
Qed.

Lemma weight_in nodes inputs pop net i j : uniform_nets nodes inputs pop -> In net pop -> i < nodes -> j < inputs ->
  exists w, weight net i j = Some w /\ w = nth j (nth i net []) 0%Q.
Proof.
  intros U H Hi Hj. destruct (U net H) as (L & C). unfold weight.
  rewrite (nth_error_nth' net []) by lia.
  assert (Lc : length (nth i net []) = inputs) by (apply C, nth_In; lia).
  rewrite (nth_error_nth' _ 0%Q) by lia. eauto.
Qed.

Lemma cross_weights nodes inputs pop ex a b u v : uniform_nets nodes inputs pop -> In a pop -> In b pop -> nn_cross ex 0 a b = (u, v) ->
  length u = nodes /\ length v = nodes /\ (forall col, In col u -> length col = inputs) /\ (forall col, In col v -> length col = inputs) /\
  forall c, c < nodes -> exists x y, nth_error a c = Some x /\ nth_error b c = Some y /\
    nth_error u c = Some (if ex c then y else x) /\ nth_error v c = Some (if ex c then x else y).
Proof.
  intros U Ha Hb E. destruct (U a Ha) as (La & Ca), (U b Hb) as (Lb & Cb).
  destruct (nn_cross_spec ex a 0 b u v) as (Lu & Lv & N); [congruence|auto|].
  assert (P : forall c, c < nodes -> exists x y, nth_error a c = Some x /\ nth_error b c = Some y /\
    nth_error u c = Some (if ex c then y else x) /\ nth_error v c = Some (if ex c then x else y)).
  { intros c Hc. destruct (nth_error a c) as [x|] eqn:Ex; [|apply nth_error_None in Ex; lia].
    destruct (nth_error b c) as [y|] eqn:Ey; [|apply nth_error_None in Ey; lia]. exists x, y.
    destruct (N c x y Ex Ey) as (N1 & N2). auto. }
  split; [congruence|]. split; [congruence|].
  assert (Q : forall net : list (list QArith_base.Q), length net = nodes -> (forall c, c < nodes -> exists x, nth_error net c = Some x /\ length x = inputs) -> forall col, In col net -> length col = inputs).
  { intros net Ln Hn col Hcol. apply In_nth_error in Hcol. destruct Hcol as (c & Hcol).
    assert (c < nodes) by (rewrite <- Ln; apply nth_error_Some; congruence). destruct (Hn c H) as (x & Ex & Lx). congruence. }
  split; [|split; auto].
  - apply Q; [congruence|]. intros c Hc. destruct (P c Hc) as (x & y & Ex & Ey & Eu & Ev). eexists. split; eauto.
    destruct (ex c); [apply Cb|apply Ca]; eapply nth_error_In; eauto.
  - apply Q; [congruence|]. intros c Hc. destruct (P c Hc) as (x & y & Ex & Ey & Eu & Ev). eexists. split; eauto.
    destruct (ex c); [apply Ca|apply Cb]; eapply nth_error_In; eauto.
Qed.

Lemma adapted nodes inputs pop mut c net s0 s1 : uniform_nets nodes inputs pop -> In s0 pop -> In s1 pop ->
  length net = nodes -> (forall col, In col net -> length col = inputs) ->
  forall i j w, weight net i j = Some w -> exists w', weight (adapt_nodes mut c 0 net s0 s1) i j = Some w' /\ moved (mut i j) c s0 s1 i j w w'.
Proof.
  intros U H0 H1 Ln Cn i j w Hw. unfold weight in *. destruct (nth_error net i) as [col|] eqn:Ei; [|discriminate].
  rewrite (adapt_nodes_nth mut c s0 s1 net 0 i col Ei). cbn [Nat.add]. rewrite (adapt_from_nth _ _ _ _ _ 0 j w Hw). cbn [Nat.add].
  eexists. split; [reflexivity|]. unfold moved. destruct (mut i j); auto.
  assert (Hi : i < nodes) by (rewrite <- Ln; apply nth_error_Some; congruence).
  assert (Hj : j < inputs) by (rewrite <- (Cn col (nth_error_In _ _ Ei)); apply nth_error_Some; congruence).
  destruct (weight_in nodes inputs pop s0 i j U H0 Hi Hj) as (x & E0 & ->).
  destruct (weight_in nodes inputs pop s1 i j U H1 Hi Hj) as (y & E1 & ->). eexists. eexists. eauto.
Qed.

(** ** C16, EvoNN with mutation_type "self-adapting": whatever the generation counters, as long as some weight of the population is not
    zero, every pair gets two children of the same architecture; node by node they hold the two parents' nodes (exchanged when drawn), and
    a drawn weight is moved by strength (1 - cur/total) times the difference of two members' weights at that place (the same two members
    for the whole child). *)
Theorem C16_evonn_self_adapting : forall cur total strength pop dr (ms : list (nat * nat)) nodes inputs,
  total <> 0%Z -> uniform_nets nodes inputs pop -> valid_pairs pop ms ->
  (exists net col w, In net pop /\ In col net /\ In w col /\ ~ (w == 0)%Q) ->
  exists off, evonn_self_adapting cur total strength pop dr (Ids2 ms) = Ok off /\ length off = 2 * length ms /\
    forall k i j, nth_error ms k = Some (i, j) ->
      exists a b u v s0 s1 t0 t1, nth_error pop i = Some a /\ nth_error pop j = Some b /\
        nth_error off (2 * k) = Some u /\ nth_error off (2 * k + 1) = Some v /\ length u = nodes /\ length v = nodes /\
        In s0 pop /\ In s1 pop /\ In t0 pop /\ In t1 pop /\
        forall c n, c < nodes -> n < inputs -> exists wa wb wu wv, weight a c n = Some wa /\ weight b c n = Some wb /\
          weight u c n = Some wu /\ weight v c n = Some wv /\
          moved (sa_mut1 (dr k) c n) (strength * (1 - (cur # 1) / (total # 1))) s0 s1 c n (if sa_ex (dr k) c then wb else wa) wu /\
          moved (sa_mut2 (dr k) c n) (strength * (1 - (cur # 1) / (total # 1))) t0 t1 c n (if sa_ex (dr k) c then wa else wb) wv.
Proof.
  intros cur total strength pop dr ms nodes inputs Ht U V (net & col & w & Hn & Hc & Hw & Nz).
  pose proof (nonzero_rows_nonempty pop net col w Hn Hc Hw Nz) as NE. clear net col w Hn Hc Hw Nz.
  unfold evonn_self_adapting. destruct (Z.eqb_spec total 0) as [HT|HT]; [contradiction|]. cbn [mating_pairs].
  set (q := (strength * (1 - (cur # 1) / (total # 1)))%Q).
  assert (G : forall k0, exists off, sa_pairs q pop dr k0 ms = Ok off /\ length off = 2 * length ms /\
    forall k i j, nth_error ms k = Some (i, j) ->
      exists a b u v s0 s1 t0 t1, nth_error pop i = Some a /\ nth_error pop j = Some b /\
        nth_error off (2 * k) = Some u /\ nth_error off (2 * k + 1) = Some v /\ length u = nodes /\ length v = nodes /\
        In s0 pop /\ In s1 pop /\ In t0 pop /\ In t1 pop /\
        forall c n, c < nodes -> n < inputs -> exists wa wb wu wv, weight a c n = Some wa /\ weight b c n = Some wb /\
          weight u c n = Some wu /\ weight v c n = Some wv /\
          moved (sa_mut1 (dr (k0 + k)) c n) q s0 s1 c n (if sa_ex (dr (k0 + k)) c then wb else wa) wu /\
          moved (sa_mut2 (dr (k0 + k)) c n) q t0 t1 c n (if sa_ex (dr (k0 + k)) c then wa else wb) wv);
  [|destruct (G 0) as (off & P); exists off; exact P].
  induction ms as [|(i, j) ms IH]; intros k0.
  - exists []. cbn. split; auto. split; auto. intros [|k] i j; discriminate.
  - destruct (IH (fun i j H => V i j (or_intror H)) (S k0)) as (off & E & L & P).
    destruct (V i j (or_introl eq_refl)) as [Hi Hj].
    destruct (nth_error pop i) as [a|] eqn:Ea; [|apply nth_error_None in Ea; lia].
    destruct (nth_error pop j) as [b|] eqn:Eb; [|apply nth_error_None in Eb; lia].
    cbn [sa_pairs]. rewrite Ea, Eb. destruct (nn_cross (sa_ex (dr k0)) 0 a b) as [u v] eqn:Ec.
    destruct (pick2_spec pop (fst (sa_c1 (dr k0))) (snd (sa_c1 (dr k0))) NE) as (s0 & s1 & E1 & S0 & S1).
    destruct (pick2_spec pop (fst (sa_c2 (dr k0))) (snd (sa_c2 (dr k0))) NE) as (t0 & t1 & E2 & T0 & T1).
    rewrite E1, E2. cbn [bind]. rewrite E. cbn [bind]. eexists. split; [reflexivity|]. split; [cbn [length]; lia|].
    intros [|k] i' j' H; cbn [nth_error] in H.
    + injection H as <- <-. rewrite Nat.add_0_r.
      destruct (cross_weights nodes inputs pop _ a b u v U (nth_error_In _ _ Ea) (nth_error_In _ _ Eb) Ec) as (Lu & Lv & Cu & Cv & N).
      exists a, b. eexists. eexists. exists s0, s1, t0, t1. split; auto. split; auto.
      split; [reflexivity|]. split; [reflexivity|]. rewrite !adapt_nodes_length. repeat (split; [assumption|]).
      intros c n Hc Hn. destruct (N c Hc) as (x & y & Ex & Ey & Eu & Ev).
      assert (Lx : length x = inputs) by (apply (proj2 (U a (nth_error_In _ _ Ea))); eapply nth_error_In; eauto).
      assert (Ly : length y = inputs) by (apply (proj2 (U b (nth_error_In _ _ Eb))); eapply nth_error_In; eauto).
      destruct (nth_error x n) as [wa|] eqn:Wa; [|apply nth_error_None in Wa; lia].
      destruct (nth_error y n) as [wb|] eqn:Wb; [|apply nth_error_None in Wb; lia].
      exists wa, wb.
      destruct (adapted nodes inputs pop (sa_mut1 (dr k0)) q u s0 s1 U S0 S1 Lu Cu c n (if sa_ex (dr k0) c then wb else wa)) as (wu & Wu & Mu).
      { unfold weight. rewrite Eu. destruct (sa_ex (dr k0) c); auto. }
      destruct (adapted nodes inputs pop (sa_mut2 (dr k0)) q v t0 t1 U T0 T1 Lv Cv c n (if sa_ex (dr k0) c then wa else wb)) as (wv & Wv & Mv).
      { unfold weight. rewrite Ev. destruct (sa_ex (dr k0) c); auto. }
      exists wu, wv. unfold weight at 1 2. rewrite Ex, Ey. repeat (split; [assumption|]). auto.
    + destruct (P k i' j' H) as (a' & b' & u' & v' & s0' & s1' & t0' & t1' & P'). replace (S k0 + k) with (k0 + S k) in P' by lia.
      exists a', b', u', v', s0', s1', t0', t1'.
      replace (2 * S k) with (S (S (2 * k))) by lia. replace (S (S (2 * k)) + 1) with (S (S (2 * k + 1))) by lia. cbn [nth_error]. exact P'.
Qed.

(** Once no weight is left, the operator raises. *)
Theorem C16_self_adapting_no_weights_refuted : forall cur total strength pop dr i j a b ms,
  total <> 0%Z -> (forall net col w, In net pop -> In col net -> In w col -> (w == 0)%Q) -> nth_error pop i = Some a -> nth_error pop j = Some b ->
  evonn_self_adapting cur total strength pop dr (Ids2 ((i, j) :: ms)) = Err ValueError.
Proof.
  intros cur total strength pop dr i j a b ms Ht Hz Ei Ej. unfold evonn_self_adapting. destruct (Z.eqb_spec total 0) as [HT|HT]; [contradiction|].
  cbn [mating_pairs sa_pairs]. rewrite Ei, Ej. destruct (nn_cross _ _ _ _) as [cu cv].
  assert (E : nonzero_rows pop = []).
  { destruct (nonzero_rows pop) as [|x l] eqn:E; auto. assert (H : In x (nonzero_rows pop)) by (rewrite E; left; auto).
    unfold nonzero_rows in H. apply in_flat_map in H. destruct H as ((p & net) & Hp & Hr). cbn [fst snd] in Hr.
    destruct (filter _ _) as [|w ws] eqn:F; [contradiction|].
    assert (Hw : In w (w :: ws)) by (left; auto). rewrite <- F in Hw. apply filter_In in Hw. destruct Hw as (Hw & Nw).
    apply in_concat in Hw. destruct Hw as (col & Hc & Hw). apply in_combine_r in Hp.
    assert (Z0 : Qeq_bool w 0 = true) by (apply Qeq_bool_iff; eapply Hz; eauto). rewrite Z0 in Nw. discriminate. }
  unfold pick2. rewrite E. auto.
Qed.

(** C68 does not extend to the self-adapting mutation: it revives a pruned connection (a weight that is 0 in both parents). *)
Theorem C68_self_adapting_revives : exists cur total strength pop dr off,
  (0 < cur < total)%Z /\ evonn_self_adapting cur total strength pop dr (Ids2 [(0, 1)]) = Ok off /\
  exists a b u w, nth_error pop 0 = Some a /\ nth_error pop 1 = Some b /\ nth_error off 0 = Some u /\
    weight a 0 0 = Some 0%Q /\ weight b 0 0 = Some 0%Q /\ weight u 0 0 = Some w /\ ~ (w == 0)%Q.
Proof.
  exists 1%Z, 2%Z, 1%Q, [[[0; 1]]; [[0; 1]]; [[1; 1]]]%Q,
    (fun _ => mkSA (fun _ => false) (0, 2) (fun _ _ => true) (0, 0) (fun _ _ => false)).
  eexists. split; [lia|]. split; [vm_compute; reflexivity|].
  eexists. eexists. eexists. eexists. split; [reflexivity|]. split; [reflexivity|]. split; [reflexivity|].
  split; [reflexivity|]. split; [reflexivity|]. split; [reflexivity|]. intros H. unfold Qeq in H. cbn in H. lia.
Qed.

(** ** C16, EvoDN2, the whole operator: for every generation (also past the planned end) and every pair, the children have the shapes
    of the two parents, subnet by subnet and layer by layer, and every weight is the inherited one (exchanged where drawn), kept or
    scaled by 1 + step, the step being the drawn normal number times strength times max(0, 5/3 (1 - cur/total)). *)
Definition inherits_subnet (std strength : Q) (d : dn_draw) (a b us vs : list (list Q)) : Prop :=
  map (@length Q) us = map (@length Q) a /\ map (@length Q) vs = map (@length Q) b /\
  forall l c,
    match weight a l c, weight b l c with
    | Some w1, Some w2 => exists w1' w2', weight us l c = Some w1' /\ weight vs l c = Some w2' /\
        scaled_by (option_map (fun z => std * z * strength)%Q (dn_mv1 d l c)) (if dn_ex d l c then w2 else w1) w1' /\
        scaled_by (option_map (fun z => std * z * strength)%Q (dn_mv2 d l c)) (if dn_ex d l c then w1 else w2) w2'
    | Some w1, None => weight vs l c = None /\ exists w1', weight us l c = Some w1' /\
        scaled_by (option_map (fun z => std * z * strength)%Q (dn_mv1 d l c)) w1 w1'
    | None, Some w2 => weight us l c = None /\ exists w2', weight vs l c = Some w2' /\
        scaled_by (option_map (fun z => std * z * strength)%Q (dn_mv2 d l c)) w2 w2'
    | None, None => weight us l c = None /\ weight vs l c = None
    end.
(** max(0, 5/3 (1 - cur/total)) *)
Definition spread (cur total : Z) (std : Q) : Prop :=
  ((cur <= total)%Z -> std == (5 # 3) * (1 - (cur # 1) / (total # 1)))%Q /\ ((total <= cur)%Z -> std == 0)%Q.

Lemma dn_layers_inherits std strength d a b us vs : dn_layers (dn_gauss std strength d) 0 a b = (us, vs) -> inherits_subnet std strength d a b us vs.
Proof.
  intros E. destruct (C16_evodn2_architecture _ _ _ _ _ E) as (A & B & C). split; auto. split; auto. intros l c. specialize (C l c).
  cbv zeta in C. unfold weight. cbn [dn_gauss dn_ex dn_mv1 dn_mv2] in C. unfold step_size in C.
  destruct (match nth_error a l with Some x => nth_error x c | None => None end) as [w1|];
  destruct (match nth_error b l with Some x => nth_error x c | None => None end) as [w2|]; auto.
  destruct C as (w1' & w2' & C1 & C2 & C3 & C4). exists w1', w2'. split; auto. split; auto. destruct (dn_ex d l c); auto.
Qed.
Lemma dn_subnets_spec std strength dr a : forall s0 b, length a <= length b ->
  exists u v, dn_subnets (fun s => dn_gauss std strength (dr s)) s0 a b = Ok (u, v) /\ length u = length a /\ length v = length b /\
    (forall s x y, nth_error a s = Some x -> nth_error b s = Some y -> exists x' y', nth_error u s = Some x' /\ nth_error v s = Some y' /\
       inherits_subnet std strength (dr (s0 + s)) x y x' y') /\
    (forall s, length a <= s -> nth_error v s = nth_error b s).
Proof.
  induction a as [|x a IH]; intros s0 b L.
  - exists [], b. destruct b; cbn [dn_subnets]; split; auto; split; auto; split; auto; split; auto; intros [|s] ? ? H; discriminate.
  - destruct b as [|y b]; [cbn in L; lia|]. cbn [dn_subnets].
    destruct (IH (S s0) b ltac:(cbn in L; lia)) as (u & v & E & Lu & Lv & P & Q). rewrite E. cbn [bind fst snd].
    destruct (dn_layers _ 0 x y) as [us vs] eqn:Ed. exists (us :: u), (vs :: v). split; auto. split; [cbn; auto|]. split; [cbn; auto|].
    split.
    + intros [|s] x0 y0 Hx Hy; cbn [nth_error] in *.
      * injection Hx as <-. injection Hy as <-. exists us, vs. rewrite Nat.add_0_r. split; auto. split; auto. apply dn_layers_inherits; auto.
      * destruct (P s x0 y0 Hx Hy) as (x' & y' & P'). replace (S s0 + s) with (s0 + S s) in P' by lia. eauto.
    + intros [|s] Hs; cbn [length nth_error] in *; [lia|]. apply Q. lia.
Qed.

Theorem C16_evodn2_operator : forall cur total strength (pop : list dnet) dr (ms : list (nat * nat)) (subnets : nat),
  (0 < total)%Z -> (forall net, In net pop -> length net = subnets) -> valid_pairs pop ms ->
  exists off std, spread cur total std /\ evodn2_do cur total strength pop dr (Ids2 ms) = Ok off /\ length off = 2 * length ms /\
    forall k i j, nth_error ms k = Some (i, j) ->
      exists a b u v, nth_error pop i = Some a /\ nth_error pop j = Some b /\ nth_error off (2 * k) = Some u /\ nth_error off (2 * k + 1) = Some v /\
        length u = subnets /\ length v = subnets /\
        forall s x y, nth_error a s = Some x -> nth_error b s = Some y ->
          exists x' y', nth_error u s = Some x' /\ nth_error v s = Some y' /\ inherits_subnet std strength (dr k s) x y x' y'.
Proof.
  intros cur total strength pop dr ms subnets Ht Hs V. unfold evodn2_do. destruct (Z.eqb_spec total 0) as [HT|HT]; [lia|]. cbn [mating_pairs].
  assert (Sp : spread cur total (dn_std cur total)).
  { assert (D : forall x y, (x <= y)%Z -> ((x # 1) / (total # 1) <= (y # 1) / (total # 1))%Q).
    { intros x y H. unfold Qdiv. apply Qmult_le_compat_r; [unfold Qle; cbn; lia|]. apply Qinv_le_0_compat. unfold Qle; cbn; lia. }
    assert (One : ((total # 1) / (total # 1) == 1)%Q) by (apply Qmult_inv_r; unfold Qeq; cbn; lia).
    unfold spread, dn_std, nn_std. split; intros H; apply D in H; rewrite One in H; destruct (Qle_bool _ _) eqn:E.
    - reflexivity.
    - exfalso. assert (0 <= (5 # 3) * (1 - (cur # 1) / (total # 1)))%Q.
      { apply Qmult_le_0_compat; [unfold Qle; cbn; lia|]. rewrite <- (Qplus_opp_r ((cur # 1) / (total # 1))). apply Qplus_le_compat; [auto|apply Qle_refl]. }
      apply Qle_bool_iff in H0. congruence.
    - apply Qle_bool_iff in E. apply Qle_antisym; auto. setoid_replace 0%Q with ((5 # 3) * (1 - 1))%Q by reflexivity.
      apply Qmult_le_l; [reflexivity|]. apply Qplus_le_compat; [apply Qle_refl|]. apply Qopp_le_compat. auto.
    - reflexivity. }
  assert (G : forall k0, exists off, dn_pairs (dn_std cur total) strength pop dr k0 ms = Ok off /\ length off = 2 * length ms /\
    forall k i j, nth_error ms k = Some (i, j) ->
      exists a b u v, nth_error pop i = Some a /\ nth_error pop j = Some b /\ nth_error off (2 * k) = Some u /\ nth_error off (2 * k + 1) = Some v /\
        length u = subnets /\ length v = subnets /\
        forall s x y, nth_error a s = Some x -> nth_error b s = Some y ->
          exists x' y', nth_error u s = Some x' /\ nth_error v s = Some y' /\ inherits_subnet (dn_std cur total) strength (dr (k0 + k) s) x y x' y').
  { induction ms as [|(i, j) ms IH]; intros k0.
    - exists []. cbn. split; auto. split; auto. intros [|k] i j; discriminate.
    - destruct (IH (fun i j H => V i j (or_intror H)) (S k0)) as (off & E & L & P).
      destruct (V i j (or_introl eq_refl)) as [Hi Hj].
      destruct (nth_error pop i) as [a|] eqn:Ea; [|apply nth_error_None in Ea; lia].
      destruct (nth_error pop j) as [b|] eqn:Eb; [|apply nth_error_None in Eb; lia].
      pose proof (Hs a (nth_error_In _ _ Ea)) as La. pose proof (Hs b (nth_error_In _ _ Eb)) as Lb.
      destruct (dn_subnets_spec (dn_std cur total) strength (dr k0) a 0 b ltac:(lia)) as (u & v & Ed & Lu & Lv & Pd & _).
      cbn [dn_pairs]. rewrite Ea, Eb, Ed. cbn [bind]. rewrite E. cbn [bind]. eexists. split; [reflexivity|]. split; [cbn [length]; lia|].
      intros [|k] i' j' H; cbn [nth_error] in H.
      + injection H as <- <-. rewrite Nat.add_0_r. exists a, b, u, v. split; auto. split; auto. split; auto. split; auto.
        split; [congruence|]. split; [congruence|]. exact Pd.
      + destruct (P k i' j' H) as (a' & b' & u' & v' & P'). replace (S k0 + k) with (k0 + S k) in P' by lia. exists a', b', u', v'.
        replace (2 * S k) with (S (S (2 * k))) by lia. replace (S (S (2 * k)) + 1) with (S (S (2 * k + 1))) by lia. cbn [nth_error]. exact P'. }
  destruct (G 0) as (off & E & L & P). exists off, (dn_std cur total). split; auto.
Qed.

(** Mutation fades: at the planned end (and, for EvoDN2, beyond it) a network that mates with itself yields two unchanged copies. *)
Theorem C16_mutation_fades : forall cur total strength (pop : list dnet) dr i a, (0 < total <= cur)%Z -> nth_error pop i = Some a ->
  exists u v, evodn2_do cur total strength pop dr (Ids2 [(i, i)]) = Ok [u; v] /\
    forall child, child = u \/ child = v -> length child = length a /\
      forall s x, nth_error a s = Some x -> exists x', nth_error child s = Some x' /\ map (@length Q) x' = map (@length Q) x /\
        forall l c w, weight x l c = Some w -> exists w', weight x' l c = Some w' /\ (w' == w)%Q.
Proof.
  intros cur total strength pop dr i a Hc Ha.
  destruct (C16_evodn2_operator cur total strength [a] (fun _ => dr 0) [(0, 0)] (length a)) as (off & std & Sp & E & L & P); [lia| | |].
  { intros net [<-|[]]; auto. }
  { intros x y [Q|[]]. injection Q as <- <-. cbn. lia. }
  assert (E' : evodn2_do cur total strength pop dr (Ids2 [(i, i)]) = evodn2_do cur total strength [a] (fun _ => dr 0) (Ids2 [(0, 0)])).
  { unfold evodn2_do. cbn [mating_pairs dn_pairs nth_error]. rewrite Ha. auto. }
  destruct (P 0 0 0 eq_refl) as (a0 & b0 & u & v & A & B & Eu & Ev & Lu & Lv & N). cbn in A, B. injection A as <-. injection B as <-.
  exists u, v. rewrite E', E. split.
  { destruct off as [|u' [|v' [|? ?]]]; cbn in L; try lia. cbn in Eu, Ev. congruence. }
  assert (S0 : (std == 0)%Q) by (apply Sp; lia).
  assert (SB : forall o w w', scaled_by (option_map (fun z => std * z * strength)%Q o) w w' -> (w' == w)%Q).
  { intros [z|] w w' H; cbn in H; subst w'; [rewrite S0; ring|reflexivity]. }
  intros child Hch. split; [destruct Hch; congruence|]. intros s x Hx. destruct (N s x x Hx Hx) as (x' & y' & Ex & Ey & I1 & I2 & I3).
  destruct Hch; subst child; [exists x'|exists y']; (split; [auto|]); (split; [auto|]); intros l c w Hw; specialize (I3 l c); rewrite Hw in I3;
    destruct I3 as (w1 & w2 & W1 & W2 & S1 & S2); destruct (dn_ex (dr 0 s) l c); eauto.
Qed.

(** The same for EvoNN at the planned end (beyond it the operator raises, C16_evonn_past_end_raises_refuted). *)
Theorem C16_evonn_mutation_fades : forall total strength pop dr (i : nat) a nodes inputs, (0 < total)%Z -> nth_error pop i = Some a ->
  length a = nodes -> (forall col, In col a -> length col = inputs) ->
  exists u v, evonn_gaussian total total strength pop dr (Ids2 [(i, i)]) = Ok [u; v] /\
    forall child, child = u \/ child = v -> length child = nodes /\
      forall c n w, weight a c n = Some w -> exists w', weight child c n = Some w' /\ (w' == w)%Q.
Proof.
  intros total strength pop dr i a nodes inputs Ht Ha La Ca.
  assert (St : (nn_std total total == 0)%Q).
  { unfold nn_std. assert (One : ((total # 1) / (total # 1) == 1)%Q) by (apply Qmult_inv_r; unfold Qeq; cbn; lia). rewrite One. reflexivity. }
  assert (E' : evonn_gaussian total total strength pop dr (Ids2 [(i, i)]) = evonn_gaussian total total strength [a] dr (Ids2 [(0, 0)])).
  { unfold evonn_gaussian, evonn_do. cbn [mating_pairs nn_pairs nth_error]. rewrite Ha. auto. }
  rewrite E'. unfold evonn_gaussian.
  destruct (C16_evonn_architecture total total [a] (fun k => gauss_draw (nn_std total total) strength (dr k)) [(0, 0)] nodes inputs) as (off & E & L & P); [lia|lia| | |].
  { intros net [<-|[]]. auto. }
  { intros x y [Q|[]]. injection Q as <- <-. cbn. lia. }
  destruct (P 0 0 0 eq_refl) as (a0 & b0 & u & v & A & B & Eu & Ev & Lu & Lv & N). cbn in A, B. injection A as <-. injection B as <-.
  exists u, v. rewrite E. split.
  { destruct off as [|u' [|v' [|? ?]]]; cbn in L; try lia. cbn in Eu, Ev. congruence. }
  assert (SB : forall o w w', scaled_by (step_size (nn_std total total) strength o) w w' -> (w' == w)%Q).
  { intros [z|] w w' H; cbn in H; subst w'; [rewrite St; ring|reflexivity]. }
  intros child Hch. split; [destruct Hch; congruence|]. intros c n w Hw. unfold weight in Hw.
  destruct (nth_error a c) as [x|] eqn:Ex; [|discriminate].
  assert (Hc : c < nodes) by (rewrite <- La; apply nth_error_Some; congruence).
  destruct (N c Hc) as (x0 & y0 & x' & y' & X0 & Y0 & X' & Y' & _ & _ & M). rewrite Ex in X0, Y0. injection X0 as <-. injection Y0 as <-.
  destruct (M n w w Hw Hw) as (w1 & w2 & W1 & W2 & M1 & M2). cbn [gauss_draw nn_ex nn_mv1 nn_mv2] in M1, M2.
  unfold weight. destruct Hch; subst child; [rewrite X'; exists w1|rewrite Y'; exists w2]; (split; [auto|]); destruct (nn_ex (dr 0) c);
    (destruct M1 as (? & ?); [reflexivity|]) || (destruct M2 as (? & ?); [reflexivity|]); eauto.
Qed.

(** C68 for EvoDN2: where both parents have no connection (weight 0, or no such place), the children have none. *)
Theorem C68_evodn2_zero_stays_zero : forall cur total strength (pop : list dnet) dr (ms : list (nat * nat)) subnets off,
  (0 < total)%Z -> (forall net, In net pop -> length net = subnets) -> valid_pairs pop ms ->
  evodn2_do cur total strength pop dr (Ids2 ms) = Ok off ->
  forall k i j a b u v, nth_error ms k = Some (i, j) -> nth_error pop i = Some a -> nth_error pop j = Some b ->
    nth_error off (2 * k) = Some u -> nth_error off (2 * k + 1) = Some v ->
  forall s x y x' y' l c, nth_error a s = Some x -> nth_error b s = Some y -> nth_error u s = Some x' -> nth_error v s = Some y' ->
    (forall w, weight x l c = Some w \/ weight y l c = Some w -> (w == 0)%Q) ->
    forall w, weight x' l c = Some w \/ weight y' l c = Some w -> (w == 0)%Q.
Proof.
  intros cur total strength pop dr ms subnets off Ht Hs V E k i j a b u v Hk Ha Hb Hu Hv s x y x' y' l c Hx Hy Hx' Hy' Hz w Hw.
  destruct (C16_evodn2_operator cur total strength pop dr ms subnets Ht Hs V) as (off0 & std & Sp & E0 & _ & P).
  rewrite E in E0. injection E0 as <-. destruct (P k i j Hk) as (a0 & b0 & u0 & v0 & A & B & U & W & _ & _ & N).
  rewrite Ha in A. rewrite Hb in B. rewrite Hu in U. rewrite Hv in W. injection A as <-. injection B as <-. injection U as <-. injection W as <-.
  destruct (N s x y Hx Hy) as (x0 & y0 & X0 & Y0 & _ & _ & I0). rewrite Hx' in X0. rewrite Hy' in Y0. injection X0 as <-. injection Y0 as <-.
  specialize (I0 l c).
  assert (SB : forall o q q', scaled_by o q q' -> (q == 0)%Q -> (q' == 0)%Q).
  { intros [z|] q q' H Q; cbn in H; subst q'; auto. rewrite Q. ring. }
  destruct (weight x l c) as [w1|], (weight y l c) as [w2|].
  - assert (Z1 : (w1 == 0)%Q) by (apply Hz; auto). assert (Z2 : (w2 == 0)%Q) by (apply Hz; auto).
    destruct I0 as (w1' & w2' & W1 & W2 & S1 & S2). rewrite W1, W2 in Hw.
    destruct Hw as [Hw|Hw]; injection Hw as <-; [eapply SB; [exact S1|]|eapply SB; [exact S2|]]; destruct (dn_ex _ _ _); auto.
  - assert (Z1 : (w1 == 0)%Q) by (apply Hz; auto). destruct I0 as (W2 & w1' & W1 & S1). rewrite W1, W2 in Hw.
    destruct Hw as [Hw|Hw]; [|discriminate]. injection Hw as <-. eauto.
  - assert (Z1 : (w2 == 0)%Q) by (apply Hz; auto). destruct I0 as (W2 & w1' & W1 & S1). rewrite W1, W2 in Hw.
    destruct Hw as [Hw|Hw]; [discriminate|]. injection Hw as <-. eauto.
  - destruct I0 as (W1 & W2). rewrite W1, W2 in Hw. destruct Hw; discriminate.
Qed.

(** ** Non-vacuity *)
Example ex_self_adapting : evonn_self_adapting 1 2 1 [[[1; 2]; [3; 0]]; [[5; 6]; [7; 8]]]%Q
   (fun _ => mkSA (fun i => Nat.eqb i 0) (0, 3) (fun i j => Nat.eqb i 1 && Nat.eqb j 1)%bool (0, 0) (fun _ _ => false)) (Ids2 [(0, 1)])
  = Ok [[[5; 6]; [3; 0 + 1 * (1 - (1 # 1) / (2 # 1)) * (8 - 0)]]; [[1; 2]; [7; 8]]]%Q.
Proof. reflexivity. Qed.
Example ex_evodn2 : exists w, evodn2_do 12 10 1 [[[[1; 2]]]; [[[3]; [4]]]]%Q
   (fun _ _ => mkDN (fun _ _ => true) (fun _ _ => None) (fun l _ => if Nat.eqb l 1 then Some 1 else None)%Q) (Ids2 [(0, 1)])
  = Ok [[[[3; 2]]]; [[[1]; [w]]]]%Q /\ (w == 4)%Q.
Proof. eexists. split; [reflexivity|]. vm_compute. reflexivity. Qed.
Example ex_uniform : uniform_nets 2 2 [[[1; 2]; [3; 0]]; [[5; 6]; [7; 8]]]%Q /\ valid_pairs [[[1; 2]; [3; 0]]; [[5; 6]; [7; 8]]]%Q [(0, 1)].
Proof.
  split.
  - intros net [<-|[<-|[]]]; split; auto; intros col [<-|[<-|[]]]; auto.
  - intros i j [Q|[]]. injection Q as <- <-. cbn. lia.
Qed.

Print Assumptions C16_evonn_self_adapting.
Print Assumptions C16_self_adapting_no_weights_refuted.
Print Assumptions C68_self_adapting_revives.
Print Assumptions C16_evodn2_operator.
Print Assumptions C16_mutation_fades.
Print Assumptions C16_evonn_mutation_fades.
Print Assumptions C68_evodn2_zero_stays_zero.
