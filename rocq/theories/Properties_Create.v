(** C09, C69, C70: initial individuals. *)
From Verif Require Import Base M_Recombination M_Create P_Recombination Properties_Recombination.
From Coq Require Import Reals Lra Permutation QArith Qround.
Open Scope nat_scope.

Lemma scale_row_length us : forall lbs ubs, length us = length lbs -> length lbs = length ubs ->
  length (scale_row us lbs ubs) = length us.
Proof. induction us as [|u us IH]; intros [|l lbs] [|h ubs] H1 H2; simpl in *; try discriminate; auto. Qed.

Lemma scale_row_nth us : forall lbs ubs j u l h,
  nth_error us j = Some u -> nth_error lbs j = Some l -> nth_error ubs j = Some h ->
  nth_error (scale_row us lbs ubs) j = Some (u * (h - l) + l)%R.
Proof.
  induction us as [|u us IH]; intros [|l lbs] [|h ubs] [|j] u' l' h' H1 H2 H3; simpl in *; try discriminate; auto.
  congruence.
Qed.

Lemma nth_error_seq n i : i < n -> nth_error (seq 0 n) i = Some i.
Proof.
  intros H. enough (forall s n i, i < n -> nth_error (seq s n) i = Some (s + i)) as G by (apply (G 0 n i H)).
  clear. intros s n; revert s. induction n as [|n IH]; intros s [|i] H; try lia.
  - simpl. f_equal; lia.
  - simpl. rewrite IH by lia. f_equal; lia.
Qed.

(** C09. Both designs return pop_size rows with one gene per variable, every gene within its
    bounds (samples from the unit cube); bounds of the wrong length raise. *)
Theorem C09_design_in_bounds : forall pop_size n_vars samples lbs ubs,
  (forall i j, (0 <= samples i j <= 1)%R) ->
  (forall j l u, nth_error lbs j = Some l -> nth_error ubs j = Some u -> (l <= u)%R) ->
  (length lbs = n_vars -> length ubs = n_vars ->
    exists pop, scaled_design pop_size n_vars samples lbs ubs = Ok pop /\ length pop = pop_size /\
      forall r, In r pop -> length r = n_vars /\ in_box lbs ubs r) /\
  (length lbs <> n_vars \/ length ubs <> n_vars -> scaled_design pop_size n_vars samples lbs ubs = Err ValueError).
Proof.
  intros n nv U lbs ubs HU Hb. split.
  - intros L1 L2. unfold scaled_design. rewrite L1, L2, Nat.eqb_refl. simpl. eexists. split; [reflexivity|].
    rewrite map_length, seq_length. split; auto. intros r Hr. apply in_map_iff in Hr. destruct Hr as (i & <- & _).
    assert (L : length (scale_row (map (U i) (seq 0 nv)) lbs ubs) = nv).
    { rewrite scale_row_length; rewrite ?map_length, ?seq_length; congruence. }
    split; auto. split; [congruence|]. intros j l u x Hl Hu Hx.
    assert (j < nv) by (rewrite <- L; apply nth_error_Some; congruence).
    rewrite (scale_row_nth _ lbs ubs j (U i j) l u) in Hx; auto.
    2:{ rewrite nth_error_map, nth_error_seq by auto. auto. }
    injection Hx as <-. pose proof (Hb j l u Hl Hu). pose proof (HU i j). nra.
  - intros H. unfold scaled_design.
    destruct (Nat.eqb_spec (length lbs) nv), (Nat.eqb_spec (length ubs) nv); simpl; auto. tauto.
Qed.

(** C69. LHSDesign: if the samples are a Latin hypercube (per variable, one sample in each of the
    pop_size equal strata of [0,1), the contract of pyDOE.lhs), then every one of the pop_size
    equal parts of every variable's range contains exactly one individual. *)
Theorem C69_lhs_stratified : forall n n_vars samples lbs ubs pop,
  0 < n ->
  (forall j, j < n_vars -> exists p : nat -> nat,
     Permutation (map p (seq 0 n)) (seq 0 n) /\
     forall i, i < n -> (INR (p i) / INR n <= samples i j < (INR (p i) + 1) / INR n)%R) ->
  bounds_ok lbs ubs -> length lbs = n_vars ->
  scaled_design n n_vars samples lbs ubs = Ok pop ->
  forall j l u s, nth_error lbs j = Some l -> nth_error ubs j = Some u -> s < n ->
    exists i, i < n /\
      (exists r x, nth_error pop i = Some r /\ nth_error r j = Some x /\
         (l + (u - l) * (INR s / INR n) <= x < l + (u - l) * ((INR s + 1) / INR n))%R) /\
      forall i' r x, nth_error pop i' = Some r -> nth_error r j = Some x ->
         (l + (u - l) * (INR s / INR n) <= x < l + (u - l) * ((INR s + 1) / INR n))%R -> i' = i.
Proof.
  intros n nv U lbs ubs pop Hn HU [Lb Hb] Lv E j l u s Hl Hu Hs.
  assert (Hj : j < nv) by (rewrite <- Lv; apply nth_error_Some; congruence).
  destruct (HU j Hj) as (p & Hp & Hin). pose proof (Hb j l u Hl Hu) as Hlu.
  unfold scaled_design in E. rewrite <- Lb, Lv, Nat.eqb_refl in E. simpl in E. injection E as <-.
  assert (Hnr : (0 < INR n)%R) by (apply lt_0_INR; lia).
  assert (Row : forall i, i < n -> nth_error (map (fun i => scale_row (map (U i) (seq 0 nv)) lbs ubs) (seq 0 n)) i
      = Some (scale_row (map (U i) (seq 0 nv)) lbs ubs)).
  { intros i Hi. rewrite nth_error_map, nth_error_seq by auto. auto. }
  assert (Cell : forall i, nth_error (scale_row (map (U i) (seq 0 nv)) lbs ubs) j = Some (U i j * (u - l) + l)%R).
  { intros i. apply scale_row_nth; auto. rewrite nth_error_map, nth_error_seq by auto. auto. }
  assert (Uniq : forall i, i < n -> (INR s / INR n <= U i j < (INR s + 1) / INR n)%R -> p i = s).
  { intros i Hi HUi. destruct (Hin i Hi) as [A B]. 
    assert (A1 : (INR (p i) < INR s + 1)%R).
    { apply Rmult_lt_reg_r with (/ INR n)%R; [apply Rinv_0_lt_compat; auto|]. unfold Rdiv in *. lra. }
    assert (A2 : (INR s < INR (p i) + 1)%R).
    { apply Rmult_lt_reg_r with (/ INR n)%R; [apply Rinv_0_lt_compat; auto|]. unfold Rdiv in *. lra. }
    rewrite <- S_INR in A1, A2. apply INR_lt in A1. apply INR_lt in A2. lia. }
  assert (Hex : exists i, i < n /\ p i = s).
  { assert (In s (map p (seq 0 n))).
    { eapply Permutation_in; [apply Permutation_sym; exact Hp|]. apply in_seq. lia. }
    apply in_map_iff in H. destruct H as (i & E & Hi). apply in_seq in Hi. exists i. split; auto. lia. }
  destruct Hex as (i & Hi & Ei). exists i. split; auto. split.
  - eexists. eexists. split; [apply Row; auto|]. split; [apply Cell|].
    destruct (Hin i Hi) as [A B]. rewrite Ei in A, B. split; nra.
  - intros i' r x Hr Hx [X1 X2].
    assert (Hi' : i' < n).
    { assert (i' < length (map (fun i => scale_row (map (U i) (seq 0 nv)) lbs ubs) (seq 0 n))) by (apply nth_error_Some; congruence).
      rewrite map_length, seq_length in H. auto. }
    rewrite Row in Hr by auto. injection Hr as <-. rewrite Cell in Hx. injection Hx as <-.
    assert (Hp' : p i' = s).
    { apply Uniq; auto. split.
      - apply Rmult_le_reg_r with (u - l)%R; lra.
      - apply Rmult_lt_reg_r with (u - l)%R; lra. }
    assert (ND : NoDup (map p (seq 0 n))).
    { eapply Permutation_NoDup; [apply Permutation_sym; exact Hp|apply seq_NoDup]. }
    rewrite NoDup_nth_error in ND. apply ND.
    + rewrite map_length, seq_length; auto.
    + rewrite !nth_error_map, !nth_error_seq by auto. simpl. congruence.
Qed.

(** C70. Created networks: pop_size matrices of num_nodes columns; every column starts with a bias
    of 1 followed by in_nodes weights, each 0 or within the weight range. *)
Theorem C70_evonn_created_shape : forall pop_size in_nodes num_nodes w p draw w_low w_high,
  (forall i r c, (w_low <= w i r c <= w_high)%R) ->
  length (evonn_create pop_size in_nodes num_nodes w p draw) = pop_size /\
  forall net, In net (evonn_create pop_size in_nodes num_nodes w p draw) ->
    length net = num_nodes /\ forall col, In col net ->
      exists ws, col = 1%R :: ws /\ length ws = in_nodes /\
        forall x, In x ws -> x = 0%R \/ (w_low <= x <= w_high)%R.
Proof.
  intros n a b w p draw lo hi Hw. unfold evonn_create. rewrite map_length, seq_length. split; auto.
  intros net Hnet. apply in_map_iff in Hnet. destruct Hnet as (i & <- & _). unfold nn_matrix.
  rewrite map_length, seq_length. split; auto. intros col Hcol. apply in_map_iff in Hcol. destruct Hcol as (c & <- & _).
  eexists. split; [reflexivity|]. rewrite map_length, seq_length. split; auto. intros x Hx. apply in_map_iff in Hx.
  destruct Hx as (r & <- & _). match goal with |- context [if ?z then _ else _] => destruct z end; auto.
Qed.

(** Which weights are omitted. A position is (network, input, node). *)
Definition inside (P a b : nat) (q : nat * nat * nat) : Prop := let '(i, r, c) := q in i < P /\ r < a /\ c < b.
(** The networks' weights are the drawn ones, except that those at the positions Z are 0; every node has a bias of 1 in front. *)
Definition drawn_except (P a b : nat) (nets : list (list (list R))) (w : nat -> nat -> nat -> R) (Z : list (nat * nat * nat)) : Prop :=
  length nets = P /\ forall i net, nth_error nets i = Some net -> length net = b /\ forall c col, nth_error net c = Some col ->
    length col = S a /\ nth_error col 0 = Some 1%R /\
    forall r, r < a -> (In (i, r, c) Z -> nth_error col (S r) = Some 0%R) /\ (~ In (i, r, c) Z -> nth_error col (S r) = Some (w i r c)).

Lemma zeroed_iff zs k : zeroed zs k = true <-> In k zs.
Proof. unfold zeroed. rewrite existsb_exists. split; [intros (x & H & E); apply Nat.eqb_eq in E; subst; auto|intros H; exists k; split; auto; apply Nat.eqb_refl]. Qed.
Lemma flat_unique a b i r c i' r' c' : r < a -> c < b -> r' < a -> c' < b -> (i * a + r) * b + c = (i' * a + r') * b + c' -> i = i' /\ r = r' /\ c = c'.
Proof.
  intros Hr Hc Hr' Hc' E.
  assert (U : forall n q s q' s', s < n -> s' < n -> q * n + s = q' * n + s' -> q = q' /\ s = s').
  { intros n q s q' s' H1 H2 E'. assert (Q1 : (q * n + s) / n = q) by (rewrite Nat.div_add_l by lia; rewrite Nat.div_small by lia; lia).
    assert (Q2 : (q' * n + s') / n = q') by (rewrite Nat.div_add_l by lia; rewrite Nat.div_small by lia; lia). rewrite E', Q2 in Q1. subst q'. split; auto. lia. }
  destruct (U _ _ _ _ _ Hc Hc' E) as (E1 & Ec). destruct (U _ _ _ _ _ Hr Hr' E1) as (Ei & Er). auto.
Qed.
Definition unflat (a b k : nat) : nat * nat * nat := (k / b / a, (k / b) mod a, k mod b).
Lemma unflat_flat a b i r c : r < a -> c < b -> unflat a b ((i * a + r) * b + c) = (i, r, c).
Proof.
  intros Hr Hc. unfold unflat. rewrite Nat.div_add_l by lia. rewrite (Nat.div_small c b) by lia. rewrite Nat.add_0_r.
  rewrite Nat.div_add_l by lia. rewrite (Nat.div_small r a) by lia. rewrite Nat.add_0_r.
  rewrite (Nat.add_comm (i * a)), Nat.mod_add by lia. rewrite (Nat.mod_small r a) by lia. rewrite Nat.add_comm, Nat.mod_add by lia. rewrite (Nat.mod_small c b) by lia. auto.
Qed.
Lemma flat_unflat a b k : a <> 0 -> b <> 0 -> let '(i, r, c) := unflat a b k in (i * a + r) * b + c = k.
Proof. intros Ha Hb. unfold unflat. pose proof (Nat.div_mod k b Hb). pose proof (Nat.div_mod (k / b) a Ha). nia. Qed.
Lemma in_unflat a b zs i r c : r < a -> c < b -> In (i, r, c) (map (unflat a b) zs) <-> In ((i * a + r) * b + c) zs.
Proof.
  intros Hr Hc. rewrite in_map_iff. split.
  - intros (k & E & Hk). pose proof (flat_unflat a b k ltac:(lia) ltac:(lia)) as F. rewrite E in F. rewrite F. auto.
  - intros H. eexists. split; [apply unflat_flat; auto|auto].
Qed.
Lemma evonn_except P a b w p draw (Z : list (nat * nat * nat)) :
  (forall i r c, i < P -> r < a -> c < b -> (In (i, r, c) Z <-> In ((i * a + r) * b + c) (omitted (P * a * b) p draw))) ->
  drawn_except P a b (evonn_create P a b w p draw) w Z.
Proof.
  intros HZ. unfold evonn_create, drawn_except. rewrite map_length, seq_length. split; auto. intros i net Hn.
  rewrite nth_error_map in Hn. destruct (nth_error (seq 0 P) i) as [i'|] eqn:Ei; [|discriminate]. injection Hn as <-.
  assert (Li : i < P) by (rewrite <- (seq_length P 0); apply nth_error_Some; congruence). rewrite nth_error_seq in Ei by auto. injection Ei as <-.
  unfold nn_matrix. rewrite map_length, seq_length. split; auto. intros c col Hc. rewrite nth_error_map in Hc.
  destruct (nth_error (seq 0 b) c) as [c'|] eqn:Ec; [|discriminate]. injection Hc as <-.
  assert (Lc : c < b) by (rewrite <- (seq_length b 0); apply nth_error_Some; congruence). rewrite nth_error_seq in Ec by auto. injection Ec as <-.
  split; [simpl; rewrite map_length, seq_length; auto|]. split; [reflexivity|]. intros r Hr. cbn [nth_error]. rewrite nth_error_map, nth_error_seq by auto. cbn [option_map].
  split; intros H.
  - apply (proj1 (HZ i r c Li Hr Lc)) in H. apply zeroed_iff in H. rewrite H. auto.
  - match goal with |- context [if ?z then _ else _] => destruct z eqn:Ez end; auto. exfalso. apply H. apply (HZ i r c Li Hr Lc). apply zeroed_iff; auto.
Qed.
Lemma omitted_lt size p draw k : In k (omitted size p draw) -> k < size.
Proof.
  unfold omitted. intros H. apply in_map_iff in H. destruct H as (j & <- & H). apply Nat.mod_upper_bound. intros ->. apply in_seq in H. unfold n_omit in H.
  assert (E : Qceiling (inject_Z (Z.of_nat 0) * p) = 0%Z). { assert (inject_Z (Z.of_nat 0) * p == 0)%Q as -> by (change (inject_Z (Z.of_nat 0)) with 0%Q; ring). reflexivity. } rewrite E in H. simpl in H. lia.
Qed.
(** C70. Of all the weights of all the networks, ceil(number of weights * prob_omit) positions are drawn (repetitions possible) and set to 0; the others stay as drawn. *)
Theorem C70_evonn_omitted_weights : forall pop_size in_nodes num_nodes w p draw, exists Z,
  Z.of_nat (length Z) = Z.max 0 (Qceiling (inject_Z (Z.of_nat (pop_size * in_nodes * num_nodes)) * p)) /\
  (forall q, In q Z -> inside pop_size in_nodes num_nodes q) /\
  drawn_except pop_size in_nodes num_nodes (evonn_create pop_size in_nodes num_nodes w p draw) w Z.
Proof.
  intros P a b w p draw. exists (map (unflat a b) (omitted (P * a * b) p draw)). split; [|split].
  - rewrite map_length. unfold omitted. rewrite map_length, seq_length. unfold n_omit. lia.
  - intros q Hq. apply in_map_iff in Hq. destruct Hq as (k & <- & Hk). apply omitted_lt in Hk. unfold inside, unflat.
    assert (a <> 0 /\ b <> 0) as (Ha & Hb) by (split; intros ->; [rewrite Nat.mul_0_r in Hk; simpl in Hk|rewrite Nat.mul_0_r in Hk]; lia).
    split; [|split; apply Nat.mod_upper_bound; auto]. apply Nat.div_lt_upper_bound; auto. apply Nat.div_lt_upper_bound; auto. nia.
  - apply evonn_except. intros i r c Hi Hr Hc. apply in_unflat; auto.
Qed.
(** C70. And any choice of that many positions can be drawn. *)
Theorem C70_evonn_any_weights_omitted : forall pop_size in_nodes num_nodes w p Z,
  Z.of_nat (length Z) = Z.max 0 (Qceiling (inject_Z (Z.of_nat (pop_size * in_nodes * num_nodes)) * p)) ->
  (forall q, In q Z -> inside pop_size in_nodes num_nodes q) ->
  exists draw, drawn_except pop_size in_nodes num_nodes (evonn_create pop_size in_nodes num_nodes w p draw) w Z.
Proof.
  intros P a b w p Z L Hin. set (fl := fun q : nat * nat * nat => let '(i, r, c) := q in (i * a + r) * b + c).
  exists (fun k => fl (nth k Z (0, 0, 0))). apply evonn_except.
  assert (E : omitted (P * a * b) p (fun k => fl (nth k Z (0, 0, 0))) = map fl Z).
  { unfold omitted. assert (n_omit (P * a * b) p = length Z) as -> by (unfold n_omit; lia).
    apply nth_ext with (d := 0) (d' := fl (0, 0, 0)); rewrite !map_length, seq_length; auto. intros k Hk. rewrite (map_nth fl).
    rewrite (nth_indep _ 0 (fl (nth 0 Z (0, 0, 0)) mod (P * a * b))) by (rewrite map_length, seq_length; auto).
    rewrite (map_nth (fun k => fl (nth k Z (0, 0, 0)) mod (P * a * b))). rewrite seq_nth by auto. cbn [Nat.add].
    assert (Hq : In (nth k Z (0, 0, 0)) Z) by (apply nth_In; auto). apply Hin in Hq. destruct (nth k Z (0, 0, 0)) as [[i r] c]. cbn in Hq. apply Nat.mod_small. unfold fl. destruct Hq as (Q1 & Q2 & Q3). assert (i * a + r < P * a) by nia. nia. }
  rewrite E. intros i r c Hi Hr Hc. rewrite in_map_iff. split.
  - intros H. exists (i, r, c). split; auto.
  - intros ([[i' r'] c'] & Ef & H). pose proof (Hin _ H) as (I1 & I2 & I3). unfold fl in Ef. destruct (flat_unique a b i' r' c' i r c I2 I3 Hr Hc Ef) as (-> & -> & ->). auto.
Qed.

(** C70 (EvoDN2): a created subnet has between 1 and max_layers - 1 layers; the first takes the
    subset's variables, each further layer as many inputs as the previous has outputs (plus the
    bias), every layer has between 2 and max_nodes outputs. *)
Fixpoint chained (in_nodes : nat) (layers : list (list (list R))) : Prop :=
  match layers with
  | [] => True
  | m :: t => (forall col, In col m -> exists ws, col = 1%R :: ws /\ length ws = in_nodes) /\ chained (length m) t
  end.

Lemma draw_all_spec mx n dr l : draw_all mx n dr = Ok l -> length l = n /\ forall o, In o l -> 2 <= o <= mx.
Proof.
  revert l; induction n as [|n IH]; intros l; cbn [draw_all].
  - intros H; injection H as <-. split; auto. intros o [].
  - unfold draw_nodes. destruct (Nat.leb_spec 2 mx); cbn [bind]; [|discriminate].
    destruct (draw_all mx n dr) as [t|e] eqn:Et; cbn [bind]; [|discriminate]. intros H'; injection H' as <-.
    destruct (IH t eq_refl) as [L P]. split; [simpl; auto|]. intros o [<-|Ho]; auto.
    pose proof (Nat.mod_upper_bound (dr n) (mx - 1) ltac:(lia)). lia.
Qed.

Lemma nn_matrix_length a o w z : length (nn_matrix a o w z) = o.
Proof. unfold nn_matrix. rewrite map_length, seq_length. auto. Qed.
Lemma chained_create outs : forall a k w p draw, chained a (dn_layers_create a outs k w p draw) /\
  map (@length (list R)) (dn_layers_create a outs k w p draw) = outs.
Proof.
  induction outs as [|o outs IH]; intros a k w p draw; cbn [dn_layers_create chained map]; auto.
  unfold nn_matrix. rewrite !map_length, !seq_length. destruct (IH o (S k) w p draw) as [I1 I2]. rewrite I2.
  split; auto. split.
  - intros col Hc. apply in_map_iff in Hc. destruct Hc as (c & <- & _). eexists. split; [reflexivity|].
    rewrite map_length, seq_length; auto.
  - auto.
Qed.

Theorem C70_evodn2_created_chain : forall max_layers max_nodes subset_size dl dn w p draw layers,
  subnet_create max_layers max_nodes subset_size dl dn w p draw = Ok layers ->
  1 <= length layers < max_layers /\ chained subset_size layers /\
  forall m, In m layers -> 2 <= length m <= max_nodes.
Proof.
  intros ml mn ss dl dn w p draw layers. unfold subnet_create, draw_layers.
  destruct (Nat.ltb_spec 1 ml); cbn [bind]; [|discriminate].
  destruct (draw_all mn _ dn) as [outs|e] eqn:Eo; cbn [bind]; [|discriminate]. intros H'; injection H' as <-.
  destruct (draw_all_spec _ _ _ _ Eo) as [L P]. destruct (chained_create outs ss 0 w p draw) as [C M].
  assert (Ll : length (dn_layers_create ss outs 0 w p draw) = length outs).
  { rewrite <- (map_length (@length (list R))), M. auto. }
  pose proof (Nat.mod_upper_bound dl (ml - 1) ltac:(lia)).
  split; [rewrite Ll, L; lia|]. split; auto. intros m Hm. apply P. rewrite <- M. apply in_map; auto.
Qed.

(** C70 (EvoDN2): in every layer ceil(number of weights of the layer * prob_omit) positions are drawn and set to 0, the other weights stay as drawn. *)
Theorem C70_evodn2_omitted_weights : forall max_layers max_nodes subset_size dl dn w p draw layers,
  subnet_create max_layers max_nodes subset_size dl dn w p draw = Ok layers ->
  forall k m, nth_error layers k = Some m ->
  let inputs := match k with 0 => subset_size | S j => length (nth j layers []) end in
  exists Z, Z.of_nat (length Z) = Z.max 0 (Qceiling (inject_Z (Z.of_nat (inputs * length m)) * p)) /\
    (forall q, In q Z -> inside 1 inputs (length m) q) /\ drawn_except 1 inputs (length m) [m] (fun _ => w k) Z.
Proof.
  intros ml mn ss dl dn w p draw layers. unfold subnet_create, draw_layers.
  destruct (Nat.ltb_spec 1 ml); cbn [bind]; [|discriminate].
  destruct (draw_all mn _ dn) as [outs|e] eqn:Eo; cbn [bind]; [|discriminate]. intros H'; injection H' as <-.
  assert (G : forall outs a k0 k m, nth_error (dn_layers_create a outs k0 w p draw) k = Some m ->
     let inputs := match k with 0 => a | S j => length (nth j (dn_layers_create a outs k0 w p draw) []) end in
     exists o, m = nn_matrix inputs o (w (k0 + k)) (fun r c => zeroed (omitted (inputs * o) p (draw (k0 + k))) (r * o + c))).
  { clear. induction outs as [|o outs IH]; intros a k0 k m Hk; [destruct k; discriminate|]. destruct k as [|k]; cbn [dn_layers_create nth_error] in *.
    - injection Hk as <-. cbv zeta. exists o. rewrite Nat.add_0_r. auto.
    - specialize (IH o (S k0) k m Hk). cbv zeta in *. destruct IH as (o' & E). exists o'. rewrite E. rewrite (Nat.add_succ_comm k0 k).
      destruct k as [|k]; cbn [nth]; [rewrite !nn_matrix_length; reflexivity|reflexivity]. }
  intros k m Hk. destruct (G outs ss 0 k m Hk) as (o & E). cbv zeta. set (inputs := match k with 0 => ss | S j => _ end) in *. rewrite Nat.add_0_l in E.
  assert (Lo : length m = o) by (rewrite E; unfold nn_matrix; rewrite map_length, seq_length; auto). rewrite Lo.
  destruct (C70_evonn_omitted_weights 1 inputs o (fun _ => w k) p (draw k)) as (Z & Z1 & Z2 & Z3). exists Z. rewrite !Nat.mul_1_l in *. split; auto. split; auto.
  replace [m] with (evonn_create 1 inputs o (fun _ => w k) p (draw k)); auto. unfold evonn_create. cbn [seq map]. rewrite E, Nat.mul_1_l. reflexivity.
Qed.

(** C70: max_layers itself is never reached, and max_layers = 1 raises. *)
Theorem C70_single_layer_networks_refuted : forall max_nodes ss dl dn w p draw,
  subnet_create 1 max_nodes ss dl dn w p draw = Err ValueError.
Proof. reflexivity. Qed.

(** C09: default population sizes. *)
Theorem C09_default_pop_size : forall m n, default_pop_size m = Ok n -> 2 <= m <= 10 ->
  nth_error [50; 105; 120; 126; 132; 112; 156; 90; 275] (m - 2) = Some n.
Proof.
  intros m n H Hm. unfold default_pop_size in H. destruct m as [|[|m]]; [lia|lia|].
  do 9 (destruct m as [|m]; [vm_compute in H; injection H as <-; reflexivity|]). lia.
Qed.

(** ** Non-vacuity *)
Example ex_design : exists pop, scaled_design 2 2 (fun i j => if Nat.eqb i j then 1%R else (1/2)%R) [0; -1]%R [1; 1]%R = Ok pop /\
  pop = [[1 * (1 - 0) + 0; 1/2 * (1 - -1) + -1]; [1/2 * (1 - 0) + 0; 1 * (1 - -1) + -1]]%R.
Proof. eexists. split; reflexivity. Qed.
Example ex_lhs_contract : exists p : nat -> nat, Permutation (map p (seq 0 2)) (seq 0 2) /\
  forall i, i < 2 -> (INR (p i) / INR 2 <= (if Nat.eqb i 0 then 3/4 else 1/4)%R < (INR (p i) + 1) / INR 2)%R.
Proof.
  exists (fun i => 1 - i). split; [simpl; constructor|].
  intros [|[|i]] H; simpl; try lra; lia.
Qed.
Example ex_dn_create : exists l, subnet_create 4 5 3 1 (fun _ => 2) (fun _ _ _ => 0%R) (1 # 2) (fun _ k => k) = Ok l /\ length l = 2 /\ map (@length (list R)) l = [4; 4].
Proof. eexists. split; [reflexivity|]. split; reflexivity. Qed.

Print Assumptions C09_design_in_bounds.
Print Assumptions C69_lhs_stratified.
(** Two networks of two inputs and one node, a third of the weights (two of the four, rounded up) omitted. *)
Example ex_omitted : evonn_create 2 2 1 (fun i r c => 1%R) (1 # 3) (fun k => k * 3) = [[[1; 0; 1]]; [[1; 1; 0]]]%R.
Proof. reflexivity. Qed.

Print Assumptions C70_evonn_created_shape.
Print Assumptions C70_evonn_omitted_weights.
Print Assumptions C70_evonn_any_weights_omitted.
Print Assumptions C70_evodn2_omitted_weights.
Print Assumptions C70_evodn2_created_chain.
