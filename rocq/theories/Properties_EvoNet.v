(** C63, C64, C94-C96: the neural surrogates EvoNN and EvoDN2: model selection, input subsets, prediction, complexity, evaluation. *)
From Verif Require Import Base RVec M_Create Properties_Create M_EvoNet Spec_EvoNet P_EvoNet.
From Coq Require Import Reals Lra.
Open Scope nat_scope.

Section EvoNet.
Context (act : R -> R) (lstsq : list (list R) -> list R -> list R).
Notation nn_select := (nn_select act lstsq).
Notation nn_fit_end := (nn_fit_end act lstsq).
Notation nn_aicc := (nn_aicc act lstsq).
Notation nn_last := (nn_last act lstsq).
Notation nn_pred := (nn_pred act).
Notation dn_select := (dn_select act lstsq).
Notation dn_fit_end := (dn_fit_end act lstsq).

(** *** C63 *)
(** With the default criterion the first member of the final population becomes the model, whatever the criteria of the others. *)
Theorem C63_akaike_takes_the_first : forall X y first pop errors s, exists s',
  nn_fit_end Akaike X y (first :: pop) errors s = (s', Ok tt) /\ nn_first s' = Some first /\ nn_AICc s' = Some (nn_aicc X y first) /\ nn_trained s' = true.
Proof. intros X y first pop errors s. eexists. split; [reflexivity|]. split; [reflexivity|]. split; reflexivity. Qed.
(** So the claim holds if the first member is a best one. *)
Theorem C63_akaike_partial : forall X y first pop errors s, (forall w, In w pop -> (nn_aicc X y first <= nn_aicc X y w)%R) ->
  exists s' f, nn_fit_end Akaike X y (first :: pop) errors s = (s', Ok tt) /\ nn_first s' = Some f /\ In f (first :: pop) /\ forall w, In w (first :: pop) -> (nn_aicc X y f <= nn_aicc X y w)%R.
Proof.
  intros X y first pop errors s H. destruct (C63_akaike_takes_the_first X y first pop errors s) as (s' & E & F & _). exists s', first. split; auto. split; auto. split; [left; auto|]. intros w [<-|Hw]; [apply Rle_refl|auto].
Qed.
(** With min_error training always ends in an IndexError, after the (right) network has been stored; the model stays untrained. *)
Theorem C63_min_error_refuted : forall X y pop errors s, pop <> [] -> length errors = length pop -> nn_trained s = false -> exists s' f i,
  nn_fit_end MinError X y pop errors s = (s', Err IndexError) /\ nn_trained s' = false /\
  nn_first s' = Some f /\ nth_error pop i = Some f /\ exists e, nth_error errors i = Some e /\ forall e', In e' errors -> (e <= e')%R.
Proof.
  intros X y pop errors s Hp L Ht. destruct (argmin errors) as [i|] eqn:Ei.
  - pose proof (argmin_lt _ _ Ei) as Hi. rewrite L in Hi. destruct (nth_error pop i) as [f|] eqn:Ef; [|apply nth_error_None in Ef; lia].
    eexists _, f, i. unfold M_EvoNet.nn_fit_end, M_EvoNet.nn_select. rewrite Ei. unfold nn_finish. rewrite Ef. replace (nth_error (@nil R) i) with (@None R) by (destruct i; reflexivity).
    split; [reflexivity|]. split; [exact Ht|]. split; [reflexivity|]. split; [reflexivity|]. destruct (argmin_spec _ _ Ei) as (v & Hv & Hall & _). exists v. split; auto.
  - exfalso. destruct errors; [destruct pop; [congruence|discriminate]|discriminate].
Qed.
(** Any other criterion is answered by an UnboundLocalError; nothing is stored. *)
Remark unknown_criterion : forall X y pop errors s, nn_fit_end OtherCriterion X y pop errors s = (s, Err UnboundLocalError).
Proof. reflexivity. Qed.
(** EvoDN2: the network with the smallest error is taken; any other criterion is refused with the library's error and stores nothing. *)
Theorem C63_evodn2_min_error : forall X y pop errors s s', length errors = length pop -> dn_fit_end MinError X y pop errors s = (s', Ok tt) ->
  exists i nets e, dn_subnets s' = Some nets /\ nth_error pop i = Some nets /\ nth_error errors i = Some e /\ (forall e', In e' errors -> (e <= e')%R) /\ dn_trained s' = true.
Proof.
  intros X y pop errors s s' L. unfold M_EvoNet.dn_fit_end, M_EvoNet.dn_select. destruct (argmin errors) as [i|] eqn:Ei; [|discriminate].
  destruct (nth_error pop i) as [nets|] eqn:En; [|discriminate]. destruct (dn_subsets s) as [ss|]; [|discriminate]. destruct (each_row (feed act ss nets) X) as [pen|]; [|discriminate].
  destruct (dn_linear lstsq pen y) as [yp w]. intros E. injection E as <-. destruct (argmin_spec _ _ Ei) as (v & Hv & Hall & _). exists i, nets, v. split; [reflexivity|]. split; auto.
Qed.
Theorem C63_evodn2_other_criterion : forall c X y pop errors s, c <> MinError -> dn_fit_end c X y pop errors s = (s, Err ModelError).
Proof. intros [| |] X y pop errors s H; [congruence|reflexivity|reflexivity]. Qed.

(** C63. The criterion (which the model records, see above): Akaike's, corrected for small samples, of the network with its output layer,
    a parameter being a weight that is not zero, and the errors those of the prediction on the training data. *)
Lemma count_connections l : count_nonzero l = connections l.
Proof. unfold count_nonzero. induction l as [|v t IH]; [reflexivity|]. cbn [filter connections]. destruct (Req_EM_T v 0); cbn [length]; rewrite IH; reflexivity. Qed.
Lemma rss_is p : forall y, rss p y = squared_error p y.
Proof. induction p as [|a p IH]; intros [|b y]; try reflexivity. unfold rss in *. cbn [combine map]. unfold rsum in *. cbn [fold_right]. rewrite IH. cbn [squared_error fst snd]. ring. Qed.
Theorem C63_criterion : forall X y first,
  nn_aicc X y first = corrected_akaike (INR (connections (concat first) + connections (nn_last X y first))) (INR (length y))
                        (squared_error (map (nn_pred first (nn_last X y first)) X) y).
Proof. intros. unfold M_EvoNet.nn_aicc, corrected_akaike. rewrite <- !count_connections, <- rss_is. reflexivity. Qed.

(** *** C94 *)
Lemma squared_nonneg p : forall y, (0 <= squared_error p y)%R.
Proof. induction p as [|a p IH]; intros [|b y]; cbn [squared_error]; try lra. specialize (IH y). pose proof (pow2_ge_0 (b - a)). lra. Qed.
Lemma rmse_is p y : y <> [] -> root_mean_square p y (rmse p y).
Proof.
  intros Hy. unfold root_mean_square, rmse. rewrite rss_is. split; [apply sqrt_pos|].
  assert (0 < INR (length y))%R by (apply lt_0_INR; destruct y; [contradiction|cbn; lia]).
  apply pow2_sqrt. unfold Rdiv. apply Rmult_le_pos; [apply squared_nonneg|left; apply Rinv_0_lt_compat; assumption].
Qed.
(** A trained EvoNN predicts its training data with the recorded root mean squared error. *)
Theorem C94_evonn_reproduces : forall c X y pop errors s s', nn_fit_end c X y pop errors s = (s', Ok tt) -> y <> [] ->
  exists p e, nn_predict act s' X = Ok p /\ length p = length X /\ nn_rmse s' = Some e /\ root_mean_square p y e.
Proof.
  intros c X y pop errors s s'. unfold M_EvoNet.nn_fit_end. destruct (nn_select c X y pop errors s) as [s1 [[]|]] eqn:E; [|discriminate]. intros H Hy. injection H as <-.
  assert (G : exists i l, nn_finish act lstsq X y pop l i s = (s1, Ok tt)).
  { unfold M_EvoNet.nn_select in E. destruct c.
    - destruct (argmin errors); [eauto|discriminate].
    - destruct (map (M_EvoNet.nn_aicc act lstsq X y) pop) as [|a l]; [discriminate|eauto].
    - discriminate. }
  destruct G as (i & l & G). unfold nn_finish in G. destruct (nth_error pop i) as [f|]; [|discriminate]. destruct (nth_error l i); [|discriminate]. injection G as <-.
  unfold nn_predict. cbn [nn_trained nn_first nn_lastl nn_rmse]. eexists. eexists. split; [reflexivity|]. split; [apply map_length|]. split; [reflexivity|]. apply rmse_is; exact Hy.
Qed.
(** The same for EvoDN2. *)
Theorem C94_evodn2_reproduces : forall c X y pop errors s s', dn_fit_end c X y pop errors s = (s', Ok tt) -> y <> [] ->
  exists p e, dn_predict act s' X = Ok p /\ length p = length X /\ dn_rmse s' = Some e /\ root_mean_square p y e.
Proof.
  intros c X y pop errors s s'. unfold M_EvoNet.dn_fit_end. destruct (dn_select c X y pop errors s) as [s1 [[]|]] eqn:E; [|discriminate]. intros H Hy. injection H as <-.
  unfold M_EvoNet.dn_select in E. destruct c; try discriminate. destruct (argmin errors) as [i|]; [|discriminate]. destruct (nth_error pop i) as [nets|]; [|discriminate]. destruct (dn_subsets s) as [ss|] eqn:Es; [|discriminate].
  destruct (each_row (feed act ss nets) X) as [pen|] eqn:Ef; [|discriminate]. unfold dn_linear in E. injection E as <-. unfold dn_predict. cbn [dn_subnets dn_subsets dn_last dn_rmse]. rewrite Ef. cbn [bind].
  eexists. eexists. split; [reflexivity|]. split; [rewrite map_length; apply (each_row_length _ _ _ Ef)|]. split; [reflexivity|].
  rewrite map_map. erewrite map_ext; [apply rmse_is; exact Hy|]. intros p. cbn beta. apply node_out_cons.
Qed.
(** If numpy's lstsq gives least squares solutions, no other output layer on the same hidden network has a smaller error. *)
Theorem C94_best_output_layer : least_squares lstsq -> forall X y first last,
  (squared_error (map (nn_pred first (nn_last X y first)) X) y <= squared_error (map (nn_pred first last) X) y)%R.
Proof.
  intros LS X y first last. pose proof (LS (map (cons 1%R) (map (fun x => layer_out act x first) X)) y last) as H. rewrite !map_map in H. unfold M_EvoNet.nn_last, linear_layer.
  rewrite (map_ext (nn_pred first last) (fun x => dot (1%R :: layer_out act x first) last)) by (intros x; apply node_out_cons).
  rewrite (map_ext (nn_pred first _) (fun x => dot (1%R :: layer_out act x first) (lstsq (map (cons 1%R) (map (fun x => layer_out act x first) X)) y))) by (intros x; apply node_out_cons). rewrite !map_map. exact H.
Qed.
(** Before training EvoNN refuses to predict; a failed training leaves it so. *)
Theorem C94_evonn_untrained : forall s X, nn_trained s = false -> nn_predict act s X = Err ModelError.
Proof. intros s X H. unfold nn_predict. rewrite H. reflexivity. Qed.
Theorem C94_evonn_new_model : forall X, nn_predict act nn_new X = Err ModelError.
Proof. intros X. apply C94_evonn_untrained. reflexivity. Qed.
Theorem C94_evonn_failed_training : forall c X y pop errors s s' e X', nn_trained s = false -> nn_fit_end c X y pop errors s = (s', Err e) -> nn_predict act s' X' = Err ModelError.
Proof.
  intros c X y pop errors s s' e X' Ht E. apply C94_evonn_untrained. unfold M_EvoNet.nn_fit_end in E. destruct (nn_select c X y pop errors s) as [s1 [[]|e1]] eqn:Es; [discriminate|]. injection E as <- <-.
  assert (G : forall l i s1 e1, nn_finish act lstsq X y pop l i s = (s1, Err e1) -> nn_trained s1 = false).
  { intros l i s2 e2. unfold nn_finish. destruct (nth_error pop i); [|intros H; injection H as <- <-; exact Ht]. destruct (nth_error l i); intros H; [discriminate|]. injection H as <- <-. exact Ht. }
  unfold M_EvoNet.nn_select in Es. destruct c.
  - destruct (argmin errors); [apply (G _ _ _ _ Es)|injection Es as <- <-; exact Ht].
  - destruct (map (M_EvoNet.nn_aicc act lstsq X y) pop); [injection Es as <- <-; exact Ht|apply (G _ _ _ _ Es)].
  - injection Es as <- <-. exact Ht.
Qed.
(** EvoDN2 does not check: an AttributeError instead. *)
Theorem C94_evodn2_untrained_refuted : forall subsets X, dn_predict act (dn_new subsets) X = Err AttributeError.
Proof. reflexivity. Qed.

(** *** C95 *)
(** The complexity of a subnet: the sum, over all inputs and all paths of connections from it to the last layer, of the products of the absolute weights. Biases do not count. *)
Theorem C95_complexity_is_path_weight : forall nin layers, layers <> [] -> shaped nin layers ->
  subnet_complexity nin layers = rsum (map (fun i => rsum (map (path_weight layers i) (paths layers))) (seq 0 nin)).
Proof. intros nin layers H Sh. rewrite (complexity_paths nin layers H Sh). reflexivity. Qed.
(** It is never negative, and 0 exactly if every path is cut by a zero weight. *)
Theorem C95_zero_complexity : forall nin layers, layers <> [] -> shaped nin layers ->
  (0 <= subnet_complexity nin layers)%R /\
  (subnet_complexity nin layers = 0%R <-> forall i p, i < nin -> In p (paths layers) -> path_weight layers i p = 0%R).
Proof.
  intros nin layers H Sh. rewrite (C95_complexity_is_path_weight nin layers H Sh).
  assert (P : forall i x, In x (map (path_weight layers i) (paths layers)) -> (0 <= x)%R) by (intros i x Hx; apply in_map_iff in Hx; destruct Hx as (p & <- & _); apply path_weight_nonneg).
  assert (Q : forall x, In x (map (fun i => rsum (map (path_weight layers i) (paths layers))) (seq 0 nin)) -> (0 <= x)%R) by (intros x Hx; apply in_map_iff in Hx; destruct Hx as (i & <- & _); apply rsum_nonneg, P).
  split; [apply rsum_nonneg, Q|]. split.
  - intros E i p Hi Hp. apply (rsum_zero _ (P i)); [|apply in_map; auto]. apply (rsum_zero _ Q E). apply in_map_iff. exists i. split; auto. apply in_seq. lia.
  - intros E. transitivity (rsum (map (fun _ : nat => 0%R) (seq 0 nin))).
    + f_equal. apply map_ext_in. intros i Hi. apply in_seq in Hi. transitivity (rsum (map (fun _ : list nat => 0%R) (paths layers))).
      * f_equal. apply map_ext_in. intros p Hp. apply E; auto. lia.
      * generalize (paths layers). induction l as [|x l IH]; [reflexivity|]. simpl. rewrite IH. ring.
    + generalize (seq 0 nin). induction l as [|x l IH]; [reflexivity|]. simpl. rewrite IH. ring.
Qed.

(** *** C70: the networks EvoNN training starts from *)
(** A table of pop_size x (1 + in_nodes) x num_nodes numbers, the biases (1) included, of which ceil(size * p_omit) drawn positions are set to 0. *)
Theorem C70_evonn_training_networks_partial : forall pop_size in_nodes num_nodes w p draw, exists Z,
  Z.of_nat (length Z) = Z.max 0 (Qround.Qceiling (QArith_base.Qmult (QArith_base.inject_Z (Z.of_nat (pop_size * S in_nodes * num_nodes))) p)) /\
  length (nn_create pop_size in_nodes num_nodes w p draw) = pop_size /\
  forall i net, nth_error (nn_create pop_size in_nodes num_nodes w p draw) i = Some net -> length net = num_nodes /\
    forall c col, nth_error net c = Some col -> length col = S in_nodes /\
      forall r, r < S in_nodes -> (In (i, r, c) Z -> nth_error col r = Some 0%R) /\
        (~ In (i, r, c) Z -> nth_error col r = Some (match r with 0 => 1%R | S r' => w i r' c end)).
Proof.
  intros P a b w p draw. exists (map (unflat (S a) b) (omitted (P * S a * b) p draw)). split; [|split].
  - rewrite map_length. unfold omitted. rewrite map_length, seq_length. unfold n_omit. lia.
  - unfold nn_create. rewrite map_length, seq_length. auto.
  - intros i net Hn. unfold nn_create in Hn. rewrite nth_error_map in Hn. destruct (nth_error (seq 0 P) i) as [i'|] eqn:Ei; [|discriminate]. injection Hn as <-.
    assert (Li : i < P) by (rewrite <- (seq_length P 0); apply nth_error_Some; congruence). rewrite nth_error_seq in Ei by auto. injection Ei as <-.
    rewrite map_length, seq_length. split; auto. intros c col Hc. rewrite nth_error_map in Hc.
    destruct (nth_error (seq 0 b) c) as [c'|] eqn:Ec; [|discriminate]. injection Hc as <-.
    assert (Lc : c < b) by (rewrite <- (seq_length b 0); apply nth_error_Some; congruence). rewrite nth_error_seq in Ec by auto. injection Ec as <-.
    split; [cbn [length]; rewrite map_length, seq_length; auto|]. intros r Hr. rewrite (in_unflat (S a) b) by auto.
    destruct r as [|r]; cbn [nth_error].
    + split; intros H; [apply zeroed_iff in H; rewrite H; auto|]. match goal with |- context [if ?z then _ else _] => destruct z eqn:Ez end; auto. exfalso. apply H. apply zeroed_iff; auto.
    + rewrite nth_error_map, nth_error_seq by lia. cbn [option_map].
      split; intros H; [apply zeroed_iff in H; rewrite H; auto|]. match goal with |- context [if ?z then _ else _] => destruct z eqn:Ez end; auto. exfalso. apply H. apply zeroed_iff; auto.
Qed.
(** So a bias need not be 1. *)
Theorem C70_evonn_training_bias_refuted : exists pop_size in_nodes num_nodes w p draw net ws,
  In net (nn_create pop_size in_nodes num_nodes w p draw) /\ In (0%R :: ws) net.
Proof.
  exists 1, 1, 1, (fun _ _ _ => 5%R), (QArith_base.Qmake 1 5), (fun _ => 0), [[0; 5]]%R, [5%R]. split; [left; reflexivity|left; reflexivity].
Qed.

(** *** C96 *)
Lemma chained_shaped : forall layers nin, chained nin layers -> shaped nin layers.
Proof. induction layers as [|l t IH]; intros nin H; [exact I|]. destruct H as (H1 & H2). split; [|apply IH; auto]. intros n Hn. destruct (H1 n Hn) as (ws & -> & L). simpl. auto. Qed.
(** The networks created by EvoDN2.fit: pop_size of them, one subnet for each of the num_subnets subsets, and every one can be evaluated on every sample with the right number of
    variables, each subnet giving the outputs (between 2 and max_nodes) of its last layer. *)
Theorem C96_created_networks_evaluate : forall pop_size max_layers max_nodes subsets num_subnets dl dn w p draw pop nvar,
  dn_create pop_size max_layers max_nodes subsets num_subnets dl dn w p draw = Ok pop -> length subsets = num_subnets -> (forall s v, In s subsets -> In v s -> v < nvar) ->
  length pop = pop_size /\ forall nets, In nets pop -> length nets = num_subnets /\
    (forall s net, In (s, net) (combine subsets nets) -> shaped (length s) net /\ 1 <= length net < max_layers /\ 2 <= outputs (length s) net <= max_nodes) /\
    forall x, length x = nvar -> exists o, feed act subsets nets x = Ok o /\ length o = list_sum (map (fun p => outputs (length (fst p)) (snd p)) (combine subsets nets)).
Proof.
  intros P ML MN subsets k dl dn w p draw pop nvar E Lk V. unfold dn_create in E. split; [rewrite (each_row_length _ _ _ E), seq_length; auto|]. intros nets Hn.
  apply In_nth_error in Hn. destruct Hn as (i & Hi). assert (Li : i < P). { rewrite <- (seq_length P 0), <- (each_row_length _ _ _ E). apply nth_error_Some. congruence. }
  destruct (each_row_nth _ _ _ E i i (nth_error_seq0 P i Li)) as (b & Eb & Hb). rewrite Hi in Hb. injection Hb as <-.
  assert (Ln : length nets = k) by (rewrite (each_row_length _ _ _ Eb), seq_length; auto).
  assert (G : forall s net, In (s, net) (combine subsets nets) -> shaped (length s) net /\ 1 <= length net < ML /\ 2 <= outputs (length s) net <= MN).
  { intros s net Hc. apply In_nth_error in Hc. destruct Hc as (j & Hj). assert (Hjs : nth_error subsets j = Some s /\ nth_error nets j = Some net).
    { clear - Hj. revert nets j Hj. induction subsets as [|a l IH]; intros [|c m] [|j] H; simpl in *; try discriminate; [injection H as -> ->; auto|apply IH; auto]. }
    destruct Hjs as (Hs & Hnet). assert (Lj : j < k) by (rewrite <- Lk; apply nth_error_Some; congruence).
    destruct (each_row_nth _ _ _ Eb j j (nth_error_seq0 k j Lj)) as (c & Ec & Hc). rewrite Hnet in Hc. injection Hc as <-. rewrite Hs in Ec.
    destruct (C70_evodn2_created_chain _ _ _ _ _ _ _ _ _ Ec) as (A & B & C). split; [apply chained_shaped; auto|]. split; auto.
    assert (O : forall layers nin, (forall m, In m layers -> 2 <= length m <= MN) -> layers <> [] -> 2 <= outputs nin layers <= MN).
    { clear. induction layers as [|l t IH]; intros nin H Hne; [congruence|]. cbn [outputs]. destruct t as [|l' t']; [apply H; left; auto|]. apply IH; [intros m Hm; apply H; right; auto|discriminate]. }
    apply O; auto. destruct net; [simpl in A; lia|discriminate]. }
  split; auto. split; auto. intros x Lx. apply feed_ok; [lia|intros s v Hs Hv; rewrite Lx; apply (V s v Hs Hv)|]. intros s net Hc. apply (G s net Hc).
Qed.
(** Hence, if numpy answers, training ends with a model: selection cannot fail on networks that evaluate. *)
Theorem C96_selection_succeeds : forall X y pop errors s ss nvar, dn_subsets s = Some ss -> length errors = length pop -> pop <> [] ->
  (forall sub v, In sub ss -> In v sub -> v < nvar) -> (forall x, In x X -> length x = nvar) ->
  (forall nets, In nets pop -> length nets <= length ss /\ forall sub net, In (sub, net) (combine ss nets) -> shaped (length sub) net) ->
  exists s', dn_fit_end MinError X y pop errors s = (s', Ok tt).
Proof.
  intros X y pop errors s ss nvar Es L Hp V HX Sh. unfold M_EvoNet.dn_fit_end, M_EvoNet.dn_select. destruct (argmin_some errors) as (i & Ei). { destruct errors; [destruct pop; [congruence|discriminate]|discriminate]. }
  rewrite Ei. pose proof (argmin_lt _ _ Ei) as Hi. rewrite L in Hi. destruct (nth_error pop i) as [nets|] eqn:En; [|apply nth_error_None in En; lia]. rewrite Es.
  destruct (Sh nets (nth_error_In _ _ En)) as (Ln & S1). destruct (each_row_ok (feed act ss nets) X) as (pen & ->).
  - intros x Hx. destruct (feed_ok act x ss nets Ln) as (o & Eo & _); [intros sub v Hs Hv; rewrite (HX x Hx); apply (V sub v Hs Hv)|exact S1|]. eauto.
  - destruct (dn_linear lstsq pen y) as [yp w]. eauto.
Qed.
End EvoNet.

(** *** C64 *)
(** The input subsets drawn by EvoDN2.fit, for any draws as documented: one for each subnet, each non-empty, without repetitions, of existing variables; together they hold every variable. *)
Theorem C64_subsets_cover : forall (size : nat -> nat) (sample : nat -> nat -> list nat) (slot : nat -> nat) num_subnets nvar, 1 <= num_subnets -> 1 <= nvar ->
  (forall i, 1 <= size i <= nvar) -> (forall i n, n <= nvar -> length (sample i n) = n /\ NoDup (sample i n) /\ forall v, In v (sample i n) -> v < nvar) -> (forall v, slot v < num_subnets) ->
  exists ss, make_subsets size sample slot num_subnets nvar = Ok ss /\ length ss = num_subnets /\
    (forall s, In s ss -> s <> [] /\ NoDup s /\ forall v, In v s -> v < nvar) /\ (forall v, v < nvar -> exists s, In s ss /\ In v s).
Proof.
  intros size sample slot k nvar Hk Hn Hsz Hsa Hsl. destruct k as [|k]; [lia|]. destruct nvar as [|nvar]; [lia|]. eexists. split; [reflexivity|].
  destruct (cover_all slot (S nvar) (S k) Hsl (seq 0 (S nvar)) (map (fun i => sample i (size i)) (seq 0 (S k)))) as (A & B & C & _).
  - intros v Hv. apply in_seq in Hv. lia.
  - rewrite map_length, seq_length. reflexivity.
  - intros s Hs. apply in_map_iff in Hs. destruct Hs as (i & <- & _). destruct (Hsa i (size i) (proj2 (Hsz i))) as (L & N & V). split; auto. specialize (Hsz i). destruct (sample i (size i)); [simpl in L; lia|discriminate].
  - split; [exact A|]. split; [exact B|]. intros v Hv. apply C. apply in_seq. lia.
Qed.
(** A second fit of the same object keeps the subsets of the first: with more variables the new ones are in no subset. *)
Theorem C64_refit_refuted : forall (size : nat -> nat) (sample : nat -> nat -> list nat) (slot : nat -> nat) num_subnets nvar nvar2, 1 <= num_subnets -> 1 <= nvar < nvar2 ->
  (forall i, 1 <= size i <= nvar) -> (forall i n, n <= nvar -> length (sample i n) = n /\ NoDup (sample i n) /\ forall v, In v (sample i n) -> v < nvar) -> (forall v, slot v < num_subnets) ->
  exists old, fit_subsets size sample slot None num_subnets nvar = Ok old /\
    forall size2 sample2 slot2, fit_subsets size2 sample2 slot2 (Some old) num_subnets nvar2 = Ok old /\ forall v, nvar <= v < nvar2 -> ~ exists s, In s old /\ In v s.
Proof.
  intros size sample slot k nvar nvar2 Hk Hn Hsz Hsa Hsl. destruct (C64_subsets_cover size sample slot k nvar Hk (proj1 Hn) Hsz Hsa Hsl) as (ss & E & _ & V & _).
  exists ss. split; [exact E|]. intros size2 sample2 slot2. split; [reflexivity|]. intros v Hv (s & Hs & Hin). pose proof (proj2 (proj2 (V s Hs)) v Hin). lia.
Qed.

Section Examples.
Definition relu (x : R) : R := Rmax x 0.
Definition Xe : list (list R) := repeat [1%R] 8.
Definition ye : list R := [0; 2; 0; 2; 0; 2; 0; 2]%R.
(** Two networks of one hidden node: both can only predict a constant, the mean; the second has fewer connections. *)
Definition w0 : layer := [[1; 1]]%R.
Definition w1 : layer := [[0; 0]]%R.
(** The least squares solutions of smallest norm, which numpy gives. *)
Definition ls (A : list (list R)) (y : list R) : list R := match A with (_ :: h :: _) :: _ => if Req_EM_T h 0 then [1; 0]%R else [1/5; 2/5]%R | _ => [] end.
Lemma out0 : layer_out relu [1%R] w0 = [2%R]. Proof. unfold layer_out, w0, node_out, relu. cbn [map dot tl hd]. f_equal. rewrite Rmax_left; lra. Qed.
Lemma out1 : layer_out relu [1%R] w1 = [0%R]. Proof. unfold layer_out, w1, node_out, relu. cbn [map dot tl hd]. f_equal. rewrite Rmax_right; lra. Qed.
Lemma last0 : nn_last relu ls Xe ye w0 = [1/5; 2/5]%R.
Proof. unfold nn_last, linear_layer, Xe. cbn [repeat map]. rewrite out0. unfold ls. destruct (Req_EM_T 2 0); [lra|reflexivity]. Qed.
Lemma last1 : nn_last relu ls Xe ye w1 = [1; 0]%R.
Proof. unfold nn_last, linear_layer, Xe. cbn [repeat map]. rewrite out1. unfold ls. destruct (Req_EM_T 0 0); [reflexivity|lra]. Qed.
Lemma const_rss w last c : nn_pred relu w last [1%R] = c -> rss (map (nn_pred relu w last) Xe) ye = (4 * (c * c) + 4 * ((c - 2) * (c - 2)))%R.
Proof. intros E. unfold Xe, ye, rss. cbn [repeat map combine rsum fst snd]. rewrite E. ring. Qed.
Lemma pred0 last : nn_pred relu w0 last [1%R] = (dot [2%R] (tl last) + hd 0%R last)%R. Proof. unfold nn_pred. rewrite out0. reflexivity. Qed.
Lemma pred1 last : nn_pred relu w1 last [1%R] = (dot [0%R] (tl last) + hd 0%R last)%R. Proof. unfold nn_pred. rewrite out1. reflexivity. Qed.
Lemma aicc0 : (nn_aicc relu ls Xe ye w0 = 8 + 40 / 3)%R.
Proof.
  unfold nn_aicc. rewrite last0, (const_rss w0 _ 1) by (rewrite pred0; simpl; lra). assert (N0 : count_nonzero (concat w0) = 2%nat). { unfold count_nonzero, w0. cbn [concat app filter]. destruct (Req_EM_T 1 0); [lra|reflexivity]. }
  assert (N1 : count_nonzero [1/5; 2/5]%R = 2%nat). { unfold count_nonzero. cbn [filter]. destruct (Req_EM_T (1/5) 0); [lra|]. destruct (Req_EM_T (2/5) 0); [lra|reflexivity]. }
  rewrite N0, N1. change (length ye) with 8%nat. replace (INR (2 + 2)) with 4%R by (simpl; lra). replace (INR 8) with 8%R by (simpl; lra). replace ((4 * (1 * 1) + 4 * ((1 - 2) * (1 - 2))) / 8)%R with 1%R by field. rewrite ln_1. field.
Qed.
Lemma aicc1 : (nn_aicc relu ls Xe ye w1 = 2 + 2 / 3)%R.
Proof.
  unfold nn_aicc. rewrite last1, (const_rss w1 _ 1) by (rewrite pred1; simpl; lra). assert (N0 : count_nonzero (concat w1) = 0%nat). { unfold count_nonzero, w1. cbn [concat app filter]. destruct (Req_EM_T 0 0); [reflexivity|lra]. }
  assert (N1 : count_nonzero [1; 0]%R = 1%nat). { unfold count_nonzero. cbn [filter]. destruct (Req_EM_T 1 0); [lra|]. destruct (Req_EM_T 0 0); [reflexivity|lra]. }
  rewrite N0, N1. change (length ye) with 8%nat. replace (INR (0 + 1)) with 1%R by (simpl; lra). replace (INR 8) with 8%R by (simpl; lra). replace ((4 * (1 * 1) + 4 * ((1 - 2) * (1 - 2))) / 8)%R with 1%R by field. rewrite ln_1. field.
Qed.
(** The default criterion picks the worse of the two networks. *)
Theorem C63_akaike_refuted : exists s', nn_fit_end relu ls Akaike Xe ye [w0; w1] [1; 1]%R nn_new = (s', Ok tt) /\ nn_first s' = Some w0 /\ (nn_aicc relu ls Xe ye w1 < nn_aicc relu ls Xe ye w0)%R /\
  (forall w last, In w [w0; w1] -> (squared_error (map (nn_pred relu w (nn_last relu ls Xe ye w)) Xe) ye <= squared_error (map (nn_pred relu w last) Xe) ye)%R).
Proof.
  destruct (C63_akaike_takes_the_first relu ls Xe ye w0 [w1] [1; 1]%R nn_new) as (s' & E & F & _). exists s'. split; auto. split; auto. split; [rewrite aicc0, aicc1; lra|].
  intros w last Hw. rewrite <- !rss_is. rewrite (const_rss w last _ eq_refl). destruct Hw as [<-|[<-|[]]].
  - rewrite last0, (const_rss w0 _ 1) by (rewrite pred0; simpl; lra). generalize (nn_pred relu w0 last [1%R]). intros c. pose proof (Rle_0_sqr (c - 1)) as Hsq. unfold Rsqr in Hsq. lra.
  - rewrite last1, (const_rss w1 _ 1) by (rewrite pred1; simpl; lra). generalize (nn_pred relu w1 last [1%R]). intros c. pose proof (Rle_0_sqr (c - 1)) as Hsq. unfold Rsqr in Hsq. lra.
Qed.
Example C63_partial_example : forall w, In w [w0] -> (nn_aicc relu ls Xe ye w1 <= nn_aicc relu ls Xe ye w)%R.
Proof. intros w [<-|[]]. rewrite aicc0, aicc1. lra. Qed.
(** Subsets: three variables, two subnets; the drawn ones miss variable 2. *)
Example C64_example : make_subsets (fun _ => 1) (fun i n => seq i n) (fun _ => 1) 2 3 = Ok [[0]; [1; 2]]. Proof. reflexivity. Qed.
Example C64_hyps : (forall i : nat, 1 <= (fun _ : nat => 1) i <= 3) /\ (forall i n : nat, n <= 3 -> length (seq 0 n) = n /\ NoDup (seq 0 n) /\ forall v, In v (seq 0 n) -> v < 3) /\ (forall v : nat, (fun _ : nat => 1) v < 2).
Proof. split; [intros; lia|]. split; [|intros; lia]. intros _ n H. split; [apply seq_length|]. split; [apply seq_NoDup|]. intros v Hv. apply in_seq in Hv. lia. Qed.
(** Two layers, two inputs: complexity = sum over the paths. *)
Definition nets : list layer := [[[9; 1; 2]; [9; -1; 0]]; [[9; 3; 4]]]%R.
Example C95_example : shaped 2 nets /\ paths nets = [[0; 0]; [1; 0]] /\ subnet_complexity 2 nets = 13%R.
Proof.
  split; [|split; [reflexivity|]].
  - split; [intros n [<-|[<-|[]]]; reflexivity|]. split; [intros n [<-|[]]; reflexivity|exact I].
  - rewrite C95_complexity_is_path_weight; [|discriminate|].
    + cbn. unfold weight. cbn [nth]. rewrite ?Rabs_R0. rewrite (Rabs_left (-1)) by lra. rewrite !Rabs_right by lra. ring.
    + split; [intros n [<-|[<-|[]]]; reflexivity|]. split; [intros n [<-|[]]; reflexivity|exact I].
Qed.
Example C96_example : exists pop, dn_create 2 3 4 [[0]; [1; 2]] 2 (fun i j => j) (fun _ _ n => n) (fun _ _ _ _ _ => 1%R) (QArith_base.Qmake 1 5) (fun _ _ _ n => n) = Ok pop /\ length pop = 2.
Proof. eexists. split; [reflexivity|]. reflexivity. Qed.
Example C96_selection_example : exists s', dn_fit_end relu ls MinError [[1; 2]]%R [3]%R [[nets]] [1%R] (dn_new (Some [[0; 1]])) = (s', Ok tt).
Proof.
  apply (C96_selection_succeeds relu ls [[1; 2]]%R [3]%R [[nets]] [1%R] (dn_new (Some [[0; 1]])) [[0; 1]] 2); try reflexivity; try discriminate.
  - intros sub v [<-|[]] [<-|[<-|[]]]; lia.
  - intros x [<-|[]]; reflexivity.
  - intros n [<-|[]]. split; [simpl; lia|]. intros sub net [E|[]]. injection E as <- <-. apply C95_example.
Qed.
End Examples.

Print Assumptions C70_evonn_training_networks_partial.
Print Assumptions C63_akaike_takes_the_first.
Print Assumptions C63_evodn2_min_error.
Print Assumptions C64_subsets_cover.
Print Assumptions C63_criterion.
Print Assumptions C94_evonn_reproduces.
Print Assumptions C94_evodn2_reproduces.
Print Assumptions C94_best_output_layer.
Print Assumptions C95_complexity_is_path_weight.
Print Assumptions C95_zero_complexity.
Print Assumptions C96_created_networks_evaluate.
Print Assumptions C96_selection_succeeds.
