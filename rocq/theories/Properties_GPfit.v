(** C88-C91: fitting genetic programming trees (BioGP): pruning of subtrees, recorded output, division, size of the first population. *)
From Verif Require Import Base M_BioGP M_GPfit Spec_BioGP P_BioGP Spec_GPfit P_GPfit Properties_BioGP.
From Coq Require Import QArith.
Open Scope nat_scope.

Section GPfit.
Context {V F : Type} (zero_p : V -> bool) (one : V) (arity : F -> nat) (is_div : F -> bool) (sem : F -> list (list V) -> list V) (rows : nat).
Context (fs : list F) (ts : list (term V)) (pick : nat -> nat -> nat) (coin : nat -> bool).
Context (lstsq : list (list V) -> list V -> list V) (dot : list (list V) -> list V -> list V) (low : list (list V) -> list V -> list bool).
Notation tree := (tree F (term V)).
Notation run := (run zero_p one is_div sem rows).
Notation weight_columns := (weight_columns zero_p one is_div sem rows).
Notation calculate_linear := (calculate_linear zero_p one arity is_div sem rows lstsq dot low pick coin fs ts).
Notation predict := (predict zero_p one is_div sem rows dot).
Notation value_on := (value_on zero_p one is_div sem rows).
Notation bare := (bare_denominator is_div).
Notation individual := (individual arity fs ts).
Notation well_formed := (well_formed arity fs ts).
Notation create := (create_individuals arity pick coin fs ts).
Hypothesis one_nz : zero_p one = false.
Hypothesis div2 : forall f, is_div f = true -> arity f = 2.

(** *** C88 *)
(** calculate_linear on an individual with max_subtrees subtrees, numpy giving no more error ratios than subtrees: the individual it leaves behind has max_subtrees subtrees again,
    is well formed and not deeper than max_depth. *)
Lemma linear_prune D m cs d y roots t d' n t' : calculate_linear D m cs d y roots t = Ok (d', n, t') ->
  M_GPfit.prune arity pick coin fs ts D m (low (snd (weight_columns d roots)) y) 0 roots t = Ok (l_roots n, t') /\ d' = fst (weight_columns d roots) /\
  l_linear n = lstsq (snd (weight_columns d roots)) y /\ l_out n = dot (snd (weight_columns d roots)) (l_linear n) /\ l_complexity n = complexity_of cs (l_roots n).
Proof.
  unfold M_GPfit.calculate_linear. destruct (weight_columns d roots) as [d1 mat]. cbn [fst snd]. destruct (M_GPfit.prune arity pick coin fs ts D m (low mat y) 0 roots t) as [[r q]|]; [|discriminate]. cbn [bind fst snd].
  intros E. injection E as <- <- <-. cbn [l_roots l_linear l_out l_complexity]. split; [reflexivity|]. split; [reflexivity|]. split; [reflexivity|]. split; reflexivity.
Qed.
Definition removed (flags : list bool) (j : nat) : Prop := exists k s, nth_error (hits flags) k = Some s /\ j = s + k.
Lemma removed_dels flags j : removed flags j <-> In j (dels flags 0).
Proof.
  rewrite dels_spec. unfold removed, hits. assert (E : filter (fun i => nth i flags false) (seq 0 (length flags)) = filter (fun i => nth (i - 0) flags false) (seq 0 (length flags))).
  { apply filter_ext. intros i. rewrite Nat.sub_0_r. reflexivity. } rewrite E. reflexivity.
Qed.
Lemma removed_dec flags : exists f : nat -> bool, forall j, f j = true <-> ~ removed flags j.
Proof. exists (fun j => negb (mem_nat j (dels flags 0))). intros j. rewrite removed_dels, negb_true_iff, <- mem_nat_In. destruct (mem_nat j (dels flags 0)); intuition congruence. Qed.
(** Exactly which subtrees go: of the old subtrees followed by the newly grown ones, the k-th error ratio found too small (k = 0, 1, ...), that of subtree s,
    removes the (s + k)-th; the rest is kept in order. *)
Theorem C88_which_subtrees_go : forall D m cs d y roots t d' n t', length roots = m -> length (low (snd (weight_columns d roots)) y) <= m ->
  calculate_linear D m cs d y roots t = Ok (d', n, t') ->
  exists new keep, length new = length (hits (low (snd (weight_columns d roots)) y)) /\
    (forall j, keep j = true <-> ~ removed (low (snd (weight_columns d roots)) y) j) /\
    l_roots n = select_pos keep (roots ++ new).
Proof.
  intros D m cs d y roots t d' n t' L Hl E. apply linear_prune in E. destruct E as (E & _). set (fl := low _ _) in *. apply prune_spec in E; auto. destruct E as (new & N1 & N2 & ->).
  exists new, (fun j => negb (mem_nat j (dels fl 0))). split; [|split; [|reflexivity]].
  - rewrite N1. unfold hits. clear. revert fl. assert (G : forall l b, length (filter (fun x : bool => x) l) = length (filter (fun i => nth (i - b) l false) (seq b (length l)))).
    { induction l as [|x l IH]; intros b; [reflexivity|]. cbn [length seq filter]. rewrite Nat.sub_diag. cbn [nth].
      assert (E : filter (fun i => nth (i - b) (x :: l) false) (seq (S b) (length l)) = filter (fun i => nth (i - S b) l false) (seq (S b) (length l))).
      { apply filter_ext_in. intros j Hj. apply in_seq in Hj. replace (j - b) with (S (j - S b)) by lia. reflexivity. } cbn [nth] in E. rewrite E. destruct x; simpl; rewrite (IH (S b)); reflexivity. }
    intros fl. rewrite (G fl 0). f_equal. apply filter_ext. intros i. rewrite Nat.sub_0_r. reflexivity.
  - intros j. rewrite removed_dels, negb_true_iff, <- mem_nat_In. destruct (mem_nat j (dels fl 0)); intuition congruence.
Qed.
(** The individual stays well formed, with max_subtrees subtrees, within the depth limit; only new subtrees come in. *)
Theorem C88_individual_kept : forall D m cs d y roots t d' n t', 1 <= D -> length roots = m -> length (low (snd (weight_columns d roots)) y) <= m ->
  individual (Tr VLin roots) -> depth_within D (Tr VLin roots) ->
  calculate_linear D m cs d y roots t = Ok (d', n, t') ->
  length (l_roots n) = m /\ individual (Tr VLin (l_roots n)) /\ depth_within D (Tr VLin (l_roots n)).
Proof.
  intros D m cs d y roots t d' n t' HD L Hl (_ & W) Dp E. apply linear_prune in E. destruct E as (E & _). set (fl := low _ _) in *. clearbody fl.
  assert (G : forall fl i roots t, length roots = m -> i + length fl <= m -> (forall k, In k roots -> well_formed k /\ depth_within (D - 1) k) -> forall r t', M_GPfit.prune arity pick coin fs ts D m fl i roots t = Ok (r, t') ->
     length r = m /\ forall k, In k r -> well_formed k /\ depth_within (D - 1) k).
  { clear - HD. induction fl as [|b fl IH]; intros i roots t L Hi H r t' E; cbn [M_GPfit.prune length] in *; [injection E as <- <-; auto|]. destruct b; [|apply (IH (S i) roots t) in E; auto; lia].
    replace (i <? length roots) with true in E by (symmetry; apply Nat.ltb_lt; lia). assert (L' : S (length (del i roots)) = length roots) by (apply del_length; lia).
    destruct (grow_root arity pick coin fs ts false D m (del i roots) t) as [[kids q]|] eqn:Eg; [|discriminate]. cbn [bind fst snd] in E.
    destruct (C60_grown_trees arity fs ts pick coin false D m (del i roots) t kids q HD ltac:(lia) Eg) as (Lk & new & -> & N).
    apply IH in E; auto; [lia|]. intros k Hk. apply in_app_or in Hk. destruct Hk as [Hk|Hk].
    - apply H. clear - Hk. revert i Hk. induction roots as [|x l IHl]; intros [|i] Hk; simpl in *; auto. destruct Hk as [<-|Hk]; auto. right. apply (IHl i); auto.
    - destruct (N k Hk) as (A & B & _). split; auto. intros j s X. apply B in X. lia. }
  destruct (G fl 0 roots t L Hl) with (r := l_roots n) (t' := t') as (L2 & H2); auto.
  { intros k Hk. split; [apply W; auto|]. intros j s A. assert (S j <= D); [|lia]. apply (Dp (S j) s). apply (at_kid _ k); auto. }
  split; [exact L2|]. split.
  - split; [reflexivity|]. intros k Hk. apply H2; auto.
  - intros j s A. inversion A as [|? k j0 ? Hk A']; subst; [lia|]. apply (H2 k Hk) in A'. lia.
Qed.
(** With at most one error ratio below the limit the right subtree goes, and nothing goes otherwise. *)
Theorem C88_one_pruned_partial : forall D m cs d y roots t d' n t', length roots = m -> length (low (snd (weight_columns d roots)) y) <= m ->
  calculate_linear D m cs d y roots t = Ok (d', n, t') ->
  (forall s, hits (low (snd (weight_columns d roots)) y) = [s] -> exists new, l_roots n = del s roots ++ [new]) /\
  (hits (low (snd (weight_columns d roots)) y) = [] -> l_roots n = roots).
Proof.
  intros D m cs d y roots t d' n t' L Hl E. destruct (C88_which_subtrees_go D m cs d y roots t d' n t' L Hl E) as (new & keep & N & K & ->). split.
  - intros s Hs. rewrite Hs in N. destruct new as [|k [|]]; try discriminate. exists k.
    assert (R : forall j, removed (low (snd (weight_columns d roots)) y) j <-> j = s).
    { intros j. unfold removed. rewrite Hs. split; [intros ([|[|k0]] & s' & X & ->); try discriminate; injection X as ->; lia|]. intros ->. exists 0, s. split; [reflexivity|lia]. }
    assert (Hlt : s < length roots). { rewrite L. assert (In s (hits (low (snd (weight_columns d roots)) y))) as I by (rewrite Hs; left; auto). apply filter_In in I. destruct I as (I & _). apply in_seq in I. lia. }
    rewrite <- (del_app s roots [k] Hlt). unfold select_pos. assert (A : forall (l : list tree) b, select_pos_from b (fun _ => true) l = l) by (induction l as [|x l IH]; intros b; [reflexivity|]; cbn [select_pos_from]; rewrite IH; reflexivity).
    rewrite <- (A (del s (roots ++ [k])) 0). apply del_select; cbn [Nat.add].
    + apply not_true_iff_false. intros X. apply K in X. apply X, R. reflexivity.
    + intros j Hj. symmetry. apply K. rewrite R. lia.
    + intros j Hj. symmetry. apply K. rewrite R. lia.
  - intros Hs. rewrite Hs in N. destruct new; [|discriminate]. rewrite app_nil_r. unfold select_pos. assert (A : forall j, keep j = true). { intros j. apply K. intros (k & s & X & _). rewrite Hs in X. destruct k; discriminate. }
    generalize 0. clear - A. induction roots as [|x l IH]; intros b; [reflexivity|]. cbn [select_pos_from]. rewrite A, IH. reflexivity.
Qed.
(** It succeeds whenever there are functions and terminals to choose from. *)
Theorem C88_succeeds : forall D m cs d y roots t, fs <> [] -> ts <> [] -> length roots = m -> length (low (snd (weight_columns d roots)) y) <= m ->
  exists d' n t', calculate_linear D m cs d y roots t = Ok (d', n, t').
Proof.
  intros D m cs d y roots t Hf Ht L Hl. unfold M_GPfit.calculate_linear. destruct (weight_columns d roots) as [d1 mat]. cbn [snd] in Hl. destruct (prune_total arity pick coin fs ts D m (low mat y) Hf Ht 0 roots t L Hl) as (r & q & ->). cbn [bind fst snd]. eauto.
Qed.

(** *** C90 *)
(** The effect of evaluating a subtree on the data: a column that is somewhere a bare denominator gets its zeros replaced by ones, the other columns are untouched. *)
Theorem C90_effect_on_data : forall g, well_formed g -> forall d c,
  (bare g c -> fst (run d g) c = map (fun v => if zero_p v then one else v) (d c)) /\ (~ bare g c -> fst (run d g) c = d c).
Proof.
  intros g W d c. rewrite (run_eff zero_p one arity is_div sem rows fs ts one_nz div2 g W d c). rewrite <- (bareb_spec is_div c g). destruct (bareb is_div g c); split; intros H; try congruence; reflexivity.
Qed.
(** If no bare denominator has a zero, the data are untouched and the result is the mathematical value of the expression. *)
Theorem C90_value_partial : forall g, well_formed g -> forall d, (forall c, bare g c -> no_zero zero_p (d c)) ->
  (forall c, fst (run d g) c = d c) /\ deref d (snd (run d g)) = value_on d g.
Proof.
  intros g W d Z. apply (run_value zero_p one arity is_div sem rows fs ts one_nz div2 g W). intros c B. apply Z, (bareb_spec is_div c g), B.
Qed.
Lemma columns_value roots d : (forall k, In k roots -> well_formed k) -> (forall k c, In k roots -> bare k c -> no_zero zero_p (d c)) ->
  (forall c, fst (weight_columns d roots) c = d c) /\ snd (weight_columns d roots) = repeat one rows :: map (value_on d) roots.
Proof.
  intros W Z. unfold M_GPfit.weight_columns.
  destruct (runs_value zero_p one is_div sem rows roots) with (d := d) as (A & B).
  { intros k Hk d0 Z0. apply (run_value zero_p one arity is_div sem rows fs ts one_nz div2 k (W k Hk)). auto. }
  { intros c H. apply existsb_exists in H. destruct H as (k & Hk & B). apply (Z k c Hk). apply (bareb_spec is_div c k), B. }
  destruct (runs zero_p one is_div sem rows d roots) as [d1 rs]. cbn [fst snd] in *. split; auto. f_equal. rewrite <- B. apply map_ext. intros a. apply deref_ext; auto.
Qed.
(** The same for a prediction of the whole model: the weighted sum of the values of the subtrees, the data untouched, hence repeatable. *)
Theorem C90_prediction_partial : forall d n, individual (Tr VLin (l_roots n)) -> (forall k c, In k (l_roots n) -> bare k c -> no_zero zero_p (d c)) ->
  (forall c, fst (predict d n) c = d c) /\ snd (predict d n) = dot (repeat one rows :: map (value_on d) (l_roots n)) (l_linear n) /\
  snd (predict (fst (predict d n)) n) = snd (predict d n).
Proof.
  intros d n (_ & W) Z. assert (P : forall e, (forall c, e c = d c) -> (forall c, fst (predict e n) c = d c) /\ snd (predict e n) = dot (repeat one rows :: map (value_on d) (l_roots n)) (l_linear n)).
  { intros e He. unfold M_GPfit.predict. destruct (columns_value (l_roots n) e W) as (A & B). { intros k c Hk Hb. rewrite He. apply (Z k); auto. }
    destruct (weight_columns e (l_roots n)) as [d1 mat]. cbn [fst snd] in *. split; [intros c; rewrite A; auto|]. rewrite B. f_equal. f_equal. apply map_ext. intros g. apply value_ext; auto. }
  destruct (P d (fun _ => eq_refl)) as (A & B). split; auto. split; auto. destruct (P (fst (predict d n)) A) as (_ & C). rewrite B, C. reflexivity.
Qed.
(** In every case a prediction changes nothing but zeros of bare denominators, into ones. *)
Theorem C90_prediction_effect : forall d n, individual (Tr VLin (l_roots n)) -> forall c,
  fst (predict d n) c = d c \/ ((exists k, In k (l_roots n) /\ bare k c) /\ fst (predict d n) c = map (fun v => if zero_p v then one else v) (d c)).
Proof.
  intros d n (_ & W) c. unfold M_GPfit.predict, M_GPfit.weight_columns.
  pose proof (runs_eff zero_p one is_div sem rows one_nz (fun _ => True) (l_roots n) (fun k Hk d c => run_eff zero_p one arity is_div sem rows fs ts one_nz div2 k (W k Hk) d c) d c) as X.
  destruct (runs zero_p one is_div sem rows d (l_roots n)) as [d1 rs]. cbn [fst snd] in *. rewrite X. case_eq (existsb (fun k => bareb is_div k c) (l_roots n)); intros E; [right|left; reflexivity].
  split; [|reflexivity]. apply existsb_exists in E. destruct E as (k & Hk & B). exists k. split; auto. apply (bareb_spec is_div c k), B.
Qed.

(** A subtree that is a single variable contributes to fit and prediction the column as it is after all subtrees have been evaluated: also zeros
    replaced by a later subtree count as ones. *)
Theorem C90_variable_column : forall roots d k c kids, nth_error roots k = Some (Tr (VTerm (TVar c)) kids) ->
  nth_error (snd (weight_columns d roots)) (S k) = Some (fst (weight_columns d roots) c).
Proof.
  intros roots d k c kids H. unfold M_GPfit.weight_columns.
  assert (X : nth_error (snd (runs zero_p one is_div sem rows d roots)) k = Some (Col c)).
  { revert d k H. induction roots as [|g l IH]; intros d k H; [destruct k; discriminate|].
    cbn [M_GPfit.runs]. destruct (M_GPfit.run zero_p one is_div sem rows d g) as [d1 a] eqn:E1.
    specialize (IH d1). destruct (runs zero_p one is_div sem rows d1 l) as [d2 r] eqn:E2. cbn [snd] in *.
    destruct k as [|k]; cbn [nth_error] in *; [|apply IH, H]. injection H as ->. cbn [M_GPfit.run] in E1. injection E1 as _ <-. reflexivity. }
  destruct (runs zero_p one is_div sem rows d roots) as [d1 rs]. cbn [fst snd] in *. cbn [nth_error].
  rewrite nth_error_map, X. reflexivity.
Qed.

(** *** C89 *)
(** When nothing was pruned and no bare denominator has a zero: predicting the training data with the node that calculate_linear leaves behind gives the output it recorded (and used for the loss). *)
Theorem C89_recorded_output_partial : forall D m cs d y roots t d' n t', length roots = m -> length (low (snd (weight_columns d roots)) y) <= m -> individual (Tr VLin roots) ->
  calculate_linear D m cs d y roots t = Ok (d', n, t') ->
  hits (low (snd (weight_columns d roots)) y) = [] -> (forall k c, In k roots -> bare k c -> no_zero zero_p (d c)) ->
  snd (predict d' n) = l_out n.
Proof.
  intros D m cs d y roots t d' n t' L Hl Hi E Hh Z. destruct (C88_one_pruned_partial D m cs d y roots t d' n t' L Hl E) as (_ & Hr). specialize (Hr Hh).
  apply linear_prune in E. destruct E as (_ & Ed & Ew & Eo & _). destruct (columns_value roots d (proj2 Hi) Z) as (A & B). rewrite Eo, B. rewrite <- Ed in A.
  destruct (C90_prediction_partial d' n) as (_ & P & _). { rewrite Hr; auto. } { intros k c Hk Hb. rewrite A. rewrite Hr in Hk. apply (Z k); auto. }
  rewrite P, Hr. f_equal. f_equal. apply map_ext. intros g. apply value_ext; auto.
Qed.
(** The recorded complexity is that of the tree left behind (after pruning): weighted depth and number of function nodes. *)
Theorem C89_complexity_is_of_the_final_tree : forall D m cs d y roots t d' n t', calculate_linear D m cs d y roots t = Ok (d', n, t') ->
  exists depth, depth_within depth (Tr VLin (l_roots n)) /\ (exists s, at_level (Tr VLin (l_roots n)) depth s) /\
    l_complexity n = (cs * inject_Z (Z.of_nat depth) + (1 - cs) * inject_Z (Z.of_nat (length (filter (fun v => match v with VFun _ => true | _ => false end) (values (Tr VLin (l_roots n)))))))%Q.
Proof.
  intros D m cs d y roots t d' n t' E. apply linear_prune in E. destruct E as (_ & _ & _ & _ & Ec). exists (tdepth (Tr VLin (l_roots n))).
  assert (G : forall g : tree, depth_within (tdepth g) g /\ (exists s, at_level g (tdepth g) s) /\ nfuns g = length (filter (fun v => match v with VFun _ => true | _ => false end) (values g))).
  { apply tree_ind'. intros v kids IH. split; [|split].
    - intros j s A. inversion A as [|? k j0 ? Hk A']; subst; [lia|]. simpl in Hk. destruct (IH k Hk) as (X & _ & _). apply X in A'. cbn [tdepth]. destruct kids as [|k0 ks]; [destruct Hk|]. apply le_n_S.
      transitivity (tdepth k); auto. assert (Y : Forall (fun x => x <= list_max (map tdepth (k0 :: ks))) (map tdepth (k0 :: ks))) by (apply list_max_le; auto). rewrite Forall_forall in Y. apply Y, in_map, Hk.
    - cbn [tdepth]. destruct kids as [|k0 ks]; [eexists; constructor|]. assert (I : In (list_max (map tdepth (k0 :: ks))) (map tdepth (k0 :: ks))) by (apply list_max_In; discriminate).
      apply in_map_iff in I. destruct I as (k & <- & Hk). destruct (IH k Hk) as (_ & (s & A) & _). exists s. apply (at_kid _ k); auto.
    - cbn [nfuns values]. assert (X : list_sum (map nfuns kids) = length (filter (fun v => match v with VFun _ => true | _ => false end) (flat_map values kids))).
      { clear v. induction kids as [|k ks IHk]; [reflexivity|]. cbn [map list_sum fold_right flat_map]. rewrite filter_app, app_length. fold (list_sum (map nfuns ks)). rewrite IHk by (intros; apply IH; right; auto). destruct (IH k (or_introl eq_refl)) as (_ & _ & ->). reflexivity. }
      rewrite X. cbn [filter]. destruct v; reflexivity. }
  destruct (G (Tr VLin (l_roots n))) as (A & B & C). split; auto. split; auto. rewrite Ec. unfold complexity_of. rewrite C. reflexivity.
Qed.

(** *** C91 *)
Lemma times_length {A} n (g : nat -> res (A * nat)) : forall t l t', times n g t = Ok (l, t') -> length l = n.
Proof. induction n as [|n IH]; intros t l t' E; cbn [times] in E; [injection E as <- <-; reflexivity|]. destruct (g t) as [[x q]|]; [|discriminate]. cbn [bind fst snd] in E. destruct (times n g q) as [[l' q']|] eqn:E2; [|discriminate]. injection E as <- <-. simpl. rewrite (IH _ _ _ E2). reflexivity. Qed.
(** Every individual of the first population is a well-formed tree with max_subtrees subtrees, not deeper than max_depth. *)
Theorem C91_individuals : forall m P D k t inds t', 1 <= D -> create m P D k t = Ok (inds, t') ->
  forall kids, In kids inds -> individual (Tr VLin kids) /\ length kids = k /\ depth_within D (Tr VLin kids).
Proof.
  intros m P D k t inds t' HD E. assert (M : forall full md, 1 <= md -> md <= D -> forall q kids q', make arity pick coin fs ts full md k q = Ok (kids, q') -> individual (Tr VLin kids) /\ length kids = k /\ depth_within D (Tr VLin kids)).
  { intros full md H1 H2 q kids q' Em. destruct (C60_new_individual arity fs ts pick coin full md k q kids q' H1 Em) as (A & B & C). split; auto. split; auto. intros j s Hj. apply C in Hj. lia. }
  assert (G : forall full md n, 1 <= md -> md <= D -> forall q l q', times n (make arity pick coin fs ts full md k) q = Ok (l, q') -> forall kids, In kids l -> individual (Tr VLin kids) /\ length kids = k /\ depth_within D (Tr VLin kids)).
  { intros full md n H1 H2 q l q' Et kids Hk. destruct (times_spec _ n _ (M full md H1 H2) _ _ _ Et) as (_ & Fa). rewrite Forall_forall in Fa. apply Fa, Hk. }
  destruct m; cbn [create_individuals] in E.
  - assert (R : forall l, (forall md, In md l -> 1 <= md <= D) -> forall t inds t', each l (fun md t => bind (times (P / S D) (make arity pick coin fs ts false md k) t) (fun p => bind (times (P / S D) (make arity pick coin fs ts true md k) (snd p)) (fun q => Ok (fst p ++ fst q, snd q)))) t = Ok (inds, t') ->
        forall kids, In kids inds -> individual (Tr VLin kids) /\ length kids = k /\ depth_within D (Tr VLin kids)).
    { induction l as [|md l IH]; intros Hl q r q' Ee kids Hk; cbn [each] in Ee; [injection Ee as <- <-; destruct Hk|].
      destruct (times (P / S D) (make arity pick coin fs ts false md k) q) as [[l1 q1]|] eqn:E1; [|discriminate]. cbn [bind fst snd] in Ee.
      destruct (times (P / S D) (make arity pick coin fs ts true md k) q1) as [[l2 q2]|] eqn:E2; [|discriminate]. cbn [bind fst snd] in Ee.
      destruct (each l _ q2) as [[l3 q3]|] eqn:E3; [|discriminate]. cbn [bind fst snd] in Ee. injection Ee as <- <-. destruct (Hl md (or_introl eq_refl)) as (H1 & H2).
      apply in_app_or in Hk. destruct Hk as [Hk|Hk]; [apply in_app_or in Hk; destruct Hk as [Hk|Hk]; [apply (G false md _ H1 H2 _ _ _ E1); auto|apply (G true md _ H1 H2 _ _ _ E2); auto]|apply (IH (fun m Hm => Hl m (or_intror Hm)) _ _ _ E3); auto]. }
    apply (R _) with (2 := E). intros md Hm. apply in_seq in Hm. assert (1 <= S D / 2) by (apply (Nat.div_le_mono 2 (S D) 2) in HD + idtac; change 1 with (2 / 2) at 1; apply Nat.div_le_mono; lia). lia.
  - apply (G true D P HD (le_n _) _ _ _ E).
  - apply (G false D P HD (le_n _) _ _ _ E).
  - injection E as <- <-. intros kids [].
Qed.
(** Their number: pop_size with the methods "full" and "grow". *)
Theorem C91_size_full_grow : forall m P D k t inds t', m = Full \/ m = Grow -> create m P D k t = Ok (inds, t') -> length inds = P.
Proof. intros m P D k t inds t' [->| ->] E; cbn [create_individuals] in E; apply times_length in E; exact E. Qed.
(** With the default, "ramped_half_and_half", it is 2 * floor(P / (D + 1)) for each depth limit from ceil(D / 2) to D ... *)
Theorem C91_size_ramped : forall P D k t inds t', create Ramped P D k t = Ok (inds, t') -> length inds = 2 * (P / S D) * (S D - S D / 2).
Proof.
  intros P D k t inds t' E. cbn [create_individuals] in E.
  assert (R : forall l t inds t', each l (fun md t => bind (times (P / S D) (make arity pick coin fs ts false md k) t) (fun p => bind (times (P / S D) (make arity pick coin fs ts true md k) (snd p)) (fun q => Ok (fst p ++ fst q, snd q)))) t = Ok (inds, t') -> length inds = 2 * (P / S D) * length l).
  { induction l as [|md l IH]; intros q r q' Ee; cbn [each] in Ee; [injection Ee as <- <-; simpl; lia|].
    destruct (times (P / S D) (make arity pick coin fs ts false md k) q) as [[l1 q1]|] eqn:E1; [|discriminate]. cbn [bind fst snd] in Ee.
    destruct (times (P / S D) (make arity pick coin fs ts true md k) q1) as [[l2 q2]|] eqn:E2; [|discriminate]. cbn [bind fst snd] in Ee.
    destruct (each l _ q2) as [[l3 q3]|] eqn:E3; [|discriminate]. cbn [bind fst snd] in Ee. injection Ee as <- <-. apply IH in E3. apply times_length in E1, E2. rewrite !app_length. cbn [length]. nia. }
  apply R in E. rewrite seq_length in E. exact E.
Qed.
(** ... which is pop_size if max_depth is odd and max_depth + 1 divides pop_size. *)
Theorem C91_size_ramped_partial : forall P D k t inds t', Nat.Odd D -> Nat.divide (S D) P -> create Ramped P D k t = Ok (inds, t') -> length inds = P.
Proof.
  intros P D k t inds t' (h & ->) (q & ->) E. apply C91_size_ramped in E. rewrite Nat.div_mul in E by lia. replace (S (2 * h + 1)) with ((h + 1) * 2) in E by lia. rewrite Nat.div_mul in E by lia. lia.
Qed.
End GPfit.

Section Examples.
(** Rational data, the four default functions. *)
Inductive fn := Add | Sub | Mul | Div.
Definition zip (f : Q -> Q -> Q) (args : list (list Q)) : list Q := match args with [x; y] => map (fun p => Qred (f (fst p) (snd p))) (combine x y) | _ => [] end.
Definition sem (f : fn) : list (list Q) -> list Q := zip (match f with Add => Qplus | Sub => Qminus | Mul => Qmult | Div => Qdiv end).
Definition isdiv (f : fn) : bool := match f with Div => true | _ => false end.
Definition zp (q : Q) : bool := Qeq_bool q 0.
Definition fns := [Add; Sub; Mul; Div].
Definition var (c : nat) : tree fn (term Q) := Tr (VTerm (TVar c)) [].
Definition dotq (a b : list Q) : Q := Qred (fold_right Qplus 0%Q (map (fun p => fst p * snd p)%Q (combine a b))).
(** Matrix (by columns) times weights. *)
Definition mat_vec (m : list (list Q)) (w : list Q) : list Q := fold_right (fun p acc => map (fun q => Qred (fst q + snd q)%Q) (combine (map (Qmult (snd p)) (fst p)) acc)) (repeat 0%Q 4) (combine m w).
(** For mutually orthogonal columns: the least squares weights, and the error reduction ratios of BioGP.py:266-269 (Q of the QR factorisation: the columns, normalised). *)
Definition orth_weights (m : list (list Q)) (y : list Q) : list Q := map (fun c => Qred (dotq c y / dotq c c))%Q m.
Definition orth_ratios (m : list (list Q)) (y : list Q) : list Q :=
  let out := mat_vec m (orth_weights m y) in map (fun c => Qred (dotq c y * dotq c y / dotq c c / dotq out out))%Q m.
Definition orth_low (m : list (list Q)) (y : list Q) : list bool := map (fun e => negb (Qle_bool (1#1000) e)) (tl (orth_ratios m y)).
Definition cols (c : nat) : list Q := match c with O => [1;1;-(1);-(1)]%Q | S O => [1;-(1);1;-(1)]%Q | _ => [1;-(1);-(1);1]%Q end.
Definition tms : list (term Q) := [TVar 0; TVar 1; TVar 2].
Definition fit := calculate_linear zp 1%Q (fun _ : fn => 2) isdiv sem 4 orth_weights mat_vec orth_low (fun t n => 0) (fun t => true) fns tms.
(** Three orthogonal columns, y the third variable; the fit is perfect, the first two subtrees contribute nothing. The first and the third subtree are removed: the useless second one stays,
    the only useful one goes. *)
Theorem C88_right_subtrees_refuted : exists d' n t', fit 3 3 (1#2) cols (cols 2) [var 0; var 1; var 2] 0 = Ok (d', n, t') /\
  l_out n = cols 2 /\ orth_low (repeat 1%Q 4 :: map cols [0; 1; 2]) (cols 2) = [true; true; false] /\
  In (var 1) (l_roots n) /\ ~ In (var 2) (l_roots n).
Proof.
  eexists _, _, _. split; [vm_compute; reflexivity|]. cbn [l_out l_roots]. split; [reflexivity|]. split; [vm_compute; reflexivity|]. split; [left; reflexivity|].
  intros [H|[H|[H|[]]]]; discriminate H.
Qed.
(** ... and the weights kept are those of the old subtrees: predicting the training data gives something else than the recorded output. *)
Theorem C89_recorded_output_refuted : exists d' n t', fit 3 3 (1#2) cols (cols 2) [var 0; var 1; var 2] 0 = Ok (d', n, t') /\
  snd (predict zp 1%Q isdiv sem 4 mat_vec d' n) <> l_out n.
Proof. eexists _, _, _. split; [vm_compute; reflexivity|]. vm_compute. discriminate. Qed.
(** Nothing pruned: y = sum of the variables. *)
Example C89_example : exists d' n t', fit 3 3 (1#2) cols [3; -(1); -(1); -(1)]%Q [var 0; var 1; var 2] 0 = Ok (d', n, t') /\ hits (orth_low (repeat 1%Q 4 :: map cols [0; 1; 2]) [3; -(1); -(1); -(1)]%Q) = [] /\
  snd (predict zp 1%Q isdiv sem 4 mat_vec d' n) = l_out n /\ l_out n = [3; -(1); -(1); -(1)]%Q /\ l_complexity n == (1#2).
Proof. eexists _, _, _. split; [vm_compute; reflexivity|]. split; [vm_compute; reflexivity|]. split; [vm_compute; reflexivity|]. split; vm_compute; reflexivity. Qed.
(** One pruned: y = x0 + x2; x1 is replaced. *)
Example C88_one_example : exists d' n t', fit 3 3 (1#2) cols [2; 0; -(2); 0]%Q [var 0; var 1; var 2] 0 = Ok (d', n, t') /\ hits (orth_low (repeat 1%Q 4 :: map cols [0; 1; 2]) [2; 0; -(2); 0]%Q) = [1] /\ l_roots n = [var 0; var 2; var 0].
Proof. eexists _, _, _. split; [vm_compute; reflexivity|]. split; vm_compute; reflexivity. Qed.
Example C88_hyps : length [var 0; var 1; var 2] = 3 /\ length (orth_low (snd (weight_columns zp 1%Q isdiv sem 4 cols [var 0; var 1; var 2])) (cols 2)) <= 3 /\ individual (fun _ => 2) fns tms (Tr VLin [var 0; var 1; var 2]) /\ depth_within 3 (Tr VLin [var 0; var 1; var 2]).
Proof.
  split; [reflexivity|]. split; [vm_compute; auto|]. split.
  - split; [reflexivity|]. intros k [<-|[<-|[<-|[]]]] n s A; (inversion A as [|? k0 ? ? Hk ?]; subst; [cbn; auto|destruct Hk]).
  - intros n s A. inversion A as [|? k ? ? Hk A1]; subst; [lia|]. destruct Hk as [<-|[<-|[<-|[]]]]; (inversion A1 as [|? k0 ? ? Hk ?]; subst; [lia|destruct Hk]).
Qed.

(** x0 * x0 and x1 / x0, with a zero in x0: predicting writes a one into the data, and predicting again gives another result. *)
Definition dz (c : nat) : list Q := match c with O => [0;1;2;3]%Q | _ => [4;5;6;7]%Q end.
Definition nz := mkLin (V:=Q) [Tr (VFun Mul) [var 0; var 0]; Tr (VFun Div) [var 1; var 0]] [0; 1; 1]%Q [] 0%Q.
Theorem C90_data_unchanged_refuted : individual (fun _ => 2) fns tms (Tr VLin (l_roots nz)) /\ fst (predict zp 1%Q isdiv sem 4 mat_vec dz nz) 0 <> dz 0.
Proof.
  split.
  - split; [reflexivity|]. intros k [<-|[<-|[]]] n s A; (inversion A as [|? k0 ? ? Hk A']; subst; [split; [cbn; tauto|reflexivity]|]; destruct Hk as [<-|[<-|[]]]; (inversion A' as [|? ? ? ? Hk' ?]; subst; [cbn; auto|destruct Hk'])).
  - vm_compute. discriminate.
Qed.
Theorem C90_same_prediction_twice_refuted : let p := predict zp 1%Q isdiv sem 4 mat_vec dz nz in snd (predict zp 1%Q isdiv sem 4 mat_vec (fst p) nz) <> snd p.
Proof. vm_compute. discriminate. Qed.
Theorem C90_value_refuted : deref (fst (run zp 1%Q isdiv sem 4 dz (Tr (VFun Div) [var 0; var 0]))) (snd (run zp 1%Q isdiv sem 4 dz (Tr (VFun Div) [var 0; var 0]))) <> value_on zp 1%Q isdiv sem 4 dz (Tr (VFun Div) [var 0; var 0]).
Proof. vm_compute. discriminate. Qed.
Example C90_example : (forall c, bare_denominator isdiv (Tr (VFun Div) [var 0; var 1]) c -> no_zero zp (dz c)) /\ value_on zp 1%Q isdiv sem 4 dz (Tr (VFun Div) [var 0; var 1]) = [0; 1#5; 1#3; 3#7]%Q.
Proof.
  split; [|vm_compute; reflexivity]. intros c (n & f & x & k & _ & A). inversion A as [|? k0 n0 ? Hk A']; subst.
  - intros v Hv. vm_compute in Hv. destruct Hv as [<-|[<-|[<-|[<-|[]]]]]; reflexivity.
  - destruct Hk as [<-|[<-|[]]]; inversion A' as [|? ? ? ? Hk' ?]; destruct Hk'.
Qed.

(** The default pop_size 500 with max_depth 4: 600 individuals; with max_depth 5 (default): 498; an unknown method: none, without an error. *)
Theorem C91_population_size_refuted : exists (pick : nat -> nat -> nat) (coin : nat -> bool) inds t', create_individuals (fun _ : fn => 2) pick coin fns tms Ramped 500 4 1 0 = Ok (inds, t') /\ length inds = 600.
Proof.
  exists (fun t n => 0), (fun t => true). destruct (create_individuals (fun _ : fn => 2) (fun t n => 0) (fun t => true) fns tms Ramped 500 4 1 0) as [[inds t']|e] eqn:E.
  - exists inds, t'. split; [reflexivity|]. rewrite (C91_size_ramped (fun _ : fn => 2) fns tms (fun t n => 0) (fun t => true) 500 4 1 0 inds t' E). reflexivity.
  - exfalso. revert E. vm_compute. discriminate.
Qed.
Example C91_default : exists inds t', create_individuals (fun _ : fn => 2) (fun t n => t) (fun t => true) fns tms Ramped 500 5 4 0 = Ok (inds, t') /\ length inds = 498.
Proof.
  destruct (create_individuals (fun _ : fn => 2) (fun t n => t) (fun t => true) fns tms Ramped 500 5 4 0) as [[inds t']|e] eqn:E.
  - exists inds, t'. split; [reflexivity|]. rewrite (C91_size_ramped (fun _ : fn => 2) fns tms (fun t n => t) (fun t => true) 500 5 4 0 inds t' E). reflexivity.
  - exfalso. revert E. vm_compute. discriminate.
Qed.
Theorem C91_unknown_method_refuted : forall P D k t, create_individuals (fun _ : fn => 2) (fun t n => t) (fun t => true) fns tms Other P D k t = Ok ([], t).
Proof. reflexivity. Qed.
Example C91_odd : exists inds t', create_individuals (fun _ : fn => 2) (fun t n => 0) (fun t => true) fns tms Ramped 8 3 1 0 = Ok (inds, t') /\ length inds = 8.
Proof. eexists _, _. split; [vm_compute; reflexivity|]. reflexivity. Qed.
End Examples.

Print Assumptions C88_which_subtrees_go.
Print Assumptions C88_individual_kept.
Print Assumptions C88_one_pruned_partial.
Print Assumptions C89_recorded_output_partial.
Print Assumptions C89_complexity_is_of_the_final_tree.
Print Assumptions C90_effect_on_data.
Print Assumptions C90_prediction_partial.
Print Assumptions C90_prediction_effect.
Print Assumptions C91_individuals.
Print Assumptions C91_size_ramped.
