(** Proofs about the MOEA/D model. *)
From Verif Require Import Base M_MOEAD.
From Coq Require Import QArith Permutation Sorted.
Open Scope nat_scope.

Lemma take_all_ok {A} (l : list A) idxs r : take_all l idxs = Ok r ->
  length r = length idxs /\ forall k i, nth_error idxs k = Some i -> exists x, nth_error l i = Some x /\ nth_error r k = Some x.
Proof.
  revert r; induction idxs as [|i t IH]; intros r; simpl.
  - intros H; injection H as <-. split; auto. intros [|k] i; discriminate.
  - destruct (nth_error l i) as [x|] eqn:E; [|discriminate].
    destruct (take_all l t) as [r'|e] eqn:E'; simpl; [|discriminate].
    intros H; injection H as <-. destruct (IH r' eq_refl) as [H1 H2]. split; [simpl; lia|].
    intros [|k] j; simpl.
    + intros H; injection H as <-. exists x; auto.
    + apply H2.
Qed.

Lemma take_all_some {A} (l : list A) idxs : (forall i, In i idxs -> i < length l) -> exists r, take_all l idxs = Ok r.
Proof.
  induction idxs as [|i t IH]; intros H; simpl; [eauto|].
  destruct (nth_error l i) as [x|] eqn:E.
  - destruct IH as [r Hr]; [intros; apply H; right; auto|]. rewrite Hr; simpl; eauto.
  - apply nth_error_None in E. specialize (H i (or_introl eq_refl)). lia.
Qed.

Lemma length_replace_at {M} idxs (x : M) pop : length (replace_at idxs x pop) = length pop.
Proof.
  revert pop; unfold replace_at; induction idxs as [|i t IH]; intros pop; simpl; auto.
  rewrite IH, length_set_nth; auto.
Qed.

Lemma nth_error_replace_at {M} idxs (x : M) pop j :
  nth_error (replace_at idxs x pop) j = if mem_nat j idxs then (if Nat.ltb j (length pop) then Some x else None) else nth_error pop j.
Proof.
  revert pop; unfold replace_at; induction idxs as [|i t IH]; intros pop; simpl; auto.
  rewrite IH, length_set_nth, nth_error_set_nth, (Nat.eqb_sym j i).
  destruct (Nat.eqb i j) eqn:E; simpl; auto.
  destruct (mem_nat j t); auto.
Qed.

Lemma nth_error_removelast {A} (l : list A) j : j < length l - 1 -> nth_error (removelast l) j = nth_error l j.
Proof.
  revert j; induction l as [|x t IH]; intros j H; simpl in *; [lia|].
  destruct t as [|y t]; simpl in *; [lia|].
  destruct j as [|j]; simpl; auto.
  apply IH. lia.
Qed.

Lemma length_removelast {A} (l : list A) : length (removelast l) = length l - 1.
Proof.
  induction l as [|x t IH]; simpl; auto. destruct t as [|y t]; simpl in *; auto. rewrite IH. lia.
Qed.

Lemma removelast_nth_None {A} (l : list A) j : length l - 1 <= j -> nth_error (removelast l) j = None.
Proof. intros H. apply nth_error_None. rewrite length_removelast. lia. Qed.

Section P.
Context {M : Type} (fitness : M -> list Q) (SF : list Q -> list Q -> list Q -> Q).
Context (vectors : list (list Q)) (neighborhoods : list (list nat)).
Context (pick : nat -> nat -> nat * nat) (offspring : nat -> M -> M -> list M -> M) (new_ideal : list Q -> M -> list Q).

Lemma In_outperformed nb cur ws off ideal j :
  In j (outperformed SF nb cur ws off ideal) <->
  exists k f w, nth_error nb k = Some j /\ nth_error cur k = Some f /\ nth_error ws k = Some w /\
    (SF off (fix_weights w) ideal < SF f (fix_weights w) ideal)%Q.
Proof.
  revert cur ws; induction nb as [|a nb IH]; intros cur ws.
  - simpl. split; [intros []|]. intros (k & f & w & H & _); destruct k; discriminate.
  - destruct cur as [|f cur]; [simpl; split; [intros []|]; intros (k & f & w & _ & H & _); destruct k; discriminate|].
    destruct ws as [|w ws]; [simpl; split; [intros []|]; intros (k & g & w & _ & _ & H & _); destruct k; discriminate|].
    simpl. destruct (Qle_bool (SF f (fix_weights w) ideal) (SF off (fix_weights w) ideal)) eqn:E; simpl.
    + rewrite IH. apply Qle_bool_iff in E. split.
      * intros (k & H). exists (S k); auto.
      * intros ([|k] & g & v & H1 & H2 & H3 & H4); simpl in *.
        -- injection H2 as <-; injection H3 as <-. exfalso; apply (Qlt_not_le _ _ H4); auto.
        -- exists k, g, v; auto.
    + rewrite IH. assert (L : (SF off (fix_weights w) ideal < SF f (fix_weights w) ideal)%Q).
      { apply Qnot_le_lt. intros Hc. apply Qle_bool_iff in Hc. congruence. }
      split.
      * intros [<-|(k & H)]; [exists 0, f, w; auto|exists (S k); auto].
      * intros ([|k] & g & v & H1 & H2 & H3 & H4); simpl in *; [left; congruence|].
        right. exists k, g, v; auto.
Qed.

(** What [do] returns. *)
Lemma moead_do_spec ideal pop off i sel : moead_do fitness SF vectors neighborhoods ideal (pop ++ [off]) i = Ok sel ->
  exists nb, nth_error neighborhoods i = Some nb /\
  (forall j, In j nb -> j < length vectors /\ j <= length pop) /\
  forall j, In j sel <-> In j nb /\ exists m w, nth_error (pop ++ [off]) j = Some m /\ nth_error vectors j = Some w /\
    (SF (fitness off) (fix_weights w) ideal < SF (fitness m) (fix_weights w) ideal)%Q.
Proof.
  unfold moead_do. destruct (nth_error neighborhoods i) as [nb|] eqn:En; [|discriminate].
  destruct (take_all (map fitness (pop ++ [off])) nb) as [cur|e] eqn:Ec; simpl; [|discriminate].
  rewrite rev_app_distr; simpl.
  destruct (take_all vectors nb) as [ws|e] eqn:Ew; simpl; [|discriminate].
  intros H; injection H as <-. exists nb. split; [reflexivity|].
  destruct (take_all_ok _ _ _ Ec) as [C1 C2]. destruct (take_all_ok _ _ _ Ew) as [W1 W2].
  split.
  - intros j Hj. destruct (In_nth_error _ _ Hj) as [k Hk].
    destruct (C2 _ _ Hk) as (x & X1 & _). destruct (W2 _ _ Hk) as (y & Y1 & _).
    assert (j < length (map fitness (pop ++ [off]))) by (apply nth_error_Some; congruence).
    rewrite map_length, app_length in H; simpl in H.
    split; [apply nth_error_Some; congruence|lia].
  - intros j. rewrite In_outperformed. split.
    + intros (k & f & w & H1 & H2 & H3 & H4). split; [eapply nth_error_In; eauto|].
      destruct (C2 _ _ H1) as (x & X1 & X2). destruct (W2 _ _ H1) as (y & Y1 & Y2).
      assert (x = f) by congruence. assert (y = w) by congruence. subst x y.
      rewrite nth_error_map in X1. destruct (nth_error (pop ++ [off]) j) as [m|]; [|discriminate].
      simpl in X1; injection X1 as <-. exists m, w; auto.
    + intros (Hj & m & w & H1 & H2 & H3). destruct (In_nth_error _ _ Hj) as [k Hk].
      destruct (C2 _ _ Hk) as (x & X1 & X2). destruct (W2 _ _ Hk) as (y & Y1 & Y2).
      rewrite nth_error_map, H1 in X1; simpl in X1; injection X1 as <-.
      exists k, (fitness m), w. split; auto. split; auto. split; [congruence|auto].
Qed.

Lemma subproblem_spec i ideal pop ideal' pop' :
  subproblem fitness SF vectors neighborhoods pick offspring new_ideal i (ideal, pop) = Ok (ideal', pop') ->
  exists nb pa pb a b off,
    nth_error neighborhoods i = Some nb /\ In pa nb /\ In pb nb /\
    nth_error pop pa = Some a /\ nth_error pop pb = Some b /\
    off = offspring i a b pop /\ ideal' = new_ideal ideal off /\
    length pop' = length pop /\
    (forall j m, nth_error pop j = Some m ->
       (In j nb /\ exists w, nth_error vectors j = Some w /\
          (SF (fitness off) (fix_weights w) ideal' < SF (fitness m) (fix_weights w) ideal')%Q /\ nth_error pop' j = Some off)
       \/ (nth_error pop' j = Some m /\
           (In j nb -> forall w, nth_error vectors j = Some w ->
              (SF (fitness m) (fix_weights w) ideal' <= SF (fitness off) (fix_weights w) ideal')%Q))).
Proof.
  unfold subproblem, choose_parents.
  destruct (nth_error neighborhoods i) as [nb|] eqn:En; [|discriminate].
  destruct (Nat.ltb (length nb) 2) eqn:El; [discriminate|].
  destruct (nth_error nb (fst (pick i (length nb)))) as [pa|] eqn:Ea; [|discriminate].
  destruct (nth_error nb (snd (pick i (length nb)))) as [pb|] eqn:Eb; [|discriminate].
  cbn [bind fst snd].
  destruct (nth_error pop pa) as [a|] eqn:Epa; [|discriminate].
  destruct (nth_error pop pb) as [b|] eqn:Epb; [|discriminate].
  set (off := offspring i a b pop).
  destruct (moead_do fitness SF vectors neighborhoods (new_ideal ideal off) (pop ++ [off]) i) as [sel|e] eqn:Ed; [|discriminate].
  cbn [bind]. intros H; injection H as <- <-.
  destruct (moead_do_spec _ _ _ _ _ Ed) as (nb' & N1 & N2 & N3).
  rewrite En in N1; injection N1 as <-.
  exists nb, pa, pb, a, b, off.
  split; auto. split; [eapply nth_error_In; eauto|]. split; [eapply nth_error_In; eauto|].
  split; auto. split; auto. split; auto. split; auto.
  assert (L : length (removelast (replace_at sel off (pop ++ [off]))) = length pop).
  { rewrite length_removelast, length_replace_at, app_length; simpl; lia. }
  split; auto. intros j m Hj.
  assert (Hl : j < length pop) by (apply nth_error_Some; congruence).
  assert (N : nth_error (removelast (replace_at sel off (pop ++ [off]))) j = if mem_nat j sel then Some off else Some m).
  { rewrite nth_error_removelast by (rewrite length_replace_at, app_length; simpl; lia).
    rewrite nth_error_replace_at.
    replace (Nat.ltb j (length (pop ++ [off]))) with true
      by (symmetry; apply Nat.ltb_lt; rewrite app_length; simpl; lia).
    rewrite nth_error_app1 by auto. rewrite Hj; auto. }
  destruct (mem_nat j sel) eqn:Em.
  - left. apply mem_nat_In in Em. apply N3 in Em. destruct Em as (Hj1 & m' & w & H1 & H2 & H3).
    rewrite nth_error_app1 in H1 by auto. assert (m' = m) by congruence; subst m'.
    split; auto. exists w; auto.
  - right. split; auto. intros Hj1 w Hw.
    apply Qnot_lt_le. intros Hc.
    assert (In j sel).
    { apply N3. split; auto. exists m, w. rewrite nth_error_app1 by auto. auto. }
    apply mem_nat_In in H. congruence.
Qed.

Lemma subproblem_total i ideal pop nb :
  nth_error neighborhoods i = Some nb -> 2 <= length nb ->
  (forall n, 2 <= n -> fst (pick i n) < n /\ snd (pick i n) < n) ->
  (forall j, In j nb -> j < length vectors /\ j < length pop) ->
  exists s, subproblem fitness SF vectors neighborhoods pick offspring new_ideal i (ideal, pop) = Ok s.
Proof.
  intros En Hl Hp Hr. unfold subproblem, choose_parents. rewrite En.
  replace (Nat.ltb (length nb) 2) with false by (symmetry; apply Nat.ltb_ge; auto).
  destruct (Hp _ Hl) as [P1 P2].
  destruct (nth_error nb (fst (pick i (length nb)))) as [pa|] eqn:Ea; [|apply nth_error_None in Ea; lia].
  destruct (nth_error nb (snd (pick i (length nb)))) as [pb|] eqn:Eb; [|apply nth_error_None in Eb; lia].
  cbn [bind fst snd].
  destruct (Hr pa (nth_error_In _ _ Ea)) as [_ A]. destruct (Hr pb (nth_error_In _ _ Eb)) as [_ B].
  destruct (nth_error pop pa) as [a|] eqn:Epa; [|apply nth_error_None in Epa; lia].
  destruct (nth_error pop pb) as [b|] eqn:Epb; [|apply nth_error_None in Epb; lia].
  set (off := offspring i a b pop).
  unfold moead_do. rewrite En.
  destruct (take_all_some (map fitness (pop ++ [off])) nb) as [c Hc].
  { intros j Hj. rewrite map_length, app_length. destruct (Hr j Hj). lia. }
  rewrite Hc; cbn [bind]. rewrite rev_app_distr; simpl.
  destruct (take_all_some vectors nb) as [w Hw]; [intros j Hj; apply Hr; auto|].
  rewrite Hw; cbn [bind]. eauto.
Qed.

Lemma subproblems_total is ideal pop :
  (forall i, In i is -> exists nb, nth_error neighborhoods i = Some nb /\ 2 <= length nb /\
     forall j, In j nb -> j < length vectors /\ j < length pop) ->
  (forall i n, 2 <= n -> fst (pick i n) < n /\ snd (pick i n) < n) ->
  exists s, subproblems fitness SF vectors neighborhoods pick offspring new_ideal is (ideal, pop) = Ok s.
Proof.
  intros H Hp. revert ideal pop H. induction is as [|i t IH]; intros ideal pop H; cbn [subproblems]; [eauto|].
  destruct (H i (or_introl eq_refl)) as (nb & N1 & N2 & N3).
  destruct (subproblem_total i ideal pop nb N1 N2 (Hp i) N3) as [[id' pop'] E].
  rewrite E; cbn [bind]. destruct (subproblem_spec _ _ _ _ _ E) as (? & ? & ? & ? & ? & ? & _ & _ & _ & _ & _ & _ & _ & L & _).
  apply IH. intros k Hk. destruct (H k (or_intror Hk)) as (nb2 & M1 & M2 & M3).
  exists nb2. split; auto. split; auto. intros j Hj. rewrite L. apply M3; auto.
Qed.

Lemma subproblems_length is s s' :
  subproblems fitness SF vectors neighborhoods pick offspring new_ideal is s = Ok s' -> length (snd s') = length (snd s).
Proof.
  revert s; induction is as [|i t IH]; intros [id pop]; cbn [subproblems].
  - intros H; injection H as <-; auto.
  - destruct (subproblem fitness SF vectors neighborhoods pick offspring new_ideal i (id, pop)) as [[id1 pop1]|e] eqn:E; [|discriminate].
    cbn [bind]. intros H. rewrite (IH _ H). destruct (subproblem_spec _ _ _ _ _ E) as (? & ? & ? & ? & ? & ? & _ & _ & _ & _ & _ & _ & _ & L & _). auto.
Qed.

Lemma subproblems_no_worse is ideal pop ideal' pop' :
  (forall off, new_ideal ideal off = ideal) ->
  subproblems fitness SF vectors neighborhoods pick offspring new_ideal is (ideal, pop) = Ok (ideal', pop') ->
  ideal' = ideal /\
  forall j m m' w, nth_error pop j = Some m -> nth_error pop' j = Some m' -> nth_error vectors j = Some w ->
    (SF (fitness m') (fix_weights w) ideal <= SF (fitness m) (fix_weights w) ideal)%Q.
Proof.
  intros Hc. revert pop; induction is as [|i t IH]; intros pop; cbn [subproblems].
  - intros H; injection H as <- <-. split; auto. intros j m m' w H1 H2. assert (m = m') by congruence; subst. intros; apply Qle_refl.
  - destruct (subproblem fitness SF vectors neighborhoods pick offspring new_ideal i (ideal, pop)) as [[id1 pop1]|e] eqn:E; [|discriminate].
    cbn [bind]. destruct (subproblem_spec _ _ _ _ _ E) as (nb & pa & pb & a & b & off & _ & _ & _ & _ & _ & _ & Hi & L & S).
    rewrite Hc in Hi. subst id1. intros H. destruct (IH _ H) as [H1 H2]. split; auto.
    intros j m m' w Hj Hj' Hw.
    destruct (S j m Hj) as [(_ & w' & W1 & W2 & W3)|[W3 _]].
    + assert (w' = w) by congruence; subst w'. apply Qle_trans with (SF (fitness off) (fix_weights w) ideal); [eapply H2; eauto|apply Qlt_le_weak; auto].
    + eapply H2; eauto.
Qed.
End P.

(** Neighbourhoods. *)
Definition sorts (keys : list Q) (r : list nat) : Prop :=
  Permutation r (seq 0 (length keys)) /\
  StronglySorted (fun i j => forall x y, nth_error keys i = Some x -> nth_error keys j = Some y -> (x <= y)%Q) r.

Lemma SS_firstn_skipn {A} (R : A -> A -> Prop) l n x y : StronglySorted R l -> In x (firstn n l) -> In y (skipn n l) -> R x y.
Proof.
  revert n; induction l as [|a l IH]; intros [|n] H Hx Hy; simpl in *; try tauto.
  inversion H; subst. destruct Hx as [<-|Hx].
  - eapply Forall_forall; eauto. rewrite <- (firstn_skipn n l). apply in_or_app; auto.
  - eapply IH; eauto.
Qed.

Lemma nth_error_map_seq {A} (g : nat -> A) n k : k < n -> nth_error (map g (seq 0 n)) k = Some (g k).
Proof.
  intros H. rewrite nth_error_map. rewrite (nth_error_nth' _ 0) by (rewrite seq_length; auto).
  rewrite seq_nth by auto. reflexivity.
Qed.

Lemma NoDup_firstn {A} n (l : list A) : NoDup l -> NoDup (firstn n l).
Proof.
  intros H. rewrite <- (firstn_skipn n l) in H. revert H. generalize (skipn n l) as t. induction (firstn n l) as [|a f IH]; intros t H; [constructor|].
  simpl in H. inversion H; subst. constructor; [|eapply IH; eauto]. intros Hi. apply H2. apply in_or_app; auto.
Qed.

Lemma neighborhoods_of_spec argsort dist nv nn i :
  (forall keys, sorts keys (argsort keys)) -> i < nv ->
  exists nb, nth_error (neighborhoods_of argsort dist nv nn) i = Some nb /\
    length nb = Nat.min nn nv /\ NoDup nb /\ (forall j, In j nb -> j < nv) /\
    (forall j k, In j nb -> k < nv -> ~ In k nb -> (dist i j <= dist i k)%Q).
Proof.
  intros Ha Hi. unfold neighborhoods_of. rewrite nth_error_map_seq by auto. eexists; split; [reflexivity|].
  destruct (Ha (map (dist i) (seq 0 nv))) as [P S]. rewrite map_length, seq_length in P.
  set (r := argsort (map (dist i) (seq 0 nv))) in *.
  assert (Lr : length r = nv) by (rewrite (Permutation_length P), seq_length; auto).
  assert (B : forall j, In j r <-> j < nv).
  { intros j. split; intros H.
    - apply (Permutation_in _ P) in H. apply in_seq in H. lia.
    - apply (Permutation_in _ (Permutation_sym P)). apply in_seq. lia. }
  assert (F : forall j, In j (firstn nn r) -> j < nv).
  { intros j Hj. apply B. rewrite <- (firstn_skipn nn r). apply in_or_app; auto. }
  split; [rewrite firstn_length; lia|]. split; [|split; auto].
  - apply NoDup_firstn. apply (Permutation_NoDup (Permutation_sym P)). apply seq_NoDup.
  - intros j k Hj Hk Hn.
    assert (Hs : In k (skipn nn r)).
    { apply B in Hk. rewrite <- (firstn_skipn nn r) in Hk. apply in_app_or in Hk. tauto. }
    apply (SS_firstn_skipn _ _ _ _ _ S Hj Hs); apply nth_error_map_seq; auto.
Qed.

(** A reference argsort (insertion sort), to show the contract [sorts] can be met. *)
Fixpoint ins (keys : list Q) (i : nat) (r : list nat) : list nat :=
  match r with
  | [] => [i]
  | j :: t => if Qle_bool (nth i keys 0%Q) (nth j keys 0%Q) then i :: r else j :: ins keys i t
  end.
Definition ref_argsort (keys : list Q) : list nat := fold_right (ins keys) [] (seq 0 (length keys)).

Lemma ins_perm keys i r : Permutation (ins keys i r) (i :: r).
Proof.
  induction r as [|j t IH]; simpl; auto.
  destruct (Qle_bool _ _); auto.
  etransitivity; [apply perm_skip; exact IH|]. apply perm_swap.
Qed.

Lemma ins_sorted keys i r :
  StronglySorted (fun a b => (nth a keys 0 <= nth b keys 0)%Q) r -> StronglySorted (fun a b => (nth a keys 0 <= nth b keys 0)%Q) (ins keys i r).
Proof.
  induction r as [|j t IH]; simpl; intros H; [repeat constructor|].
  inversion H; subst. destruct (Qle_bool (nth i keys 0%Q) (nth j keys 0%Q)) eqn:E.
  - apply Qle_bool_iff in E. constructor; auto. constructor; auto.
    eapply Forall_impl; [|exact H3]. simpl; intros a Ha. eapply Qle_trans; eauto.
  - assert (L : (nth j keys 0 <= nth i keys 0)%Q).
    { apply Qlt_le_weak, Qnot_le_lt. intros Hc. apply Qle_bool_iff in Hc. congruence. }
    constructor; auto. apply (Permutation_Forall (Permutation_sym (ins_perm keys i t))). constructor; auto.
Qed.

Lemma ref_argsort_sorts keys : sorts keys (ref_argsort keys).
Proof.
  unfold ref_argsort. split.
  - generalize (seq 0 (length keys)) as l. induction l as [|i l IH]; simpl; auto.
    etransitivity; [apply ins_perm|]. constructor; auto.
  - assert (S : StronglySorted (fun a b => (nth a keys 0 <= nth b keys 0)%Q) (fold_right (ins keys) [] (seq 0 (length keys)))).
    { generalize (seq 0 (length keys)) as l. induction l as [|i l IH]; simpl; [constructor|]. apply ins_sorted; auto. }
    revert S. generalize (fold_right (ins keys) [] (seq 0 (length keys))) as r.
    induction 1; constructor; auto.
    eapply Forall_impl; [|exact H]. intros b Hb x y Hx Hy. simpl in Hb.
    rewrite (nth_error_nth _ _ _ Hx), (nth_error_nth _ _ _ Hy) in Hb. auto.
Qed.
