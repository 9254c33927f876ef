(** Lemmas for C127. *)
From Coq Require Import Reals Lra Lia Permutation.
From Verif Require Import Base RVec Spec_Indicator M_APDnan P_APDnan M_Indicator P_Indicator M_PBEA M_IndNaN.
Open Scope R_scope.

(** ** np.argmin *)
Lemma xargmin_from_fin l : forall b v i, xargmin_from b (Fin v) i (map Fin l) = argmin_from b v i l.
Proof.
  induction l as [|x t IH]; intros b v i; cbn [map xargmin_from argmin_from]; [reflexivity|].
  cbn [is_nan negb andb orb xltb]. destruct (Rlt_dec x v); apply IH.
Qed.
Lemma xargmin_fin l : xargmin (map Fin l) = argmin l.
Proof. destruct l as [|x t]; [reflexivity|]. cbn [map xargmin argmin]. f_equal. apply xargmin_from_fin. Qed.

Lemma xargmin_from_spec l : forall best bv i, (best < i)%nat ->
  let r := xargmin_from best bv i l in
  (r = best \/ exists k, r = (i + k)%nat /\ (k < length l)%nat).
Proof.
  induction l as [|x t IH]; intros best bv i Hb; cbn [xargmin_from]; [left; reflexivity|].
  destruct (negb (is_nan bv) && (is_nan x || xltb x bv)).
  - destruct (IH i x (S i)) as [E|(k & E1 & E2)]; [lia| |]; right.
    + exists 0%nat. cbn [length]. split; lia.
    + exists (S k). cbn [length]. split; lia.
  - destruct (IH best bv (S i)) as [E|(k & E1 & E2)]; [lia|left; exact E|right]. exists (S k). cbn [length]. split; lia.
Qed.
Lemma xargmin_lt l k : xargmin l = Some k -> (k < length l)%nat.
Proof.
  destruct l as [|x t]; cbn [xargmin]; [discriminate|]. intros H. injection H as <-. cbn [length].
  destruct (xargmin_from_spec t 0 x 1) as [E|(k & E1 & E2)]; lia.
Qed.
Lemma xargmin_some l : l <> [] -> exists k, xargmin l = Some k.
Proof. destruct l; [congruence|]. intros _. eexists. reflexivity. Qed.

(** The first NaN. *)
Lemma xargmin_from_nan_stop l : forall b i, xargmin_from b NaN i l = b.
Proof. induction l as [|x t IH]; intros b i; cbn [xargmin_from is_nan negb andb]; auto. Qed.
Lemma xargmin_from_first l : forall b v i k, is_nan v = false -> first_pos is_nan l = Some k -> xargmin_from b v i l = (i + k)%nat.
Proof.
  induction l as [|x t IH]; intros b v i k Hv H; cbn [first_pos] in H; [discriminate|].
  cbn [xargmin_from]. rewrite Hv. cbn [negb andb]. destruct (is_nan x) eqn:Ex.
  - injection H as <-. cbn [orb]. destruct x; try discriminate. rewrite xargmin_from_nan_stop. lia.
  - destruct (first_pos is_nan t) as [k'|] eqn:Ek; [|discriminate]. injection H as <-. cbn [orb].
    destruct (xltb x v); rewrite (IH _ _ _ k') by auto; lia.
Qed.
Lemma xargmin_first l k : first_pos is_nan l = Some k -> xargmin l = Some k.
Proof.
  destruct l as [|x t]; cbn [first_pos xargmin]; [discriminate|]. destruct (is_nan x) eqn:Ex.
  - intros H. injection H as <-. destruct x; try discriminate. rewrite xargmin_from_nan_stop. reflexivity.
  - destruct (first_pos is_nan t) as [k'|] eqn:Ek; [|discriminate]. intros H. injection H as <-. f_equal.
    rewrite (xargmin_from_first t 0 x 1 k' Ex Ek). reflexivity.
Qed.

(** ** Finite values *)
Section F.
Context {M X : Type} (emb : M -> X) (ind : M -> M -> R) (indx : X -> X -> xr) (kappa : R).
Hypothesis Hk : kappa <> 0.
Definition agrees (pop : list M) : Prop := forall a b, In a pop -> In b pop -> indx (emb a) (emb b) = Fin (ind a b).
Lemma term_fin a b : indx (emb a) (emb b) = Fin (ind a b) -> term_x indx kappa (emb a) (emb b) = Fin (exp (- ind a b / kappa)).
Proof. intros H. unfold term_x. rewrite H. cbn [xopp xdiv]. destruct (Req_EM_T kappa 0); [contradiction|]. reflexivity. Qed.

Lemma assign_one_fin pop i m : agrees pop -> In m pop -> assign_one_x indx kappa (map emb pop) i (emb m) = Fin (assign_one ind kappa pop i m).
Proof.
  intros Ha Hm. unfold assign_one_x, assign_one. rewrite map_length.
  cut (forall l k acc, (forall b, In b l -> In b pop) ->
    fold_left (fun (acc : xr) (p : nat * X) => if Nat.eqb (fst p) i then acc else xadd acc (xopp (term_x indx kappa (emb m) (snd p)))) (combine (seq k (length l)) (map emb l)) (Fin acc)
    = Fin (fold_left (fun acc (p : nat * M) => if Nat.eqb (fst p) i then acc else acc + - exp (- ind m (snd p) / kappa)) (combine (seq k (length l)) l) acc)).
  { intros H. apply (H pop 0%nat 0). auto. }
  induction l as [|b t IH]; intros k acc Hl; cbn [length seq map combine fold_left fst snd]; [reflexivity|].
  destruct (Nat.eqb k i); [apply IH; intros; apply Hl; now right|].
  rewrite (term_fin m b) by (apply Ha; [exact Hm|apply Hl; now left]). cbn [xopp xadd]. apply IH. intros; apply Hl; now right.
Qed.
Lemma assignment_fin pop : agrees pop -> fitness_assignment_x indx kappa (map emb pop) = map Fin (fitness_assignment ind kappa pop).
Proof.
  intros Ha. unfold fitness_assignment_x, fitness_assignment. rewrite map_length.
  cut (forall l k, (forall b, In b l -> In b pop) ->
    map (fun p : nat * X => assign_one_x indx kappa (map emb pop) (fst p) (snd p)) (combine (seq k (length l)) (map emb l))
    = map Fin (map (fun p : nat * M => assign_one ind kappa pop (fst p) (snd p)) (combine (seq k (length l)) l))).
  { intros H. apply (H pop 0%nat). auto. }
  induction l as [|b t IH]; intros k Hl; cbn [length seq map combine fst snd]; [reflexivity|].
  rewrite assign_one_fin by (auto; apply Hl; now left). f_equal. apply IH. intros; apply Hl; now right.
Qed.
Lemma update_fin pop fit k w : agrees pop -> In w pop -> env_update_x indx kappa (map emb pop) (map Fin fit) k (emb w) = map Fin (env_update ind kappa pop fit k w).
Proof.
  intros Ha Hw. unfold env_update_x, env_update. rewrite map_length.
  cut (forall l f s, (forall b, In b l -> In b pop) ->
    map (fun p : nat * (xr * X) => if Nat.eqb k (fst p) then fst (snd p) else xadd (fst (snd p)) (term_x indx kappa (snd (snd p)) (emb w))) (combine (seq s (length l)) (combine (map Fin f) (map emb l)))
    = map Fin (map (fun p : nat * (R * M) => if Nat.eqb k (fst p) then fst (snd p) else fst (snd p) + exp (- ind (snd (snd p)) w / kappa)) (combine (seq s (length l)) (combine f l)))).
  { intros H. apply (H pop fit 0%nat). auto. }
  induction l as [|b t IH]; intros f s Hl; [destruct f; reflexivity|]. destruct f as [|v f]; [reflexivity|].
  cbn [length seq map combine fst snd]. rewrite (term_fin b w) by (apply Ha; [apply Hl; now left|exact Hw]).
  rewrite IH by (intros; apply Hl; now right). destruct (Nat.eqb k s); reflexivity.
Qed.
Lemma delete_row_map {A B} (f : A -> B) k l : delete_row k (map f l) = map f (delete_row k l).
Proof. unfold delete_row. rewrite firstn_map, skipn_map, map_app. reflexivity. Qed.
Lemma delete_row_in {A} k (l : list A) x : In x (delete_row k l) -> In x l.
Proof.
  unfold delete_row. intros H. apply in_app_or in H. destruct H as [H|H].
  - rewrite <- (firstn_skipn k l). apply in_or_app. now left.
  - rewrite <- (firstn_skipn (S k) l). apply in_or_app. now right.
Qed.

Definition lift_x (r : option (res (list M * list R))) : option (res (list X * list xr)) :=
  match r with None => None | Some (Err e) => Some (Err e) | Some (Ok p) => Some (Ok (map emb (fst p), map Fin (snd p))) end.
Lemma env_loop_fin fuel ps : forall pop fit, agrees pop -> env_loop_x indx kappa fuel ps (map emb pop) (map Fin fit) = lift_x (env_loop ind kappa fuel ps pop fit).
Proof.
  induction fuel as [|fuel IH]; intros pop fit Ha; cbn [env_loop_x env_loop]; rewrite map_length.
  - destruct (Nat.ltb ps (length pop)); reflexivity.
  - destruct (Nat.ltb ps (length pop)); [|reflexivity]. rewrite xargmin_fin. destruct (argmin fit) as [k|]; [|reflexivity].
    rewrite nth_error_map. destruct (nth_error pop k) as [w|] eqn:Ew; cbn [option_map]; [|reflexivity].
    rewrite update_fin by (auto; eapply nth_error_In; eauto). rewrite !delete_row_map. apply IH.
    intros a b H1 H2. apply Ha; eapply delete_row_in; eauto.
Qed.
Lemma env_fin ps pop : agrees pop -> env_x indx kappa ps (map emb pop) = lift_x (env_loop ind kappa (length pop) ps pop (fitness_assignment ind kappa pop)).
Proof. intros Ha. unfold env_x. rewrite map_length, assignment_fin by auto. apply env_loop_fin. exact Ha. Qed.
End F.

(** ** The loop ends with the requested number of members, whatever the values *)
Section T.
Context {M : Type} (indx : M -> M -> xr) (kappa : R).
Lemma update_length pop fit k w : length fit = length pop -> length (env_update_x indx kappa pop fit k w) = length pop.
Proof. intros H. unfold env_update_x. rewrite map_length, !combine_length, seq_length. lia. Qed.
Lemma assignment_length pop : length (fitness_assignment_x indx kappa pop) = length pop.
Proof. unfold fitness_assignment_x. rewrite map_length, combine_length, seq_length. lia. Qed.
Lemma delete_row_length {A} k (l : list A) : (k < length l)%nat -> length (delete_row k l) = (length l - 1)%nat.
Proof. apply length_without. Qed.

(** One turn of the loop. *)
Lemma env_loop_step fuel ps pop fit : length fit = length pop -> (ps < length pop)%nat ->
  exists k w, xargmin fit = Some k /\ nth_error pop k = Some w /\ (k < length pop)%nat /\ env_loop_x indx kappa (S fuel) ps pop fit = env_loop_x indx kappa fuel ps (delete_row k pop) (delete_row k (env_update_x indx kappa pop fit k w)) /\ length (delete_row k (env_update_x indx kappa pop fit k w)) = length (delete_row k pop).
Proof.
  intros L H. destruct (xargmin_some fit) as [k Hk]; [intros ->; cbn in L; lia|]. assert (Hl : (k < length pop)%nat) by (rewrite <- L; eapply xargmin_lt; eauto).
  destruct (nth_error pop k) as [w|] eqn:Ew; [|apply nth_error_None in Ew; lia].
  exists k, w. split; [exact Hk|]. split; [exact Ew|]. split; [exact Hl|]. split.
  - cbn [env_loop_x]. rewrite (proj2 (Nat.ltb_lt _ _) H), Hk, Ew. reflexivity.
  - rewrite !delete_row_length; [|exact Hl|rewrite update_length; auto]. rewrite update_length; auto.
Qed.
Lemma env_loop_done fuel ps pop fit : (length pop <= ps)%nat -> env_loop_x indx kappa fuel ps pop fit = Some (Ok (pop, fit)).
Proof. intros H. destruct fuel; cbn [env_loop_x]; rewrite (proj2 (Nat.ltb_ge _ _) H); reflexivity. Qed.

Lemma env_loop_total fuel ps : forall pop fit, length fit = length pop -> (length pop - ps <= fuel)%nat ->
  exists s f, env_loop_x indx kappa fuel ps pop fit = Some (Ok (s, f)) /\ length f = length s /\ length s = Nat.min ps (length pop) /\ subseq s pop.
Proof.
  induction fuel as [|fuel IH]; intros pop fit L Hf; destruct (le_lt_dec (length pop) ps) as [H|H]; try lia.
  1, 2: rewrite env_loop_done by exact H; exists pop, fit; split; [reflexivity|]; split; [exact L|]; split; [lia|apply subseq_refl].
  destruct (env_loop_step fuel ps pop fit L H) as (k & w & _ & _ & Hk & E & L'). rewrite E.
  destruct (IH _ _ L') as (s & f & E1 & E2 & E3 & E4); [rewrite delete_row_length; auto; lia|].
  exists s, f. split; [exact E1|]. split; [exact E2|]. split; [rewrite E3, delete_row_length by auto; lia|].
  eapply subseq_trans; [exact E4|apply subseq_delete].
Qed.
Lemma env_loop_fuel ps : forall f1 f2 pop fit, length fit = length pop -> (length pop - ps <= f1)%nat -> (length pop - ps <= f2)%nat ->
  env_loop_x indx kappa f1 ps pop fit = env_loop_x indx kappa f2 ps pop fit.
Proof.
  induction f1 as [|f1 IH]; intros f2 pop fit L H1 H2; destruct (le_lt_dec (length pop) ps) as [H|H]; try lia.
  1, 2: rewrite !env_loop_done by exact H; reflexivity.
  destruct f2 as [|f2]; [lia|]. destruct (env_loop_step f1 ps pop fit L H) as (k & w & K1 & K2 & Hk & E & L'). rewrite E.
  destruct (env_loop_step f2 ps pop fit L H) as (k' & w' & K1' & K2' & _ & E' & _). rewrite E'.
  rewrite K1' in K1. injection K1 as ->. rewrite K2' in K2. injection K2 as ->.
  apply IH; [exact L'| |]; rewrite delete_row_length by auto; lia.
Qed.

(** ** All values finite: from-scratch sums *)
Section E.
Context (t : M -> M -> R).
Definition finite_terms (pop : list M) : Prop := forall a b, In a pop -> In b pop -> term_x indx kappa a b = Fin (t a b).
Definition total (m : M) (others : list M) : R := rsum (map (t m) others).
Definition exact_x (pop : list M) (fit : list xr) : Prop :=
  length fit = length pop /\ forall i m, nth_error pop i = Some m -> nth_error fit i = Some (Fin (- total m (without i pop))).

Lemma assign_fold_x pop (m : M) i : finite_terms pop -> In m pop -> forall (l : list M) k acc, (forall b, In b l -> In b pop) ->
  fold_left (fun (acc : xr) (p : nat * M) => if Nat.eqb (fst p) i then acc else xadd acc (xopp (term_x indx kappa m (snd p)))) (combine (seq k (length l)) l) (Fin acc) =
  Fin (acc + (if Nat.leb k i then - total m (without (i - k) l) else - total m l)).
Proof.
  intros Ht Hm. unfold total. induction l as [|x l IH]; intros k acc Hl.
  - cbn [length seq combine fold_left]. destruct (Nat.leb k i); unfold without; rewrite ?firstn_nil, ?skipn_nil; cbn; f_equal; lra.
  - cbn [length seq combine fold_left fst snd]. assert (Hl' : forall b, In b l -> In b pop) by (intros; apply Hl; now right).
    destruct (Nat.eqb_spec k i) as [->|Hn].
    + rewrite IH by exact Hl'. replace (Nat.leb (S i) i) with false by (symmetry; apply Nat.leb_gt; lia).
      rewrite Nat.leb_refl, Nat.sub_diag. reflexivity.
    + rewrite (Ht m x) by (auto; apply Hl; now left). cbn [xopp xadd]. rewrite IH by exact Hl'. destruct (Nat.leb_spec k i) as [Hle|Hle].
      * replace (Nat.leb (S k) i) with true by (symmetry; apply Nat.leb_le; lia).
        replace (i - k)%nat with (S (i - S k)) by lia.
        unfold without. cbn [firstn skipn app map rsum]. f_equal. lra.
      * replace (Nat.leb (S k) i) with false by (symmetry; apply Nat.leb_gt; lia). cbn [map rsum]. f_equal. lra.
Qed.
Lemma assignment_exact_x pop : finite_terms pop -> exact_x pop (fitness_assignment_x indx kappa pop).
Proof.
  intros Ht. split; [apply assignment_length|]. intros i m H. unfold fitness_assignment_x. rewrite nth_error_map, nth_error_combine, nth_error_seq, H.
  assert (Hl : (i < length pop)%nat) by (apply nth_error_Some; congruence).
  replace (Nat.ltb i (length pop)) with true by (symmetry; apply Nat.ltb_lt; auto). cbn [option_map fst snd].
  unfold assign_one_x. rewrite (assign_fold_x pop m) by (auto; eapply nth_error_In; eauto). cbn [Nat.leb]. rewrite Nat.sub_0_r. do 2 f_equal. cbn [Nat.add]. lra.
Qed.
Lemma finite_terms_delete k pop : finite_terms pop -> finite_terms (delete_row k pop).
Proof. intros H a b H1 H2. apply H; eapply delete_row_in; eauto. Qed.
Lemma step_exact_x pop fit k w : finite_terms pop -> exact_x pop fit -> nth_error pop k = Some w ->
  exact_x (delete_row k pop) (delete_row k (env_update_x indx kappa pop fit k w)).
Proof.
  intros Ht [L E] Hw. assert (Hk : (k < length pop)%nat) by (apply nth_error_Some; congruence). change (@delete_row) with (@without).
  split.
  - rewrite !length_without; rewrite ?update_length; auto.
  - intros i m H. rewrite nth_error_without in H. rewrite nth_error_without.
    set (i' := if Nat.ltb i k then i else S i) in *.
    assert (Hi' : i' <> k) by (unfold i'; destruct (Nat.ltb_spec i k); lia).
    assert (Hl' : (i' < length pop)%nat) by (apply nth_error_Some; congruence).
    unfold env_update_x. rewrite nth_error_map, !nth_error_combine, nth_error_seq, H, (E _ _ H).
    replace (Nat.ltb i' (length pop)) with true by (symmetry; apply Nat.ltb_lt; auto).
    cbn [option_map fst snd Nat.add]. rewrite (proj2 (Nat.eqb_neq k i')) by auto.
    rewrite (Ht m w) by (eapply nth_error_In; eauto). cbn [xadd]. do 2 f_equal.
    unfold total. rewrite (rsum_without _ _ _ _ H).
    assert (H2 : nth_error (without k pop) i = Some m) by (rewrite nth_error_without; exact H).
    rewrite (rsum_without _ _ _ _ H2), (rsum_without _ _ _ _ Hw). lra.
Qed.
Lemma nth_error_ext' {A} : forall (l l' : list A), (forall i, nth_error l i = nth_error l' i) -> l = l'.
Proof.
  induction l as [|x l IH]; intros [|y l'] H; auto; try (specialize (H 0%nat); cbn in H; discriminate).
  f_equal; [specialize (H 0%nat); cbn in H; congruence|]. apply IH. intros i. apply (H (S i)).
Qed.
Lemma exact_unique pop f1 f2 : exact_x pop f1 -> exact_x pop f2 -> f1 = f2.
Proof.
  intros [L1 E1] [L2 E2]. apply nth_error_ext'. intros i. destruct (nth_error pop i) as [m|] eqn:Em; [rewrite (E1 _ _ Em), (E2 _ _ Em); reflexivity|].
  apply nth_error_None in Em. rewrite (proj2 (nth_error_None f1 i)), (proj2 (nth_error_None f2 i)) by lia. reflexivity.
Qed.
Lemma exact_fin pop fit : exact_x pop fit -> exists r, fit = map Fin r.
Proof.
  intros [L E]. exists (map fin_part fit). apply nth_error_ext'. intros i. rewrite !nth_error_map.
  destruct (nth_error pop i) as [m|] eqn:Em; [rewrite (E _ _ Em); reflexivity|]. apply nth_error_None in Em. rewrite (proj2 (nth_error_None fit i)) by lia. reflexivity.
Qed.
(** The worst member has the largest sum. *)
Lemma exact_worst pop fit k w : exact_x pop fit -> xargmin fit = Some k -> nth_error pop k = Some w ->
  forall i m, nth_error pop i = Some m -> total m (without i pop) <= total w (without k pop).
Proof.
  intros Hx Hk Hw i m Hm. destruct (exact_fin _ _ Hx) as [r Er]. rewrite Er, xargmin_fin in Hk. destruct (argmin_spec _ _ Hk) as (v & V1 & V2 & _).
  destruct Hx as [L E]. pose proof (E _ _ Hw) as Ew. pose proof (E _ _ Hm) as Em. rewrite Er, nth_error_map in Ew, Em.
  rewrite V1 in Ew. cbn [option_map] in Ew. injection Ew as Ew. destruct (nth_error r i) as [u|] eqn:Eu; [|discriminate]. cbn [option_map] in Em. injection Em as Em.
  specialize (V2 _ (nth_error_In _ _ Eu)). lra.
Qed.
End E.
End T.
