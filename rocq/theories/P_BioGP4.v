(** Lemmas for C61: the crossover of a pair, deep copies, the loop over the pairs. *)
From Verif Require Import Base M_BioGP Spec_BioGP P_BioGP P_BioGP2 P_BioGP3.
From Coq Require Import Permutation.
Open Scope nat_scope.

Section X.
Context {F T : Type}.
Notation heap := (heap F T).
Notation tree := (tree F T).
Implicit Types (h : heap) (t : itree).

(** What one crossover did: at most one exchange of subtrees. *)
Definition exchanged (m : xmode) (g1 g2 g1' g2' : tree) : Prop :=
  match m with
  | NoXover => g1' = g1 /\ g2' = g2
  | _ => exists n1 n2 s1 s2, replaced s1 s2 n1 g1 g1' /\ replaced s2 s1 n2 g2 g2' /\ (m = HeightFair -> n1 = n2) /\ (m = Standard -> 0 < n1 /\ 0 < n2)
  end.
Lemma refresh fuel h r t : forms h r t -> length (ids t) <= fuel -> c_depth (h r) = 0 ->
  exists h' l, get_sub_nodes fuel h r = Some (h', l) /\ held h' (r, l) t /\ read h' t = read h t /\ (forall i, ~ In i (ids t) -> h' i = h i) /\ (forall i, c_val (h' i) = c_val (h i) /\ c_roots (h' i) = c_roots (h i)).
Proof. intros A B C. destruct (get_sub_nodes_spec h r t fuel A B C) as (h' & l & E1 & E2 & E3 & E4 & E5 & E6). exists h', l. split; auto. split; [split; auto|]. auto. Qed.

Lemma swap_depth h a b x : c_depth (swap h a b x) = c_depth (h x).
Proof.
  destruct (Nat.eq_dec a b) as [<-|N].
  - unfold swap, upd. destruct (Nat.eqb x a) eqn:E; auto. apply Nat.eqb_eq in E. subst. rewrite !Nat.eqb_refl. reflexivity.
  - destruct (Nat.eq_dec x a) as [->|N1]; [rewrite swap_a; auto|]. destruct (Nat.eq_dec x b) as [->|N2]; [rewrite swap_b; auto|]. rewrite swap_other; auto.
Qed.
Lemma nodes_at_depth_ne h x t d : held h x t -> d <= total_depth h (snd x) -> nodes_at_depth h (snd x) d <> [].
Proof.
  intros (A & B) Hd. assert (Lv : exists i, In i (level_of t d)).
  { unfold total_depth in Hd. assert (Ne : snd x <> []) by (destruct B as (_ & B & _); destruct (snd x); [discriminate|congruence]).
    assert (exists i, In i (snd x) /\ c_depth (h i) = list_max (map (fun y => c_depth (h y)) (snd x))).
    { clear - Ne. induction (snd x) as [|y l IH]; [congruence|]. cbn [map list_max]. destruct l as [|z l]; [exists y; simpl; split; auto; rewrite Nat.max_0_r; auto|].
      destruct IH as (i & Hi & E); [congruence|]. change (list_max (c_depth (h y) :: map (fun y0 => c_depth (h y0)) (z :: l))) with (Nat.max (c_depth (h y)) (list_max (map (fun y0 => c_depth (h y0)) (z :: l)))).
      destruct (Nat.max_spec (c_depth (h y)) (list_max (map (fun y0 => c_depth (h y0)) (z :: l)))) as [(_ & ->)|(_ & ->)]; [exists i; split; [right; auto|auto]|exists y; split; [left; auto|auto]]. }
    destruct H as (i & Hi & E). rewrite <- E in Hd. apply (up_In h t _ i B) in Hi. destruct (ids_isub i t Hi) as (ka & n & Sb). rewrite (up_to_date_isub _ _ _ _ _ _ B Sb) in Hd.
    clear - Sb Hd. revert d Hd. induction Sb as [|n r pre k post Sb IH]; intros d Hd.
    - exists i. assert (d = 0) by lia. subst. simpl; auto.
    - destruct d as [|d]; [exists r; simpl; auto|]. destruct (IH d) as (j & Hj); [lia|]. exists j. cbn [level_of]. apply in_flat_map. exists k. split; auto. apply in_or_app; right; left; auto. }
  destruct Lv as (i & Hi). intros E. assert (In i (nodes_at_depth h (snd x) d)); [|rewrite E in H; destruct H].
  apply filter_In. split; [apply (up_In h t _ i B); eapply level_ids; eauto|]. apply Nat.eqb_eq. apply B; auto.
Qed.
Lemma xover_pair_spec fuel m h x1 x2 t1 t2 k1 k2 :
  held h x1 t1 -> held h x2 t2 -> NoDup (ids t1 ++ ids t2) -> length (ids t1 ++ ids t2) <= fuel -> 1 < length (ids t1) -> 1 < length (ids t2) ->
  exists h' l1 l2 t1' t2', xover_pair fuel m h (fst x1) (fst x2) (snd x1) (snd x2) k1 k2 = Ok (h', l1, l2) /\ held h' (fst x1, l1) t1' /\ held h' (fst x2, l2) t2' /\
    Permutation (ids t1' ++ ids t2') (ids t1 ++ ids t2) /\ exchanged m (read h t1) (read h t2) (read h' t1') (read h' t2') /\
    (forall i, ~ In i (ids t1 ++ ids t2) -> h' i = h i).
Proof.
  intros H1 H2 ND Hf Z1 Z2. destruct H1 as (A1 & B1). destruct H2 as (A2 & B2). pose proof A1 as (E1 & L1 & ND1). pose proof A2 as (E2 & L2 & ND2).
  assert (Core : forall a b ka kb n1 n2, isub (Ob a ka) n1 t1 -> isub (Ob b kb) n2 t2 -> (m = HeightFair -> n1 = n2) -> (m = Standard -> 0 < n1 /\ 0 < n2) -> m <> NoXover ->
    exists h' l1 l2 t1' t2', match get_sub_nodes fuel (swap h a b) (fst x1) with None => Err Unmodelled
      | Some (h1, n1) => match get_sub_nodes fuel h1 (fst x2) with None => Err Unmodelled | Some (h2, n2) => Ok (h2, n1, n2) end end = Ok (h', l1, l2) /\ held h' (fst x1, l1) t1' /\ held h' (fst x2, l2) t2' /\
    Permutation (ids t1' ++ ids t2') (ids t1 ++ ids t2) /\ exchanged m (read h t1) (read h t2) (read h' t1') (read h' t2') /\ (forall i, ~ In i (ids t1 ++ ids t2) -> h' i = h i)).
  { intros a b ka kb n1 n2 S1 S2 Hm1 Hm2 Hm3. destruct (exchange h t1 t2 a b ka kb n1 n2 L1 L2 ND S1 S2) as (t1' & t2' & C1 & C2 & C3 & C4 & C5 & C6 & C7 & C8).
    pose proof (NoDup_app_parts _ _ C3) as (N1 & N2 & N3). pose proof (Permutation_length C6) as Lp. rewrite app_length in Lp, Hf. rewrite app_length in Lp.
    destruct (refresh fuel (swap h a b) (fst x1) t1') as (h1 & l1 & G1 & G2 & G3 & G4 & G5).
    { split; [congruence|split; auto]. } { lia. } { rewrite swap_depth. eapply forms_up_depth; eauto. }
    assert (Same2 : forall i, In i (ids t2') -> h1 i = swap h a b i) by (intros i Hi; apply G4; intros X; apply (N3 i); auto).
    destruct (refresh fuel h1 (fst x2) t2') as (h2 & l2 & K1 & K2 & K3 & K4 & K5).
    { apply (same_forms (swap h a b)); auto. split; [congruence|split; auto]. } { lia. }
    { rewrite Same2 by (rewrite <- E2, <- C5; apply In_ids). rewrite swap_depth. eapply forms_up_depth; eauto. }
    assert (Same1 : forall i, In i (ids t1') -> h2 i = h1 i) by (intros i Hi; apply K4; intros X; apply (N3 i); auto).
    exists h2, l1, l2, t1', t2'. rewrite G1, K1. split; auto. split; [destruct G2 as (G2 & G2'); split; [eapply same_forms; eauto|eapply same_up; eauto]|]. split; auto. split; auto.
    assert (R1 : read h2 t1' = read (swap h a b) t1') by (rewrite (same_read h1 h2); auto).
    assert (R2 : read h2 t2' = read (swap h a b) t2') by (rewrite K3; apply same_read; auto).
    split.
    - rewrite R1, R2. destruct m; [| |congruence]; (exists n1, n2, (read h (Ob a ka)), (read h (Ob b kb)); split; [auto|split; [auto|split; auto]]).
    - intros i Hi. assert (Hi' : ~ In i (ids t1' ++ ids t2')) by (intros X; apply Hi; eapply Permutation_in; eauto).
      rewrite K4 by (intros X; apply Hi', in_or_app; auto). rewrite G4 by (intros X; apply Hi', in_or_app; auto).
      apply swap_other; intros ->; apply Hi, in_or_app; [left; apply (isub_ids _ _ _ S1)|right; apply (isub_ids _ _ _ S2)]; simpl; auto. }
  unfold xover_pair. destruct m.
  - set (d := Nat.min (total_depth h (snd x1)) (total_depth h (snd x2))).
    destruct (choose_node_total k1 (nodes_at_depth h (snd x1) d)) as (a & Ea). { apply (nodes_at_depth_ne h x1 t1); [split; auto|apply Nat.le_min_l]. }
    destruct (choose_node_total k2 (nodes_at_depth h (snd x2) d)) as (b & Eb). { apply (nodes_at_depth_ne h x2 t2); [split; auto|apply Nat.le_min_r]. }
    rewrite Ea, Eb. cbn [bind]. apply choose_node_In in Ea, Eb. apply filter_In in Ea, Eb. destruct Ea as (Ia & Da). destruct Eb as (Ib & Db). apply Nat.eqb_eq in Da, Db.
    apply (up_In h t1 _ a B1) in Ia. apply (up_In h t2 _ b B2) in Ib. destruct (ids_isub a t1 Ia) as (ka & n1 & S1). destruct (ids_isub b t2 Ib) as (kb & n2 & S2).
    pose proof (up_to_date_isub _ _ _ _ _ _ B1 S1) as Q1. pose proof (up_to_date_isub _ _ _ _ _ _ B2 S2) as Q2.
    apply (Core a b ka kb n1 n2 S1 S2); [congruence|discriminate|discriminate].
  - assert (Ne : forall x t, held h x t -> 1 < length (ids t) -> tl (snd x) <> []).
    { intros x t (A & P & Hh & _) Z. apply Permutation_length in P. destruct (snd x) as [|y [|z l]]; simpl in *; [lia|lia|congruence]. }
    destruct (choose_node_total k1 (tl (snd x1))) as (a & Ea). { apply (Ne x1 t1); [split; auto|auto]. }
    destruct (choose_node_total k2 (tl (snd x2))) as (b & Eb). { apply (Ne x2 t2); [split; auto|auto]. }
    rewrite Ea, Eb. cbn [bind]. apply choose_node_In in Ea, Eb. apply (up_tl h _ t1 _ a A1 B1) in Ea. apply (up_tl h _ t2 _ b A2 B2) in Eb. destruct Ea as (Ia & Da). destruct Eb as (Ib & Db).
    destruct (ids_isub a t1 Ia) as (ka & n1 & S1). destruct (ids_isub b t2 Ib) as (kb & n2 & S2).
    apply (Core a b ka kb n1 n2 S1 S2); [discriminate| |discriminate]. intros _. split.
    + destruct n1; [|lia]. inversion S1; subst. simpl in *. congruence.
    + destruct n2; [|lia]. inversion S2; subst. simpl in *. congruence.
  - exists h, (snd x1), (snd x2), t1, t2. split; auto. split; [split; auto|]. split; [split; auto|]. split; auto. split; [simpl; auto|auto].
Qed.

(** *** Deep copies *)
Lemma all_some_map {A B} (f : A -> option B) (g : A -> B) l : (forall x, In x l -> f x = Some (g x)) -> all_some (map f l) = Some (map g l).
Proof. induction l as [|x l IH]; intros H; simpl; auto. rewrite H by (left; auto). rewrite IH by (intros y Hy; apply H; right; auto). auto. Qed.
Lemma snap_spec h : forall t fuel, linked h t -> length (ids t) <= fuel -> snap fuel h (oid t) = Some (read h t).
Proof.
  apply (itree_ind' (fun t => forall fuel, linked h t -> length (ids t) <= fuel -> snap fuel h (oid t) = Some (read h t))). intros i kids IH [|f] L Hf; [simpl in Hf; lia|].
  apply linked_kids in L. destruct L as (E & L). cbn [snap oid read]. rewrite E, map_map. rewrite (all_some_map (fun k => snap f h (oid k)) (read h) kids); auto. intros k Hk. apply IH; auto.
  simpl in Hf. assert (length (ids k) <= length (flat_map ids kids)); [|lia]. destruct (in_split _ _ Hk) as (pre & post & ->). rewrite flat_map_app', app_length. simpl. rewrite app_length. lia.
Qed.
Lemma read_size h : forall t, length (values (read h t)) = length (ids t).
Proof. intros t. rewrite values_read, map_length. auto. Qed.
Lemma alloc_depth : forall (g : tree) h next depth h' n', alloc h next depth g = (h', n') -> c_depth (h' next) = depth.
Proof. intros [v kids] h next depth h' n' E. rewrite alloc_eq in E. destruct (allocs h (S next) (S depth) kids) as ((h1, n1), is). injection E as <- _. unfold upd. rewrite Nat.eqb_refl. auto. Qed.
Lemma deepcopy_spec fuel h next x t : held h x t -> length (ids t) <= fuel ->
  exists h' n' x' t', deepcopy fuel h next x = Ok (h', n', x') /\ held h' x' t' /\ read h' t' = read h t /\ fst x' = next /\
    (forall i, In i (ids t') -> next <= i < n') /\ (forall i, i < next \/ n' <= i -> h' i = h i) /\ length (ids t') = length (ids t) /\ next < n'.
Proof.
  intros ((E & L & ND) & B) Hf. unfold deepcopy. rewrite <- E, (snap_spec h t fuel L Hf). destruct (alloc_spec (read h t) h next 0) as (h1 & n1 & t' & Ea & (G1 & G2 & G3 & G4 & G5 & G6) & G7). rewrite Ea.
  assert (Sz : length (ids t') = length (ids t)) by (rewrite <- (read_size h1 t'), G7, read_size; auto).
  destruct (refresh fuel h1 next t') as (h2 & l & K1 & K2 & K3 & K4 & K5). { split; auto. } { lia. } { eapply alloc_depth; eauto. }
  exists h2, n1, (next, l), t'. rewrite K1. split; auto. split; auto. split; [congruence|]. split; auto. split; auto. split; [|auto].
  intros i Hi. rewrite K4 by (intros X; apply G5 in X; lia). auto.
Qed.

(** *** The loop over the pairs *)
Definition in_range (lo hi : nat) (t : itree) : Prop := forall i, In i (ids t) -> lo <= i < hi.
Definition two_offspring (m : xmode) (gs gs' : list tree) (p : nat * nat) (k : nat) : Prop :=
  exists g1 g2 g1' g2', nth_error gs (fst p) = Some g1 /\ nth_error gs (snd p) = Some g2 /\ nth_error gs' (2 * k) = Some g1' /\ nth_error gs' (2 * k + 1) = Some g2' /\ exchanged m g1 g2 g1' g2'.
Lemma held_frame h h' x t : held h x t -> (forall i, In i (ids t) -> h' i = h i) -> held h' x t.
Proof. intros (A & B) E. split; [eapply same_forms; eauto|eapply same_up; eauto]. Qed.
Lemma Forall2_nth_error {A B} (P : A -> B -> Prop) l l' x a : Forall2 P l l' -> nth_error l x = Some a -> exists b, nth_error l' x = Some b /\ P a b.
Proof. intros H. revert x. induction H; intros [|x0] E; simpl in *; try discriminate; [injection E as <-; eauto|eauto]. Qed.
Lemma Forall2_len {A B} (P : A -> B -> Prop) l l' : Forall2 P l l' -> length l = length l'.
Proof. induction 1; simpl; auto. Qed.
Lemma xover_do_spec fuel m ks (pop : list ind) ts : forall pairs h next q,
  Forall2 (held h) pop ts -> (forall t, In t ts -> 1 < length (ids t) /\ 2 * length (ids t) <= fuel) -> (forall t, In t ts -> in_range 0 next t) ->
  (forall p, In p pairs -> fst p < length pop /\ snd p < length pop) ->
  (forall p q t1 t2, In p pairs -> q = snd p -> nth_error ts (fst p) = Some t1 -> nth_error ts q = Some t2 -> length (ids t1) + length (ids t2) <= fuel) ->
  exists h' next' off ts', xover_do fuel m h next pop pairs ks q = Ok (h', next', off) /\ Forall2 (held h') off ts' /\ length off = 2 * length pairs /\
    next <= next' /\ (forall i, i < next \/ next' <= i -> h' i = h i) /\ (forall t, In t ts' -> in_range next next' t) /\ NoDup (flat_map ids ts') /\
    (forall k p, nth_error pairs k = Some p -> two_offspring m (map (read h) ts) (map (read h') ts') p k).
Proof.
  induction pairs as [|[x y] pairs IH]; intros h next q Hp Hs Hr Hi Hz; cbn [xover_do].
  { exists h, next, [], []. split; auto. split; [constructor|]. split; auto. split; auto. split; auto. split; [intros t []|]. split; [constructor|]. intros [|k] p E; discriminate. }
  destruct (Hi (x, y) (or_introl eq_refl)) as (Hx & Hy). simpl in Hx, Hy.
  assert (G : forall z, z < length pop -> exists p t, getind pop z = Ok p /\ nth_error ts z = Some t /\ held h p t).
  { intros z Hlt. unfold getind. destruct (nth_error pop z) as [p|] eqn:E; [|apply nth_error_None in E; lia]. destruct (Forall2_nth_error _ _ _ _ _ Hp E) as (t & Et & Ht). eauto. }
  destruct (G x Hx) as (p1 & t1 & -> & Et1 & Hd1). destruct (G y Hy) as (p2 & t2 & Ey & Et2 & Hd2). cbn [bind].
  pose proof (nth_error_In _ _ Et1) as In1. pose proof (nth_error_In _ _ Et2) as In2.
  destruct (deepcopy_spec fuel h next p1 t1 Hd1) as (h1 & n1 & o1 & c1 & -> & Ho1 & Ro1 & Fo1 & Bo1 & Fr1 & Sz1 & Lt1). { pose proof (Hs t1 In1). lia. }
  cbn [bind]. rewrite Ey. cbn [bind].
  assert (Same : forall i, i < next -> h1 i = h i) by (intros i Hlt; apply Fr1; auto).
  destruct (deepcopy_spec fuel h1 n1 p2 t2) as (h2 & n2 & o2 & c2 & -> & Ho2 & Ro2 & Fo2 & Bo2 & Fr2 & Sz2 & Lt2).
  { apply (held_frame h); auto. intros i Hii. apply Same. apply (Hr t2 In2 i Hii). } { pose proof (Hs t2 In2). lia. }
  cbn [bind].
  assert (Ho1' : held h2 o1 c1) by (apply (held_frame h1); auto; intros i Hii; apply Fr2; apply Bo1 in Hii; lia).
  assert (NDc : NoDup (ids c1 ++ ids c2)).
  { assert (D : forall i, In i (ids c1) -> ~ In i (ids c2)) by (intros i A B; apply Bo1 in A; apply Bo2 in B; lia). destruct Ho1 as ((_ & _ & N1) & _). destruct Ho2 as ((_ & _ & N2) & _). clear - D N1 N2.
    induction (ids c1) as [|z l IHl]; simpl; auto. inversion N1; subst. constructor; [|apply IHl; auto; intros i Hi; apply D; right; auto]. intros X. apply in_app_or in X. destruct X as [X|X]; auto. apply (D z); [left; auto|auto]. }
  destruct (xover_pair_spec fuel m h2 o1 o2 c1 c2 (fst (ks q)) (snd (ks q)) Ho1' Ho2 NDc) as (h3 & l1 & l2 & c1' & c2' & -> & Hc1 & Hc2 & Pc & Ex & Fr3).
  { rewrite app_length, Sz1, Sz2. apply (Hz (x, y) y t1 t2); auto. left; auto. } { rewrite Sz1. apply Hs; auto. } { rewrite Sz2. apply Hs; auto. }
  cbn [bind].
  assert (Bc : forall i, In i (ids c1' ++ ids c2') -> next <= i < n2).
  { intros i Hii. apply (Permutation_in _ Pc) in Hii. apply in_app_or in Hii. destruct Hii as [A|A]; [apply Bo1 in A|apply Bo2 in A]; lia. }
  assert (Fr : forall i, i < next \/ n2 <= i -> h3 i = h i).
  { intros i Hii. rewrite Fr3; [|intros X; apply (Permutation_in _ (Permutation_sym Pc)) in X; apply Bc in X; lia]. rewrite Fr2 by lia. apply Fr1. lia. }
  assert (Same3 : forall t, In t ts -> forall i, In i (ids t) -> h3 i = h i) by (intros t Ht i Hii; apply Fr; pose proof (Hr t Ht i Hii); lia).
  destruct (IH h3 n2 (S q)) as (h4 & n4 & off & ts' & -> & Q1 & Q2 & Q3 & Q4 & Q5 & Q6 & Q7).
  { clear - Hp Same3. induction Hp as [|p t pop ts Hpt Hp IHp]; constructor; [apply (held_frame h); auto; apply Same3; left; auto|apply IHp; intros t0 Ht0; apply Same3; right; auto]. }
  { auto. } { intros t Ht i Hii. pose proof (Hr t Ht i Hii). lia. } { intros p Hin. apply Hi. right; auto. } { intros p q0 a b Hin. apply Hz. right; auto. }
  cbn [bind]. exists h4, n4, ((fst o1, l1) :: (fst o2, l2) :: off), (c1' :: c2' :: ts'). split; auto.
  assert (F4 : forall i, In i (ids c1' ++ ids c2') -> h4 i = h3 i) by (intros i Hii; apply Q4; apply Bc in Hii; lia).
  split. { constructor; [apply (held_frame h3); auto; intros i Hii; apply F4, in_or_app; auto|]. constructor; auto. apply (held_frame h3); auto. intros i Hii. apply F4, in_or_app; auto. }
  split; [simpl; lia|]. split; [lia|]. split; [intros i Hii; rewrite Q4 by lia; apply Fr; lia|]. split.
  { intros t [<-|[<-|Ht]] i Hii; [assert (next <= i < n2) by (apply Bc, in_or_app; auto); lia|assert (next <= i < n2) by (apply Bc, in_or_app; auto); lia|]. pose proof (Q5 t Ht i Hii). lia. }
  split.
  { cbn [flat_map]. rewrite app_assoc. assert (NDc' : NoDup (ids c1' ++ ids c2')) by (eapply Permutation_NoDup; [apply Permutation_sym; exact Pc|auto]).
    assert (D : forall i, In i (ids c1' ++ ids c2') -> ~ In i (flat_map ids ts')).
    { intros i A B. apply Bc in A. apply in_flat_map in B. destruct B as (t & Ht & B). pose proof (Q5 t Ht i B). lia. }
    revert NDc' D. generalize (ids c1' ++ ids c2') as l. induction l as [|z l IHl]; intros A B; simpl; auto. inversion A; subst. constructor; [|apply IHl; auto; intros i Hii; apply B; right; auto].
    intros X. apply in_app_or in X. destruct X as [X|X]; auto. apply (B z); simpl; auto. }
  intros [|k] p E.
  - injection E as <-. exists (read h t1), (read h t2), (read h4 c1'), (read h4 c2'). cbn [fst snd]. rewrite !nth_error_map, Et1, Et2. split; auto. split; auto. split; auto. split; auto.
    rewrite (same_read h3 h4 c1') by (intros i Hii; apply F4, in_or_app; auto). rewrite (same_read h3 h4 c2') by (intros i Hii; apply F4, in_or_app; auto).
    assert (R1 : read h2 c1 = read h t1) by (rewrite <- Ro1; apply same_read; intros i Hii; apply Fr2; apply Bo1 in Hii; lia).
    assert (R2 : read h2 c2 = read h t2) by (rewrite Ro2; apply same_read; intros i Hii; apply Same; apply (Hr t2 In2 i Hii)).
    rewrite R1, R2 in Ex. exact Ex.
  - cbn [nth_error] in E. destruct (Q7 k p E) as (g1 & g2 & g1' & g2' & A & B & C & D & X). exists g1, g2, g1', g2'.
    replace (map (read h) ts) with (map (read h3) ts). 2:{ apply map_ext_in. intros t Ht. apply same_read. apply Same3; auto. }
    split; auto. split; auto. replace (2 * S k) with (S (S (2 * k))) by lia. replace (S (S (2 * k)) + 1) with (S (S (2 * k + 1))) by lia. cbn [map nth_error]. auto.
Qed.
End X.
