From Verif Require Import Base RVec M_APD P_APD M_NSGA3 Spec_Fronts.
From Coq Require Import Reals Lra Permutation.
Open Scope nat_scope.

(** ** Niching *)
Lemma fold_min_spec l : forall a, fold_left Nat.min l a <= a /\ (forall x, In x l -> fold_left Nat.min l a <= x) /\
  (fold_left Nat.min l a = a \/ In (fold_left Nat.min l a) l).
Proof.
  induction l as [|x l IH]; intros a; simpl.
  - repeat split; auto. intros x [].
  - destruct (IH (Nat.min a x)) as (A & B & C). split; [lia|]. split.
    + intros y [<-|Hy]; [lia|auto].
    + destruct C as [C|C]; [|auto]. rewrite C. destruct (Nat.min_dec a x) as [->|E]; [auto|rewrite E; auto].
Qed.

Definition shuffles (rng : rng3) : Prop := forall t l, Permutation (r_shuf rng t l) l.

Section Niching.
Context (rng : rng3) (n_dirs : nat) (niches : list nat) (dists : list R).
Hypothesis SH : shuffles rng.
Hypothesis Hn : forall k, In k niches -> k < n_dirs.

Notation nf i := (nth i niches O).
Notation df i := (nth i dists 0%R).

Lemma niche_pick_spec t counts mask :
  length mask = length niches -> (exists i, nth i mask false = true) ->
  exists x k, niche_pick rng n_dirs niches dists t counts mask = Ok (x, k) /\
    nth x mask false = true /\ nf x = k /\ k < n_dirs /\
    (forall y, nth y mask false = true -> nth k counts O <= nth (nf y) counts O) /\
    (nth k counts O = 0 -> forall y, nth y mask false = true -> nf y = k -> (df x <= df y)%R).
Proof.
  intros Lm (i0 & Hi0). unfold niche_pick.
  assert (Hlt : forall i, nth i mask false = true -> i < length mask).
  { intros i Hi. destruct (lt_dec i (length mask)); auto. rewrite nth_overflow in Hi by lia. discriminate. }
  assert (Hav : forall k i, In i (filter (available niches mask k) (seq 0 (length mask))) <-> nth i mask false = true /\ nf i = k).
  { intros k i. rewrite filter_In, in_seq. unfold available. rewrite andb_true_iff, Nat.eqb_eq. split; [tauto|].
    intros [A B]. split; [split; [lia|simpl; auto]|auto]. }
  set (nexts := filter (fun k => existsb (available niches mask k) (seq 0 (length mask))) (seq 0 n_dirs)).
  assert (Hnx : forall k, In k nexts <-> k < n_dirs /\ exists i, nth i mask false = true /\ nf i = k).
  { intros k. unfold nexts. rewrite filter_In, in_seq, existsb_exists. split.
    - intros [[_ A] (i & B & C)]. split; [auto|]. exists i. apply Hav. apply filter_In. auto.
    - intros [A (i & B)]. split; [lia|]. exists i. apply Hav in B. apply filter_In in B. auto. }
  assert (Hin : forall i, nth i mask false = true -> In (nf i) nexts).
  { intros i Hi. apply Hnx. split; [|eauto]. apply Hn. apply nth_In. rewrite <- Lm. auto. }
  pose proof (Hin i0 Hi0) as H0. destruct nexts as [|k0 ks] eqn:En; [destruct H0|].
  set (least := fold_left Nat.min (map (fun k => nth k counts O) ks) (nth k0 counts O)).
  destruct (fold_min_spec (map (fun k => nth k counts O) ks) (nth k0 counts O)) as (F1 & F2 & F3). fold least in F1, F2, F3.
  assert (Hleast : forall k, In k (k0 :: ks) -> least <= nth k counts O).
  { intros k [<-|Hk]; auto. apply F2. apply (in_map (fun k => nth k counts O)); auto. }
  set (ties := filter (fun k => nth k counts O =? least) (k0 :: ks)).
  assert (Ht : ties <> []).
  { assert (exists k, In k (k0 :: ks) /\ nth k counts O = least) as (k & Hk & Ek).
    { destruct F3 as [F3|F3]; [exists k0; split; [left|]; auto|]. apply in_map_iff in F3. destruct F3 as (k & E & Hk).
      exists k; split; [right|]; auto. }
    intros E. assert (I : In k ties) by (apply filter_In; split; [auto|apply Nat.eqb_eq; auto]). rewrite E in I. destruct I. }
  set (k := nth (r_pick rng t mod length ties) ties O).
  assert (Hk : In k ties).
  { apply nth_In. apply Nat.mod_upper_bound. destruct ties; [congruence|discriminate]. }
  apply filter_In in Hk. destruct Hk as [Hk1 Hk2]. apply Nat.eqb_eq in Hk2.
  pose proof (proj1 (Hnx k) Hk1) as (Hkd & i1 & Hi1 & Ni1).
  set (inds0 := filter (available niches mask k) (seq 0 (length mask))).
  set (inds := r_shuf rng t inds0).
  assert (Hinds : forall i, In i inds <-> nth i mask false = true /\ nf i = k).
  { intros i. rewrite <- Hav. split; apply Permutation_in; [apply SH|symmetry; apply SH]. }
  assert (Hmin : forall y, nth y mask false = true -> nth k counts O <= nth (nf y) counts O).
  { intros y Hy. rewrite Hk2. apply Hleast. auto. }
  assert (Hne : inds <> []).
  { intros E. assert (I : In i1 inds) by (apply Hinds; auto). rewrite E in I. destruct I. }
  destruct (Nat.eqb_spec (nth k counts O) 0) as [Ez|Ez].
  - destruct (argmin_some (map (fun i => df i) inds)) as (j & Ej).
    { destruct inds; [congruence|discriminate]. }
    rewrite Ej. destruct (argmin_spec _ _ Ej) as (v & Hv & Hall & _). rewrite nth_error_map in Hv.
    destruct (nth_error inds j) as [x|] eqn:Ex; [|discriminate]. injection Hv as <-.
    rewrite (nth_error_nth inds j O Ex). apply nth_error_In in Ex. apply Hinds in Ex. destruct Ex as [Ex1 Ex2].
    exists x, k. split; [reflexivity|]. split; [auto|]. split; [auto|]. split; [auto|]. split; [auto|].
    intros _ y Hy Ny. apply Hall. apply (in_map (fun i => df i)). apply Hinds. auto.
  - destruct inds as [|x inds'] eqn:E; [congruence|]. assert (I : In x (x :: inds')) by (left; auto). apply Hinds in I.
    destruct I as [I1 I2]. exists x, k. split; [reflexivity|]. repeat split; auto. intros; congruence.
Qed.

(** Sequences of picks in which every pick is right. *)
Inductive good : (nat -> nat) -> (nat -> Prop) -> list nat -> Prop :=
| good_nil c a : good c a []
| good_cons (c : nat -> nat) (a : nat -> Prop) x l :
    a x -> (forall y, a y -> c (nf x) <= c (nf y)) ->
    (c (nf x) = 0 -> forall y, a y -> nf y = nf x -> (df x <= df y)%R) ->
    good (fun k => if Nat.eqb k (nf x) then S (c k) else c k) (fun y => a y /\ y <> x) l -> good c a (x :: l).

Lemma good_ext c c' a a' l : (forall k, k < n_dirs -> c k = c' k) -> (forall y, a y <-> a' y) -> (forall y, a y -> nf y < n_dirs) -> good c a l -> good c' a' l.
Proof.
  intros Hc Ha Hb G. revert c' a' Hc Ha. induction G as [|c a x l G1 G2 G3 G4 IH]; intros c' a' Hc Ha; [constructor|].
  constructor.
  - apply Ha; auto.
  - intros y Hy. apply Ha in Hy. rewrite <- !Hc by auto. auto.
  - intros E y Hy. apply Ha in Hy. rewrite <- Hc in E by auto. auto.
  - apply IH.
    + intros y [Hy _]. auto.
    + intros k Hk. rewrite Hc by auto. reflexivity.
    + intros y. rewrite Ha. tauto.
Qed.

Lemma count_true_set mask x : nth x mask false = true ->
  count_occ Bool.bool_dec mask true = S (count_occ Bool.bool_dec (set_nth x false mask) true).
Proof.
  revert x; induction mask as [|b m IH]; intros [|x] H; simpl in *; try discriminate.
  - subst b. simpl. destruct (Bool.bool_dec true true); [|congruence]. destruct (Bool.bool_dec false true); [discriminate|auto].
  - rewrite (IH x H). destruct (Bool.bool_dec b true); auto.
Qed.
Lemma nth_set_nth_false x mask y : nth y (set_nth x false mask) false = if Nat.eqb x y then false else nth y mask false.
Proof.
  rewrite <- !(nth_default_eq y). unfold nth_default. rewrite nth_error_set_nth.
  destruct (Nat.eqb x y); [destruct (Nat.ltb y (length mask)); auto|auto].
Qed.

Lemma niching_good r : forall t counts mask,
  length mask = length niches -> length counts = n_dirs -> r <= count_occ Bool.bool_dec mask true ->
  exists l, niching rng n_dirs niches dists r t counts mask = Ok l /\ length l = r /\
    good (fun k => nth k counts O) (fun i => nth i mask false = true) l.
Proof.
  induction r as [|r IH]; intros t counts mask Lm Lc Hr.
  - exists []. repeat split; auto. constructor.
  - cbn [niching].
    assert (Hex : exists i, nth i mask false = true).
    { assert (I : In true mask) by (apply (count_occ_In Bool.bool_dec); lia). apply (In_nth _ _ false) in I. destruct I as (i & _ & E). eauto. }
    destruct (niche_pick_spec t counts mask Lm Hex) as (x & k & E & Hx & Nx & Hk & Hmin & Hd). rewrite E. cbn [bind fst snd].
    destruct (IH (S t) (set_nth k (S (nth k counts O)) counts) (set_nth x false mask)) as (l & El & Ll & G).
    { rewrite length_set_nth; auto. } { rewrite length_set_nth; auto. }
    { pose proof (count_true_set mask x Hx). lia. }
    rewrite El. exists (x :: l). split; [reflexivity|]. split; [simpl; lia|]. subst k. constructor; auto.
    eapply good_ext; [| | |exact G].
    + intros k Hkd. cbn beta. rewrite <- !(nth_default_eq k), <- !(nth_default_eq (nf x)). unfold nth_default. rewrite nth_error_set_nth, (Nat.eqb_sym k).
      destruct (Nat.eqb_spec (nf x) k) as [<-|]; auto. destruct (Nat.ltb_spec (nf x) (length counts)); [auto|lia].
    + intros y. cbn beta. rewrite nth_set_nth_false. destruct (Nat.eqb_spec x y) as [<-|].
      * split; [discriminate|intros [_ []]; auto].
      * split; [intros; split; auto|tauto].
    + intros y Hy. cbn beta in Hy. apply Hn. apply nth_In. destruct (lt_dec y (length niches)); auto.
      rewrite nth_overflow in Hy by (rewrite length_set_nth; lia). discriminate.
Qed.

Lemma good_avail c a l : good c a l -> NoDup l /\ forall x, In x l -> a x.
Proof.
  induction 1 as [|c a x l G1 G2 G3 G4 [IH1 IH2]]; [split; [constructor|intros x []]|]. split.
  - constructor; auto. intros I. apply IH2 in I. tauto.
  - intros y [<-|Hy]; auto. apply IH2 in Hy. tauto.
Qed.

Lemma good_nth c a l t x : good c a l -> nth_error l t = Some x ->
  a x /\ (forall y, a y -> ~ In y (firstn t l) ->
    c (nf x) + count_occ Nat.eq_dec (map (fun i => nf i) (firstn t l)) (nf x) <= c (nf y) + count_occ Nat.eq_dec (map (fun i => nf i) (firstn t l)) (nf y)) /\
  (c (nf x) + count_occ Nat.eq_dec (map (fun i => nf i) (firstn t l)) (nf x) = 0 ->
   forall y, a y -> ~ In y (firstn t l) -> nf y = nf x -> (df x <= df y)%R).
Proof.
  intros G; revert t x. induction G as [|c a z l G1 G2 G3 G4 IH]; intros [|t] x H; cbn [nth_error] in H; try discriminate.
  - injection H as <-. cbn [firstn map count_occ]. split; [auto|]. split.
    + intros y Hy _. rewrite !Nat.add_0_r. auto.
    + rewrite Nat.add_0_r. intros E y Hy _. auto.
  - destruct (IH t x H) as ([A1 A2] & B & C). cbn beta in B, C.
    assert (S1 : forall k, (if Nat.eqb k (nf z) then S (c k) else c k) + count_occ Nat.eq_dec (map (fun i => nf i) (firstn t l)) k =
                           c k + count_occ Nat.eq_dec (map (fun i => nf i) (firstn (S t) (z :: l))) k).
    { intros k. cbn [firstn map count_occ]. rewrite Nat.eqb_sym. destruct (Nat.eqb_spec (nf z) k) as [E|E]; destruct (Nat.eq_dec (nf z) k); try congruence; lia. }
    split; [exact A1|]. split.
    + intros y Hy Ny. rewrite <- !S1. apply B; [split; auto|]; intros N; apply Ny; subst; [left; auto|right; auto].
    + rewrite <- S1. intros E y Hy Ny Ey. apply C; auto; [split; auto|]; intros N; apply Ny; subst; [left; auto|right; auto].
Qed.
End Niching.

(** ** Fronts *)
Lemma cut_fronts_spec need fronts : forall acc, 
  match cut_fronts need acc fronts with
  | Some (before, last) => exists pre post, fronts = pre ++ last :: post /\ before = acc ++ pre /\
      need <= length (concat (before ++ [last])) /\
      (pre = [] \/ length (concat before) < need)
  | None => fronts = [] \/ length (concat (acc ++ fronts)) < need
  end.
Proof.
  induction fronts as [|f t IH]; intros acc; cbn [cut_fronts]; [auto|].
  destruct (Nat.ltb_spec (length (concat (acc ++ [f]))) need) as [H|H].
  - specialize (IH (acc ++ [f])). destruct (cut_fronts need (acc ++ [f]) t) as [[before last]|].
    + destruct IH as (pre & post & E1 & E2 & E3 & E4). exists (f :: pre), post. subst t before.
      replace ((acc ++ [f]) ++ pre) with (acc ++ f :: pre) in * by (rewrite <- app_assoc; reflexivity).
      split; [auto|]. split; [auto|]. split; [auto|]. right. destruct E4 as [->|E4]; auto.
    + right. destruct IH as [->|IH]; [auto|]. rewrite <- app_assoc in IH. exact IH.
  - exists [], t. rewrite app_nil_r. repeat split; auto.
Qed.

Lemma count_occ_repeat_true n : count_occ Bool.bool_dec (repeat true n) true = n.
Proof. induction n; simpl; auto. Qed.
Lemma nth_repeat_true n i : nth i (repeat true n) false = true <-> i < n.
Proof.
  rewrite <- (nth_default_eq i). unfold nth_default. rewrite nth_error_repeat'. destruct (Nat.ltb_spec i n); split; auto; try discriminate; lia.
Qed.

Lemma NoDup_map_nth (l : list nat) (s : list nat) : NoDup l -> NoDup s -> (forall i, In i s -> i < length l) -> NoDup (map (fun i => nth i l O) s).
Proof.
  intros Hl; induction 1 as [|x s Hx Hs IH]; intros Hi; simpl; [constructor|]. constructor.
  - rewrite in_map_iff. intros (y & E & Hy). apply Hx.
    assert (y = x); [|subst; auto]. eapply (proj1 (NoDup_nth l O)); auto; apply Hi; [right|left]; auto.
  - apply IH. intros; apply Hi; right; auto.
Qed.

Lemma NoDup_app_l {A} (l l' : list A) : NoDup (l ++ l') -> NoDup l.
Proof. induction l; simpl; intros H; [constructor|]. inversion H; subst. constructor; auto. intros I. apply H2, in_app_iff; auto. Qed.
Lemma NoDup_app_r {A} (l l' : list A) : NoDup (l ++ l') -> NoDup l'.
Proof. induction l; simpl; auto. intros H. inversion H; auto. Qed.
Lemma NoDup_app_disj {A} (l l' : list A) x : NoDup (l ++ l') -> In x l -> In x l' -> False.
Proof. induction l; simpl; intros H []; inversion H; subst; auto. intros I. apply H3, in_app_iff; auto. Qed.
Lemma NoDup_app_intro {A} (l l' : list A) : NoDup l -> NoDup l' -> (forall x, In x l -> ~ In x l') -> NoDup (l ++ l').
Proof.
  induction 1; simpl; auto. intros N D. constructor; [|apply IHNoDup; auto]. rewrite in_app_iff. intros [|]; [auto|].
  apply (D x); auto.
Qed.

Section Survive.
Context (rng : rng3) (n_survive n_dirs : nat) (niche : nat -> nat) (dist : nat -> R) (fronts : list (list nat)) (n : nat) (dom : nat -> nat -> Prop).
Hypothesis SH : shuffles rng.
Hypothesis Hn : forall i, niche i < n_dirs.
Hypothesis SF : sorted_fronts n dom fronts.

(** Shape of the result: whole fronts [pre], then [added] distinct members of the next one. *)
Lemma survive_shape : n_survive <= n -> 0 < n ->
  exists pre last post added, fronts = pre ++ last :: post /\
    survive rng n_survive n_dirs niche dist fronts = Ok (concat pre ++ added) /\
    length (concat pre ++ added) = n_survive /\ NoDup added /\ (forall x, In x added -> In x last) /\
    (forall t x, nth_error added t = Some x ->
      let prev := concat pre ++ firstn t added in
      (length (concat pre ++ added) < length (concat pre ++ last) ->
       forall y, In y last -> ~ In y prev ->
        count_occ Nat.eq_dec (map niche prev) (niche x) <= count_occ Nat.eq_dec (map niche prev) (niche y) /\
        (count_occ Nat.eq_dec (map niche prev) (niche x) = 0 -> niche y = niche x -> (dist x <= dist y)%R))).
Proof.
  intros Hle Hpos. pose proof (cut_fronts_spec n_survive fronts []) as CS. unfold survive.
  assert (Hlen : length (concat fronts) = n) by (rewrite (Permutation_length (sf_perm _ _ _ SF)); apply seq_length).
  destruct (cut_fronts n_survive [] fronts) as [[before last]|].
  2:{ simpl in CS. destruct CS as [->|CS]; [simpl in Hlen; lia|lia]. }
  destruct CS as (pre & post & E1 & E2 & E3 & E4). simpl in E2. subst before.
  exists pre, last, post.
  assert (ND : NoDup (concat pre ++ last)).
  { assert (N : NoDup (concat fronts)) by (eapply Permutation_NoDup; [symmetry; apply (sf_perm _ _ _ SF)|apply seq_NoDup]).
    rewrite E1, concat_app in N. simpl in N. rewrite app_assoc in N. eapply NoDup_app_l; eauto. }
  assert (NDl : NoDup last) by (eapply NoDup_app_r; eauto).
  assert (Hpre : length (concat pre) <= n_survive) by (destruct E4 as [->|E4]; simpl in *; lia).
  assert (E3' : n_survive <= length (concat pre ++ last)) by (rewrite concat_app in E3; simpl in E3; rewrite app_nil_r in E3; exact E3).
  destruct (Nat.ltb_spec n_survive (length (concat pre ++ last))) as [Hlt|Hge].
  - assert (Hnl : forall k, In k (map niche last) -> k < n_dirs) by (intros k Hk; apply in_map_iff in Hk; destruct Hk as (i & <- & _); auto).
    destruct (niching_good rng n_dirs (map niche last) (map dist last) SH Hnl (n_survive - length (concat pre)) 0
      (niche_counts n_dirs (map niche (concat pre))) (repeat true (length last))) as (l & El & Ll & G).
    { rewrite repeat_length, map_length; auto. }
    { unfold niche_counts. rewrite map_length, seq_length; auto. }
    { rewrite count_occ_repeat_true. rewrite app_length in Hlt. lia. }
    rewrite El. cbn [bind]. exists (map (fun i => nth i last O) l).
    destruct (good_avail _ _ _ _ _ G) as [NDs Av].
    assert (Hl : forall i, In i l -> i < length last) by (intros i Hi; apply nth_repeat_true, Av; auto).
    split; [exact E1|]. split; [reflexivity|]. split; [rewrite app_length, map_length; lia|].
    split; [apply NoDup_map_nth; auto|]. split.
    { intros x Hx. apply in_map_iff in Hx. destruct Hx as (i & <- & Hi). apply nth_In; auto. }
    intros t x Hx _ y Hy. set (prev := concat pre ++ firstn t (map (fun i => nth i last O) l)). intros Ny. rewrite nth_error_map in Hx. destruct (nth_error l t) as [i|] eqn:Ei; [|discriminate]. injection Hx as <-.
    destruct (good_nth _ _ _ _ _ t i G Ei) as (A & B & C). cbn beta in A, B, C.
    assert (NF : forall j, j < length last -> nth j (map niche last) O = niche (nth j last O)).
    { intros j Hj. rewrite (nth_indep _ O (niche O)) by (rewrite map_length; auto). apply map_nth. }
    assert (DF : forall j, j < length last -> nth j (map dist last) 0%R = dist (nth j last O)).
    { intros j Hj. rewrite (nth_indep _ 0%R (dist O)) by (rewrite map_length; auto). apply map_nth. }
    apply nth_repeat_true in A.
    destruct (In_nth _ _ O Hy) as (j & Hj & Ej).
    assert (Nj : ~ In j (firstn t l)).
    { intros I. apply Ny. unfold prev. apply in_app_iff. right. rewrite firstn_map. rewrite <- Ej. apply (in_map (fun i => nth i last O)). exact I. }
    assert (CT : forall k, k < n_dirs -> nth k (niche_counts n_dirs (map niche (concat pre))) O +
         count_occ Nat.eq_dec (map (fun i => nth i (map niche last) O) (firstn t l)) k = count_occ Nat.eq_dec (map niche prev) k).
    { intros k Hk. unfold prev. rewrite map_app, count_occ_app. f_equal.
      - unfold niche_counts. rewrite (nth_indep _ O ((fun k => count_occ Nat.eq_dec (map niche (concat pre)) k) O)) by (rewrite map_length, seq_length; auto).
        rewrite map_nth, seq_nth by auto. reflexivity.
      - f_equal. rewrite firstn_map, map_map. apply map_ext_in. intros q Hq. apply NF. apply Hl.
        rewrite <- (firstn_skipn t l). apply in_app_iff. auto. }
    specialize (B j (proj2 (nth_repeat_true _ _) Hj) Nj). rewrite !CT in B by (rewrite NF; auto). rewrite !NF, Ej in B by auto.
    split; [exact B|]. intros Z Ey. rewrite <- Ej, <- !DF by auto. apply C.
    + rewrite CT by (rewrite NF; auto). rewrite NF by auto. exact Z.
    + apply nth_repeat_true; auto.
    + exact Nj.
    + rewrite !NF, Ej by auto. exact Ey.
  - exists last. repeat split; auto; try lia.
Qed.
End Survive.
