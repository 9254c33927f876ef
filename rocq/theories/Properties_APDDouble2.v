(** C141: a whole selection in double precision. *)
From Coq Require Import Reals Lra Lia Permutation.
From Flocq Require Import Core.
From Verif Require Import Base RVec M_APD P_APD M_Double P_Double M_RefDouble P_RefDouble M_APDDouble P_APDDouble Properties_APDDouble.
Open Scope R_scope.

Lemma assigned_valid t1 t2 vecs tr : vecs <> [] -> (assigned_fl t1 t2 vecs tr < length vecs)%nat.
Proof.
  intros NE. unfold assigned_fl. destruct (argmax_some (map (cosine_fl t1 t2 tr) vecs)) as (k & Hk); [destruct vecs; [congruence|discriminate]|]. rewrite Hk.
  destruct (argmax_spec _ _ Hk) as (c & Hc & _). rewrite <- (map_length (cosine_fl t1 t2 tr) vecs). apply nth_error_Some. congruence.
Qed.
Lemma translated_nonneg z f : Forall2 Rle z f -> length (translated_fl z f) = length f /\ (forall x, In x (translated_fl z f) -> 0 <= x) /\
  forall j a b, nth_error z j = Some a -> nth_error f j = Some b -> nth_error (translated_fl z f) j = Some (fl (b - a)).
Proof.
  unfold translated_fl, vsub. induction 1 as [|a b z f E F (IL & IP & IN)]; [split; [reflexivity|]; split; [intros x []|intros [|j]; discriminate]|]. cbn [vmap2 map length]. split; [congruence|]. split.
  - intros x [<-|Hx]; [rewrite <- fl_0; apply fl_mono; lra|apply IP; exact Hx].
  - intros [|j] c d Hc Hd; cbn [nth_error] in *; [congruence|apply IN; assumption].
Qed.

(** C141. On every population of vectors of one width the selection delivers: an ideal point at most the old one, the problem's and every solution, so that no translated objective is negative - each being the
    difference correctly rounded -; positions of solutions without repetition, at least one; and for each reference vector to which some solution is assigned exactly one of these, of least computed distance. *)
Theorem C141_selection : forall t1 t2 t3 m penalty ideal pop_ideal fit vecs gam, length ideal = m -> length pop_ideal = m -> (forall f, In f fit -> length f = m) -> fit <> [] -> vecs <> [] ->
  exists z s, apd_select_fl t1 t2 t3 penalty ideal pop_ideal fit vecs gam = Ok (z, s) /\
  Forall2 Rle z ideal /\ Forall2 Rle z pop_ideal /\
  (forall f, In f fit -> Forall2 Rle z f /\ (forall x, In x (translated_fl z f) -> 0 <= x) /\ forall j a b, nth_error z j = Some a -> nth_error f j = Some b -> nth_error (translated_fl z f) j = Some (fl (b - a))) /\
  NoDup s /\ s <> [] /\ (forall i, In i s -> (i < length fit)%nat) /\
  let at_vector i k := exists f, nth_error fit i = Some f /\ assigned_fl t1 t2 vecs (translated_fl z f) = k in
  let distance k i := apd_fl t1 t2 t3 penalty vecs (map (translated_fl z) fit) gam k i in
  (forall i, (i < length fit)%nat -> exists k, (k < length vecs)%nat /\ at_vector i k) /\
  forall k i, at_vector i k -> exists c, In c s /\ at_vector c k /\ (forall c', In c' s -> at_vector c' k -> c' = c) /\ forall j, at_vector j k -> distance k c <= distance k j.
Proof.
  intros t1 t2 t3 m p ideal pi fit vecs gam Li Lp Lf NE Nv. destruct (new_ideal_total ideal pi fit NE) as (z & Hz). destruct (new_ideal_spec m ideal pi fit z Li Lp Lf Hz) as (Lz & Z1 & Z2 & Z3 & _).
  unfold apd_select_fl. rewrite Hz. cbn [bind]. set (trs := map (translated_fl z) fit). set (s := flat_map (choose_fl t1 t2 t3 p vecs trs gam) (seq 0 (length vecs))). exists z, s. split; [reflexivity|]. split; [exact Z1|]. split; [exact Z2|].
  split; [intros f Hf; split; [exact (Z3 f Hf)|exact (proj2 (translated_nonneg z f (Z3 f Hf)))]|].
  assert (Lt : length trs = length fit) by (unfold trs; apply map_length).
  assert (Row : forall i f, nth_error fit i = Some f -> row trs i = translated_fl z f) by (intros i f Hf; unfold row; apply nth_error_nth; unfold trs; rewrite nth_error_map, Hf; reflexivity).
  assert (At : forall i k, (exists f, nth_error fit i = Some f /\ assigned_fl t1 t2 vecs (translated_fl z f) = k) <-> (i < length trs)%nat /\ assigned_fl t1 t2 vecs (row trs i) = k).
  { intros i k. split.
    - intros (f & Hf & E). rewrite (Row i f Hf). split; [rewrite Lt; apply nth_error_Some; congruence|exact E].
    - intros (Hi & E). rewrite Lt in Hi. destruct (nth_error fit i) as [f|] eqn:Hf; [|apply nth_error_None in Hf; lia]. exists f. rewrite (Row i f Hf) in E. auto. }
  assert (Ch : forall k c, In c (choose_fl t1 t2 t3 p vecs trs gam k) -> choose_fl t1 t2 t3 p vecs trs gam k = [c] /\ (c < length trs)%nat /\ assigned_fl t1 t2 vecs (row trs c) = k).
  { intros k c Hc. destruct (C141_choice t1 t2 t3 p vecs trs gam k) as (A & B).
    destruct (niche_fl t1 t2 vecs trs k) as [|i l] eqn:En; [unfold choose_fl in Hc; rewrite En in Hc; destruct Hc|]. assert (Hi : In i (niche_fl t1 t2 vecs trs k)) by (rewrite En; left; reflexivity). apply niche_in in Hi.
    destruct (B (ex_intro _ i Hi)) as (c' & E & H1 & H2 & _). rewrite E in Hc. destruct Hc as [<-|[]]. auto. }
  assert (Cs : forall k i, (i < length trs)%nat -> assigned_fl t1 t2 vecs (row trs i) = k -> exists c, In c s /\ choose_fl t1 t2 t3 p vecs trs gam k = [c] /\ (c < length trs)%nat /\ assigned_fl t1 t2 vecs (row trs c) = k /\
    forall j, (j < length trs)%nat -> assigned_fl t1 t2 vecs (row trs j) = k -> apd_fl t1 t2 t3 p vecs trs gam k c <= apd_fl t1 t2 t3 p vecs trs gam k j).
  { intros k i Hi E. destruct (proj2 (C141_choice t1 t2 t3 p vecs trs gam k) (ex_intro _ i (conj Hi E))) as (c & Ec & H1 & H2 & H3). exists c. split; [|auto]. unfold s. apply in_flat_map. exists k. split; [|rewrite Ec; left; reflexivity].
    apply in_seq. rewrite <- E. split; [lia|]. apply assigned_valid. exact Nv. }
  split; [|split; [|split; [|cbv zeta; split]]].
  - unfold s. apply flat_map_NoDup; [apply seq_NoDup| |].
    + intros k _. destruct (choose_fl t1 t2 t3 p vecs trs gam k) as [|c l] eqn:E; [constructor|]. destruct (Ch k c) as (E' & _); [rewrite E; left; reflexivity|]. rewrite E in E'. rewrite E'. constructor; [intros []|constructor].
    + intros k k' c H1 H2. destruct (Ch k c H1) as (_ & _ & A). destruct (Ch k' c H2) as (_ & _ & B). congruence.
  - destruct (Cs _ 0%nat ltac:(rewrite Lt; destruct fit; [congruence|cbn; lia]) eq_refl) as (c & Hc & _). intros X. rewrite X in Hc. destruct Hc.
  - intros i Hi. unfold s in Hi. apply in_flat_map in Hi. destruct Hi as (k & _ & Hi). destruct (Ch k i Hi) as (_ & A & _). lia.
  - intros i Hi. exists (assigned_fl t1 t2 vecs (row trs i)). split; [apply assigned_valid; exact Nv|]. apply At. split; [lia|reflexivity].
  - intros k i Hi. apply At in Hi. destruct Hi as (Hi & E). destruct (Cs k i Hi E) as (c & Hc & Ec & H1 & H2 & H3). exists c. split; [exact Hc|]. split; [apply At; auto|]. split.
    + intros c' Hc' Ac'. apply At in Ac'. destruct Ac' as (A1 & A2). unfold s in Hc'. apply in_flat_map in Hc'. destruct Hc' as (k' & _ & Hc'). destruct (Ch k' c' Hc') as (X & _ & B). assert (k' = k) by congruence. subst k'. congruence.
    + intros j Hj. apply At in Hj. destruct Hj as (J1 & J2). exact (H3 j J1 J2).
Qed.
Example ex_selection : exists z s, apd_select_fl two two two 1 [1; 1] [0; 1] [[3; 1]; [0; 4]] [[1; 0]; [0; 1]] [1; 1] = Ok (z, s) /\ s <> [].
Proof.
  destruct (C141_selection two two two 2 1 [1; 1] [0; 1] [[3; 1]; [0; 4]] [[1; 0]; [0; 1]] [1; 1]) as (z & s & E & _ & _ & _ & _ & Hs & _); try reflexivity; try discriminate; [intros f [<-|[<-|[]]]; reflexivity|]. exists z, s. auto.
Qed.
Print Assumptions C141_selection.
