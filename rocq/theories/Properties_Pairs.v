(** C17, at the level of the operators: how a mating list is consumed. *)
From Coq Require Import List Arith ZArith QArith Reals Lia Bool.
From Verif Require Import Base M_Recombination M_NetRecomb P_Recombination.
Import ListNotations.
Open Scope nat_scope.

(** ** Helpers *)
Lemma even_pos_nth {A} : forall (l : list A) k, nth_error (even_pos l) k = nth_error l (2 * k).
Proof.
  fix IH 1. intros [|x [|y t]] k.
  - destruct k; reflexivity.
  - destruct k as [|k]; [reflexivity|]. replace (2 * S k) with (S (S (2 * k))) by lia. cbn. destruct k; reflexivity.
  - destruct k as [|k]; [reflexivity|]. replace (2 * S k) with (S (S (2 * k))) by lia. cbn [even_pos nth_error]. apply IH.
Qed.
Lemma list_ext {A} : forall (l l' : list A), (forall k, nth_error l k = nth_error l' k) -> l = l'.
Proof.
  induction l as [|x l IH]; intros [|y l'] H; auto.
  - specialize (H 0); discriminate.
  - specialize (H 0); discriminate.
  - pose proof (H 0) as H0. cbn in H0. injection H0 as ->. f_equal. apply IH. intros k. apply (H (S k)).
Qed.
Lemma even_pairs : forall l l', (forall k, nth_error l (2 * k) = nth_error l' (2 * k)) -> mating_pairs (Ids1 l) = mating_pairs (Ids1 l').
Proof. intros l l' H. unfold mating_pairs. f_equal. apply list_ext. intros k. rewrite !even_pos_nth. auto. Qed.

(** ** The real-coded and binary operators *)

(** C17. Simulated binary crossover consumes a mating list two by two (the last entry of an odd list is mated with
    the first one): children 2k and 2k+1 are exactly what the operator gives for the mating list made of entries 2k and 2k+1 alone. *)
Theorem C17_sbx_pairs : forall ProC DisC dr pop ids k z1 z2,
  in_range (length pop) ids -> nth_error ids (2 * k) = Some z1 -> nth_error ids ((2 * k + 1) mod length ids) = Some z2 ->
  exists off c d, sbx_do ProC DisC dr pop ids = Ok off /\ length off = 2 * ((length ids + 1) / 2) /\
    nth_error off (2 * k) = Some c /\ nth_error off (2 * k + 1) = Some d /\
    sbx_do ProC DisC (fun n => dr (k + n)) pop [z1; z2] = Ok [c; d].
Proof.
  intros ProC DisC dr pop ids k z1 z2 HR H1 H2. unfold sbx_do.
  destruct (pairing (sbx_pair ProC DisC dr) pop ids HR) as (off & E & L & P).
  assert (Hk : 2 * k < length ids) by (apply nth_error_Some; congruence).
  destruct (P k Hk) as (y1 & y2 & p & q & A1 & A2 & B1 & B2 & C1 & C2).
  rewrite H1 in A1. injection A1 as <-. rewrite H2 in A2. injection A2 as <-.
  exists off. eexists. eexists. split; [exact E|]. split; [exact L|]. split; [exact C1|]. split; [exact C2|].
  assert (HR2 : in_range (length pop) [z1; z2]).
  { unfold in_range in *. rewrite Forall_forall in *. intros x [<-|[<-|[]]]; apply HR; eapply nth_error_In; eauto. }
  destruct (pairing (sbx_pair ProC DisC (fun n => dr (k + n))) pop [z1; z2] HR2) as (off' & E' & L' & P').
  destruct (P' 0 ltac:(cbn; lia)) as (y1 & y2 & p' & q' & A1 & A2 & B1' & B2' & C1' & C2').
  cbn in A1, A2. injection A1 as <-. injection A2 as <-. rewrite B1 in B1'. injection B1' as <-. rewrite B2 in B2'. injection B2' as <-.
  rewrite E'. f_equal. destruct off' as [|c' [|d' [|]]]; cbn in L'; try discriminate. cbn in C1', C2'. injection C1' as ->. injection C2' as ->.
  unfold sbx_pair. rewrite Nat.add_0_r. reflexivity.
Qed.

(** C17. The same for single point crossover. *)
Theorem C17_single_point_pairs : forall pt pop ids k z1 z2,
  in_range (length pop) ids -> nth_error ids (2 * k) = Some z1 -> nth_error ids ((2 * k + 1) mod length ids) = Some z2 ->
  exists off c d, sp_do pt pop ids = Ok off /\ length off = 2 * ((length ids + 1) / 2) /\
    nth_error off (2 * k) = Some c /\ nth_error off (2 * k + 1) = Some d /\
    sp_do (fun n => pt (k + n)) pop [z1; z2] = Ok [c; d].
Proof.
  intros pt pop ids k z1 z2 HR H1 H2.
  assert (HE : forall pt ids, sp_do pt pop ids = bind (bind (take_rows pop ids) (fun mp => Ok (pairs_loop (fun k a b => sp_cross (pt k) a b) 0 (close_odd mp))))
                 (fun off => Ok (map (map rnd) off))).
  { intros pt0 ids0. unfold sp_do. destruct (take_rows pop ids0) as [mp|e]; [|reflexivity]. cbn [bind]. rewrite sp_loop_pairs by constructor. reflexivity. }
  rewrite !HE.
  destruct (pairing (fun k a b => sp_cross (pt k) a b) pop ids HR) as (off & E & L & P).
  assert (Hk : 2 * k < length ids) by (apply nth_error_Some; congruence).
  destruct (P k Hk) as (y1 & y2 & p & q & A1 & A2 & B1 & B2 & C1 & C2).
  rewrite H1 in A1. injection A1 as <-. rewrite H2 in A2. injection A2 as <-.
  rewrite E. cbn [bind]. exists (map (map rnd) off). eexists. eexists. split; [reflexivity|]. split; [rewrite map_length; exact L|].
  split; [rewrite nth_error_map, C1; reflexivity|]. split; [rewrite nth_error_map, C2; reflexivity|].
  assert (HR2 : in_range (length pop) [z1; z2]).
  { unfold in_range in *. rewrite Forall_forall in *. intros x [<-|[<-|[]]]; apply HR; eapply nth_error_In; eauto. }
  destruct (pairing (fun n a b => sp_cross (pt (k + n)) a b) pop [z1; z2] HR2) as (off' & E' & L' & P').
  destruct (P' 0 ltac:(cbn; lia)) as (y1 & y2 & p' & q' & A1 & A2 & B1' & B2' & C1' & C2').
  cbn in A1, A2. injection A1 as <-. injection A2 as <-. rewrite B1 in B1'. injection B1' as <-. rewrite B2 in B2'. injection B2' as <-.
  rewrite E'. cbn [bind]. f_equal. destruct off' as [|c' [|d' [|]]]; cbn in L'; try discriminate. cbn [nth_error Nat.mul Nat.add] in C1', C2'. injection C1' as ->. injection C2' as ->.
  rewrite Nat.add_0_r. reflexivity.
Qed.

(** ** The network operators *)

(** C17 (partial): given explicit pairs, each of the network operators gives for pair k two children, which are
    what it gives for the list made of that pair alone. *)
Theorem C17_evonn_pairs_partial : forall cur total strength pop dr ms off k i j,
  evonn_gaussian cur total strength pop dr (Ids2 ms) = Ok off -> nth_error ms k = Some (i, j) ->
  length off = 2 * length ms /\
  exists c d, nth_error off (2 * k) = Some c /\ nth_error off (2 * k + 1) = Some d /\
    evonn_gaussian cur total strength pop (fun n => dr (k + n)) (Ids2 [(i, j)]) = Ok [c; d].
Proof.
  intros cur total strength pop dr ms off k i j. unfold evonn_gaussian, evonn_do.
  destruct (total =? 0)%Z; [discriminate|]. cbn [mating_pairs]. destruct ms as [|p0 ms0] eqn:Em; [intros _ H; destruct k; discriminate|]. rewrite <- Em. clear Em.
  destruct (Qle_bool 0 (1 - (cur # 1) / (total # 1)));
    [|destruct p0 as [a b]; subst; destruct ms as [|[? ?] ?]; [intros _ H; destruct k; discriminate|]; destruct (nth_error pop _); [destruct (nth_error pop _)|]; discriminate].
  assert (HG : forall (dr' : nat -> nn_draw) ms s off, nn_pairs pop dr' s ms = Ok off -> length off = 2 * length ms /\
     forall k i j, nth_error ms k = Some (i, j) -> exists c d, nth_error off (2 * k) = Some c /\ nth_error off (2 * k + 1) = Some d /\
     forall dr'', dr'' 0 = dr' (s + k) -> nn_pairs pop dr'' 0 [(i, j)] = Ok [c; d]).
  { clear. intros dr' ms. induction ms as [|[a b] ms IH]; intros s off H; cbn [nn_pairs] in H.
    - injection H as <-. split; [reflexivity|]. intros k i j Hk. destruct k; discriminate.
    - destruct (nth_error pop a) as [na|] eqn:Ea; [|discriminate]. destruct (nth_error pop b) as [nb|] eqn:Eb; [|discriminate].
      destruct (nn_cross (nn_ex (dr' s)) 0 na nb) as [u v] eqn:Ex.
      destruct (nn_pairs pop dr' (S s) ms) as [r|e] eqn:Er; [|discriminate]. cbn [bind] in H. injection H as <-.
      destruct (IH (S s) r Er) as [L P]. split; [cbn [length]; lia|]. intros k i j Hk. destruct k as [|k].
      + injection Hk as -> ->. do 2 eexists. split; [reflexivity|]. split; [reflexivity|]. intros dr'' Hd. cbn [nn_pairs]. rewrite Ea, Eb, Hd, Nat.add_0_r, Ex. reflexivity.
      + destruct (P k i j Hk) as (c & d & P1 & P2 & P3). exists c, d. replace (2 * S k) with (S (S (2 * k))) by lia.
        split; [exact P1|]. split; [exact P2|]. intros dr'' Hd. apply P3. rewrite Hd. f_equal. lia. }
  intros H Hk. destruct (HG _ _ _ _ H) as [L P]. split; [exact L|]. destruct (P _ _ _ Hk) as (c & d & P1 & P2 & P3).
  exists c, d. split; [exact P1|]. split; [exact P2|]. apply P3. rewrite Nat.add_0_r. reflexivity.
Qed.
Theorem C17_evonn_self_adapting_pairs_partial : forall cur total strength pop dr ms off k i j,
  evonn_self_adapting cur total strength pop dr (Ids2 ms) = Ok off -> nth_error ms k = Some (i, j) ->
  length off = 2 * length ms /\
  exists c d, nth_error off (2 * k) = Some c /\ nth_error off (2 * k + 1) = Some d /\
    evonn_self_adapting cur total strength pop (fun n => dr (k + n)) (Ids2 [(i, j)]) = Ok [c; d].
Proof.
  intros cur total strength pop dr ms off k i j. unfold evonn_self_adapting.
  destruct (total =? 0)%Z; [discriminate|]. cbn [mating_pairs]. generalize (strength * (1 - (cur # 1) / (total # 1)))%Q as cc. intros cc.
  assert (HG : forall (dr' : nat -> sa_draw) ms s off, sa_pairs cc pop dr' s ms = Ok off -> length off = 2 * length ms /\
     forall k i j, nth_error ms k = Some (i, j) -> exists c d, nth_error off (2 * k) = Some c /\ nth_error off (2 * k + 1) = Some d /\
     forall dr'', dr'' 0 = dr' (s + k) -> sa_pairs cc pop dr'' 0 [(i, j)] = Ok [c; d]).
  { clear. intros dr' ms. induction ms as [|[a b] ms IH]; intros s off H; cbn [sa_pairs] in H.
    - injection H as <-. split; [reflexivity|]. intros k i j Hk. destruct k; discriminate.
    - destruct (nth_error pop a) as [na|] eqn:Ea; [|discriminate]. destruct (nth_error pop b) as [nb|] eqn:Eb; [|discriminate].
      destruct (nn_cross (sa_ex (dr' s)) 0 na nb) as [u v] eqn:Ex.
      destruct (pick2 pop (fst (sa_c1 (dr' s))) (snd (sa_c1 (dr' s)))) as [[s0 s1]|e] eqn:E1; [|discriminate]. cbn [bind] in H.
      destruct (pick2 pop (fst (sa_c2 (dr' s))) (snd (sa_c2 (dr' s)))) as [[t0 t1]|e] eqn:E2; [|discriminate]. cbn [bind] in H.
      destruct (sa_pairs cc pop dr' (S s) ms) as [r|e] eqn:Er; [|discriminate]. cbn [bind] in H. injection H as <-.
      destruct (IH (S s) r Er) as [L P]. split; [cbn [length]; lia|]. intros k i j Hk. destruct k as [|k].
      + injection Hk as -> ->. do 2 eexists. split; [reflexivity|]. split; [reflexivity|]. intros dr'' Hd. cbn [sa_pairs]. rewrite Ea, Eb, Hd, Nat.add_0_r, Ex, E1. cbn [bind]. rewrite E2. reflexivity.
      + destruct (P k i j Hk) as (c & d & P1 & P2 & P3). exists c, d. replace (2 * S k) with (S (S (2 * k))) by lia.
        split; [exact P1|]. split; [exact P2|]. intros dr'' Hd. apply P3. rewrite Hd. f_equal. lia. }
  intros H Hk. destruct (HG _ _ _ _ H) as [L P]. split; [exact L|]. destruct (P _ _ _ Hk) as (c & d & P1 & P2 & P3).
  exists c, d. split; [exact P1|]. split; [exact P2|]. apply P3. rewrite Nat.add_0_r. reflexivity.
Qed.
Theorem C17_evodn2_pairs_partial : forall cur total strength pop dr ms off k i j,
  evodn2_do cur total strength pop dr (Ids2 ms) = Ok off -> nth_error ms k = Some (i, j) ->
  length off = 2 * length ms /\
  exists c d, nth_error off (2 * k) = Some c /\ nth_error off (2 * k + 1) = Some d /\
    evodn2_do cur total strength pop (fun n => dr (k + n)) (Ids2 [(i, j)]) = Ok [c; d].
Proof.
  intros cur total strength pop dr ms off k i j. unfold evodn2_do.
  destruct (total =? 0)%Z; [discriminate|]. cbn [mating_pairs]. generalize (dn_std cur total) as sd. intros sd.
  assert (HG : forall (dr' : nat -> nat -> dn_draw) ms s off, dn_pairs sd strength pop dr' s ms = Ok off -> length off = 2 * length ms /\
     forall k i j, nth_error ms k = Some (i, j) -> exists c d, nth_error off (2 * k) = Some c /\ nth_error off (2 * k + 1) = Some d /\
     forall dr'', dr'' 0 = dr' (s + k) -> dn_pairs sd strength pop dr'' 0 [(i, j)] = Ok [c; d]).
  { clear. intros dr' ms. induction ms as [|[a b] ms IH]; intros s off H; cbn [dn_pairs] in H.
    - injection H as <-. split; [reflexivity|]. intros k i j Hk. destruct k; discriminate.
    - destruct (nth_error pop a) as [na|] eqn:Ea; [|discriminate]. destruct (nth_error pop b) as [nb|] eqn:Eb; [|discriminate].
      destruct (dn_subnets (fun s0 => dn_gauss sd strength (dr' s s0)) 0 na nb) as [[u v]|e] eqn:Ex; [|discriminate]. cbn [bind] in H.
      destruct (dn_pairs sd strength pop dr' (S s) ms) as [r|e] eqn:Er; [|discriminate]. cbn [bind] in H. injection H as <-.
      destruct (IH (S s) r Er) as [L P]. split; [cbn [length]; lia|]. intros k i j Hk. destruct k as [|k].
      + injection Hk as -> ->. do 2 eexists. split; [reflexivity|]. split; [reflexivity|]. intros dr'' Hd. cbn [dn_pairs]. rewrite Ea, Eb, Hd, Nat.add_0_r, Ex. reflexivity.
      + destruct (P k i j Hk) as (c & d & P1 & P2 & P3). exists c, d. replace (2 * S k) with (S (S (2 * k))) by lia.
        split; [exact P1|]. split; [exact P2|]. intros dr'' Hd. apply P3. rewrite Hd. f_equal. lia. }
  intros H Hk. destruct (HG _ _ _ _ H) as [L P]. split; [exact L|]. destruct (P _ _ _ Hk) as (c & d & P1 & P2 & P3).
  exists c, d. split; [exact P1|]. split; [exact P2|]. apply P3. rewrite Nat.add_0_r. reflexivity.
Qed.

(** C17 is false of the network operators given a 1-D mating list: the entries at odd positions (the partners) are
    never looked at, whatever they are, and every child is made from one single parent. *)
Theorem C17_partners_ignored_refuted : forall l l', (forall k, nth_error l (2 * k) = nth_error l' (2 * k)) ->
  (forall cur total strength pop dr, evonn_gaussian cur total strength pop dr (Ids1 l) = evonn_gaussian cur total strength pop dr (Ids1 l')) /\
  (forall cur total strength pop dr, evonn_self_adapting cur total strength pop dr (Ids1 l) = evonn_self_adapting cur total strength pop dr (Ids1 l')) /\
  (forall cur total strength pop dr, evodn2_do cur total strength pop dr (Ids1 l) = evodn2_do cur total strength pop dr (Ids1 l')).
Proof.
  intros l l' H. pose proof (even_pairs l l' H) as E. unfold evonn_gaussian, evonn_do, evonn_self_adapting, evodn2_do. rewrite E.
  repeat split; reflexivity.
Qed.

(** ** Non-vacuity *)
Example ex_partner_list : (forall k, nth_error [4; 1; 2; 3] (2 * k) = nth_error [4; 99; 2] (2 * k)) /\ [4; 1; 2; 3] <> [4; 99; 2].
Proof.
  split; [|discriminate]. intros [|[|k]]; [reflexivity|reflexivity|].
  replace (2 * S (S k)) with (S (S (S (S (2 * k))))) by lia. cbn [nth_error]. destruct (2 * k); reflexivity.
Qed.
Example ex_out_of_range_partner :
  evonn_gaussian 0 1 1 [[[1%Q]]; [[2%Q]]] (fun _ => mkNN (fun _ => true) (fun _ _ => None) (fun _ _ => None)) (Ids1 [0; 99]) = Ok [[[1%Q]]; [[1%Q]]].
Proof. reflexivity. Qed.
Example ex_explicit :
  evonn_gaussian 0 1 1 [[[1%Q]]; [[2%Q]]; [[3%Q]]] (fun _ => mkNN (fun _ => true) (fun _ _ => None) (fun _ _ => None)) (Ids2 [(0, 1); (1, 2)])
    = Ok [[[2%Q]]; [[1%Q]]; [[3%Q]]; [[2%Q]]].
Proof. reflexivity. Qed.
Example ex_sp_pairs : sp_do (fun _ => 1) [[0; 0; 0]; [1; 1; 1]; [0; 1; 0]]%Q [0; 1; -1]%Z = Ok [[0; 1; 1]; [1; 0; 0]; [0; 0; 0]; [0; 1; 0]]%Q /\
  sp_do (fun _ => 1) [[0; 0; 0]; [1; 1; 1]; [0; 1; 0]]%Q [-1; 0]%Z = Ok [[0; 0; 0]; [0; 1; 0]]%Q.
Proof. split; reflexivity. Qed.

Print Assumptions C17_sbx_pairs.
Print Assumptions C17_single_point_pairs.
Print Assumptions C17_evonn_pairs_partial.
Print Assumptions C17_evonn_self_adapting_pairs_partial.
Print Assumptions C17_evodn2_pairs_partial.
Print Assumptions C17_partners_ignored_refuted.
