(** C133: the recombination operators in the form of functions (mate of the EvoNN, EvoDN2 and BioGP modules). *)
From Coq Require Import QArith Lia Permutation.
From Verif Require Import Base M_Recombination P_Recombination M_NetRecomb Properties_Recombination Properties_NetRecomb M_BioGP Spec_BioGP P_BioGP P_BioGP2 Properties_BioGP M_MateFn.
Import ListNotations.
Open Scope nat_scope.

(** ** Specification *)
(** The pairs that are mated: those given, or (without a mating list) every individual in turn with some member of the population. *)
Definition mated (mating_pop : option (list (nat * nat))) (n : nat) (ms : list (nat * nat)) : Prop :=
  match mating_pop with
  | Some given => ms = given
  | None => length ms = n /\ forall i, i < n -> exists j, nth_error ms i = Some (i, j) /\ j < n
  end.
Definition valid_mating {A} (mating_pop : option (list (nat * nat))) (pop : list A) : Prop :=
  match mating_pop with Some ms => valid_pairs pop ms | None => True end.
(** What mutation does to a weight w, [z] being the standard normal number drawn for its place (if one was): the step is relative, and scaled by the strength and
    by the spread that fades out at the planned end (and stays 0 after it); other mutation types than the two known ones change nothing. *)
Definition grown (t : mtype) (cur total : Z) (strength : Q) (z : option Q) (w w' : Q) : Prop :=
  match t, z with
  | MOther, _ | _, None => w' = w
  | _, Some z => exists std, spread cur total std /\ w' = (w + w * (std * z * strength))%Q
  end.

(** ** Lemmas *)
Lemma spread_of_std cur total : (0 < total)%Z -> spread cur total (dn_std cur total).
Proof.
  intros Ht. assert (D : forall x y, (x <= y)%Z -> ((x # 1) / (total # 1) <= (y # 1) / (total # 1))%Q).
  { intros x y H. unfold Qdiv. apply Qmult_le_compat_r; [unfold Qle; cbn; lia|]. apply Qinv_le_0_compat. unfold Qle; cbn; lia. }
  assert (One : ((total # 1) / (total # 1) == 1)%Q) by (apply Qmult_inv_r; unfold Qeq; cbn; lia).
  unfold spread, dn_std, nn_std. split; intros H; apply D in H; rewrite One in H; destruct (Qle_bool _ _) eqn:E.
  - reflexivity.
  - exfalso. assert (0 <= (5 # 3) * (1 - (cur # 1) / (total # 1)))%Q.
    { apply Qmult_le_0_compat; [unfold Qle; cbn; lia|]. rewrite <- (Qplus_opp_r ((cur # 1) / (total # 1))). apply Qplus_le_compat; [auto|apply Qle_refl]. }
    apply Qle_bool_iff in H0. congruence.
  - apply Qle_bool_iff in E. apply Qle_antisym; auto. setoid_replace 0%Q with ((5 # 3) * (1 - 1))%Q by reflexivity.
    apply Qmult_le_l; [reflexivity|]. apply Qplus_le_compat; [apply Qle_refl|]. apply Qopp_le_compat. auto.
  - reflexivity.
Qed.
Lemma fn_pairs_mated mating_pop n partner : mated mating_pop n (fn_pairs mating_pop n partner).
Proof.
  destruct mating_pop as [ms|]; cbn [fn_pairs mated]; auto. split; [rewrite map_length, seq_length; reflexivity|].
  intros i Hi. exists (partner i mod n). split; [|apply Nat.mod_upper_bound; lia].
  rewrite nth_error_map. rewrite (nth_error_nth' _ 0) by (rewrite seq_length; auto). rewrite seq_nth by auto. reflexivity.
Qed.
Lemma mated_valid {A} mating_pop (pop : list A) ms : valid_mating mating_pop pop -> mated mating_pop (length pop) ms -> valid_pairs pop ms.
Proof.
  destruct mating_pop as [given|]; cbn; intros V H; [subst; auto|]. destruct H as (L & P). intros i j Hin.
  apply In_nth_error in Hin. destruct Hin as (k & Hk). assert (Hl : k < length pop) by (rewrite <- L; apply nth_error_Some; congruence).
  destruct (P k Hl) as (j' & E & Hj). rewrite Hk in E. injection E as -> ->. split; auto.
Qed.
Lemma nn_pairs_01 pop dr ms : evonn_do 0 1 pop dr (Ids2 ms) = nn_pairs pop dr 0 ms.
Proof. unfold evonn_do. cbn [Z.eqb mating_pairs]. destruct ms; reflexivity. Qed.

(** ** EvoNN *)
(** C133. Given explicit pairs, the function returns what the operator object returns for the same draws whenever that does not raise. *)
Theorem C133_evonn_as_operator : forall ms pop cur total strength pc t partner dr sa off,
  (t = MDefault \/ t = MGaussian -> evonn_gaussian cur total strength pop dr (Ids2 ms) = Ok off ->
     evonn_mate (Some ms) pop (Some (mkParams (Some cur) (Some total) (Some strength) pc)) t partner dr sa = Ok off) /\
  evonn_mate (Some ms) pop (Some (mkParams (Some cur) (Some total) (Some strength) pc)) MSelfAdapting partner dr sa = evonn_self_adapting cur total strength pop sa (Ids2 ms).
Proof.
  intros ms pop cur total strength pc t partner dr sa off. split; [|reflexivity].
  intros Ht H. unfold evonn_gaussian, evonn_do in H. unfold evonn_mate. cbn [mp_cur mp_total mp_strength get fn_pairs].
  destruct (total =? 0)%Z eqn:E0; [discriminate|]. cbn [mating_pairs] in H.
  assert (G : nn_pairs pop (fun k => gauss_draw (dn_std cur total) strength (dr k)) 0 ms = Ok off).
  { destruct ms as [|p0 ms0]; [exact H|].
    destruct (Qle_bool 0 (1 - (cur # 1) / (total # 1))) eqn:Eq.
    - replace (dn_std cur total) with (nn_std cur total); [exact H|]. unfold dn_std.
      replace (Qle_bool 0 (nn_std cur total)) with true; [reflexivity|]. symmetry. apply Qle_bool_iff. unfold nn_std.
      apply Qle_bool_iff in Eq. apply Qmult_le_0_compat; [unfold Qle; cbn; lia|exact Eq].
    - destruct p0 as [a b]. destruct (nth_error pop a); [destruct (nth_error pop b)|]; discriminate. }
  destruct Ht as [-> | ->]; exact G.
Qed.
(** C133. Unlike the object (C16_evonn_past_end_raises_refuted) it never raises: with or without a mating list, before, at or after the planned number of generations, it returns two networks of
    the same architecture per pair, whose nodes are the two parents', exchanged exactly where drawn, and mutated. Omitted parameters: generation 1 of 10, strength 1. *)
Theorem C133_evonn_mate : forall mating_pop pop p t partner dr sa nodes inputs cur total strength,
  t <> MSelfAdapting -> cur = get (mp_cur p) 1%Z -> total = get (mp_total p) 10%Z -> strength = get (mp_strength p) 1%Q ->
  (0 < total)%Z -> uniform_nets nodes inputs pop -> valid_mating mating_pop pop ->
  exists ms off, mated mating_pop (length pop) ms /\ evonn_mate mating_pop pop (Some p) t partner dr sa = Ok off /\ length off = 2 * length ms /\
    forall k i j, nth_error ms k = Some (i, j) ->
      exists a b u v, nth_error pop i = Some a /\ nth_error pop j = Some b /\ nth_error off (2 * k) = Some u /\ nth_error off (2 * k + 1) = Some v /\
        length u = nodes /\ length v = nodes /\
        forall c n, c < nodes -> n < inputs -> exists wa wb wu wv, weight a c n = Some wa /\ weight b c n = Some wb /\ weight u c n = Some wu /\ weight v c n = Some wv /\
          grown t cur total strength (nn_mv1 (dr k) c n) (if nn_ex (dr k) c then wb else wa) wu /\
          grown t cur total strength (nn_mv2 (dr k) c n) (if nn_ex (dr k) c then wa else wb) wv.
Proof.
  intros mating_pop pop p t partner dr sa nodes inputs cur total strength Hsa Ec Et Es Ht U V.
  set (ms := fn_pairs mating_pop (length pop) partner). pose proof (fn_pairs_mated mating_pop (length pop) partner) as HM. fold ms in HM.
  pose proof (mated_valid mating_pop pop ms V HM) as VP.
  set (dr' := fun k => match t with MOther => no_mutation (dr k) | _ => gauss_draw (dn_std cur total) strength (dr k) end).
  assert (EM : evonn_mate mating_pop pop (Some p) t partner dr sa = nn_pairs pop dr' 0 ms).
  { unfold evonn_mate. rewrite <- Ec, <- Et, <- Es. destruct (Z.eqb_spec total 0); [lia|]. fold ms. unfold dr'. destruct t; try reflexivity. congruence. }
  destruct (C16_evonn_architecture 0 1 pop dr' ms nodes inputs ltac:(lia) ltac:(lia) U VP) as (off & E & L & P).
  rewrite nn_pairs_01 in E. exists ms, off. split; auto. split; [congruence|]. split; auto.
  intros k i j Hk. destruct (P k i j Hk) as (a & b & u & v & Ea & Eb & Eu & Ev & Lu & Lv & W). exists a, b, u, v. repeat (split; [assumption|]).
  intros c n Hc Hn. destruct (W c Hc) as (x & y & x' & y' & X1 & X2 & X3 & X4 & L1 & L2 & G).
  assert (Lx : length x = inputs) by (apply (proj2 (U a (nth_error_In _ _ Ea))); eapply nth_error_In; eauto).
  assert (Ly : length y = inputs) by (apply (proj2 (U b (nth_error_In _ _ Eb))); eapply nth_error_In; eauto).
  destruct (nth_error x n) as [wa|] eqn:Wa; [|apply nth_error_None in Wa; lia].
  destruct (nth_error y n) as [wb|] eqn:Wb; [|apply nth_error_None in Wb; lia].
  destruct (G n wa wb Wa Wb) as (wu & wv & Wu & Wv & F1 & F2).
  exists wa, wb, wu, wv. unfold weight. rewrite X1, X2, X3, X4. repeat (split; [assumption|]).
  assert (Ex : nn_ex (dr' k) c = nn_ex (dr k) c) by (unfold dr'; destruct t; reflexivity).
  rewrite Ex in F1, F2.
  assert (GR1 : forall w w', scaled_by (nn_mv1 (dr' k) c n) w w' -> grown t cur total strength (nn_mv1 (dr k) c n) w w').
  { intros w w'. unfold dr', grown, scaled_by. destruct t; cbn [no_mutation gauss_draw nn_mv1]; unfold step_size; destruct (nn_mv1 (dr k) c n); cbn [option_map]; intros ->; try reflexivity;
      exists (dn_std cur total); (split; [apply spread_of_std; auto|reflexivity]). }
  assert (GR2 : forall w w', scaled_by (nn_mv2 (dr' k) c n) w w' -> grown t cur total strength (nn_mv2 (dr k) c n) w w').
  { intros w w'. unfold dr', grown, scaled_by. destruct t; cbn [no_mutation gauss_draw nn_mv2]; unfold step_size; destruct (nn_mv2 (dr k) c n); cbn [option_map]; intros ->; try reflexivity;
      exists (dn_std cur total); (split; [apply spread_of_std; auto|reflexivity]). }
  destruct (nn_ex (dr k) c); [destruct (F2 eq_refl)|destruct (F1 eq_refl)]; auto.
Qed.
(** At and after the planned end nothing is mutated. *)
Theorem C133_mutation_fades : forall t cur total strength z w w', (total <= cur)%Z -> grown t cur total strength z w w' -> (w' == w)%Q.
Proof.
  intros t cur total strength z w w' H G. unfold grown in G.
  destruct t, z as [z|]; try (subst; reflexivity); destruct G as (std & (_ & Hz) & ->); rewrite (Hz H); ring.
Qed.

(** ** EvoDN2 *)
(** C133. Given explicit pairs (and the default mutation), the function returns exactly what the operator object does. *)
Theorem C133_evodn2_as_operator : forall ms pop cur total strength pc t partner dr, t = MDefault \/ t = MGaussian ->
  evodn2_mate (Some ms) pop (Some (mkParams (Some cur) (Some total) (Some strength) pc)) t partner dr = evodn2_do cur total strength pop dr (Ids2 ms).
Proof. intros ms pop cur total strength pc t partner dr [-> | ->]; reflexivity. Qed.
(** C133. Without a mating list: two networks per individual, the first pair of subnets of which are those of the individual, mixed with a member's. *)
Theorem C133_evodn2_default_mating : forall pop p t partner dr subnets cur total strength, t = MDefault \/ t = MGaussian ->
  cur = get (mp_cur p) 1%Z -> total = get (mp_total p) 10%Z -> strength = get (mp_strength p) 1%Q ->
  (0 < total)%Z -> (forall net, In net pop -> length net = subnets) ->
  exists ms off std, mated None (length pop) ms /\ spread cur total std /\ evodn2_mate None pop (Some p) t partner dr = Ok off /\ length off = 2 * length pop /\
    forall k i j, nth_error ms k = Some (i, j) ->
      exists a b u v, nth_error pop i = Some a /\ nth_error pop j = Some b /\ nth_error off (2 * k) = Some u /\ nth_error off (2 * k + 1) = Some v /\
        length u = subnets /\ length v = subnets /\
        forall s x y, nth_error a s = Some x -> nth_error b s = Some y ->
          exists x' y', nth_error u s = Some x' /\ nth_error v s = Some y' /\ inherits_subnet std strength (dr k s) x y x' y'.
Proof.
  intros pop p t partner dr subnets cur total strength Ht Ec Et Es Hp Hn. set (ms := fn_pairs None (length pop) partner).
  pose proof (fn_pairs_mated None (length pop) partner) as HM. fold ms in HM. pose proof (mated_valid None pop ms Logic.I HM) as VP.
  destruct (C16_evodn2_operator cur total strength pop dr ms subnets Hp Hn VP) as (off & std & Sp & E & L & P).
  exists ms, off, std. split; auto. split; auto. split; [|split; [rewrite L, (proj1 HM); reflexivity|auto]].
  rewrite <- E. unfold evodn2_mate, evodn2_do. rewrite <- Ec, <- Et, <- Es. fold ms. destruct (total =? 0)%Z; [reflexivity|]. destruct Ht as [-> | ->]; reflexivity.
Qed.
(** C133 (false of the code). With any other mutation type, "self-adapting" included, the EvoDN2 function silently returns no offspring at all, for every population and mating list. *)
Theorem C133_evodn2_other_type_refuted : forall mating_pop pop p t partner dr, t = MSelfAdapting \/ t = MOther -> get (mp_total p) 10%Z <> 0%Z ->
  evodn2_mate mating_pop pop (Some p) t partner dr = Ok [].
Proof. intros mating_pop pop p t partner dr Ht H0. unfold evodn2_mate. destruct (Z.eqb_spec (get (mp_total p) 10%Z) 0); [contradiction|]. destruct Ht as [-> | ->]; reflexivity. Qed.

(** ** BioGP *)
(** C133. The function selects the crossover as an operator object with the standard share 0.5 does, where that object can be made; for smaller probabilities of
    crossover (which the object refuses) the probability is that of standard crossover. *)
Theorem C133_biogp_selects : forall crossover r,
  (forall m, class_mode crossover (1 # 2) r = Ok m -> fn_mode crossover r = m) /\
  ((crossover < 1 # 2)%Q -> (0 <= r)%Q -> class_mode crossover (1 # 2) r = Err ValueError /\ ((r <= crossover)%Q -> fn_mode crossover r = Standard) /\ ((crossover < r)%Q -> fn_mode crossover r = NoXover)).
Proof.
  intros crossover r. assert (E : (crossover - (1 # 2) + (1 # 2) == crossover)%Q) by ring.
  assert (B : Qle_bool r (crossover - (1 # 2) + (1 # 2)) = Qle_bool r crossover).
  { apply Bool.eq_true_iff_eq. rewrite !Qle_bool_iff, E. reflexivity. }
  unfold class_mode, fn_mode. cbv zeta. rewrite B. split.
  - intros m. destruct (Qle_bool (1 # 2) crossover); cbn [negb]; [|discriminate]. congruence.
  - intros Hc Hr. assert (N : Qle_bool (1 # 2) crossover = false).
    { apply Bool.not_true_iff_false. rewrite Qle_bool_iff. apply Qlt_not_le. auto. }
    rewrite N. split; [reflexivity|].
    assert (N2 : Qle_bool r (crossover - (1 # 2)) = false).
    { apply Bool.not_true_iff_false. rewrite Qle_bool_iff. apply Qlt_not_le. eapply Qlt_le_trans; [|exact Hr].
      setoid_replace 0%Q with ((1 # 2) - (1 # 2))%Q by reflexivity. apply Qplus_lt_le_compat; [auto|apply Qle_refl]. }
    rewrite N2. split; intros H.
    + replace (Qle_bool r crossover) with true; [reflexivity|]. symmetry. apply Qle_bool_iff. auto.
    + replace (Qle_bool r crossover) with false; [reflexivity|]. symmetry. apply Bool.not_true_iff_false. rewrite Qle_bool_iff. apply Qlt_not_le. auto.
Qed.
(** C133. On individuals (as in C61): two well-formed offspring per pair, made of new objects, holding together the values of the pair's nodes; the population is not touched. Without a mating list
    every individual is mated with a member of the population. *)
Theorem C133_biogp_mate : forall (F T : Type) (arity : F -> nat) (fs : list F) (ts : list T) fuel mating_pop (h : heap F T) next (pop : list ind) ts0 p r partner ks,
  Forall2 (held h) pop ts0 -> (forall t, In t ts0 -> individual arity fs ts (read h t)) -> (forall t, In t ts0 -> 1 < length (ids t)) -> (forall t i, In t ts0 -> In i (ids t) -> i < next) ->
  2 * length (flat_map ids ts0) <= fuel -> valid_mating mating_pop pop ->
  exists ms h' next' off ts', mated mating_pop (length pop) ms /\ biogp_mate fuel mating_pop h next pop (Some p) r partner ks = Ok (h', next', off) /\
    Forall2 (held h') off ts' /\ length off = 2 * length ms /\ NoDup (flat_map ids ts') /\ (forall t i, In t ts' -> In i (ids t) -> next <= i < next') /\
    (forall t, In t ts' -> individual arity fs ts (read h' t)) /\
    (forall k x y, nth_error ms k = Some (x, y) -> exists a b a' b', nth_error ts0 x = Some a /\ nth_error ts0 y = Some b /\ nth_error ts' (2 * k) = Some a' /\ nth_error ts' (2 * k + 1) = Some b' /\
       Permutation (values (read h' a') ++ values (read h' b')) (values (read h a) ++ values (read h b))) /\
    (forall i, i < next -> h' i = h i).
Proof.
  intros F T arity fs ts fuel mating_pop h next pop ts0 p r partner ks Hp Hw Hz Hr Hf V. set (ms := fn_pairs mating_pop (length pop) partner).
  pose proof (fn_pairs_mated mating_pop (length pop) partner) as HM. fold ms in HM. pose proof (mated_valid mating_pop pop ms V HM) as VP.
  destruct (C61_crossover arity fs ts fuel (fn_mode (get (mp_crossover p) (9 # 10)) r) ks pop ts0 ms h next Hp Hw Hz Hr Hf) as (h' & next' & off & ts' & H).
  { intros [x y] Hin. apply (VP x y Hin). }
  exists ms, h', next', off, ts'. split; [exact HM|]. exact H.
Qed.

(** C133 (false of the code). The documented "params: if None, use defaults" raises in all three. *)
Theorem C133_no_params_refuted : forall mating_pop t partner,
  (forall pop dr sa, evonn_mate mating_pop pop None t partner dr sa = Err AttributeError) /\
  (forall pop dr, evodn2_mate mating_pop pop None t partner dr = Err AttributeError) /\
  (forall (F T : Type) fuel (h : heap F T) next pop r ks, biogp_mate fuel mating_pop h next pop None r partner ks = Err AttributeError).
Proof. repeat split; reflexivity. Qed.

(** ** Non-vacuity *)
Definition no_draw : nn_draw := mkNN (fun i => Nat.eqb i 0) (fun _ _ => None) (fun i j => if Nat.eqb i 1 then Some 1%Q else None).
Definition any_sa : sa_draw := mkSA (fun _ => false) (0, 0) (fun _ _ => false) (0, 0) (fun _ _ => false).
Example ex_nets : uniform_nets 2 1 [[[1]; [2]]; [[3]; [4]]]%Q /\ valid_mating (Some [(0, 1)]) [[[1]; [2]]; [[3]; [4]]]%Q.
Proof. split; [intros net [<-|[<-|[]]]; (split; [reflexivity|]); intros col [<-|[<-|[]]]; reflexivity|]. intros i j [E|[]]. injection E as <- <-. cbn. lia. Qed.
(** After the planned end: the object raises, the function crosses over without mutation. *)
Example ex_after_end : evonn_gaussian 11 10 1 [[[1]; [2]]; [[3]; [4]]]%Q (fun _ => no_draw) (Ids2 [(0, 1)]) = Err ValueError /\
  evonn_mate (Some [(0, 1)]) [[[1]; [2]]; [[3]; [4]]]%Q (Some (mkParams (Some 11%Z) None None None)) MDefault (fun _ => 0) (fun _ => no_draw) (fun _ => any_sa)
    = Ok [[[3]; [2]]; [[1]; [4 + 4 * (0 * 1 * 1)]]]%Q.
Proof. split; reflexivity. Qed.
Example ex_default_mating : evonn_mate None [[[1]; [2]]; [[3]; [4]]]%Q (Some (mkParams None None None None)) MOther (fun i => i + 1) (fun _ => no_draw) (fun _ => any_sa)
  = Ok [[[3]; [2]]; [[1]; [4]]; [[1]; [4]]; [[3]; [2]]]%Q.
Proof. reflexivity. Qed.
Example ex_biogp_hyp : Forall2 (held hx) [x1; x2] [t1; t2].
Proof. constructor; [apply held1|]. constructor; [apply held2|constructor]. Qed.

Print Assumptions C133_evonn_as_operator.
Print Assumptions C133_evonn_mate.
Print Assumptions C133_mutation_fades.
Print Assumptions C133_evodn2_as_operator.
Print Assumptions C133_evodn2_default_mating.
Print Assumptions C133_evodn2_other_type_refuted.
Print Assumptions C133_biogp_selects.
Print Assumptions C133_biogp_mate.
Print Assumptions C133_no_params_refuted.
