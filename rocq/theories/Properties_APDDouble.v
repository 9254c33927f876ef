(** C141: RVEA's assignment of solutions to reference vectors and its choice by angle penalized distance, in double precision. *)
From Coq Require Import Reals Lra Lia Permutation.
From Flocq Require Import Core.
From Verif Require Import Base RVec M_APD P_APD M_Double P_Double M_RefDouble P_RefDouble Properties_RefDouble Properties_RefDouble2 M_APDDouble P_APDDouble.
Open Scope R_scope.

(** The cosine of the angle between two vectors. *)
Definition cosine_of (a b : list R) : R := dot a b / (norm a * norm b).
(** Translated objectives of at most 2^20 entries: 0 or from 2^-500 to 2^500, not all 0. *)
Definition ordinary (n : nat) (tr : list R) : Prop := length tr = n /\ (forall x, In x tr -> x = 0 \/ bpow radix2 (-500) <= x <= bpow radix2 500) /\ exists x, In x tr /\ x <> 0.
(** Reference vectors as the normalisation delivers them (C137). *)
Definition direction (n : nat) (v : list R) : Prop := length v = n /\ (forall x, In x v -> 0 <= x) /\ Rabs (norm v - 1) <= INR (n + 4) * bpow radix2 (-51).

Lemma ordinary_moderate n tr : ordinary n tr -> Forall moderate tr /\ forall x, In x tr -> 0 <= x.
Proof.
  intros (_ & H & _). split.
  - apply Forall_forall. intros x Hx. destruct (H x Hx) as [->|[A B]]; [left; reflexivity|right]. pose proof (bpow_gt_0 radix2 (-500)). rewrite Rabs_pos_eq by lra. split; assumption.
  - intros x Hx. pose proof (bpow_gt_0 radix2 (-500)). destruct (H x Hx) as [->|[A B]]; lra.
Qed.
Lemma ordinary_pos n tr : ordinary n tr -> (1 <= n)%nat.
Proof. intros (<- & _ & x & Hx & _). destruct tr; [destruct Hx|cbn; lia]. Qed.
Lemma small_units n : (1 <= n)%nat -> (n <= 2 ^ 20)%nat -> 0 <= INR (n + 4) * u <= / 1000000 /\ 5 * u <= INR (n + 4) * u /\ INR n * u <= INR (n + 4) * u.
Proof.
  intros H1 Hn. pose proof u_pos. split; [split; [apply Rmult_le_pos; [apply pos_INR|lra]|exact (INR_u n Hn)]|]. split; apply Rmult_le_compat_r; try lra; [|apply le_INR; lia].
  apply Rle_trans with (INR 5); [cbn; lra|apply le_INR; lia].
Qed.

(** C141. The computed cosine, cut to [0, 1], is the true one up to (n + 4) * 2^-49, in whatever orders the sums are made. *)
Theorem C141_cosine : forall t1 t2 n tr v, (n <= 2 ^ 20)%nat -> Permutation (leaves t1) (seq 0 n) -> Permutation (leaves t2) (seq 0 n) -> ordinary n tr -> direction n v ->
  Rabs (cosine_fl t1 t2 tr v - cosine_of tr v) <= INR (n + 4) * bpow radix2 (-49).
Proof.
  intros t1 t2 n tr v Hn H1 H2 Ho (Lv & Pv & Nv). destruct (ordinary_moderate n tr Ho) as (Mo & Pt). pose proof (ordinary_pos n tr Ho) as N1. destruct Ho as (Lt & _ & Hz). destruct (small_units n N1 Hn) as (Z & Zu & Zn).
  pose proof (norm_err t1 tr) as NE. rewrite Lt in NE. specialize (NE Hn H1 Mo Hz). pose proof (unit_row_scaled t1 tr) as US. rewrite Lt in US. destruct (US Hn H1 Mo Hz) as (l & Hl & F). clear US.
  set (w := unit_row_fl t1 tr) in *. pose proof u_pos as U0. pose proof u_small as U1.
  assert (Lw : length w = n) by (rewrite <- Lt; clear - F; induction F; cbn [length]; congruence).
  assert (Pw : forall x, In x w -> 0 <= x).
  { clear - F Hl Pt U0 U1. induction F as [|a b ta tb E F IH]; [intros x []|]. intros x [<-|Hx]; [|apply IH; [intros y Hy; apply Pt; right; exact Hy|exact Hx]].
    pose proof (Pt a (or_introl eq_refl)) as A0. rewrite (Rabs_pos_eq a) in E by exact A0. apply Rabs_le_inv in E. assert (0 <= l * a) by (apply Rmult_le_pos; lra). assert (u * (l * a) <= 1 * (l * a)) by (apply Rmult_le_compat_r; lra). lra. }
  pose proof (C137_cosine_error t2 w v ltac:(lia) ltac:(lia) ltac:(rewrite Lw; exact H2) ltac:(intros x [X|X]; auto)) as CE. rewrite Lw in CE.
  pose proof (dot_scaled l tr w Hl Pt F v Pv) as DS. pose proof (norm_scaled l tr w Hl F) as NS.
  destruct Hz as (x0 & Hx0 & Hx0'). pose proof (norm_pos tr x0 Hx0 Hx0') as Np. assert (U51 : bpow radix2 (-51) = 4 * u) by (change (-51)%Z with (2 + -53)%Z; rewrite bpow_plus; reflexivity).
  assert (U52 : bpow radix2 (-52) = 2 * u) by (change (-52)%Z with (1 + -53)%Z; rewrite bpow_plus; reflexivity). assert (U49 : bpow radix2 (-49) = 16 * u) by (change (-49)%Z with (4 + -53)%Z; rewrite bpow_plus; reflexivity).
  rewrite U51 in NE, Nv. rewrite U49. rewrite U52 in CE. assert (Sv : 0 < norm v) by (apply Rabs_le_inv in Nv; lra).
  assert (C0 : 0 <= cosine_of tr v) by (unfold cosine_of; apply Rmult_le_pos; [apply dot_nonneg; assumption|apply Rlt_le, Rinv_0_lt_compat, Rmult_lt_0_compat; assumption]).
  assert (C1 : cosine_of tr v <= 1).
  { unfold cosine_of. apply Rmult_le_reg_r with (norm tr * norm v); [apply Rmult_lt_0_compat; assumption|]. unfold Rdiv. rewrite Rmult_assoc, Rinv_l, Rmult_1_r, Rmult_1_l by (apply Rgt_not_eq, Rmult_lt_0_compat; assumption).
    apply Rle_trans with (1 := Rle_abs _). apply dot_le_norms. congruence. }
  assert (CD : dot tr v = cosine_of tr v * (norm tr * norm v)) by (unfold cosine_of; field; lra).
  unfold cosine_fl. apply Rle_trans with (1 := clip01_near _ _ (conj C0 C1)). fold w. replace (INR (n + 4) * (16 * u)) with (16 * (INR (n + 4) * u)) by ring.
  apply (cosine_chain (INR (n + 4) * u) u (cosine_of tr v) (l * norm tr) (dot w v) (norm w) (norm v) (dot_fl t2 w v) (bpow radix2 (-1054))); try assumption; try lra.
  - split; [apply bpow_ge_0|apply bpow_le; lia].
  - apply Rabs_le_inv in NE. lra.
  - apply Rabs_le_inv in Nv. lra.
  - rewrite CD in DS. replace (cosine_of tr v * (l * norm tr * norm v)) with (l * (cosine_of tr v * (norm tr * norm v))) by ring. exact DS.
  - apply Rle_trans with (1 := CE). apply Rplus_le_compat_r. apply Rmult_le_compat_r; [apply dot_nonneg; assumption|]. lra.
Qed.

(** C141. So a solution is assigned to a reference vector whose cosine is the largest up to (n + 4) * 2^-48. *)
Theorem C141_assignment : forall t1 t2 n vecs tr, (n <= 2 ^ 20)%nat -> Permutation (leaves t1) (seq 0 n) -> Permutation (leaves t2) (seq 0 n) -> ordinary n tr -> vecs <> [] -> (forall v, In v vecs -> direction n v) ->
  exists v, nth_error vecs (assigned_fl t1 t2 vecs tr) = Some v /\ forall w, In w vecs -> cosine_of tr w <= cosine_of tr v + INR (n + 4) * bpow radix2 (-48).
Proof.
  intros t1 t2 n vecs tr Hn H1 H2 Ho NE Hv. unfold assigned_fl. destruct (argmax_some (map (cosine_fl t1 t2 tr) vecs)) as (k & Hk); [destruct vecs; [congruence|discriminate]|]. rewrite Hk.
  destruct (argmax_spec _ _ Hk) as (c & Hc & Hm & _). rewrite nth_error_map in Hc. destruct (nth_error vecs k) as [v|] eqn:Ev; [|discriminate]. injection Hc as <-. exists v. split; [reflexivity|]. intros w Hw.
  pose proof (C141_cosine t1 t2 n tr v Hn H1 H2 Ho (Hv v (nth_error_In _ _ Ev))) as A. pose proof (C141_cosine t1 t2 n tr w Hn H1 H2 Ho (Hv w Hw)) as B. pose proof (Hm _ (in_map (cosine_fl t1 t2 tr) _ _ Hw)) as M.
  assert (E : bpow radix2 (-48) = 2 * bpow radix2 (-49)) by (change (-48)%Z with (1 + -49)%Z; rewrite bpow_plus; reflexivity). rewrite E. apply Rabs_le_inv in A, B. lra.
Qed.

Lemma theta_range t1 t2 tr v : 0 <= theta_fl t1 t2 tr v <= fl (PI / 2).
Proof.
  unfold theta_fl. pose proof (clip01_range (dot_fl t2 (unit_row_fl t1 tr) v)) as C. fold (cosine_fl t1 t2 tr v) in C. pose proof (acos_bound (cosine_fl t1 t2 tr v)) as B. split; [rewrite <- fl_0; apply fl_mono; apply B|].
  apply fl_mono. destruct (Rle_or_lt (acos (cosine_fl t1 t2 tr v)) (PI / 2)) as [G|G]; [exact G|]. exfalso. pose proof PI_RGT_0. pose proof (cos_lt_0 _ G ltac:(lra)) as Cn. rewrite cos_acos in Cn by lra. lra.
Qed.
(** C141. The computed distance is norm * (1 + penalty * angle / neighbouring angle), for the computed angle (between 0 and 90 degrees), up to (n + 4) * 2^-51 of its value. *)
Theorem C141_distance : forall t1 t2 t3 n penalty vecs trs gam k i, (n <= 2 ^ 20)%nat -> Permutation (leaves t3) (seq 0 n) -> ordinary n (row trs i) -> 0 <= penalty <= bpow radix2 20 -> 0 <= nth k gam 0 ->
  let theta := theta_fl t1 t2 (row trs i) (row vecs k) in let exact := norm (row trs i) * (1 + penalty * (theta / zero_eps (nth k gam 0))) in
  0 <= theta <= fl (PI / 2) /\ Rabs (apd_fl t1 t2 t3 penalty vecs trs gam k i - exact) <= INR (n + 4) * bpow radix2 (-51) * exact.
Proof.
  intros t1 t2 t3 n p vecs trs gam k i Hn H3 Ho [P0 P1] G0. cbv zeta. pose proof (theta_range t1 t2 (row trs i) (row vecs k)) as Th. split; [exact Th|]. destruct (ordinary_moderate n _ Ho) as (Mo & Pt). pose proof (ordinary_pos n _ Ho) as N1.
  destruct Ho as (Lt & _ & Hz). destruct (small_units n N1 Hn) as (Z & Zu & Zn). pose proof (magnitude_err t3 (row trs i)) as ME. rewrite Lt in ME. destruct (ME Hn H3 Mo Hz) as (M1 & M2). clear ME.
  assert (E0 : 0 < zero_eps (nth k gam 0)). { unfold zero_eps. destruct (Req_EM_T (nth k gam 0) 0) as [E|E]; [unfold eps; apply Rinv_0_lt_compat, pow_lt; lra|lra]. }
  unfold apd_fl. set (th := theta_fl t1 t2 (row trs i) (row vecs k)) in *. set (g := zero_eps (nth k gam 0)) in *. set (m := magnitude_fl t3 (row trs i)) in *. pose proof u_pos as U0. pose proof u_small as U1.
  assert (A0 : 0 <= th / g) by (apply Rmult_le_pos; [lra|apply Rlt_le, Rinv_0_lt_compat; exact E0]). pose proof (fl_nonneg_err _ A0) as Q1. assert (Q10 : 0 <= fl (th / g)) by (rewrite <- fl_0; apply fl_mono; exact A0).
  assert (B0 : 0 <= p * fl (th / g)) by (apply Rmult_le_pos; assumption). pose proof (fl_nonneg_err _ B0) as Q2. assert (Q20 : 0 <= fl (p * fl (th / g))) by (rewrite <- fl_0; apply fl_mono; exact B0).
  assert (Q3 : (1 - u) * (1 + fl (p * fl (th / g))) <= fl (1 + fl (p * fl (th / g))) <= (1 + u) * (1 + fl (p * fl (th / g)))).
  { apply fl_pos_err. left. apply Rle_trans with (bpow radix2 0); [apply bpow_le; lia|]. cbn [bpow]. lra. }
  assert (Q30 : 1 <= fl (1 + fl (p * fl (th / g)))) by (apply Rle_trans with (fl 1); [rewrite fl_id; [lra|change 1 with (bpow radix2 0); apply double_bpow; lia]|apply fl_mono; lra]).
  assert (Q4 : (1 - u) * (m * fl (1 + fl (p * fl (th / g)))) <= fl (m * fl (1 + fl (p * fl (th / g)))) <= (1 + u) * (m * fl (1 + fl (p * fl (th / g))))).
  { apply fl_pos_err. left. apply Rle_trans with (bpow radix2 (-502) * 1); [rewrite Rmult_1_r; apply bpow_le; lia|]. pose proof (bpow_gt_0 radix2 (-502)). apply Rmult_le_compat; lra. }
  assert (U51 : bpow radix2 (-51) = 4 * u) by (change (-51)%Z with (2 + -53)%Z; rewrite bpow_plus; reflexivity). rewrite U51. replace (INR (n + 4) * (4 * u)) with (4 * (INR (n + 4) * u)) by ring.
  assert (U8 : bpow radix2 (-56) = / 8 * u) by (change (-56)%Z with (-3 + -53)%Z; rewrite bpow_plus; reflexivity). assert (Eta : bpow radix2 (-1055) = bpow radix2 20 * eta) by (change (-1055)%Z with (20 + -1075)%Z; rewrite bpow_plus; reflexivity).
  assert (PE : p * eta <= / 8 * u). { rewrite <- U8. apply Rle_trans with (bpow radix2 20 * eta); [apply Rmult_le_compat_r; [apply bpow_ge_0|exact P1]|]. rewrite <- Eta. apply bpow_le. lia. }
  assert (EE : eta <= / 8 * u) by (rewrite <- U8; apply bpow_le; lia). pose proof (bpow_ge_0 radix2 (-1075)) as E00.
  exact (apd_chain (INR (n + 4) * u) u p (th / g) eta (fl (th / g)) (fl (p * fl (th / g))) (fl (1 + fl (p * fl (th / g)))) _ m (norm (row trs i)) Z (Rlt_le _ _ U0) Zu P0 A0 (norm_nonneg _) E00 PE EE Q1 Q2 Q3 M1 Q20 Q4).
Qed.

(** ** The choice *)
Lemma niche_in t1 t2 vecs trs k i : In i (niche_fl t1 t2 vecs trs k) <-> (i < length trs)%nat /\ assigned_fl t1 t2 vecs (row trs i) = k.
Proof. unfold niche_fl. rewrite filter_In, in_seq, Nat.eqb_eq. split; intros [A B]; split; auto; lia. Qed.
(** C141. Every solution belongs to the niche of exactly one vector; from every niche with members exactly one is chosen, one of least computed distance - and that is least up to (n + 4) * 2^-49 of its value
    for the computed angles; from empty niches none. *)
Theorem C141_choice : forall t1 t2 t3 penalty vecs trs gam k,
  ((forall i, (i < length trs)%nat -> assigned_fl t1 t2 vecs (row trs i) <> k) -> choose_fl t1 t2 t3 penalty vecs trs gam k = []) /\
  ((exists i, (i < length trs)%nat /\ assigned_fl t1 t2 vecs (row trs i) = k) -> exists c, choose_fl t1 t2 t3 penalty vecs trs gam k = [c] /\ (c < length trs)%nat /\ assigned_fl t1 t2 vecs (row trs c) = k /\
    forall i, (i < length trs)%nat -> assigned_fl t1 t2 vecs (row trs i) = k -> apd_fl t1 t2 t3 penalty vecs trs gam k c <= apd_fl t1 t2 t3 penalty vecs trs gam k i).
Proof.
  intros t1 t2 t3 p vecs trs gam k. pose proof (niche_in t1 t2 vecs trs k) as NI. unfold choose_fl. split.
  - intros H. destruct (niche_fl t1 t2 vecs trs k) as [|i l] eqn:E; [reflexivity|]. exfalso. destruct (proj1 (NI i) (or_introl eq_refl)) as (A & B). exact (H i A B).
  - intros (i & Hi & Ai). destruct (niche_fl t1 t2 vecs trs k) as [|a [|b l]] eqn:E.
    + exfalso. exact (proj2 (NI i) (conj Hi Ai)).
    + exists a. split; [reflexivity|]. destruct (proj1 (NI a) (or_introl eq_refl)) as (A & B). split; [exact A|]. split; [exact B|]. intros j Hj Aj. destruct (proj2 (NI j) (conj Hj Aj)) as [<-|[]]. lra.
    + set (sub := a :: b :: l) in *. destruct (argmin_some (map (apd_fl t1 t2 t3 p vecs trs gam k) sub)) as (j & Hj); [discriminate|]. rewrite Hj. destruct (argmin_spec _ _ Hj) as (m & Hm & Hall & _).
      rewrite nth_error_map in Hm. destruct (nth_error sub j) as [c|] eqn:Ec; [|discriminate]. injection Hm as <-. exists c. split; [rewrite (nth_error_nth _ _ 0%nat Ec); reflexivity|].
      destruct (proj1 (NI c) (nth_error_In _ _ Ec)) as (A & B). split; [exact A|]. split; [exact B|]. intros q Hq Aq. apply Hall. apply in_map. exact (proj2 (NI q) (conj Hq Aq)).
Qed.
Theorem C141_best_up_to_rounding : forall t1 t2 t3 n penalty vecs trs gam k c i, (n <= 2 ^ 20)%nat -> Permutation (leaves t3) (seq 0 n) -> (forall j, (j < length trs)%nat -> ordinary n (row trs j)) -> 0 <= penalty <= bpow radix2 20 -> 0 <= nth k gam 0 ->
  choose_fl t1 t2 t3 penalty vecs trs gam k = [c] -> (i < length trs)%nat -> assigned_fl t1 t2 vecs (row trs i) = k ->
  let distance j := norm (row trs j) * (1 + penalty * (theta_fl t1 t2 (row trs j) (row vecs k) / zero_eps (nth k gam 0))) in
  distance c <= (1 + INR (n + 4) * bpow radix2 (-49)) * distance i.
Proof.
  intros t1 t2 t3 n p vecs trs gam k c i Hn H3 Ho Hp Hg Hc Hi Ai. cbv zeta. destruct (proj2 (C141_choice t1 t2 t3 p vecs trs gam k) (ex_intro _ i (conj Hi Ai))) as (c' & E & Lc & Ac & M). rewrite Hc in E. injection E as <-. specialize (M i Hi Ai).
  destruct (C141_distance t1 t2 t3 n p vecs trs gam k c Hn H3 (Ho c Lc) Hp Hg) as (Tc & Dc). destruct (C141_distance t1 t2 t3 n p vecs trs gam k i Hn H3 (Ho i Hi) Hp Hg) as (Ti & Di). cbv zeta in *.
  destruct (small_units n (ordinary_pos n _ (Ho i Hi)) Hn) as (Z & Zu & Zn). assert (U51 : bpow radix2 (-51) = 4 * u) by (change (-51)%Z with (2 + -53)%Z; rewrite bpow_plus; reflexivity). assert (U49 : bpow radix2 (-49) = 16 * u) by (change (-49)%Z with (4 + -53)%Z; rewrite bpow_plus; reflexivity).
  rewrite U51 in Dc, Di. rewrite U49. set (z := INR (n + 4) * u) in *. replace (INR (n + 4) * (4 * u)) with (4 * z) in * by (unfold z; ring). replace (INR (n + 4) * (16 * u)) with (16 * z) by (unfold z; ring).
  apply Rabs_le_inv in Dc, Di. set (a := norm (row trs c) * _) in *. set (b := norm (row trs i) * _) in *. set (x := apd_fl t1 t2 t3 p vecs trs gam k c) in *. set (y := apd_fl t1 t2 t3 p vecs trs gam k i) in *.
  assert (B0 : 0 <= b). { unfold b. assert (E0 : 0 < zero_eps (nth k gam 0)). { unfold zero_eps. destruct (Req_EM_T (nth k gam 0) 0) as [E|E]; [unfold eps; apply Rinv_0_lt_compat, pow_lt; lra|lra]. }
    apply Rmult_le_pos; [apply norm_nonneg|]. assert (0 <= p * (theta_fl t1 t2 (row trs i) (row vecs k) / zero_eps (nth k gam 0))) by (apply Rmult_le_pos; [lra|apply Rmult_le_pos; [lra|apply Rlt_le, Rinv_0_lt_compat; exact E0]]). lra. }
  clearbody a b x y z. apply Rmult_le_reg_l with (1 - 4 * z); [lra|]. apply Rle_trans with ((1 + 4 * z) * b); [lra|]. rewrite <- Rmult_assoc. apply Rmult_le_compat_r; [exact B0|].
  assert (z * z <= / 1000000 * z) by (apply Rmult_le_compat_r; lra). lra.
Qed.

(** ** Early in the run *)
Lemma sum_fl_mono t f g : (forall i, In i (leaves t) -> f i <= g i) -> sum_fl t f <= sum_fl t g.
Proof. induction t as [i|l IHl r IHr]; intros H; cbn [sum_fl]; [apply H; left; reflexivity|]. apply fl_mono, Rplus_le_compat; [apply IHl|apply IHr]; intros i Hi; apply H; cbn [leaves]; apply in_or_app; auto. Qed.
(** C141. With penalty 0 (the first generation) the computed distance never prefers a solution over one that is at least as good in every objective. *)
Theorem C141_no_penalty : forall t1 t2 t3 vecs ideal f g gam k i j trs, (forall m, 0 <= nth m (translated_fl ideal f) 0) -> length f = length ideal -> length g = length ideal -> Forall2 Rle f g ->
  nth_error trs i = Some (translated_fl ideal f) -> nth_error trs j = Some (translated_fl ideal g) -> apd_fl t1 t2 t3 0 vecs trs gam k i <= apd_fl t1 t2 t3 0 vecs trs gam k j.
Proof.
  intros t1 t2 t3 vecs z f g gam k i j trs H0 Lf Lg Le Ei Ej. unfold apd_fl. rewrite !Rmult_0_l, fl_0, Rplus_0_r. rewrite (fl_id 1) by (change 1 with (bpow radix2 0); apply double_bpow; lia). rewrite !Rmult_1_r. apply fl_mono. unfold magnitude_fl. apply fl_mono, sqrt_le_1_alt, sum_fl_mono.
  intros m _. apply fl_mono. unfold row. rewrite (nth_error_nth _ _ [] Ei), (nth_error_nth _ _ [] Ej).
  assert (X : nth m (translated_fl z f) 0 <= nth m (translated_fl z g) 0).
  { clear - Le Lf Lg. unfold translated_fl, vsub. revert z m Lf Lg. induction Le as [|x y f g E Le IH]; intros z m Lf Lg; [destruct m; cbn; lra|]. destruct z as [|c z]; [discriminate|]. destruct m as [|m]; cbn [vmap2 map nth]; [apply fl_mono; lra|]. apply IH; cbn in *; lia. }
  specialize (H0 m). apply Rmult_le_compat; lra.
Qed.

(** ** A solution equal to the ideal point *)
Lemma sum_zero t f : (forall i, f i = 0) -> sum_fl t f = 0.
Proof. intros H. induction t as [i|l IHl r IHr]; cbn [sum_fl]; [apply H|]. rewrite IHl, IHr, Rplus_0_r. apply fl_0. Qed.
Lemma nth_all_zero l i : (forall x, In x l -> x = 0) -> nth i l 0 = 0.
Proof. intros H. destruct (nth_in_or_default i l 0) as [G|G]; [apply H; exact G|exact G]. Qed.
(** C141. A solution as good as the ideal point in every objective is assigned to the first vector, with distance 0, whatever the penalty; no distance is below 0 (so it is chosen there unless an earlier one ties). *)
Theorem C141_ideal_point : forall t1 t2 t3 vecs tr, (forall x, In x tr -> x = 0) -> vecs <> [] ->
  assigned_fl t1 t2 vecs tr = 0%nat /\ (forall penalty trs gam k i, row trs i = tr -> apd_fl t1 t2 t3 penalty vecs trs gam k i = 0).
Proof.
  intros t1 t2 t3 vecs tr H NE. split.
  - assert (C : forall v, cosine_fl t1 t2 tr v = 0).
    { intros v. unfold cosine_fl, dot_fl. rewrite sum_zero.
      - unfold clip01. destruct (Rlt_dec 1 0); [lra|]. destruct (Rlt_dec 0 0); lra.
      - intros i. rewrite (nth_all_zero (unit_row_fl t1 tr)); [rewrite Rmult_0_l; apply fl_0|]. unfold unit_row_fl. destruct (norm_fl t1 tr) as [q|]; [cbv zeta|]; intros x Hx; apply in_map_iff in Hx; destruct Hx as (y & <- & Hy); [|reflexivity].
        rewrite (H y Hy). unfold Rdiv. rewrite Rmult_0_l. apply fl_0. }
    unfold assigned_fl, argmax. destruct vecs as [|v vs]; [congruence|]. cbn [map argmin]. rewrite C. clear NE. generalize 1%nat. induction vs as [|w vs IH]; intros m; [reflexivity|]. cbn [map argmin_from]. rewrite C.
    destruct (Rlt_dec (- 0) (- 0)); [lra|apply IH].
  - intros p trs gam k i E. unfold apd_fl. rewrite E. unfold magnitude_fl. rewrite sum_zero; [rewrite sqrt_0, fl_0, Rmult_0_l; apply fl_0|]. intros j. rewrite (nth_all_zero tr j H), Rmult_0_l. apply fl_0.
Qed.
Theorem C141_distance_nonneg : forall t1 t2 t3 penalty vecs trs gam k i, 0 <= penalty -> 0 <= nth k gam 0 -> 0 <= apd_fl t1 t2 t3 penalty vecs trs gam k i.
Proof.
  intros t1 t2 t3 p vecs trs gam k i Hp Hg. assert (F : forall x, 0 <= x -> 0 <= fl x) by (intros x Hx; rewrite <- fl_0; apply fl_mono; exact Hx). unfold apd_fl. pose proof (theta_range t1 t2 (row trs i) (row vecs k)) as Th.
  assert (E0 : 0 < zero_eps (nth k gam 0)). { unfold zero_eps. destruct (Req_EM_T (nth k gam 0) 0) as [E|E]; [unfold eps; apply Rinv_0_lt_compat, pow_lt; lra|lra]. }
  assert (M0 : 0 <= magnitude_fl t3 (row trs i)) by (apply F, sqrt_pos).
  assert (Q1 : 0 <= fl (theta_fl t1 t2 (row trs i) (row vecs k) / zero_eps (nth k gam 0))) by (apply F; apply Rmult_le_pos; [lra|apply Rlt_le, Rinv_0_lt_compat; exact E0]).
  assert (Q2 : 0 <= fl (p * fl (theta_fl t1 t2 (row trs i) (row vecs k) / zero_eps (nth k gam 0)))) by (apply F; apply Rmult_le_pos; assumption).
  assert (Q3 : 0 <= fl (1 + fl (p * fl (theta_fl t1 t2 (row trs i) (row vecs k) / zero_eps (nth k gam 0))))) by (apply F; lra).
  apply F. apply Rmult_le_pos; assumption.
Qed.

(** ** Very small objectives *)
(** C141 (false of the code). Two solutions with (translated) objectives below 2^-538 have the computed distance 0 whatever the penalty: the one that is worse in every respect is kept if it comes first. *)
Theorem C141_tiny_refuted : forall t penalty gam, Permutation (leaves t) (seq 0 2) -> 0 <= penalty ->
  let better := [bpow radix2 (-539); 0] in let worse := [bpow radix2 (-538); 0] in let vecs := [[1; 0]; [0; 1]] in let trs := [worse; better] in
  norm better < norm worse /\ cosine_of better [1; 0] = cosine_of worse [1; 0] /\
  apd_fl t t t penalty vecs trs gam 0 0 = 0 /\ apd_fl t t t penalty vecs trs gam 0 1 = 0 /\ choose_fl t t t penalty vecs trs gam 0 = [0%nat].
Proof.
  intros t p gam Ht Hp. cbv zeta.
  assert (Nm : forall k, norm [bpow radix2 k; 0] = bpow radix2 k) by (intros k; unfold norm; cbn [dot]; replace (bpow radix2 k * bpow radix2 k + (0 * 0 + 0)) with (bpow radix2 k * bpow radix2 k) by ring; apply sqrt_square, bpow_ge_0).
  assert (N1 : norm [1; 0] = 1) by (change 1 with (bpow radix2 0); apply Nm).
  assert (Cs : forall k, cosine_of [bpow radix2 k; 0] [1; 0] = 1) by (intros k; unfold cosine_of; rewrite Nm, N1; cbn [dot]; pose proof (bpow_gt_0 radix2 k); field; lra).
  assert (Sq : forall k, (k <= -538)%Z -> fl (bpow radix2 k * bpow radix2 k) = 0).
  { intros k Hk. rewrite <- bp. apply Rle_antisym; [|rewrite <- fl_0; apply fl_mono, bpow_ge_0]. apply Rle_trans with (fl (bpow radix2 (-1076))); [apply fl_mono, bpow_le; lia|].
    rewrite (fl_grid 0); [rewrite Rmult_0_l; lra|reflexivity|]. rewrite Rmult_0_l, Rminus_0_r, Rabs_pos_eq by apply bpow_ge_0. replace (bpow radix2 (-1074)) with (4 * bpow radix2 (-1076)) by (change (-1074)%Z with (2 + -1076)%Z; rewrite bp; reflexivity). pose proof (bpow_gt_0 radix2 (-1076)). lra. }
  assert (Sum : forall k, (k <= -538)%Z -> sum_fl t (fun i => fl (nth i [bpow radix2 k; 0] 0 * nth i [bpow radix2 k; 0] 0)) = 0).
  { intros k Hk. destruct (two_orders t Ht) as [-> | ->]; cbn [sum_fl nth]; rewrite (Sq k Hk), Rmult_0_l, fl_0, Rplus_0_r; apply fl_0. }
  assert (Mag : forall k, (k <= -538)%Z -> magnitude_fl t [bpow radix2 k; 0] = 0) by (intros k Hk; unfold magnitude_fl; rewrite (Sum k Hk), sqrt_0; apply fl_0).
  assert (Row : forall k, (-900 <= k <= -538)%Z -> unit_row_fl t [bpow radix2 k; 0] = [bpow radix2 (k + 52); 0]).
  { intros k Hk. unfold unit_row_fl, norm_fl. rewrite (Sum k) by lia. destruct (Rlt_dec _ _) as [_|X]; [|exfalso; apply X; apply bpow_gt_0]. rewrite sqrt_0, fl_0. destruct (Req_EM_T 0 0) as [_|X]; [|contradiction X; reflexivity].
    cbv zeta. cbn [map]. unfold Rdiv. rewrite Rmult_0_l, fl_0, <- bpow_opp, <- bp. cbn [Z.opp]. rewrite fl_id by (apply double_bpow; lia). reflexivity. }
  assert (C1 : forall k, (-900 <= k <= -538)%Z -> cosine_fl t t [bpow radix2 k; 0] [1; 0] = bpow radix2 (k + 52) /\ cosine_fl t t [bpow radix2 k; 0] [0; 1] = 0).
  { intros k Hk. unfold cosine_fl, dot_fl. rewrite (Row k Hk). assert (B : 0 < bpow radix2 (k + 52) <= 1) by (split; [apply bpow_gt_0|change 1 with (bpow radix2 0); apply bpow_le; lia]).
    assert (Id : fl (bpow radix2 (k + 52)) = bpow radix2 (k + 52)) by (apply fl_id, double_bpow; lia).
    split; (destruct (two_orders t Ht) as [-> | ->]; cbn [sum_fl nth]; rewrite ?Rmult_0_l, ?Rmult_0_r, ?Rmult_1_r, ?fl_0, ?Rplus_0_r, ?Rplus_0_l, ?Id, ?fl_0, ?Id; unfold clip01; repeat match goal with |- context [Rlt_dec ?a ?b] => destruct (Rlt_dec a b) end; lra). }
  assert (As : forall k, (-900 <= k <= -538)%Z -> assigned_fl t t [[1; 0]; [0; 1]] [bpow radix2 k; 0] = 0%nat).
  { intros k Hk. destruct (C1 k Hk) as (A & B). unfold assigned_fl. cbn [map]. rewrite A, B. unfold argmax. cbn [map argmin argmin_from]. pose proof (bpow_gt_0 radix2 (k + 52)). destruct (Rlt_dec (- 0) (- bpow radix2 (k + 52))); [lra|reflexivity]. }
  assert (Ap : forall i, (i < 2)%nat -> apd_fl t t t p [[1; 0]; [0; 1]] [[bpow radix2 (-538); 0]; [bpow radix2 (-539); 0]] gam 0 i = 0).
  { intros i Hi. unfold apd_fl. destruct i as [|[|i]]; [| |lia]; unfold row at 1; cbn [nth]; rewrite Mag by lia; rewrite Rmult_0_l; apply fl_0. }
  split; [rewrite !Nm; apply bpow_lt; lia|]. split; [rewrite !Cs; reflexivity|]. split; [apply Ap; lia|]. split; [apply Ap; lia|].
  unfold choose_fl, niche_fl. cbn [length seq filter row nth]. unfold row. cbn [nth]. rewrite (As (-538)%Z), (As (-539)%Z) by lia. cbn [Nat.eqb]. cbn [map]. rewrite (Ap 0%nat), (Ap 1%nat) by lia. cbn [argmin argmin_from]. destruct (Rlt_dec 0 0); [lra|reflexivity].
Qed.
(** ** Non-vacuity *)
Lemma norm_10 : norm [1; 0] = 1.
Proof. unfold norm; cbn [dot]. replace (1 * 1 + (0 * 0 + 0)) with (1 * 1) by ring. apply sqrt_square. lra. Qed.
Lemma norm_01 : norm [0; 1] = 1.
Proof. unfold norm; cbn [dot]. replace (0 * 0 + (1 * 1 + 0)) with (1 * 1) by ring. apply sqrt_square. lra. Qed.
Lemma moderate_small z : (1 <= z <= 8)%Z -> bpow radix2 (-500) <= IZR z <= bpow radix2 500.
Proof.
  intros [A B]. split; [apply Rle_trans with 1; [change 1 with (bpow radix2 0); apply bpow_le; lia|apply (IZR_le 1); exact A]|].
  apply Rle_trans with 8; [apply (IZR_le z 8); exact B|change 8 with (bpow radix2 3); apply bpow_le; lia].
Qed.
Example ex_ordinary : ordinary 2 [3; 4] /\ ordinary 2 [2; 0] /\ direction 2 [1; 0] /\ direction 2 [0; 1].
Proof.
  assert (D : forall v, norm v = 1 -> Rabs (norm v - 1) <= INR (2 + 4) * bpow radix2 (-51)) by (intros v ->; rewrite Rminus_diag_eq, Rabs_R0 by reflexivity; apply Rmult_le_pos; [apply pos_INR|apply bpow_ge_0]).
  split; [|split; [|split]].
  - split; [reflexivity|]. split; [|exists 3; split; [left; reflexivity|lra]]. intros x [<-|[<-|[]]]; right; apply moderate_small; lia.
  - split; [reflexivity|]. split; [|exists 2; split; [left; reflexivity|lra]]. intros x [<-|[<-|[]]]; [right; apply moderate_small; lia|left; reflexivity].
  - split; [reflexivity|]. split; [|apply D, norm_10]. intros x [<-|[<-|[]]]; lra.
  - split; [reflexivity|]. split; [|apply D, norm_01]. intros x [<-|[<-|[]]]; lra.
Qed.
Definition two : order := Node (Leaf 0) (Leaf 1).
Lemma two_perm : Permutation (leaves two) (seq 0 2).
Proof. apply Permutation_refl. Qed.
(** The solution (2, 0) is assigned to the first of the two axes, its true cosine with it being 1. *)
Example ex_assigned : assigned_fl two two [[1; 0]; [0; 1]] [2; 0] = 0%nat.
Proof.
  destruct ex_ordinary as (_ & Ho & D1 & D2). pose proof (Nat.pow_le_mono_r 2 1 20 ltac:(lia) ltac:(lia)) as P. rewrite Nat.pow_1_r in P.
  destruct (C141_assignment two two 2 [[1; 0]; [0; 1]] [2; 0] P two_perm two_perm Ho ltac:(discriminate) ltac:(intros v [<-|[<-|[]]]; assumption)) as (v & Hv & M).
  destruct (assigned_fl two two [[1; 0]; [0; 1]] [2; 0]) as [|[|[|k]]] eqn:E; [reflexivity| |discriminate|discriminate]. cbn [nth_error] in Hv. injection Hv as <-. specialize (M [1; 0] (or_introl eq_refl)). exfalso.
  assert (N2 : norm [2; 0] = 2) by (unfold norm; cbn [dot]; replace (2 * 2 + (0 * 0 + 0)) with (2 * 2) by ring; apply sqrt_square; lra).
  unfold cosine_of in M. rewrite N2, norm_10, norm_01 in M. cbn [dot] in M. assert (B : INR (2 + 4) * bpow radix2 (-48) <= 6 * / 64) by (apply Rmult_le_compat; [apply pos_INR|apply bpow_ge_0|cbn; lra|change (/ 64) with (bpow radix2 (-6)); apply bpow_le; lia]). lra.
Qed.
Print Assumptions C141_cosine.
Print Assumptions C141_assignment.
Print Assumptions C141_distance.
Print Assumptions C141_choice.
Print Assumptions C141_best_up_to_rounding.
Print Assumptions C141_no_penalty.
Print Assumptions C141_tiny_refuted.
Print Assumptions C141_ideal_point.
Print Assumptions C141_distance_nonneg.
