(** C139: the reference vectors a run starts with, as computed in double precision. *)
From Coq Require Import Reals Lra Lia Permutation ZArith.
From Flocq Require Import Core.
From Verif Require Import Base RVec M_RefVec M_BaseEA M_Lattice Properties_Lattice M_Double P_Double M_RefDouble P_RefDouble Properties_RefDouble Properties_RefDouble2 M_LatDouble P_LatDouble.
Open Scope R_scope.
Lemma Forall2_cons_split {A B} (P : A -> B -> Prop) a l m : Forall2 P (a :: l) m -> exists b m', m = b :: m' /\ P a b /\ Forall2 P l m'.
Proof. inversion 1; subst. eauto. Qed.
Lemma resolution_range (h : nat) : (1 <= Z.of_nat h <= 2 ^ 22)%Z -> 1 <= INR h <= 4194304.
Proof. intros H. rewrite INR_IZR_INZ. split; apply IZR_le; lia. Qed.
Section Row.
Context (n h : nat) (Hn : (n <= 2 ^ 20)%nat) (Hh : (1 <= Z.of_nat h <= 2 ^ 22)%Z) (w : list Z) (Lw : length w = n) (Pw : Forall (fun z => (0 <= z)%Z) w) (Sw : zsum w = Z.of_nat h).
Notation p := (map (fun k => fl (IZR k / INR h)) w).
Lemma planar_entry k : In k w -> (k = 0%Z /\ fl (IZR k / INR h) = 0) \/ (bpow radix2 (-22) <= fl (IZR k / INR h) <= 1 /\ Rabs (fl (IZR k / INR h) - IZR k / INR h) <= u * (IZR k / INR h)).
Proof.
  intros Hk. pose proof (resolution_range h Hh) as [H1 H2]. apply In_nth_error in Hk as [i Hi]. destruct (entry_le_sum w i k Pw Hi) as [K0 K1]. rewrite Sw in K1. destruct (Z.eq_dec k 0) as [->|K2]; [left; split; [reflexivity|]; unfold Rdiv; rewrite Rmult_0_l; apply fl_0|right].
  assert (A : 1 <= IZR k <= INR h) by (rewrite INR_IZR_INZ; split; apply IZR_le; lia). assert (I0 : 0 < / INR h) by (apply Rinv_0_lt_compat; lra). assert (I1 : INR h * / INR h = 1) by (apply Rinv_r; lra).
  assert (I2 : bpow radix2 (-22) <= / INR h) by (apply Rinv_le_contravar; [lra|exact H2]). assert (B : bpow radix2 (-22) <= IZR k / INR h <= 1) by (unfold Rdiv; split; nra). split.
  - split; [rewrite <- (fl_id (bpow radix2 (-22))) by (apply double_bpow; lia)|rewrite <- (fl_id 1) by (apply (double_bpow 0); lia)]; apply fl_mono; apply B.
  - pose proof (bpow_gt_0 radix2 (-22)). pose proof (fl_err_normal (IZR k / INR h)) as E. rewrite (Rabs_pos_eq (IZR k / INR h)) in E by lra. apply E. apply Rle_trans with (bpow radix2 (-22)); [apply bpow_le; lia|apply B].
Qed.
Lemma planar_moderate : Forall moderate p.
Proof.
  apply Forall_forall. intros x Hx. apply in_map_iff in Hx as (k & <- & Hk). destruct (planar_entry k Hk) as [[_ ->]|[[A B] _]]; [left; reflexivity|right]. pose proof (bpow_gt_0 radix2 (-22)). rewrite Rabs_pos_eq by lra.
  split; [apply Rle_trans with (2 := A); apply bpow_le; lia|apply Rle_trans with (1 := B); apply (bpow_le radix2 0 500); lia].
Qed.
Lemma weight_nonzero : exists k, In k w /\ k <> 0%Z.
Proof.
  assert (N : zsum w <> 0%Z) by lia. clear - N. induction w as [|k w' IH]; [exfalso; apply N; reflexivity|]. cbn [fold_right] in N. destruct (Z.eq_dec k 0) as [->|E]; [|exists k; split; [left; reflexivity|exact E]]. destruct IH as (k & A & B); [lia|exists k; split; [right; exact A|exact B]].
Qed.
Lemma planar_nonzero : exists x, In x p /\ x <> 0.
Proof.
  destruct weight_nonzero as (k & Hk & N). exists (fl (IZR k / INR h)). split; [apply (in_map (fun k => fl (IZR k / INR h))); exact Hk|]. destruct (planar_entry k Hk) as [[E _]|[[A _] _]]; [contradiction|]. pose proof (bpow_gt_0 radix2 (-22)). lra.
Qed.
Lemma planar_sum : Rabs (fold_right Rplus 0 p - 1) <= u.
Proof.
  pose proof (resolution_range h Hh) as [H1 H2]. pose proof u_pos as U0. assert (G : forall l, (forall k, In k l -> In k w) -> Forall (fun z => (0 <= z)%Z) l -> Rabs (fold_right Rplus 0 (map (fun k => fl (IZR k / INR h)) l) - IZR (zsum l) / INR h) <= u * (IZR (zsum l) / INR h)).
  { induction l as [|k l IH]; intros Hs Pl; cbn [map fold_right]; [unfold Rdiv; rewrite Rmult_0_l, Rmult_0_r, Rminus_0_r, Rabs_R0; lra|]. pose proof (Forall_inv Pl) as P0. pose proof (Forall_inv_tail Pl) as P1. specialize (IH (fun k H => Hs k (or_intror H)) P1). rewrite plus_IZR.
    assert (E : Rabs (fl (IZR k / INR h) - IZR k / INR h) <= u * (IZR k / INR h)). { destruct (planar_entry k (Hs k (or_introl eq_refl))) as [[-> E]|[_ E]]; [|exact E]. rewrite E. unfold Rdiv. rewrite Rmult_0_l, Rminus_0_r, Rabs_R0. lra. }
    apply Rabs_le_inv in IH, E. unfold Rdiv in *. apply Rabs_le. lra. }
  specialize (G w (fun k H => H) Pw). rewrite Sw, <- INR_IZR_INZ in G. unfold Rdiv in G. rewrite Rinv_r in G by lra. rewrite Rmult_1_r in G. exact G.
Qed.
Context (t : order) (Ht : Permutation (leaves t) (seq 0 n)).
Notation x := (unit_row_fl t p).
Lemma row_norm : Rabs (norm x - 1) <= INR (n + 4) * bpow radix2 (-51).
Proof.
  assert (Lp : length p = n) by (rewrite map_length; exact Lw). destruct (C137_unit_length_partial t p) as [A _]; [lia|rewrite Lp; exact Ht|exact planar_moderate|exact planar_nonzero|]. rewrite Lp in A. exact A.
Qed.
Lemma row_near : exists l, / (2 * INR h) <= l /\ near_multiple l w x.
Proof.
  assert (Lp : length p = n) by (rewrite map_length; exact Lw). destruct (C137_unit_length_partial t p) as [A (l & L & F)]; [lia|rewrite Lp; exact Ht|exact planar_moderate|exact planar_nonzero|]. rewrite Lp in A.
  pose proof (resolution_range h Hh) as [H1 H2]. pose proof u_pos as U0. pose proof u_small as U1. assert (I0 : 0 < / INR h) by (apply Rinv_0_lt_compat; lra). assert (I1 : INR h * / INR h = 1) by (apply Rinv_r; lra).
  assert (N : near_multiple (l * / INR h) w x).
  { assert (G : forall (q : list Z) y, (forall k, In k q -> In k w) -> Forall2 (fun a b => Rabs (b - l * a) <= u * (l * Rabs a)) (map (fun k => fl (IZR k / INR h)) q) y -> near_multiple (l * / INR h) q y); [|apply (G w x (fun k H => H)); exact F].
    induction q as [|k q IH]; intros y Hs Fq; [destruct y; [constructor|inversion Fq]|]. destruct (Forall2_cons_split _ _ _ _ Fq) as (b & y' & -> & Hab & Fq'). apply (Forall2_cons (R := fun a y => Rabs (y - l * / INR h * IZR a) <= 3 * u * (l * / INR h * IZR a))); [|apply IH; [intros c Hc; apply Hs; right; exact Hc|exact Fq']].
    destruct (planar_entry k (Hs k (or_introl eq_refl))) as [[-> E]|[[E1 E2] E]].
    - rewrite E, Rabs_R0 in Hab. rewrite !Rmult_0_r in *. exact Hab.
    - pose proof (bpow_gt_0 radix2 (-22)). rewrite (Rabs_pos_eq (fl _)) in Hab by lra. set (f := fl (IZR k / INR h)) in *. unfold Rdiv in E. apply Rabs_le_inv in E, Hab. set (r := IZR k * / INR h) in *. replace (l * / INR h * IZR k) with (l * r) by (unfold r; ring).
      assert (R0 : 0 <= r). { unfold r. apply Rmult_le_pos; [|lra]. apply IZR_le. rewrite Forall_forall in Pw. apply Pw, Hs. left. reflexivity. }
      assert (Q : exists v, v = u) by eauto. destruct Q as [v Ev]. rewrite <- Ev in *. assert (F1 : l * f <= (1 + v) * (l * r)) by nra. assert (F2 : (1 - v) * (l * r) <= l * f) by nra. assert (F3 : 0 <= l * r) by nra. assert (F4 : v * (l * f) <= v * ((1 + v) * (l * r))) by (apply Rmult_le_compat_l; lra).
      assert (F5 : v * (v * (l * r)) <= v * (1 * (l * r))) by (apply Rmult_le_compat_l; [lra|apply Rmult_le_compat_r; lra]). apply Rabs_le. lra. }
  exists (l * / INR h). split; [|exact N]. assert (Lpos : 0 < l * / INR h) by nra. pose proof (near_norm _ _ _ Lpos Pw N) as B. rewrite Sw, <- INR_IZR_INZ, <- norm_sq in B. replace (l * / INR h * INR h) with l in B by (rewrite Rmult_assoc, (Rmult_comm (/ INR h)), I1; ring).
  pose proof (INR_u n Hn) as Nu. assert (U : bpow radix2 (-51) = 4 * u) by (change (-51)%Z with (2 + -53)%Z; rewrite bpow_plus; reflexivity). rewrite U in A. apply Rabs_le_inv in A. pose proof (norm_nonneg x) as N0. set (b := norm x) in *.
  assert (b >= 9 / 10) by lra. assert (C : b <= (1 + 3 * u) * l). { destruct (Rle_or_lt b ((1 + 3 * u) * l)) as [C|C]; [exact C|]. exfalso. assert (0 <= (1 + 3 * u) * l) by nra. nra. }
  assert (/ 2 <= l) by nra. rewrite Rinv_mult. apply Rmult_le_compat_r; lra.
Qed.
Lemma row_nonneg y : In y x -> 0 <= y.
Proof.
  destruct row_near as (l & L & F). pose proof (resolution_range h Hh) as [H1 H2]. assert (L0 : 0 < / (2 * INR h)) by (apply Rinv_0_lt_compat; lra). pose proof u_pos as U0. pose proof u_small as U1. intros Hy. apply In_nth_error in Hy as [i Hi].
  assert (E : exists k, nth_error w i = Some k). { destruct (nth_error w i) as [k|] eqn:E; [eauto|]. exfalso. apply nth_error_None in E. assert (length x = length w) by (unfold near_multiple in F; symmetry; clear - F; induction F; cbn; congruence). assert (i < length x)%nat by (apply nth_error_Some; congruence). lia. }
  destruct E as [k E]. destruct (near_entry _ _ _ _ _ F E) as (y' & Y & A & _). assert (y' = y) by congruence. subst y'. apply Rle_trans with (2 := A). destruct (entry_le_sum w i k Pw E) as [K0 _]. apply IZR_le in K0. apply Rmult_le_pos; [lra|]. apply Rmult_le_pos; lra.
Qed.
Lemma row_length : length x = n.
Proof. destruct row_near as (l & _ & F). rewrite <- Lw. clear - F. unfold near_multiple in F. induction F; cbn; congruence. Qed.
(** The planar vectors after division by their sums. *)
Notation y := (planar_row_fl t p).
Notation s1 := (sum_fl t (fun i => nth i p 0)).
Lemma map_nth_self (l : list R) : map (fun i => nth i l 0) (seq 0 (length l)) = l.
Proof. induction l as [|a l IH]; [reflexivity|]. cbn [length seq map nth]. f_equal. rewrite <- seq_shift, map_map. exact IH. Qed.
Lemma rsum_fold (l : list R) : rsum l = fold_right Rplus 0 l.
Proof. induction l as [|a l IH]; cbn [rsum fold_right]; [reflexivity|]. rewrite IH. reflexivity. Qed.
Lemma sum_fl_ext t0 (f g : nat -> R) : (forall i, f i = g i) -> sum_fl t0 f = sum_fl t0 g.
Proof. intros H. induction t0 as [i|a IHa b IHb]; cbn [sum_fl]; [apply H|]. rewrite IHa, IHb. reflexivity. Qed.
Lemma planar_nth_double i : double (nth i p 0) /\ (nth i p 0 = 0 \/ bpow radix2 (-22) <= nth i p 0).
Proof.
  destruct (nth_in_or_default i p 0) as [A|A]; [|rewrite A; split; [apply double_0|left; reflexivity]]. apply in_map_iff in A as (k & E & Hk). rewrite <- E. split; [apply fl_double|]. destruct (planar_entry k Hk) as [[_ Z]|[[B _] _]]; [left; exact Z|right; exact B].
Qed.
Lemma planar_total : (1 - u) ^ n * fold_right Rplus 0 p <= s1 <= (1 + u) ^ n * fold_right Rplus 0 p.
Proof.
  destruct (sum_fl_err t (fun i => nth i p 0)) as (_ & _ & A). { intros i _. destruct (planar_nth_double i) as [_ [B|B]]; [left; exact B|right; apply Rle_trans with (2 := B); apply bpow_le; lia]. }
  rewrite (sum_fl_ext t (fun i => fl (nth i p 0)) (fun i => nth i p 0)) in A by (intros i; apply fl_id, planar_nth_double). rewrite (esum_seq t _ n Ht) in A. assert (Lp : length p = n) by (rewrite map_length; exact Lw). assert (Em : map (fun i => nth i p 0) (seq 0 n) = p) by (rewrite <- Lp; apply map_nth_self). rewrite Em, rsum_fold in A. rewrite (Permutation_length Ht), seq_length in A. exact A.
Qed.
Lemma planar_total_range : 9 / 10 <= s1 <= 11 / 10.
Proof.
  pose proof planar_total as [A B]. pose proof planar_sum as C. apply Rabs_le_inv in C. pose proof u_pos as U0. pose proof u_small as U1. pose proof (INR_u n Hn) as N. rewrite plus_INR in N. replace (INR 4) with 4 in N by (cbn; lra). pose proof (pos_INR n) as N0.
  pose proof (pow_minus u n ltac:(lra)) as Pm. pose proof (pow_plus u n ltac:(lra) ltac:(lra)) as Pp. set (e := fold_right Rplus 0 p) in *. set (a := (1 - u) ^ n) in *. set (b := (1 + u) ^ n) in *. set (s := s1) in *. clearbody e a b s. split; nra.
Qed.
Lemma planar_row_near : near_multiple (/ s1 * / INR h) w y.
Proof.
  pose proof planar_total_range as [S1 S2]. pose proof (resolution_range h Hh) as [H1 H2]. assert (I0 : 0 < / INR h) by (apply Rinv_0_lt_compat; lra). assert (I1 : INR h * / INR h = 1) by (apply Rinv_r; lra). assert (J0 : 0 < / s1) by (apply Rinv_0_lt_compat; lra).
  assert (J1 : / 2 <= / s1 <= 2) by (split; [apply Rinv_le_contravar; lra|replace 2 with (/ / 2) by field; apply Rinv_le_contravar; lra]). unfold planar_row_fl. set (s := s1) in *. clearbody s. pose proof u_pos as U0. pose proof u_small as U1.
  assert (G : forall q, (forall k, In k q -> In k w) -> near_multiple (/ s * / INR h) q (map (fun x => fl (x / s)) (map (fun k => fl (IZR k / INR h)) q))); [|apply G; auto].
  induction q as [|k q IH]; intros Hs; [constructor|]. cbn [map]. apply (Forall2_cons (R := fun a y => Rabs (y - / s * / INR h * IZR a) <= 3 * u * (/ s * / INR h * IZR a))); [|apply IH; intros c Hc; apply Hs; right; exact Hc].
  destruct (planar_entry k (Hs k (or_introl eq_refl))) as [[-> E]|[[E1 E2] E]].
  - rewrite E. unfold Rdiv. rewrite Rmult_0_l, fl_0, !Rmult_0_r, Rminus_0_r, Rabs_R0. lra.
  - set (f := fl (IZR k / INR h)) in *. pose proof (bpow_gt_0 radix2 (-22)) as P22. assert (Fs : bpow radix2 (-23) <= f / s). { unfold Rdiv. apply Rle_trans with (bpow radix2 (-22) * / 2); [|apply Rmult_le_compat; lra]. change (/ 2) with (bpow radix2 (-1)). rewrite <- bpow_plus. apply bpow_le. lia. }
    pose proof (bpow_gt_0 radix2 (-23)). pose proof (fl_err_normal (f / s)) as D. rewrite (Rabs_pos_eq (f / s)) in D by lra. assert (Dn : bpow radix2 (-1022) <= f / s) by (apply Rle_trans with (2 := Fs); apply bpow_le; lia). specialize (D Dn). unfold Rdiv in *. apply Rabs_le_inv in D, E.
    set (r := IZR k * / INR h) in *. replace (/ s * / INR h * IZR k) with (/ s * r) by (unfold r; ring). set (o := fl (f * / s)) in *. set (i := / s) in *. assert (Q : exists c, c = u) by eauto. destruct Q as [c Ec]. rewrite <- Ec in *. clearbody o i r f.
    assert (R0 : 0 <= r). { destruct (Rle_or_lt 0 r) as [Z|Z]; [exact Z|exfalso]. assert (c * r <= 0) by nra. lra. }
    assert (A1 : i * f <= i * ((1 + c) * r)) by (apply Rmult_le_compat_l; lra). assert (A2 : i * ((1 - c) * r) <= i * f) by (apply Rmult_le_compat_l; lra). assert (A3 : 0 <= i * r) by (apply Rmult_le_pos; lra). assert (A4 : 0 <= c * (i * r)) by (apply Rmult_le_pos; lra). assert (A5 : c * (c * (i * r)) <= 1 * (c * (i * r))) by (apply Rmult_le_compat_r; lra).
    assert (A6 : c * (f * i) <= c * (i * ((1 + c) * r))) by (apply Rmult_le_compat_l; lra). apply Rabs_le. lra.
Qed.
Lemma planar_row_factor : / (2 * INR h) <= / s1 * / INR h.
Proof.
  pose proof planar_total_range as [S1 S2]. pose proof (resolution_range h Hh) as [H1 H2]. assert (I0 : 0 < / INR h) by (apply Rinv_0_lt_compat; lra). rewrite Rinv_mult. apply Rmult_le_compat_r; [lra|]. apply Rinv_le_contravar; lra.
Qed.
Lemma planar_row_length : length y = n.
Proof. unfold planar_row_fl. rewrite !map_length. exact Lw. Qed.
Lemma planar_row_nonneg z : In z y -> 0 <= z.
Proof.
  unfold planar_row_fl. intros Hz. apply in_map_iff in Hz as (a & <- & Ha). apply in_map_iff in Ha as (k & <- & Hk). pose proof planar_total_range as [S1 S2]. assert (J0 : 0 < / s1) by (apply Rinv_0_lt_compat; lra). apply Rle_trans with (fl 0); [rewrite fl_0; lra|]. apply fl_mono.
  pose proof (bpow_gt_0 radix2 (-22)). destruct (planar_entry k Hk) as [[_ E]|[[E1 E2] _]]; [rewrite E; unfold Rdiv; lra|]. unfold Rdiv. apply Rmult_le_pos; lra.
Qed.
(** Their sums. *)
Lemma planar_row_sum : Rabs (fold_right Rplus 0 y - 1) <= INR (n + 4) * bpow radix2 (-52).
Proof.
  pose proof planar_total_range as [S1 S2]. pose proof planar_total as [A B]. pose proof planar_sum as C. apply Rabs_le_inv in C. assert (J0 : 0 < / s1) by (apply Rinv_0_lt_compat; lra). pose proof u_pos as U0. pose proof u_small as U1.
  assert (G : forall l, (forall z, In z l -> In z p) -> (1 - u) * (/ s1 * fold_right Rplus 0 l) <= fold_right Rplus 0 (map (fun x => fl (x / s1)) l) <= (1 + u) * (/ s1 * fold_right Rplus 0 l)).
  { assert (T : / 2 <= / s1) by (apply Rinv_le_contravar; lra). set (s := s1) in *. clearbody s. clear A B C. induction l as [|z l IH]; intros Hs; cbn [map fold_right]; [lra|]. specialize (IH (fun c Hc => Hs c (or_intror Hc))).
    assert (F : (1 - u) * (z / s) <= fl (z / s) <= (1 + u) * (z / s)). { apply fl_pos_err. destruct (In_nth p z 0 (Hs z (or_introl eq_refl))) as (i & _ & Ei). destruct (planar_nth_double i) as [_ N]. rewrite Ei in N. destruct N as [->|N]; [right; unfold Rdiv; ring|left].
      apply Rle_trans with (bpow radix2 (-22) * / 2); [change (/ 2) with (bpow radix2 (-1)); rewrite <- bpow_plus; apply bpow_le; lia|]. pose proof (bpow_gt_0 radix2 (-22)). unfold Rdiv. apply Rmult_le_compat; lra. }
    unfold Rdiv in F. lra. }
  specialize (G p (fun z H => H)). fold y in G. pose proof (INR_u n Hn) as N. rewrite plus_INR in *. replace (INR 4) with 4 in * by (cbn; lra). pose proof (pos_INR n) as N0. assert (U : bpow radix2 (-52) = 2 * u) by (change (-52)%Z with (1 + -53)%Z; rewrite bpow_plus; reflexivity). rewrite U.
  pose proof (pow_minus u n ltac:(lra)) as Pm. pose proof (pow_plus u n ltac:(lra) ltac:(lra)) as Pp. set (e := fold_right Rplus 0 p) in *. set (a := (1 - u) ^ n) in *. set (b := (1 + u) ^ n) in *. change (fold_right Rplus 0 (map (fun x => fl (x / s1)) p)) with (fold_right Rplus 0 y) in G.
  set (g := fold_right Rplus 0 y) in *. assert (I1 : s1 * / s1 = 1) by (apply Rinv_r; lra). set (s := s1) in *. set (i := / s) in *. clearbody e a b g i s. assert (Q : exists c, c = u) by eauto. destruct Q as [c Ec]. rewrite <- Ec in *. set (m := INR n) in *. clearbody m. clear Ec U.
  assert (Z : exists z, z = m * c) by eauto. destruct Z as [z Ez]. rewrite <- Ez in *. assert (Z0 : 0 <= z) by (rewrite Ez; apply Rmult_le_pos; lra). assert (Z1 : z <= / 1000000) by lra. replace ((m + 4) * (2 * c)) with (2 * z + 8 * c) by (rewrite Ez; ring).
  (* i * e against 1 *)
  assert (X0 : 0 <= i * e) by (apply Rmult_le_pos; lra). assert (X1 : a * (i * e) <= 1). { rewrite <- I1. replace (a * (i * e)) with (a * e * i) by ring. apply Rmult_le_compat_r; lra. } assert (X2 : 1 <= b * (i * e)). { rewrite <- I1. replace (b * (i * e)) with (b * e * i) by ring. apply Rmult_le_compat_r; lra. }
  set (x := i * e) in *. clearbody x. assert (X3 : (1 - z) * x <= 1) by nra. assert (X4 : 1 <= (1 + 2 * z) * x) by nra. assert (X5 : x <= 1 + 3 / 2 * z) by nra. assert (X6 : 1 - 2 * z <= x) by nra. assert (X7 : c * x <= c * 2) by (apply Rmult_le_compat_l; lra). apply Rabs_le. lra.
Qed.
End Row.

Lemma nth_error_map_some {A B} (f : A -> B) l i y : nth_error (map f l) i = Some y -> exists x, nth_error l i = Some x /\ y = f x.
Proof. rewrite nth_error_map. destruct (nth_error l i); cbn; [injection 1 as <-; eauto|discriminate]. Qed.
Lemma nodup_nth {A} (l : list A) i j x : NoDup l -> nth_error l i = Some x -> nth_error l j = Some x -> i = j.
Proof. intros N E1 E2. apply (proj1 (NoDup_nth_error l) N); [apply nth_error_Some; congruence|congruence]. Qed.
Lemma nodup_from_nth {A} (l : list A) : (forall i j x y, i <> j -> nth_error l i = Some x -> nth_error l j = Some y -> x <> y) -> NoDup l.
Proof.
  intros H. apply NoDup_nth_error. intros i j Li E. destruct (Nat.eq_dec i j) as [G|G]; [exact G|]. exfalso. destruct (nth_error l i) as [x|] eqn:X; [|apply nth_error_Some in Li; congruence]. exact (H i j x x G X (eq_sym E) eq_refl).
Qed.
Lemma zsum_repeat0 k : zsum (repeat 0%Z k) = 0%Z.
Proof. induction k; cbn; lia. Qed.
Lemma zsum_app (a b : list Z) : zsum (a ++ b) = (zsum a + zsum b)%Z.
Proof. induction a; cbn; lia. Qed.
Lemma zeros_nonneg k : Forall (fun z => (0 <= z)%Z) (repeat 0%Z k).
Proof. apply Forall_forall. intros z H. apply repeat_spec in H. lia. Qed.

(** C139. The reference vectors created for n >= 2 objectives (up to 2^20) and a resolution h >= 1 with (n + 8) * h^2 <= 2^44 - all practical ones - as computed in double precision, in whatever order the squares
    are added: as many as combinations of n-1 out of h+n-1; before normalisation the entries are h-ths correct to one rounding and sum to 1 up to 2^-53; afterwards each is a positive multiple of such a row up to
    relative errors of 3 * 2^-53 per entry, without negative entries and of length 1 up to (n+4) * 2^-51; no two are equal (squared distances of at least (n + 8) * 2^-48); and every neighbouring angle is computed to be at least 2^-25 and at most 90 degrees. *)
Theorem C139_initial_vectors : forall (t : order) (n h : nat), (2 <= n <= 2 ^ 20)%nat -> (1 <= h)%nat -> (Z.of_nat (n + 8) * (Z.of_nat h * Z.of_nat h) <= 2 ^ 44)%Z -> Permutation (leaves t) (seq 0 n) ->
  exists planar vs, planar_fl h n = Ok planar /\ initial_vectors_fl t h n = Ok vs /\ length vs = length planar /\ (length vs * fact (n - 1) = falling (h + n - 1) (n - 1))%nat /\ NoDup vs /\
    (forall i v, nth_error vs i = Some v -> exists w p, length w = n /\ Forall (fun z => (0 <= z)%Z) w /\ zsum w = Z.of_nat h /\
       nth_error planar i = Some p /\ p = map (fun k => fl (IZR k / INR h)) w /\ Rabs (fold_right Rplus 0 p - 1) <= bpow radix2 (-53) /\
       length v = n /\ (forall x, In x v -> 0 <= x) /\ Rabs (norm v - 1) <= INR (n + 4) * bpow radix2 (-51) /\
       (exists l, 0 < l /\ Forall2 (fun k x => Rabs (x - l * IZR k) <= 3 * bpow radix2 (-53) * (l * IZR k)) w v) /\
       Forall double v /\ (forall j v', j <> i -> nth_error vs j = Some v' -> INR (n + 8) * bpow radix2 (-48) <= dot (vsub v' v) (vsub v' v)) /\
       exists angle, neighbouring_angle_fl t vs v = Some angle /\ bpow radix2 (-25) <= angle <= fl (PI / 2)).
Proof.
  intros t n h [N1 N2] H1 Hb Ht. destruct (C44_lattice_complete h n N1) as (ws & E & Nd & Cnt & Spec).
  assert (Hh : (1 <= Z.of_nat h <= 2 ^ 22)%Z) by (split; [lia|]; destruct (Z_le_gt_dec (Z.of_nat h) (2 ^ 22)) as [G|G]; [exact G|exfalso; nia]).
  set (f := fun w : list Z => map (fun k => fl (IZR k / INR h)) w). set (g := fun w => unit_row_fl t (f w)).
  exists (map f ws), (map g ws). assert (E1 : planar_fl h n = Ok (map f ws)) by (unfold planar_fl; rewrite E; reflexivity). split; [exact E1|].
  split; [unfold initial_vectors_fl; rewrite E1; cbn [bind]; rewrite map_map; reflexivity|]. split; [rewrite !map_length; reflexivity|]. split; [rewrite map_length; exact Cnt|].
  pose proof (resolution_range h Hh) as [Hlo Hhi].
  assert (Sep : forall i j w w', i <> j -> nth_error ws i = Some w -> nth_error ws j = Some w' -> INR (n + 8) * bpow radix2 (-48) <= dot (vsub (g w') (g w)) (vsub (g w') (g w))).
  { intros i j w w' Hij Ei Ej. assert (Ne : w <> w') by (intros ->; apply Hij; exact (nodup_nth ws i j w' Nd Ei Ej)).
    destruct (proj1 (Spec w) (nth_error_In _ _ Ei)) as (Lw & Pw & Sw). destruct (proj1 (Spec w') (nth_error_In _ _ Ej)) as (Lw' & Pw' & Sw').
    destruct (row_near n h N2 Hh w Lw Pw Sw t Ht) as (l & Ll & Fl). destruct (row_near n h N2 Hh w' Lw' Pw' Sw' t Ht) as (m & Lm & Fm). fold (f w) in Fl. fold (f w') in Fm. fold (g w) in Fl. fold (g w') in Fm.
    assert (P0 : 0 < / (2 * INR h)) by (apply Rinv_0_lt_compat; lra).
    assert (B : INR (n + 8) * bpow radix2 (-48) <= (/ (2 * INR h) / 2) * (/ (2 * INR h) / 2)).
    { apply IZR_le in Hb. rewrite !mult_IZR, <- !INR_IZR_INZ in Hb. change (IZR (2 ^ 44)) with (bpow radix2 44) in Hb. rewrite Rinv_mult. assert (I1 : INR h * / INR h = 1) by (apply Rinv_r; lra). assert (I0 : 0 < / INR h) by (apply Rinv_0_lt_compat; lra).
      apply Rmult_le_reg_r with (INR h * INR h); [nra|]. replace (/ 2 * / INR h / 2 * (/ 2 * / INR h / 2) * (INR h * INR h)) with (/ 16 * (INR h * / INR h) * (INR h * / INR h)) by (field; lra). rewrite I1, !Rmult_1_r.
      replace (INR (n + 8) * bpow radix2 (-48) * (INR h * INR h)) with (INR (n + 8) * (INR h * INR h) * bpow radix2 (-48)) by ring. apply Rle_trans with (bpow radix2 44 * bpow radix2 (-48)); [apply Rmult_le_compat_r; [apply bpow_ge_0|exact Hb]|]. rewrite <- bpow_plus. change (/ 16) with (bpow radix2 (-4)). apply bpow_le. lia. }
    apply Rle_trans with (1 := B). destruct (Rle_or_lt l m) as [G|G].
    - apply Rle_trans with ((m / 2) * (m / 2)); [apply Rmult_le_compat; lra|]. apply (apart_one m l w' w (g w') (g w) (Z.of_nat h) Hh); try assumption; try lra; congruence.
    - apply Rle_trans with ((l / 2) * (l / 2)); [apply Rmult_le_compat; lra|]. rewrite dot_vsub_comm. apply (apart_one l m w w' (g w) (g w') (Z.of_nat h) Hh); try assumption; try lra; congruence. }
  assert (Two : (2 <= length ws)%nat).
  { set (a := Z.of_nat h :: repeat 0%Z (n - 1)). set (b := repeat 0%Z (n - 1) ++ [Z.of_nat h]). assert (Ia : In a ws) by (apply Spec; unfold a; cbn [length fold_right]; rewrite repeat_length, zsum_repeat0; split; [lia|]; split; [constructor; [lia|apply zeros_nonneg]|lia]).
    assert (Ib : In b ws) by (apply Spec; unfold b; rewrite app_length, repeat_length, zsum_app, zsum_repeat0; cbn [length fold_right]; split; [lia|]; split; [apply Forall_app; split; [apply zeros_nonneg|constructor; [lia|constructor]]|lia]).
    assert (Nab : a <> b) by (unfold a, b; destruct n as [|[|k]]; [lia|lia|]; cbn [Nat.sub repeat app]; intros C; injection C as C _; lia).
    destruct ws as [|c [|d ws']]; [destruct Ia| |cbn; lia]. exfalso. destruct Ia as [Ia|[]], Ib as [Ib|[]]. congruence. }
  assert (Mem : forall v, In v (map g ws) -> length v = n /\ (forall x, In x v -> 0 <= x) /\ Rabs (norm v - 1) <= INR (n + 4) * bpow radix2 (-51)).
  { intros v Hv. apply in_map_iff in Hv as (w & <- & Hw). destruct (proj1 (Spec w) Hw) as (Lw & Pw & Sw). split; [exact (row_length n h N2 Hh w Lw Pw Sw t Ht)|]. split; [exact (row_nonneg n h N2 Hh w Lw Pw Sw t Ht)|exact (row_norm n h N2 Hh w Lw Pw Sw t Ht)]. }
  assert (Sep' : forall i j v v', i <> j -> nth_error (map g ws) i = Some v -> nth_error (map g ws) j = Some v' -> INR (n + 8) * bpow radix2 (-48) <= dot (vsub v' v) (vsub v' v)).
  { intros i j v v' Hij Ei Ej. apply nth_error_map_some in Ei as (w & Ew & ->). apply nth_error_map_some in Ej as (w' & Ew' & ->). exact (Sep i j w w' Hij Ew Ew'). }
  split.
  - apply nodup_from_nth. intros i j x y Hij Ei Ej Exy. subst y. specialize (Sep' i j x x Hij Ei Ej). rewrite dot_sub_l, !dot_sub_r in Sep' by reflexivity. assert (0 < INR (n + 8)) by (apply (lt_INR 0); lia). pose proof (bpow_gt_0 radix2 (-48)). nra.
  - intros i v Ei. pose proof (Mem v (nth_error_In _ _ Ei)) as (Lv & Pv & Nv). destruct (nth_error_map_some _ _ _ _ Ei) as (w & Ew & Ev). destruct (proj1 (Spec w) (nth_error_In _ _ Ew)) as (Lw & Pw & Sw). exists w, (f w). split; [exact Lw|]. split; [exact Pw|]. split; [exact Sw|].
    split; [rewrite nth_error_map, Ew; reflexivity|]. split; [reflexivity|]. split; [exact (planar_sum n h N2 Hh w Lw Pw Sw)|]. split; [exact Lv|]. split; [exact Pv|]. split; [exact Nv|]. split.
    + subst v. destruct (row_near n h N2 Hh w Lw Pw Sw t Ht) as (l & Ll & Fl). exists l. split; [|exact Fl]. assert (0 < / (2 * INR h)) by (apply Rinv_0_lt_compat; lra). lra.
    + split; [|split; [intros j v' Hj Ej; exact (Sep' i j v v' (not_eq_sym Hj) Ei Ej)|]].
      { subst v. unfold g, unit_row_fl. destruct (norm_fl t (f w)); apply Forall_forall; intros x Hx; apply in_map_iff in Hx as (y & <- & _); [apply fl_double|apply double_0]. }
      apply (C137_separated_angles t n (map g ws) i v N2 Ht); [rewrite map_length; exact Two|exact Mem|exact Ei|]. intros j v' Hj Ej. exact (Sep' i j v v' (not_eq_sym Hj) Ei Ej).
Qed.
Print Assumptions C139_initial_vectors.
Lemma separated n h l m w w' x y : (1 <= Z.of_nat h <= 2 ^ 22)%Z -> (Z.of_nat (n + 8) * (Z.of_nat h * Z.of_nat h) <= 2 ^ 44)%Z -> / (2 * INR h) <= l -> / (2 * INR h) <= m -> length w' = length w -> Forall (fun z => (0 <= z)%Z) w -> Forall (fun z => (0 <= z)%Z) w' ->
  zsum w = Z.of_nat h -> zsum w' = Z.of_nat h -> w <> w' -> near_multiple l w x -> near_multiple m w' y -> INR (n + 8) * bpow radix2 (-48) <= dot (vsub y x) (vsub y x).
Proof.
  intros Hh Hb Ll Lm L Pw Pw' Sw Sw' Ne Fl Fm. pose proof (resolution_range h Hh) as [Hlo Hhi]. assert (P0 : 0 < / (2 * INR h)) by (apply Rinv_0_lt_compat; lra).
  assert (B : INR (n + 8) * bpow radix2 (-48) <= (/ (2 * INR h) / 2) * (/ (2 * INR h) / 2)).
  { apply IZR_le in Hb. rewrite !mult_IZR, <- !INR_IZR_INZ in Hb. change (IZR (2 ^ 44)) with (bpow radix2 44) in Hb. rewrite Rinv_mult. assert (I1 : INR h * / INR h = 1) by (apply Rinv_r; lra). assert (I0 : 0 < / INR h) by (apply Rinv_0_lt_compat; lra).
    apply Rmult_le_reg_r with (INR h * INR h); [nra|]. replace (/ 2 * / INR h / 2 * (/ 2 * / INR h / 2) * (INR h * INR h)) with (/ 16 * (INR h * / INR h) * (INR h * / INR h)) by (field; lra). rewrite I1, !Rmult_1_r.
    replace (INR (n + 8) * bpow radix2 (-48) * (INR h * INR h)) with (INR (n + 8) * (INR h * INR h) * bpow radix2 (-48)) by ring. apply Rle_trans with (bpow radix2 44 * bpow radix2 (-48)); [apply Rmult_le_compat_r; [apply bpow_ge_0|exact Hb]|]. rewrite <- bpow_plus. change (/ 16) with (bpow radix2 (-4)). apply bpow_le. lia. }
  apply Rle_trans with (1 := B). destruct (Rle_or_lt l m) as [G|G].
  - apply Rle_trans with ((m / 2) * (m / 2)); [apply Rmult_le_compat; lra|]. apply (apart_one m l w' w y x (Z.of_nat h) Hh); try assumption; try lra; congruence.
  - apply Rle_trans with ((l / 2) * (l / 2)); [apply Rmult_le_compat; lra|]. rewrite dot_vsub_comm. apply (apart_one l m w w' x y (Z.of_nat h) Hh); try assumption; try lra; congruence.
Qed.
(** C139. The planar vectors that are stored (divided once more by their computed sums), between which MOEA/D measures distances: the same number in the same order, doubles, without negative entries, summing to 1 up to (n + 4) * 2^-52,
    each a positive multiple of its row of h-ths up to relative errors of 3 * 2^-53 per entry; squared distances between any two are at least (n + 8) * 2^-48. *)
Theorem C139_planar_vectors : forall (t : order) (n h : nat), (2 <= n <= 2 ^ 20)%nat -> (1 <= h)%nat -> (Z.of_nat (n + 8) * (Z.of_nat h * Z.of_nat h) <= 2 ^ 44)%Z -> Permutation (leaves t) (seq 0 n) ->
  exists planar pl, planar_fl h n = Ok planar /\ planar_vectors_fl t h n = Ok pl /\ (length pl * fact (n - 1) = falling (h + n - 1) (n - 1))%nat /\ length pl = length planar /\ (2 <= length pl)%nat /\
    (forall i v, nth_error pl i = Some v -> exists w, length w = n /\ Forall (fun z => (0 <= z)%Z) w /\ zsum w = Z.of_nat h /\ nth_error planar i = Some (map (fun k => fl (IZR k / INR h)) w) /\
       length v = n /\ Forall double v /\ (forall x, In x v -> 0 <= x) /\ Rabs (fold_right Rplus 0 v - 1) <= INR (n + 4) * bpow radix2 (-52) /\
       (exists l, 0 < l /\ Forall2 (fun k x => Rabs (x - l * IZR k) <= 3 * bpow radix2 (-53) * (l * IZR k)) w v) /\
       forall j v', j <> i -> nth_error pl j = Some v' -> INR (n + 8) * bpow radix2 (-48) <= dot (vsub v' v) (vsub v' v)).
Proof.
  intros t n h [N1 N2] H1 Hb Ht. destruct (C44_lattice_complete h n N1) as (ws & E & Nd & Cnt & Spec).
  assert (Hh : (1 <= Z.of_nat h <= 2 ^ 22)%Z) by (split; [lia|]; destruct (Z_le_gt_dec (Z.of_nat h) (2 ^ 22)) as [G|G]; [exact G|exfalso; nia]).
  set (f := fun w : list Z => map (fun k => fl (IZR k / INR h)) w). set (g := fun w => planar_row_fl t (f w)).
  exists (map f ws), (map g ws). assert (E1 : planar_fl h n = Ok (map f ws)) by (unfold planar_fl; rewrite E; reflexivity). split; [exact E1|].
  split; [unfold planar_vectors_fl; rewrite E1; cbn [bind]; rewrite map_map; reflexivity|]. split; [rewrite map_length; exact Cnt|]. split; [rewrite !map_length; reflexivity|].
  split.
  - rewrite map_length.
    set (a := Z.of_nat h :: repeat 0%Z (n - 1)). set (b := repeat 0%Z (n - 1) ++ [Z.of_nat h]). assert (Ia : In a ws) by (apply Spec; unfold a; cbn [length fold_right]; rewrite repeat_length, zsum_repeat0; split; [lia|]; split; [constructor; [lia|apply zeros_nonneg]|lia]).
    assert (Ib : In b ws) by (apply Spec; unfold b; rewrite app_length, repeat_length, zsum_app, zsum_repeat0; cbn [length fold_right]; split; [lia|]; split; [apply Forall_app; split; [apply zeros_nonneg|constructor; [lia|constructor]]|lia]).
    assert (Nab : a <> b) by (unfold a, b; destruct n as [|[|k]]; [lia|lia|]; cbn [Nat.sub repeat app]; intros C; injection C as C _; lia).
    destruct ws as [|c [|d ws']]; [destruct Ia| |cbn; lia]. exfalso. destruct Ia as [Ia|[]], Ib as [Ib|[]]. congruence.
  - intros i v Ei. destruct (nth_error_map_some _ _ _ _ Ei) as (w & Ew & ->). destruct (proj1 (Spec w) (nth_error_In _ _ Ew)) as (Lw & Pw & Sw). exists w. split; [exact Lw|]. split; [exact Pw|]. split; [exact Sw|]. split; [rewrite nth_error_map, Ew; reflexivity|].
    split; [exact (planar_row_length n h w Lw t)|]. split; [unfold g, planar_row_fl; apply Forall_forall; intros x Hx; apply in_map_iff in Hx as (y & <- & _); apply fl_double|]. split; [exact (planar_row_nonneg n h N2 Hh w Lw Pw Sw t Ht)|]. split; [exact (planar_row_sum n h N2 Hh w Lw Pw Sw t Ht)|].
    pose proof (planar_row_near n h N2 Hh w Lw Pw Sw t Ht) as Fl. pose proof (planar_row_factor n h N2 Hh w Lw Pw Sw t Ht) as Ll. fold (f w) in Fl, Ll. fold (g w) in Fl. split.
    + eexists. split; [|exact Fl]. pose proof (resolution_range h Hh) as [Hlo Hhi]. assert (0 < / (2 * INR h)) by (apply Rinv_0_lt_compat; lra). lra.
    + intros j v' Hj Ej. destruct (nth_error_map_some _ _ _ _ Ej) as (w' & Ew' & ->). destruct (proj1 (Spec w') (nth_error_In _ _ Ew')) as (Lw' & Pw' & Sw'). assert (Ne : w <> w') by (intros ->; apply Hj; exact (nodup_nth ws j i w' Nd Ew' Ew)).
      pose proof (planar_row_near n h N2 Hh w' Lw' Pw' Sw' t Ht) as Fm. pose proof (planar_row_factor n h N2 Hh w' Lw' Pw' Sw' t Ht) as Lm. fold (f w') in Fm, Lm. fold (g w') in Fm.
      apply (separated n h _ _ w w' (g w) (g w') Hh Hb Ll Lm ltac:(congruence) Pw Pw' Sw Sw' Ne Fl Fm).
Qed.
Print Assumptions C139_planar_vectors.
(** The hypotheses are met: 100 objectives at resolution 10^5, and a tree for every number of objectives. *)
Example ex_sizes : (Z.of_nat (100 + 8) * (Z.of_nat (Z.to_nat 100000) * Z.of_nat (Z.to_nat 100000)) <= 2 ^ 44)%Z.
Proof. rewrite Z2Nat.id by lia. vm_compute. discriminate. Qed.
Example ex_order : Permutation (leaves (Node (Node (Leaf 2) (Leaf 0)) (Leaf 1))) (seq 0 3).
Proof. cbn. apply perm_trans with [0%nat; 2%nat; 1%nat]; [apply perm_swap|]. apply perm_skip, perm_swap. Qed.
