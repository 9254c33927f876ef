(** C145: reference vectors sampled from preferred ranges, in double precision. *)
From Coq Require Import Reals Lra Lia Permutation.
From Flocq Require Import Core.
From Verif Require Import Base RVec M_RefVec M_Double P_Double Properties_Double M_RefDouble P_RefDouble Properties_RefDouble M_RangesDouble.
Open Scope R_scope.

(** C145. Every sample lies in the preferred ranges, but for a few rounding errors at their upper ends. *)
Theorem C145_samples : forall lo hi w, double_bounds lo hi -> length lo = length hi -> (forall row, In row w -> length row = length lo /\ forall s, In s row -> 0 <= s <= 1) ->
  length (range_samples_fl lo hi w) = length w /\ forall r, In r (range_samples_fl lo hi w) -> within (fun l h => bpow radix2 (-51) * (Rabs l + Rabs h)) lo hi r.
Proof.
  intros lo hi w Db Ll Hw. split; [apply map_length|]. intros r Hr. apply in_map_iff in Hr. destruct Hr as (row & <- & Hi). destruct (Hw row Hi) as [Lr Pr].
  apply (rows_within _ (fun s => 0 <= s <= 1)); try assumption. intros s l u S0 Dl Du L. apply scale_gene_overshoot; assumption.
Qed.

(** C145 (false of the code). Not exactly: a sample's unit coordinate can be 1 (pyDOE.lhs rounds), and the sample then lies above its range. *)
Theorem C145_samples_refuted : exists r l u, np_random r /\ double l /\ double u /\ l < u /\ lhs_point r (3 / 4) 1 = 1 /\
  exists x, range_samples_fl [l] [u] [[lhs_point r (3 / 4) 1]] = [[x]] /\ u < x.
Proof.
  destruct C114_lhs_design_refuted as (r & l & u & A & B & C & D & E & F). exists r, l, u. repeat (split; [assumption|]).
  eexists. split; [reflexivity|exact F].
Qed.

(** C145. With positive ranges (2^-500 to 2^499) every new reference vector is its sample divided by one positive number, up to one rounding per entry, and has length 1 up to (n + 4) * 2^-51, whatever the order of summation. *)
Theorem C145_unit_length : forall t n lo hi w, (1 <= n)%nat -> (n <= 2 ^ 20)%nat -> Permutation (leaves t) (seq 0 n) -> length lo = n -> length hi = n -> double_bounds lo hi ->
  (forall l, In l lo -> bpow radix2 (-500) <= l) -> (forall h, In h hi -> h <= bpow radix2 499) -> (forall row, In row w -> length row = n /\ forall s, In s row -> 0 <= s <= 1) ->
  length (adapt_ranges_fl t lo hi w) = length w /\
  Forall2 (fun r v => Rabs (norm v - 1) <= INR (n + 4) * bpow radix2 (-51) /\ exists l, 0 < l /\ Forall2 (fun x y => Rabs (y - l * x) <= bpow radix2 (-53) * (l * Rabs x)) r v) (range_samples_fl lo hi w) (adapt_ranges_fl t lo hi w).
Proof.
  intros t n lo hi w N1 Hn Ht Ll Lh Db P1 P2 Hw. destruct (C145_samples lo hi w Db ltac:(congruence)) as [LS HS]. { intros row Hr. rewrite Ll. apply Hw. exact Hr. }
  split; [unfold adapt_ranges_fl; rewrite map_length; exact LS|]. unfold adapt_ranges_fl. apply Forall2_self. intros r Hr. destruct (HS r Hr) as [Lr Wr]. rewrite Ll in Lr.
  assert (B : forall x, In x r -> bpow radix2 (-500) <= x <= bpow radix2 500).
  { intros x Hx. apply In_nth_error in Hx. destruct Hx as [j Hj]. assert (Hjn : (j < n)%nat) by (rewrite <- Lr; apply nth_error_Some; rewrite Hj; discriminate).
    destruct (nth_error lo j) as [l|] eqn:El; [|apply nth_error_None in El; lia]. destruct (nth_error hi j) as [h|] eqn:Eh; [|apply nth_error_None in Eh; lia].
    pose proof (Wr j l h x El Eh Hj) as X. pose proof (P1 l (nth_error_In _ _ El)) as X1. pose proof (P2 h (nth_error_In _ _ Eh)) as X2. destruct (Db j l h El Eh) as (_ & _ & X3).
    pose proof (bpow_gt_0 radix2 (-500)) as Q. rewrite !Rabs_pos_eq in X by lra. assert (E5 : bpow radix2 500 = 2 * bpow radix2 499) by (change 500%Z with (1 + 499)%Z; rewrite bpow_plus; reflexivity).
    assert (S : bpow radix2 (-51) <= / 4) by (apply Rle_trans with (bpow radix2 (-2)); [apply bpow_le; lia|cbn; lra]). pose proof (bpow_gt_0 radix2 (-51)).
    assert (bpow radix2 (-51) * (l + h) <= / 4 * (l + h)) by (apply Rmult_le_compat_r; lra). lra. }
  assert (M : Forall moderate r). { apply Forall_forall. intros x Hx. right. pose proof (B x Hx). pose proof (bpow_gt_0 radix2 (-500)). rewrite Rabs_pos_eq by lra. assumption. }
  assert (Z : exists x, In x r /\ x <> 0). { destruct r as [|x r]; [cbn in Lr; lia|]. exists x. split; [left; reflexivity|]. pose proof (B x (or_introl eq_refl)). pose proof (bpow_gt_0 radix2 (-500)). lra. }
  rewrite <- Lr. apply C137_unit_length_partial; try assumption; rewrite Lr; assumption.
Qed.

Lemma scale_zero row : forall lo hi, (forall x, In x lo -> x = 0) -> (forall x, In x hi -> x = 0) -> forall y, In y (scale_row_fl row lo hi) -> y = 0.
Proof.
  induction row as [|s row IH]; intros [|l lo] [|h hi] H1 H2 y; cbn [scale_row_fl]; try (intros []; fail).
  intros [<-|Hy].
  - rewrite (H1 l), (H2 h) by (left; reflexivity). unfold scale_gene_fl. rewrite Rminus_0_r, fl_0, Rmult_0_r, fl_0, Rplus_0_r. apply fl_0.
  - apply (IH lo hi); try assumption; intros x Hx; [apply H1|apply H2]; right; exact Hx.
Qed.
(** C145 (false of the code). Ranges that only contain the origin turn every reference vector into the zero vector, which has no direction. *)
Theorem C145_origin_refuted : forall t lo hi w, (forall x, In x lo -> x = 0) -> (forall x, In x hi -> x = 0) -> forall v, In v (adapt_ranges_fl t lo hi w) -> forall y, In y v -> y = 0.
Proof.
  intros t lo hi w H1 H2 v Hv y Hy. unfold adapt_ranges_fl in Hv. apply in_map_iff in Hv. destruct Hv as (r & <- & Hr). apply in_map_iff in Hr. destruct Hr as (row & <- & _).
  pose proof (scale_zero row lo hi H1 H2) as Z. unfold unit_row_fl in Hy. destruct (norm_fl _ _) as [q|]; apply in_map_iff in Hy; destruct Hy as (x & <- & Hx); [|reflexivity].
  rewrite (Z x Hx). unfold Rdiv. rewrite Rmult_0_l. apply fl_0.
Qed.

(** The hypotheses are met: both objectives between 1 and 2, the sample (0, 1). *)
Example ex_ranges : double_bounds [1; 1] [2; 2] /\ (forall l, In l [1; 1] -> bpow radix2 (-500) <= l) /\ (forall h, In h [2; 2] -> h <= bpow radix2 499) /\ forall row, In row [[0; 1]] -> length row = 2%nat /\ forall s, In s row -> 0 <= s <= 1.
Proof.
  split; [|split; [|split]].
  - intros j l u H1 H2. assert (E : l = 1 /\ u = 2). { destruct j as [|[|j]]; cbn in H1, H2; [| |destruct j; discriminate]; injection H1; injection H2; auto. } destruct E as [-> ->].
    split; [change 1 with (bpow radix2 0); apply double_bpow; lia|]. split; [change 2 with (bpow radix2 1); apply double_bpow; lia|lra].
  - intros l [<-|[<-|[]]]; change 1 with (bpow radix2 0); apply bpow_le; lia.
  - intros h [<-|[<-|[]]]; change 2 with (bpow radix2 1); apply bpow_le; lia.
  - intros row [<-|[]]. split; [reflexivity|]. intros s [<-|[<-|[]]]; lra.
Qed.

Print Assumptions C145_samples.
Print Assumptions C145_samples_refuted.
Print Assumptions C145_unit_length.
Print Assumptions C145_origin_refuted.
