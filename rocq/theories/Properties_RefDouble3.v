(** C137, continued: adaptation in double precision stretches the initial vectors by the ranges of the population's fitness. *)
From Coq Require Import Reals Lra Lia Permutation.
From Flocq Require Import Core.
From Verif Require Import Base RVec M_RefVec P_RefVec P_RefVec2 M_Double P_Double M_IndDouble P_IndDouble M_RefDouble P_RefDouble Properties_RefDouble.
Open Scope R_scope.

(** Column [j] of the fitness ranges over exactly [r]. *)
Definition range_of (fitness : list (list R)) (j : nat) (r : R) : Prop :=
  exists hi lo, In hi fitness /\ In lo fitness /\ r = nth j hi 0 - nth j lo 0 /\ forall x, In x fitness -> nth j lo 0 <= nth j x 0 <= nth j hi 0.
Notation u := (bpow radix2 (-53)).
Lemma uu_u : uu = u.
Proof. unfold uu. cbn [bpow]. reflexivity. Qed.
Lemma ranges_fl_spec fitness n : fitness <> [] -> (forall r, In r fitness -> length r = n /\ Forall double r) ->
  exists rng, length rng = n /\ (forall j, (j < n)%nat -> range_of fitness j (nth j rng 0)) /\ Forall2 (fun r r' => 0 <= r /\ Rabs (r' - r) <= u * r) rng (ranges_fl fitness).
Proof.
  intros NE H. exists (vsub (colmaxR fitness) (colminR fitness)). assert (Ln : forall r, In r fitness -> length r = n) by (intros r Hr; apply H; exact Hr).
  pose proof (ranges_length fitness n NE Ln) as L. split; [exact L|].
  assert (Sp : forall j, (j < n)%nat -> range_of fitness j (nth j (vsub (colmaxR fitness) (colminR fitness)) 0)).
  { intros j Hj. destruct (ranges_spec fitness n j NE Ln Hj) as (hi & lo & A & B & C & D). exists hi, lo. auto. }
  split; [exact Sp|]. unfold ranges_fl. remember (vsub (colmaxR fitness) (colminR fitness)) as rng eqn:Er. clear Er.
  assert (G : Forall (fun r => 0 <= r /\ Rabs (fl r - r) <= u * r) rng).
  { apply Forall_forall. intros r Hr. destruct (In_nth rng r 0 Hr) as (j & Hj & <-). rewrite L in Hj. destruct (Sp j Hj) as (hi & lo & A & B & C & D). rewrite C. destruct (D hi A) as (D1 & _).
    split; [lra|]. rewrite <- uu_u. apply Rle_trans with (uu * Rabs (nth j hi 0 - nth j lo 0)); [apply fl_plus_err|right; rewrite Rabs_pos_eq by lra; reflexivity].
    - destruct (H hi A) as (Lh & Fh). rewrite Forall_forall in Fh. apply Fh, nth_In. lia.
    - destruct (H lo B) as (Lh & Fh). rewrite Forall_forall in Fh. apply generic_format_opp, Fh, nth_In. lia. }
  clear - G. induction G; cbn [map]; constructor; auto.
Qed.

Lemma Forall2_weaken {A B} (P Q : A -> B -> Prop) l m : (forall a b, P a b -> Q a b) -> Forall2 P l m -> Forall2 Q l m.
Proof. intros H F. induction F; constructor; auto. Qed.
(** C137 (partial). Every adapted vector has length 1 and is the initial one stretched by the ranges of the fitness - the exact ones -, both up to rounding. Missing: extremely small or large ranges and entries. *)
Theorem C137_adapt_by_ranges_partial : forall (t : order) init fitness n, (n <= 2 ^ 20)%nat -> Permutation (leaves t) (seq 0 n) -> fitness <> [] -> (forall r, In r fitness -> length r = n /\ Forall double r) ->
  (forall j r, (j < n)%nat -> range_of fitness j r -> bpow radix2 (-249) <= r <= bpow radix2 249) ->
  (forall v, In v init -> length v = n /\ (forall x, In x v -> x = 0 \/ bpow radix2 (-250) <= Rabs x <= bpow radix2 250) /\ exists x, In x v /\ x <> 0) ->
  exists rng, length rng = n /\ (forall j, (j < n)%nat -> range_of fitness j (nth j rng 0)) /\
    Forall2 (fun v w => Rabs (norm w - 1) <= INR (n + 4) * bpow radix2 (-51) /\ exists l, 0 < l /\ Forall2 (fun a b => Rabs (b - l * a) <= bpow radix2 (-50) * (l * Rabs a)) (vmap2 Rmult v rng) w) init (adapt_fl t init fitness).
Proof.
  intros t init fitness n L Ht NE Hf Hr Hi. destruct (ranges_fl_spec fitness n NE Hf) as (rng & Lr & Sp & F). exists rng. split; [exact Lr|]. split; [exact Sp|].
  assert (Lf : length (ranges_fl fitness) = n) by (rewrite <- Lr; clear - F; induction F; cbn [length]; congruence).
  assert (U : bpow radix2 (-51) = 4 * u) by (change (-51)%Z with (2 + -53)%Z; rewrite bpow_plus; reflexivity). assert (U2 : bpow radix2 (-50) = 8 * u) by (change (-50)%Z with (3 + -53)%Z; rewrite bpow_plus; reflexivity).
  pose proof (bpow_gt_0 radix2 (-53)) as U0. assert (U1 : u <= / 8) by (change (/ 8) with (bpow radix2 (-3)); apply bpow_le; lia).
  assert (Fr : Forall (fun r => bpow radix2 (-250) <= r <= bpow radix2 250) (ranges_fl fitness)).
  { assert (G : forall r, In r rng -> bpow radix2 (-249) <= r <= bpow radix2 249) by (intros r Hr'; destruct (In_nth rng r 0 Hr') as (j & Hj & <-); rewrite Lr in Hj; exact (Hr j _ Hj (Sp j Hj))).
    assert (P1 : bpow radix2 (-249) = 2 * bpow radix2 (-250)) by (change (-249)%Z with (1 + -250)%Z; rewrite bpow_plus; reflexivity). assert (P2 : bpow radix2 250 = 2 * bpow radix2 249) by (change 250%Z with (1 + 249)%Z; rewrite bpow_plus; reflexivity).
    pose proof (bpow_gt_0 radix2 (-250)). pose proof (bpow_gt_0 radix2 249). clear - F G P1 P2 U1 U0 H H0. induction F as [|r r' l l' (R0 & E) F IH]; constructor.
    - destruct (G r (or_introl eq_refl)). apply Rabs_le_inv in E. assert (u * r <= / 8 * r) by (apply Rmult_le_compat_r; lra). lra.
    - apply IH. intros x Hx. apply G. right. exact Hx. }
  pose proof (C137_adapt_partial t init fitness n L Ht Lf Fr Hi) as A. cbv zeta in A. revert A. apply Forall2_weaken. intros v w (N & l & Hl & Fw). split; [exact N|]. exists l. split; [exact Hl|].
  remember (ranges_fl fitness) as rf eqn:Erf. clear - F Fw U U2 U0 U1 Hl. revert v w Fw. induction F as [|r r' tl tl' (R0 & E) F IH]; intros v w Fw.
  - assert (Z : forall v : list R, vmap2 Rmult v (@nil R) = []) by (intros [|? ?]; reflexivity). rewrite Z in *. inversion Fw. constructor.
  - destruct v as [|x v]; cbn [vmap2] in *; [inversion Fw; constructor|]. inversion Fw as [|a b ta tb Hab Ht]; subst. constructor; [|apply IH; exact Ht].
    assert (E1 : Rabs (x * r' - x * r) <= u * Rabs (x * r)).
    { replace (x * r' - x * r) with (x * (r' - r)) by ring. rewrite !Rabs_mult, (Rabs_pos_eq r) by exact R0. replace (u * (Rabs x * r)) with (Rabs x * (u * r)) by ring. apply Rmult_le_compat_l; [apply Rabs_pos|exact E]. }
    assert (E2 : Rabs (x * r') <= (1 + u) * Rabs (x * r)).
    { replace (x * r') with (x * r + (x * r' - x * r)) by ring. apply Rle_trans with (1 := Rabs_triang _ _). replace (x * r + (x * r' - x * r)) with (x * r') by ring. lra. }
    replace (b - l * (x * r)) with ((b - l * (x * r')) + l * (x * r' - x * r)) by ring. apply Rle_trans with (1 := Rabs_triang _ _). rewrite (Rabs_mult l), (Rabs_pos_eq l) by lra. rewrite U in Hab. rewrite U2.
    set (p := Rabs (x * r)) in *. assert (P0 : 0 <= p) by apply Rabs_pos. set (p' := Rabs (x * r')) in *. set (q := Rabs (x * r' - x * r)) in *. set (y := u) in *. set (h := Rabs (b - l * (x * r'))) in *. clearbody p p' q y h.
    assert (G1 : l * q <= l * (y * p)) by (apply Rmult_le_compat_l; lra). assert (G2 : 4 * y * (l * p') <= 4 * y * (l * ((1 + y) * p))) by (repeat apply Rmult_le_compat_l; lra).
    assert (G3 : 0 <= y * (l * p)) by (repeat apply Rmult_le_pos; lra). assert (G4 : y * (y * (l * p)) <= / 8 * (y * (l * p))) by (apply Rmult_le_compat_r; lra). lra.
Qed.
Print Assumptions C137_adapt_by_ranges_partial.

(** The hypotheses are met. *)
Example ex_ranges : let fitness := [[0; 0]; [1; 1]] in fitness <> [] /\ (forall r, In r fitness -> length r = 2%nat /\ Forall double r) /\ forall j r, (j < 2)%nat -> range_of fitness j r -> bpow radix2 (-249) <= r <= bpow radix2 249.
Proof.
  cbv zeta. split; [discriminate|].
  assert (D1 : double 1) by (change 1 with (bpow radix2 0); apply double_bpow; lia). assert (D0 : double 0) by apply generic_format_0.
  split.
  - intros r [<-|[<-|[]]]; (split; [reflexivity|]); apply Forall_cons; try assumption; apply Forall_cons; try assumption; apply Forall_nil.
  - intros j r Hj (hi & lo & A & B & -> & D). assert (bpow radix2 (-249) <= 1 <= bpow radix2 249) by (change 1 with (bpow radix2 0); split; apply bpow_le; lia).
    destruct j as [|[|j]]; [| |lia]; pose proof (D _ (or_introl eq_refl)) as E1; pose proof (D _ (or_intror (or_introl eq_refl))) as E2; cbn [nth] in E1, E2;
      destruct A as [<-|[<-|[]]]; destruct B as [<-|[<-|[]]]; cbn [nth] in *; lra.
Qed.
