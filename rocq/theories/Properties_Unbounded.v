(** C138: variables without finite bounds, and the clamps in extended arithmetic. *)
From Coq Require Import Reals Lra Lia.
From Verif Require Import Base M_APDnan M_Recombination P_Recombination M_Population Spec_Population M_Run Spec_Run M_Stop P_Keep Properties_Keep M_Unbounded.
Import ListNotations.
Open Scope R_scope.

(** ** Finite bounds *)
(** NaN, or a number within the bounds. *)
Definition inside (l u : R) (x : xr) : Prop := x = NaN \/ exists v, x = Fin v /\ l <= v <= u.
(** C138. Whatever number arithmetic produces before it - rounded, infinite or NaN - the clamps of BP_mutation leave a number within the bounds, or NaN; so does repair. *)
Theorem C138_clamps : forall l u v, l <= u -> inside l u (clamp_x (Fin l) (Fin u) v) /\ inside l u (repair_gene_x (Fin l) (Fin u) v) /\ (clamp_x (Fin l) (Fin u) v = NaN <-> v = NaN) /\ (repair_gene_x (Fin l) (Fin u) v = NaN <-> v = NaN).
Proof.
  intros l u v H. unfold inside, clamp_x, repair_gene_x. destruct v as [x| | |]; cbn [xltb].
  - destruct (Rlt_dec u x); cbn [xltb]; [destruct (Rlt_dec u l); [lra|]; destruct (Rlt_dec x l); [lra|]|destruct (Rlt_dec x l)]; (split; [right; eexists; split; [reflexivity|lra]|]); (split; [right; eexists; split; [reflexivity|lra]|]); split; split; discriminate.
  - destruct (Rlt_dec u l); [lra|]. split; [right; eexists; split; [reflexivity|lra]|]. split; [right; eexists; split; [reflexivity|lra]|]. split; split; discriminate.
  - split; [right; eexists; split; [reflexivity|lra]|]. split; [right; eexists; split; [reflexivity|lra]|]. split; split; discriminate.
  - split; [left; reflexivity|]. split; [left; reflexivity|]. split; split; reflexivity.
Qed.
(** C138. For finite genes the model is the one of C12 ([None] is NaN). *)
Definition embed (x : option R) : xr := match x with Some v => Fin v | None => NaN end.
Theorem C138_agrees : forall ProM DisM l u k miu x, l < u -> bp_gene_x ProM DisM (Fin l) (Fin u) k miu (Fin x) = embed (bp_gene ProM DisM l u k miu (Some x)).
Proof.
  intros ProM DisM l u k miu x H. unfold bp_gene_x, bp_gene. cbn [xsub xdiv obind]. destruct (Req_EM_T (u - l) 0) as [E|_]; [lra|]. cbn [obind].
  assert (Cl : forall v, clamp_x (Fin l) (Fin u) (embed v) = embed (clamp_lo l (clamp_hi u v))).
  { intros [v|]; [|reflexivity]. unfold clamp_x, clamp_lo, clamp_hi, embed. cbn [xltb]. destruct (Rlt_dec u v); cbn [xltb]; [destruct (Rlt_dec u l); [lra|reflexivity]|destruct (Rlt_dec v l); reflexivity]. }
  destruct (Rle_dec k ProM); [|apply (Cl (Some x))]. destruct (Rlt_dec miu (1 / 2)); rewrite <- Cl; f_equal; cbn [xsub xpow].
  - destruct (npow (1 - (x - l) / (u - l)) (DisM + 1)) as [a|]; [|reflexivity]. cbn [xmul xadd xpow obind]. destruct (npow _ _); reflexivity.
  - destruct (npow ((x - l) / (u - l)) (DisM + 1)) as [a|]; [|reflexivity]. cbn [xmul xadd xpow obind]. destruct (npow _ _); reflexivity.
Qed.

(** Creation and crossover agree too, where the factor is a number. *)
Theorem C138_agrees_sbx : forall ProC DisC d x y b, sbx_beta ProC DisC d = Some b -> let g := sbx_gene_x (Fin b) (Fin x) (Fin y) in (fst g, snd g) = (embed (fst (sbx_gene ProC DisC d x y)), embed (snd (sbx_gene ProC DisC d x y))).
Proof.
  intros ProC DisC d x y b E g. unfold sbx_gene. rewrite E. cbn [fst snd embed]. subst g. unfold sbx_gene_x. cbn [xadd xsub xdiv]. destruct (Req_EM_T 2 0) as [Q|_]; [lra|]. reflexivity.
Qed.
Theorem C138_agrees_design : forall s l u, scale_gene_x s (Fin l) (Fin u) = Fin (s * (u - l) + l).
Proof. reflexivity. Qed.

(** ** Without a finite lower or upper bound *)
Definition proper (l u : xr) : Prop := (l = MInf \/ exists a, l = Fin a) /\ (u = PInf \/ exists b, u = Fin b).
Definition unbounded (l u : xr) : Prop := proper l u /\ (l = MInf \/ u = PInf).
Definition finite (x : xr) : Prop := exists v, x = Fin v.
(** What such a gene is: NaN, or infinity if the lower bound is finite. *)
Definition lost (l u x : xr) : Prop := x = NaN \/ (x = PInf /\ u = PInf /\ finite l).
Lemma lost_not_finite l u x : lost l u x -> ~ finite x.
Proof. intros [->|[-> _]] [v E]; discriminate. Qed.
Lemma inf_times_cases s : 0 <= s -> inf_times s = NaN \/ inf_times s = PInf.
Proof. intros H. unfold inf_times. destruct (Req_EM_T s 0); [left; reflexivity|]. destruct (Rlt_dec 0 s); [right; reflexivity|lra]. Qed.
(** C138 (false of the code). RandomDesign and LHSDesign draw no finite value for a variable with an infinite bound: always NaN (no lower bound), or NaN or infinity. *)
Theorem C138_initial_refuted : forall s l u, 0 <= s -> unbounded l u -> lost l u (scale_gene_x s l u).
Proof.
  intros s l u Hs [[[-> | [a ->]] [-> | [b ->]]] H]; unfold scale_gene_x; cbn [xsub xmul].
  - left. destruct (inf_times_cases s Hs) as [-> | ->]; reflexivity.
  - left. destruct (inf_times_cases s Hs) as [-> | ->]; reflexivity.
  - destruct (inf_times_cases s Hs) as [-> | ->]; [left; reflexivity|right]. split; [reflexivity|]. split; [reflexivity|exists a; reflexivity].
  - destruct H as [H|H]; discriminate.
Qed.
Lemma nan_add y : xadd NaN y = NaN.
Proof. reflexivity. Qed.
Lemma inf_times_2 : inf_times 2 = PInf.
Proof. unfold inf_times. destruct (Req_EM_T 2 0); [lra|]. destruct (Rlt_dec 0 2); [reflexivity|lra]. Qed.
Lemma mul_nan b : xmul b NaN = NaN.
Proof. destruct b; reflexivity. Qed.
Lemma add_nan b : xadd b NaN = NaN.
Proof. destruct b; reflexivity. Qed.
Lemma sub_nan b : xsub b NaN = NaN.
Proof. destruct b; reflexivity. Qed.
(** C138. Crossing two such genes gives NaN, whatever the factor. *)
Theorem C138_crossover_lost : forall beta l u x y, lost l u x -> lost l u y -> sbx_gene_x beta x y = (NaN, NaN).
Proof.
  intros beta l u x y Hx Hy. unfold sbx_gene_x. destruct Hx as [->|(-> & _ & _)].
  - reflexivity.
  - destruct Hy as [->|(-> & _ & _)]; [reflexivity|]. cbn [xadd xsub xdiv]. rewrite mul_nan, add_nan, sub_nan. reflexivity.
Qed.
(** C138. A gene that is NaN stays NaN under mutation and repair. *)
Theorem C138_nan_stays : forall ProM DisM l u k miu, bp_gene_x ProM DisM l u k miu NaN = NaN /\ repair_gene_x l u NaN = NaN.
Proof.
  intros ProM DisM l u k miu. assert (Cl : clamp_x l u NaN = NaN) by (unfold clamp_x; destruct l, u; reflexivity). split.
  - unfold bp_gene_x. destruct (Rle_dec k ProM); [destruct (Rlt_dec miu (1 / 2))|]; rewrite ?nan_add; exact Cl.
  - unfold repair_gene_x. destruct l, u; reflexivity.
Qed.
(** C138 (false of the code). Even a finite gene does not survive mutation if a bound is infinite: mutated, it becomes NaN or infinite (0 <= miu, DisM > -1, the gene within its bounds). *)
Theorem C138_mutation_refuted : forall ProM DisM l u k miu x, 0 <= miu < 1 -> -1 < DisM -> unbounded l u -> k <= ProM -> ~ finite (bp_gene_x ProM DisM l u k miu (Fin x)).
Proof.
  intros ProM DisM l u k miu x Hm Hd [[[-> | [a ->]] [-> | [b ->]]] H] Hk; unfold bp_gene_x; (destruct (Rle_dec k ProM) as [_|N]; [|contradiction]); cbn [xsub xdiv].
  - assert (E : forall y, xadd (Fin x) (xmul PInf NaN) = y -> ~ finite (clamp_x MInf PInf y)) by (intros y <-; cbn; intros [v X]; discriminate).
    destruct (Rlt_dec miu (1 / 2)); apply E; reflexivity.
  - assert (E : forall y, xadd (Fin x) (xmul PInf NaN) = y -> ~ finite (clamp_x MInf (Fin b) y)) by (intros y <-; cbn; intros [v X]; discriminate).
    destruct (Rlt_dec miu (1 / 2)); apply E; reflexivity.
  - assert (P0 : npow 0 (DisM + 1) = Some 0). { unfold npow. destruct (Rlt_dec 0 0); [lra|]. destruct (Req_EM_T 0 0) as [_|N]; [|lra]. destruct (Rlt_dec 0 (DisM + 1)); [reflexivity|lra]. }
    assert (P1 : forall y, npow 1 y = Some 1). { intros y. unfold npow. destruct (Rlt_dec 0 1); [|lra]. unfold Rpower. rewrite ln_1, Rmult_0_r, exp_0. reflexivity. }
    assert (I0 : inf_times 0 = NaN). { unfold inf_times. destruct (Req_EM_T 0 0); [reflexivity|lra]. }
    destruct (Rlt_dec miu (1 / 2)) as [L|L].
    + cbn [xsub xpow]. rewrite Rminus_0_r, P1. cbn [xmul xadd xpow]. replace (2 * miu + (1 - 2 * miu) * 1) with 1 by ring. rewrite P1. cbn [xsub xmul]. replace (1 - 1) with 0 by ring. rewrite I0. cbn. intros [v X]. discriminate.
    + cbn [xpow]. rewrite P0. cbn [xmul xadd xpow]. rewrite Rmult_0_r, Rplus_0_r. unfold npow. destruct (Rlt_dec 0 (2 * (1 - miu))) as [Q|Q]; [|lra].
      cbn [xsub xmul]. set (r := Rpower _ _). assert (Hr : 0 <= 1 - r).
      { assert (r <= 1); [|lra]. unfold r, Rpower. assert (Ex : 1 / (DisM + 1) * ln (2 * (1 - miu)) <= 0). { assert (0 < 1 / (DisM + 1)) by (apply Rdiv_lt_0_compat; lra). assert (ln (2 * (1 - miu)) <= 0) by (rewrite <- ln_1; destruct (Rle_lt_or_eq_dec (2 * (1 - miu)) 1 ltac:(lra)) as [Y|Y]; [left; apply ln_increasing; assumption|right; congruence]). nra. }
        set (e := 1 / (DisM + 1) * ln (2 * (1 - miu))) in *. clearbody e. destruct Ex as [Ex|Ex]; [left; rewrite <- exp_0; apply exp_increasing; exact Ex|right; rewrite Ex; exact exp_0]. }
      destruct (inf_times_cases (1 - r) Hr) as [-> | ->]; cbn; intros [v X]; discriminate.
  - destruct H as [H|H]; discriminate.
Qed.

(** ** Equal bounds *)
(** C138 (false of the code). A variable fixed by equal bounds (which desdeo_problem's variables refuse, the operators do not): creation and crossover keep its one value, and so does a mutation whose draw exceeds the probability;
    a gene that is mutated becomes NaN (0 / 0), which neither clamp nor repair removes. *)
Theorem C138_equal_bounds_refuted : forall (ProM DisM l s b k miu : R), scale_gene_x s (Fin l) (Fin l) = Fin l /\ sbx_gene_x (Fin b) (Fin l) (Fin l) = (Fin l, Fin l) /\ (ProM < k -> bp_gene_x ProM DisM (Fin l) (Fin l) k miu (Fin l) = Fin l) /\ (k <= ProM -> bp_gene_x ProM DisM (Fin l) (Fin l) k miu (Fin l) = NaN /\ repair_gene_x (Fin l) (Fin l) (bp_gene_x ProM DisM (Fin l) (Fin l) k miu (Fin l)) = NaN).
Proof.
  intros ProM DisM l s b k miu. assert (M : k <= ProM -> bp_gene_x ProM DisM (Fin l) (Fin l) k miu (Fin l) = NaN).
  { intros Hk. unfold bp_gene_x. destruct (Rle_dec k ProM) as [_|N]; [|contradiction]. cbn [xsub xdiv]. rewrite (Rminus_diag_eq l l eq_refl). assert (I0 : inf_times 0 = NaN) by (unfold inf_times; destruct (Req_EM_T 0 0); [reflexivity|lra]). destruct (Req_EM_T 0 0) as [_|N]; [|contradiction]. rewrite I0.
    destruct (Rlt_dec miu (1 / 2)); reflexivity. }
  split; [cbn; f_equal; ring|]. split; [unfold sbx_gene_x; cbn [xadd xsub xdiv]; destruct (Req_EM_T 2 0) as [Q|_]; [lra|]; cbn [xmul xadd xsub]; f_equal; f_equal; field|]. split.
  - intros Hk. unfold bp_gene_x. destruct (Rle_dec k ProM) as [N|_]; [lra|]. unfold clamp_x. cbn [xltb]. destruct (Rlt_dec l l) as [N|_]; [lra|]. cbn [xltb]. destruct (Rlt_dec l l) as [N|_]; [lra|]. reflexivity.
  - intros Hk. rewrite (M Hk). split; [reflexivity|apply (C138_nan_stays ProM DisM (Fin l) (Fin l) k miu)].
Qed.

(** ** In a run *)
(** Position by position, with bounds of the same length. *)
Definition lost_row (lbs ubs : list xr) (r : list xr) : Prop := length r = length lbs /\
  forall j l u, nth_error lbs j = Some l -> nth_error ubs j = Some u -> unbounded l u -> exists x, nth_error r j = Some x /\ lost l u x.
(** An initial population as RandomDesign or LHSDesign make it. *)
Definition designed (lbs ubs : list xr) (r : list xr) : Prop := exists ss, length ss = length lbs /\ Forall (fun s => 0 <= s) ss /\ r = scale_row_x ss lbs ubs.
Lemma scale_row_len ss : forall lbs ubs, length ss = length lbs -> length lbs = length ubs -> length (scale_row_x ss lbs ubs) = length lbs.
Proof. induction ss as [|s ss IH]; intros [|l lbs] [|u ubs] A B; try discriminate; [reflexivity|]. cbn [scale_row_x length] in *. f_equal. apply IH; congruence. Qed.
Lemma scale_row_nth : forall j ss lbs ubs s l u, nth_error ss j = Some s -> nth_error lbs j = Some l -> nth_error ubs j = Some u -> nth_error (scale_row_x ss lbs ubs) j = Some (scale_gene_x s l u).
Proof. induction j as [|j IH]; intros [|s0 ss] [|l0 lbs] [|u0 ubs] s l u A B D; try discriminate; cbn [nth_error scale_row_x] in *; [congruence|apply IH; assumption]. Qed.
Lemma designed_lost lbs ubs r : length lbs = length ubs -> designed lbs ubs r -> lost_row lbs ubs r.
Proof.
  intros L (ss & A & B & ->). split; [apply scale_row_len; assumption|]. intros j l u Hl Hu H. destruct (nth_error ss j) as [s|] eqn:E; [|apply nth_error_None in E; assert (j < length lbs)%nat by (apply nth_error_Some; congruence); lia].
  exists (scale_gene_x s l u). split; [apply scale_row_nth; assumption|]. apply C138_initial_refuted; [|exact H]. rewrite Forall_forall in B. apply B. eapply nth_error_In. exact E.
Qed.
Lemma sbx_row_nth beta : forall i j p q x y, nth_error p i = Some x -> nth_error q i = Some y -> nth_error (sbx_row_x beta j p q) i = Some (sbx_gene_x (beta (j + i)%nat) x y).
Proof.
  induction i as [|i IH]; intros j [|a p] [|b q] x y A B; try discriminate; cbn [nth_error sbx_row_x] in *; [injection A as ->; injection B as ->; rewrite Nat.add_0_r; reflexivity|]. rewrite (IH (S j) p q x y A B). f_equal. f_equal. f_equal. lia.
Qed.
Lemma sbx_row_len beta : forall p q j, length p = length q -> length (sbx_row_x beta j p q) = length p.
Proof. induction p as [|a p IH]; intros [|b q] j L; try discriminate; [reflexivity|]. cbn [sbx_row_x length] in *. f_equal. apply IH. congruence. Qed.
Definition nan_row (lbs ubs : list xr) (r : list xr) : Prop := length r = length lbs /\ forall j l u, nth_error lbs j = Some l -> nth_error ubs j = Some u -> unbounded l u -> nth_error r j = Some NaN.
Lemma nan_lost lbs ubs r : nan_row lbs ubs r -> lost_row lbs ubs r.
Proof. intros [L H]. split; [exact L|]. intros j l u A B D. exists NaN. split; [eapply H; eassumption|left; reflexivity]. Qed.
Lemma sbx_pair_lost beta k lbs ubs p q : lost_row lbs ubs p -> lost_row lbs ubs q -> nan_row lbs ubs (fst (sbx_pair_x beta k p q)) /\ nan_row lbs ubs (snd (sbx_pair_x beta k p q)).
Proof.
  intros [Lp Hp] [Lq Hq]. unfold sbx_pair_x. cbn [fst snd]. assert (L : length (sbx_row_x (beta k) 0 p q) = length lbs) by (rewrite sbx_row_len; congruence).
  split; (split; [rewrite map_length; exact L|]); intros j l u Hl Hu H; destruct (Hp j l u Hl Hu H) as (x & X1 & X2); destruct (Hq j l u Hl Hu H) as (y & Y1 & Y2);
    rewrite nth_error_map, (sbx_row_nth _ _ _ _ _ _ _ X1 Y1), (C138_crossover_lost _ l u x y X2 Y2); reflexivity.
Qed.
Lemma pairs_lost beta lbs ubs : forall n l k, (length l <= n)%nat -> Forall (lost_row lbs ubs) l -> Forall (nan_row lbs ubs) (pairs_loop (sbx_pair_x beta) k l).
Proof.
  induction n as [|n IH]; intros [|a [|b t]] k L H; cbn [length] in L; try lia; try (constructor; fail). cbn [pairs_loop]. pose proof (Forall_inv H) as Ha. pose proof (Forall_inv (Forall_inv_tail H)) as Hb. destruct (sbx_pair_lost beta k lbs ubs a b Ha Hb) as [A B].
  apply Forall_cons; [exact A|]. apply Forall_cons; [exact B|]. apply IH; [lia|]. exact (Forall_inv_tail (Forall_inv_tail H)).
Qed.
Lemma gene_lost l u x : unbounded l u -> lost l u x -> lost l u (repair_gene_x l u x).
Proof.
  intros H [->|(-> & -> & [a ->])]; [left; exact (proj2 (C138_nan_stays 0 0 l u 0 0))|]. right. split; [reflexivity|]. split; [reflexivity|]. exists a. reflexivity.
Qed.

Lemma bp_row_nan ProM DisM dr : forall j i lbs ubs xs l u, nth_error lbs i = Some l -> nth_error ubs i = Some u -> nth_error xs i = Some NaN -> nth_error (bp_row_x ProM DisM dr j lbs ubs xs) i = Some NaN.
Proof.
  intros j i. revert j. induction i as [|i IH]; intros j [|l0 lbs] [|u0 ubs] [|x xs] l u A B D; try discriminate; cbn [nth_error bp_row_x] in *; [|eapply IH; eassumption]. injection D as ->. f_equal. apply (proj1 (C138_nan_stays ProM DisM l0 u0 _ _)).
Qed.
Lemma bp_row_len ProM DisM dr : forall xs j lbs ubs, length xs = length lbs -> length lbs = length ubs -> length (bp_row_x ProM DisM dr j lbs ubs xs) = length lbs.
Proof. induction xs as [|x xs IH]; intros j [|l lbs] [|u ubs] A B; try discriminate; [reflexivity|]. cbn [bp_row_x length] in *. f_equal. apply IH; congruence. Qed.
Lemma bp_rows_nan ProM DisM dr lbs ubs : length lbs = length ubs -> forall m i, Forall (nan_row lbs ubs) m -> Forall (nan_row lbs ubs) (bp_rows_x ProM DisM dr i lbs ubs m).
Proof.
  intros L. induction m as [|r m IH]; intros i H; cbn [bp_rows_x]; [constructor|]. pose proof (Forall_inv H) as [Lr Hr]. apply Forall_cons; [|apply IH; exact (Forall_inv_tail H)]. split; [apply bp_row_len; assumption|]. intros j l u A B D. eapply bp_row_nan; eauto.
Qed.
Lemma repair_lost lbs ubs r : length lbs = length ubs -> lost_row lbs ubs r -> lost_row lbs ubs (repair_x lbs ubs r).
Proof.
  intros L [Lr H]. split.
  - clear H. revert lbs ubs L Lr. induction r as [|x r IH]; intros [|l lbs] [|u ubs] A B; try discriminate; [reflexivity|]. cbn [repair_x length] in *. f_equal. apply IH; congruence.
  - intros j l u A B D. destruct (H j l u A B D) as (x & X1 & X2). exists (repair_gene_x l u x). split; [|apply gene_lost; assumption]. clear H Lr L D X2. revert lbs ubs r A B X1. induction j as [|j IH]; intros [|l0 lbs] [|u0 ubs] [|x0 r] A B X; try discriminate; cbn [nth_error repair_x] in *; [congruence|apply IH; assumption].
Qed.
(** C138 (false of the code). A run on a problem of which some variable has an infinite bound, with a designed initial population and the default operators (any draws): no row ever evaluated, held or reported has
    a finite value for that variable, for all algorithms and sequences of calls. *)
Theorem C138_run_refuted : forall (O F C U : Type) dom (w : world (list xr) O F C U) c nc u (lbs ubs : list xr) ProM DisM (beta : nat -> nat -> nat -> xr) (dm : nat -> nat -> nat -> R * R) (ids : nat -> pop (list xr) O F C U -> option (list Z) -> list Z) s0 ops0 ks,
  length lbs = length ubs ->
  (forall k p par, w_mate w k p par = match p_ind p with None => Err TypeError | Some l => mate_x ProM DisM (beta k) (dm k) lbs ubs l (ids k p par) end) -> (forall x, w_repair w x = repair_x lbs ubs x) ->
  honest nc u w -> constructed w c nc u ops0 s0 -> (forall e, In e (s_log s0) -> Forall (designed lbs ubs) (snd (fst e))) -> (forall i o f x, In (i, o, f, x) (evaluated ops0) -> designed lbs ubs i) ->
  everywhere (fun r => forall j l u, nth_error lbs j = Some l -> nth_error ubs j = Some u -> unbounded l u -> exists x, nth_error r j = Some x /\ ~ finite x) c (ssession dom w c s0 ks).
Proof.
  intros O F C U dom w c nc u lbs ubs ProM DisM beta dm ids s0 ops0 ks L Hm Hr Hw Hc Hl Ho.
  assert (Weak : forall r, lost_row lbs ubs r -> forall j l u, nth_error lbs j = Some l -> nth_error ubs j = Some u -> unbounded l u -> exists x, nth_error r j = Some x /\ ~ finite x).
  { intros r [_ H] j l v A B D. destruct (H j l v A B D) as (x & X1 & X2). exists x. split; [exact X1|eapply lost_not_finite; exact X2]. }
  assert (E : everywhere (lost_row lbs ubs) c (ssession dom w c s0 ks)).
  { apply (C136_operators_lift dom w c nc u (lost_row lbs ubs) ops0 s0 ks Hw Hc).
    - intros e He. eapply Forall_impl; [|exact (Hl e He)]. intros r. apply designed_lost. exact L.
    - intros i o f x Hx. apply designed_lost; [exact L|]. eapply Ho. exact Hx.
    - intros k p par rows Hp E. rewrite Hm in E. destruct (p_ind p) as [l|]; [|discriminate]. specialize (Hp l eq_refl). unfold mate_x, sbx_do_x in E. destruct (take_rows l (ids k p par)) as [mp|] eqn:Et; [|discriminate]. cbn [bind] in E.
      assert (Hmp : Forall (lost_row lbs ubs) (close_odd mp)).
      { assert (A : Forall (lost_row lbs ubs) mp) by (rewrite Forall_forall in *; intros r Hr'; apply Hp; eapply take_rows_In; eassumption). unfold close_odd. destruct (Nat.odd (length mp)); [|exact A]. destruct mp as [|r t]; [constructor|]. apply Forall_app. split; [exact A|]. constructor; [exact (Forall_inv A)|constructor]. }
      pose proof (pairs_lost (beta k) lbs ubs _ _ 0 (le_n _) Hmp) as N. unfold bp_do_x in E. destruct (forallb _ _); [|discriminate]. injection E as <-. pose proof (bp_rows_nan ProM DisM (dm k) lbs ubs L _ 0 N) as B.
      eapply Forall_impl; [|exact B]. intros r Hr'. apply nan_lost in Hr'. destruct (c_kind c) as [|n [|]|n| |k']; try exact Hr'. rewrite Hr. apply repair_lost; assumption. }
  destruct E as (E1 & E2 & E3 & E4 & E5). split; [|split; [|split; [|split]]].
  - intros e He. eapply Forall_impl; [|exact (E1 e He)]. exact Weak.
  - intros l Hl'. eapply Forall_impl; [|exact (E2 l Hl')]. exact Weak.
  - intros a Ha. eapply Forall_impl; [|exact (E3 a Ha)]. exact Weak.
  - intros g it q Hq l Hl'. eapply Forall_impl; [|exact (E4 g it q Hq l Hl')]. exact Weak.
  - intros V dom' f s' is os Hf. eapply Forall_impl; [|exact (E5 V dom' f s' is os Hf)]. exact Weak.
Qed.

(** C138. With finite bounds, whatever the parents are - infinite and NaN genes included - and whatever is drawn, every gene of every offspring is a number within its bounds, or NaN. *)
Theorem C138_mate_inside : forall ProM DisM beta dm (lbs ubs : list R) p ids off, length lbs = length ubs -> (forall j l u, nth_error lbs j = Some l -> nth_error ubs j = Some u -> l <= u) ->
  mate_x ProM DisM beta dm (map Fin lbs) (map Fin ubs) p ids = Ok off ->
  forall r, In r off -> length r = length lbs /\ forall j l u, nth_error lbs j = Some l -> nth_error ubs j = Some u -> exists x, nth_error r j = Some x /\ inside l u x.
Proof.
  intros ProM DisM beta dm lbs ubs p ids off L Hb E r Hr. unfold mate_x in E. destruct (sbx_do_x beta p ids) as [m|]; [|discriminate]. cbn [bind] in E. unfold bp_do_x in E. destruct (forallb _ m) eqn:F; [|discriminate]. injection E as <-.
  assert (G : forall m i, In r (bp_rows_x ProM DisM dm i (map Fin lbs) (map Fin ubs) m) -> exists k r0, In r0 m /\ r = bp_row_x ProM DisM (dm k) 0 (map Fin lbs) (map Fin ubs) r0).
  { clear F Hr. intros m'. induction m' as [|r0 m' IH]; intros i H; [destruct H|]. cbn [bp_rows_x] in H. destruct H as [<-|H]; [exists i, r0; split; [left|]; reflexivity|]. destruct (IH (S i) H) as (k & r1 & A & B). exists k, r1. split; [right|]; assumption. }
  destruct (G m 0%nat Hr) as (k & r0 & Hr0 & ->). rewrite forallb_forall in F. specialize (F r0 Hr0). apply andb_prop in F. destruct F as [F1 F2]. apply Nat.eqb_eq in F1, F2. rewrite map_length in F1, F2.
  split; [rewrite bp_row_len; rewrite !map_length; congruence|]. clear G Hr Hr0. generalize 0%nat at 1 as i0. revert lbs ubs r0 L Hb F1 F2. intros lbs ubs r0 L Hb F1 F2 i0 j l u Hl Hu.
  assert (exists x, nth_error r0 j = Some x) as [x Hx]. { destruct (nth_error r0 j) eqn:X; [eauto|]. apply nth_error_None in X. assert (j < length lbs)%nat by (apply nth_error_Some; congruence). lia. }
  assert (N : forall j i lbs ubs xs l u x, nth_error lbs j = Some l -> nth_error ubs j = Some u -> nth_error xs j = Some x -> nth_error (bp_row_x ProM DisM (dm k) i lbs ubs xs) j = Some (bp_gene_x ProM DisM l u (fst (dm k (i + j)%nat)) (snd (dm k (i + j)%nat)) x)).
  { clear. induction j as [|j IH]; intros i [|l0 lbs] [|u0 ubs] [|x0 xs] l u x A B D; try discriminate; cbn [nth_error bp_row_x] in *; [rewrite Nat.add_0_r; congruence|]. rewrite (IH (S i) lbs ubs xs l u x A B D). replace (S i + j)%nat with (i + S j)%nat by lia. reflexivity. }
  eexists. split; [apply N; [rewrite nth_error_map, Hl; reflexivity|rewrite nth_error_map, Hu; reflexivity|exact Hx]|]. apply (C138_clamps l u). eapply Hb; eassumption.
Qed.

Print Assumptions C138_agrees_sbx.
Print Assumptions C138_agrees_design.
Print Assumptions C138_mate_inside.
Print Assumptions C138_clamps.
Print Assumptions C138_agrees.
Print Assumptions C138_initial_refuted.
Print Assumptions C138_crossover_lost.
Print Assumptions C138_nan_stays.
Print Assumptions C138_mutation_refuted.
Print Assumptions C138_run_refuted.
Print Assumptions C138_equal_bounds_refuted.

(** The hypotheses are met: one variable with the default bounds, one with none above; two individuals; a run that evaluates only NaN. *)
Definition free_bounds : list xr * list xr := ([MInf; Fin 0], [PInf; PInf]).
Definition free_mate (k : nat) (p : pop (list xr) nat nat unit unit) (par : option (list Z)) : res (list (list xr)) :=
  match p_ind p with None => Err TypeError | Some l => mate_x 1 20 (fun _ _ => Fin 1) (fun _ _ => (/ 2, / 2)) (fst free_bounds) (snd free_bounds) l [0; 1]%Z end.
Definition free_rows : list (list xr) := [scale_row_x [/ 2; / 2] (fst free_bounds) (snd free_bounds); scale_row_x [0; 1] (fst free_bounds) (snd free_bounds)].
Definition free_repair := repair_x (fst free_bounds) (snd free_bounds).
Example free_met : (forall r, In r free_rows -> designed (fst free_bounds) (snd free_bounds) r) /\ unbounded MInf PInf /\ unbounded (Fin 0) PInf /\
  forall ks, everywhere (fun r => forall j l u, nth_error (fst free_bounds) j = Some l -> nth_error (snd free_bounds) j = Some u -> unbounded l u -> exists x, nth_error r j = Some x /\ ~ finite x) (keep_cfg KDecomposition)
    (ssession (fun a b => Nat.ltb a b) (keep_world free_mate free_repair) (keep_cfg KDecomposition) (keep_start free_mate free_repair KDecomposition free_rows) ks).
Proof.
  assert (D : forall r, In r free_rows -> designed (fst free_bounds) (snd free_bounds) r).
  { intros r [<-|[<-|[]]]; eexists; (split; [|split; [|reflexivity]]); [reflexivity|repeat (apply Forall_cons; [lra|]); apply Forall_nil|reflexivity|repeat (apply Forall_cons; [lra|]); apply Forall_nil]. }
  split; [exact D|]. split; [split; [split; [left; reflexivity|left; reflexivity]|left; reflexivity]|]. split; [split; [split; [right; exists 0; reflexivity|left; reflexivity]|right; reflexivity]|]. intros ks.
  apply (C138_run_refuted nat nat unit unit _ (keep_world free_mate free_repair) (keep_cfg KDecomposition) 0 false (fst free_bounds) (snd free_bounds) 1 20 (fun _ _ _ => Fin 1) (fun _ _ _ => (/ 2, / 2)) (fun _ _ _ => [0; 1]%Z) _ []);
    [reflexivity|reflexivity|reflexivity|apply keep_honest|apply keep_constructed| |intros ? ? ? ? []]. apply keep_log. apply Forall_forall. exact D.
Qed.
