(** C33-C36, C71 and the NSGA-III half of C32. *)
From Verif Require Import Base RVec M_APD Spec_APD P_APD M_NSGA3 Spec_Fronts Spec_Nadir P_NSGA3 P_Nadir.
From Coq Require Import Reals Lra Permutation.
Open Scope nat_scope.

(** Contract of desdeo_tools.utilities.fast_non_dominated_sort. *)
Definition fnds_contract (fnds : list (list R) -> list (list nat)) : Prop :=
  forall fit, sorted_fronts (length fit) (row_dom fit) (fnds fit).

Lemma niche_of_lt dirs v : dirs <> [] -> niche_of dirs v < length dirs.
Proof.
  intros H. unfold niche_of. destruct (argmin_some (map (perp_dist v) dirs)) as (k & E); [destruct dirs; [congruence|discriminate]|].
  rewrite E. apply argmin_lt in E. rewrite map_length in E. exact E.
Qed.

(** Unfolding of [nsga3_do] on good input. *)
Lemma nsga3_unfold fnds solve rng dirs s fit n : fnds_contract fnds -> fit <> [] -> n3 s = Some n ->
  exists s' nadir, i3 s' = vmin (i3 s) (match colmin fit with Some m => m | None => [] end) /\ n3 s' = Some n /\
    nsga3_do fnds solve rng dirs s fit =
    bind (survive rng n (length dirs)
            (fun i => niche_of dirs (normalise (i3 s') nadir (row fit i)))
            (fun i => niche_dist dirs (normalise (i3 s') nadir (row fit i))) (fnds fit))
         (fun sel => Ok (s', sel)).
Proof.
  intros FC NE Hn. unfold nsga3_do. pose proof (FC fit) as SF.
  destruct (fnds fit) as [|nd fr] eqn:Ef.
  { exfalso. pose proof (Permutation_length (sf_perm _ _ _ SF)) as L. rewrite seq_length in L. simpl in L. destruct fit; [congruence|discriminate]. }
  assert (Nnd : nd <> []) by (apply (sf_nonempty _ _ _ SF); left; auto).
  destruct fit as [|f0 ft] eqn:Efit; [congruence|]. rewrite <- Efit in *. clear NE.
  assert (exists a, colmin fit = Some a) as (a & Ea) by (rewrite Efit; simpl; eauto).
  assert (exists b, colmax fit = Some b) as (b & Eb) by (rewrite Efit; simpl; eauto).
  assert (exists c, colmax (map (row fit) nd) = Some c) as (c & Ec) by (destruct nd; [congruence|simpl; eauto]).
  rewrite Ea, Eb, Ec, Hn.
  eexists (mkSt3 _ _ _ _), _. cbn [i3 n3]. split; [|split; [|reflexivity]]; reflexivity.
Qed.

(** Shapes: [m] objectives everywhere. *)
Definition shaped (m : nat) (s : st3) (fit : list (list R)) : Prop :=
  length (i3 s) = m /\ (forall w, w3 s = Some w -> length w = m) /\ (forall f, In f fit -> length f = m).

(** The point by which a selection normalises: estimated from the extreme points and worst values stored by that selection;
    the fallback is the worst of the population, the replacement the worst of the first front. *)
Definition normalising (solve : list (list R) -> list R -> option (list R)) (m : nat) (fit : list (list R)) (front0 : list nat) (s' : st3) (nadir : list R) : Prop :=
  exists ext worst wpop wfront, e3 s' = Some ext /\ w3 s' = Some worst /\ greatest m fit wpop /\
    greatest m (map (row fit) front0) wfront /\ nadir_estimate solve ext (i3 s') worst wpop wfront nadir.

Lemma extreme_length front ideal old : front <> [] -> length (extreme_points front ideal old) = length ideal.
Proof.
  intros NE. unfold extreme_points. set (rows := match old with Some e => e ++ front | None => front end).
  assert (NR : rows <> []). { unfold rows. destruct old as [o|]; auto. destruct o; [auto|discriminate]. }
  transitivity (length (seq 0 (length ideal))); [|apply seq_length].
  induction (seq 0 (length ideal)) as [|q l IH]; [reflexivity|]. cbn [flat_map]. rewrite app_length, IH.
  destruct (argmin_some (map (asf q ideal) rows)) as (i & ->); [destruct rows; [congruence|discriminate]|]. reflexivity.
Qed.

(** The same with everything known about the new state and the normalisation. *)
Lemma nsga3_full fnds solve rng dirs s fit n m : fnds_contract fnds -> solve_dims solve -> fit <> [] -> n3 s = Some n -> shaped m s fit ->
  exists s' nadir, n3 s' = Some n /\ least m (i3 s :: fit) (i3 s') /\
    (exists w', w3 s' = Some w' /\ greatest m (match w3 s with Some w => w :: fit | None => fit end) w') /\
    e3 s' = Some (extreme_points (map (row fit) (hd [] (fnds fit))) (i3 s') (e3 s)) /\ hd [] (fnds fit) <> [] /\
    (forall i, In i (hd [] (fnds fit)) -> i < length fit) /\
    normalising solve m fit (hd [] (fnds fit)) s' nadir /\
    nsga3_do fnds solve rng dirs s fit =
    bind (survive rng n (length dirs)
            (fun i => niche_of dirs (normalise (i3 s') nadir (row fit i)))
            (fun i => niche_dist dirs (normalise (i3 s') nadir (row fit i))) (fnds fit))
         (fun sel => Ok (s', sel)).
Proof.
  intros FC SD NE Hn (Li & Lw & Lf). unfold nsga3_do. pose proof (FC fit) as SF.
  destruct (fnds fit) as [|nd fr] eqn:Ef.
  { exfalso. pose proof (Permutation_length (sf_perm _ _ _ SF)) as L. rewrite seq_length in L. simpl in L. destruct fit; [congruence|discriminate]. }
  assert (Nnd : nd <> []) by (apply (sf_nonempty _ _ _ SF); left; auto).
  assert (Hnd : forall i, In i nd -> i < length fit).
  { intros i Hi. assert (I : In i (concat (nd :: fr))) by (cbn [concat]; apply in_or_app; auto). apply (Permutation_in _ (sf_perm _ _ _ SF)) in I. apply in_seq in I. lia. }
  assert (Lnd : forall f, In f (map (row fit) nd) -> length f = m).
  { intros f Hf. apply in_map_iff in Hf. destruct Hf as (i & <- & Hi). apply Lf. unfold row. apply nth_In. auto. }
  assert (exists a, colmin fit = Some a) as (a & Ea) by (destruct fit; [congruence|simpl; eauto]).
  assert (exists b, colmax fit = Some b) as (b & Eb) by (destruct fit; [congruence|simpl; eauto]).
  assert (exists c, colmax (map (row fit) nd) = Some c) as (c & Ec) by (destruct nd; [congruence|simpl; eauto]).
  rewrite Ea, Eb, Ec, Hn. cbn [hd].
  pose proof (vmin_least m (i3 s) fit a Li (colmin_least _ _ _ Lf Ea)) as Hl.
  pose proof (colmax_greatest _ _ _ Lf Eb) as Gb. pose proof (colmax_greatest _ _ _ Lnd Ec) as Gc.
  assert (Gw : greatest m (match w3 s with Some w => w :: fit | None => fit end) (match w3 s with Some w => vmax w b | None => b end)).
  { destruct (w3 s) as [w|]; [apply vmax_greatest; auto|exact Gb]. }
  set (ideal := vmin (i3 s) a) in *. set (worst := match w3 s with None => b | Some w => vmax w b end) in *.
  set (ext := extreme_points (map (row fit) nd) ideal (e3 s)).
  exists (mkSt3 ideal (Some worst) (Some ext) (Some n)), (nadir_point solve ext ideal worst b c). cbn [i3 w3 e3 n3].
  split; [auto|]. split; [exact Hl|]. split; [eauto|]. split; [reflexivity|]. split; [exact Nnd|]. split; [exact Hnd|]. split; [|reflexivity].
  exists ext, worst, b, c. cbn [i3 w3 e3]. split; [auto|]. split; [auto|]. split; [exact Gb|]. split; [exact Gc|].
  destruct Hl as (Ll & _). destruct Gb as (Lb & _). destruct Gc as (Lc & _). destruct Gw as (Lww & _).
  apply nadir_ok; [exact SD|apply extreme_length; destruct nd; [congruence|discriminate]|idtac|rewrite Lb, Ll; reflexivity|rewrite Lc, Ll; reflexivity].
  rewrite Ll. rewrite <- Lww. unfold worst. destruct (w3 s); reflexivity.
Qed.

(** C33. If the population has at least n_survive individuals, exactly n_survive distinct valid
    positions are returned (for every random choice), and n_survive stays what it was. *)
Theorem C33_exact_count : forall fnds solve rng dirs s fit n,
  fnds_contract fnds -> shuffles rng -> dirs <> [] -> fit <> [] -> n3 s = Some n -> n <= length fit ->
  exists s' sel, nsga3_do fnds solve rng dirs s fit = Ok (s', sel) /\
    length sel = n /\ NoDup sel /\ (forall i, In i sel -> i < length fit) /\ n3 s' = Some n.
Proof.
  intros fnds solve rng dirs s fit n FC SH Hd NE Hn Hle.
  destruct (nsga3_unfold fnds solve rng dirs s fit n FC NE Hn) as (s' & nadir & _ & Hn' & E). rewrite E.
  assert (Hpos : 0 < length fit) by (destruct fit; [congruence|simpl; lia]).
  destruct (survive_shape rng n (length dirs) (fun i => niche_of dirs (normalise (i3 s') nadir (row fit i)))
     (fun i => niche_dist dirs (normalise (i3 s') nadir (row fit i))) (fnds fit) (length fit) (row_dom fit) SH
     (fun i => niche_of_lt dirs _ Hd) (FC fit) Hle Hpos) as (pre & last & post & added & E1 & E2 & E3 & E4 & E5 & _).
  rewrite E2. cbn [bind]. exists s', (concat pre ++ added). split; [reflexivity|]. split; [exact E3|].
  pose proof (sf_perm _ _ _ (FC fit)) as P. rewrite E1, concat_app in P. cbn [concat] in P.
  assert (ND : NoDup (concat pre ++ last ++ concat post)) by (eapply Permutation_NoDup; [symmetry; exact P|apply seq_NoDup]).
  split; [|split; [|exact Hn']].
  - apply NoDup_app_intro; auto; [eapply NoDup_app_l; eauto|]. intros x Hx Ha.
    eapply NoDup_app_disj; [exact ND|exact Hx|]. apply in_app_iff. left; auto.
  - intros i Hi. assert (I : In i (concat pre ++ last ++ concat post)).
    { rewrite !in_app_iff in *. destruct Hi as [|Hi]; auto. }
    apply (Permutation_in _ P) in I. apply in_seq in I. lia.
Qed.
Print Assumptions C33_exact_count.

(** C34. Elitism: whoever dominates a selected individual is selected. *)
Theorem C34_dominators_selected : forall fnds solve rng dirs s fit n s' sel i j,
  fnds_contract fnds -> shuffles rng -> dirs <> [] -> fit <> [] -> n3 s = Some n -> n <= length fit ->
  nsga3_do fnds solve rng dirs s fit = Ok (s', sel) ->
  In i sel -> row_dom fit j i -> In j sel.
Proof.
  intros fnds solve rng dirs s fit n s' sel i j FC SH Hd NE Hn Hle H Hi Dj.
  destruct (nsga3_unfold fnds solve rng dirs s fit n FC NE Hn) as (s1 & nadir & _ & Hn' & E). rewrite E in H.
  assert (Hpos : 0 < length fit) by (destruct fit; [congruence|simpl; lia]).
  destruct (survive_shape rng n (length dirs) (fun i => niche_of dirs (normalise (i3 s1) nadir (row fit i)))
     (fun i => niche_dist dirs (normalise (i3 s1) nadir (row fit i))) (fnds fit) (length fit) (row_dom fit) SH
     (fun i => niche_of_lt dirs _ Hd) (FC fit) Hle Hpos) as (pre & last & post & added & E1 & E2 & E3 & E4 & E5 & _).
  rewrite E2 in H. cbn [bind] in H. injection H as _ <-.
  assert (Hfr : exists a fa, nth_error (fnds fit) a = Some fa /\ In i fa /\ a <= length pre).
  { apply in_app_iff in Hi. destruct Hi as [Hi|Hi].
    - apply in_concat in Hi. destruct Hi as (fa & Hfa & Hi). apply In_nth_error in Hfa. destruct Hfa as (a & Ha).
      assert (a < length pre) by (apply nth_error_Some; congruence). exists a, fa. rewrite E1, nth_error_app1 by auto. repeat split; auto; lia.
    - exists (length pre), last. rewrite E1, nth_error_app2, Nat.sub_diag by auto. repeat split; auto. }
  destruct Hfr as (a & fa & Ha & Hia & Hle').
  assert (Hjn : j < length fit) by (destruct Dj as (u & v & Hu & _); apply nth_error_Some; congruence).
  assert (Ij : In j (concat (fnds fit))) by (eapply Permutation_in; [symmetry; apply (sf_perm _ _ _ (FC fit))|apply in_seq; lia]).
  apply in_concat in Ij. destruct Ij as (fb & Hfb & Hjb). apply In_nth_error in Hfb. destruct Hfb as (b & Hb).
  pose proof (sf_order _ _ _ (FC fit) b a fb fa j i Hb Ha Hjb Hia Dj) as Hlt.
  apply in_app_iff. left. apply in_concat. exists fb. split; [|auto].
  rewrite E1, nth_error_app1 in Hb by lia. eapply nth_error_In; eauto.
Qed.

(** C34. Fronts are taken whole, in order, except the last one used. *)
Theorem C34_fronts_in_order : forall fnds solve rng dirs s fit n s' sel,
  fnds_contract fnds -> shuffles rng -> dirs <> [] -> fit <> [] -> n3 s = Some n -> n <= length fit ->
  nsga3_do fnds solve rng dirs s fit = Ok (s', sel) ->
  exists a, (forall b f i, nth_error (fnds fit) b = Some f -> b < a -> In i f -> In i sel) /\
            (forall b f i, nth_error (fnds fit) b = Some f -> a < b -> In i f -> ~ In i sel).
Proof.
  intros fnds solve rng dirs s fit n s' sel FC SH Hd NE Hn Hle H.
  destruct (nsga3_unfold fnds solve rng dirs s fit n FC NE Hn) as (s1 & nadir & _ & Hn' & E). rewrite E in H.
  assert (Hpos : 0 < length fit) by (destruct fit; [congruence|simpl; lia]).
  destruct (survive_shape rng n (length dirs) (fun i => niche_of dirs (normalise (i3 s1) nadir (row fit i)))
     (fun i => niche_dist dirs (normalise (i3 s1) nadir (row fit i))) (fnds fit) (length fit) (row_dom fit) SH
     (fun i => niche_of_lt dirs _ Hd) (FC fit) Hle Hpos) as (pre & last & post & added & E1 & E2 & E3 & E4 & E5 & _).
  rewrite E2 in H. cbn [bind] in H. injection H as _ <-.
  exists (length pre). rewrite E1. split; intros b f i Hb Hlt Hi.
  - rewrite nth_error_app1 in Hb by auto. apply in_app_iff. left. apply in_concat. exists f. split; [eapply nth_error_In; eauto|auto].
  - rewrite nth_error_app2 in Hb by lia. destruct (b - length pre) as [|q] eqn:Eq; [lia|]. simpl in Hb.
    pose proof (sf_perm _ _ _ (FC fit)) as P. rewrite E1, concat_app in P. cbn [concat] in P.
    assert (ND : NoDup (concat pre ++ last ++ concat post)) by (eapply Permutation_NoDup; [symmetry; exact P|apply seq_NoDup]).
    rewrite app_assoc in ND. intros I. eapply (NoDup_app_disj _ _ i ND).
    + rewrite in_app_iff in *. destruct I; auto.
    + apply in_concat. exists f. split; [eapply nth_error_In; eauto|auto].
Qed.

(** C35. While the last front [last] is split, the t-th individual added lies in a niche that has,
    among the niches of the remaining candidates, the fewest members in the selection so far; and
    if that niche has none yet, no remaining candidate of the niche is closer to its direction. A
    niche is the direction whose line is nearest to the normalised fitness (next theorem). *)
Theorem C35_least_crowded_first : forall fnds solve rng dirs s fit n m s' sel,
  fnds_contract fnds -> solve_dims solve -> shuffles rng -> dirs <> [] -> fit <> [] -> n3 s = Some n -> n <= length fit -> shaped m s fit ->
  nsga3_do fnds solve rng dirs s fit = Ok (s', sel) ->
  exists nadir pre last post, normalising solve m fit (hd [] (fnds fit)) s' nadir /\ fnds fit = pre ++ last :: post /\
    let niche := fun i => niche_of dirs (normalise (i3 s') nadir (row fit i)) in
    let dist := fun i => niche_dist dirs (normalise (i3 s') nadir (row fit i)) in
    (forall i, In i sel <-> In i (concat pre) \/ In i (skipn (length (concat pre)) sel)) /\
    (forall i, In i (skipn (length (concat pre)) sel) -> In i last) /\
    forall t x y, nth_error sel (length (concat pre) + t) = Some x -> n < length (concat pre ++ last) ->
      let sofar := firstn (length (concat pre) + t) sel in
      In y last -> ~ In y sofar ->
      count_occ Nat.eq_dec (map niche sofar) (niche x) <= count_occ Nat.eq_dec (map niche sofar) (niche y) /\
      (count_occ Nat.eq_dec (map niche sofar) (niche x) = 0 -> niche y = niche x -> (dist x <= dist y)%R).
Proof.
  intros fnds solve rng dirs s fit n m s' sel FC SD SH Hd NE Hn Hle Sh H.
  destruct (nsga3_full fnds solve rng dirs s fit n m FC SD NE Hn Sh) as (s1 & nadir & Hn' & _ & _ & _ & _ & _ & Nm & E). rewrite E in H.
  assert (Hpos : 0 < length fit) by (destruct fit; [congruence|simpl; lia]).
  destruct (survive_shape rng n (length dirs) (fun i => niche_of dirs (normalise (i3 s1) nadir (row fit i)))
     (fun i => niche_dist dirs (normalise (i3 s1) nadir (row fit i))) (fnds fit) (length fit) (row_dom fit) SH
     (fun i => niche_of_lt dirs _ Hd) (FC fit) Hle Hpos) as (pre & last & post & added & E1 & E2 & E3 & E4 & E5 & E6).
  rewrite E2 in H. cbn [bind] in H. injection H as <- <-.
  exists nadir, pre, last, post. split; [exact Nm|]. split; [exact E1|]. cbv zeta.
  assert (SK : skipn (length (concat pre)) (concat pre ++ added) = added) by (rewrite skipn_app, skipn_all, Nat.sub_diag; reflexivity).
  rewrite SK. split; [intros; apply in_app_iff|]. split; [exact E5|].
  intros t x y Hx Hlt. rewrite nth_error_app2 in Hx by lia. replace (length (concat pre) + t - length (concat pre)) with t in Hx by lia.
  rewrite firstn_app_2. intros Hy Ny. apply (E6 t x Hx); auto. rewrite E3; exact Hlt.
Qed.

(** The niche of a point [v]: the (first) direction whose line through the origin is nearest, and
    [niche_dist] is the distance to that line, attained and minimal over the whole line. *)
Theorem C35_niche_is_nearest_line : forall dirs v,
  dirs <> [] -> (forall u, In u dirs -> length u = length v /\ exists x, In x u /\ x <> 0%R) ->
  exists u, nth_error dirs (niche_of dirs v) = Some u /\
    (exists a, niche_dist dirs v = norm (vsub (vscale a u) v)) /\
    (forall u' b, In u' dirs -> niche_dist dirs v <= norm (vsub (vscale b u') v))%R.
Proof.
  intros dirs v Hd Hu. unfold niche_dist. pose proof (niche_of_lt dirs v Hd) as Hlt.
  destruct (nth_error dirs (niche_of dirs v)) as [u|] eqn:Eu; [|apply nth_error_None in Eu; lia].
  rewrite (nth_error_nth dirs _ [] Eu). exists u. split; [reflexivity|].
  assert (PD : forall w, In w dirs -> perp_dist v w = norm (vsub (vscale (dot v w / dot w w) w) v) /\
            forall b, (perp_dist v w <= norm (vsub (vscale b w) v))%R).
  { intros w Hw. destruct (Hu w Hw) as (L & x & Hx & Nx). pose proof (dot_pos w x Hx Nx) as P.
    assert (Pn : (0 < norm w)%R) by (eapply norm_pos; eauto).
    assert (EQ : perp_dist v w = norm (vsub (vscale (dot v w / dot w w) w) v)).
    { unfold perp_dist. f_equal. f_equal. unfold vscale. apply map_ext. intros y. rewrite <- (norm_sq w). field. lra. }
    split; [exact EQ|]. intros b. rewrite EQ. unfold norm. apply sqrt_le_1_alt.
    assert (SQ : forall a, (dot (vsub (vscale a w) v) (vsub (vscale a w) v) = dot v v - 2 * a * dot v w + a * a * dot w w)%R).
    { intros a. assert (La : length (vscale a w) = length v) by (rewrite vscale_length; auto).
      rewrite dot_sub_l, !dot_sub_r, !dot_scale_l, !dot_scale_r, (dot_comm w v) by auto. ring. }
    rewrite !SQ. set (p := dot v w). set (q := dot w w) in *.
    assert (D : (0 <= (b - p / q) * (b - p / q) * q)%R) by (apply Rmult_le_pos; [apply Rle_0_sqr|lra]).
    replace ((b - p / q) * (b - p / q) * q)%R with (b * b * q - 2 * b * p + p * p / q)%R in D by (field; lra).
    replace (dot v v - 2 * (p / q) * p + p / q * (p / q) * q)%R with (dot v v - p * p / q)%R by (field; lra). lra. }
  split; [exists (dot v u / dot u u)%R; apply PD; eapply nth_error_In; eauto|].
  intros u' b Hu'. eapply Rle_trans; [|apply PD; exact Hu'].
  unfold niche_of in Eu. destruct (argmin_some (map (perp_dist v) dirs)) as (k & E); [destruct dirs; [congruence|discriminate]|].
  rewrite E in Eu. destruct (argmin_spec _ _ E) as (w & Hw & Hall & _). rewrite nth_error_map, Eu in Hw. injection Hw as <-.
  apply Hall. apply in_map; auto.
Qed.

(** Normalisation: every component is (f - ideal) divided by (nadir - ideal), never by zero. *)
Theorem C35_normalised_components : forall ideal nadir f j fj ij nj,
  nth_error f j = Some fj -> nth_error ideal j = Some ij -> nth_error nadir j = Some nj ->
  nth_error (normalise ideal nadir f) j = Some ((fj - ij) / (if Req_EM_T (nj - ij) 0 then / 1000000000000 else nj - ij))%R.
Proof.
  intros. unfold normalise. rewrite vmap2_nth, nth_error_map. unfold vsub. rewrite !vmap2_nth, H, H0, H1. simpl.
  do 2 f_equal. destruct (Req_EM_T (nj - ij) 0); [unfold Rdiv; ring|reflexivity].
Qed.

(** C36, as claimed, fails: a population smaller than n_survive is wiped out (the selection is
    empty), and an explicitly given n_survive makes every selection raise. *)
Theorem C36_small_population_wiped_refuted : forall fnds solve rng dirs s fit n,
  fnds_contract fnds -> fit <> [] -> n3 s = Some n -> length fit < n ->
  exists s', nsga3_do fnds solve rng dirs s fit = Ok (s', []).
Proof.
  intros fnds solve rng dirs s fit n FC NE Hn Hlt.
  destruct (nsga3_unfold fnds solve rng dirs s fit n FC NE Hn) as (s' & nadir & _ & Hn' & E). rewrite E. exists s'.
  unfold survive. pose proof (cut_fronts_spec n (fnds fit) []) as CS.
  assert (Hlen : length (concat (fnds fit)) = length fit) by (rewrite (Permutation_length (sf_perm _ _ _ (FC fit))); apply seq_length).
  destruct (cut_fronts n [] (fnds fit)) as [[before last]|]; [|reflexivity]. exfalso.
  destruct CS as (pre & post & E1 & E2 & E3 & _). simpl in E2. subst before. rewrite E1, !concat_app in *. simpl in *.
  rewrite !app_length in *. simpl in *. lia.
Qed.
Theorem C36_explicit_n_survive_refuted : forall fnds solve rng dirs pop_ideal pop_size k fit,
  fnds_contract fnds -> fit <> [] ->
  nsga3_do fnds solve rng dirs (init3 pop_ideal pop_size (Some k)) fit = Err AttributeError.
Proof.
  intros fnds solve rng dirs pop_ideal pop_size k fit FC NE. unfold nsga3_do. pose proof (FC fit) as SF.
  destruct (fnds fit) as [|nd fr] eqn:Ef.
  { exfalso. pose proof (Permutation_length (sf_perm _ _ _ SF)) as L. rewrite seq_length in L. simpl in L. destruct fit; [congruence|discriminate]. }
  assert (Nnd : nd <> []) by (apply (sf_nonempty _ _ _ SF); left; auto).
  destruct fit as [|f0 ft]; [congruence|]. destruct nd; [congruence|]. reflexivity.
Qed.
(** What holds: with the default n_survive and at least that many (and at least one) individuals
    the selection is not empty. Missing: smaller populations, and honouring an explicit n_survive. *)
Theorem C36_nonempty_partial : forall fnds solve rng dirs pop_ideal pop_size fit,
  fnds_contract fnds -> shuffles rng -> dirs <> [] -> 0 < pop_size -> pop_size <= length fit ->
  exists s' sel, nsga3_do fnds solve rng dirs (init3 pop_ideal pop_size None) fit = Ok (s', sel) /\ sel <> [] /\ length sel = pop_size.
Proof.
  intros fnds solve rng dirs pop_ideal pop_size fit FC SH Hd Hp Hle.
  destruct (C33_exact_count fnds solve rng dirs (init3 pop_ideal pop_size None) fit pop_size FC SH Hd) as (s' & sel & A & B & _); auto.
  { destruct fit; [simpl in Hle; lia|discriminate]. }
  exists s', sel. split; [exact A|]. split; [|exact B]. destruct sel; [simpl in B; lia|discriminate].
Qed.

(** C32 for NSGA-III: the ideal never increases and is at most every fitness; the worst point
    never decreases and is at least every fitness. *)
Lemma vmax_ge u v : length u = length v -> Forall2 Rle u (vmax u v) /\ Forall2 Rle v (vmax u v).
Proof.
  unfold vmax. revert v; induction u as [|x u IH]; intros [|y v] H; simpl in *; try discriminate.
  - split; constructor.
  - destruct (IH v ltac:(lia)). split; constructor; auto; [apply Rmax_l|apply Rmax_r].
Qed.
Lemma vmax_length u v : length u = length v -> length (vmax u v) = length u.
Proof. apply vmap2_length. Qed.
Lemma fold_vmax rows : forall r, (forall f, In f rows -> length f = length r) ->
  length (fold_left vmax rows r) = length r /\ Forall2 Rle r (fold_left vmax rows r) /\
  forall f, In f rows -> Forall2 Rle f (fold_left vmax rows r).
Proof.
  induction rows as [|x t IH]; intros r H; simpl.
  - split; [auto|]. split; [apply Forall2_Rle_refl|]. intros f [].
  - assert (L : length r = length x) by (symmetry; apply H; left; auto).
    destruct (IH (vmax r x)) as (A & B & C).
    { intros f Hf. rewrite vmax_length by auto. apply H. right; auto. }
    destruct (vmax_ge r x L) as [D1 D2]. rewrite vmax_length in A by auto.
    split; [auto|]. split; [eapply Forall2_Rle_trans; eauto|].
    intros f [<-|Hf]; auto. eapply Forall2_Rle_trans; eauto.
Qed.
Theorem C32_nsga3_ideal_worst : forall fnds solve rng dirs s fit s' sel m,
  length (i3 s) = m -> (forall w, w3 s = Some w -> length w = m) -> (forall f, In f fit -> length f = m) ->
  nsga3_do fnds solve rng dirs s fit = Ok (s', sel) ->
  length (i3 s') = m /\ Forall2 Rle (i3 s') (i3 s) /\ (forall f, In f fit -> Forall2 Rle (i3 s') f) /\
  exists w', w3 s' = Some w' /\ length w' = m /\ (forall w, w3 s = Some w -> Forall2 Rle w w') /\ (forall f, In f fit -> Forall2 Rle f w').
Proof.
  intros fnds solve rng dirs s fit s' sel m Li Lw Lf H. unfold nsga3_do in H.
  destruct (fnds fit) as [|nd fr]; [discriminate|].
  destruct (colmin fit) as [fmin|] eqn:Emin; [|discriminate]. destruct (colmax fit) as [wpop|] eqn:Emax; [|discriminate].
  destruct (colmax (map (row fit) nd)); [|discriminate]. destruct (n3 s); [|discriminate].
  match type of H with bind ?x _ = _ => destruct x as [sl|]; [|discriminate] end.
  cbn [bind] in H. injection H as <- _. cbn [i3 w3].
  destruct fit as [|r t]; [discriminate|]. cbn [colmin] in Emin. cbn [colmax] in Emax. injection Emin as <-. injection Emax as <-.
  assert (Lr : length r = m) by (apply Lf; left; auto).
  assert (Lt : forall f, In f t -> length f = length r) by (intros f Hf; rewrite Lr; apply Lf; right; auto).
  destruct (fold_vmin t r Lt) as (A1 & A2 & A3). destruct (fold_vmax t r Lt) as (B1 & B2 & B3).
  destruct (vmin_le (i3 s) (fold_left vmin t r)) as [C1 C2]; [lia|].
  split; [rewrite vmin_length; lia|]. split; [exact C1|]. split.
  { intros f [<-|Hf]; eapply Forall2_Rle_trans; eauto. }
  destruct (w3 s) as [w|] eqn:Ew.
  - pose proof (Lw w eq_refl) as Lw'. destruct (vmax_ge w (fold_left vmax t r)) as [D1 D2]; [lia|].
    eexists. split; [reflexivity|]. split; [rewrite vmax_length; lia|]. split; [intros w' E; injection E as <-; auto|].
    intros f [<-|Hf]; eapply Forall2_Rle_trans; eauto.
  - eexists. split; [reflexivity|]. split; [lia|]. split; [discriminate|]. intros f [<-|Hf]; auto.
Qed.

(** C32, exactly: the ideal point is the componentwise least of the previous one and the fitness seen, the worst point the
    greatest; so over a run they are the least and greatest values ever seen. *)
Theorem C32_nsga3_exact : forall fnds solve rng dirs s fit n m s' sel,
  fnds_contract fnds -> solve_dims solve -> fit <> [] -> n3 s = Some n -> shaped m s fit ->
  nsga3_do fnds solve rng dirs s fit = Ok (s', sel) ->
  least m (i3 s :: fit) (i3 s') /\
  exists w', w3 s' = Some w' /\ greatest m (match w3 s with Some w => w :: fit | None => fit end) w'.
Proof.
  intros fnds solve rng dirs s fit n m s' sel FC SD NE Hn Sh H.
  destruct (nsga3_full fnds solve rng dirs s fit n m FC SD NE Hn Sh) as (s1 & nadir & _ & A & B & _ & _ & _ & _ & E). rewrite E in H.
  destruct (survive _ _ _ _ _ _) as [sl|]; [|discriminate]. cbn [bind] in H. injection H as <- _. auto.
Qed.

(** The achievement of a point on axis [k]: the greatest, over the objectives, of its distance from the ideal point in that objective (0 if below a thousandth),
    counted a million times in every objective but [k]. *)
Definition axis_value (k : nat) (ideal f : list R) (v : R) : Prop :=
  let term (j : nat) := let d := (nth j f 0 - nth j ideal 0)%R in ((if Rlt_dec d (1 / 1000) then 0 else d) * (if Nat.eq_dec j k then 1 else 1000000))%R in
  (exists j, j < length f /\ v = term j) /\ forall j, j < length f -> (term j <= v)%R.
Lemma fold_Rmax_spec l : forall x, In (fold_left Rmax l x) (x :: l) /\ forall y, In y (x :: l) -> (y <= fold_left Rmax l x)%R.
Proof.
  induction l as [|a l IH]; intros x; cbn [fold_left]; [split; [left; auto|intros y [<-|[]]; lra]|]. destruct (IH (Rmax x a)) as (A & B). split.
  - destruct A as [A|A]; [|right; right; auto]. rewrite <- A. unfold Rmax. destruct (Rle_dec x a); [right; left; auto|left; auto].
  - intros y [<-|[<-|H]]; [|..|apply B; right; auto].
    + apply Rle_trans with (Rmax x a); [apply Rmax_l|apply B; left; auto].
    + apply Rle_trans with (Rmax x a); [apply Rmax_r|apply B; left; auto].
Qed.
Lemma asf_terms k : forall f ideal a, length f = length ideal ->
  vmap2 (fun j x => snap_small x * asf_weight k j)%R (seq a (length f)) (vsub f ideal) =
  map (fun j => (let d := (nth j f 0 - nth j ideal 0)%R in (if Rlt_dec d (1 / 1000) then 0 else d) * (if Nat.eq_dec (a + j) k then 1 else 1000000))%R) (seq 0 (length f)).
Proof.
  induction f as [|x f IH]; intros [|y ideal] a L; try discriminate; [reflexivity|]. injection L as L. cbn [length seq]. unfold vsub in *. cbn [vmap2 map]. f_equal.
  - cbn [nth]. unfold snap_small, asf_weight. rewrite Nat.add_0_r. destruct (Nat.eq_dec a k) as [->|N]; [rewrite Nat.eqb_refl; auto|]. assert (E : Nat.eqb k a = false) by (apply Nat.eqb_neq; auto). rewrite E. auto.
  - rewrite (IH ideal (S a) L). rewrite <- (seq_shift (length f) 0), map_map. apply map_ext. intros j. cbn [nth]. replace (a + S j) with (S a + j) by lia. auto.
Qed.
Theorem C71_axis_value : forall k ideal f v, f <> [] -> length f = length ideal -> (axis_value k ideal f v <-> v = asf k ideal f).
Proof.
  assert (X : forall k ideal f, f <> [] -> length f = length ideal -> axis_value k ideal f (asf k ideal f)).
  { intros k ideal f NE L. unfold axis_value, asf. rewrite asf_terms by auto. match goal with |- context [map ?gg (seq 0 (length f))] => set (g := gg) end. destruct (length f) as [|m] eqn:E; [destruct f; [congruence|discriminate]|].
    cbn [seq map]. destruct (fold_Rmax_spec (map g (seq 1 m)) (g 0)) as (A & B). change (g 0 :: map g (seq 1 m)) with (map g (seq 0 (S m))) in A, B. split.
    - apply in_map_iff in A. destruct A as (j & Ej & Hj). apply in_seq in Hj. exists j. split; [lia|]. rewrite <- Ej. reflexivity.
    - intros j Hj. apply (B (g j)). apply in_map. apply in_seq. lia. }
  intros k ideal f v NE L. split; [|intros ->; auto]. intros ((j & Hj & ->) & Hv). destruct (X k ideal f NE L) as ((i & Hi & Ei) & Hx). apply Rle_antisym; [apply Hx; auto|]. rewrite Ei. apply Hv; auto.
Qed.
(** C71. Extreme points: one per objective, each a previous extreme point or a member of the first
    front, minimising the achievement on its axis over both - so an extreme point is only
    ever replaced by one that is at least as good (with respect to the current ideal). *)
Theorem C71_extreme_points : forall front ideal old k, front <> [] -> k < length ideal ->
  (forall f, In f front -> length f = length ideal) -> (forall o f, old = Some o -> In f o -> length f = length ideal) ->
  length (extreme_points front ideal old) = length ideal /\
  exists e, nth_error (extreme_points front ideal old) k = Some e /\
    (In e front \/ exists o, old = Some o /\ In e o) /\
    exists v, axis_value k ideal e v /\
    (forall f w, In f front -> axis_value k ideal f w -> (v <= w)%R) /\
    (forall o f w, old = Some o -> In f o -> axis_value k ideal f w -> (v <= w)%R).
Proof.
  intros front ideal old k NE Hk Lf Lo. unfold extreme_points.
  set (rows := match old with Some e => e ++ front | None => front end).
  assert (NR : rows <> []). { unfold rows. destruct old as [o|]; auto. destruct o; [auto|discriminate]. }
  assert (A : forall k, exists i, argmin (map (asf k ideal) rows) = Some i).
  { intros q. apply argmin_some. destruct rows; [congruence|discriminate]. }
  assert (FM : flat_map (fun k => match argmin (map (asf k ideal) rows) with Some i => [nth i rows []] | None => [] end) (seq 0 (length ideal))
     = map (fun k => nth (match argmin (map (asf k ideal) rows) with Some i => i | None => O end) rows []) (seq 0 (length ideal))).
  { induction (seq 0 (length ideal)) as [|q l IH]; [reflexivity|]. cbn [flat_map map]. destruct (A q) as (i & ->). cbn [app]. f_equal. exact IH. }
  rewrite FM. split; [rewrite map_length, seq_length; auto|].
  destruct (A k) as (i & Ei). exists (nth i rows []). split.
  { rewrite nth_error_map, (nth_error_nth' _ O) by (rewrite seq_length; auto). rewrite seq_nth by auto. simpl. rewrite Ei. reflexivity. }
  destruct (argmin_spec _ _ Ei) as (w & Hw & Hall & _). rewrite nth_error_map in Hw. destruct (nth_error rows i) as [e|] eqn:Ee; [|discriminate].
  injection Hw as <-. rewrite (nth_error_nth rows i [] Ee).
  assert (HI : forall f, In f rows -> (asf k ideal e <= asf k ideal f)%R) by (intros f Hf; apply Hall, in_map; auto).
  apply nth_error_In in Ee.
  assert (Lr : forall f, In f rows -> length f = length ideal).
  { unfold rows. destruct old as [o|]; [|auto]. intros f Hf. apply in_app_iff in Hf. destruct Hf; [eapply Lo; eauto|auto]. }
  assert (Nf : forall f, In f rows -> f <> []) by (intros f Hf ->; specialize (Lr _ Hf); simpl in Lr; lia).
  split. { unfold rows in Ee. destruct old as [o|]; [apply in_app_iff in Ee; destruct Ee; [right; eauto|auto]|auto]. }
  exists (asf k ideal e). split; [apply C71_axis_value; auto|]. split.
  - intros f w Hf Hv. assert (Hr : In f rows) by (unfold rows; destruct old; [apply in_app_iff; auto|auto]). apply C71_axis_value in Hv; auto. subst w. auto.
  - intros o f w -> Hf Hv. assert (Hr : In f rows) by (unfold rows; apply in_app_iff; auto). apply C71_axis_value in Hv; auto. subst w. auto.

Qed.

(** C71, for a whole selection: the extreme points it leaves behind. *)
Theorem C71_after_selection : forall fnds solve rng dirs s fit n m s' sel,
  fnds_contract fnds -> solve_dims solve -> fit <> [] -> n3 s = Some n -> shaped m s fit ->
  (forall o e, e3 s = Some o -> In e o -> length e = m) ->
  nsga3_do fnds solve rng dirs s fit = Ok (s', sel) ->
  exists ext, e3 s' = Some ext /\ length ext = m /\ (forall e, In e ext -> length e = m) /\
  forall k, k < m -> exists e, nth_error ext k = Some e /\
    ((exists i, In i (hd [] (fnds fit)) /\ e = row fit i) \/ exists o, e3 s = Some o /\ In e o) /\
    exists v, axis_value k (i3 s') e v /\
    (forall i w, In i (hd [] (fnds fit)) -> axis_value k (i3 s') (row fit i) w -> (v <= w)%R) /\
    (forall o f w, e3 s = Some o -> In f o -> axis_value k (i3 s') f w -> (v <= w)%R).
Proof.
  intros fnds solve rng dirs s fit n m s' sel FC SD NE Hn Sh Lo H.
  destruct (nsga3_full fnds solve rng dirs s fit n m FC SD NE Hn Sh) as (s1 & nadir & _ & (Li & _) & _ & Ee & Nf & Hf & _ & E). rewrite E in H.
  destruct (survive _ _ _ _ _ _) as [sl|]; [|discriminate]. cbn [bind] in H. injection H as <- _.
  set (front := map (row fit) (hd [] (fnds fit))) in *.
  assert (NF : front <> []) by (unfold front; destruct (hd [] (fnds fit)); [congruence|discriminate]).
  assert (Lf : forall f, In f front -> length f = length (i3 s1)).
  { intros f Hin. unfold front in Hin. apply in_map_iff in Hin. destruct Hin as (i & <- & Hi). rewrite Li. destruct Sh as (_ & _ & Lf). apply Lf. unfold row. apply nth_In. auto. }
  assert (Lo' : forall o f, e3 s = Some o -> In f o -> length f = length (i3 s1)) by (intros o f Eo Hin; rewrite Li; eauto).
  exists (extreme_points front (i3 s1) (e3 s)). split; [exact Ee|]. split; [rewrite extreme_length; auto|].
  assert (X : forall k, k < m -> exists e, nth_error (extreme_points front (i3 s1) (e3 s)) k = Some e /\
    (In e front \/ exists o, e3 s = Some o /\ In e o) /\
    exists v, axis_value k (i3 s1) e v /\
    (forall f w, In f front -> axis_value k (i3 s1) f w -> (v <= w)%R) /\
    (forall o f w, e3 s = Some o -> In f o -> axis_value k (i3 s1) f w -> (v <= w)%R)).
  { intros k Hk. destruct (C71_extreme_points front (i3 s1) (e3 s) k NF) as (_ & R); [lia|exact Lf|exact Lo'|exact R]. }
  split.
  - intros e He. apply In_nth_error in He. destruct He as (k & Hk). assert (k < m) by (rewrite <- Li, <- (extreme_length front (i3 s1) (e3 s) NF); apply nth_error_Some; congruence).
    destruct (X k H) as (e' & E' & [I|(o & Eo & I)] & _); assert (e' = e) as <- by congruence; [rewrite <- Li; auto|eapply Lo; eauto].
  - intros k Hk. destruct (X k Hk) as (e & E1 & E2 & v & V1 & V2 & V3). exists e. split; [exact E1|]. split.
    + destruct E2 as [I|I]; [left|right; exact I]. unfold front in I. apply in_map_iff in I. destruct I as (i & <- & Hi). eauto.
    + exists v. split; [exact V1|]. split; [|exact V3]. intros i w Hi. apply V2. apply in_map. exact Hi.
Qed.

(** ** C101: normalisation *)
(** In every component the nadir estimate lies between the ideal point and the worst value ever seen. *)
Lemma nadir_between : forall solve m fit front0 s' nadir j x i w worst,
  normalising solve m fit front0 s' nadir -> w3 s' = Some worst -> solve_dims solve -> length (i3 s') = m -> length worst = m ->
  (forall r, In r fit -> length r = m) -> (forall k, In k front0 -> k < length fit) ->
  (forall r j y z, In r fit -> nth_error (i3 s') j = Some y -> nth_error r j = Some z -> (y <= z)%R) ->
  (forall r j y z, In r fit -> nth_error worst j = Some y -> nth_error r j = Some z -> (z <= y)%R) ->
  nth_error nadir j = Some x -> nth_error (i3 s') j = Some i -> nth_error worst j = Some w -> (i <= x <= w)%R.
Proof.
  intros solve m fit front0 s' nadir j x i w worst (ext & worst' & wpop & wfront & _ & Ew & (Lp & Gp) & (Lf & Gf) & raw & R1 & R2 & R3 & R4 & R5) Ew' SD Li Lww Lfit Hfr Hid Hwo Ex Ei Ej.
  rewrite Ew' in Ew. injection Ew as <-.
  assert (Hj : j < m) by (rewrite <- Li; apply nth_error_Some; congruence).
  destruct (nth_error raw j) as [r|] eqn:Er; [|apply nth_error_None in Er; lia].
  destruct (nth_error wfront j) as [f|] eqn:Ef; [|apply nth_error_None in Ef; lia].
  specialize (R5 j r i f Er Ei Ef). rewrite Ex in R5. injection R5 as ->.
  assert (Bf : (i <= f <= w)%R).
  { destruct (Gf j f Ef) as ((q & Hq & Eq) & _). apply in_map_iff in Hq. destruct Hq as (k & <- & Hk). assert (In (row fit k) fit) by (unfold row; apply nth_In; auto). split; eauto. }
  destruct (Rle_dec (r - i) (1 / 1000000)) as [|G]; [exact Bf|]. split; [lra|].
  destruct (solve (map (fun e => vsub e (i3 s')) ext) (repeat 1%R (length (i3 s')))) as [plane|] eqn:Es.
  - pose proof (SD _ _ _ Es) as Lpl. rewrite repeat_length in Lpl.
    destruct (Classical_Prop.classic (plane_usable ext (i3 s') worst plane)) as [U|U].
    + destruct (nth_error plane j) as [p|] eqn:Ep; [|apply nth_error_None in Ep; lia].
      rewrite (R1 plane eq_refl U j p i Ep Ei) in Er. injection Er as <-. destruct U as (_ & U). apply (U j p i w Ep Ei Ej).
    + rewrite R2 in Er by (intros p E; injection E as <-; exact U). destruct (Gp j r Er) as ((q & Hq & Eq) & _). eauto.
  - rewrite R2 in Er by discriminate. destruct (Gp j r Er) as ((q & Hq & Eq) & _). eauto.
Qed.

Theorem C101_nadir_between : forall fnds solve rng dirs s fit n m s' sel nadir worst j x i w,
  fnds_contract fnds -> solve_dims solve -> fit <> [] -> n3 s = Some n -> shaped m s fit ->
  nsga3_do fnds solve rng dirs s fit = Ok (s', sel) -> normalising solve m fit (hd [] (fnds fit)) s' nadir -> w3 s' = Some worst ->
  nth_error nadir j = Some x -> nth_error (i3 s') j = Some i -> nth_error worst j = Some w -> (i <= x <= w)%R.
Proof.
  intros fnds solve rng dirs s fit n m s' sel nadir worst j x i w FC SD NE Hn Sh H Nm Ew Ex Ei Ej.
  pose proof (C32_nsga3_exact fnds solve rng dirs s fit n m s' sel FC SD NE Hn Sh H) as ((Li & Hl) & w' & Ew' & Lw & Hg).
  rewrite Ew in Ew'. injection Ew' as <-.
  destruct (nsga3_full fnds solve rng dirs s fit n m FC SD NE Hn Sh) as (s1 & _ & _ & _ & _ & _ & _ & Hf & _).
  apply (nadir_between solve m fit (hd [] (fnds fit)) s' nadir j x i w worst); auto; [apply Sh| |].
  - intros r k y z Hr Ey Ez. apply (proj2 (Hl k y Ey) r z); [right; exact Hr|exact Ez].
  - intros r k y z Hr Ey Ez. apply (proj2 (Hg k y Ey) r z); [destruct (w3 s); [right; exact Hr|exact Hr]|exact Ez].
Qed.

(** With a usable hyperplane, exactly solved, every extreme point has normalised components that sum to one: the
    normalisation maps the hyperplane through the extreme points to the unit simplex. *)
Theorem C101_extreme_points_on_simplex : forall solve ext ideal worst fallback replacement nadir plane e,
  solve_exact solve -> solve_dims solve -> nadir_estimate solve ext ideal worst fallback replacement nadir ->
  solve (map (fun e => vsub e ideal) ext) (repeat 1%R (length ideal)) = Some plane -> plane_usable ext ideal worst plane ->
  length worst = length ideal -> length replacement = length ideal -> length e = length ideal -> length ext = length ideal ->
  In e ext -> rsum (normalise ideal nadir e) = 1%R.
Proof.
  intros solve ext ideal worst fallback replacement nadir plane e SE SD (raw & R1 & _ & R3 & R4 & R5) Es U Lw Lr Le Lx He.
  pose proof (SD _ _ _ Es) as Lpl. rewrite repeat_length in Lpl.
  assert (Nd : forall j p i, nth_error plane j = Some p -> nth_error ideal j = Some i -> p <> 0%R /\ nth_error nadir j = Some (i + 1 / p)%R).
  { intros j p i Ep Ei. assert (Hj : j < length ideal) by (apply nth_error_Some; congruence).
    destruct (nth_error worst j) as [w|] eqn:Ew; [|apply nth_error_None in Ew; lia]. destruct (nth_error replacement j) as [q|] eqn:Eq; [|apply nth_error_None in Eq; lia].
    destruct (proj2 U j p i w Ep Ei Ew) as (P0 & P1 & _). split; [exact P0|].
    rewrite (R5 j _ i q (R1 plane Es U j p i Ep Ei) Ei Eq). destruct (Rle_dec _ _); [lra|reflexivity]. }
  assert (D : dot (vsub e ideal) plane = 1%R).
  { pose proof (SE _ _ _ Es) as X. rewrite map_map in X. apply In_nth_error in He. destruct He as (k & Hk).
    assert (Y : nth_error (map (fun x => dot (vsub x ideal) plane) ext) k = nth_error (repeat 1%R (length ideal)) k) by (rewrite X; reflexivity).
    rewrite nth_error_map, Hk in Y. cbn [option_map] in Y. symmetry in Y. apply nth_error_In, repeat_spec in Y. exact Y. }
  rewrite <- D. clear D He SE SD Es U R1 R3 R5 Lw Lr Lx. clear ext solve worst fallback replacement raw.
  revert plane nadir e Lpl R4 Le Nd. induction ideal as [|i ideal IH]; intros [|p plane] [|n nadir] [|x e] Lp Ln Lx Nd; try discriminate; [reflexivity|].
  unfold normalise, vsub in *. cbn [vmap2 map rsum dot]. destruct (Nd 0 p i eq_refl eq_refl) as (P0 & N0). cbn [nth_error] in N0. injection N0 as ->.
  f_equal; [|apply IH; try (simpl in *; congruence); intros j; apply (Nd (S j))].
  assert (Q : (i + 1 / p - i = / p)%R) by (unfold Rdiv; ring). rewrite Q. pose proof (Rinv_neq_0_compat p P0).
  destruct (Req_EM_T (/ p) 0); [contradiction|]. field. exact P0.
Qed.

(** C101, read with the names of the parameters ("otherwise the worst of the first front"), fails: the caller swaps the two
    arguments, and the fallback is the worst of the whole population. *)
Theorem C101_fallback_refuted : exists solve fit s, solve_dims solve /\ solve_exact solve /\ shaped 2 s fit /\
  forall fnds rng dirs, fnds_contract fnds -> shuffles rng -> dirs <> [] ->
  exists s' sel, nsga3_do fnds solve rng dirs s fit = Ok (s', sel) /\
    (exists nadir, normalising solve 2 fit (hd [] (fnds fit)) s' nadir) /\
    (forall nadir, normalising solve 2 fit (hd [] (fnds fit)) s' nadir -> nadir = [5; 9]%R) /\
    (forall k, In k (hd [] (fnds fit)) -> Forall2 Rle (row fit k) [4; 4]%R).
Proof.
  exists (fun _ _ => None), [[1; 4]; [4; 1]; [5; 9]]%R, (init3 [1; 1]%R 2 None). set (fit := [[1; 4]; [4; 1]; [5; 9]]%R).
  assert (Sh : shaped 2 (init3 [1; 1]%R 2 None) fit).
  { split; [reflexivity|]. split; [discriminate|]. intros f [<-|[<-|[<-|[]]]]; reflexivity. }
  split; [intros M b p H; discriminate|]. split; [intros M b p H; discriminate|]. split; [exact Sh|].
  intros fnds rng dirs FC SH Hd.
  assert (SD : solve_dims (fun _ _ => None)) by (intros M b p H; discriminate).
  destruct (C33_exact_count fnds (fun _ _ => None) rng dirs (init3 [1; 1]%R 2 None) fit 2 FC SH Hd) as (s' & sel & E & _); [discriminate|reflexivity|simpl; lia|].
  exists s', sel. split; [exact E|].
  assert (NE : fit <> []) by discriminate.
  destruct (nsga3_full fnds (fun _ _ => None) rng dirs (init3 [1; 1]%R 2 None) fit 2 2 FC SD NE eq_refl Sh) as (s1 & nadir & _ & Hl & _ & _ & _ & Hf & Nm & E').
  rewrite E' in E. destruct (survive _ _ _ _ _ _) as [sl|]; [|discriminate]. cbn [bind] in E. injection E as -> _. clear E'.
  split; [exists nadir; exact Nm|]. clear nadir Nm. split.
  - intros nadir (ext & worst & wpop & wfront & _ & _ & (Lp & Gp) & (Lf & Gf) & raw & _ & R2 & R3 & R4 & R5).
    rewrite R2 in * by discriminate. clear R2. destruct Hl as (Li & Hl).
    destruct (i3 s') as [|i0 [|i1 [|i2 r]]]; try discriminate. destruct wpop as [|p0 [|p1 [|p2 r]]]; try discriminate.
    destruct wfront as [|f0 [|f1 [|f2 r]]]; try discriminate. destruct nadir as [|n0 [|n1 [|n2 r]]]; try discriminate.
    assert (p0 = 5)%R as ->.
    { destruct (Gp 0 p0 eq_refl) as ((q & Hq & Eq) & B). apply Rle_antisym; [|apply (B [5; 9]%R); [right; right; left; reflexivity|reflexivity]].
      destruct Hq as [<-|[<-|[<-|[]]]]; injection Eq as <-; lra. }
    assert (p1 = 9)%R as ->.
    { destruct (Gp 1 p1 eq_refl) as ((q & Hq & Eq) & B). apply Rle_antisym; [|apply (B [5; 9]%R); [right; right; left; reflexivity|reflexivity]].
      destruct Hq as [<-|[<-|[<-|[]]]]; injection Eq as <-; lra. }
    assert (i0 <= 1 /\ i1 <= 1)%R as (I0 & I1).
    { split; [apply (proj2 (Hl 0 i0 eq_refl) [1; 1]%R)|apply (proj2 (Hl 1 i1 eq_refl) [1; 1]%R)]; try reflexivity; left; reflexivity. }
    pose proof (R5 0 _ _ _ eq_refl eq_refl eq_refl) as X0. pose proof (R5 1 _ _ _ eq_refl eq_refl eq_refl) as X1. cbn [nth_error] in X0, X1.
    injection X0 as ->. injection X1 as ->. destruct (Rle_dec (5 - i0) _); [lra|]. destruct (Rle_dec (9 - i1) _); [lra|]. reflexivity.
  - intros k Hk. pose proof (Hf k Hk) as L. destruct k as [|[|[|k]]]; [| | |simpl in L; lia]; unfold row; cbn [nth fit].
    + repeat constructor; lra.
    + repeat constructor; lra.
    + exfalso. pose proof (FC fit) as SF. destruct (fnds fit) as [|f0 fr] eqn:Ef; [destruct Hk|]. cbn [hd] in Hk.
      assert (I : In 0 (concat (f0 :: fr))) by (apply (Permutation_in _ (Permutation_sym (sf_perm _ _ _ SF))); apply in_seq; simpl; lia).
      apply in_concat in I. destruct I as (fa & Hfa & I). apply In_nth_error in Hfa. destruct Hfa as (a & Ha).
      assert (D : row_dom fit 0 2).
      { exists [1; 4]%R, [5; 9]%R. split; [reflexivity|]. split; [reflexivity|]. split; [repeat constructor; lra|].
        exists 0, 1%R, 5%R. split; [reflexivity|]. split; [reflexivity|lra]. }
      pose proof (sf_order _ _ _ SF a 0 fa f0 0 2 Ha eq_refl I Hk D). lia.
Qed.

(** Non-vacuity of C101: extreme points (4,0) and (0,2), ideal (0,0): the plane (1/4, 1/2) is usable; a solver answering this one
    system exactly; the extreme point (4,0) normalises onto the simplex. *)
Definition ex_solve (M : list (list R)) (b : list R) : option (list R) :=
  if list_eq_dec (list_eq_dec Req_EM_T) M [[4; 0]; [0; 2]]%R then if list_eq_dec Req_EM_T b [1; 1]%R then Some [1 / 4; 1 / 2]%R else None else None.
Example ex_solve_ok : solve_exact ex_solve /\ solve_dims ex_solve.
Proof.
  split; intros M b p; unfold ex_solve; destruct (list_eq_dec _ M _) as [->|]; try discriminate; destruct (list_eq_dec _ b _) as [->|]; try discriminate; intros H; injection H as <-.
  - cbn [map dot]. f_equal; [field|]. f_equal. field.
  - reflexivity.
Qed.
Example ex_simplex : plane_usable [[4; 0]; [0; 2]]%R [0; 0]%R [5; 5]%R [1 / 4; 1 / 2]%R /\
  rsum (normalise [0; 0] (nadir_point ex_solve [[4; 0]; [0; 2]] [0; 0] [5; 5] [5; 5] [5; 5]) [4; 0])%R = 1%R.
Proof.
  assert (U : plane_usable [[4; 0]; [0; 2]]%R [0; 0]%R [5; 5]%R [1 / 4; 1 / 2]%R).
  { split.
    - intros e [<-|[<-|[]]]; unfold vsub; cbn [vmap2 dot]; match goal with |- (Rabs ?z <= _)%R => replace z with 0%R by field end; rewrite Rabs_R0; lra.
    - intros [|[|[|j]]] p i w E1 E2 E3; try discriminate; injection E1 as <-; injection E2 as <-; injection E3 as <-; repeat split; lra. }
  split; [exact U|]. destruct ex_solve_ok as (SE & SD).
  assert (Z : forall a b : R, vsub [a; b] [0; 0]%R = [a; b]) by (intros a b; unfold vsub; cbn [vmap2]; rewrite !Rminus_0_r; reflexivity).
  apply (C101_extreme_points_on_simplex ex_solve [[4; 0]; [0; 2]]%R [0; 0]%R [5; 5]%R [5; 5]%R [5; 5]%R _ [1 / 4; 1 / 2]%R); auto; [apply nadir_ok; auto| |left; reflexivity].
  cbn [map length repeat]. rewrite !Z. unfold ex_solve. destruct (list_eq_dec _ _ _) as [_|N]; [|congruence]. destruct (list_eq_dec _ _ _) as [_|N]; [reflexivity|congruence].
Qed.

(** Non-vacuity: contracts are satisfiable, and the hypotheses of C33-C35 hold for a population of
    3 points of which 2 survive. *)
Example fnds_contract_ref : fnds_contract ref_fnds.
Proof. intros fit. apply ref_fnds_sorted. Qed.
Example shuffles_id : shuffles (mkRng3 (fun t => t) (fun _ l => l)).
Proof. intros t l. apply Permutation_refl. Qed.
Example shuffles_rev : shuffles (mkRng3 (fun t => 7 * t) (fun _ l => rev l)).
Proof. intros t l. symmetry. apply Permutation_rev. Qed.
Example c33_instance : exists s' sel,
  nsga3_do ref_fnds (fun _ _ => None) (mkRng3 (fun t => t) (fun _ l => l)) [[1; 0]; [0; 1]]%R
    (init3 [1; 1]%R 2 None) [[1; 4]; [2; 2]; [4; 1]]%R = Ok (s', sel) /\ length sel = 2.
Proof.
  destruct (C33_exact_count ref_fnds (fun _ _ => None) (mkRng3 (fun t => t) (fun _ l => l)) [[1; 0]; [0; 1]]%R
    (init3 [1; 1]%R 2 None) [[1; 4]; [2; 2]; [4; 1]]%R 2) as (s' & sel & A & B & _);
  [exact fnds_contract_ref|exact shuffles_id|discriminate|discriminate|reflexivity|simpl; lia|]. exists s', sel; auto.
Qed.
(** The niching loop itself, executed: 4 candidates in niches 0 0 1 1, niche 0 already has two
    members, 3 places: niche 1's nearest first. *)
Example niching_run : forall d, exists x rest, 
  niching (mkRng3 (fun t => t) (fun _ l => l)) 2 [0; 0; 1; 1] d 3 0 [2; 0] [true; true; true; true] = Ok (x :: rest) /\ In x [2; 3].
Proof.
  intros d.
  assert (Hb : forall k, In k [0; 0; 1; 1] -> k < 2) by (intros k [<-|[<-|[<-|[<-|[]]]]]; lia).
  destruct (niching_good (mkRng3 (fun t => t) (fun _ l => l)) 2 [0; 0; 1; 1] d shuffles_id Hb 3 0 [2; 0] [true; true; true; true] eq_refl eq_refl) as (l & E & L & G); [simpl; lia|].
  destruct l as [|x l]; [discriminate|]. exists x, l. split; [exact E|].
  destruct (good_nth _ _ _ _ _ 0 x G eq_refl) as (A & B & _). cbn in B.
  destruct x as [|[|[|[|x]]]]; cbn in *; auto; try (specialize (B 2 eq_refl ltac:(tauto)); cbn in B; lia).
  destruct x; discriminate.
Qed.
Example C71_instance : axis_value 0 [0; 0]%R [3; 1 / 2000]%R 3%R.
Proof.
  assert (E : forall x y : R, (if Nat.eq_dec 0 0 then x else y) = x) by reflexivity. split.
  - exists 0. split; [simpl; lia|]. cbn [nth]. destruct (Rlt_dec (3 - 0) (1 / 1000)); [lra|]. cbn. lra.
  - intros [|[|j]] Hj; [| |simpl in Hj; lia]; cbn [nth].
    + destruct (Rlt_dec (3 - 0) (1 / 1000)); cbn; lra.
    + destruct (Rlt_dec (1 / 2000 - 0) (1 / 1000)); cbn; lra.
Qed.
Print Assumptions C71_extreme_points.
Print Assumptions C35_least_crowded_first.
Print Assumptions C32_nsga3_exact.
Print Assumptions C71_after_selection.
Print Assumptions C101_nadir_between.
Print Assumptions C101_extreme_points_on_simplex.
Print Assumptions C101_fallback_refuted.
