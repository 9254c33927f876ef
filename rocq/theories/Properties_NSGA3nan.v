(** C128: failed evaluations (infinite or NaN fitness) in NSGA-III's selection. *)
From Coq Require Import Reals Lra Lia Permutation.
From Verif Require Import Base RVec M_APD M_APDnan P_APDnan M_IndNaN P_IndNaN M_NSGA3 Spec_Fronts Spec_Nadir P_NSGA3 P_Nadir Properties_NSGA3 M_NSGA3nan P_NSGA3nan.
Open Scope R_scope.

(** ** Vocabulary *)
(** Pareto dominance of vectors with infinities; nothing compares with NaN. *)
Definition xle (a b : xr) : Prop := xleb a b = true.
Definition xdominates (a b : list xr) : Prop :=
  Forall2 xle a b /\ exists i x y, nth_error a i = Some x /\ nth_error b i = Some y /\ xltb x y = true.
Definition xrow_dom (fit : list (list xr)) (i j : nat) : Prop :=
  exists a b, nth_error fit i = Some a /\ nth_error fit j = Some b /\ xdominates a b.
(** An evaluation gives NaN in all objectives or in none. *)
Definition clean (f : list xr) : Prop := ~ In NaN f \/ forall a, In a f -> a = NaN.
(** Contract of desdeo_tools' fast_non_dominated_sort on such rows (it compares with < and >, so a row of NaNs neither dominates nor is dominated). *)
Definition fnds_x_contract (fnds : list (list xr) -> list (list nat)) : Prop :=
  forall fit, (forall f, In f fit -> clean f) -> sorted_fronts (length fit) (xrow_dom fit) (fnds fit).
Definition succeeded (f : list xr) : bool := forallb is_fin f.
(** The positions of the successfully evaluated rows. *)
Definition good_rows (fit : list (list xr)) : list nat := filter (fun i => succeeded (row_x fit i)) (seq 0 (length fit)).

(** The state of the model without failures. *)
Definition number_state (s : st3) : st3x :=
  mkSt3X (map Fin (i3 s)) (match w3 s with None => repeat MInf (length (i3 s)) | Some w => map Fin w end) (option_map (map (map Fin)) (e3 s)) (n3 s).

Lemma xvmax_minf w : forall m, length w = m -> xvmax (repeat MInf m) (map Fin w) = map Fin w.
Proof. induction w as [|x w IH]; intros [|m] L; try discriminate; [reflexivity|]. injection L as L. unfold xvmax. cbn [repeat map vmap2]. f_equal. apply IH. exact L. Qed.
Lemma nth_nil_map (fit : list (list R)) i : row_x (map (map Fin) fit) i = map Fin (row fit i).
Proof. apply nth_map_fin. Qed.

Lemma vmap2_len (f : R -> R -> R) u v m : length u = m -> length v = m -> length (vmap2 f u v) = m.
Proof. intros <- H. rewrite vmap2_len3, H. apply Nat.min_id. Qed.
Lemma fold_vmax_len m rows : forall r, length r = m -> (forall f, In f rows -> length f = m) -> length (fold_left vmax rows r) = m.
Proof. induction rows as [|q rows IH]; intros r H Hr; cbn [fold_left]; [exact H|]. apply IH; [apply vmap2_len; auto; apply Hr; now left|intros; apply Hr; now right]. Qed.
Lemma fold_vmin_len m rows : forall r, length r = m -> (forall f, In f rows -> length f = m) -> length (fold_left vmin rows r) = m.
Proof. induction rows as [|q rows IH]; intros r H Hr; cbn [fold_left]; [exact H|]. apply IH; [apply vmap2_len; auto; apply Hr; now left|intros; apply Hr; now right]. Qed.

(** C128. Without failures this is the selection of C33-C36: same survivors, same stored ideal, worst and extreme points. *)
Theorem C128_finite_values : forall fnds fndsx solve solvex rng dirs m s fit,
  (forall f, fndsx (map (map Fin) f) = fnds f) -> fnds_contract fnds ->
  (forall A b, solvex (map (map Fin) A) (map Fin b) = option_map (map Fin) (solve A b)) -> solve_dims solve ->
  dirs <> [] -> (forall u, In u dirs -> norm u <> 0) -> shaped m s fit -> fit <> [] ->
  nsga3_do_x fndsx solvex rng dirs (number_state s) (map (map Fin) fit) =
  bind (nsga3_do fnds solve rng dirs s fit) (fun r => Ok (number_state (fst r), snd r)).
Proof.
  intros fnds fndsx solve solvex rng dirs m s fit Hf FC Hs Hsd Hd Hn (L1 & L2 & L3) NE. unfold nsga3_do_x, nsga3_do. rewrite Hf.
  destruct (fnds fit) as [|front fronts] eqn:Ef; [reflexivity|]. rewrite xcolmin_fin, xcolmax_fin.
  rewrite (map_ext (row_x (map (map Fin) fit)) (fun i => map Fin (row fit i))) by (intros; apply nth_nil_map). rewrite <- (map_map (row fit) (map Fin)), xcolmax_fin.
  pose proof (FC fit) as SF. rewrite Ef in SF.
  destruct fit as [|f0 fit]; [congruence|]. set (FIT := f0 :: fit) in *. cbn [colmin colmax option_map].
  destruct (colmin FIT) as [fmin|] eqn:Emin; [|discriminate]. destruct (colmax FIT) as [wpop|] eqn:Emax; [|discriminate]. cbn [option_map].
  assert (Lmin : length fmin = m). { unfold FIT in Emin. cbn [colmin] in Emin. injection Emin as <-. apply fold_vmin_len; [apply L3; now left|intros; apply L3; now right]. }
  assert (Lmax : length wpop = m). { unfold FIT in Emax. cbn [colmax] in Emax. injection Emax as <-. apply fold_vmax_len; [apply L3; now left|intros; apply L3; now right]. }
  assert (Hfr : forall i, In i front -> (i < length FIT)%nat).
  { intros i Hi. assert (In i (concat (front :: fronts))) as H by (apply in_concat; exists front; split; [now left|exact Hi]). apply (Permutation_in _ (sf_perm _ _ _ SF)) in H. apply in_seq in H. lia. }
  destruct (colmax (map (row FIT) front)) as [wfront|] eqn:Efr; cbn [option_map]; [|reflexivity].
  cbn [xi3 number_state xw3 xe3 xn3].
  rewrite xvmin_fin. set (ideal := vmin (i3 s) fmin). assert (Li : length ideal = m) by (apply vmap2_len; auto).
  set (worst := match w3 s with None => wpop | Some w => vmax w wpop end).
  assert (Lw : length worst = m). { unfold worst. destruct (w3 s) as [w|] eqn:Ew; [|exact Lmax]. apply vmap2_len; auto. }
  assert (EW : xvmax (match w3 s with None => repeat MInf (length (i3 s)) | Some w => map Fin w end) (map Fin wpop) = map Fin worst).
  { unfold worst. destruct (w3 s) as [w|]; [apply xvmax_fin|]. apply xvmax_minf. lia. }
  rewrite EW, extreme_fin. set (ext := extreme_points (map (row FIT) front) ideal (e3 s)).
  assert (Le : length ext = length ideal). { apply extreme_length. destruct front as [|i0 front]; [|discriminate]. exfalso. apply (sf_nonempty _ _ _ SF [] (or_introl eq_refl) eq_refl). }
  rewrite (nadir_fin solve solvex ext ideal worst wpop wfront Hs Hsd Le) by lia.
  set (nadir := nadir_point solve ext ideal worst wpop wfront). destruct (n3 s) as [n|] eqn:En; [|reflexivity].
  rewrite (survive_x_ext rng n (length dirs) _ (fun i => niche_of dirs (normalise ideal nadir (row FIT i))) _ (fun i => Fin (niche_dist dirs (normalise ideal nadir (row FIT i))))).
  2:{ intros i _. rewrite nth_nil_map, normalise_fin. split; [apply niche_fin; exact Hn|apply niche_dist_fin; assumption]. }
  rewrite survive_fin. destruct (survive rng n (length dirs) _ _ (front :: fronts)) as [sel|e]; cbn [bind fst snd]; [|reflexivity].
  unfold number_state. cbn [i3 w3 e3 n3 option_map]. reflexivity.
Qed.

(** What [do] does, whatever the numbers. *)
Lemma nsga3_x_unfold fnds solve rng dirs s fit n : (forall f, In f fit -> clean f) -> fnds_x_contract fnds -> fit <> [] -> xn3 s = Some n ->
  exists s' nadir, xn3 s' = Some n /\
    nsga3_do_x fnds solve rng dirs s fit =
    bind (survive rng n (length dirs)
            (fun i => niche_of_x dirs (normalise_x (xi3 s') nadir (row_x fit i)))
            (fun i => code (niche_dist_x dirs (normalise_x (xi3 s') nadir (row_x fit i)))) (fnds fit))
         (fun sel => Ok (s', sel)).
Proof.
  intros Hc FC NE Hn. pose proof (FC fit Hc) as SF. unfold nsga3_do_x. destruct (fnds fit) as [|front fronts] eqn:Ef.
  { exfalso. pose proof (Permutation_length (sf_perm _ _ _ SF)) as L. rewrite seq_length in L. destruct fit; [congruence|discriminate]. }
  assert (Hfne : front <> []) by (apply (sf_nonempty _ _ _ SF); now left).
  destruct fit as [|f0 fit]; [congruence|]. destruct front as [|i0 front]; [congruence|]. cbn [xcolmin xcolmax map]. rewrite Hn.
  eexists (mkSt3X _ _ _ (Some n)), _. split; [reflexivity|]. rewrite survive_code. cbn [xi3]. reflexivity.
Qed.
(** C128. Whatever fails, exactly n_survive distinct positions are selected and whoever dominates a selected individual is selected. *)
Theorem C128_count_and_elitism : forall fnds solve rng dirs s fit n,
  (forall f, In f fit -> clean f) -> fnds_x_contract fnds -> shuffles rng -> dirs <> [] -> fit <> [] -> xn3 s = Some n -> (n <= length fit)%nat ->
  exists s' sel, nsga3_do_x fnds solve rng dirs s fit = Ok (s', sel) /\
    length sel = n /\ NoDup sel /\ (forall i, In i sel -> (i < length fit)%nat) /\ xn3 s' = Some n /\
    (forall i j, In i sel -> xrow_dom fit j i -> In j sel).
Proof.
  intros fnds solve rng dirs s fit n Hc FC SH Hd NE Hn Hle.
  destruct (nsga3_x_unfold fnds solve rng dirs s fit n Hc FC NE Hn) as (s' & nadir & Hn' & E).
  assert (Hpos : (0 < length fit)%nat) by (destruct fit; [congruence|cbn; lia]). pose proof (FC fit Hc) as SF.
  destruct (survive_shape rng n (length dirs) (fun i => niche_of_x dirs (normalise_x (xi3 s') nadir (row_x fit i)))
     (fun i => code (niche_dist_x dirs (normalise_x (xi3 s') nadir (row_x fit i)))) (fnds fit) (length fit) (xrow_dom fit) SH
     (fun i => niche_of_x_lt dirs _ Hd) SF Hle Hpos) as (pre & last & post & added & E1 & E2 & E3 & E4 & E5 & _).
  rewrite E2 in E. cbn [bind] in E. exists s', (concat pre ++ added). split; [exact E|]. split; [exact E3|].
  assert (NDf : NoDup (concat (fnds fit))) by (eapply Permutation_NoDup; [symmetry; apply (sf_perm _ _ _ SF)|apply seq_NoDup]).
  assert (Sub : forall i, In i (concat pre ++ added) -> In i (concat (fnds fit))).
  { intros i Hi. rewrite E1, concat_app. apply in_app_or in Hi. apply in_or_app. destruct Hi as [Hi|Hi]; [now left|right]. cbn [concat]. apply in_or_app. left. auto. }
  split.
  { rewrite E1, concat_app in NDf. cbn [concat] in NDf. apply NoDup_app_intro; [eapply NoDup_app_l; eauto|exact E4|].
    intros i Hi Ha. apply (NoDup_app_disj _ _ i NDf Hi). apply in_or_app. left. auto. }
  split.
  { intros i Hi. apply Sub in Hi. apply (Permutation_in _ (sf_perm _ _ _ SF)) in Hi. apply in_seq in Hi. lia. }
  split; [exact Hn'|].
  intros i j Hi Dj.
  assert (Hfr : exists a fa, nth_error (fnds fit) a = Some fa /\ In i fa /\ (a <= length pre)%nat).
  { apply in_app_or in Hi. destruct Hi as [Hi|Hi].
    - apply in_concat in Hi. destruct Hi as (fa & Hfa & Hi). apply In_nth_error in Hfa. destruct Hfa as (a & Ha). exists a, fa. rewrite E1.
      assert ((a < length pre)%nat) by (apply nth_error_Some; congruence). rewrite nth_error_app1 by lia. split; [exact Ha|]. split; [exact Hi|lia].
    - exists (length pre), last. rewrite E1, nth_error_app2, Nat.sub_diag by lia. split; [reflexivity|]. split; [auto|lia]. }
  destruct Hfr as (a & fa & Ha & Ia & La).
  assert (Hj : In j (concat (fnds fit))).
  { apply (Permutation_in _ (Permutation_sym (sf_perm _ _ _ SF))). destruct Dj as (u & v & Hu & _). apply in_seq. assert ((j < length fit)%nat) by (apply nth_error_Some; congruence). lia. }
  apply in_concat in Hj. destruct Hj as (fb & Hfb & Ij). apply In_nth_error in Hfb. destruct Hfb as (b & Hb).
  pose proof (sf_order _ _ _ SF b a fb fa j i Hb Ha Ij Ia Dj) as Lt.
  apply in_or_app. left. apply in_concat. exists fb. split; [|exact Ij]. rewrite E1, nth_error_app1 in Hb by lia. eapply nth_error_In; eauto.
Qed.

Lemma xle_inf x : xle (Fin x) PInf. Proof. reflexivity. Qed.
Lemma good_row fit i : In i (good_rows fit) -> exists u, nth_error fit i = Some (map Fin u).
Proof.
  intros H. apply filter_In in H. destruct H as [H1 H2]. apply in_seq in H1. destruct (nth_error fit i) as [f|] eqn:E; [|apply nth_error_None in E; lia].
  unfold row_x in H2. rewrite (nth_error_nth _ _ _ E) in H2. exists (map fin_part f). f_equal. apply fin_row_map. exact H2.
Qed.
Lemma fin_dominates_inf u m : length u = m -> (0 < m)%nat -> xdominates (map Fin u) (repeat PInf m).
Proof.
  intros L H. split.
  - subst m. clear H. induction u as [|x u IH]; cbn [map length repeat]; constructor; [reflexivity|exact IH].
  - destruct m; [lia|]. destruct u as [|x u]; [discriminate|]. exists 0%nat, (Fin x), PInf. split; [reflexivity|]. split; reflexivity.
Qed.
Lemma inf_rows_clean m fit : (forall f, In f fit -> length f = m /\ (succeeded f = true \/ f = repeat PInf m)) -> forall f, In f fit -> clean f.
Proof.
  intros H f Hf. left. intros N. destruct (H f Hf) as [_ [G|G]].
  - unfold succeeded in G. rewrite forallb_forall in G. specialize (G NaN N). discriminate.
  - rewrite G in N. apply repeat_spec in N. discriminate.
Qed.
(** C128. Individuals that failed with +infinity are the last to be selected: none is as long as there are enough successful ones, and otherwise every successful one is selected. *)
Theorem C128_infinite_last : forall fnds solve rng dirs s fit n m s' sel, (0 < m)%nat ->
  (forall f, In f fit -> length f = m /\ (succeeded f = true \/ f = repeat PInf m)) ->
  fnds_x_contract fnds -> shuffles rng -> dirs <> [] -> fit <> [] -> xn3 s = Some n -> (n <= length fit)%nat ->
  nsga3_do_x fnds solve rng dirs s fit = Ok (s', sel) ->
  ((n <= length (good_rows fit))%nat -> forall i, In i sel -> In i (good_rows fit)) /\
  ((length (good_rows fit) <= n)%nat -> forall i, In i (good_rows fit) -> In i sel).
Proof.
  intros fnds solve rng dirs s fit n m s' sel Hm Hr FC SH Hd NE Hn Hle E.
  destruct (C128_count_and_elitism fnds solve rng dirs s fit n (inf_rows_clean m fit Hr) FC SH Hd NE Hn Hle) as (s1 & sel1 & E1 & Ls & ND & Rng & _ & El).
  rewrite E in E1. injection E1 as <- <-.
  assert (NDg : NoDup (good_rows fit)) by (apply NoDup_filter, seq_NoDup).
  assert (Bad : forall i, In i sel -> ~ In i (good_rows fit) -> forall j, In j (good_rows fit) -> In j sel).
  { intros i Hi Nb j Hj. apply (El i j Hi). destruct (good_row fit j Hj) as [u Hu]. specialize (Rng i Hi).
    destruct (nth_error fit i) as [f|] eqn:Ef; [|apply nth_error_None in Ef; lia]. pose proof (Hr f (nth_error_In _ _ Ef)) as [_ [G|G]].
    - exfalso. apply Nb. apply filter_In. split; [apply in_seq; lia|]. unfold row_x. rewrite (nth_error_nth _ _ _ Ef). exact G.
    - exists (map Fin u), f. split; [exact Hu|]. split; [exact Ef|]. rewrite G. apply fin_dominates_inf; [|exact Hm]. pose proof (proj1 (Hr _ (nth_error_In _ _ Hu))) as L. rewrite map_length in L. exact L. }
  split.
  - intros Hg i Hi. destruct (in_dec Nat.eq_dec i (good_rows fit)) as [G|G]; [exact G|exfalso].
    assert (Inc : incl (i :: good_rows fit) sel) by (intros x [<-|Hx]; [exact Hi|apply (Bad i); auto]).
    apply NoDup_incl_length in Inc; [|constructor; auto]. cbn [length] in Inc. lia.
  - intros Hg i Hi. destruct (in_dec Nat.eq_dec i sel) as [G|G]; [exact G|exfalso].
    assert (Inc : incl (i :: sel) (good_rows fit)).
    { intros x [<-|Hx]; [exact Hi|]. destruct (in_dec Nat.eq_dec x (good_rows fit)) as [Gx|Gx]; [exact Gx|exfalso]. apply G. apply (Bad x); auto. }
    apply NoDup_incl_length in Inc; [|constructor; auto]. cbn [length] in Inc. lia.
Qed.

Lemma nan_not_dominated fit i j f : nth_error fit i = Some f -> (forall a, In a f -> a = NaN) -> ~ xrow_dom fit j i.
Proof.
  intros Hi Hn (a & b & _ & Hb & [_ (k & x & y & _ & Hy & L)]). rewrite Hi in Hb. injection Hb as <-. apply nth_error_In in Hy. apply Hn in Hy. subst y. destruct x; discriminate.
Qed.
(** C128. Not so individuals that failed with NaN: they are never dominated, so as soon as any dominated individual is selected, all of them are. *)
Theorem C128_nan_survives_refuted : forall fnds solve rng dirs s fit n s' sel i f j k,
  (forall f, In f fit -> clean f) -> fnds_x_contract fnds -> shuffles rng -> dirs <> [] -> fit <> [] -> xn3 s = Some n -> (n <= length fit)%nat ->
  nsga3_do_x fnds solve rng dirs s fit = Ok (s', sel) ->
  nth_error fit i = Some f -> (forall a, In a f -> a = NaN) ->
  In j sel -> xrow_dom fit k j -> In i sel.
Proof.
  intros fnds solve rng dirs s fit n s' sel i f j k Hc FC SH Hd NE Hn Hle E Hi Hf Hj Dk.
  destruct (nsga3_x_unfold fnds solve rng dirs s fit n Hc FC NE Hn) as (s1 & nadir & Hn' & E0).
  assert (Hpos : (0 < length fit)%nat) by (destruct fit; [congruence|cbn; lia]). pose proof (FC fit Hc) as SF.
  destruct (survive_shape rng n (length dirs) (fun i => niche_of_x dirs (normalise_x (xi3 s1) nadir (row_x fit i)))
     (fun i => code (niche_dist_x dirs (normalise_x (xi3 s1) nadir (row_x fit i)))) (fnds fit) (length fit) (xrow_dom fit) SH
     (fun i => niche_of_x_lt dirs _ Hd) SF Hle Hpos) as (pre & last & post & added & E1 & E2 & E3 & E4 & E5 & _).
  rewrite E2 in E0. cbn [bind] in E0. rewrite E in E0. injection E0 as _ ->.
  assert (Fr : forall x, (x < length fit)%nat -> exists a fa, nth_error (fnds fit) a = Some fa /\ In x fa).
  { intros x Hx. assert (In x (concat (fnds fit))) as H by (apply (Permutation_in _ (Permutation_sym (sf_perm _ _ _ SF))), in_seq; lia).
    apply in_concat in H. destruct H as (fa & Hfa & Ix). apply In_nth_error in Hfa. destruct Hfa as [a Ha]. eauto. }
  destruct (Fr i) as (a & fa & Ha & Ia); [apply nth_error_Some; congruence|].
  assert (a = 0%nat) as ->.
  { destruct a as [|a]; [reflexivity|exfalso]. assert (H : exists fp, nth_error (fnds fit) a = Some fp).
    { destruct (nth_error (fnds fit) a) eqn:G; [eauto|]. apply nth_error_None in G. assert ((S a < length (fnds fit))%nat) by (apply nth_error_Some; congruence). lia. }
    destruct H as [fp Hfp]. destruct (sf_prev _ _ _ SF a fp fa i Hfp Ha Ia) as (x & _ & Dx). apply (nan_not_dominated fit i x f Hi Hf Dx). }
  destruct pre as [|p0 pre].
  - exfalso. cbn [concat app] in *. assert (Ij : In j last) by (apply E5; exact Hj). assert (nth_error (fnds fit) 0 = Some last) by (rewrite E1; reflexivity).
    destruct Dk as (u & v & Hu & Hv & D). destruct (Fr k) as (b & fb & Hb & Ik); [apply nth_error_Some; congruence|].
    assert ((b < 0)%nat); [|lia]. apply (sf_order _ _ _ SF b 0%nat fb last k j); auto. exists u, v. auto.
  - rewrite E1 in Ha. cbn [app nth_error] in Ha. injection Ha as ->. apply in_or_app. left. cbn [concat]. apply in_or_app. now left.
Qed.

(** ** NaN blinds the niching for the rest of the run *)
(** NaN in the [j]-th component of the stored ideal point. *)
Definition poisoned (j : nat) (s : st3x) : Prop := nth_error (xi3 s) j = Some NaN.
Definition shaped_x (m : nat) (s : st3x) (fit : list (list xr)) : Prop :=
  length (xi3 s) = m /\ length (xw3 s) = m /\ (forall f, In f fit -> length f = m).

Lemma fold_xvmax_len m rows : forall r, length r = m -> (forall f, In f rows -> length f = m) -> length (fold_left xvmax rows r) = m.
Proof. induction rows as [|q rows IH]; intros r H Hr; cbn [fold_left]; [exact H|]. apply IH; [unfold xvmax; rewrite vmap2_len3, H, (Hr q) by (now left); apply Nat.min_id|intros; apply Hr; now right]. Qed.
Lemma do_x_inv fnds solve rng dirs s fit n m s' sel : shaped_x m s fit -> xn3 s = Some n -> nsga3_do_x fnds solve rng dirs s fit = Ok (s', sel) ->
  (forall fr i, In fr (fnds fit) -> In i fr -> (i < length fit)%nat) ->
  exists fmin wpop wfront nadir, xcolmin fit = Some fmin /\ xcolmax fit = Some wpop /\ length fmin = m /\ length wpop = m /\ length wfront = m /\ length (xw3 s') = m /\
    xi3 s' = xvmin (xi3 s) fmin /\ xn3 s' = Some n /\
    nadir = nadir_point_x solve (match xe3 s' with Some e => e | None => [] end) (xi3 s') (xw3 s') wpop wfront /\
    survive_x rng n (length dirs) (fun i => niche_of_x dirs (normalise_x (xi3 s') nadir (row_x fit i))) (fun i => niche_dist_x dirs (normalise_x (xi3 s') nadir (row_x fit i))) (fnds fit) = Ok sel.
Proof.
  intros (L1 & L2 & L3) Hn E Hfr. unfold nsga3_do_x in E. destruct (fnds fit) as [|front fronts] eqn:Ef; [discriminate|].
  destruct (xcolmin fit) as [fmin|] eqn:Emin; [|discriminate]. destruct (xcolmax fit) as [wpop|] eqn:Emax; [|discriminate].
  destruct (xcolmax (map (row_x fit) front)) as [wfront|] eqn:Efr; [|discriminate]. rewrite Hn in E.
  match type of E with bind ?x _ = _ => destruct x as [sl|e] eqn:Es end; [|discriminate]. cbn [bind] in E. injection E as <- <-. cbn [xi3 xw3 xe3 xn3].
  exists fmin, wpop, wfront. eexists. split; [reflexivity|]. split; [reflexivity|].
  assert (Lmin : length fmin = m). { destruct fit as [|f0 fit]; [discriminate|]. cbn [xcolmin] in Emin. injection Emin as <-. apply fold_xvmin_len; [apply L3; now left|intros; apply L3; now right]. }
  assert (Lmax : length wpop = m). { destruct fit as [|f0 fit]; [discriminate|]. cbn [xcolmax] in Emax. injection Emax as <-. apply fold_xvmax_len; [apply L3; now left|intros; apply L3; now right]. }
  split; [exact Lmin|]. split; [exact Lmax|]. split.
  { assert (Hrow : forall f, In f (map (row_x fit) front) -> length f = m).
    { intros f Hf. apply in_map_iff in Hf. destruct Hf as (i & <- & Hi). apply L3. unfold row_x. apply nth_In. apply (Hfr front); [now left|exact Hi]. }
    destruct (map (row_x fit) front) as [|g gs]; [discriminate|]. cbn [xcolmax] in Efr. injection Efr as <-. apply fold_xvmax_len; [apply Hrow; now left|intros; apply Hrow; now right]. }
  split; [unfold xvmax; rewrite vmap2_len3, L2, Lmax; apply Nat.min_id|]. split; [reflexivity|]. split; [reflexivity|]. split; [reflexivity|]. exact Es.
Qed.
Lemma nadir_x_len solve ext ideal worst wfront wpop m : length ideal = m -> length wfront = m -> length wpop = m ->
  (forall A b p, solve A b = Some p -> length p = length b) -> length (nadir_point_x solve ext ideal worst wfront wpop) = m.
Proof.
  intros L1 L2 L3 Hs. unfold nadir_point_x. rewrite vmap2_len3, combine_length, L1, L3, Nat.min_id.
  destruct (solve _ _) as [p|] eqn:E; [|lia]. destruct (_ || _ || _); [lia|]. rewrite vmap2_len3, map_length, (Hs _ _ _ E), repeat_length, L1. lia.
Qed.
(** C128. Once a NaN has been seen in some objective, in that call and in every later one (the stored ideal point keeps the NaN) the selection depends on nothing but the fronts and the
    random numbers: any other fitness values with the same fronts, in any state that has seen a NaN, give the same selection. Niches and distances play no role any more. *)
Theorem C128_nan_blinds_refuted : forall fnds solve rng dirs m j, (j < m)%nat -> dirs <> [] -> (forall u, In u dirs -> length u = m) ->
  (forall A b p, solve A b = Some p -> length p = length b) ->
  forall s fit s' sel n, shaped_x m s fit -> xn3 s = Some n -> (forall fr i, In fr (fnds fit) -> In i fr -> (i < length fit)%nat) ->
  poisoned j s \/ (exists f, In f fit /\ nth_error f j = Some NaN) ->
  nsga3_do_x fnds solve rng dirs s fit = Ok (s', sel) ->
  poisoned j s' /\
  forall s2 fit2 s2' sel2, shaped_x m s2 fit2 -> xn3 s2 = Some n -> fnds fit2 = fnds fit -> (forall fr i, In fr (fnds fit2) -> In i fr -> (i < length fit2)%nat) ->
    poisoned j s2 \/ (exists f, In f fit2 /\ nth_error f j = Some NaN) ->
    nsga3_do_x fnds solve rng dirs s2 fit2 = Ok (s2', sel2) -> sel2 = sel.
Proof.
  intros fnds solve rng dirs m j Hj Hd Hdim Hsd.
  assert (K : forall s fit s' sel n, shaped_x m s fit -> xn3 s = Some n -> (forall fr i, In fr (fnds fit) -> In i fr -> (i < length fit)%nat) ->
    poisoned j s \/ (exists f, In f fit /\ nth_error f j = Some NaN) -> nsga3_do_x fnds solve rng dirs s fit = Ok (s', sel) ->
    poisoned j s' /\ survive_x rng n (length dirs) (fun _ => 0%nat) (fun _ => NaN) (fnds fit) = Ok sel).
  { intros s fit s' sel n Hs Hn Hfr Hp E.
    destruct (do_x_inv fnds solve rng dirs s fit n m s' sel Hs Hn E Hfr) as (fmin & wpop & wfront & nadir & Emin & Emax & Lmin & Lmax & Lfr & Lw & Ei & _ & En & Es).
    destruct Hs as (L1 & L2 & L3).
    assert (Li : length (xi3 s') = m) by (rewrite Ei; unfold xvmin; rewrite vmap2_len3, L1, Lmin; apply Nat.min_id).
    assert (P : poisoned j s').
    { unfold poisoned. rewrite Ei. unfold xvmin. rewrite vmap2_nth. destruct (nth_error (xi3 s) j) as [a|] eqn:Ea; [|apply nth_error_None in Ea; lia].
      destruct (nth_error fmin j) as [b|] eqn:Eb; [|apply nth_error_None in Eb; lia]. destruct Hp as [Hp|(f & Hf & Hf2)].
      - unfold poisoned in Hp. rewrite Hp in Ea. injection Ea as <-. reflexivity.
      - assert (Nb : nan_at j fmin).
        { destruct fit as [|f0 fit]; [destruct Hf|]. cbn [xcolmin] in Emin. injection Emin as <-. apply (fold_xvmin_nan m); [exact Hj|apply L3; now left|intros; apply L3; now right|].
          destruct Hf as [<-|Hf]; [left; exact Hf2|right; exists f; split; [exact Hf|exact Hf2]]. }
        unfold nan_at in Nb. rewrite Nb in Eb. injection Eb as <-. rewrite xmin_nan_r. reflexivity. }
    split; [exact P|]. rewrite <- Es. apply survive_x_ext. intros i Hi. apply in_concat in Hi. destruct Hi as (fr & F1 & F2). specialize (Hfr fr i F1 F2).
    assert (Lnad : length nadir = m) by (rewrite En; apply nadir_x_len; auto).
    assert (N : nan_at j (normalise_x (xi3 s') nadir (row_x fit i))).
    { apply normalise_nan; [exact P|lia|]. unfold row_x. rewrite (L3 (nth i fit [])) by (apply nth_In; exact Hfr). exact Hj. }
    destruct (niche_nan j dirs _ N) as [N1 N2]; [intros u Hu; rewrite (Hdim u Hu); exact Hj|exact Hd|]. rewrite N1, N2. auto. }
  intros s fit s' sel n Hs Hn Hfr Hp E. destruct (K s fit s' sel n Hs Hn Hfr Hp E) as [P1 P2]. split; [exact P1|].
  intros s2 fit2 s2' sel2 Hs2 Hn2 Ef Hfr2 Hp2 E2. destruct (K s2 fit2 s2' sel2 n Hs2 Hn2 Hfr2 Hp2 E2) as [_ P3]. rewrite Ef, P2 in P3. congruence.
Qed.

(** ** Infinite values blind the niching of one generation when the plane cannot be found *)
Lemma survive_x_ext2 rng n nd niche niche' dist dist' fronts :
  (forall before last i, cut_fronts n [] fronts = Some (before, last) -> In i (concat before ++ last) -> niche i = niche' i /\ dist i = dist' i) ->
  survive_x rng n nd niche dist fronts = survive_x rng n nd niche' dist' fronts.
Proof.
  intros H. unfold survive_x. destruct (cut_fronts n [] fronts) as [[before last]|]; [|reflexivity]. specialize (H before last).
  rewrite (map_ext_in niche niche' (concat before)) by (intros; apply H; auto; apply in_or_app; auto).
  rewrite (map_ext_in niche niche' last) by (intros; apply H; auto; apply in_or_app; auto). rewrite (map_ext_in dist dist' last) by (intros; apply H; auto; apply in_or_app; auto). reflexivity.
Qed.
Lemma normalise_inf ideal f m : length ideal = m -> length f = m -> normalise_x (map Fin ideal) (repeat PInf m) (map Fin f) = repeat (Fin 0) m.
Proof.
  revert ideal f. induction m as [|m IH]; intros [|i ideal] [|x f] L1 L2; try discriminate; [reflexivity|]. injection L1 as L1. injection L2 as L2.
  specialize (IH ideal f L1 L2). unfold normalise_x, xvsub in *. cbn [repeat map vmap2 xsub denom_x xdiv]. f_equal. exact IH.
Qed.
Lemma fold_xvmax_inf m rows : forall r, length r = m -> (forall a, In a r -> up a) -> (forall f a, In f rows -> In a f -> up a) -> (forall f, In f rows -> length f = m) ->
  (r = repeat PInf m \/ In (repeat PInf m) rows) -> fold_left xvmax rows r = repeat PInf m.
Proof.
  induction rows as [|q rows IH]; intros r Lr Ur Uq Lq H; cbn [fold_left]; [destruct H as [H|[]]; exact H|].
  assert (M1 : forall u v, (forall a, In a u -> up a) -> (forall a, In a v -> up a) -> forall a, In a (xvmax u v) -> up a).
  { induction u as [|x u IHu]; intros [|y v] Hu Hv a Ha; cbn in Ha; try contradiction. destruct Ha as [<-|Ha].
    - destruct (Hu x (or_introl eq_refl)) as [->|[p ->]], (Hv y (or_introl eq_refl)) as [->|[w ->]]; unfold xmax; cbn [is_nan orb xltb]; unfold up; auto; try (right; eauto; fail). destruct (Rlt_dec p w); right; eauto.
    - apply (IHu v); auto; intros; [apply Hu|apply Hv]; now right. }
  assert (M2 : forall v k, length v = k -> (forall a, In a v -> up a) -> xvmax (repeat PInf k) v = repeat PInf k /\ xvmax v (repeat PInf k) = repeat PInf k).
  { induction v as [|y v IHv]; intros [|k] L Hv; try discriminate; [split; reflexivity|]. injection L as L. destruct (IHv k L) as [A B]; [intros; apply Hv; now right|].
    cbn [repeat]. unfold xvmax in *. cbn [vmap2]. rewrite A, B. destruct (Hv y (or_introl eq_refl)) as [->|[w ->]]; split; reflexivity. }
  apply IH.
  - unfold xvmax. rewrite vmap2_len3, Lr, (Lq q) by (now left). apply Nat.min_id.
  - apply M1; [exact Ur|]. intros a Ha. apply (Uq q); [now left|exact Ha].
  - intros f a Hf. apply Uq. now right.
  - intros; apply Lq; now right.
  - destruct H as [->|[->|H]]; [left; apply M2; [apply Lq; now left|intros a; apply Uq; now left]|left; apply M2; auto|right; exact H].
Qed.
Lemma xvmin_fin_up z : forall v, length v = length z -> (forall a, In a v -> up a) -> exists w, xvmin (map Fin z) v = map Fin w /\ length w = length z.
Proof. intros v L H. apply xvmin_up; auto. Qed.

(** C128. If np.linalg.solve fails in a call whose population contains an individual that failed with +infinity, and there are enough successful individuals, the selection among them
    depends on nothing but the fronts and the random numbers: every successful individual is normalised to the origin (lines 67-73 pass the worst of the whole population as
    the fallback nadir point). *)
Theorem C128_infinite_blinds_refuted : forall fnds rng dirs m, (0 < m)%nat -> fnds_x_contract fnds ->
  forall s fit s' sel s2 fit2 s2' sel2 n,
  let call s fit := shaped_x m s fit /\ xn3 s = Some n /\ (exists z, xi3 s = map Fin z) /\
    (forall f, In f fit -> length f = m /\ (succeeded f = true \/ f = repeat PInf m)) /\ In (repeat PInf m) fit /\ (0 < n <= length (good_rows fit))%nat in
  call s fit -> call s2 fit2 -> fnds fit2 = fnds fit ->
  nsga3_do_x fnds (fun _ _ => None) rng dirs s fit = Ok (s', sel) -> nsga3_do_x fnds (fun _ _ => None) rng dirs s2 fit2 = Ok (s2', sel2) -> sel2 = sel.
Proof.
  intros fnds rng dirs m Hm FC s fit s' sel s2 fit2 s2' sel2 n call.
  assert (K : forall s fit s' sel, call s fit -> nsga3_do_x fnds (fun _ _ => None) rng dirs s fit = Ok (s', sel) ->
    survive_x rng n (length dirs) (fun _ => niche_of_x dirs (repeat (Fin 0) m)) (fun _ => niche_dist_x dirs (repeat (Fin 0) m)) (fnds fit) = Ok sel).
  { clear s fit s' sel s2 fit2 s2' sel2. intros s fit s' sel (Hs & Hn & (z & Hz) & Hr & Hin & Hg) E.
    pose proof (FC fit (inf_rows_clean m fit Hr)) as SF.
    assert (Hfr : forall fr i, In fr (fnds fit) -> In i fr -> (i < length fit)%nat).
    { intros fr i H1 H2. assert (In i (concat (fnds fit))) as H by (apply in_concat; eauto). apply (Permutation_in _ (sf_perm _ _ _ SF)) in H. apply in_seq in H. lia. }
    destruct (do_x_inv fnds _ rng dirs s fit n m s' sel Hs Hn E Hfr) as (fmin & wpop & wfront & nadir & Emin & Emax & Lmin & Lmax & Lfr & Lw & Ei & _ & En & Es).
    assert (Uall : forall f a, In f fit -> In a f -> up a).
    { intros f a Hf Ha. destruct (Hr f Hf) as [_ [G|G]].
      - unfold succeeded in G. rewrite forallb_forall in G. specialize (G a Ha). destruct a; try discriminate. right. eauto.
      - rewrite G in Ha. apply repeat_spec in Ha. left. exact Ha. }
    assert (Lz : length z = m) by (destruct Hs as (L1 & _); rewrite Hz, map_length in L1; exact L1).
    assert (Ufmin : forall a, In a fmin -> up a).
    { destruct fit as [|f0 fit]; [discriminate|]. cbn [xcolmin] in Emin. injection Emin as <-. apply fold_xvmin_up; [intros b; apply Uall; now left|intros f b Hf; apply Uall; now right]. }
    destruct (xvmin_fin_up z fmin) as (w & Ew & Lw'); [lia|exact Ufmin|]. rewrite <- Hz, <- Ei in Ew.
    assert (Ewp : wpop = repeat PInf m).
    { destruct fit as [|f0 fit]; [discriminate|]. cbn [xcolmax] in Emax. injection Emax as <-. destruct Hs as (_ & _ & L3). apply fold_xvmax_inf; [apply L3; now left|intros a; apply Uall; now left|intros f a Hf; apply Uall; now right|intros; apply L3; now right|].
      destruct Hin as [<-|Hin]; [left; reflexivity|right; exact Hin]. }
    assert (En2 : nadir = repeat PInf m).
    { rewrite En. unfold nadir_point_x. rewrite Ewp, Ew. assert (Lc : length w = m) by lia. revert Lc Lfr. clear. revert w wfront. induction m as [|k IH]; intros [|x w] [|y wf] L1 L2; try discriminate; [reflexivity|].
      injection L1 as L1. injection L2 as L2. cbn [repeat map combine vmap2 fst snd]. rewrite (IH w wf L1 L2). reflexivity. }
    rewrite <- Es. apply survive_x_ext2. intros before last i Hcut Hi.
    assert (Hgood : In i (good_rows fit)).
    { pose proof (cut_fronts_spec n (fnds fit) []) as CS. rewrite Hcut in CS. destruct CS as (pre & post & E1 & E2 & E3 & E4). cbn [app] in E2. subst before.
      assert (Ifit : (i < length fit)%nat).
      { assert (In i (concat (fnds fit))) as H by (rewrite E1, concat_app; apply in_app_or in Hi; apply in_or_app; destruct Hi as [Hi|Hi]; [now left|right; cbn [concat]; apply in_or_app; now left]).
        apply (Permutation_in _ (sf_perm _ _ _ SF)) in H. apply in_seq in H. lia. }
      apply filter_In. split; [apply in_seq; lia|]. destruct (succeeded (row_x fit i)) eqn:Sx; [reflexivity|exfalso].
      destruct (nth_error fit i) as [f|] eqn:Ef; [|apply nth_error_None in Ef; lia]. unfold row_x in Sx. rewrite (nth_error_nth _ _ _ Ef) in Sx.
      destruct (Hr f (nth_error_In _ _ Ef)) as [_ [G|G]]; [congruence|].
      assert (Hia : exists a fa, nth_error (fnds fit) a = Some fa /\ In i fa /\ (a <= length pre)%nat).
      { apply in_app_or in Hi. destruct Hi as [Hi|Hi].
        - apply in_concat in Hi. destruct Hi as (fa & Hfa & Hi). apply In_nth_error in Hfa. destruct Hfa as (a & Ha). exists a, fa. rewrite E1.
          assert ((a < length pre)%nat) by (apply nth_error_Some; congruence). rewrite nth_error_app1 by lia. split; [exact Ha|]. split; [exact Hi|lia].
        - exists (length pre), last. rewrite E1, nth_error_app2, Nat.sub_diag by lia. split; [reflexivity|]. split; [auto|lia]. }
      destruct Hia as (a & fa & Ha & Ia & La).
      assert (Inc : incl (good_rows fit) (concat pre)).
      { intros k Hk. destruct (good_row fit k Hk) as [u Hu]. assert (Hk2 : In k (concat (fnds fit))).
        { apply (Permutation_in _ (Permutation_sym (sf_perm _ _ _ SF))), in_seq. assert ((k < length fit)%nat) by (apply nth_error_Some; congruence). lia. }
        apply in_concat in Hk2. destruct Hk2 as (fb & Hfb & Ik). apply In_nth_error in Hfb. destruct Hfb as (b & Hb).
        assert ((b < a)%nat).
        { apply (sf_order _ _ _ SF b a fb fa k i); auto. exists (map Fin u), f. split; [exact Hu|]. split; [exact Ef|]. rewrite G. apply fin_dominates_inf; [|exact Hm].
          pose proof (proj1 (Hr _ (nth_error_In _ _ Hu))) as L. rewrite map_length in L. exact L. }
        apply in_concat. exists fb. split; [|exact Ik]. rewrite E1, nth_error_app1 in Hb by lia. eapply nth_error_In; eauto. }
      apply NoDup_incl_length in Inc; [|apply NoDup_filter, seq_NoDup]. destruct E4 as [->|E4].
      - cbn [concat length] in Inc. lia.
      - cbn [app] in E4. lia. }
    destruct (good_row fit i Hgood) as [u Hu]. assert (Erow : row_x fit i = map Fin u) by (unfold row_x; apply nth_error_nth; exact Hu).
    rewrite Erow, En2, Ew, normalise_inf; [auto|lia|]. pose proof (proj1 (Hr _ (nth_error_In _ _ Hu))) as L. rewrite map_length in L. exact L. }
  intros H1 H2 Ef E1 E2. pose proof (K s fit s' sel H1 E1) as P1. pose proof (K s2 fit2 s2' sel2 H2 E2) as P2. rewrite Ef, P1 in P2. congruence.
Qed.
Print Assumptions C128_finite_values.
Print Assumptions C128_count_and_elitism.
Print Assumptions C128_infinite_last.
Print Assumptions C128_nan_survives_refuted.
Print Assumptions C128_nan_blinds_refuted.
Print Assumptions C128_infinite_blinds_refuted.

(** ** Non-vacuity *)
Lemma xltb_irr a : xltb a a = false.
Proof. destruct a; try reflexivity. cbn. destruct (Rlt_dec x x); [lra|reflexivity]. Qed.
Lemma xle_trans a b c : xle a b -> xle b c -> xle a c.
Proof.
  unfold xle, xleb. destruct a, b, c; cbn; auto; try discriminate.
  destruct (Rlt_dec x0 x), (Rlt_dec x1 x0), (Rlt_dec x1 x); cbn; auto; try discriminate; lra.
Qed.
Lemma xlt_le_trans a b c : xltb a b = true -> xle b c -> xltb a c = true.
Proof.
  unfold xle, xleb. destruct a, b, c; cbn; auto; try discriminate.
  destruct (Rlt_dec x x0), (Rlt_dec x1 x0), (Rlt_dec x x1); cbn; auto; try discriminate; lra.
Qed.
Fixpoint xdomb (u v : list xr) : bool * bool :=
  match u, v with
  | [], [] => (true, false)
  | a :: u, b :: v => let (l, s) := xdomb u v in (xleb a b && l, xltb a b || s)
  | _, _ => (false, false)
  end.
Lemma xdomb_le u : forall v, fst (xdomb u v) = true <-> Forall2 xle u v.
Proof.
  induction u as [|a u IH]; intros [|b v]; cbn [xdomb fst]; split; intros H; try discriminate; try (inversion H; fail); try constructor; auto.
  - specialize (IH v). destruct (xdomb u v) as [l s]. cbn [fst] in *. apply andb_true_iff in H. exact (proj1 H).
  - specialize (IH v). destruct (xdomb u v) as [l s]. cbn [fst] in *. apply andb_true_iff in H. apply IH. exact (proj2 H).
  - inversion H; subst. specialize (IH v). destruct (xdomb u v) as [l s]. cbn [fst] in *. apply andb_true_iff. split; [assumption|apply IH; assumption].
Qed.
Lemma xdomb_lt u : forall v, length u = length v -> (snd (xdomb u v) = true <-> exists i x y, nth_error u i = Some x /\ nth_error v i = Some y /\ xltb x y = true).
Proof.
  induction u as [|a u IH]; intros [|b v] L; try discriminate; cbn [xdomb snd].
  - split; [discriminate|]. intros ([|i] & x & y & H & _); discriminate.
  - injection L as L. specialize (IH v L). destruct (xdomb u v) as [l s]. cbn [snd] in *. split.
    + intros H. apply orb_true_iff in H. destruct H as [H|H]; [exists 0%nat, a, b; auto|]. apply IH in H. destruct H as (i & x & y & H). exists (S i), x, y. exact H.
    + intros ([|i] & x & y & H1 & H2 & H3); apply orb_true_iff; [left; cbn in *; congruence|right; apply IH; exists i, x, y; auto].
Qed.
Lemma Forall2_len {A B} (P : A -> B -> Prop) u v : Forall2 P u v -> length u = length v.
Proof. induction 1; cbn; congruence. Qed.
Lemma xdominates_dec u v : {xdominates u v} + {~ xdominates u v}.
Proof.
  destruct (fst (xdomb u v)) eqn:E1; [|right; intros [H _]; apply xdomb_le in H; congruence].
  assert (L : length u = length v) by (apply xdomb_le in E1; eapply Forall2_len; eauto).
  destruct (snd (xdomb u v)) eqn:E2.
  - left. split; [apply xdomb_le; exact E1|apply xdomb_lt; auto].
  - right. intros [_ H]. apply xdomb_lt in H; [congruence|exact L].
Defined.
Lemma xrow_dom_dec fit i j : {xrow_dom fit i j} + {~ xrow_dom fit i j}.
Proof.
  unfold xrow_dom. destruct (nth_error fit i) as [a|]; [|right; intros (a & b & X & _); discriminate].
  destruct (nth_error fit j) as [b|]; [|right; intros (a' & b & _ & X & _); discriminate].
  destruct (xdominates_dec a b) as [D|D]; [left; exists a, b; auto|]. right. intros (a' & b' & Ea & Eb & X). injection Ea as <-. injection Eb as <-. auto.
Defined.
Definition ref_fnds_x (fit : list (list xr)) : list (list nat) := peel (xrow_dom fit) (xrow_dom_dec fit) (length fit) (seq 0 (length fit)).
Example fnds_x_exists : fnds_x_contract ref_fnds_x.
Proof.
  intros fit _. apply peel_sorted.
  - intros i (a & b & H1 & H2 & _ & k & x & y & X1 & X2 & X3). rewrite H1 in H2. injection H2 as <-. rewrite X1 in X2. injection X2 as <-. rewrite xltb_irr in X3. discriminate.
  - intros i j k (a & b & H1 & H2 & F1 & p & x & y & X1 & X2 & X3) (b' & d & H3 & H4 & F2 & _). rewrite H2 in H3. injection H3 as <-.
    exists a, d. split; [exact H1|]. split; [exact H4|]. split.
    + clear -F1 F2. revert d F2. induction F1; intros d F2; inversion F2; subst; constructor; auto. eapply xle_trans; eauto.
    + assert (exists z, nth_error d p = Some z /\ xle y z) as (z & Hz & Lz).
      { clear -F2 X2. revert p X2. induction F2; intros [|p] X2; cbn in *; try discriminate; [injection X2 as <-; eauto|eauto]. }
      exists p, x, z. split; [exact X1|]. split; [exact Hz|]. eapply xlt_le_trans; eauto.
Qed.
Definition rng0 : rng3 := mkRng3 (fun t => t) (fun _ l => l).
Definition dirs0 : list (list R) := [[1; 0]; [0; 1]].
(** Three successes, one infinite failure, one NaN failure. *)
Definition fit_mixed : list (list xr) := [[Fin 1; Fin 4]; [Fin 2; Fin 2]; [Fin 4; Fin 1]; [PInf; PInf]; [NaN; NaN]].
Definition st0 (n : nat) : st3x := init3_x [Fin 1; Fin 1] n None.
Lemma fit_mixed_clean f : In f fit_mixed -> clean f.
Proof.
  intros [<-|[<-|[<-|[<-|[<-|[]]]]]]; [left|left|left|left|right]; try (intros [H|[H|[]]]; discriminate). intros a [<-|[<-|[]]]; reflexivity.
Qed.
(** C128_count_and_elitism applies to it: 3 of the 5 are selected. *)
Example C128_mixed : exists s' sel, nsga3_do_x ref_fnds_x (fun _ _ => None) rng0 dirs0 (st0 3) fit_mixed = Ok (s', sel) /\ length sel = 3%nat.
Proof.
  destruct (C128_count_and_elitism ref_fnds_x (fun _ _ => None) rng0 dirs0 (st0 3) fit_mixed 3 fit_mixed_clean fnds_x_exists shuffles_id) as (s' & sel & E & L & _);
    [discriminate|discriminate|reflexivity|cbn; lia|]. exists s', sel. auto.
Qed.
(** With 5 places the dominated failure (3) is selected, and so is the NaN (4); the stored ideal point is NaN from then on. *)
Example C128_mixed_all : exists s' sel, nsga3_do_x ref_fnds_x (fun _ _ => None) rng0 dirs0 (st0 5) fit_mixed = Ok (s', sel) /\ In 4%nat sel /\ poisoned 0 s'.
Proof.
  destruct (C128_count_and_elitism ref_fnds_x (fun _ _ => None) rng0 dirs0 (st0 5) fit_mixed 5 fit_mixed_clean fnds_x_exists shuffles_id) as (s' & sel & E & L & ND & Rg & _);
    [discriminate|discriminate|reflexivity|cbn; lia|]. exists s', sel. split; [exact E|].
  assert (Inc : incl (seq 0 5) sel). { apply NoDup_length_incl; [exact ND|rewrite seq_length; lia|]. intros x Hx. apply in_seq. specialize (Rg x Hx). cbn in Rg. lia. }
  split.
  - apply (C128_nan_survives_refuted ref_fnds_x (fun _ _ => None) rng0 dirs0 (st0 5) fit_mixed 5 s' sel 4%nat [NaN; NaN] 3%nat 0%nat); auto using fit_mixed_clean, fnds_x_exists; try discriminate; try reflexivity.
    + exact shuffles_id.
    + intros a [<-|[<-|[]]]; reflexivity.
    + apply Inc, in_seq. lia.
    + exists [Fin 1; Fin 4], [PInf; PInf]. split; [reflexivity|]. split; [reflexivity|]. apply (fin_dominates_inf [1; 4] 2); [reflexivity|lia].
  - refine (proj1 (C128_nan_blinds_refuted ref_fnds_x (fun _ _ => None) rng0 dirs0 2 0 _ _ _ _ (st0 5) fit_mixed s' sel 5 _ _ _ _ E)); try (cbn; lia); try discriminate; try reflexivity.
    + intros u [<-|[<-|[]]]; reflexivity.
    + split; [reflexivity|]. split; [reflexivity|]. intros f [<-|[<-|[<-|[<-|[<-|[]]]]]]; reflexivity.
    + intros fr i H1 H2. pose proof (fnds_x_exists fit_mixed fit_mixed_clean) as SF. assert (In i (concat (ref_fnds_x fit_mixed))) as H by (apply in_concat; eauto).
      apply (Permutation_in _ (sf_perm _ _ _ SF)) in H. apply in_seq in H. cbn in *. lia.
    + right. exists [NaN; NaN]. split; [do 4 right; now left|reflexivity].
Qed.
(** Three successes and an infinite failure: the hypotheses of C128_infinite_last and C128_infinite_blinds_refuted. *)
Definition fit_inf : list (list xr) := [[Fin 1; Fin 4]; [Fin 2; Fin 2]; [PInf; PInf]; [Fin 4; Fin 1]].
Lemma fit_inf_rows f : In f fit_inf -> length f = 2%nat /\ (succeeded f = true \/ f = repeat PInf 2).
Proof. intros [<-|[<-|[<-|[<-|[]]]]]; split; auto. Qed.
Example C128_inf : exists s' sel, nsga3_do_x ref_fnds_x (fun _ _ => None) rng0 dirs0 (st0 2) fit_inf = Ok (s', sel) /\ length sel = 2%nat /\ ~ In 2%nat sel.
Proof.
  destruct (C128_count_and_elitism ref_fnds_x (fun _ _ => None) rng0 dirs0 (st0 2) fit_inf 2 (inf_rows_clean 2 _ fit_inf_rows) fnds_x_exists shuffles_id) as (s' & sel & E & L & _);
    [discriminate|discriminate|reflexivity|cbn; lia|]. exists s', sel. split; [exact E|]. split; [exact L|]. intros H.
  apply (proj1 (C128_infinite_last ref_fnds_x (fun _ _ => None) rng0 dirs0 (st0 2) fit_inf 2 2 s' sel (le_S _ _ (le_n _)) fit_inf_rows fnds_x_exists shuffles_id ltac:(discriminate) ltac:(discriminate) eq_refl ltac:(cbn; lia) E)) in H;
    [|cbn; lia]. cbn in H. destruct H as [H|[H|[H|[]]]]; discriminate.
Qed.
Example C128_inf_call : shaped_x 2 (st0 2) fit_inf /\ xn3 (st0 2) = Some 2%nat /\ (exists z, xi3 (st0 2) = map Fin z) /\ In (repeat PInf 2) fit_inf /\ (0 < 2 <= length (good_rows fit_inf))%nat.
Proof.
  split; [split; [reflexivity|split; [reflexivity|intros f H; apply fit_inf_rows; exact H]]|]. split; [reflexivity|]. split; [exists [1; 1]; reflexivity|]. split; [do 2 right; now left|cbn; lia].
Qed.
(** C128_finite_values: oracles that agree on finite numbers exist. *)
Example C128_oracles : exists fndsx solvex, (forall f, fndsx (map (map Fin) f) = ref_fnds f) /\
  (forall A b, solvex (map (map Fin) A) (map Fin b) = option_map (map Fin) (ex_solve A b)) /\ solve_dims ex_solve.
Proof.
  exists (fun f => ref_fnds (map (map fin_part) f)), (fun A b => option_map (map Fin) (ex_solve (map (map fin_part) A) (map fin_part b))).
  assert (E : forall l : list R, map fin_part (map Fin l) = l) by (intros l; rewrite map_map; apply map_id).
  assert (E2 : forall l : list (list R), map (map fin_part) (map (map Fin) l) = l) by (intros l; rewrite map_map; rewrite (map_ext _ (fun x => x)) by exact E; apply map_id).
  split; [intros f; rewrite E2; reflexivity|]. split; [intros A b; rewrite E, E2; reflexivity|]. exact (proj2 ex_solve_ok).
Qed.
