(** C121: selection does not depend on where the origin of the objectives is; RVEA's not on their common unit. *)
From Verif Require Import Base RVec M_APD M_NSGA3 Spec_Fronts P_NSGA3 Properties_NSGA3 Properties_Elite P_Shift.
From Coq Require Import Reals Lra Lia Permutation Sorted.
Open Scope R_scope.

(** ** RVEA: any sequence of calls of the selection operator, which remembers its ideal point between them. *)
Record apd_call := mkCall {
  ac_penalty : R; ac_type : sel_type; ac_pop_ideal : list R; ac_fit : list (list R); ac_unc : option (list (list R)); ac_cons : option (list (list R)); ac_vecs : list (list R); ac_gam : list R }.
Fixpoint apd_calls (ideal : list R) (calls : list apd_call) : res (list (list nat)) :=
  match calls with
  | [] => Ok []
  | k :: t => bind (calc_fitness (ac_type k) (ac_fit k) (ac_unc k)) (fun f =>
              bind (apd_select (ac_penalty k) ideal (ac_pop_ideal k) f (ac_cons k) (ac_vecs k) (ac_gam k)) (fun zs =>
              bind (apd_calls (fst zs) t) (fun l => Ok (snd zs :: l))))
  end.
(** The same call with c.(j) added to objective j of everything. *)
Definition moved (c : list R) (k : apd_call) : apd_call :=
  mkCall (ac_penalty k) (ac_type k) (vadd (ac_pop_ideal k) c) (map (fun f => vadd f c) (ac_fit k)) (ac_unc k) (ac_cons k) (ac_vecs k) (ac_gam k).
Theorem C121_rvea_origin : forall c ideal calls, (forall k f, In k calls -> In f (ac_fit k) -> length f = length c) ->
  apd_calls (vadd ideal c) (map (moved c) calls) = apd_calls ideal calls.
Proof.
  intros c ideal calls. revert ideal. induction calls as [|k t IH]; intros ideal H; [reflexivity|]. cbn [map apd_calls moved ac_penalty ac_type ac_pop_ideal ac_fit ac_unc ac_cons ac_vecs ac_gam].
  rewrite calc_shift. destruct (calc_fitness (ac_type k) (ac_fit k) (ac_unc k)) as [f|e] eqn:E; cbn [bind]; [|reflexivity].
  rewrite apd_select_shift.
  - destruct (apd_select _ _ _ f _ _ _) as [[z s]|e]; cbn [bind fst snd]; [|reflexivity]. rewrite IH; [reflexivity|]. intros k' g Hk Hg. apply (H k' g); [right; auto|auto].
  - intros g Hg. assert (L : forall l u g, (forall f, In f l -> length f = length c) -> In g (vmap2 vsub l u) \/ In g (vmap2 vadd l u) -> (length g <= length c)%nat).
    { clear. induction l as [|x l IHl]; intros [|y u] g H Hg; cbn [vmap2 In] in Hg; try tauto. destruct Hg as [[<-|Hg]|[<-|Hg]].
      - unfold vsub. rewrite vmap2_len, (H x) by (left; auto). lia.
      - apply (IHl u); [intros; apply H; right; auto|auto].
      - unfold vadd. rewrite vmap2_len, (H x) by (left; auto). lia.
      - apply (IHl u); [intros; apply H; right; auto|auto]. }
    assert (Hk : forall f, In f (ac_fit k) -> length f = length c) by (intros; apply (H k); [left; auto|auto]).
    destruct (ac_type k), (ac_unc k) as [u|]; cbn [calc_fitness] in E; try discriminate; injection E as <-; try (rewrite (Hk g Hg); lia); apply (L _ u g Hk); auto.
Qed.
(** The same call with all objectives (and uncertainties) multiplied by one factor. *)
Definition rescaled (a : R) (k : apd_call) : apd_call :=
  mkCall (ac_penalty k) (ac_type k) (vscale a (ac_pop_ideal k)) (map (vscale a) (ac_fit k)) (option_map (map (vscale a)) (ac_unc k)) (ac_cons k) (ac_vecs k) (ac_gam k).
Theorem C121_rvea_unit : forall a ideal calls, 0 < a -> apd_calls (vscale a ideal) (map (rescaled a) calls) = apd_calls ideal calls.
Proof.
  intros a ideal calls Ha. revert ideal. induction calls as [|k t IH]; intros ideal; [reflexivity|]. cbn [map apd_calls rescaled ac_penalty ac_type ac_pop_ideal ac_fit ac_unc ac_cons ac_vecs ac_gam].
  rewrite calc_scale. destruct (calc_fitness (ac_type k) (ac_fit k) (ac_unc k)) as [f|e]; cbn [bind]; [|reflexivity].
  rewrite apd_select_scale by auto. destruct (apd_select _ _ _ f _ _ _) as [[z s]|e]; cbn [bind fst snd]; [|reflexivity]. rewrite IH. reflexivity.
Qed.

(** ** NSGA-III: the operator remembers ideal, worst and extreme points between calls. *)
Record nsga_call := mkNCall { nc_rng : rng3; nc_dirs : list (list R); nc_fit : list (list R) }.
Section NSGA3.
Context (fnds : list (list R) -> list (list nat)) (solve : list (list R) -> list R -> option (list R)).
Fixpoint nsga_calls (s : st3) (calls : list nsga_call) : res (list (list nat)) :=
  match calls with
  | [] => Ok []
  | k :: t => bind (nsga3_do fnds solve (nc_rng k) (nc_dirs k) s (nc_fit k)) (fun r => bind (nsga_calls (fst r) t) (fun l => Ok (snd r :: l)))
  end.
Definition moved_call (c : list R) (k : nsga_call) : nsga_call := mkNCall (nc_rng k) (nc_dirs k) (map (fun f => vadd f c) (nc_fit k)).
Definition moved_state (c : list R) (s : st3) : st3 :=
  mkSt3 (vadd (i3 s) c) (option_map (fun w => vadd w c) (w3 s)) (option_map (map (fun f => vadd f c)) (e3 s)) (n3 s).
Definition shape (m : nat) (s : st3) : Prop :=
  length (i3 s) = m /\ (forall w, w3 s = Some w -> length w = m) /\ (forall e f, e3 s = Some e -> In f e -> length f = m).
(** Contracts: fast_non_dominated_sort sorts into fronts, each listed in increasing order (np.where); np.linalg.solve gives one value per unknown. *)
Hypothesis fnds_ok : fnds_contract fnds.
Hypothesis fnds_increasing : forall fit f, In f (fnds fit) -> StronglySorted lt f.
Hypothesis solve_ok : forall M b x, solve M b = Some x -> length x = length b.
Lemma do_shift c rng dirs s fit : shape (length c) s -> (forall f, In f fit -> length f = length c) ->
  nsga3_do fnds solve rng dirs (moved_state c s) (map (fun f => vadd f c) fit) = bind (nsga3_do fnds solve rng dirs s fit) (fun r => Ok (moved_state c (fst r), snd r)) /\
  forall s' sel, nsga3_do fnds solve rng dirs s fit = Ok (s', sel) -> shape (length c) s'.
Proof.
  intros (Si & Sw & Se) Hf. unfold nsga3_do.
  assert (Ef : fnds (map (fun f => vadd f c) fit) = fnds fit).
  { apply (fronts_unique (length fit) (row_dom fit)); [|apply fnds_ok|apply fnds_increasing|apply fnds_increasing].
    pose proof (fnds_ok (map (fun f => vadd f c) fit)) as X. rewrite map_length in X. eapply sorted_dom; [|exact X]. intros i j. apply row_dom_shift; auto. }
  rewrite Ef. destruct (fnds fit) as [|nd rest] eqn:E; [split; [reflexivity|discriminate]|].
  assert (Hnd : forall i, In i (concat (nd :: rest)) -> (i < length fit)%nat). { intros i Hi. rewrite <- E in Hi. apply (Permutation_in _ (sf_perm _ _ _ (fnds_ok fit))) in Hi. apply in_seq in Hi. lia. }
  assert (Hn : forall i, In i nd -> (i < length fit)%nat) by (intros i Hi; apply Hnd; cbn [concat]; apply in_or_app; auto).
  assert (Em : map (row (map (fun f => vadd f c) fit)) nd = map (fun f => vadd f c) (map (row fit) nd)) by (rewrite map_map; apply map_ext_in; intros i Hi; apply row_shift; auto).
  assert (Hr : forall f, In f (map (row fit) nd) -> length f = length c) by (intros f H; apply in_map_iff in H as (i & <- & Hi); apply Hf; unfold row; apply nth_In; auto).
  rewrite Em, colmin_shift, !colmax_shift. destruct (colmin fit) as [fmin|] eqn:E1, (colmax fit) as [wpop|] eqn:E2, (colmax (map (row fit) nd)) as [wfront|] eqn:E3; cbn [option_map]; try (split; [reflexivity|discriminate]).
  pose proof (colmin_len _ _ _ Hf E1) as L1. pose proof (colmax_len _ _ _ Hf E2) as L2. pose proof (colmax_len _ _ _ Hr E3) as L3.
  cbn [moved_state i3 w3 e3 n3]. rewrite vmin_shift. set (ideal := vmin (i3 s) fmin). assert (Li : length ideal = length c) by (unfold ideal, vmin; rewrite vmap2_len; lia).
  assert (Ew : match option_map (fun w => vadd w c) (w3 s) with Some w => vmax w (vadd wpop c) | None => vadd wpop c end = vadd (match w3 s with Some w => vmax w wpop | None => wpop end) c) by (destruct (w3 s); cbn [option_map]; [apply vmax_shift|reflexivity]).
  rewrite Ew. set (worst := match w3 s with Some w => vmax w wpop | None => wpop end). assert (Lw : length worst = length c) by (unfold worst; destruct (w3 s) as [w|] eqn:W; [unfold vmax; rewrite vmap2_len, (Sw w eq_refl); lia|auto]).
  rewrite extreme_shift; [|auto|auto|intros e He f Hef; apply (Se e f); auto]. set (ext := extreme_points (map (row fit) nd) ideal (e3 s)).
  assert (Le : forall f, In f ext -> length f = length c) by (apply extreme_len; [auto|intros e He f Hef; apply (Se e f); auto]).
  rewrite nadir_shift by auto. set (nadir := nadir_point solve ext ideal worst wpop wfront). assert (Ln : length nadir = length c) by (apply nadir_len; auto).
  assert (Nm : forall i, In i (concat (nd :: rest)) -> normalise (vadd ideal c) (vadd nadir c) (row (map (fun f => vadd f c) fit) i) = normalise ideal nadir (row fit i)).
  { intros i Hi. unfold normalise. pose proof (Hnd i Hi) as Lt. assert (length (row fit i) = length c) by (apply Hf, nth_In; auto). rewrite (row_shift c fit i Lt), (vsub_shift c nadir ideal), (vsub_shift c (row fit i) ideal) by lia. reflexivity. }
  destruct (n3 s) as [n|] eqn:En; [|split; [reflexivity|discriminate]].
  assert (Sv : forall g g' d d', (forall i, In i (concat (nd :: rest)) -> g i = g' i /\ d i = d' i) -> survive rng n (length dirs) g d (nd :: rest) = survive rng n (length dirs) g' d' (nd :: rest)).
  { intros g g' d d' X. unfold survive.
    assert (Cut : forall fs acc b l, cut_fronts n acc fs = Some (b, l) -> incl (concat b ++ l) (concat acc ++ concat fs)).
    { clear. induction fs as [|f fs IH]; intros acc b l H; cbn [cut_fronts] in H; [discriminate|]. destruct (Nat.ltb _ n).
      - apply IH in H. intros x Hx. apply H in Hx. rewrite concat_app in Hx. cbn [concat] in Hx |- *. rewrite app_nil_r, <- app_assoc in Hx. exact Hx.
      - injection H as <- <-. intros x Hx. cbn [concat]. apply in_app_iff in Hx. apply in_or_app. destruct Hx; [auto|right; apply in_or_app; auto]. }
    destruct (cut_fronts n [] (nd :: rest)) as [[b l]|] eqn:C; [|reflexivity]. apply Cut in C. cbn [concat app] in C.
    destruct (Nat.ltb n (length (concat b ++ l))); [|reflexivity].
    assert (M1 : map g l = map g' l) by (apply map_ext_in; intros i Hi; apply X; cbn [concat]; apply C; apply in_or_app; auto).
    assert (M2 : map d l = map d' l) by (apply map_ext_in; intros i Hi; apply X; cbn [concat]; apply C; apply in_or_app; auto).
    assert (M3 : map g (concat b) = map g' (concat b)) by (apply map_ext_in; intros i Hi; apply X; cbn [concat]; apply C; apply in_or_app; auto).
    rewrite M1, M2, M3. reflexivity. }
  rewrite (Sv _ (fun i => niche_of dirs (normalise ideal nadir (row fit i))) _ (fun i => niche_dist dirs (normalise ideal nadir (row fit i)))) by (intros i Hi; rewrite (Nm i Hi); auto).
  destruct (survive _ _ _ _ _ _) as [sel|e]; cbn [bind]; [|split; [reflexivity|discriminate]]. split.
  - cbn [fst snd moved_state i3 w3 e3 n3 option_map]. reflexivity.
  - intros s' sel' H. injection H as <- <-. unfold shape. cbn [i3 w3 e3]. split; [auto|]. split; [intros w Hw; injection Hw as <-; auto|intros e f He; injection He as <-; auto].
Qed.
Theorem C121_nsga3_origin : forall c s calls, shape (length c) s -> (forall k f, In k calls -> In f (nc_fit k) -> length f = length c) ->
  nsga_calls (moved_state c s) (map (moved_call c) calls) = nsga_calls s calls.
Proof.
  intros c s calls. revert s. induction calls as [|k t IH]; intros s Hs H; [reflexivity|]. cbn [map nsga_calls moved_call nc_rng nc_dirs nc_fit].
  destruct (do_shift c (nc_rng k) (nc_dirs k) s (nc_fit k) Hs) as [A B]; [intros; apply (H k); [left; auto|auto]|]. rewrite A.
  destruct (nsga3_do _ _ _ _ s _) as [[s' sel]|e]; cbn [bind fst snd]; [|reflexivity]. rewrite IH; [reflexivity|apply (B s' sel); reflexivity|intros k' f Hk Hf; apply (H k' f); [right; auto|auto]].
Qed.
End NSGA3.

(** C121 (false of the code). "Nor on their units": dividing both objectives by 10000 changes which of two solutions NSGA-III takes for the extreme ones. *)
Theorem C121_nsga3_units_refuted : exists fnds solve rng dirs s (fit : list (list R)) a s1 sel1 s2 sel2, fnds_contract fnds /\ 0 < a /\
  nsga3_do fnds solve rng dirs s fit = Ok (s1, sel1) /\
  nsga3_do fnds solve rng dirs (mkSt3 (vscale a (i3 s)) None None (n3 s)) (map (vscale a) fit) = Ok (s2, sel2) /\ w3 s = None /\ e3 s = None /\
  e3 s1 = Some [[1; 0]; [0; 1]] /\ exists x, e3 s2 = Some [[0; x]; [0; x]] /\ x <> 0.
Proof.
  exists ref_fnds, (fun _ _ => None), (mkRng3 (fun t => t) (fun _ l => l)), [[1; 0]; [0; 1]], (mkSt3 [0; 0] None None (Some 2%nat)), [[0; 1]; [1; 0]], (1 / 10000).
  assert (S0 : forall x, x < 1/1000 -> snap_small x = 0) by (intros x H; unfold snap_small; destruct (Rlt_dec x (1/1000)); [auto|contradiction]).
  assert (S1 : forall x, 1/1000 <= x -> snap_small x = x) by (intros x H; unfold snap_small; destruct (Rlt_dec x (1/1000)); [lra|auto]).
  assert (X : forall a b i, i = vmin [0; 0] (vmin [0; a] [b; 0]) -> 0 <= a -> 0 <= b -> i = [0; 0]).
  { intros a b i -> Ha Hb. unfold vmin. cbn [vmap2]. rewrite !(Rmin_left 0 b), (Rmin_right a 0), !Rmin_left by lra. reflexivity. }
  assert (ND : forall x y : R, 0 < x -> ~ rdominates [0; x] [y; 0]) by (intros x y Hx [D _]; inversion D as [|? ? ? ? _ D']; inversion D'; lra).
  assert (ND' : forall x y : R, 0 < y -> ~ rdominates [y; 0] [0; x]) by (intros x y Hx [D _]; inversion D; lra).
  assert (F1 : ref_fnds [[0; 1]; [1; 0]] = [[0%nat; 1%nat]]) by (apply two_fronts; [apply ND|apply ND']; lra).
  assert (F2 : ref_fnds (map (vscale (1 / 10000)) [[0; 1]; [1; 0]]) = [[0%nat; 1%nat]]) by (cbn [map vscale]; rewrite !Rmult_0_r, !Rmult_1_r; apply two_fronts; [apply ND|apply ND']; lra).
  eexists _, _, _, _. split; [exact ref_fnds_sorted|]. split; [lra|]. split.
  - unfold nsga3_do, row. rewrite F1. cbn [map nth colmin colmax fold_left]. cbn [i3 n3 w3 e3]. rewrite (X 1 1 _ eq_refl) by lra.
    unfold survive. cbn [cut_fronts concat app length Nat.ltb Nat.leb bind]. reflexivity.
  - split.
    + unfold nsga3_do, row. rewrite F2. cbn [map nth colmin colmax fold_left vscale]. cbn [i3 n3 w3 e3]. unfold survive. cbn [cut_fronts concat app length Nat.ltb Nat.leb bind]. reflexivity.
    + split; [reflexivity|]. split; [reflexivity|]. cbn [e3]. unfold row. cbn [map nth].
      assert (V : forall x y, vsub [x; y] [0; 0] = [x; y]) by (intros; unfold vsub; cbn [vmap2]; rewrite !Rminus_0_r; reflexivity).
      split.
      * f_equal. unfold extreme_points. cbn [length seq flat_map app map]. unfold asf. cbn [length seq]. rewrite !V. cbn [vmap2 fold_left]. unfold asf_weight. cbn [Nat.eqb].
        rewrite (S0 0), (S1 1) by lra. rewrite !Rmult_0_l, !Rmult_1_l. rewrite (Rmax_right 0 1000000), (Rmax_left 1 0), (Rmax_right 0 1), (Rmax_left 1000000 0) by lra.
        unfold argmin. cbn [argmin_from]. destruct (Rlt_dec 1 1000000) as [_|B]; [|exfalso; apply B; lra]. destruct (Rlt_dec 1000000 1) as [B|_]; [exfalso; lra|]. reflexivity.
      * cbn [vscale map]. rewrite !Rmult_0_r, !Rmult_1_r. exists (1 / 10000). split; [|lra]. f_equal.
        rewrite (X (1/10000) (1/10000) _ eq_refl) by lra. unfold extreme_points. cbn [length seq flat_map app map]. unfold asf. cbn [length seq]. rewrite !V. cbn [vmap2 fold_left].
        rewrite (S0 0), (S0 (1/10000)) by lra. rewrite !Rmult_0_l. rewrite !(Rmax_left 0 0) by lra. unfold argmin. cbn [argmin_from]. destruct (Rlt_dec 0 0) as [B|_]; [exfalso; lra|]. reflexivity.
Qed.

Print Assumptions C121_rvea_origin.
Print Assumptions C121_rvea_unit.
Print Assumptions C121_nsga3_origin.
Print Assumptions C121_nsga3_units_refuted.

(** Non-vacuity: the reference sorting lists its fronts in increasing order. *)
Lemma filter_increasing g l : StronglySorted lt l -> StronglySorted lt (filter g l).
Proof. induction 1 as [|x l H IH Hx]; cbn [filter]; [constructor|]. destruct (g x); [constructor; auto|auto]. apply Forall_forall. intros y Hy. apply filter_In in Hy as [Hy _]. rewrite Forall_forall in Hx. auto. Qed.
Lemma seq_increasing k : forall s, StronglySorted lt (seq s k).
Proof. induction k as [|k IH]; intros s; cbn [seq]; [constructor|constructor; auto]. apply Forall_forall. intros y Hy. apply in_seq in Hy. lia. Qed.
Example ex_increasing : forall fit f, In f (ref_fnds fit) -> StronglySorted lt f.
Proof.
  intros fit. unfold ref_fnds. generalize (length fit) at 1. generalize (seq_increasing (length fit) 0). generalize (seq 0 (length fit)).
  intros l Hl n. revert l Hl. induction n as [|n IH]; intros l Hl f Hf; cbn [peel] in Hf; [destruct Hf|]. destruct l as [|a l]; [destruct Hf|]. destruct Hf as [<-|Hf]; [apply filter_increasing; auto|].
  eapply IH; [|exact Hf]. apply filter_increasing; auto.
Qed.
Example ex_solve : forall (M : list (list R)) (b x : list R), (fun _ b => Some (map (fun _ => 1) b)) M b = Some x -> length x = length b.
Proof. intros M b x H. injection H as <-. apply map_length. Qed.
Example ex_shape : shape 2 (init3 [0; 0] 2 None).
Proof. split; [reflexivity|]. split; discriminate. Qed.
