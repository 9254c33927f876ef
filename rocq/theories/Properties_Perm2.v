(** C122 for NSGA-III: selection does not depend on the order of the objectives. *)
From Coq Require Import Reals Lra Lia Permutation Sorted.
From Verif Require Import Base RVec M_APD M_NSGA3 Spec_Fronts P_NSGA3 Properties_NSGA3 Properties_Elite P_Shift Properties_Shift P_Perm Properties_Perm P_Perm2 M_Indicator Properties_Shift2.
Open Scope R_scope.

(** Contract of np.linalg.solve on square systems: an answer exactly when there is one and only one. *)
Definition solves (m : nat) (solve : list (list R) -> list R -> option (list R)) : Prop :=
  forall Mx b x, length Mx = m -> length b = m -> (forall r, In r Mx -> length r = m) ->
    (solve Mx b = Some x <-> unique (fun y => length y = length b /\ map (fun r => dot r y) Mx = b) x).

Section NSGA3.
Context (fnds : list (list R) -> list (list nat)) (solve : list (list R) -> list R -> option (list R)) (m : nat).
Hypothesis fnds_ok : fnds_contract fnds.
Hypothesis fnds_increasing : forall fit f, In f (fnds fit) -> StronglySorted lt f.
Hypothesis solve_ok : solves m solve.

(** The operator's memory with the objectives in another order: the extreme points, one per objective, change places too. *)
Definition reordered_state (p : list nat) (s : st3) : st3 :=
  mkSt3 (reordered p (i3 s)) (option_map (reordered p) (w3 s)) (option_map (fun e => map (fun k => reordered p (nth k e [])) p) (e3 s)) (n3 s).
Definition reordered_ncall (p : list nat) (k : nsga_call) : nsga_call := mkNCall (nc_rng k) (map (reordered p) (nc_dirs k)) (map (reordered p) (nc_fit k)).
(** Memory of an operator for [m] objectives. *)
Definition shaped (s : st3) : Prop :=
  length (i3 s) = m /\ (forall w, w3 s = Some w -> length w = m) /\ (forall e, e3 s = Some e -> length e = m /\ forall f, In f e -> length f = m).
Definition shaped_call (k : nsga_call) : Prop := (forall f, In f (nc_fit k) -> length f = m) /\ (forall u, In u (nc_dirs k) -> length u = m).
(** No two different remembered extreme points have the same achievement value for an objective (always so in the first call, when nothing is remembered). *)
Definition untied_extremes (s : st3) (fit : list (list R)) : Prop :=
  forall fmin e k a b, colmin fit = Some fmin -> e3 s = Some e -> (k < m)%nat -> In a e -> In b e -> asf k (vmin (i3 s) fmin) a = asf k (vmin (i3 s) fmin) b -> a = b.
(** ... in any of the calls. *)
Fixpoint untied_calls (s : st3) (calls : list nsga_call) : Prop :=
  match calls with
  | [] => True
  | k :: t => untied_extremes s (nc_fit k) /\ forall s' sel, nsga3_do fnds solve (nc_rng k) (nc_dirs k) s (nc_fit k) = Ok (s', sel) -> untied_calls s' t
  end.

Lemma survive_ext rng n d fronts g g' h h' : (forall i, In i (concat fronts) -> g i = g' i /\ h i = h' i) -> survive rng n d g h fronts = survive rng n d g' h' fronts.
Proof.
  intros X. unfold survive.
  assert (Cut : forall fs acc b l, cut_fronts n acc fs = Some (b, l) -> incl (concat b ++ l) (concat acc ++ concat fs)).
  { clear. induction fs as [|f fs IH]; intros acc b l H; cbn [cut_fronts] in H; [discriminate|]. destruct (Nat.ltb _ n).
    - apply IH in H. intros x Hx. apply H in Hx. rewrite concat_app in Hx. cbn [concat] in Hx |- *. rewrite app_nil_r, <- app_assoc in Hx. exact Hx.
    - injection H as <- <-. intros x Hx. cbn [concat]. apply in_app_iff in Hx. apply in_or_app. destruct Hx; [auto|right; apply in_or_app; auto]. }
  destruct (cut_fronts n [] fronts) as [[b l]|] eqn:C; [|reflexivity]. apply Cut in C. cbn [concat app] in C.
  destruct (Nat.ltb n (length (concat b ++ l))); [|reflexivity].
  assert (M1 : map g l = map g' l) by (apply map_ext_in; intros i Hi; apply X; apply C; apply in_or_app; auto).
  assert (M2 : map h l = map h' l) by (apply map_ext_in; intros i Hi; apply X; apply C; apply in_or_app; auto).
  assert (M3 : map g (concat b) = map g' (concat b)) by (apply map_ext_in; intros i Hi; apply X; apply C; apply in_or_app; auto).
  rewrite M1, M2, M3. reflexivity.
Qed.
Lemma do_reorder p rng dirs s fit : Permutation p (seq 0 m) -> shaped s -> (forall f, In f fit -> length f = m) -> (forall u, In u dirs -> length u = m) -> untied_extremes s fit ->
  nsga3_do fnds solve rng (map (reordered p) dirs) (reordered_state p s) (map (reordered p) fit) = bind (nsga3_do fnds solve rng dirs s fit) (fun r => Ok (reordered_state p (fst r), snd r)) /\
  forall s' sel, nsga3_do fnds solve rng dirs s fit = Ok (s', sel) -> shaped s'.
Proof.
  intros P (Si & Sw & Se) Hf Hd U. change (reordered p) with (relabel p). unfold nsga3_do.
  assert (Ef : fnds (map (relabel p) fit) = fnds fit).
  { apply (fronts_unique (length fit) (row_dom fit)); [|apply fnds_ok|apply fnds_increasing|apply fnds_increasing].
    pose proof (fnds_ok (map (relabel p) fit)) as X. rewrite map_length in X. eapply sorted_dom; [|exact X]. intros i j. apply (row_dom_relabel p m P); auto. }
  rewrite Ef. destruct (fnds fit) as [|nd rest] eqn:E; [split; [reflexivity|discriminate]|].
  assert (Hnd : forall i, In i (concat (nd :: rest)) -> (i < length fit)%nat). { intros i Hi. rewrite <- E in Hi. apply (Permutation_in _ (sf_perm _ _ _ (fnds_ok fit))) in Hi. apply in_seq in Hi. lia. }
  assert (Hn : forall i, In i nd -> (i < length fit)%nat) by (intros i Hi; apply Hnd; cbn [concat]; apply in_or_app; auto).
  assert (Rw : forall i, (i < length fit)%nat -> row (map (relabel p) fit) i = relabel p (row fit i)) by (intros i Hi; unfold row; rewrite (nth_indep _ [] (relabel p [])) by (rewrite map_length; exact Hi); apply map_nth).
  assert (Em : map (row (map (relabel p) fit)) nd = map (relabel p) (map (row fit) nd)) by (rewrite map_map; apply map_ext_in; intros i Hi; apply Rw; auto).
  assert (Hr : forall f, In f (map (row fit) nd) -> length f = m) by (intros f H; apply in_map_iff in H as (i & <- & Hi); apply Hf; unfold row; apply nth_In; auto).
  assert (NE : map (row fit) nd <> []). { assert (N0 : nd <> []) by (apply (sf_nonempty _ _ _ (fnds_ok fit)); rewrite E; left; reflexivity). destruct nd; [congruence|discriminate]. }
  rewrite Em, (colmin_relabel p m P), !(colmax_relabel p m P) by auto.
  destruct (colmin fit) as [fmin|] eqn:E1, (colmax fit) as [wpop|] eqn:E2, (colmax (map (row fit) nd)) as [wfront|] eqn:E3; cbn [option_map]; try (split; [reflexivity|discriminate]).
  pose proof (colmin_len _ _ _ Hf E1) as L1. pose proof (colmax_len _ _ _ Hf E2) as L2. pose proof (colmax_len _ _ _ Hr E3) as L3.
  cbn [reordered_state i3 w3 e3 n3]. change (reordered p) with (relabel p). change (fun e : list (list R) => map (fun k => relabel p (nth k e [])) p) with (relabel2 p).
  assert (Emin : vmin (relabel p (i3 s)) (relabel p fmin) = relabel p (vmin (i3 s) fmin)) by (unfold vmin; apply (vmap2_relabel Rmin p m (i3 s) fmin P Si L1)). rewrite Emin. set (ideal := vmin (i3 s) fmin) in *. assert (Li : length ideal = m) by (unfold ideal, vmin; rewrite vmap2_len; lia).
  assert (Ew : match option_map (relabel p) (w3 s) with Some w => vmax w (relabel p wpop) | None => relabel p wpop end = relabel p (match w3 s with Some w => vmax w wpop | None => wpop end)).
  { destruct (w3 s) as [w|] eqn:W; cbn [option_map]; [|reflexivity]. unfold vmax. apply (vmap2_relabel Rmax p m); auto. }
  rewrite Ew. set (worst := match w3 s with Some w => vmax w wpop | None => wpop end). assert (Lw : length worst = m) by (unfold worst; destruct (w3 s) as [w|] eqn:W; [unfold vmax; rewrite vmap2_len, (Sw w eq_refl); lia|auto]).
  rewrite (extreme_relabel p m P); [|exact NE|exact Li|exact Hr|exact Se|].
  2: { intros e k a b He Hk Ha Hb Hab. apply (U fmin e k a b); auto. }
  set (ext := extreme_points (map (row fit) nd) ideal (e3 s)).
  assert (Le : length ext = m) by (unfold ext; rewrite extreme_len2 by exact NE; exact Li).
  assert (Lf : forall f, In f ext -> length f = m). { intros f Hfe. rewrite <- Li. apply (extreme_len ideal (map (row fit) nd) ideal (e3 s)); [intros g Hg; rewrite Li; auto|intros e He g Hg; rewrite Li; apply (Se e He); auto|exact Hfe]. }
  destruct (nadir_relabel p m P solve solve_ok ext ideal worst wpop wfront Le Lf Li Lw L2 L3) as (En & Ln). rewrite En. set (nadir := nadir_point solve ext ideal worst wpop wfront) in *.
  destruct (n3 s) as [n|] eqn:En3; [|split; [reflexivity|discriminate]]. rewrite map_length.
  rewrite (survive_ext rng n (length dirs) (nd :: rest) _ (fun i => niche_of dirs (normalise ideal nadir (row fit i))) _ (fun i => niche_dist dirs (normalise ideal nadir (row fit i)))).
  - destruct (survive _ _ _ _ _ _) as [sel|e]; cbn [bind]; [|split; [reflexivity|discriminate]]. split.
    + cbn [fst snd]. unfold reordered_state. cbn [i3 w3 e3 n3 option_map]. rewrite ?En3. reflexivity.
    + intros s' sel' H. injection H as <- <-. unfold shaped. cbn [i3 w3 e3]. split; [exact Li|]. split; [intros w H; injection H as <-; exact Lw|intros e H; injection H as <-; auto].
  - intros i Hi. pose proof (Hnd i Hi) as Lt. rewrite (Rw i Lt). assert (Lri : length (row fit i) = m) by (apply Hf, nth_In; auto). destruct (normalise_relabel p m P ideal nadir (row fit i) Li Ln Lri) as (N1 & N2). rewrite N1. apply (niche_relabel p m P); auto.
Qed.
(** C122. Any sequence of calls: the same rows are selected (or the same exception raised), whatever the order of the objectives. *)
Theorem C122_nsga3_objectives : forall p s calls, Permutation p (seq 0 m) -> shaped s -> (forall k, In k calls -> shaped_call k) -> untied_calls s calls ->
  nsga_calls fnds solve (reordered_state p s) (map (reordered_ncall p) calls) = nsga_calls fnds solve s calls.
Proof.
  intros p s calls P. revert s. induction calls as [|k t IH]; intros s Hs Hc U; cbn [map nsga_calls]; [reflexivity|]. cbn [untied_calls] in U. destruct U as (U1 & U2).
  destruct (Hc k (or_introl eq_refl)) as (Hf & Hd). unfold reordered_ncall at 1 2 3. cbn [nc_rng nc_dirs nc_fit].
  destruct (do_reorder p (nc_rng k) (nc_dirs k) s (nc_fit k) P Hs Hf Hd U1) as (E & Sh). rewrite E. destruct (nsga3_do fnds solve (nc_rng k) (nc_dirs k) s (nc_fit k)) as [[s' sel]|e] eqn:D; cbn [bind fst snd]; [|reflexivity].
  rewrite (IH s'); [reflexivity|apply (Sh s' sel eq_refl)|intros k' Hk'; apply Hc; right; exact Hk'|apply (U2 s' sel eq_refl)].
Qed.
End NSGA3.

(** ** IBEA *)
(** C122. A generation of IBEA with the epsilon indicator, whatever the order of the objectives: the same survivors, parents and offspring. *)
Theorem C122_ibea_objectives : forall {M : Type} (objs : M -> list R) m p kappa mate tournament_size pop_size draws pop, Permutation p (seq 0 m) -> (forall x, length (objs x) = m) ->
  ind_next_gen (fun x y => eps_indicator (reordered p (objs x)) (reordered p (objs y))) kappa mate tournament_size pop_size draws pop =
  ind_next_gen (fun x y => eps_indicator (objs x) (objs y)) kappa mate tournament_size pop_size draws pop.
Proof.
  intros M objs m p kappa mate ts ps draws pop P L. apply ext_gen. intros x y.
  change (top (map (fun q => fst q - snd q) (combine (relabel p (objs x)) (relabel p (objs y)))) = top (map (fun q => fst q - snd q) (combine (objs x) (objs y)))).
  apply top_perm. apply Permutation_map. apply (combine_perm p m P); auto.
Qed.

Print Assumptions C122_nsga3_objectives.
Print Assumptions C122_ibea_objectives.

(** Non-vacuity: Cramer's rule meets the contract of np.linalg.solve for two objectives. *)
Definition cramer (Mx : list (list R)) (b : list R) : option (list R) :=
  match Mx, b with
  | [[a1; a2]; [b1; b2]], [c1; c2] => if Req_EM_T (a1 * b2 - a2 * b1) 0 then None else Some [(c1 * b2 - a2 * c2) / (a1 * b2 - a2 * b1); (a1 * c2 - c1 * b1) / (a1 * b2 - a2 * b1)]
  | _, _ => None
  end.
Example ex_cramer : solves 2 cramer.
Proof.
  intros Mx b x LM Lb Lr. destruct Mx as [|r1 [|r2 [|r3 Mx]]]; try discriminate LM. destruct b as [|c1 [|c2 [|c3 b]]]; try discriminate Lb.
  pose proof (Lr r1 (or_introl eq_refl)) as L1. pose proof (Lr r2 (or_intror (or_introl eq_refl))) as L2. clear LM Lb Lr.
  destruct r1 as [|a1 [|a2 [|a3 r1]]]; try discriminate L1. destruct r2 as [|b1 [|b2 [|b3 r2]]]; try discriminate L2. cbn [cramer]. clear L1 L2.
  assert (Sol : forall u v, (length [u; v] = length [c1; c2] /\ map (fun r => dot r [u; v]) [[a1; a2]; [b1; b2]] = [c1; c2]) <-> a1 * u + a2 * v = c1 /\ b1 * u + b2 * v = c2).
  { intros u v. cbn [length map dot]. split; [intros (_ & H); injection H as H1 H2; split; lra|intros (H1 & H2); split; [reflexivity|]; f_equal; [lra|f_equal; lra]]. }
  assert (Two : forall y : list R, length y = length [c1; c2] -> exists u v, y = [u; v]) by (intros [|u [|v [|w y]]] H; try discriminate H; eauto).
  destruct (Req_EM_T (a1 * b2 - a2 * b1) 0) as [D|D].
  - split; [discriminate|]. intros (H1 & H2). exfalso. destruct (Two x (proj1 H1)) as (u & v & ->). apply Sol in H1. destruct H1 as (H1 & H1').
    assert (K : forall s t, a1 * s + a2 * t = 0 -> b1 * s + b2 * t = 0 -> s = 0 /\ t = 0).
    { intros s t K1 K2. assert (E : [u; v] = [u + s; v + t]) by (apply H2; apply Sol; split; lra). injection E as E1 E2. split; lra. }
    destruct (K (- a2) a1) as (Z1 & Z2); [lra|lra|]. destruct (K (- b2) b1) as (Z3 & Z4); [lra|lra|]. assert (a1 = 0) by lra. assert (a2 = 0) by lra. assert (b1 = 0) by lra. assert (b2 = 0) by lra. subst.
    destruct (K 1 0) as (Z & _); lra.
  - assert (Uq : forall u v, a1 * u + a2 * v = c1 -> b1 * u + b2 * v = c2 -> u = (c1 * b2 - a2 * c2) / (a1 * b2 - a2 * b1) /\ v = (a1 * c2 - c1 * b1) / (a1 * b2 - a2 * b1)) by (intros u v <- <-; split; field; exact D).
    split.
    + intros H. injection H as <-. split; [apply Sol; split; field; exact D|]. intros y Hy. destruct (Two y (proj1 Hy)) as (u & v & ->). apply Sol in Hy. destruct (Uq u v (proj1 Hy) (proj2 Hy)) as (-> & ->). reflexivity.
    + intros (H1 & _). destruct (Two x (proj1 H1)) as (u & v & ->). apply Sol in H1. destruct (Uq u v (proj1 H1) (proj2 H1)) as (-> & ->). reflexivity.
Qed.
(** A fresh operator, one call, the two objectives exchanged. *)
Example ex_fresh : forall fnds solve k, shaped 2 (init3 [0; 0] 2 None) /\ untied_calls fnds solve 2 (init3 [0; 0] 2 None) [k] /\ Permutation [1; 0]%nat (seq 0 2) /\
  shaped_call 2 (mkNCall (mkRng3 (fun _ => 0%nat) (fun _ l => l)) [[1; 0]; [0; 1]] [[0; 1]; [1; 0]; [2; 2]]).
Proof.
  intros fnds solve k. split; [|split; [|split]].
  - unfold shaped, init3. cbn [i3 w3 e3]. split; [reflexivity|]. split; intros; discriminate.
  - cbn [untied_calls]. split; [|auto]. intros fmin e kk a b _ H. discriminate H.
  - cbn [seq]. constructor.
  - split; cbn [nc_fit nc_dirs]; intros f Hf; cbn [In] in Hf; repeat destruct Hf as [<-|Hf]; try reflexivity; destruct Hf.
Qed.
(** Remembered extreme points that do not tie. *)
Example ex_untied_extremes : untied_extremes 2 (mkSt3 [0; 0] (Some [1; 1]) (Some [[1; 0]; [0; 1]]) (Some 2%nat)) [[0; 1]; [1; 0]].
Proof.
  intros fmin e k a b E1 E2 Hk Ha Hb. cbn [colmin fold_left] in E1. injection E1 as <-. cbn [e3] in E2. injection E2 as <-. cbn [i3]. unfold vmin. cbn [vmap2].
  replace (Rmin 0 (Rmin 0 1)) with 0 by (rewrite (Rmin_left 0 1) by lra; rewrite Rmin_left; lra). replace (Rmin 0 (Rmin 1 0)) with 0 by (rewrite (Rmin_right 1 0) by lra; rewrite Rmin_left; lra).
  assert (V : forall kk, (kk < 2)%nat -> asf kk [0; 0] [1; 0] <> asf kk [0; 0] [0; 1]).
  { intros kk H. unfold asf, vsub. cbn [length seq vmap2 fold_left]. unfold snap_small. destruct (Rlt_dec (1 - 0) (1 / 1000)); [lra|]. destruct (Rlt_dec (0 - 0) (1 / 1000)); [|lra].
    destruct kk as [|[|kk]]; [| |lia]; unfold asf_weight; cbn [Nat.eqb]; rewrite ?Rmult_0_l; unfold Rmax; repeat destruct (Rle_dec _ _); lra. }
  intros H. cbn [In] in Ha, Hb. destruct Ha as [<-|[<-|[]]], Hb as [<-|[<-|[]]]; try reflexivity; exfalso; [apply (V k Hk); exact H|apply (V k Hk); symmetry; exact H].
Qed.
