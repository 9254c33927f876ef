(** C117: what becomes of the best solutions in a whole run of NSGA-III. *)
From Verif Require Import Base RVec M_Population Spec_Population P_Population M_Archive M_Run Spec_Run P_Run P_Run2 P_Run3 Properties_Run Spec_RunSel P_RunSel.
From Verif Require Import M_APD M_NSGA3 P_NSGA3 Spec_Fronts Properties_NSGA3 Properties_RunSel Spec_Elite P_Elite.
From Coq Require Import QArith Reals Lia Lra Permutation.
Open Scope nat_scope.

(** The rows of a table: individual, objectives, fitness. *)
Definition table {I O F : Type} (is : list I) (os : list O) (fs : list F) : list (I * O * F) := combine (combine is os) fs.
Lemma table_rows {I O C U : Type} (ms : list (member I O (list R) C U)) : table (map m_ind ms) (map m_obj ms) (map m_fit ms) = map row_of ms.
Proof. unfold table. induction ms as [|m ms IH]; [reflexivity|]. cbn [map combine]. rewrite IH. reflexivity. Qed.

Section T.
Context {I O C U : Type} (dom : list R -> list R -> bool) (w : world I O (list R) C U) (c : cfg) (nc : nat) (u : bool) (n : nat).

(** C117. As long as the best solutions fit: if at no time more than n_survive of the rows that were in the population at state [s] or have been evaluated since are unbeaten among these, then
    after any number of iterate() calls every row that none of them beats is in the population, with its individual, objectives and fitness. *)
Theorem C117_best_kept_while_they_fit : forall ops0 s0 ks is os fs k s', honest nc u w -> by_nsga3 n w -> c_kind c = KDecomposition -> constructed w c nc u ops0 s0 ->
  (forall k p g, w_prefs w k p <> Ok (Some g)) ->
  let s := session dom w c s0 ks in p_ind (s_pop s) = Some is -> p_obj (s_pop s) = Some os -> p_fit (s_pop s) = Some fs -> (p_unc (s_pop s) <> None <-> u = true) -> 0 < n <= length is ->
  ran dom w c k s s' -> exists lg is' os' fs', s_log s' = s_log s ++ lg /\ answered w lg /\ p_ind (s_pop s') = Some is' /\ p_obj (s_pop s') = Some os' /\ p_fit (s_pop s') = Some fs' /\
    let all l := table is os fs ++ flat_map batch l in
    ((forall l1 l2, lg = l1 ++ l2 -> at_most_best (fun r => snd r) n (all l1)) ->
     forall r, In r (all lg) -> (forall q, In q (all lg) -> ~ rdominates (snd q) (snd r)) -> In r (table is' os' fs')).
Proof.
  intros ops0 s0 ks is os fs k s' Hw Hn3 Hk Hc Hnp s Ei Eo Ef Hu Hn Hr.
  destruct (reached dom w c nc u ops0 s0 ks is Hw Hc Ei Hu) as (ms & HH & Hms). fold s in HH. pose proof HH as ((R1 & R2 & R3 & _) & _).
  assert (os = map m_obj ms) as -> by congruence. assert (fs = map m_fit ms) as -> by (rewrite Ef in R3; injection R3 as R3; exact R3). subst is.
  assert (F0 : follows w nc u n (map row_of ms) (s_log s) s).
  { exists ms, []. split; [exact HH|]. split; [rewrite map_length in Hn; lia|]. split; [symmetry; apply app_nil_r|]. split; [intros ? ? ? []|]. intros _. cbn [flat_map]. rewrite app_nil_r. apply elite_all. }
  apply (F_ran dom w c nc u n Hw Hn3 (proj1 Hn) Hk Hnp _ _ k s s' Hr) in F0. destruct F0 as (ms' & lg & HH' & HL' & Hlog & Han & Hel).
  pose proof HH' as ((Q1 & Q2 & Q3 & _) & _). exists lg, (map m_ind ms'), (map m_obj ms'), (map m_fit ms'). split; [exact Hlog|]. split; [exact Han|]. split; [exact Q1|]. split; [exact Q2|]. split; [exact Q3|].
  cbv zeta. rewrite !table_rows. intros Few r Hin Hbest. destruct (Hel Few) as (js & Nj & At & Ab). apply In_nth_error in Hin as [j Hj].
  assert (Uj : unbeaten fit3 (map row_of ms ++ flat_map batch lg) j) by (exists r; split; [exact Hj|exact Hbest]).
  destruct (at_pos_in _ _ _ j At (Ab j Uj)) as (t & x & _ & T2 & T3). assert (X : Some x = Some r) by (rewrite <- Hj, <- T3; reflexivity). injection X as ->. eapply nth_error_In; eauto.
Qed.

(** C117. In every generation of every run: a row of the population or of the offspring that beats a row of the next population is itself in the next population. *)
Theorem C117_no_survivor_beaten_by_a_dropped_row : forall ops0 s0 ks is os fs s', honest nc u w -> by_nsga3 n w -> c_kind c = KDecomposition -> constructed w c nc u ops0 s0 ->
  let s := session dom w c s0 ks in p_ind (s_pop s) = Some is -> p_obj (s_pop s) = Some os -> p_fit (s_pop s) = Some fs -> (p_unc (s_pop s) <> None <-> u = true) -> 0 < n <= length is ->
  next_gen dom w c s = (s', Ok tt) -> exists e is' os' fs', s_log s' = s_log s ++ [e] /\ p_ind (s_pop s') = Some is' /\ p_obj (s_pop s') = Some os' /\ p_fit (s_pop s') = Some fs' /\
    incl (table is' os' fs') (table is os fs ++ batch e) /\
    forall x y, In x (table is os fs ++ batch e) -> In y (table is' os' fs') -> rdominates (snd x) (snd y) -> In x (table is' os' fs').
Proof.
  intros ops0 s0 ks is os fs s' Hw Hn3 Hk Hc s Ei Eo Ef Hu Hn Hr.
  destruct (reached dom w c nc u ops0 s0 ks is Hw Hc Ei Hu) as (ms & HH & Hms). fold s in HH. pose proof HH as ((R1 & R2 & R3 & _) & _).
  assert (os = map m_obj ms) as -> by congruence. assert (fs = map m_fit ms) as -> by (rewrite Ef in R3; injection R3 as R3; exact R3). subst is.
  unfold next_gen in Hr. rewrite Hk in Hr. rewrite map_length in Hn.
  destruct (G_gen dom w c nc u n Hw Hn3 (proj1 Hn) ms s s' HH (proj2 Hn) Hr) as (e & ms' & fnds & solve & rng & dirs & s3 & s3' & sel & G1 & _ & A1 & A2 & A3 & A4 & A5 & ND & B & Ne & HLM & HH' & HL' & Er).
  pose proof HH' as ((Q1 & Q2 & Q3 & _) & _). exists e, (map m_ind ms'), (map m_obj ms'), (map m_fit ms'). split; [exact G1|]. split; [exact Q1|]. split; [exact Q2|]. split; [exact Q3|].
  rewrite !table_rows, Er. set (M := map row_of ms ++ batch e) in *. split.
  - intros y Hy. apply In_select_pos_from in Hy as (i & Hi & _). eapply nth_error_In; eauto.
  - intros x y Hx Hy D. apply In_select_pos_from in Hy as (iy & Hiy & Ly). rewrite Nat.add_0_l in Ly. apply In_nth_error in Hx as [ix Hix].
    assert (Lx : ix < length M) by (apply nth_error_Some; intros E0; rewrite E0 in Hix; discriminate). assert (Liy : iy < length M) by (apply nth_error_Some; intros E0; rewrite E0 in Hiy; discriminate).
    apply listed_nats in Ly; [|exact B|exact Liy]. apply In_select_pos_from. exists ix. split; [exact Hix|]. rewrite Nat.add_0_l. apply listed_nats; [exact B|exact Lx|].
    apply (C34_dominators_selected fnds solve rng dirs s3 (map fit3 M) n s3' sel iy ix A1 A2 A3); [intros E; apply map_eq_nil in E; contradiction|exact A4|rewrite map_length; exact HLM|exact A5|exact Ly|].
    exists (fit3 x), (fit3 y). rewrite !nth_error_map, Hix, Hiy. split; [reflexivity|]. split; [reflexivity|exact D].
Qed.
End T.
Print Assumptions C117_best_kept_while_they_fit.
Print Assumptions C117_no_survivor_beaten_by_a_dropped_row.

(** ** The hypotheses are met by runs of any length: two rows at the start, the first with fitness (0, 0); every offspring gets (1, 1). *)
Definition flat_world : world Z (list Q) (list R) unit unit :=
  mkWorld (fun _ p _ => match p_ind p with Some (x :: l) => Ok [x + 1; x + 2]%Z | _ => Err TypeError end)
    (fun x => x) (fun _ _ rows => mkRes (map (fun _ => []) rows) (map (fun _ => [1; 1]%R) rows) None None) (fun _ _ _ => None) (fun _ p i => nsga3_select p i) (fun _ _ => Ok []) (fun _ _ => 0%Z) (fun _ => Ok []) (fun _ _ => []) (fun _ _ => []) (fun _ _ => Ok [])
    (fun _ _ => Ok None) (fun _ _ => Ok tt).
Definition flat_ops : list (op Z (list Q) (list R) unit unit) := [OpAdd (OBatch [1; 5]%Z) (mkRes [[]; []] [[0; 0]; [2; 2]]%R None None)].
Definition flat_cfg : cfg := mkCfg KDecomposition false false true 2 3 0.
Lemma flat_honest : honest 0 false flat_world.
Proof.
  intros k b rows. cbn [flat_world w_eval r_unc]. split; [|split; [intros H; exfalso; apply H; reflexivity|discriminate]].
  split; [cbn; now rewrite map_length|]. split; [cbn; now rewrite map_length|]. split; [reflexivity|exact Logic.I].
Qed.
Lemma flat_by_nsga3 : by_nsga3 2 flat_world.
Proof.
  intros k p fit E. cbn [flat_world w_select]. unfold nsga3_select. rewrite E. exists ref_fnds, (fun _ _ => None), (mkRng3 (fun t => t) (fun _ l => l)), [[1; 0]; [0; 1]]%R, (init3 [1; 1]%R 2 None).
  split; [exact ref_fnds_sorted|]. split; [intros t l; apply Permutation_refl|]. split; [discriminate|]. split; reflexivity.
Qed.
Lemma flat_smooth : smooth flat_world.
Proof. split; [|reflexivity]. constructor; [intros k p par x l E _; cbn [flat_world w_mate]; rewrite E; eauto|intros k p; exists None; reflexivity|reflexivity]. Qed.
Lemma flat_gens dom k s s' : ran dom flat_world flat_cfg k s s' -> (s_gen s' = s_gen s + 3 * Z.of_nat k)%Z.
Proof.
  intros H. induction H as [s|k s s1 s2 E _ IH]; [lia|]. destruct (C104_iterate_counts dom flat_world flat_cfg s s1 E) as (lg & _ & (_ & _ & A & _ & [B|B]) & _).
  - unfold flat_cfg in B at 1. cbn [c_n_gen_per_iter] in B. change (Z.max 0 3) with 3%Z in B. lia.
  - destruct B as [B _]. exfalso. apply B. reflexivity.
Qed.
Example ex_best_kept : forall k, let s := on_population 0 flat_ops in exists s', ran (fun _ _ => false) flat_world flat_cfg k s s' /\ (s_gen s' = 3 * Z.of_nat k)%Z /\
  exists is' os' fs', p_ind (s_pop s') = Some is' /\ p_obj (s_pop s') = Some os' /\ p_fit (s_pop s') = Some fs' /\ In (1%Z, [], [0; 0]%R) (table is' os' fs').
Proof.
  intros k s. assert (Hc : constructed flat_world flat_cfg 0 false flat_ops s).
  { right. split; [reflexivity|]. split; [|split; [discriminate|intros _; constructor; [reflexivity|constructor]]]. constructor; [|constructor].
    split; [discriminate|]. split; [reflexivity|]. split; [reflexivity|]. split; [reflexivity|exact Logic.I]. }
  destruct (C110_nsga3_runs_on Z (list Q) unit unit (fun _ _ => false) flat_world flat_cfg 0 false flat_ops s [] [1; 5]%Z 2 flat_honest flat_smooth flat_by_nsga3 eq_refl Hc eq_refl
    ltac:(split; [intros H; exfalso; apply H; reflexivity|discriminate]) ltac:(discriminate) ltac:(cbn; lia) k) as (s' & is' & Hr & _).
  cbn [session fold_left] in Hr. exists s'. split; [exact Hr|]. split; [rewrite (flat_gens _ _ _ _ Hr); reflexivity|].
  destruct (C117_best_kept_while_they_fit (fun _ _ => false) flat_world flat_cfg 0 false 2 flat_ops s [] [1; 5]%Z [[]; []] [[0; 0]; [2; 2]]%R k s' flat_honest flat_by_nsga3 eq_refl Hc
    ltac:(discriminate) eq_refl eq_refl eq_refl ltac:(split; [intros H; exfalso; apply H; reflexivity|discriminate]) ltac:(cbn; lia) Hr) as (lg & is1 & os1 & fs1 & _ & Han & E1 & E2 & E3 & K).
  exists is1, os1, fs1. split; [exact E1|]. split; [exact E2|]. split; [exact E3|].
  assert (Late : forall l, incl l lg -> forall r, In r (flat_map batch l) -> snd r = [1; 1]%R).
  { intros l Hl r Hin. apply in_flat_map in Hin as ([[b rows] q] & H1 & H2). apply Hl in H1. destruct (Han b rows q H1) as (kk & ->). unfold batch in H2. cbn [fst snd] in H2.
    apply in_map_iff in H2 as (m & <- & Hm). cbn [snd]. destruct (flat_honest kk b rows) as [G _]. destruct (members_of_proj _ _ _ G) as (_ & _ & P & _).
    assert (X : In (m_fit m) (map m_fit (members_of rows (w_eval flat_world kk b rows)))) by (apply in_map; exact Hm). rewrite P in X. cbn [flat_world w_eval r_fit] in X. apply in_map_iff in X as (? & X & _). symmetry. exact X. }
  assert (D1 : rdominates [0; 0]%R [1; 1]%R) by (split; [repeat constructor; lra|exists 0, 0%R, 1%R; split; [reflexivity|]; split; [reflexivity|lra]]).
  assert (D2 : rdominates [0; 0]%R [2; 2]%R) by (split; [repeat constructor; lra|exists 0, 0%R, 2%R; split; [reflexivity|]; split; [reflexivity|lra]]).
  apply K.
  - intros l1 l2 El js Nj Hj. assert (Z0 : forall j, In j js -> j = 0).
    { intros j J. destruct (Hj j J) as (x & Hx & Hb). destruct j as [|[|j]]; [reflexivity| |]; exfalso.
      - cbn in Hx. injection Hx as <-. apply (Hb (1%Z, [], [0; 0]%R)); [left; reflexivity|exact D2].
      - cbn [table combine app nth_error] in Hx. apply nth_error_In in Hx. apply (Hb (1%Z, [], [0; 0]%R)); [left; reflexivity|]. cbn [snd].
        rewrite (Late l1) by first [exact Hx | intros a Ha; rewrite El; apply in_or_app; left; exact Ha]. exact D1. }
    destruct js as [|a [|b js]]; [cbn; lia|cbn; lia|]. exfalso. inversion Nj as [|? ? N1 _]; subst. apply N1. left. rewrite (Z0 a), (Z0 b); [reflexivity|right; left; reflexivity|left; reflexivity].
  - left. reflexivity.
  - intros q Hq D. cbn [snd] in D. apply in_app_or in Hq as [Hq|Hq].
    + destruct Hq as [<-|[<-|[]]]; cbn [snd] in D; [apply (rdominates_irrefl _ D)|]. destruct D as [D _]. inversion D; subst. lra.
    + rewrite (Late lg (incl_refl lg) q Hq) in D. destruct D as [D _]. inversion D; subst. lra.
Qed.

(** ** C117 fails once the best do not fit. *)
Definition cyc_rng : rng3 := mkRng3 (fun _ => 0) (fun _ l => rev l).
Definition no_plane : list (list R) -> list R -> option (list R) := fun _ _ => None.
Lemma two_fronts (p q : list R) : ~ rdominates p q -> ~ rdominates q p -> ref_fnds [p; q] = [[0; 1]].
Proof.
  intros N1 N2. unfold ref_fnds. cbn [length seq].
  assert (Un : forall i, i < 2 -> undominated (row_dom [p; q]) (row_dom_dec [p; q]) [0; 1] i = true).
  { intros i Hi. apply undominated_spec. intros j Hj (a & b & Ha & Hb & D). destruct Hj as [<-|[<-|[]]]; destruct i as [|[|i]]; try lia; cbn in Ha, Hb; injection Ha as <-; injection Hb as <-;
      [apply (rdominates_irrefl _ D)|exact (N1 D)|exact (N2 D)|apply (rdominates_irrefl _ D)]. }
  cbn [peel filter]. rewrite (Un 0), (Un 1) by lia. reflexivity.
Qed.
(** Two incomparable rows, room for one, one direction: the second row is chosen if it is not farther from the direction. *)
Lemma choose_second p q s u : ~ rdominates p q -> ~ rdominates q p -> n3 s = Some 1 ->
  let ideal := vmin (i3 s) (vmin p q) in let worst := match w3 s with None => vmax p q | Some x => vmax x (vmax p q) end in
  let ext := extreme_points [p; q] ideal (e3 s) in let nadir := nadir_point no_plane ext ideal worst (vmax p q) (vmax p q) in
  (perp_dist (normalise ideal nadir q) u <= perp_dist (normalise ideal nadir p) u)%R ->
  nsga3_do ref_fnds no_plane cyc_rng [u] s [p; q] = Ok (mkSt3 ideal (Some worst) (Some ext) (Some 1), [1]).
Proof.
  intros N1 N2 Hn ideal worst ext nadir Hd. unfold nsga3_do. rewrite two_fronts by assumption. cbn [colmin colmax fold_left map row nth]. rewrite Hn. fold ideal. fold worst. fold ext. fold nadir.
  unfold survive. cbn [cut_fronts app concat length Nat.ltb Nat.leb]. cbn [map]. unfold row. cbn [nth].
  assert (Nz : forall v, niche_of [u] v = 0) by reflexivity. rewrite !Nz. unfold niche_dist. rewrite !Nz. cbn [nth].
  revert Hd. generalize (perp_dist (normalise ideal nadir p) u) (perp_dist (normalise ideal nadir q) u). intros d0 d1 Hd.
  assert (Np : niching cyc_rng 1 [0; 0] [d0; d1] 1 0 [0] [true; true] = Ok [1]).
  { cbn [niching]. unfold niche_pick, available. cbn. destruct (Rlt_dec d0 d1) as [L|L]; [exfalso; lra|]. reflexivity. }
  match goal with |- context [niching ?a ?b ?c ?d ?e ?f ?g ?h] => change (niching a b c d e f g h) with (niching cyc_rng 1 [0; 0] [d0; d1] 1 0 [0] [true; true]) end. rewrite Np. reflexivity.
Qed.
Lemma no_plane_nadir ext i1 i2 worst x y v1 v2 : (1 / 1000000 < x - i1)%R -> (1 / 1000000 < y - i2)%R -> nadir_point no_plane ext [i1; i2] worst [x; y] [v1; v2] = [x; y].
Proof.
  intros Hx Hy. unfold nadir_point, no_plane. cbn [vmap2 combine fst snd]. destruct (Rle_dec (x - i1) (1 / 1000000)) as [L|_]; [exfalso; lra|]. destruct (Rle_dec (y - i2) (1 / 1000000)) as [L|_]; [exfalso; lra|]. reflexivity.
Qed.
Lemma diagonal_dist a b : perp_dist [a; b] [1; 1]%R = sqrt ((a - b) * (a - b) / 2).
Proof.
  unfold perp_dist, norm. cbn [dot map vsub vmap2]. assert (S2 : (sqrt (1 * 1 + (1 * 1 + 0)) * sqrt (1 * 1 + (1 * 1 + 0)) = 2)%R) by (rewrite sqrt_sqrt; lra).
  assert (P : (0 < sqrt (1 * 1 + (1 * 1 + 0)))%R) by (apply sqrt_lt_R0; lra). set (t := sqrt (1 * 1 + (1 * 1 + 0))) in *.
  assert (E : ((a * 1 + (b * 1 + 0)) / t * 1 / t = (a + b) / 2)%R) by (replace 2%R with (t * t)%R by exact S2; field; lra).
  rewrite !E. f_equal. field.
Qed.

(** With n_survive = 1, two selections in a row (the operator's state carried over): the best row (0, 2) is dropped for the equally unbeaten (2, 0), and this for the offspring (1, 3),
    which the dropped row beats; the survivor is beaten by a row that was in the population. *)
Theorem C117_best_lost_refuted : exists fnds solve rng dirs s0 s1 s2 (a b d : list R), fnds_contract fnds /\ shuffles rng /\ dirs <> [] /\ n3 s0 = Some 1 /\
  nsga3_do fnds solve rng dirs s0 [a; b] = Ok (s1, [1]) /\ nsga3_do fnds solve rng dirs s1 [b; d] = Ok (s2, [1]) /\
  rdominates a d /\ ~ rdominates b d /\ (forall x, In x [a; b; d] -> ~ rdominates x a).
Proof.
  set (a := [0; 2]%R). set (b := [2; 0]%R). set (d := [1; 3]%R).
  assert (Nab : ~ rdominates a b) by (intros [D _]; inversion D as [|? ? ? ? _ D2]; subst; inversion D2; subst; lra).
  assert (Nba : ~ rdominates b a) by (intros [D _]; inversion D; subst; lra).
  assert (Nbd : ~ rdominates b d) by (intros [D _]; inversion D; subst; lra).
  assert (Ndb : ~ rdominates d b) by (intros [D _]; inversion D as [|? ? ? ? _ D2]; subst; inversion D2; subst; lra).
  assert (Nda : ~ rdominates d a) by (intros [D _]; inversion D; subst; lra).
  assert (I0 : vmin (vmin a a) (vmin a b) = [0; 0]%R).
  { unfold a, b. cbn [vmin vmap2]. unfold vmin. cbn [vmap2]. f_equal; [|f_equal]; unfold Rmin; repeat destruct Rle_dec; lra. }
  assert (I1 : vmin [0; 0]%R (vmin b d) = [0; 0]%R).
  { unfold b, d, vmin. cbn [vmap2]. f_equal; [|f_equal]; unfold Rmin; repeat destruct Rle_dec; lra. }
  assert (W0 : vmax a b = [2; 2]%R) by (unfold a, b, vmax; cbn [vmap2]; f_equal; [|f_equal]; unfold Rmax; repeat destruct Rle_dec; lra).
  assert (W1 : vmax b d = [2; 3]%R) by (unfold b, d, vmax; cbn [vmap2]; f_equal; [|f_equal]; unfold Rmax; repeat destruct Rle_dec; lra).
  assert (Nm : forall x y f1 f2, (0 < x)%R -> (0 < y)%R -> normalise [0; 0]%R [x; y] [f1; f2] = [f1 / x; f2 / y]%R).
  { intros x y f1 f2 Hx Hy. unfold normalise, vsub. cbn [vmap2 map]. destruct (Req_EM_T (x - 0) 0) as [E|_]; [exfalso; lra|]. destruct (Req_EM_T (y - 0) 0) as [E|_]; [exfalso; lra|]. f_equal; [field; lra|]. f_equal. field. lra. }
  set (s0 := init3 (vmin a a) 1 None).
  pose proof (choose_second a b s0 [1; 1]%R Nab Nba eq_refl) as C1. cbv zeta in C1. change (i3 s0) with (vmin a a) in C1. rewrite I0, W0 in C1.
  rewrite no_plane_nadir in C1 by lra.
  assert (H1 : (perp_dist (normalise [0; 0] [2; 2] b) [1; 1] <= perp_dist (normalise [0; 0] [2; 2] a) [1; 1])%R) by (unfold a, b; rewrite !Nm, !diagonal_dist by lra; apply sqrt_le_1_alt; lra). specialize (C1 H1).
  match type of C1 with _ = Ok (?s1, _) => set (s1' := s1) in * end.
  pose proof (choose_second b d s1' [1; 1]%R Nbd Ndb eq_refl) as C2. cbv zeta in C2. change (i3 s1') with [0; 0]%R in C2. rewrite I1, W1 in C2.
  rewrite no_plane_nadir in C2 by lra.
  assert (H2 : (perp_dist (normalise [0; 0] [2; 3] d) [1; 1] <= perp_dist (normalise [0; 0] [2; 3] b) [1; 1])%R) by (unfold b, d; rewrite !Nm, !diagonal_dist by lra; apply sqrt_le_1_alt; lra). specialize (C2 H2).
  eexists ref_fnds, no_plane, cyc_rng, [[1; 1]%R], s0, s1', _, a, b, d. split; [exact ref_fnds_sorted|]. split; [intros t l; apply Permutation_sym, Permutation_rev|]. split; [discriminate|]. split; [reflexivity|].
  split; [exact C1|]. split; [exact C2|]. split; [|split; [exact Nbd|]].
  - split; [repeat constructor; lra|]. exists 0, 0%R, 1%R. split; [reflexivity|]. split; [reflexivity|lra].
  - intros x [<-|[<-|[<-|[]]]]; [apply rdominates_irrefl|exact Nba|exact Nda].
Qed.
Print Assumptions C117_best_lost_refuted.
