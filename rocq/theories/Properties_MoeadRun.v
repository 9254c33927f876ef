(** C119, C120: MOEA/D over whole runs. *)
From Verif Require Import Base M_MOEAD P_MOEAD Properties_MOEAD M_MoeadRun P_MoeadRun.
From Coq Require Import QArith Qabs Permutation Sorted.
Open Scope nat_scope.

Definition sums (l : list nat) : nat := fold_right Nat.add 0 l.
(** Rows of weights as the lattice has them: they sum to 1 (and are written in lowest terms). *)
Definition weights (vectors : list (list Q)) : Prop := forall v, In v vectors -> (qsum v == 1)%Q /\ forall x, In x v -> Qred x = x.
Lemma weights_normal vectors : weights vectors -> Forall normal_row vectors.
Proof. intros H. apply Forall_forall. intros v Hv. destruct (H v Hv). split; auto. apply Forall_forall; auto. Qed.

(** C119. Adapting the reference vectors to the population, however often, leaves MOEA/D's subproblems and neighbourhoods as they were constructed. *)
Theorem C119_adaptation_keeps_the_subproblems : forall argsort vectors n_obj n_neighbors k, weights vectors ->
  let o := Nat.iter k (mop_adapt argsort) (mop_new argsort vectors n_obj n_neighbors) in mo_planar o = vectors /\ mo_nbs o = nbs_of argsort vectors n_neighbors.
Proof.
  intros argsort vectors n_obj nn k Hw. cbv zeta. assert (X : mo_planar (Nat.iter k (mop_adapt argsort) (mop_new argsort vectors n_obj nn)) = vectors /\ mo_nbs (Nat.iter k (mop_adapt argsort) (mop_new argsort vectors n_obj nn)) = nbs_of argsort vectors nn /\ mo_nn (Nat.iter k (mop_adapt argsort) (mop_new argsort vectors n_obj nn)) = nn); [|tauto].
  induction k as [|k (I1 & I2 & I3)]; [cbn; auto|]. cbn [Nat.iter nat_rect]. change (nat_rect _ _ _ k) with (Nat.iter k (mop_adapt argsort) (mop_new argsort vectors n_obj nn)).
  destruct (adapt_fixed argsort (Nat.iter k (mop_adapt argsort) (mop_new argsort vectors n_obj nn))) as (A & B & C & _); [rewrite I1; apply weights_normal; auto|rewrite I1, I2, I3; reflexivity|]. rewrite A, B, C. auto.
Qed.

Section T.
Context (argsort : list Q -> list nat).
Context {M : Type} (fitness : M -> list Q) (SF : list Q -> list Q -> list Q -> Q).
Context (pick : nat -> nat -> nat -> nat * nat) (offspring : nat -> nat -> M -> M -> list M -> M) (new_ideal : list Q -> M -> list Q).
Notation run := (mr_run argsort fitness SF pick offspring new_ideal).
Notation iterate := (mr_iterate argsort fitness SF pick offspring new_ideal).

(** C119. A whole run without preferences, any number of iterations of any number of generations: if the ideal point is at the end where it was at the start, then the member of every
    subproblem is at the end at least as good for it as the member at the start, and as every solution tried by the subproblems in whose neighbourhood it is. Every generation tries one
    solution per subproblem, in order; the population keeps its size. *)
Theorem C119_run_never_worsens : forall interact pop_size vectors n_obj n_neighbors ks (s s' : mrun M),
  weights vectors ->
  (forall z off, Forall2 Qle (new_ideal z off) z /\ (Forall2 Qle z (new_ideal z off) -> new_ideal z off = z)) ->
  mr_op s = mop_new argsort vectors n_obj n_neighbors ->
  run interact pop_size (map (fun k => (None, k)) ks) s = Ok s' -> Forall2 Qle (mr_ideal s) (mr_ideal s') ->
  length (mr_pop s') = length (mr_pop s) /\ mr_ideal s' = mr_ideal s /\
  exists new, mr_tried s' = mr_tried s ++ new /\ map fst new = concat (repeat (seq 0 pop_size) (sums ks)) /\
  forall j w m', nth_error vectors j = Some w -> nth_error (mr_pop s') j = Some m' ->
    let value m := SF (fitness m) (fix_weights w) (mr_ideal s) in
    (forall m, nth_error (mr_pop s) j = Some m -> (value m' <= value m)%Q) /\
    (forall i x nb, In (i, x) new -> nth_error (nbs_of argsort vectors n_neighbors) i = Some nb -> In j nb -> (value m' <= value x)%Q).
Proof.
  intros interact ps vectors nobj nn ks s s' Hw HL Hop Hrun Hid. set (z := mr_ideal s) in *.
  assert (Op : forall o, mo_planar o = vectors -> mo_nbs o = nbs_of argsort vectors nn -> mo_nn o = nn -> mo_planar (mop_adapt argsort o) = vectors /\ mo_nbs (mop_adapt argsort o) = nbs_of argsort vectors nn /\ mo_nn (mop_adapt argsort o) = nn).
  { intros o A B C. destruct (adapt_fixed argsort o) as (A' & B' & C' & _); [rewrite A; apply weights_normal; auto|rewrite A, B, C; reflexivity|]. rewrite A', B', C'. auto. }
  assert (Main : forall ks s1, run interact ps (map (fun k => (None, k)) ks) s1 = Ok s' -> good fitness SF vectors (nbs_of argsort vectors nn) z (mr_pop s) (mr_tried s) s1 -> mo_nn (mr_op s1) = nn ->
    good fitness SF vectors (nbs_of argsort vectors nn) z (mr_pop s) (mr_tried s) s' /\ map fst (mr_tried s') = map fst (mr_tried s1) ++ concat (repeat (seq 0 ps) (sums ks))).
  { clear ks Hrun. induction ks as [|k ks IH]; intros s1 H G N; cbn [map mr_run] in H; [injection H as <-; cbn; rewrite app_nil_r; auto|].
    unfold mr_iterate in H. set (o' := if interact then mop_adapt argsort (mr_op s1) else mop_adapt argsort (mop_adapt argsort (mr_op s1))).
    replace (if interact then Ok (mop_adapt argsort (mr_op s1)) else Ok (mop_adapt argsort (mop_adapt argsort (mr_op s1)))) with (@Ok mop o') in H by (unfold o'; destruct interact; reflexivity). cbn [bind] in H.
    destruct (mr_gens_loop _ _ _ _ _ ps k _) as [s2|e] eqn:E; cbn [bind] in H; [|discriminate].
    destruct G as (G1 & G2 & G3). assert (O' : mo_planar o' = vectors /\ mo_nbs o' = nbs_of argsort vectors nn /\ mo_nn o' = nn).
    { unfold o'. destruct interact; [apply Op; auto|]. destruct (Op _ G1 G2 N) as (Q1 & Q2 & Q3). apply Op; auto. }
    destruct O' as (O1 & O2 & O3).
    assert (Low : Forall2 Qle z (mr_ideal s2)).
    { assert (X : forall ks s1, run interact ps (map (fun k => (None, k)) ks) s1 = Ok s' -> Forall2 Qle (mr_ideal s') (mr_ideal s1)).
      { clear - HL. induction ks as [|k ks IH]; intros s1 H; cbn [map mr_run] in H; [injection H as <-; apply below_refl|]. unfold mr_iterate in H. destruct (if interact then _ else _) as [o|]; cbn [bind] in H; [|discriminate].
        destruct (mr_gens_loop _ _ _ _ _ ps k _) as [s2|e] eqn:E; cbn [bind] in H; [|discriminate]. eapply below_trans; [apply (IH _ H)|]. apply gens_lower in E; auto. apply E. }
      eapply below_trans; [exact Hid|apply (X ks s2 H)]. }
    assert (G' : good fitness SF vectors (nbs_of argsort vectors nn) z (mr_pop s) (mr_tried s) s2).
    { eapply gens_good; [exact HL|exact E|exact Low|]. unfold good. cbn [mr_op mr_ideal mr_pop mr_tried]. auto. }
    pose proof (gens_lower _ _ _ _ _ k ps HL _ _ E) as (_ & Eo & _ & _). cbn [mr_op] in Eo.
    destruct (IH s2 H G') as [I1 I2]; [congruence|]. split; [exact I1|]. rewrite I2, (gens_log _ _ _ _ _ _ _ _ _ E). cbn [mr_tried sums fold_right]. rewrite repeat_app, concat_app, app_assoc. reflexivity. }
  assert (G0 : good fitness SF vectors (nbs_of argsort vectors nn) z (mr_pop s) (mr_tried s) s).
  { unfold good. rewrite Hop. cbn [mop_new mo_planar mo_nbs]. split; [auto|]. split; [auto|]. split; [auto|]. split; [auto|]. exists []. rewrite app_nil_r. split; [auto|]. intros j m _ Hm. split; [intros m0 H0; assert (m = m0) by congruence; subst; apply Qle_refl|intros i x nb []]. }
  destruct (Main ks s Hrun G0) as [(_ & _ & F3 & F4 & new & F5 & F6) F7]; [rewrite Hop; reflexivity|].
  split; [exact F4|]. split; [exact F3|]. exists new. split; [exact F5|]. split.
  - rewrite F5, map_app in F7. apply app_inv_head in F7. exact F7.
  - intros j w m' Hj Hm. assert (Lt : j < length vectors) by (apply nth_error_Some; congruence). destruct (F6 j m' Lt Hm) as [F8 F9]. unfold score in F8, F9. rewrite (nth_error_nth _ _ [] Hj) in F8, F9. cbv zeta. auto.
Qed.

(** C120. What becomes of an answered preference.
    (partial) With one population member per vector, a reference point or preferred solutions are followed without raising: the subproblems' weights become the initial ones shrunk towards the
    point, resp. towards the first of the solutions; the population keeps its size. *)
Lemma planar_shift o' (o : mop) : mo_planar (mop_edges o') = map planar_row (mo_planar o' ++ qeye (mo_nobj o')).
Proof. reflexivity. Qed.
Theorem C120_answer_is_followed_partial : forall vectors n_obj n_neighbors k a (s : mrun M),
  (forall keys, sorts keys (argsort keys)) -> (forall g i n, 2 <= n -> fst (pick g i n) < n /\ snd (pick g i n) < n) ->
  2 <= n_neighbors -> 2 <= length vectors -> length (mr_pop s) = length vectors -> mr_op s = mop_new argsort vectors n_obj n_neighbors ->
  (exists d, a = APoint d) \/ (exists z zs n, a = ASolutions (z :: zs) n) ->
  exists s', iterate true (length vectors) (Some a) k s = Ok s' /\ length (mr_pop s') = length (mr_pop s) /\
    forall j v, nth_error vectors j = Some v ->
      let shrunk d := zip2 (fun x y => (1 # 5) * x + (4 # 5) * y)%Q v d in let all_one u := planar_row (planar_row u) in
      nth_error (mo_planar (mr_op s')) j = Some (match a with
        | APoint d => all_one (shrunk d)
        | ASolutions (z :: zs) n => if Nat.eqb (S (length zs)) n then all_one v else all_one (shrunk z)
        | _ => [] end).
Proof.
  intros vectors nobj nn k a s Hsort Hpick Hnn Hn Hpop Hop Ha. unfold mr_iterate. rewrite Hop.
  assert (V : exists p r, mop_vectors a (mop_new argsort vectors nobj nn) = Ok (mop_set (mop_new argsort vectors nobj nn) p r) /\ length vectors <= length p /\
    forall j v, nth_error vectors j = Some v -> nth_error p j = Some (match a with APoint d => planar_row (zip2 (fun x y => (1 # 5) * x + (4 # 5) * y)%Q v d)
       | ASolutions (z :: zs) n => if Nat.eqb (S (length zs)) n then planar_row v else planar_row (zip2 (fun x y => (1 # 5) * x + (4 # 5) * y)%Q v z) | _ => [] end)).
  { destruct Ha as [(d & ->)|(z & zs & n & ->)]; cbn [mop_vectors mop_new mo_init].
    - exists (map planar_row (shifted d vectors)), (length vectors). split; [reflexivity|]. split; [unfold shifted; rewrite !map_length; lia|]. intros j v Hj. unfold shifted. rewrite map_map, nth_error_map, Hj. reflexivity.
    - cbn [length]. destruct (Nat.eqb (S (length zs)) n).
      + exists (map planar_row vectors), (length vectors). split; [reflexivity|]. split; [rewrite map_length; lia|]. intros j v Hj. rewrite nth_error_map, Hj. reflexivity.
      + cbn [Nat.eqb]. eexists _, _. split; [reflexivity|]. cbn [flat_map]. rewrite map_app. split; [rewrite app_length; unfold shifted; rewrite !map_length; lia|].
        intros j v Hj. assert (j < length vectors) by (apply nth_error_Some; congruence). rewrite nth_error_app1 by (unfold shifted; rewrite !map_length; lia). unfold shifted. rewrite map_map, nth_error_map, Hj. reflexivity. }
  destruct V as (p & r & V1 & V2 & V3). unfold mop_answer. rewrite V1. cbn [bind]. set (o' := mop_edges _).
  assert (Pl : forall j v, nth_error vectors j = Some v -> nth_error (mo_planar o') j = option_map planar_row (nth_error p j)).
  { intros j v Hj. assert (j < length vectors) by (apply nth_error_Some; congruence). unfold o', mop_edges. cbn [mop_set mo_planar]. rewrite nth_error_map, nth_error_app1 by lia. reflexivity. }
  destruct (gens_total fitness SF pick offspring new_ideal (length vectors) k Hpick (mkMRun o' (mr_ideal s) (mr_pop s) (mr_gens s) (mr_tried s))) as (s' & E1 & E2 & E3).
  - intros i Hi. cbn [mr_op mr_pop]. change (mo_nbs o') with (nbs_of argsort vectors nn). destruct (C72_nearest_vectors argsort (fun i j => sqdist (nth i vectors []) (nth j vectors [])) (length vectors) nn i Hsort Hi) as (nb & N1 & N2 & _ & N4 & _).
    exists nb. split; [exact N1|]. split; [lia|]. intros j Hj. pose proof (N4 j Hj). rewrite Hpop. split; [|assumption]. unfold o', mop_edges. cbn [mop_set mo_planar]. rewrite map_length, app_length. lia.
  - exists s'. split; [exact E1|]. split; [exact E3|]. intros j v Hj. cbv zeta. rewrite E2. cbn [mr_op]. rewrite (Pl j v Hj), (V3 j v Hj). cbn [option_map]. f_equal. destruct Ha as [(d & ->)|(z & zs & n & ->)]; [reflexivity|]. destruct (Nat.eqb (S (length zs)) n); reflexivity.
Qed.

(** C120 (false of the code). "Every preferred solution is taken into account": all but the first are ignored. An iteration told of several preferred solutions does exactly what it would
    have done had only the first been named (as long as the neighbourhoods are those of the constructor, see below). *)
Lemma agree_first (o : mop) z zs n ok o1 : (forall nb, In nb (mo_nbs o) -> forall j, In j nb -> j < length (mo_init o)) ->
  S (length zs) <> n -> 1 <> n -> mop_answer (ASolutions (z :: zs) n) o = Ok ok -> mop_answer (ASolutions [z] n) o = Ok o1 -> agree ok o1.
Proof.
  intros R H1 H2 A B. unfold mop_answer, mop_vectors in A, B. cbn [length] in A, B. apply Nat.eqb_neq in H1, H2. rewrite H1 in A. rewrite H2 in B. cbn [Nat.eqb bind] in A, B. injection A as <-. injection B as <-.
  split; [reflexivity|]. cbn [mop_edges mop_set mo_nbs mo_planar]. intros nb Hnb j Hj. pose proof (R nb Hnb j Hj) as Lt. cbn [flat_map]. rewrite !app_nil_r, !map_app.
  assert (L1 : length (map planar_row (map planar_row (shifted z (mo_init o)))) = length (mo_init o)) by (unfold shifted; rewrite !map_length; reflexivity).
  rewrite <- app_assoc. rewrite !nth_error_app1 by lia. reflexivity.
Qed.
Theorem C120_only_the_first_preferred_solution_refuted : forall pop_size k z zs n (s : mrun M),
  (forall nb, In nb (mo_nbs (mr_op s)) -> forall j, In j nb -> j < length (mo_init (mr_op s))) -> S (length zs) <> n -> 1 <> n ->
  match iterate true pop_size (Some (ASolutions (z :: zs) n)) k s, iterate true pop_size (Some (ASolutions [z] n)) k s with
  | Ok t, Ok t' => mr_pop t = mr_pop t' /\ mr_ideal t = mr_ideal t' /\ mr_tried t = mr_tried t'
  | Err e, Err e' => e = e'
  | _, _ => False
  end.
Proof.
  intros ps k z zs n s R H1 H2. unfold mr_iterate.
  assert (X : exists ok, mop_answer (ASolutions (z :: zs) n) (mr_op s) = Ok ok). { unfold mop_answer, mop_vectors. cbn [length]. pose proof H1 as H1'. apply Nat.eqb_neq in H1'. rewrite H1'. cbn. eauto. }
  assert (Y : exists o1, mop_answer (ASolutions [z] n) (mr_op s) = Ok o1). { unfold mop_answer, mop_vectors. cbn [length]. pose proof H2 as H2'. apply Nat.eqb_neq in H2'. rewrite H2'. cbn. eauto. }
  destruct X as (ok & X). destruct Y as (o1 & Y). pose proof (agree_first (mr_op s) z zs n ok o1 R H1 H2 X Y) as A. rewrite X, Y. cbn [bind].
  pose proof (gens_same fitness SF pick offspring new_ideal ps k (mkMRun ok (mr_ideal s) (mr_pop s) (mr_gens s) (mr_tried s)) (mkMRun o1 (mr_ideal s) (mr_pop s) (mr_gens s) (mr_tried s)) A) as G.
  specialize (G (conj eq_refl (conj eq_refl (conj eq_refl eq_refl)))). destruct (mr_gens_loop _ _ _ _ _ _ _ (mkMRun ok _ _ _ _)) as [t|e], (mr_gens_loop _ _ _ _ _ _ _ (mkMRun o1 _ _ _ _)) as [t'|e']; cbn [same_res] in G; auto. destruct G as (G1 & G2 & G3 & G4). auto.
Qed.
(** The neighbourhoods stay those of the constructor whatever is answered. *)
Theorem C120_answers_keep_the_neighbourhoods : forall vectors n_obj n_neighbors (answers : list answer) o, (forall keys, sorts keys (argsort keys)) ->
  fold_left (fun r a => bind r (mop_answer a)) answers (Ok (mop_new argsort vectors n_obj n_neighbors)) = Ok o ->
  mo_nbs o = nbs_of argsort vectors n_neighbors /\ mo_init o = vectors /\ forall nb, In nb (mo_nbs o) -> forall j, In j nb -> j < length (mo_init o).
Proof.
  intros vectors nobj nn answers o Hsort H.
  assert (X : forall answers o0 o, fold_left (fun r a => bind r (mop_answer a)) answers (Ok o0) = Ok o -> mo_nbs o = mo_nbs o0 /\ mo_init o = mo_init o0).
  { clear. induction answers as [|a t IH]; intros o0 o H; cbn [fold_left] in H; [injection H as <-; auto|]. cbn [bind] in H. destruct (mop_answer a o0) as [o1|e] eqn:E.
    - apply IH in H. unfold mop_answer in E. destruct (mop_vectors a o0) as [o2|e] eqn:V; cbn [bind] in E; [|discriminate]. injection E as <-. cbn [mop_edges mop_set mo_nbs mo_init] in H.
      assert (mo_nbs o2 = mo_nbs o0 /\ mo_init o2 = mo_init o0) as [B1 B2].
      { unfold mop_vectors in V. destruct a as [d|z n|z n|w]; [injection V as <-; auto| | |injection V as <-; auto].
        - destruct (Nat.eqb (length z) n); [injection V as <-; auto|]. destruct (Nat.eqb (length z) 0); [discriminate|injection V as <-; auto].
        - destruct (Nat.eqb (length z) n); [injection V as <-; auto|]. destruct (negb _); [discriminate|injection V as <-; auto]. }
      split; [rewrite <- B1; apply H|rewrite <- B2; apply H].
    - exfalso. clear - H. induction t as [|b t IH]; cbn [fold_left bind] in H; [discriminate|auto]. }
  destruct (X _ _ _ H) as [X1 X2]. cbn [mop_new mo_nbs mo_init] in X1, X2. split; [exact X1|]. split; [exact X2|]. intros nb Hnb j Hj. rewrite X1 in Hnb. rewrite X2.
  destruct (In_nth_error _ _ Hnb) as [i Hi]. assert (Li : i < length vectors).
  { assert (i < length (nbs_of argsort vectors nn)) as L by (apply nth_error_Some; congruence). unfold nbs_of, neighborhoods_of in L. rewrite map_length, seq_length in L. exact L. }
  destruct (C72_nearest_vectors argsort (fun i j => sqdist (nth i vectors []) (nth j vectors [])) (length vectors) nn i Hsort Li) as (nb' & N1 & _ & _ & N4 & _). change (neighborhoods_of _ _ _ _) with (nbs_of argsort vectors nn) in N1. assert (nb' = nb) by congruence. subst. auto.
Qed.

(** C120 (false of the code). "Non-preferred solutions only remove directions": when so many vectors are removed that, with the axis vectors added, fewer remain than before, every iteration
    that has a generation to run raises. *)
Theorem C120_non_preferred_breaks_refuted : forall vectors n_obj n_neighbors pop_size k z n (s : mrun M), (forall keys, sorts keys (argsort keys)) ->
  (forall i j, i < length vectors -> j < length vectors -> i <> j -> (0 < sqdist (nth i vectors []) (nth j vectors []))%Q) -> 1 <= n_neighbors -> length vectors <= pop_size ->
  mr_op s = mop_new argsort vectors n_obj n_neighbors -> length z <> n -> length (filter (far_enough z) vectors) + n_obj < length vectors ->
  exists e, iterate true pop_size (Some (ANonPreferred z n)) (S k) s = Err e.
Proof.
  intros vectors nobj nn ps k z n s Hsort Hd Hnn Hps Hop Hz Hl. unfold mr_iterate. rewrite Hop. unfold mop_answer, mop_vectors. apply Nat.eqb_neq in Hz. rewrite Hz. cbn [mop_new mo_planar mo_rows]. rewrite Nat.eqb_refl. cbn [negb]. cbv zeta. cbn [bind].
  set (o' := mop_edges _). destruct (mr_gens_loop _ _ _ _ _ ps (S k) _) as [t|e] eqn:E; [|eauto]. exfalso. cbn [mr_gens_loop] in E. unfold mr_gen in E.
  destruct (mr_subproblems _ _ _ _ _ _ _) as [s1|e] eqn:E1; cbn [bind] in E; [|discriminate].
  assert (Hi : length vectors - 1 < length vectors) by lia.
  destruct (subs_needs fitness SF pick offspring new_ideal _ _ _ E1 (length vectors - 1)) as (nb & N1 & N2); [apply in_seq; lia|]. cbn [mr_op] in N1, N2. change (mo_nbs o') with (nbs_of argsort vectors nn) in N1.
  assert (Sq : forall v, (sqdist v v == 0)%Q). { clear. induction v as [|x v IH]; unfold sqdist in *; cbn [zip2 qsum fold_right]; [reflexivity|]. unfold qsum in IH. rewrite IH. ring. }
  destruct (C72_contains_itself argsort (fun i j => sqdist (nth i vectors []) (nth j vectors [])) (length vectors) nn (length vectors - 1) Hsort Hi Hnn (Sq _)) as (nb' & N3 & N4).
  - intros j Hj Hjl. apply Hd; auto; lia.
  - change (neighborhoods_of _ _ _ _) with (nbs_of argsort vectors nn) in N3. assert (nb' = nb) by congruence. subst nb'. destruct (N2 _ N4) as [N5 _]. unfold o', mop_edges in N5. cbn [mop_set mo_planar mop_new mo_nobj] in N5. rewrite map_length, app_length in N5. unfold qeye in N5. rewrite map_length, seq_length in N5. lia.
Qed.
End T.

(** C120 (false of the code). "After answering, the search can go on without a preference": the vectors now include the axes, so the neighbourhoods are recomputed over more vectors than
    there are members, and the next iteration without a preference raises IndexError. Until then the neighbourhoods are not those of the vectors in use: subproblem 0 ignores vector 3,
    which equals its own. *)
Definition ex_vecs : list (list Q) := [[1; 0]; [1 # 2; 1 # 2]; [0; 1]]%Q.
Definition keep_ideal (z : list Q) (_ : list Q) : list Q := z.
Definition pick01 (_ _ _ : nat) : nat * nat := (0, 1).
Definition halve (_ _ : nat) (a b : list Q) (_ : list (list Q)) : list Q := map (fun p => Qred ((fst p + snd p) / 2)%Q) (combine a b).
Definition ex_start : mrun (list Q) := mkMRun (mop_new ref_argsort ex_vecs 2 2) [0; 0]%Q [[5; 0]; [3; 3]; [0; 4]]%Q 0 [].
Notation ex_run := (mr_run ref_argsort (fun m : list Q => m) tcheb pick01 halve keep_ideal).
Notation ex_iter := (mr_iterate ref_argsort (fun m : list Q => m) tcheb pick01 halve keep_ideal).
Theorem C120_no_preference_afterwards_refuted : exists a s', ex_iter true 3 (Some a) 1 ex_start = Ok s' /\ length (mr_pop s') = 3 /\ ex_iter true 3 None 1 s' = Err IndexError /\
  nth_error (mo_nbs (mr_op s')) 0 = Some [0; 1] /\ nth_error (mo_planar (mr_op s')) 3 = nth_error (mo_planar (mr_op s')) 0 /\ nth_error (mo_planar (mr_op s')) 1 <> nth_error (mo_planar (mr_op s')) 0.
Proof. exists (ASolutions [[20; 0]]%Q 3). eexists. split; [vm_compute; reflexivity|]. split; [reflexivity|]. split; [vm_compute; reflexivity|]. split; [reflexivity|]. split; [reflexivity|vm_compute; discriminate]. Qed.

Print Assumptions C119_adaptation_keeps_the_subproblems.
Print Assumptions C119_run_never_worsens.
Print Assumptions C120_answer_is_followed_partial.
Print Assumptions C120_only_the_first_preferred_solution_refuted.
Print Assumptions C120_answers_keep_the_neighbourhoods.
Print Assumptions C120_non_preferred_breaks_refuted.
Print Assumptions C120_no_preference_afterwards_refuted.

(** Non-vacuity. Two objectives, the lattice with three vectors, two neighbours each; members are their own objective vectors. *)
Example ex_weights : weights ex_vecs.
Proof. intros v [<-|[<-|[<-|[]]]]; (split; [vm_compute; reflexivity|intros x [<-|[<-|[]]]; reflexivity]). Qed.
Example ex_lowers : forall z (off : list Q), Forall2 Qle (keep_ideal z off) z /\ (Forall2 Qle z (keep_ideal z off) -> keep_ideal z off = z).
Proof. intros z off. split; [apply below_refl|reflexivity]. Qed.
Example ex_moves : exists s', ex_run true 3 (map (fun k => (None, k)) [1; 1]) ex_start = Ok s' /\ mr_pop s' <> mr_pop ex_start /\ length (mr_tried s') = 6.
Proof. eexists. split; [vm_compute; reflexivity|]. split; [vm_compute; discriminate|reflexivity]. Qed.
Example ex_distances : forall i j, i < length ex_vecs -> j < length ex_vecs -> i <> j -> (0 < sqdist (nth i ex_vecs []) (nth j ex_vecs []))%Q.
Proof. intros i j Hi Hj Hne. cbn in Hi, Hj. destruct i as [|[|[|i]]], j as [|[|[|j]]]; try lia; reflexivity. Qed.
Example ex_answer_ok : exists s', ex_iter true 3 (Some (APoint [3 # 5; 4 # 5]%Q)) 2 ex_start = Ok s' /\ mr_pop s' <> mr_pop ex_start.
Proof. eexists. split; [vm_compute; reflexivity|]. vm_compute. discriminate. Qed.
Definition ex_vecs6 : list (list Q) := [[1; 0]; [4 # 5; 1 # 5]; [3 # 5; 2 # 5]; [2 # 5; 3 # 5]; [1 # 5; 4 # 5]; [0; 1]]%Q.
Example ex_removed_too_many : length (filter (far_enough [[1; 0]; [1; 1]; [0; 1]]%Q) ex_vecs6) + 2 < length ex_vecs6.
Proof. vm_compute. lia. Qed.
