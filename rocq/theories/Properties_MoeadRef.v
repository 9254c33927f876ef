(** C119, C120: the planar vectors of [M_MoeadRun] (exact rationals) are those of the full model of the reference vectors [M_RefVec] (reals): every adaptation and every answered preference
    does the same to both. *)
From Verif Require Import Base RVec M_APD M_BaseEA M_Lattice M_MOEAD M_MoeadRun P_MoeadRun M_RefVec.
From Coq Require Import QArith Qreals Reals Lra Lia Qabs.
Open Scope R_scope.

Notation QR := (map (map Q2R)).
(** The same vectors in the two models. *)
Definition same_vectors (o : mop) (s : rv) : Prop :=
  planar s = QR (mo_planar o) /\ init_planar s = QR (mo_init o) /\ length (values s) = mo_rows o /\ length (init_values s) = length (mo_init o) /\ n_obj s = mo_nobj o.
(** The same answer in the two models; solutions and ranges as the decision maker sees them. *)
Definition same_answer (a : answer) (p : pref_action) : Prop :=
  match a, p with
  | APoint d, PrefPoint ref mult ideal => ref_direction ref mult ideal = map Q2R d
  | ASolutions z n, PrefSolutions z' n' => z' = QR z /\ n' = n
  | ANonPreferred z n, PrefNonPreferred z' n' => z' = QR z /\ n' = n
  | ARanges w, PrefRanges ranges w' => map (fun u => vmap2 (fun x r => x * (snd r - fst r) + fst r) u ranges) w' = QR w
  | _, _ => False
  end.
(** No division by zero (where numpy gives NaN and both models something arbitrary). *)
Definition nonzero_rows (rows : list (list Q)) : Prop := forall v, In v rows -> ~ (M_MoeadRun.qsum v == 0)%Q.
Definition no_division_by_zero (a : answer) (o : mop) : Prop :=
  match a with
  | APoint d => nonzero_rows (M_MoeadRun.shifted d (mo_init o))
  | ASolutions z n => nonzero_rows (mo_init o) /\ forall zi, In zi z -> nonzero_rows (M_MoeadRun.shifted zi (mo_init o))
  | ANonPreferred z n => nonzero_rows (mo_init o) /\ nonzero_rows (mo_planar o) /\ forall zi, In zi z -> ~ (M_MoeadRun.norm1 zi == 0)%Q
  | ARanges w => nonzero_rows w
  end.

Lemma q2r_sum v : Q2R (M_MoeadRun.qsum v) = rsum (map Q2R v).
Proof. induction v as [|x v IH]; cbn [M_MoeadRun.qsum fold_right map rsum]; [unfold Q2R; cbn; lra|]. unfold M_MoeadRun.qsum in IH. rewrite Q2R_plus, IH. reflexivity. Qed.
Lemma q2r_red x : Q2R (Qred x) = Q2R x.
Proof. apply Qeq_eqR, Qred_correct. Qed.
Lemma q2r_planar v : ~ (M_MoeadRun.qsum v == 0)%Q -> map Q2R (M_MoeadRun.planar_row v) = planar_row (map Q2R v).
Proof. intros H. unfold M_MoeadRun.planar_row, planar_row. rewrite !map_map. apply map_ext. intros x. rewrite q2r_red, Q2R_div by auto. rewrite q2r_sum. reflexivity. Qed.
Lemma q2r_planars rows : nonzero_rows rows -> QR (map M_MoeadRun.planar_row rows) = map planar_row (QR rows).
Proof. intros H. rewrite !map_map. apply map_ext_in. intros v Hv. apply q2r_planar; auto. Qed.
Lemma q15 : Q2R (1 # 5) = 2 / 10.
Proof. unfold Q2R; cbn; lra. Qed.
Lemma q45 : Q2R (4 # 5) = 1 - 2 / 10.
Proof. unfold Q2R; cbn; lra. Qed.
Lemma q2r_shift z v : map Q2R (zip2 (fun x y => (1 # 5) * x + (4 # 5) * y)%Q v z) = vadd (vscale (2/10) (map Q2R v)) (vscale (1 - 2/10) (map Q2R z)).
Proof.
  revert z. induction v as [|x v IH]; intros [|y z]; cbn [zip2 map]; try reflexivity. unfold vadd, vscale in *. cbn [map vmap2]. rewrite IH. f_equal.
  rewrite Q2R_plus, !Q2R_mult, q15, q45. reflexivity.
Qed.
Lemma q2r_shifted z rows : QR (M_MoeadRun.shifted z rows) = shifted (2/10) (map Q2R z) (QR rows).
Proof. unfold M_MoeadRun.shifted, shifted. rewrite !map_map. apply map_ext. intros v. apply q2r_shift. Qed.
Lemma q2r_shifteds z rows : QR (flat_map (fun zi => M_MoeadRun.shifted zi rows) z) = flat_map (fun zi => shifted (2/10) zi (QR rows)) (QR z).
Proof. induction z as [|a z IH]; cbn [flat_map map]; [reflexivity|]. rewrite map_app, IH, q2r_shifted. reflexivity. Qed.
Lemma q2r_sqdist a b : Q2R (sqdist a b) = dot (vsub (map Q2R a) (map Q2R b)) (vsub (map Q2R a) (map Q2R b)).
Proof.
  unfold sqdist, vsub. revert b. induction a as [|x a IH]; intros [|y b]; cbn [zip2 map vmap2 dot M_MoeadRun.qsum fold_right]; try (unfold Q2R; cbn; lra).
  specialize (IH b). unfold M_MoeadRun.qsum in IH. rewrite Q2R_plus, IH, Q2R_mult, Q2R_minus. reflexivity.
Qed.
Lemma q2r_abs x : Q2R (Qabs x) = Rabs (Q2R x).
Proof.
  assert (Z0 : Q2R 0 = 0) by (unfold Q2R; cbn; lra). destruct (Qlt_le_dec x 0) as [H|H].
  - rewrite (Qeq_eqR _ _ (Qabs_neg x (Qlt_le_weak _ _ H))), Q2R_opp. apply Qlt_Rlt in H. rewrite Z0 in H. rewrite Rabs_left; auto.
  - rewrite (Qeq_eqR _ _ (Qabs_pos x H)). apply Qle_Rle in H. rewrite Z0 in H. rewrite Rabs_right; lra.
Qed.
Lemma q2r_norm1 z : Q2R (M_MoeadRun.norm1 z) = norm1 (map Q2R z).
Proof. unfold M_MoeadRun.norm1, norm1. rewrite q2r_sum, !map_map. f_equal. apply map_ext. intros. apply q2r_abs. Qed.
Lemma dot_nonneg v : 0 <= dot v v.
Proof. induction v; cbn [dot]; [lra|nra]. Qed.
Lemma q2r_far z v : (forall zi, In zi z -> ~ (M_MoeadRun.norm1 zi == 0)%Q) -> far_enough (2/10) (QR z) (map Q2R v) = M_MoeadRun.far_enough z v.
Proof.
  intros H. unfold far_enough, M_MoeadRun.far_enough. induction z as [|a z IH]; cbn [map forallb]; [reflexivity|]. rewrite IH by (intros; apply H; right; auto). f_equal.
  assert (E : map (fun x => x / norm1 (map Q2R a)) (map Q2R a) = map Q2R (map (fun x => x / M_MoeadRun.norm1 a)%Q a)).
  { rewrite !map_map. apply map_ext. intros x. rewrite Q2R_div by (apply H; left; auto). rewrite q2r_norm1. reflexivity. }
  rewrite E. set (u := map (fun x => x / M_MoeadRun.norm1 a)%Q a). pose proof (q2r_sqdist u v) as D. unfold norm. rewrite <- D.
  assert (P : 0 <= Q2R (sqdist u v)) by (rewrite D; apply dot_nonneg). assert (Q25 : Q2R (1 # 25) = 2/10 * (2/10)) by (unfold Q2R; cbn; lra).
  destruct (Rle_dec _ _) as [L|L]; destruct (Qle_bool (1 # 25) (sqdist u v)) eqn:B; try reflexivity; exfalso.
  - assert (Bn : ~ (1 # 25 <= sqdist u v)%Q) by (rewrite <- Qle_bool_iff, B; discriminate). apply Bn, Rle_Qle. rewrite Q25, <- (sqrt_sqrt (Q2R (sqdist u v))) by auto. nra.
  - apply Qle_bool_iff, Qle_Rle in B. rewrite Q25 in B. apply L. rewrite <- (sqrt_square (2/10)) by lra. apply sqrt_le_1; lra.
Qed.
Lemma q2r_eye n : QR (qeye n) = eye n.
Proof. unfold qeye, eye. rewrite map_map. apply map_ext. intros i. unfold unit_vec. rewrite map_map. apply map_ext. intros j. destruct (Nat.eqb i j); unfold Q2R; cbn; lra. Qed.
Lemma qsum_eye i s k : (s <= i < s + k)%nat -> (M_MoeadRun.qsum (map (fun j => if Nat.eqb i j then 1%Q else 0%Q) (seq s k)) == 1)%Q.
Proof.
  assert (Z0 : forall k s, (i < s)%nat -> (M_MoeadRun.qsum (map (fun j => if Nat.eqb i j then 1%Q else 0%Q) (seq s k)) == 0)%Q).
  { clear. intros k. induction k as [|k' IH]; intros s' L; cbn [seq map M_MoeadRun.qsum fold_right]; [reflexivity|]. destruct (Nat.eqb_spec i s'); [lia|]. unfold M_MoeadRun.qsum in IH. rewrite IH by lia. reflexivity. }
  revert s. induction k as [|k IH]; intros s L; [lia|]. cbn [seq map M_MoeadRun.qsum fold_right]. destruct (Nat.eqb_spec i s).
  - unfold M_MoeadRun.qsum in Z0. rewrite Z0 by lia. reflexivity.
  - unfold M_MoeadRun.qsum in IH. rewrite IH by lia. reflexivity.
Qed.
Lemma eye_nonzero n : nonzero_rows (qeye n).
Proof. intros v Hv E. unfold qeye in Hv. apply in_map_iff in Hv as (i & <- & Hi). apply in_seq in Hi. rewrite qsum_eye in E by lia. discriminate. Qed.
Lemma planar_nonzero rows : nonzero_rows rows -> nonzero_rows (map M_MoeadRun.planar_row rows).
Proof. intros H v Hv E. apply in_map_iff in Hv as (u & <- & Hu). destruct (planar_row_is_normal u (H u Hu)) as [N _]. rewrite N in E. discriminate. Qed.
Lemma mask_filter {A B} (f : A -> bool) (g : B -> bool) (h : A -> B) l : (forall x, In x l -> g (h x) = f x) -> mask_sel (map g (map h l)) (map h l) = map h (filter f l).
Proof. induction l as [|x l IH]; intros H; cbn [map mask_sel filter]; [reflexivity|]. rewrite (H x) by (left; auto). destruct (f x); cbn [map]; rewrite IH; auto; intros; apply H; right; auto. Qed.
Lemma mask_count {A B} (f : A -> bool) l (r : list B) : length r = length l -> length (mask_sel (map f l) r) = length (filter f l).
Proof. revert r. induction l as [|x l IH]; intros [|b r] H; cbn [length] in H; try discriminate; cbn [map mask_sel filter]; [reflexivity|]. injection H as H. destruct (f x); cbn [length]; rewrite IH; auto. Qed.

(** C119. Adaptation does the same in both models. *)
Theorem C119_adaptation_refines : forall argsort o s fitness, same_vectors o s -> nonzero_rows (mo_planar o) -> fitness <> [] ->
  exists s', adapt s fitness = Ok s' /\ same_vectors (mop_adapt argsort o) s'.
Proof.
  intros argsort o s fitness (H1 & H2 & H3 & H4 & H5) NZ Hf. destruct fitness as [|f t]; [congruence|]. eexists. split; [reflexivity|].
  unfold same_vectors. cbn [normalize_rv set_rows planar init_planar values init_values n_obj mop_adapt mo_planar mo_init mo_rows mo_nobj].
  rewrite H1, q2r_planars by auto. split; [reflexivity|]. split; [auto|]. split; [rewrite !map_length; auto|]. auto.
Qed.

(** C120. An answered preference does the same in both models, and raises the same exception. *)
Theorem C120_answers_refine : forall a p o s, same_vectors o s -> same_answer a p -> no_division_by_zero a o ->
  match mop_answer a o, manage s p with Ok o', Ok s' => same_vectors o' s' | Err e, Err e' => e = e' | _, _ => False end.
Proof.
  intros a p o s (H1 & H2 & H3 & H4 & H5) A NZ.
  assert (Edges : forall o' s', same_vectors o' s' -> nonzero_rows (mo_planar o') -> same_vectors (mop_edges o') (add_edges s')).
  { intros o' s' (E1 & E2 & E3 & E4 & E5) N. unfold same_vectors. cbn [add_edges normalize_rv set_rows planar init_planar values init_values n_obj mop_edges mop_set mo_planar mo_init mo_rows mo_nobj].
    rewrite E1, E5, <- q2r_eye, <- map_app, q2r_planars. 2:{ intros v Hv. apply in_app_iff in Hv as [Hv|Hv]; [auto|]. apply (eye_nonzero _ v Hv). }
    split; [reflexivity|]. split; [auto|]. split; [|auto]. unfold qeye. rewrite !map_length, app_length, !map_length, seq_length. lia. }
  assert (Reset : nonzero_rows (mo_init o) -> same_vectors (mop_set o (map M_MoeadRun.planar_row (mo_init o)) (length (mo_init o))) (normalize_rv (set_rows s (init_values s) (init_planar s)))).
  { intros N. unfold same_vectors. cbn [normalize_rv set_rows planar init_planar values init_values n_obj mop_set mo_planar mo_init mo_rows mo_nobj]. rewrite H2, q2r_planars by auto. rewrite map_length. auto. }
  unfold mop_answer, manage. destruct a as [d|z n|z n|w], p as [ref mult ideal|z' n'|z' n'|ranges w']; cbn [same_answer] in A; try contradiction; cbn [no_division_by_zero] in NZ; cbn [mop_vectors].
  - cbn [bind]. apply Edges; [|apply planar_nonzero; auto]. unfold same_vectors, interactive_adapt_3. cbn [normalize_rv set_rows planar init_planar values init_values n_obj mop_set mo_planar mo_init mo_rows mo_nobj].
    rewrite A, H2, <- q2r_shifted, q2r_planars by auto. split; [auto|]. split; [auto|]. split; [|auto]. unfold shifted. rewrite !map_length. auto.
  - destruct A as [-> ->]. destruct NZ as [N1 N2]. unfold interactive_adapt_1. rewrite map_length. destruct (Nat.eqb (length z) n); [cbn [bind]; apply Edges; [auto|apply planar_nonzero; auto]|].
    destruct (Nat.eqb (length z) 0); [reflexivity|]. cbn [bind].
    assert (N3 : nonzero_rows (flat_map (fun zi => M_MoeadRun.shifted zi (mo_init o)) z)) by (intros v Hv; apply in_flat_map in Hv as (zi & I1 & I2); apply (N2 zi I1 v I2)).
    apply Edges; [|apply planar_nonzero; exact N3]. unfold same_vectors. cbn [normalize_rv set_rows planar init_planar values init_values n_obj mop_set mo_planar mo_init mo_rows mo_nobj].
    rewrite H2, <- q2r_shifteds, q2r_planars by auto. split; [auto|]. split; [auto|]. split; [|auto]. rewrite map_length. clear - H4. induction z as [|a z IH]; cbn [map flat_map length]; [reflexivity|]. rewrite app_length, IH. unfold shifted. rewrite map_length. lia.
  - destruct A as [-> ->]. destruct NZ as (N1 & N2 & N3). unfold interactive_adapt_2. rewrite map_length. destruct (Nat.eqb (length z) n); [cbn [bind]; apply Edges; [auto|apply planar_nonzero; auto]|].
    cbv zeta. unfold masked. rewrite !map_length, H1, H3, !map_length, Nat.eqb_refl. destruct (Nat.eqb (length (mo_planar o)) (mo_rows o)) eqn:EL; cbn [negb bind]; [|reflexivity].
    assert (F : forall v, In v (mo_planar o) -> far_enough (2/10) (QR z) (map Q2R v) = M_MoeadRun.far_enough z v) by (intros; apply q2r_far; auto).
    apply Edges. 2:{ intros v Hv. cbn [mop_set mo_planar] in Hv. apply filter_In in Hv as [Hv _]. auto. }
    unfold same_vectors. cbn [set_rows planar init_planar values init_values n_obj mop_set mo_planar mo_init mo_rows mo_nobj]. rewrite (mask_filter (M_MoeadRun.far_enough z) (far_enough (2/10) (QR z)) (map Q2R)) by exact F.
    split; [auto|]. split; [auto|]. split; [|auto]. rewrite map_map, (map_ext_in _ _ _ F). apply mask_count. rewrite H3. symmetry. apply Nat.eqb_eq. exact EL.
  - cbn [bind]. apply Edges; [|apply planar_nonzero; auto]. unfold same_vectors, interactive_adapt_4. cbv zeta. cbn [normalize_rv set_rows planar init_planar values init_values n_obj mop_set mo_planar mo_init mo_rows mo_nobj].
    rewrite A, q2r_planars by auto. split; [auto|]. split; [auto|]. split; [|auto]. rewrite !map_length. reflexivity.
Qed.

Print Assumptions C119_adaptation_refines.
Print Assumptions C120_answers_refine.

(** Non-vacuity: the three vectors of the two-objective lattice, told of one non-preferred solution. *)
Definition ex_vec : list (list Q) := [[1; 0]; [1 # 2; 1 # 2]; [0; 1]]%Q.
Definition ex_o := mkMop ex_vec ex_vec 3 2 2 [].
Example ex_same : same_vectors ex_o (mkRV (QR ex_vec) (QR ex_vec) (QR ex_vec) (QR ex_vec) 2 3).
Proof. unfold same_vectors. cbn. auto. Qed.
Example ex_nz : no_division_by_zero (ANonPreferred [[3; 0]]%Q 3) ex_o /\ no_division_by_zero (ASolutions [[3; 0]]%Q 3) ex_o.
Proof.
  assert (N : forall l, forallb (fun v => negb (Qeq_bool (M_MoeadRun.qsum v) 0)) l = true -> nonzero_rows l).
  { intros l H v Hv E. rewrite forallb_forall in H. specialize (H v Hv). apply Qeq_bool_iff in E. rewrite E in H. discriminate. }
  cbn [no_division_by_zero]. split; [split; [apply N; reflexivity|split; [apply N; reflexivity|]]|split; [apply N; reflexivity|]].
  - intros zi [<-|[]]. vm_compute. discriminate.
  - intros zi [<-|[]]. apply N. vm_compute. reflexivity.
Qed.
Example ex_removed : exists o', mop_answer (ANonPreferred [[3; 0]]%Q 3) ex_o = Ok o' /\ mo_planar o' = [[1 # 2; 1 # 2]; [0; 1]; [1; 0]; [0; 1]]%Q.
Proof. eexists. split; [reflexivity|]. vm_compute. reflexivity. Qed.
