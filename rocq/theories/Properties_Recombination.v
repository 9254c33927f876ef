(** C08, C10-C17, C67, C68: recombination operators. *)
From Verif Require Import Base M_Recombination P_Recombination.
From Coq Require Import Reals QArith Lra.
Open Scope nat_scope.

(** ** Vocabulary of the statements *)

(** All rows have [nv] genes. *)
Definition rect {A} (nv : nat) (pop : list (list A)) : Prop := forall r, In r pop -> length r = nv.
(** The draws of np.random.rand lie in [0,1). *)
Definition unit_draws (dr : nat -> nat -> sbx_draw) : Prop := forall k j, (0 <= d_miu (dr k j) < 1)%R.
Definition unit_pairs (dr : nat -> nat -> R * R) : Prop := forall i j, (0 <= snd (dr i j) < 1)%R.
(** One lower bound below one upper bound per variable. *)
Definition bounds_ok (lbs ubs : list R) : Prop :=
  length lbs = length ubs /\
  forall j l u, nth_error lbs j = Some l -> nth_error ubs j = Some u -> (l < u)%R.
(** A row of numbers within the bounds. *)
Definition in_box (lbs ubs : list R) (row : list R) : Prop :=
  length row = length lbs /\
  forall j l u x, nth_error lbs j = Some l -> nth_error ubs j = Some u -> nth_error row j = Some x -> (l <= x <= u)%R.
(** A row without NaN is the image of a row of numbers. *)
Definition number_row (row : list (option R)) (xs : list R) : Prop := row = map Some xs.

(** C10. [sbx_do] pairs consecutive entries (the last with the first for an odd list) and returns
    one pair of children per pair, the number of entries rounded up to even; each child gene of
    the pair is a number and the two children of a pair have that pair's gene-wise sum; an
    out-of-range entry raises IndexError. *)
Theorem C10_sbx_pairs : forall ProC DisC dr (pop : list (list R)) ids nv,
  rect nv pop -> unit_draws dr -> (0 < DisC + 1)%R ->
  (in_range (length pop) ids ->
   exists off, sbx_do ProC DisC dr pop ids = Ok off /\
    length off = 2 * ((length ids + 1) / 2) /\
    forall k, 2 * k < length ids ->
      exists z1 z2 p q c1 c2,
        nth_error ids (2 * k) = Some z1 /\ nth_error ids ((2 * k + 1) mod (length ids)) = Some z2 /\
        row_at pop z1 = Some p /\ row_at pop z2 = Some q /\
        nth_error off (2 * k) = Some (map Some c1) /\ nth_error off (2 * k + 1) = Some (map Some c2) /\
        length c1 = nv /\ length c2 = nv /\
        forall j x y, nth_error p j = Some x -> nth_error q j = Some y ->
          exists u v, nth_error c1 j = Some u /\ nth_error c2 j = Some v /\ (u + v = x + y)%R) /\
  (~ in_range (length pop) ids -> sbx_do ProC DisC dr pop ids = Err IndexError).
Proof.
  intros ProC DisC dr pop ids nv Hr Hd He. split.
  2:{ intros H. unfold sbx_do. rewrite take_rows_err by auto. reflexivity. }
  intros Hin. destruct (pairing (sbx_pair ProC DisC dr) pop ids Hin) as (off & E & L & P).
  exists off. split; [exact E|]. split; [exact L|]. intros k Hk.
  destruct (P k Hk) as (z1 & z2 & p & q & A1 & A2 & A3 & A4 & A5 & A6).
  assert (Lp : length p = nv).
  { unfold row_at in A3. destruct (norm_idx (length pop) z1); [|discriminate]. apply Hr. eapply nth_error_In; eauto. }
  assert (Lq : length q = nv).
  { unfold row_at in A4. destruct (norm_idx (length pop) z2); [|discriminate]. apply Hr. eapply nth_error_In; eauto. }
  assert (G : exists c1 c2, fst (sbx_pair ProC DisC dr k p q) = map Some c1 /\
     snd (sbx_pair ProC DisC dr k p q) = map Some c2 /\ length c1 = nv /\ length c2 = nv /\
     forall j x y, nth_error p j = Some x -> nth_error q j = Some y ->
          exists u v, nth_error c1 j = Some u /\ nth_error c2 j = Some v /\ (u + v = x + y)%R).
  { unfold sbx_pair. cbn [fst snd]. clear -Lp Lq Hd He.
    generalize 0 as j0. revert q nv Lp Lq. induction p as [|x p IH]; intros q nv Lp Lq j0.
    - destruct q; [|simpl in *; lia]. exists [], []. simpl in *. repeat split; auto. intros [|j] x y; discriminate.
    - destruct q as [|y q]; [simpl in *; lia|]. cbn [length] in Lp, Lq. destruct nv as [|nv]; [lia|].
      destruct (IH q nv ltac:(lia) ltac:(lia) (S j0)) as (c1 & c2 & B1 & B2 & B3 & B4 & B5).
      cbn [sbx_row map]. rewrite B1, B2. unfold sbx_gene.
      destruct (sbx_beta_ok ProC DisC (dr k j0) (Hd k j0) He) as (b & Eb & _). rewrite Eb. cbn [fst snd].
      exists (((x + y) / 2 + b * ((x - y) / 2))%R :: c1), (((x + y) / 2 - b * ((x - y) / 2))%R :: c2).
      cbn [map length]. repeat split; try lia. intros [|j] x' y' Hx Hy.
      + cbn in Hx, Hy. injection Hx as ->; injection Hy as ->. do 2 eexists. split; [reflexivity|]. split; [reflexivity|]. field.
      + cbn in Hx, Hy |- *. apply B5; auto. }
  destruct G as (c1 & c2 & B1 & B2 & B3 & B4 & B5).
  exists z1, z2, p, q, c1, c2. rewrite <- B1, <- B2. auto 12.
Qed.

(** C11, gene level, for every draw: the children's sum is the parents' sum and equal parents give
    equal children. (That the operator applies this to each gene of each pair is C10 and C67.) *)
Theorem C11_sbx_mean_preserving : forall ProC DisC dr (pop : list (list R)) ids nv off k z1 z2 p q,
  rect nv pop -> unit_draws dr -> (0 < DisC + 1)%R -> in_range (length pop) ids ->
  sbx_do ProC DisC dr pop ids = Ok off -> 2 * k < length ids ->
  nth_error ids (2 * k) = Some z1 -> nth_error ids ((2 * k + 1) mod (length ids)) = Some z2 ->
  row_at pop z1 = Some p -> row_at pop z2 = Some q ->
  exists c1 c2, nth_error off (2 * k) = Some (map Some c1) /\ nth_error off (2 * k + 1) = Some (map Some c2) /\
    (forall j x y u v, nth_error p j = Some x -> nth_error q j = Some y ->
       nth_error c1 j = Some u -> nth_error c2 j = Some v ->
       (u + v = x + y)%R /\ (x = y -> u = x /\ v = x)) /\
    (p = q -> c1 = p /\ c2 = p).
Proof.
  intros ProC DisC dr pop ids nv off k z1 z2 p q Hr Hd He Hin E Hk A1 A2 A3 A4.
  destruct (C10_sbx_pairs ProC DisC dr pop ids nv Hr Hd He) as [H _].
  destruct (H Hin) as (off' & E' & _ & P). rewrite E in E'. injection E' as <-.
  destruct (P k Hk) as (z1' & z2' & p' & q' & c1 & c2 & B1 & B2 & B3 & B4 & B5 & B6 & B7 & B8 & B9).
  rewrite A1 in B1; injection B1 as <-. rewrite A2 in B2; injection B2 as <-.
  rewrite A3 in B3; injection B3 as <-. rewrite A4 in B4; injection B4 as <-.
  exists c1, c2. split; auto. split; auto.
  assert (Q : forall j x y u v, nth_error p j = Some x -> nth_error q j = Some y ->
       nth_error c1 j = Some u -> nth_error c2 j = Some v -> (u + v = x + y)%R /\ (x = y -> u = x /\ v = x)).
  { intros j x y u v Hx Hy Hu Hv. destruct (B9 j x y Hx Hy) as (u' & v' & C1 & C2 & C3).
    rewrite Hu in C1; injection C1 as <-. rewrite Hv in C2; injection C2 as <-. split; auto.
    intros <-. destruct (pairing (sbx_pair ProC DisC dr) pop ids Hin) as (off' & E' & _ & P').
    unfold sbx_do in E. rewrite E in E'. injection E' as <-.
    destruct (P' k Hk) as (y1 & y2 & p' & q' & D1 & D2 & D3 & D4 & D5 & D6).
    rewrite A1 in D1; injection D1 as <-. rewrite A2 in D2; injection D2 as <-.
    rewrite A3 in D3; injection D3 as <-. rewrite A4 in D4; injection D4 as <-.
    rewrite B5 in D5. injection D5 as D5. 
    assert (N : nth_error (map Some c1) j = Some (fst (sbx_gene ProC DisC (dr k (0 + j)) x x))).
    { rewrite D5. unfold sbx_pair; cbn [fst]. rewrite nth_error_map.
      rewrite (sbx_row_nth ProC DisC (dr k) p 0 q j x x) by auto. reflexivity. }
    rewrite nth_error_map, Hu in N. cbn [option_map] in N. injection N as N.
    unfold sbx_gene in N.
    match type of N with context [sbx_beta ?a ?b ?c] => destruct (sbx_beta a b c) as [b0|] end; cbn [fst] in N; [|discriminate N].
    injection N as N. assert (u = x) by (rewrite N; field). split; [auto|]. rewrite H0 in C3. lra. }
  split; auto. intros <-.
  assert (Lp : length p = nv).
  { unfold row_at in A3. destruct (norm_idx (length pop) z1); [|discriminate]. apply Hr. eapply nth_error_In; eauto. }
  split; apply nth_error_ext; intros j.
  - destruct (nth_error p j) as [x|] eqn:Ep.
    + destruct (B9 j x x Ep Ep) as (u & v & C1 & C2 & _). rewrite C1. f_equal. destruct (Q j x x u v) as [_ Q2]; auto. apply Q2; auto.
    + apply nth_error_None in Ep. apply nth_error_None. lia.
  - destruct (nth_error p j) as [x|] eqn:Ep.
    + destruct (B9 j x x Ep Ep) as (u & v & C1 & C2 & _). rewrite C2. f_equal. destruct (Q j x x u v) as [_ Q2]; auto. apply Q2; auto.
    + apply nth_error_None in Ep. apply nth_error_None. lia.
Qed.

(** C67. The spread of a pair of children: a gene not crossed over is copied; otherwise the
    children are [b] times as far apart as the parents, where b^(DisC+1) is 2 miu (contracting,
    b <= 1) for miu <= 1/2 and 1/(2 - 2 miu) (expanding, b > 1) for miu > 1/2. *)
Theorem C67_sbx_spread : forall ProC DisC d x y, (0 <= d_miu d < 1)%R -> (0 < DisC + 1)%R ->
  exists u v, sbx_gene ProC DisC d x y = (Some u, Some v) /\
    (ProC < d_pr d -> u = x /\ v = y)%R /\
    (d_pr d <= ProC -> exists b, (0 <= b)%R /\ (Rabs (u - v) = b * Rabs (x - y))%R /\
       (d_miu d <= 1/2 -> b <= 1 /\ npow b (DisC + 1) = Some (2 * d_miu d))%R /\
       (1/2 < d_miu d -> 1 < b /\ npow b (DisC + 1) = Some (/ (2 - 2 * d_miu d)))%R /\
       (d_miu d <= 1/2 -> Rmin x y <= u <= Rmax x y /\ Rmin x y <= v <= Rmax x y)%R)%R.
Proof.
  intros ProC DisC d x y Hm He. unfold sbx_gene.
  destruct (sbx_beta_ok ProC DisC d Hm He) as (b & Eb & B1 & _ & B3 & B4). rewrite Eb.
  eexists. eexists. split; [reflexivity|]. split.
  - intros H. rewrite (B1 H). split; field.
  - intros H. exists (Rabs b). split; [apply Rabs_pos|]. split.
    { rewrite <- Rabs_mult. f_equal. field. }
    split; [auto|]. split; [auto|]. intros Hle. destruct (B3 H Hle) as [Ha _].
    assert (Hb : (-1 <= b <= 1)%R).
    { unfold Rabs in Ha. destruct (Rcase_abs b); lra. }
    unfold Rmin, Rmax. destruct (Rle_dec x y); split; split; nra.
Qed.

(** C12. Polynomial mutation of numbers within the bounds: numbers within the bounds, same shape;
    genes whose probability draw exceeds ProM are unchanged; a draw below 1/2 moves a mutated gene
    down, otherwise up. *)
Theorem C12_mutation_in_bounds : forall ProM DisM dr lbs ubs (m : list (list R)),
  (0 < DisM + 1)%R -> unit_pairs dr -> bounds_ok lbs ubs -> (forall r, In r m -> in_box lbs ubs r) ->
  exists m' : list (list R), bp_do ProM DisM dr lbs ubs (map (map Some) m) = Ok (map (map Some) m') /\
    length m' = length m /\
    forall i r, nth_error m i = Some r -> exists r', nth_error m' i = Some r' /\ in_box lbs ubs r' /\
      forall j x x', nth_error r j = Some x -> nth_error r' j = Some x' ->
        (ProM < fst (dr i j) -> x' = x)%R /\
        (fst (dr i j) <= ProM -> snd (dr i j) < 1/2 -> x' <= x)%R /\
        (fst (dr i j) <= ProM -> 1/2 <= snd (dr i j) -> x <= x')%R.
Proof.
  intros ProM DisM dr lbs ubs m He Hd [Lb Hb] Hin. unfold bp_do.
  assert (F : forallb (fun r : list (option R) => Nat.eqb (length r) (length lbs) && Nat.eqb (length r) (length ubs)) (map (map Some) m) = true).
  { apply forallb_forall. intros r Hr. apply in_map_iff in Hr. destruct Hr as (r0 & <- & H0).
    rewrite map_length, <- Lb, (proj1 (Hin r0 H0)), Nat.eqb_refl. auto. }
  rewrite F.
  (* rows *)
  assert (Row : forall (drow : nat -> R * R) lbs0 ubs0 r j0, (forall j, (0 <= snd (drow j) < 1)%R) ->
     bounds_ok lbs0 ubs0 -> in_box lbs0 ubs0 r ->
     exists r', bp_row ProM DisM drow j0 lbs0 ubs0 (map Some r) = map Some r' /\ in_box lbs0 ubs0 r' /\
      forall j x x', nth_error r j = Some x -> nth_error r' j = Some x' ->
        (ProM < fst (drow (j0 + j)%nat) -> x' = x)%R /\
        (fst (drow (j0 + j)%nat) <= ProM -> snd (drow (j0 + j)%nat) < 1/2 -> x' <= x)%R /\
        (fst (drow (j0 + j)%nat) <= ProM -> 1/2 <= snd (drow (j0 + j)%nat) -> x <= x')%R).
  { clear -He. intros drow lbs0. induction lbs0 as [|l lbs0 IH]; intros ubs0 r j0 Hd [L B] [Lr Br].
    - destruct ubs0; [|discriminate]. destruct r; [|discriminate]. exists []. simpl. split; auto. split.
      + split; [auto|]. intros [|j] ? ? ? H; discriminate.
      + intros [|j] ? ? H; discriminate.
    - destruct ubs0 as [|u ubs0]; [discriminate|]. destruct r as [|x r]; [discriminate|].
      destruct (IH ubs0 r (S j0) Hd) as (r' & E & Hbox & HP).
      { split; [simpl in L; lia|]. intros j a b Ha Hbb. apply (B (S j) a b); auto. }
      { split; [simpl in Lr; lia|]. intros j a b c Ha Hbb Hc. apply (Br (S j) a b c); auto. }
      assert (Hlu : (l < u)%R) by (apply (B 0 l u); auto).
      assert (Hx : (l <= x <= u)%R) by (apply (Br 0 l u x); auto).
      destruct (bp_gene_inside ProM DisM l u (fst (drow j0)) (snd (drow j0)) x Hlu He (Hd j0) Hx) as (w & Ew & W1 & W2 & W3 & W4).
      exists (w :: r'). cbn [map bp_row]. rewrite Ew, E. split; auto. split.
      + split; [simpl; f_equal; apply Hbox|]. intros [|j] a b c; simpl.
        * intros Ha Hbb Hc. injection Ha as <-; injection Hbb as <-; injection Hc as <-; auto.
        * apply Hbox.
      + intros [|j] y y' Hy Hy'; simpl in Hy, Hy'.
        * injection Hy as <-; injection Hy' as <-. rewrite Nat.add_0_r. auto.
        * replace (j0 + S j) with (S j0 + j) by lia. apply HP; auto. }
  assert (All : forall i0, (forall i j, (0 <= snd (dr i j) < 1)%R) -> exists m', bp_rows ProM DisM dr i0 lbs ubs (map (map Some) m) = map (map Some) m' /\
     length m' = length m /\ forall i r, nth_error m i = Some r -> exists r', nth_error m' i = Some r' /\ in_box lbs ubs r' /\
      forall j x x', nth_error r j = Some x -> nth_error r' j = Some x' ->
        (ProM < fst (dr (i0 + i)%nat j) -> x' = x)%R /\
        (fst (dr (i0 + i)%nat j) <= ProM -> snd (dr (i0 + i)%nat j) < 1/2 -> x' <= x)%R /\
        (fst (dr (i0 + i)%nat j) <= ProM -> 1/2 <= snd (dr (i0 + i)%nat j) -> x <= x')%R).
  { clear F. induction m as [|r m IH]; intros i0 Hd'.
    - exists []. simpl. repeat split; auto. intros [|i] r; discriminate.
    - destruct (IH (fun r0 H0 => Hin r0 (or_intror H0)) (S i0) Hd') as (m' & E & L & P).
      destruct (Row (dr i0) lbs ubs r 0 (Hd' i0) (conj Lb Hb) (Hin r (or_introl eq_refl))) as (r' & Er & Hbox & HP).
      exists (r' :: m'). cbn [map bp_rows]. rewrite Er, E. split; auto. split; [simpl; auto|].
      intros [|i] r0 H0; simpl in H0.
      + injection H0 as <-. exists r'. rewrite Nat.add_0_r. split; auto.
      + replace (i0 + S i) with (S i0 + i) by lia. apply P; auto. }
  destruct (All 0 Hd) as (m' & E & L & P). exists m'. rewrite E. auto.
Qed.

(** C12. Without an explicit probability ([BP_mutation(lower, upper)], distribution index 20) gene j of an individual of n variables is left alone whenever
    n times its draw exceeds 1; so on average one gene of an individual is mutated. *)
Theorem C12_default_probability : forall dr lbs ubs (m : list (list R)), lbs <> [] ->
  unit_pairs dr -> bounds_ok lbs ubs -> (forall r, In r m -> in_box lbs ubs r) ->
  (INR (length lbs) * bp_default_prob lbs = 1)%R /\
  exists m' : list (list R), bp_do (bp_default_prob lbs) 20 dr lbs ubs (map (map Some) m) = Ok (map (map Some) m') /\ length m' = length m /\
    forall i r r', nth_error m i = Some r -> nth_error m' i = Some r' -> in_box lbs ubs r' /\
      forall j x x', nth_error r j = Some x -> nth_error r' j = Some x' -> (1 < INR (length lbs) * fst (dr i j))%R -> x' = x.
Proof.
  intros dr lbs ubs m Hn Hd Hb Hin.
  assert (Hp : (0 < INR (length lbs))%R) by (apply lt_0_INR; destruct lbs; [contradiction|cbn; lia]).
  assert (E1 : (INR (length lbs) * bp_default_prob lbs = 1)%R) by (unfold bp_default_prob; field; lra).
  split; [exact E1|]. destruct (C12_mutation_in_bounds (bp_default_prob lbs) 20 dr lbs ubs m ltac:(lra) Hd Hb Hin) as (m' & E & L & P).
  exists m'. split; [exact E|]. split; [exact L|]. intros i r r' Hi Hi'. destruct (P i r Hi) as (r2 & E2 & B & G). rewrite Hi' in E2. injection E2 as <-. split; [exact B|].
  intros j x x' Hx Hx' Hlt. apply (G j x x' Hx Hx'). apply (Rmult_lt_reg_l _ _ _ Hp). lra.
Qed.
Print Assumptions C12_default_probability.

(** C12, exactly how far a gene moves. Writing s for the gene's position in its range (0 to 1) and e = DisM + 1, a mutated gene moves down by
    (1 - t) times the range where t^e = 2 miu + (1 - 2 miu) (1 - s)^e if miu < 1/2, and otherwise up by (1 - t) times the range where
    t^e = 2 (1 - miu) + (2 miu - 1) s^e. [is_power b e p]: p is the real power b^e of b >= 0. *)
Definition is_power (b e p : R) : Prop := (b = 0 /\ p = 0 \/ 0 < b /\ p = Rpower b e)%R.
Theorem C12_mutation_distance : forall ProM DisM dr lbs ubs (m m' : list (list R)) i j r r' l u x x',
  (0 < DisM + 1)%R -> unit_pairs dr -> bounds_ok lbs ubs -> (forall r, In r m -> in_box lbs ubs r) ->
  bp_do ProM DisM dr lbs ubs (map (map Some) m) = Ok (map (map Some) m') ->
  nth_error m i = Some r -> nth_error m' i = Some r' -> nth_error lbs j = Some l -> nth_error ubs j = Some u ->
  nth_error r j = Some x -> nth_error r' j = Some x' -> (fst (dr i j) <= ProM)%R ->
  let s := ((x - l) / (u - l))%R in let miu := snd (dr i j) in
  exists t a, (0 <= t <= 1)%R /\
  (miu < 1/2 -> is_power (1 - s) (DisM + 1) a /\ is_power t (DisM + 1) (2 * miu + (1 - 2 * miu) * a) /\ x' = x - (1 - t) * (u - l))%R /\
  (1/2 <= miu -> is_power s (DisM + 1) a /\ is_power t (DisM + 1) (2 * (1 - miu) + (2 * miu - 1) * a) /\ x' = x + (1 - t) * (u - l))%R.
Proof.
  intros ProM DisM dr lbs ubs m m' i j r r' l u x x' He Hd [Lb Hb] Hin E Hi Hi' Hl Hu Hx Hx' Hk s miu.
  assert (Hbx : (l <= x <= u)%R) by (apply (proj2 (Hin r (nth_error_In _ _ Hi)) j l u x); auto).
  assert (Hlu : (l < u)%R) by (apply (Hb j l u); auto).
  assert (Hmiu : (0 <= miu < 1)%R) by apply Hd.
  unfold bp_do in E. destruct (forallb _ _) in E; [|discriminate]. injection E as E.
  assert (Rows : forall m i0 i r, nth_error m i = Some r -> nth_error (bp_rows ProM DisM dr i0 lbs ubs m) i = Some (bp_row ProM DisM (dr (i0 + i)) 0 lbs ubs r)).
  { clear. induction m as [|q m IH]; intros i0 [|i] r H; try discriminate; cbn [bp_rows nth_error] in *.
    - injection H as ->. rewrite Nat.add_0_r. reflexivity.
    - rewrite (IH (S i0) i r H). do 3 f_equal. lia. }
  assert (Er : nth_error (map (map Some) m') i = Some (bp_row ProM DisM (dr i) 0 lbs ubs (map Some r))).
  { rewrite <- E. rewrite (Rows _ 0 i (map Some r)); [reflexivity|]. rewrite nth_error_map, Hi. reflexivity. }
  rewrite nth_error_map, Hi' in Er. cbn [option_map] in Er. injection Er as Er.
  assert (Ec : Some x' = bp_gene ProM DisM l u (fst (dr i j)) (snd (dr i j)) (Some x)).
  { pose proof (bp_row_nth ProM DisM (dr i) lbs 0 ubs (map Some r) j l u (Some x) Hl Hu) as N.
    rewrite nth_error_map, Hx in N. specialize (N eq_refl). rewrite <- Er, nth_error_map, Hx' in N. cbn [option_map] in N. injection N as N. exact N. }
  fold miu in Ec. symmetry in Ec. clear -He Hbx Hlu Hmiu Ec Hk. unfold bp_gene in Ec. cbn [obind] in Ec.
  destruct (Req_EM_T (u - l) 0) as [Hz|Hz]; [lra|]. cbn [obind] in Ec. fold s in Ec.
  destruct (Rle_dec (fst (dr i j)) ProM); [|lra].
  assert (Hs0 : (0 <= s)%R) by (unfold s; apply Rmult_le_pos; [lra|left; apply Rinv_0_lt_compat; lra]).
  assert (Hsv : ((u - l) * s = x - l)%R) by (unfold s; field; lra).
  assert (Hs1 : (s <= 1)%R) by (apply Rmult_le_reg_l with (u - l)%R; lra).
  assert (Pw : forall b p, (0 <= b)%R -> npow b (DisM + 1) = Some p -> is_power b (DisM + 1) p).
  { intros b p [B|B] H; [right; rewrite npow_pos in H by auto; injection H as <-; auto|left; subst b; rewrite npow_zero in H by auto; injection H as <-; auto]. }
  assert (Rt : forall b t, (0 <= b)%R -> npow b (1 / (DisM + 1)) = Some t -> is_power t (DisM + 1) b).
  { intros b t [B|B] H.
    - rewrite npow_pos in H by auto. injection H as <-. right. split; [apply exp_pos|]. rewrite Rpower_mult.
      replace (1 / (DisM + 1) * (DisM + 1))%R with 1%R by (field; lra). symmetry. apply Rpower_1; auto.
    - subst b. assert (0 < 1 / (DisM + 1))%R by (apply Rdiv_lt_0_compat; lra). rewrite npow_zero in H by auto. injection H as <-. left; auto. }
  destruct (Rlt_dec miu (1/2)) as [Hmu|Hmu].
  - destruct (npow_unit (1 - s) (DisM + 1) ltac:(lra) He) as (a & Ea & Ha). rewrite Ea in Ec. cbn [obind] in Ec.
    assert (Hge : (a <= 2 * miu + (1 - 2 * miu) * a)%R) by nra.
    destruct (npow_root_ge (1 - s) (DisM + 1) a _ ltac:(lra) He Ea Hge) as (t & Et & Ht). rewrite Et in Ec. cbn [obind] in Ec.
    destruct (npow_unit (2 * miu + (1 - 2 * miu) * a) (1 / (DisM + 1))) as (t' & Et' & Ht').
    { split; nra. } { apply Rdiv_lt_0_compat; lra. }
    rewrite Et in Et'. injection Et' as <-. exists t, a. split; auto. split; [|lra]. intros _. split; [apply Pw; auto; lra|]. split; [apply Rt; auto; lra|].
    assert (H1 : (l <= x + (u - l) * (t - 1) <= u)%R) by (split; nra).
    destruct (clamps_in l u (x + (u - l) * (t - 1)) ltac:(lra)) as (w & Ew & _ & Hid). rewrite Ew in Ec. injection Ec as <-. rewrite (Hid H1). ring.
  - destruct (npow_unit s (DisM + 1) ltac:(lra) He) as (a & Ea & Ha). rewrite Ea in Ec. cbn [obind] in Ec.
    assert (Hge : (a <= 2 * (1 - miu) + 2 * (miu - 1/2) * a)%R) by nra.
    destruct (npow_root_ge s (DisM + 1) a _ ltac:(lra) He Ea Hge) as (t & Et & Ht). rewrite Et in Ec. cbn [obind] in Ec.
    destruct (npow_unit (2 * (1 - miu) + 2 * (miu - 1/2) * a) (1 / (DisM + 1))) as (t' & Et' & Ht').
    { split; nra. } { apply Rdiv_lt_0_compat; lra. }
    rewrite Et in Et'. injection Et' as <-. exists t, a. split; auto. split; [lra|]. intros _. split; [apply Pw; auto; lra|].
    split; [replace (2 * (1 - miu) + (2 * miu - 1) * a)%R with (2 * (1 - miu) + 2 * (miu - 1/2) * a)%R by field; apply Rt; auto; lra|].
    assert (H1 : (l <= x + (u - l) * (1 - t) <= u)%R) by (split; nra).
    destruct (clamps_in l u (x + (u - l) * (1 - t)) ltac:(lra)) as (w & Ew & _ & Hid). rewrite Ew in Ec. injection Ec as <-. rewrite (Hid H1). ring.
Qed.

(** C13 (partial): for any gene value, mutation returns NaN or a number in bounds, and a gene that
    is not mutated is clamped into its bounds. Missing: mutated out-of-bounds genes can be NaN. *)
Theorem C13_mutation_repairs_partial : forall ProM DisM lb ub k miu x, (lb <= ub)%R ->
  (bp_gene ProM DisM lb ub k miu x = None \/
     exists w, bp_gene ProM DisM lb ub k miu x = Some w /\ (lb <= w <= ub)%R) /\
  (ProM < k -> forall v, x = Some v -> bp_gene ProM DisM lb ub k miu x = Some (Rmin ub (Rmax lb v)))%R.
Proof. exact bp_gene_any. Qed.

Lemma int_part_21 : Int_part (20 + 1) = 21%Z.
Proof.
  unfold Int_part. rewrite <- (up_tech (20 + 1) 21); [lia| |]; simpl; lra.
Qed.
Lemma int_part_inv21 : Int_part (1 / (20 + 1)) = 0%Z.
Proof.
  unfold Int_part. rewrite <- (up_tech (1 / (20 + 1)) 0); [lia| |]; simpl; lra.
Qed.

(** Any gene above its upper bound, mutated with the smallest draw, becomes NaN (defaults). *)
Lemma bp_nan lb ub v ProM k : (lb < ub)%R -> (ub < v)%R -> (k <= ProM)%R -> bp_gene ProM 20 lb ub k 0 (Some v) = None.
Proof.
  intros Hb Hv Hk. unfold bp_gene. cbn [obind]. destruct (Req_EM_T (ub - lb) 0); [lra|]. cbn [obind].
  destruct (Rle_dec k ProM); [|lra]. destruct (Rlt_dec 0 (1/2)); [|lra].
  set (t := (1 - (v - lb) / (ub - lb))%R).
  assert (Ht : (t < 0)%R).
  { unfold t. assert ((ub - lb) * ((v - lb) / (ub - lb)) = v - lb)%R by (field; lra).
    assert (1 < (v - lb) / (ub - lb))%R; [|lra]. apply Rmult_lt_reg_l with (ub - lb)%R; lra. }
  assert (Hn : npow t (20 + 1) = Some (powerRZ t 21)).
  { unfold npow. destruct (Rlt_dec 0 t); [lra|]. destruct (Req_EM_T t 0); [lra|].
    destruct (Req_EM_T (20 + 1) (IZR (Int_part (20 + 1)))) as [E|E].
    - rewrite int_part_21. auto.
    - exfalso. apply E. rewrite int_part_21. simpl. lra. }
  rewrite Hn. cbn [obind].
  assert (Hp : (powerRZ t 21 < 0)%R).
  { replace (powerRZ t 21) with (t * (t ^ 10 * t ^ 10))%R by (simpl; ring).
    assert (0 < t ^ 10 * t ^ 10)%R; [|nra]. apply Rlt_0_sqr. apply pow_nonzero; lra. }
  set (b := (2 * 0 + (1 - 2 * 0) * powerRZ t 21)%R). assert (Hbn : (b < 0)%R) by (unfold b; lra).
  assert (Hn2 : npow b (1 / (20 + 1)) = None).
  { unfold npow. destruct (Rlt_dec 0 b); [lra|]. destruct (Req_EM_T b 0); [lra|].
    destruct (Req_EM_T (1 / (20 + 1)) (IZR (Int_part (1 / (20 + 1))))) as [E|E]; auto.
    rewrite int_part_inv21 in E. simpl in E. lra. }
  rewrite Hn2. reflexivity.
Qed.

(** C13 in full is false of the code: with the default DisM = 20, the gene 2 with bounds [0,1],
    mutated with the admissible draw miu = 0, becomes NaN and the clamps do not catch it. *)
Theorem C13_mutation_repairs_refuted :
  exists ProM lb ub k miu v, (0 <= k <= ProM)%R /\ (ProM <= 1)%R /\ (0 <= miu < 1)%R /\ (lb < ub)%R /\
    bp_gene ProM 20 lb ub k miu (Some v) = None.
Proof.
  exists 1%R, 0%R, 1%R, 0%R, 0%R, 2%R. repeat split; try lra. apply bp_nan; lra.
Qed.

(** C08 (partial): for an in-bounds population every offspring gene is NaN or within its bounds;
    and if every crossed-over gene's draw contracts (miu <= 1/2) every offspring gene is a number
    within its bounds. *)
Theorem C08_mate_in_bounds_partial : forall ProC DisC ProM DisM dx dm lbs ubs (pop : list (list R)) ids,
  (0 < DisC + 1)%R -> (0 < DisM + 1)%R -> unit_draws dx -> unit_pairs dm -> bounds_ok lbs ubs ->
  (forall r, In r pop -> in_box lbs ubs r) -> in_range (length pop) ids ->
  exists off, mate ProC DisC ProM DisM dx dm lbs ubs pop ids = Ok off /\
    length off = 2 * ((length ids + 1) / 2) /\
    (forall r j l u x, In r off -> nth_error lbs j = Some l -> nth_error ubs j = Some u ->
        nth_error r j = Some x -> x = None \/ exists w, x = Some w /\ (l <= w <= u)%R) /\
    ((forall k j, d_miu (dx k j) <= 1/2 \/ ProC < d_pr (dx k j))%R ->
      exists off', off = map (map Some) off' /\ forall r, In r off' -> in_box lbs ubs r).
Proof.
  intros ProC DisC ProM DisM dx dm lbs ubs pop ids HeC HeM Hdx Hdm Hb Hbox Hin.
  assert (Hrect : rect (length lbs) pop) by (intros r Hr; apply Hbox; auto).
  destruct (C10_sbx_pairs ProC DisC dx pop ids (length lbs) Hrect Hdx HeC) as [H _].
  destruct (H Hin) as (so & Es & Ls & P). clear H.
  (* all children are rows of numbers of the right length *)
  assert (Hrows : exists cs, so = map (map Some) cs /\ (forall c, In c cs -> length c = length lbs)).
  { assert (Hall : forall r, In r so -> exists c, r = map Some c /\ length c = length lbs).
    { intros r Hr. apply In_nth_error in Hr. destruct Hr as [i Hi].
      assert (Hlt : i < length so) by (apply nth_error_Some; congruence).
      assert (Hdm2 := Nat.div_mod i 2 ltac:(lia)). assert (Hmod := Nat.mod_upper_bound i 2 ltac:(lia)).
      assert (Hk : 2 * (i / 2) < length ids).
      { pose proof (Nat.div_mod (length ids + 1) 2 ltac:(lia)).
        assert (i / 2 < (length ids + 1) / 2) by (apply Nat.div_lt_upper_bound; lia). lia. }
      destruct (P (i / 2) Hk) as (z1 & z2 & p & q & c1 & c2 & _ & _ & _ & _ & B5 & B6 & B7 & B8 & _).
      destruct (Nat.eq_dec (i mod 2) 0) as [E0|E0].
      - replace (2 * (i / 2)) with i in B5 by lia. rewrite Hi in B5. injection B5 as ->. exists c1; auto.
      - replace (2 * (i / 2) + 1) with i in B6 by lia. rewrite Hi in B6. injection B6 as ->. exists c2; auto. }
    clear -Hall. induction so as [|r so IH].
    - exists []. split; auto. intros c [].
    - destruct (Hall r (or_introl eq_refl)) as (c & -> & Lc).
      destruct IH as (cs & -> & Hcs); [intros; apply Hall; right; auto|].
      exists (c :: cs). split; auto. intros c' [<-|Hc']; auto. }
  destruct Hrows as (cs & -> & Hcs).
  unfold mate. rewrite Es. simpl bind. unfold bp_do.
  assert (F : forallb (fun r : list (option R) => Nat.eqb (length r) (length lbs) && Nat.eqb (length r) (length ubs)) (map (map Some) cs) = true).
  { apply forallb_forall. intros r Hr. apply in_map_iff in Hr. destruct Hr as (r0 & <- & H0).
    rewrite map_length, <- (proj1 Hb), (Hcs r0 H0), Nat.eqb_refl. auto. }
  rewrite F. eexists. split; [reflexivity|]. rewrite bp_rows_length. split; [exact Ls|]. split.
  - intros r j l u x Hr Hl Hu Hx.
    assert (G : forall i0, In r (bp_rows ProM DisM dm i0 lbs ubs (map (map Some) cs)) ->
       exists i c, In c cs /\ r = bp_row ProM DisM (dm i) 0 lbs ubs (map Some c)).
    { clear -r. induction cs as [|c cs IH]; intros i0; simpl; [contradiction|].
      intros [<-|Hr]; [exists i0, c; auto|]. destruct (IH (S i0) Hr) as (i & c' & Hc & E). exists i, c'; auto. }
    destruct (G 0 Hr) as (i & c & Hc & ->).
    assert (Hj : j < length c).
    { rewrite (Hcs c Hc). apply nth_error_Some. congruence. }
    destruct (nth_error c j) as [v|] eqn:Ev; [|apply nth_error_None in Ev; lia].
    rewrite (bp_row_nth ProM DisM (dm i) lbs 0 ubs (map Some c) j l u (Some v)) in Hx; auto.
    2:{ rewrite nth_error_map, Ev. auto. }
    injection Hx as <-.
    assert (l < u)%R by (apply (proj2 Hb j l u); auto).
    destruct (bp_gene_any ProM DisM l u (fst (dm i (0 + j))) (snd (dm i (0 + j))) (Some v)) as [H0 _]; [lra|]. exact H0.
  - intros Hc.
    assert (Hcb : forall c, In c cs -> in_box lbs ubs c).
    { intros c Hcin. split; [apply Hcs; auto|]. intros j l u x Hl Hu Hx.
      apply In_nth_error in Hcin. destruct Hcin as [i Hi].
      assert (Hlt : i < length (map (map Some) cs)) by (rewrite map_length; apply nth_error_Some; congruence).
      assert (Hdm2 := Nat.div_mod i 2 ltac:(lia)). assert (Hmod := Nat.mod_upper_bound i 2 ltac:(lia)).
      assert (Hk : 2 * (i / 2) < length ids).
      { pose proof (Nat.div_mod (length ids + 1) 2 ltac:(lia)).
        assert (i / 2 < (length ids + 1) / 2) by (apply Nat.div_lt_upper_bound; lia). lia. }
      destruct (pairing (sbx_pair ProC DisC dx) pop ids Hin) as (off' & E' & _ & P').
      unfold sbx_do in Es. rewrite Es in E'. injection E' as <-.
      destruct (P' (i / 2) Hk) as (z1 & z2 & p & q & _ & _ & D3 & D4 & D5 & D6).
      assert (Bp : in_box lbs ubs p).
      { unfold row_at in D3. destruct (norm_idx (length pop) z1); [|discriminate]. apply Hbox. eapply nth_error_In; eauto. }
      assert (Bq : in_box lbs ubs q).
      { unfold row_at in D4. destruct (norm_idx (length pop) z2); [|discriminate]. apply Hbox. eapply nth_error_In; eauto. }
      assert (Hjl : j < length lbs) by (apply nth_error_Some; congruence).
      destruct (nth_error p j) as [a|] eqn:Ea; [|apply nth_error_None in Ea; rewrite (proj1 Bp) in Ea; lia].
      destruct (nth_error q j) as [b|] eqn:Eb; [|apply nth_error_None in Eb; rewrite (proj1 Bq) in Eb; lia].
      pose proof (proj2 Bp j l u a Hl Hu Ea) as Ia. pose proof (proj2 Bq j l u b Hl Hu Eb) as Ib.
      destruct (C67_sbx_spread ProC DisC (dx (i / 2) j) a b (Hdx _ _) HeC) as (cu & cv & Eg & G1 & G2).
      assert (Hg : (l <= cu <= u /\ l <= cv <= u)%R).
      { destruct (Rlt_dec ProC (d_pr (dx (i / 2) j))) as [Hp|Hp].
        - destruct (G1 Hp) as [-> ->]. auto.
        - destruct (G2 ltac:(lra)) as (bb & _ & _ & _ & _ & G5).
          destruct (Hc (i / 2) j) as [Hm|Hm]; [|lra]. destruct (G5 Hm) as [U V].
          unfold Rmin, Rmax in U, V. destruct (Rle_dec a b); lra. }
      assert (N : forall (sel : option R * option R -> option R), nth_error (map sel (sbx_row ProC DisC (dx (i / 2)) 0 p q)) j
          = Some (sel (Some cu, Some cv))).
      { intros sel. rewrite nth_error_map, (sbx_row_nth ProC DisC (dx (i / 2)) p 0 q j a b) by auto. rewrite Nat.add_0_l, Eg. reflexivity. }
      assert (Hcell : nth_error (map Some c) j = Some (Some x)) by (rewrite nth_error_map, Hx; auto).
      destruct (Nat.eq_dec (i mod 2) 0) as [E0|E0].
      - replace (2 * (i / 2)) with i in D5 by lia. rewrite nth_error_map, Hi in D5. cbn [option_map] in D5.
        injection D5 as D5. rewrite D5 in Hcell. unfold sbx_pair in Hcell. cbn [fst] in Hcell.
        rewrite N in Hcell. cbn in Hcell. injection Hcell as <-. tauto.
      - replace (2 * (i / 2) + 1) with i in D6 by lia. rewrite nth_error_map, Hi in D6. cbn [option_map] in D6.
        injection D6 as D6. rewrite D6 in Hcell. unfold sbx_pair in Hcell. cbn [snd] in Hcell.
        rewrite N in Hcell. cbn in Hcell. injection Hcell as <-. tauto. }
    destruct (C12_mutation_in_bounds ProM DisM dm lbs ubs cs HeM Hdm Hb Hcb) as (m' & Em & Lm & Pm).
    unfold bp_do in Em. rewrite F in Em. injection Em as Em. exists m'. split; auto.
    intros r Hr. apply In_nth_error in Hr. destruct Hr as [i Hi].
    destruct (nth_error cs i) as [c|] eqn:Ec.
    + destruct (Pm i c Ec) as (r' & Er' & Hr' & _). rewrite Hi in Er'. injection Er' as ->. auto.
    + apply nth_error_None in Ec. assert (i < length m') by (apply nth_error_Some; congruence). lia.
Qed.

(** C08 in full is false of the code: default operators, one variable in [0,1], in-bounds parents
    1 and 0, admissible draws: the first child becomes NaN. *)
Theorem C08_mate_in_bounds_refuted :
  exists dx dm lbs ubs pop ids off r,
    unit_draws dx /\ unit_pairs dm /\ bounds_ok lbs ubs /\ (forall r, In r pop -> in_box lbs ubs r) /\
    in_range (length pop) ids /\
    mate 1 30 (bp_default_prob lbs) 20 dx dm lbs ubs pop ids = Ok off /\ nth_error off 0 = Some r /\
    nth_error r 0 = Some None.
Proof.
  exists (fun _ _ => mkDraw (3/4) false 0), (fun _ _ => (0, 0)%R), [0%R], [1%R], [[1%R]; [0%R]], [0%Z; 1%Z].
  unfold mate, sbx_do. cbn [take_rows bind norm_idxs norm_idx length Z.of_nat].
  assert (Hd : (0 <= d_miu (mkDraw (3/4) false 0) < 1)%R) by (simpl; lra).
  destruct (sbx_beta_ok 1 30 (mkDraw (3/4) false 0) Hd ltac:(lra)) as (b & Eb & _ & B2 & _ & B4).
  cbn [d_pr d_neg d_miu] in B2, B4. specialize (B2 ltac:(lra)). destruct (B4 ltac:(lra) ltac:(lra)) as [B5 _].
  assert (Hb : (1 < b)%R) by (rewrite B2; auto).
  exists (bp_rows (bp_default_prob [0%R]) 20 (fun _ _ => (0, 0)%R) 0 [0%R] [1%R]
     [[Some ((1 + 0) / 2 + b * ((1 - 0) / 2))%R]; [Some ((1 + 0) / 2 - b * ((1 - 0) / 2))%R]]).
  cbn [bp_rows bp_row nth_error fst snd].
  exists [bp_gene (bp_default_prob [0%R]) 20 0 1 0 0 (Some ((1 + 0) / 2 + b * ((1 - 0) / 2))%R)].
  repeat split.
  - simpl; lra.
  - simpl; lra.
  - simpl; lra.
  - simpl; lra.
  - intros [|[|j]] l u Hl Hu; simpl in *; try discriminate. injection Hl as <-; injection Hu as <-. lra.
  - destruct H as [<-|[<-|[]]]; auto.
  - destruct H as [<-|[<-|[]]]; destruct j as [|[|j]]; simpl in *; try discriminate;
      injection H0 as <-; injection H1 as <-; injection H2 as <-; lra.
  - destruct H as [<-|[<-|[]]]; destruct j as [|[|j]]; simpl in *; try discriminate;
      injection H0 as <-; injection H1 as <-; injection H2 as <-; lra.
  - repeat constructor; lia.
  - unfold take_rows. cbn -[sbx_beta bp_gene bp_default_prob Rdiv Rmult Rplus Rminus IZR].
    change (Pos.to_nat 1) with 1. cbn -[sbx_beta bp_gene bp_default_prob Rdiv Rmult Rplus Rminus IZR].
    unfold sbx_pair, sbx_row, sbx_gene. cbn -[sbx_beta bp_gene bp_default_prob Rdiv Rmult Rplus Rminus IZR]. rewrite !Eb. reflexivity.
  - cbn [nth_error]. f_equal. apply bp_nan; try lra. unfold bp_default_prob. simpl. lra.
Qed.

(** C14. Single point crossover: at every position the two children carry the two parents' genes
    (rounded), swapped exactly from the cut point on; the pairing is as for SBX. *)
Theorem C14_single_point_tails : forall pt (pop : list (list Q)) ids nv,
  rect nv pop -> in_range (length pop) ids ->
  exists off, sp_do pt pop ids = Ok off /\
    length off = 2 * ((length ids + 1) / 2) /\
    forall k, 2 * k < length ids ->
      exists z1 z2 p q c1 c2,
        nth_error ids (2 * k) = Some z1 /\ nth_error ids ((2 * k + 1) mod (length ids)) = Some z2 /\
        row_at pop z1 = Some p /\ row_at pop z2 = Some q /\
        nth_error off (2 * k) = Some c1 /\ nth_error off (2 * k + 1) = Some c2 /\
        length c1 = nv /\ length c2 = nv /\
        forall j x y, nth_error p j = Some x -> nth_error q j = Some y ->
          (j < pt k -> nth_error c1 j = Some (rnd x) /\ nth_error c2 j = Some (rnd y)) /\
          (pt k <= j -> nth_error c1 j = Some (rnd y) /\ nth_error c2 j = Some (rnd x)).
Proof.
  intros pt pop ids nv Hr Hin.
  destruct (pairing (fun k a b => (map rnd (fst (sp_cross (pt k) a b)), map rnd (snd (sp_cross (pt k) a b)))) pop ids Hin)
    as (off & E & L & P).
  exists off. split.
  { unfold sp_do. rewrite <- E. destruct (take_rows pop ids) as [mp|e]; simpl; auto. f_equal.
    rewrite sp_loop_pairs by constructor. simpl.
    generalize (close_odd mp) as l. intros l.
    enough (forall n l k, length l <= n -> map (map rnd) (pairs_loop (fun k a b => sp_cross (pt k) a b) k l)
      = pairs_loop (fun k a b => (map rnd (fst (sp_cross (pt k) a b)), map rnd (snd (sp_cross (pt k) a b)))) k l) as G by (eapply G; eauto).
    clear. induction n as [|n IH]; intros l k Hl; destruct l as [|a [|b t]]; simpl in Hl; try lia; auto.
    cbn [pairs_loop map]. rewrite IH by lia. reflexivity. }
  split; auto. intros k Hk. destruct (P k Hk) as (z1 & z2 & p & q & A1 & A2 & A3 & A4 & A5 & A6).
  exists z1, z2, p, q. eexists. eexists. split; [exact A1|]. split; [exact A2|]. split; [exact A3|]. split; [exact A4|].
  split; [exact A5|]. split; [exact A6|]. cbn [fst snd].
  assert (Lp : length p = nv).
  { unfold row_at in A3. destruct (norm_idx (length pop) z1); [|discriminate]. apply Hr. eapply nth_error_In; eauto. }
  assert (Lq : length q = nv).
  { unfold row_at in A4. destruct (norm_idx (length pop) z2); [|discriminate]. apply Hr. eapply nth_error_In; eauto. }
  destruct (sp_cross_length (pt k) p q ltac:(congruence)) as [L1 L2]. rewrite !map_length.
  split; [lia|]. split; [lia|]. intros j x y Hx Hy.
  destruct (sp_cross_nth (pt k) p q j x y ltac:(congruence) Hx Hy) as [N1 N2].
  rewrite !nth_error_map, N1, N2. split; intros Hj.
  - apply Nat.ltb_lt in Hj. rewrite Hj. auto.
  - apply Nat.ltb_ge in Hj. rewrite Hj. auto.
Qed.

(** C14: rounding is to a nearest integer and leaves integers, in particular bits, alone. *)
Theorem C14_rounding : forall q z, (q - (1#2) <= rnd q <= q + (1#2))%Q /\ rnd (inject_Z z) = inject_Z z.
Proof.
  intros q z. split; [|unfold rnd; rewrite qround_Z; auto].
  unfold rnd, qround. set (a := (2 * Qnum q + QDen q)%Z). set (d := QDen q).
  assert (Hd : (0 < d)%Z) by (unfold d; lia).
  pose proof (Z.div_mod a (2 * d) ltac:(lia)) as Hdm. pose proof (Z.mod_pos_bound a (2 * d) ltac:(lia)) as Hmod.
  destruct q as [n dd]. unfold d in *. cbn [Qnum Qden] in *. unfold inject_Z, Qle, Qminus, Qplus, Qopp; cbn [Qnum Qden].
  rewrite !Pos2Z.inj_mul. 
  destruct ((a mod (2 * Z.pos dd) =? 0)%Z && Z.odd (a / (2 * Z.pos dd))) eqn:Ec.
  - apply andb_true_iff in Ec. destruct Ec as [Ec _]. apply Z.eqb_eq in Ec. rewrite Ec in Hdm.
    unfold a in *. split; nia.
  - unfold a in *. split; nia.
Qed.

(** C14: halves are rounded to the even neighbour (numpy's rule). *)
Theorem C14_halves_to_even : forall q z, (q == inject_Z z + (1#2))%Q -> exists k, rnd q = inject_Z (2 * k) /\ (z <= 2 * k <= z + 1)%Z.
Proof.
  intros [n d] z H. unfold Qeq, inject_Z, Qplus in H. cbn [Qnum Qden] in H. rewrite ?Pos2Z.inj_mul in H.
  assert (A : (2 * n + Z.pos d = (z + 1) * (2 * Z.pos d))%Z) by nia.
  assert (D : (2 * Z.pos d <> 0)%Z) by lia.
  unfold rnd, qround. cbn [Qnum Qden]. rewrite A, Z.div_mul, Z.mod_mul by exact D. rewrite Z.eqb_refl, andb_true_l.
  destruct (Z.odd (z + 1)) eqn:O.
  - apply Z.odd_spec in O. destruct O as [k O]. exists k. split; [f_equal; lia|lia].
  - assert (E : Z.even (z + 1) = true) by (rewrite <- Z.negb_odd, O; reflexivity).
    apply Z.even_spec in E. destruct E as [k E]. exists k. split; [f_equal; lia|lia].
Qed.

Theorem C14_binary_children : forall pt (pop : list (list Q)) ids nv off,
  rect nv pop -> in_range (length pop) ids -> sp_do pt pop ids = Ok off ->
  (forall r x, In r pop -> In x r -> x = 0%Q \/ x = 1%Q) ->
  forall r x, In r off -> In x r -> x = 0%Q \/ x = 1%Q.
Proof.
  intros pt pop ids nv off Hr Hin E Hbin r x Hrin Hx.
  destruct (C14_single_point_tails pt pop ids nv Hr Hin) as (off' & E' & L & P). rewrite E in E'. injection E' as <-.
  apply In_nth_error in Hrin. destruct Hrin as [i Hi].
  assert (Hlt : i < length off) by (apply nth_error_Some; congruence).
  assert (Hdm2 := Nat.div_mod i 2 ltac:(lia)). assert (Hmod := Nat.mod_upper_bound i 2 ltac:(lia)).
  assert (Hk : 2 * (i / 2) < length ids).
  { pose proof (Nat.div_mod (length ids + 1) 2 ltac:(lia)).
    assert (i / 2 < (length ids + 1) / 2) by (apply Nat.div_lt_upper_bound; lia). lia. }
  destruct (P (i / 2) Hk) as (z1 & z2 & p & q & c1 & c2 & B1 & B2 & B3 & B4 & B5 & B6 & B7 & B8 & B9).
  assert (Inp : In p pop).
  { unfold row_at in B3. destruct (norm_idx (length pop) z1); [|discriminate]. eapply nth_error_In; eauto. }
  assert (Inq : In q pop).
  { unfold row_at in B4. destruct (norm_idx (length pop) z2); [|discriminate]. eapply nth_error_In; eauto. }
  apply In_nth_error in Hx. destruct Hx as [j Hj].
  assert (Hc : r = c1 \/ r = c2).
  { destruct (Nat.eq_dec (i mod 2) 0) as [E0|E0].
    - left. replace (2 * (i / 2)) with i in B5 by lia. congruence.
    - right. replace (2 * (i / 2) + 1) with i in B6 by lia. congruence. }
  assert (Hjl : j < length r) by (apply nth_error_Some; congruence).
  assert (Hjn : j < nv) by (destruct Hc as [Hc|Hc]; rewrite Hc in Hjl; lia).
  destruct (nth_error p j) as [u|] eqn:Eu; [|apply nth_error_None in Eu; rewrite (Hr p Inp) in Eu; lia].
  destruct (nth_error q j) as [v|] eqn:Ev; [|apply nth_error_None in Ev; rewrite (Hr q Inq) in Ev; lia].
  destruct (B9 j u v Eu Ev) as [C1 C2].
  assert (Hb : forall w, w = 0%Q \/ w = 1%Q -> rnd w = 0%Q \/ rnd w = 1%Q) by (intros w [->| ->]; [left|right]; reflexivity).
  assert (Bu := Hb u (Hbin p u Inp (nth_error_In _ _ Eu))). assert (Bv := Hb v (Hbin q v Inq (nth_error_In _ _ Ev))).
  destruct (Nat.lt_ge_cases j (pt (i / 2))) as [Hjp|Hjp].
  - destruct (C1 Hjp) as [D1 D2]. destruct Hc; subst r; rewrite Hj in *; [injection D1 as ->|injection D2 as ->]; auto.
  - destruct (C2 Hjp) as [D1 D2]. destruct Hc; subst r; rewrite Hj in *; [injection D1 as ->|injection D2 as ->]; auto.
Qed.

(** C15. Exactly one gene per row is flipped; binary rows stay binary. *)
Theorem C15_mutation_flips_one : forall ks (m : list (list Q)) nv,
  rect nv m -> (forall i, ks i < nv) ->
  length (sp_mut ks 0 m) = length m /\
  forall i r, nth_error m i = Some r ->
    exists r' j x, nth_error (sp_mut ks 0 m) i = Some r' /\ length r' = nv /\ nth_error r j = Some x /\
      nth_error r' j = Some (1 - x)%Q /\ (forall j', j' <> j -> nth_error r' j' = nth_error r j') /\
      ((forall y, In y r -> y == 0 \/ y == 1)%Q -> forall y, In y r' -> y == 0 \/ y == 1)%Q.
Proof.
  intros ks m nv Hr Hk. split; [apply sp_mut_length|]. intros i r Hi.
  assert (Lr : length r = nv) by (apply Hr; eapply nth_error_In; eauto).
  pose proof (sp_mut_nth ks m 0 i r Hi) as N. simpl in N. unfold sp_flip in N.
  destruct (nth_error r (ks i)) as [x|] eqn:Ex; [|apply nth_error_None in Ex; specialize (Hk i); lia].
  exists (set_nth (ks i) (1 - x)%Q r), (ks i), x. split; auto. rewrite length_set_nth. split; auto. split; auto.
  assert (S : forall j', nth_error (set_nth (ks i) (1 - x)%Q r) j' = if Nat.eqb (ks i) j' then (if Nat.ltb j' (length r) then Some (1 - x)%Q else None) else nth_error r j')
    by (intros; apply nth_error_set_nth).
  split.
  { rewrite S, Nat.eqb_refl. rewrite (proj2 (Nat.ltb_lt (ks i) (length r))); auto. rewrite Lr; auto. }
  split.
  { intros j' Hj'. rewrite S. destruct (Nat.eqb_spec (ks i) j'); [congruence|auto]. }
  intros Hbin y Hy. apply In_nth_error in Hy. destruct Hy as [j' Hj']. rewrite S in Hj'.
  destruct (Nat.eqb (ks i) j').
  - destruct (Nat.ltb j' (length r)); [|discriminate]. injection Hj' as <-.
    destruct (Hbin x (nth_error_In _ _ Ex)) as [->| ->]; [right|left]; reflexivity.
  - apply Hbin. eapply nth_error_In; eauto.
Qed.

(** A weight after Gaussian mutation with draw [o]: kept if it was not drawn, else w + w * v. *)
Definition scaled_by (o : option Q) (w w' : Q) : Prop :=
  match o with None => w' = w | Some v => w' = (w + w * v)%Q end.

Lemma scale_at mv w n w1 : nth_error w n = Some w1 ->
  exists w1', nth_error (scale_from mv 0 w) n = Some w1' /\ scaled_by (mv n) w1 w1'.
Proof.
  intros H. destruct (scale_from_spec mv w 0) as [_ S]. rewrite (S n w1 H). eexists. split; [reflexivity|].
  unfold scaled_by. rewrite Nat.add_0_l. destruct (mv n); reflexivity.
Qed.
Lemma scale_inv mv w n w1' : nth_error (scale_from mv 0 w) n = Some w1' ->
  exists w1, nth_error w n = Some w1 /\ scaled_by (mv n) w1 w1'.
Proof.
  intros H. destruct (nth_error w n) as [w1|] eqn:Ew.
  - exists w1. split; auto. destruct (scale_at mv w n w1 Ew) as (x & H1 & H2). rewrite H in H1. injection H1 as ->. auto.
  - apply nth_error_None in Ew. destruct (scale_from_spec mv w 0) as [L _].
    assert (n < length (scale_from mv 0 w)) by (apply nth_error_Some; congruence). lia.
Qed.
Lemma scale_len mv w : length (scale_from mv 0 w) = length w.
Proof. apply scale_from_spec. Qed.

(** C16 (EvoNN). Same architecture (number of nodes, inputs per node); node by node the two
    children hold the two parents' nodes, exchanged exactly when the node was drawn for crossover;
    a weight not drawn for mutation is then exactly the inherited one, a drawn one is scaled. *)
Theorem C16_evonn_architecture : forall cur total pop dr (ms : list (nat * nat)) nodes inputs,
  (0 < total)%Z -> (0 <= cur <= total)%Z ->
  (forall net, In net pop -> length net = nodes /\ forall col, In col net -> length col = inputs) ->
  (forall i j, In (i, j) ms -> i < length pop /\ j < length pop) ->
  exists off, evonn_do cur total pop dr (Ids2 ms) = Ok off /\ length off = 2 * length ms /\
    forall k i j, nth_error ms k = Some (i, j) ->
      exists a b u v, nth_error pop i = Some a /\ nth_error pop j = Some b /\
        nth_error off (2 * k) = Some u /\ nth_error off (2 * k + 1) = Some v /\
        length u = nodes /\ length v = nodes /\
        forall c, c < nodes -> exists x y x' y', nth_error a c = Some x /\ nth_error b c = Some y /\
          nth_error u c = Some x' /\ nth_error v c = Some y' /\ length x' = inputs /\ length y' = inputs /\
          forall n w1 w2, nth_error x n = Some w1 -> nth_error y n = Some w2 ->
            exists w1' w2', nth_error x' n = Some w1' /\ nth_error y' n = Some w2' /\
              (nn_ex (dr k) c = false ->
                 scaled_by (nn_mv1 (dr k) c n) w1 w1' /\ scaled_by (nn_mv2 (dr k) c n) w2 w2') /\
              (nn_ex (dr k) c = true ->
                 scaled_by (nn_mv1 (dr k) c n) w2 w1' /\ scaled_by (nn_mv2 (dr k) c n) w1 w2').
Proof.
  intros cur total pop dr ms nodes inputs Ht Hc Hpop Hms.
  assert (G : forall k0, exists off, nn_pairs pop dr k0 ms = Ok off /\ length off = 2 * length ms /\
    forall k i j, nth_error ms k = Some (i, j) ->
      exists a b u v, nth_error pop i = Some a /\ nth_error pop j = Some b /\
        nn_cross (nn_ex (dr (k0 + k))) 0 a b = (u, v) /\
        nth_error off (2 * k) = Some (nn_mutate (nn_mv1 (dr (k0 + k))) 0 u) /\
        nth_error off (2 * k + 1) = Some (nn_mutate (nn_mv2 (dr (k0 + k))) 0 v)).
  { induction ms as [|[i j] ms IH]; intros k0.
    - exists []. simpl. repeat split; auto. intros [|k] i j; discriminate.
    - destruct (IH (fun i j H => Hms i j (or_intror H)) (S k0)) as (off & E & L & P).
      destruct (Hms i j (or_introl eq_refl)) as [Hi Hj].
      destruct (nth_error pop i) as [a|] eqn:Ea; [|apply nth_error_None in Ea; lia].
      destruct (nth_error pop j) as [b|] eqn:Eb; [|apply nth_error_None in Eb; lia].
      cbn [nn_pairs]. rewrite Ea, Eb. destruct (nn_cross (nn_ex (dr k0)) 0 a b) as [u v] eqn:Ec.
      rewrite E. simpl bind. eexists. split; [reflexivity|]. split; [cbn [length]; lia|].
      intros [|k] i' j' H; cbn [nth_error] in H.
      + injection H as <- <-. exists a, b, u, v. rewrite Nat.add_0_r. repeat split; auto.
      + destruct (P k i' j' H) as (a' & b' & u' & v' & P1 & P2 & P3 & P4 & P5).
        exists a', b', u', v'. replace (k0 + S k) with (S k0 + k) by lia.
        replace (2 * S k) with (S (S (2 * k))) by lia. replace (S (S (2 * k)) + 1) with (S (S (2 * k + 1))) by lia.
        repeat split; auto. }
  destruct (G 0) as (off & E & L & P).
  exists off. split.
  { unfold evonn_do. destruct (Z.eqb_spec total 0); [lia|]. simpl mating_pairs.
    destruct ms as [|m0 ms']; [simpl in E; auto|].
    assert (Hle : Qle_bool 0 (1 - (cur # 1) / (total # 1)) = true).
    { apply Qle_bool_iff. assert ((cur # 1) / (total # 1) <= 1)%Q.
      { apply Qle_shift_div_r; [unfold Qlt; simpl; lia|]. rewrite Qmult_1_l. unfold Qle; simpl; lia. }
      setoid_replace 0%Q with (1 - 1)%Q by reflexivity. apply Qplus_le_compat; [apply Qle_refl|apply Qopp_le_compat; auto]. }
    rewrite Hle. auto. }
  split; auto. intros k i j Hk. destruct (P k i j Hk) as (a & b & u & v & P1 & P2 & P3 & P4 & P5). simpl in P3, P4, P5.
  exists a, b. eexists. eexists. split; [exact P1|]. split; [exact P2|]. split; [exact P4|]. split; [exact P5|].
  destruct (Hpop a (nth_error_In _ _ P1)) as [La Ca]. destruct (Hpop b (nth_error_In _ _ P2)) as [Lb' Cb].
  destruct (nn_cross_spec (nn_ex (dr k)) a 0 b u v ltac:(congruence) P3) as (Lu & Lv & N).
  rewrite !nn_mutate_length. split; [lia|]. split; [lia|]. intros c Hcn.
  destruct (nth_error a c) as [x|] eqn:Ex; [|apply nth_error_None in Ex; lia].
  destruct (nth_error b c) as [y|] eqn:Ey; [|apply nth_error_None in Ey; lia].
  destruct (N c x y Ex Ey) as [N1 N2]. simpl in N1, N2.
  assert (Lx : length x = inputs) by (apply Ca; eapply nth_error_In; eauto).
  assert (Ly : length y = inputs) by (apply Cb; eapply nth_error_In; eauto).
  exists x, y.
  rewrite (nn_mutate_nth _ _ 0 c _ N1), (nn_mutate_nth _ _ 0 c _ N2). rewrite !Nat.add_0_l.
  eexists. eexists. split; [reflexivity|]. split; [reflexivity|]. split; [reflexivity|]. split; [reflexivity|].
  rewrite !scale_len. destruct (nn_ex (dr k) c).
  - split; auto. split; auto. intros n w1 w2 H1 H2.
    destruct (scale_at (nn_mv1 (dr k) c) y n w2 H2) as (w1' & A1 & A2).
    destruct (scale_at (nn_mv2 (dr k) c) x n w1 H1) as (w2' & A3 & A4). exists w1', w2'.
    repeat split; auto; discriminate.
  - split; auto. split; auto. intros n w1 w2 H1 H2.
    destruct (scale_at (nn_mv1 (dr k) c) x n w1 H1) as (w1' & A1 & A2).
    destruct (scale_at (nn_mv2 (dr k) c) y n w2 H2) as (w2' & A3 & A4). exists w1', w2'.
    repeat split; auto; discriminate.
Qed.

(** C16 (EvoDN2), one pair of subnets of possibly different depth and width: the first child has
    the first parent's shape, the second the second's; at positions both have, the children hold
    the two parents' weights, exchanged exactly when drawn, otherwise their own; then kept or
    scaled according to the mutation draws. *)
Theorem C16_evodn2_architecture : forall d a b us vs,
  dn_layers d 0 a b = (us, vs) ->
  map (@length Q) us = map (@length Q) a /\ map (@length Q) vs = map (@length Q) b /\
  forall l c,
    let wa := match nth_error a l with Some x => nth_error x c | None => None end in
    let wb := match nth_error b l with Some x => nth_error x c | None => None end in
    let wu := match nth_error us l with Some x => nth_error x c | None => None end in
    let wv := match nth_error vs l with Some x => nth_error x c | None => None end in
    match wa, wb with
    | Some w1, Some w2 => exists w1' w2', wu = Some w1' /\ wv = Some w2' /\
        (dn_ex d l c = false -> scaled_by (dn_mv1 d l c) w1 w1' /\ scaled_by (dn_mv2 d l c) w2 w2') /\
        (dn_ex d l c = true -> scaled_by (dn_mv1 d l c) w2 w1' /\ scaled_by (dn_mv2 d l c) w1 w2')
    | Some w1, None => wv = None /\ exists w1', wu = Some w1' /\ scaled_by (dn_mv1 d l c) w1 w1'
    | None, Some w2 => wu = None /\ exists w2', wv = Some w2' /\ scaled_by (dn_mv2 d l c) w2 w2'
    | None, None => wu = None /\ wv = None
    end.
Proof.
  intros d a b us vs E. destruct (dn_layers_spec d a 0 b us vs E) as (L1 & L2 & P).
  assert (SW : forall ex x y, length (fst (dn_swap ex 0 x y)) = length x /\ length (snd (dn_swap ex 0 x y)) = length y).
  { intros ex x y. destruct (dn_swap ex 0 x y) as [u v] eqn:Es. destruct (dn_swap_spec ex x 0 y u v Es) as (A & B & _). auto. }
  split; [|split].
  - apply nth_error_ext. intros i. rewrite !nth_error_map. destruct (P i) as [P1 _]. rewrite P1.
    destruct (nth_error a i) as [x|] eqn:Ea; auto. destruct (nth_error b i) as [y|]; simpl; rewrite scale_len; auto.
    rewrite (proj1 (SW _ _ _)). auto.
  - apply nth_error_ext. intros i. rewrite !nth_error_map. destruct (P i) as [_ P2]. rewrite P2.
    destruct (nth_error a i) as [x|] eqn:Ea; destruct (nth_error b i) as [y|]; simpl; auto; rewrite scale_len; auto.
    rewrite (proj2 (SW _ _ _)). auto.
  - intros l c. cbv zeta. destruct (P l) as [P1 P2]. rewrite ?Nat.add_0_l in P1, P2. rewrite P1, P2. clear P1 P2.
    assert (NS : forall mv w n, nth_error w n = None -> nth_error (scale_from mv 0 w) n = None).
    { intros mv w n H. apply nth_error_None. rewrite scale_len. apply nth_error_None; auto. }
    destruct (nth_error a l) as [x|], (nth_error b l) as [y|].
    + destruct (dn_swap (dn_ex d l) 0 x y) as [u v] eqn:Es. cbn [fst snd].
      destruct (dn_swap_spec _ _ _ _ _ _ Es) as (_ & _ & Q). destruct (Q c) as [Q1 Q2]. rewrite ?Nat.add_0_l in Q1, Q2.
      destruct (nth_error x c) as [w1|], (nth_error y c) as [w2|].
      * destruct (scale_at (dn_mv1 d l) _ _ _ Q1) as (w1' & A1 & A2).
        destruct (scale_at (dn_mv2 d l) _ _ _ Q2) as (w2' & A3 & A4).
        exists w1', w2'. destruct (dn_ex d l c); repeat split; auto; discriminate.
      * split; [apply NS; auto|]. apply scale_at; auto.
      * split; [apply NS; auto|]. apply scale_at; auto.
      * split; apply NS; auto.
    + destruct (nth_error x c) as [w1|] eqn:Ex; [split; auto; apply scale_at; auto|split; auto].
    + destruct (nth_error y c) as [w1|] eqn:Ey; [split; auto; apply scale_at; auto|split; auto].
    + auto.
Qed.

(** C68. Gaussian mutation never revives a connection of weight 0. *)
Theorem C68_zero_weights_stay_zero : forall mv net c col n w,
  nth_error net c = Some col -> nth_error col n = Some w -> (w == 0)%Q ->
  exists col' w', nth_error (nn_mutate mv 0 net) c = Some col' /\ nth_error col' n = Some w' /\ (w' == 0)%Q.
Proof.
  intros mv net c col n w Hc Hn Hw. rewrite (nn_mutate_nth mv net 0 c col Hc).
  destruct (scale_at (mv (0 + c)) col n w Hn) as (w' & H1 & H2). eexists. exists w'.
  split; [reflexivity|]. split; auto. unfold scaled_by in H2. destruct (mv (0 + c) n); subst; auto. rewrite Hw. ring.
Qed.

(** C17 in full is false for the EvoNN, EvoDN2 and BioGP operators: a 1-D mating list mates every
    even-positioned entry with itself, the others never mate; without mutation the two children are
    copies of that one parent. *)
Theorem C17_self_mating_refuted :
  (forall l i j, In (i, j) (mating_pairs (Ids1 l)) -> i = j) /\
  mating_pairs (Ids1 [0; 1; 2; 3]) = [(0, 0); (2, 2)] /\
  (forall ex a, nn_cross ex 0 a a = (a, a)).
Proof.
  split; [|split; [reflexivity|]].
  - intros l i j H. unfold mating_pairs in H. apply in_map_iff in H. destruct H as (x & E & _). congruence.
  - intros ex a. generalize 0 as i. induction a as [|x a IH]; intros i; simpl; auto. rewrite IH. destruct (ex i); auto.
Qed.

(** C16: past the planned number of generations EvoNN recombination raises. *)
Theorem C16_evonn_past_end_raises_refuted : exists cur total pop dr m,
  (0 < total < cur)%Z /\ evonn_do cur total pop dr m = Err ValueError.
Proof.
  exists 11%Z, 10%Z, [[[1%Q]]; [[2%Q]]], (fun _ => mkNN (fun _ => false) (fun _ _ => None) (fun _ _ => None)), (Ids1 [0; 1]).
  split; [lia|]. reflexivity.
Qed.

(** ** Non-vacuity *)
Example ex_sbx_hyp : rect 2 [[0; 1]; [1; 1]; [2; 3]]%R /\ in_range 3 [0; -1; 1]%Z /\
  unit_draws (fun k j => mkDraw (1/4) true (1/2)).
Proof.
  split; [intros r [<-|[<-|[<-|[]]]]; reflexivity|]. split; [repeat constructor; simpl; lia|].
  intros k j; simpl; lra.
Qed.
Example ex_close : close_odd [0; 2; 3; 6; 5] = [0; 2; 3; 6; 5; 0].
Proof. reflexivity. Qed.
Example ex_sp : sp_do (fun _ => 1) [[0; 0; 0]; [1; 1; 1]; [0; 1; 0]]%Q [0; 1; -1]%Z
  = Ok [[0; 1; 1]; [1; 0; 0]; [0; 0; 0]; [0; 1; 0]]%Q.
Proof. reflexivity. Qed.
Example ex_mut : sp_mut (fun i => i) 0 [[0; 0]; [1; 1]]%Q = [[1; 0]; [1; 0]]%Q.
Proof. reflexivity. Qed.
Example ex_box : bounds_ok [0; -1]%R [1; 1]%R /\ in_box [0; -1]%R [1; 1]%R [1/2; 0]%R.
Proof.
  split; split; auto.
  - intros [|[|j]] l u H1 H2; simpl in *; try (destruct j; discriminate); injection H1 as <-; injection H2 as <-; lra.
  - intros [|[|j]] l u x H1 H2 H3; simpl in *; try (destruct j; discriminate);
      injection H1 as <-; injection H2 as <-; injection H3 as <-; lra.
Qed.
Example ex_nn : evonn_do 1 10 [[[1; 2]; [3; 4]]; [[5; 6]; [7; 8]]]%Q
   (fun _ => mkNN (fun i => Nat.eqb i 0) (fun i j => if Nat.eqb i 1 && Nat.eqb j 1 then Some 1%Q else None) (fun _ _ => None)) (Ids2 [(0, 1)])
  = Ok [[[5; 6]; [3; 8]]; [[1; 2]; [7; 8]]]%Q.
Proof. reflexivity. Qed.
Example ex_dn : dn_layers (mkDN (fun _ j => Nat.eqb j 0) (fun _ _ => None) (fun _ _ => None)) 0 [[1; 2]; [3]]%Q [[4; 5; 6]]%Q
  = ([[4; 2]; [3]], [[1; 5; 6]])%Q.
Proof. reflexivity. Qed.

Print Assumptions C08_mate_in_bounds_partial.
Print Assumptions C08_mate_in_bounds_refuted.
Print Assumptions C10_sbx_pairs.
Print Assumptions C11_sbx_mean_preserving.
Print Assumptions C12_mutation_in_bounds.
Print Assumptions C12_mutation_distance.
Print Assumptions C13_mutation_repairs_partial.
Print Assumptions C13_mutation_repairs_refuted.
Print Assumptions C14_single_point_tails.
Print Assumptions C14_rounding.
Print Assumptions C14_halves_to_even.
Print Assumptions C14_binary_children.
Print Assumptions C15_mutation_flips_one.
Print Assumptions C16_evonn_architecture.
Print Assumptions C16_evodn2_architecture.
Print Assumptions C17_self_mating_refuted.
Print Assumptions C67_sbx_spread.
Print Assumptions C68_zero_weights_stay_zero.
