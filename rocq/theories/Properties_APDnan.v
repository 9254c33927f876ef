(** C124: failed evaluations (infinite or NaN fitness values) in RVEA's selection. *)
From Coq Require Import Reals Lra Lia.
From Verif Require Import Base RVec Spec_APD M_APD P_APD M_APDnan P_APDnan.
Open Scope R_scope.

(** C124. With finite values only, the selection is that of C29-C32. *)
Theorem C124_finite_values : forall penalty ideal pop_ideal fit cons vecs gam,
  apd_select_x penalty (map Fin ideal) (map Fin pop_ideal) (map (map Fin) fit) cons vecs gam =
  match apd_select penalty ideal pop_ideal fit cons vecs gam with Ok (z, s) => Ok (map Fin z, s) | Err e => Err e end.
Proof. intros. rewrite apd_select_x_fin. destruct (apd_select penalty ideal pop_ideal fit cons vecs gam) as [[z s]|e]; reflexivity. Qed.

(** Every value is finite or +infinity. *)
Definition upper (f : list xr) : Prop := forall a, In a f -> a = PInf \/ exists x, a = Fin x.
(** The rows all of whose values are finite, as real vectors; the other rows. *)
Definition all_finite (f : list xr) : bool := forallb (fun a => match a with Fin _ => true | _ => false end) f.
Definition finite_rows (fit : list (list xr)) : list (list R) := map (map (fun a => match a with Fin x => x | _ => 0 end)) (filter all_finite fit).
Definition failed_rows (fit : list (list xr)) : list (list xr) := filter (fun f => negb (all_finite f)) fit.
Definition row_of (fit : list (list xr)) (i : nat) : list xr := nth i fit [].

(** C124. A failed evaluation reported as +infinity disturbs nobody (no constraints): the selection succeeds, its ideal point z is finite, and the rows selected are those selected
    from the finite rows alone - with one exception: if no finite row is closest to the first reference vector and exactly one row has failed, the failed row is selected in addition. *)
Theorem C124_infinity_disturbs_nobody : forall m penalty ideal pop_ideal fit vecs gam,
  length ideal = m -> length pop_ideal = m -> upper pop_ideal ->
  (forall f, In f fit -> length f = m /\ upper f) -> finite_rows fit <> [] ->
  vecs <> [] -> (forall v, In v vecs -> length v = m /\ norm v = 1 /\ forall x, In x v -> 0 <= x) -> length gam = length vecs ->
  exists z s s',
    apd_select_x penalty (map Fin ideal) pop_ideal fit None vecs gam = Ok (map Fin z, s) /\
    apd_select penalty z z (finite_rows fit) None vecs gam = Ok (z, s') /\ length z = m /\
    ((exists j, closest z (finite_rows fit) vecs j 0) -> map (row_of fit) s = map (fun i => map Fin (nth i (finite_rows fit) [])) s') /\
    (~ (exists j, closest z (finite_rows fit) vecs j 0) ->
       map (row_of fit) s = match failed_rows fit with [f] => [f] | _ => [] end ++ map (fun i => map Fin (nth i (finite_rows fit) [])) s').
Proof.
  intros m penalty ideal pop_ideal fit vecs gam Hi Hp Hpu Hf Hne Hv HV Hg.
  assert (Hfl : forall f, In f fit -> length f = m) by (intros; apply Hf; auto).
  assert (Hfu : forall f b, In f fit -> In b f -> up b) by (intros f b Hin; apply (Hf f Hin)).
  assert (Hfit : fit <> []) by (intros ->; apply Hne; reflexivity).
  destruct (new_ideal_x_up m ideal pop_ideal fit Hi Hp Hpu Hfl Hfu Hfit) as (z & Ez & Lz).
  pose proof (new_ideal_x_below m ideal pop_ideal fit (map Fin z) Hi Hp Hpu Hfl Hfu Ez) as Hbelow.
  set (fin := finite_rows fit). fold fin in Hne.
  assert (Ffin : map (map Fin) fin = filter all_finite fit).
  { unfold fin, finite_rows. rewrite map_map. rewrite <- (map_id (filter all_finite fit)) at 2. apply map_ext_in. intros f Hin. apply filter_In in Hin as [_ Hin].
    symmetry. apply (fin_row_map f Hin). }
  assert (Hfin : forall f, In f fin -> length f = m /\ Forall2 Rle z f).
  { intros f Hin. assert (H : In (map Fin f) (filter all_finite fit)) by (rewrite <- Ffin; apply in_map; auto). apply filter_In in H as [H _].
    split; [specialize (Hfl _ H); rewrite map_length in Hfl; exact Hfl|]. apply lexs_fin. apply Hbelow; auto. }
  assert (Eid : new_ideal z z fin = Ok z) by (apply new_ideal_absorb; [auto|intros f Hin; apply (Hfin f Hin)]).
  set (trs := map (fun f => xvsub f (map Fin z)) fit).
  exists z, (flat_map (choose_x penalty vecs trs gam None) (seq 0 (length vecs))), (flat_map (choose penalty vecs (map (fun f => vsub f z) fin) gam None) (seq 0 (length vecs))).
  split; [unfold apd_select_x; rewrite Ez; reflexivity|]. split; [unfold apd_select; rewrite Eid; reflexivity|]. split; [exact Lz|].
  (* per vector *)
  assert (Hchoose : forall k, map (fun i => map Fin (nth i fin [])) (choose penalty vecs (map (fun f => vsub f z) fin) gam None k) = pickx penalty vecs gam (map Fin z) k (filter (near_x vecs (map Fin z) k) (filter all_finite fit))).
  { intros k. rewrite <- choose_x_fin.
    assert (E : map (map Fin) (map (fun f => vsub f z) fin) = map (fun f => xvsub f (map Fin z)) (filter all_finite fit)).
    { rewrite <- Ffin, !map_map. apply map_ext. intros f. symmetry. apply xvsub_fin. }
    rewrite E, <- choose_rows. apply map_ext. intros i. rewrite <- Ffin. unfold row_x. symmetry. apply (map_nth (map Fin) fin []). }
  assert (Hfail : forall f, In f fit -> all_finite f = false -> near_x vecs (map Fin z) 0 f = true /\ (forall k, (0 < k)%nat -> near_x vecs (map Fin z) k f = false) /\ forall k, (k < length vecs)%nat -> value_x penalty vecs gam (map Fin z) k f = NaN).
  { intros f Hin Hf0. pose proof (not_fin_row f (fun a => Hfu f a Hin) Hf0) as HP.
    assert (U : forall a, In a (xvsub f (map Fin z)) -> up a) by (apply sub_up; intros a; apply Hfu; auto).
    assert (P : In PInf (xvsub f (map Fin z))) by (apply sub_inf; [rewrite (Hfl f Hin); auto|auto]).
    assert (Lt : length (xvsub f (map Fin z)) = m) by (unfold xvsub; rewrite vmap2_len3, map_length, (Hfl f Hin); lia).
    assert (Cn : forall v, In v vecs -> cosine_x (xvsub f (map Fin z)) v = NaN) by (intros v Hv0; apply cosine_x_inf; auto; rewrite Lt; apply HV; auto).
    assert (A0 : assigned_x vecs (xvsub f (map Fin z)) = 0%nat) by (apply assigned_x_nan; auto).
    split; [unfold near_x; rewrite A0; reflexivity|]. split; [intros k Hk; unfold near_x; rewrite A0; apply Nat.eqb_neq; lia|].
    intros k Hk. unfold value_x, apd_x. cbn [row_x nth]. rewrite Cn by (unfold row; apply nth_In; auto). cbn [xacos xdiv xmul xadd]. apply xmul_nan_r. }
  assert (Hpos : forall k, (0 < k)%nat -> filter (near_x vecs (map Fin z) k) fit = filter (near_x vecs (map Fin z) k) (filter all_finite fit)).
  { intros k Hk. clear - Hfail Hk. induction fit as [|f t IH]; cbn [filter]; [reflexivity|].
    assert (IHt : filter (near_x vecs (map Fin z) k) t = filter (near_x vecs (map Fin z) k) (filter all_finite t)) by (apply IH; intros; apply Hfail; auto; right; auto).
    destruct (all_finite f) eqn:E; cbn [filter]; rewrite IHt; [reflexivity|]. destruct (Hfail f (or_introl eq_refl) E) as (_ & B & _). rewrite B by auto. reflexivity. }
  assert (Hfinval : forall f k, In f fit -> all_finite f = true -> is_nan (value_x penalty vecs gam (map Fin z) k f) = false).
  { intros f k Hin Hf1. rewrite (fin_row_map f Hf1). unfold value_x. rewrite xvsub_fin. change [map Fin (vsub (map fin_part f) z)] with (map (map Fin) [vsub (map fin_part f) z]). rewrite apd_x_fin. reflexivity. }
  assert (Hrest : forall l, (forall k, In k l -> (0 < k)%nat) ->
     map (row_of fit) (flat_map (choose_x penalty vecs trs gam None) l) = map (fun i => map Fin (nth i fin [])) (flat_map (choose penalty vecs (map (fun f => vsub f z) fin) gam None) l)).
  { induction l as [|k l IH]; intros Hl; cbn [flat_map map]; [reflexivity|]. rewrite !map_app, IH by (intros; apply Hl; right; auto). f_equal.
    rewrite Hchoose. change (row_of fit) with (row_x fit). unfold trs. rewrite choose_rows, Hpos by (apply Hl; left; auto). reflexivity. }
  (* the first vector *)
  assert (Hfirst : exists vt, length vecs = S vt) by (destruct vecs as [|v0 vt]; [congruence|exists (length vt); reflexivity]). destruct Hfirst as [vt Evt].
  assert (SI : selection_input m z z fin None vecs gam).
  { constructor; auto. split; auto. intros f Hin; apply Hfin; auto. }
  assert (Sel : apd_select penalty z z fin None vecs gam = Ok (z, flat_map (choose penalty vecs (map (fun f => vsub f z) fin) gam None) (seq 0 (length vecs)))) by (unfold apd_select; rewrite Eid; reflexivity).
  assert (Hnear : forall k, (exists j, closest z fin vecs j k) <-> filter (near_x vecs (map Fin z) k) (filter all_finite fit) <> []).
  { intros k. assert (Hn : forall j, In j (niche vecs (map (fun f => vsub f z) fin) k) <-> closest z fin vecs j k) by (intros j; eapply In_niche; eauto).
    assert (E : map (fun i => map Fin (nth i fin [])) (niche vecs (map (fun f => vsub f z) fin) k) = filter (near_x vecs (map Fin z) k) (filter all_finite fit)).
    { rewrite <- Ffin. rewrite <- (filter_index [] (near_x vecs (map Fin z) k) (map (map Fin) fin)). unfold niche. rewrite !map_length.
      assert (R1 : forall i, nth i (map (map Fin) fin) [] = map Fin (nth i fin [])) by (intros i; apply (map_nth (map Fin) fin [])).
      rewrite (map_ext (fun i => nth i (map (map Fin) fin) []) (fun i => map Fin (nth i fin []))) by exact R1. f_equal.
      apply filter_ext_in. intros i Hin. apply in_seq in Hin. rewrite R1. unfold near_x. rewrite xvsub_fin, assigned_x_fin. f_equal. f_equal.
      unfold row. rewrite (nth_indep _ [] (vsub [] z)) by (rewrite map_length; lia). apply (map_nth (fun f => vsub f z)). }
    rewrite <- E. split.
    - intros [j Hj] C. apply Hn in Hj. destruct (niche _ _ _); [destruct Hj|discriminate].
    - intros C. destruct (niche vecs (map (fun f => vsub f z) fin) k) as [|j t] eqn:Ej; [exfalso; apply C; reflexivity|]. exists j. apply Hn. left; auto. }
  rewrite Evt. cbn [seq flat_map]. rewrite !map_app, (Hrest (seq 1 vt)) by (intros k Hk; apply in_seq in Hk; lia).
  change (row_of fit) with (row_x fit). unfold trs. rewrite choose_rows, Hchoose.
  set (P0 := near_x vecs (map Fin z) 0) in *.
  assert (Hlen : (0 < length vecs)%nat) by lia.
  (* among the rows near vector 0 exactly the failed ones have a NaN value *)
  assert (Hskip : filter (fun f => negb (is_nan (value_x penalty vecs gam (map Fin z) 0 f))) (filter P0 fit) = filter P0 (filter all_finite fit)).
  { clear - Hfail Hfinval Hlen. induction fit as [|f t IH]; cbn [filter]; [reflexivity|].
    assert (IHt : filter (fun f => negb (is_nan (value_x penalty vecs gam (map Fin z) 0 f))) (filter P0 t) = filter P0 (filter all_finite t)) by (apply IH; intros; [apply Hfail|apply Hfinval]; auto; right; auto).
    destruct (all_finite f) eqn:E; cbn [filter].
    - destruct (P0 f); cbn [filter]; [|exact IHt]. rewrite (Hfinval f 0%nat (or_introl eq_refl) E). cbn [negb]. rewrite IHt. reflexivity.
    - destruct (Hfail f (or_introl eq_refl) E) as (A & _ & C). fold P0 in A. rewrite A. cbn [filter]. rewrite (C 0%nat Hlen). cbn [is_nan negb]. exact IHt. }
  split.
  - intros Hex. apply (Hnear 0%nat) in Hex. f_equal. fold P0 in Hex. rewrite pickx_skip by (rewrite Hskip; exact Hex). rewrite Hskip. reflexivity.
  - intros Hno. assert (Hnil : filter P0 (filter all_finite fit) = []).
    { destruct (filter P0 (filter all_finite fit)) eqn:E; auto. exfalso. apply Hno. apply (Hnear 0%nat). fold P0. rewrite E. discriminate. }
    rewrite Hnil. cbn [pickx app]. f_equal.
    assert (Hbad : filter P0 fit = failed_rows fit).
    { unfold failed_rows. clear - Hfail Hnil. induction fit as [|f t IH]; cbn [filter]; [reflexivity|]. cbn [filter] in Hnil. destruct (all_finite f) eqn:E; cbn [negb].
      - cbn [filter] in Hnil. destruct (P0 f); [discriminate|]. apply IH; [intros; apply Hfail; auto; right; auto|exact Hnil].
      - destruct (Hfail f (or_introl eq_refl) E) as (A & _). fold P0 in A. rewrite A. f_equal. apply IH; [intros; apply Hfail; auto; right; auto|exact Hnil]. }
    rewrite Hbad. apply pickx_none. intros f Hin. unfold failed_rows in Hin. apply filter_In in Hin as [H1 H2]. destruct (all_finite f) eqn:E; [discriminate|].
    apply (Hfail f H1 E). exact Hlen.
Qed.

(** C124 (false of the code). "A failed evaluation reported as NaN disturbs nobody": one NaN anywhere in the population, or in an ideal point, and from then on nobody (at most one
    individual, if the constraints leave only one) is selected; the NaN stays in the remembered ideal point. *)
Theorem C124_nan_stops_selection_refuted : forall m j penalty ideal pop_ideal fit cons vecs gam,
  (j < m)%nat -> length ideal = m -> length pop_ideal = m -> (forall f, In f fit -> length f = m) -> fit <> [] -> vecs <> [] -> (forall v, In v vecs -> length v = m) ->
  nth_error ideal j = Some NaN \/ nth_error pop_ideal j = Some NaN \/ (exists f, In f fit /\ nth_error f j = Some NaN) ->
  exists z s, apd_select_x penalty ideal pop_ideal fit cons vecs gam = Ok (z, s) /\ nth_error z j = Some NaN /\ length z = m /\ (length s <= 1)%nat /\
    (cons = None -> (2 <= length fit)%nat -> s = []).
Proof.
  intros m j penalty ideal pop_ideal fit cons vecs gam Hj Hi Hp Hf Hne Hv HV Hn.
  destruct (new_ideal_x_total ideal pop_ideal fit Hne) as [z Ez]. destruct (new_ideal_x_nan m j ideal pop_ideal fit z Hj Hi Hp Hf Ez Hn) as [Nz Lz].
  eexists z, _. unfold apd_select_x. rewrite Ez. cbn [bind]. split; [reflexivity|]. split; [exact Nz|]. split; [exact Lz|].
  assert (Ht : forall t, In t (map (fun f => xvsub f z) fit) -> nan_at j t).
  { intros t Hin. apply in_map_iff in Hin as (f & <- & Hin). unfold xvsub. apply vmap2_nan; auto; [intros; apply xsub_nan_r|rewrite (Hf f Hin); auto|lia]. }
  rewrite (poisoned_choice m j) by auto. rewrite map_length. split.
  - destruct (constraint_filter cons (seq 0 (length fit))) as [|a [|b t]]; cbn [length]; lia.
  - intros -> L. cbn [constraint_filter]. destruct (length fit) as [|[|n]]; [lia|lia|reflexivity].
Qed.

(** Any sequence of selections of one operator. *)
Record xcall := mkXCall { xc_penalty : R; xc_pop_ideal : list xr; xc_fit : list (list xr); xc_vecs : list (list R); xc_gam : list R }.
Fixpoint apd_calls_x (ideal : list xr) (calls : list xcall) : res (list (list nat)) :=
  match calls with
  | [] => Ok []
  | k :: t => bind (apd_select_x (xc_penalty k) ideal (xc_pop_ideal k) (xc_fit k) None (xc_vecs k) (xc_gam k)) (fun zs =>
              bind (apd_calls_x (fst zs) t) (fun l => Ok (snd zs :: l)))
  end.
(** One NaN in the first population: neither that selection nor any later one selects anybody, whatever the later populations are. *)
Theorem C124_nan_for_ever_refuted : forall m j ideal c calls, (j < m)%nat -> length ideal = m ->
  (forall k, In k (c :: calls) -> length (xc_pop_ideal k) = m /\ (2 <= length (xc_fit k))%nat /\ (forall f, In f (xc_fit k) -> length f = m) /\
     xc_vecs k <> [] /\ forall v, In v (xc_vecs k) -> length v = m) ->
  (exists f, In f (xc_fit c) /\ nth_error f j = Some NaN) ->
  apd_calls_x ideal (c :: calls) = Ok (map (fun _ => []) (c :: calls)).
Proof.
  intros m j ideal c calls Hj Hi H Hn.
  assert (G : forall calls ideal, (forall k, In k calls -> length (xc_pop_ideal k) = m /\ (2 <= length (xc_fit k))%nat /\ (forall f, In f (xc_fit k) -> length f = m) /\
     xc_vecs k <> [] /\ forall v, In v (xc_vecs k) -> length v = m) -> length ideal = m -> nth_error ideal j = Some NaN -> apd_calls_x ideal calls = Ok (map (fun _ => []) calls)).
  { clear c calls ideal Hi H Hn. induction calls as [|k t IH]; intros ideal H Hi Hn; cbn [apd_calls_x map]; [reflexivity|].
    destruct (H k (or_introl eq_refl)) as (H1 & H2 & H3 & H4 & H5).
    destruct (C124_nan_stops_selection_refuted m j (xc_penalty k) ideal (xc_pop_ideal k) (xc_fit k) None (xc_vecs k) (xc_gam k)) as (z & s & E & Nz & Lz & _ & Es); auto.
    - intros E. rewrite E in H2. cbn [length] in H2. lia.
    - rewrite E, (Es eq_refl H2). cbn [bind fst snd]. rewrite IH; auto. intros; apply H; right; auto. }
  cbn [apd_calls_x map]. destruct (H c (or_introl eq_refl)) as (H1 & H2 & H3 & H4 & H5).
  destruct (C124_nan_stops_selection_refuted m j (xc_penalty c) ideal (xc_pop_ideal c) (xc_fit c) None (xc_vecs c) (xc_gam c)) as (z & s & E & Nz & Lz & _ & Es); auto.
  - intros E. rewrite E in H2. cbn [length] in H2. lia.
  - rewrite E, (Es eq_refl H2). cbn [bind fst snd]. rewrite G; auto. intros; apply H; right; auto.
Qed.
Print Assumptions C124_finite_values.
Print Assumptions C124_infinity_disturbs_nobody.
Print Assumptions C124_nan_stops_selection_refuted.
Print Assumptions C124_nan_for_ever_refuted.

(** Two objectives, vectors along the axes, three individuals of which one failed in its first objective. *)
Definition ex_fit : list (list xr) := [[Fin 1; Fin 0]; [PInf; Fin 2]; [Fin 0; Fin 1]].
Example ex_hypotheses : (forall f, In f ex_fit -> length f = 2%nat /\ upper f) /\ finite_rows ex_fit = [[1; 0]; [0; 1]] /\ failed_rows ex_fit = [[PInf; Fin 2]] /\
  forall v, In v [[1; 0]; [0; 1]] -> length v = 2%nat /\ norm v = 1 /\ forall x, In x v -> 0 <= x.
Proof.
  split; [|split; [|split]].
  - intros f [<-|[<-|[<-|[]]]]; (split; [reflexivity|]); intros a [<-|[<-|[]]]; eauto.
  - reflexivity.
  - reflexivity.
  - intros v [<-|[<-|[]]]; (split; [reflexivity|]); (split; [|intros x [<-|[<-|[]]]; lra]); unfold norm; cbn [dot]; replace (_ + _) with 1 by ring; apply sqrt_1.
Qed.
(** The first individual is on the first vector, so the exception does not apply here. *)
Example ex_closest : exists j, closest [0; 0] (finite_rows ex_fit) [[1; 0]; [0; 1]] j 0.
Proof.
  exists 0%nat, [1; 0], [1; 0]. split; [reflexivity|]. split; [reflexivity|].
  assert (N1 : forall a b, a * a + b * b = 1 -> norm [a; b] = 1) by (intros a b H; unfold norm; cbn [dot]; replace (_ + _) with 1 by (rewrite <- H; ring); apply sqrt_1).
  intros k v Hk. unfold cos_between, vsub. cbn [vmap2].
  destruct k as [|[|k]]; [| |destruct k; discriminate]; injection Hk as <-; split; try lia; cbn [dot]; rewrite !N1 by lra; lra.
Qed.
