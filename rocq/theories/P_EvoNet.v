(** Lemmas for C63, C64, C94-C96. *)
From Verif Require Import Base RVec M_Create M_EvoNet Spec_EvoNet.
From Coq Require Import Reals Lra.
Open Scope R_scope.

Lemma nth_error_seq0 n i : (i < n)%nat -> nth_error (seq 0 n) i = Some i.
Proof. intros H. rewrite (nth_error_nth' _ 0%nat) by (rewrite seq_length; auto). rewrite seq_nth by auto. reflexivity. Qed.
Lemma rsum_app l l' : rsum (l ++ l') = rsum l + rsum l'.
Proof. induction l as [|x l IH]; simpl; [ring|rewrite IH; ring]. Qed.
Lemma rsum_zeros n : rsum (repeat 0 n) = 0.
Proof. induction n; simpl; [auto|rewrite IHn; ring]. Qed.
Lemma rsum_vadd u v : length u = length v -> rsum (vadd u v) = rsum u + rsum v.
Proof. unfold vadd. revert v; induction u as [|x u IH]; intros [|y v] H; simpl in *; try discriminate; [ring|]. rewrite IH by lia. ring. Qed.
Lemma rsum_vscale a u : rsum (vscale a u) = a * rsum u.
Proof. induction u as [|x u IH]; simpl; [ring|]. fold (vscale a u). rewrite IH. ring. Qed.
Lemma rsum_map_scale {A} a (f : A -> R) l : rsum (map (fun x => a * f x) l) = a * rsum (map f l).
Proof. induction l as [|x l IH]; simpl; [ring|rewrite IH; ring]. Qed.
Lemma rsum_flat_map {A B} (f : A -> list B) (g : B -> R) l : rsum (map g (flat_map f l)) = rsum (map (fun a => rsum (map g (f a))) l).
Proof. induction l as [|x l IH]; simpl; auto. rewrite map_app, rsum_app, IH. ring. Qed.

Lemma combine_cols_spec nin a : forall b, (forall c, In c a -> length c = nin) -> length (combine_cols nin a b) = nin /\ rsum (combine_cols nin a b) = dot (map rsum a) b.
Proof.
  unfold combine_cols. induction a as [|c a IH]; intros [|x b] H; cbn [combine fold_right map dot fst snd]; try (split; [apply repeat_length|rewrite rsum_zeros; reflexivity]).
  destruct (IH b (fun c Hc => H c (or_intror Hc))) as (L & E). specialize (H c (or_introl eq_refl)). assert (L' : length (vscale x c) = nin) by (rewrite vscale_length; auto). split.
  - rewrite vadd_length; [auto|]. rewrite L, L'. auto.
  - rewrite rsum_vadd by (rewrite L; auto). rewrite rsum_vscale, E. ring.
Qed.

(** Sum over all paths from input i. *)
Definition from (t : list layer) (i : nat) : R := rsum (map (path_weight t i) (paths t)).
Lemma from_nil i : from [] i = 1. Proof. unfold from; simpl; ring. Qed.
Lemma from_cons l t i : from (l :: t) i = rsum (map (fun j => Rabs (weight l i j) * from t j) (seq 0 (length l))).
Proof.
  unfold from. cbn [paths]. rewrite rsum_flat_map. f_equal. apply map_ext. intros j. rewrite map_map. cbn [path_weight]. apply rsum_map_scale.
Qed.
Lemma map_seq_nth {A B} (f : A -> B) (d : A) l : map (fun j => f (nth j l d)) (seq 0 (length l)) = map f l.
Proof.
  induction l as [|x l IH]; [reflexivity|]. simpl. f_equal. rewrite <- seq_shift, map_map. apply IH.
Qed.
Lemma dot_exchange r : forall (B : matrix) (s : list R), (forall b, In b B -> length b = length r) -> length s = length B ->
  dot (map (dot r) B) s = dot r (map (fun k => rsum (map (fun p => nth k (fst p) 0 * snd p) (combine B s))) (seq 0 (length r))).
Proof.
  induction B as [|b B IH]; intros [|x s] H L; try discriminate.
  - cbn [map dot combine rsum]. symmetry. generalize (seq 0 (length r)). clear. induction r as [|a r IH]; intros [|k l]; simpl; try ring. rewrite IH. ring.
  - cbn [map dot]. rewrite IH by (simpl in L; auto; intros; apply H; right; auto). clear IH.
    rewrite (Rmult_comm (dot r b) x), <- dot_scale_r, <- dot_add_r.
    + f_equal. apply nth_error_ext. intros i. unfold vadd. rewrite vmap2_nth. unfold vscale. rewrite !nth_error_map. specialize (H b (or_introl eq_refl)).
      destruct (Nat.lt_ge_cases i (length r)) as [Hi|Hi].
      * rewrite !nth_error_seq0 by auto. cbn [option_map]. rewrite (nth_error_nth' b 0) by lia. cbn [option_map combine map fst snd rsum]. f_equal. simpl. ring.
      * assert (E1 : nth_error (seq 0 (length r)) i = None) by (apply nth_error_None; rewrite seq_length; auto). rewrite E1. cbn [option_map]. destruct (nth_error b i); reflexivity.
    + rewrite vscale_length, map_length, seq_length. apply H. left; auto.
Qed.
Lemma weights_abs_length l : length (weights_abs l) = length l. Proof. apply map_length. Qed.
Lemma weights_abs_col nin l c : (forall n, In n l -> length n = S nin) -> In c (weights_abs l) -> length c = nin.
Proof. intros H Hc. apply in_map_iff in Hc. destruct Hc as (n & <- & Hn). rewrite map_length. specialize (H n Hn). destruct n; simpl in *; lia. Qed.
Lemma from_col l t k : rsum (map (fun p => nth k (fst p) 0 * snd p) (combine (weights_abs l) (map (from t) (seq 0 (length l))))) = from (l :: t) k.
Proof.
  rewrite from_cons. unfold weights_abs, weight. 
  assert (G : forall ll b, (forall j, (j < length ll)%nat -> nth (b + j) l [] = nth j ll []) ->
     rsum (map (fun p => nth k (fst p) 0 * snd p) (combine (map (fun n => map Rabs (tl n)) ll) (map (from t) (seq b (length ll))))) = rsum (map (fun j => Rabs (nth (S k) (nth j l []) 0) * from t j) (seq b (length ll)))).
  { induction ll as [|n ll IH]; intros b H; [reflexivity|]. cbn [length seq map combine rsum fst snd]. f_equal.
    - pose proof (H 0%nat ltac:(simpl; lia)) as E. rewrite Nat.add_0_r in E. cbn [nth] in E. rewrite E. f_equal. destruct n as [|a n]; cbn [tl map nth]; [destruct k; rewrite Rabs_R0; reflexivity|]. rewrite <- (map_nth Rabs). rewrite Rabs_R0. reflexivity.
    - apply IH. intros j Hj. specialize (H (S j) ltac:(simpl; lia)). rewrite <- plus_n_Sm in H. exact H. }
  apply (G l 0%nat). intros; reflexivity.
Qed.
Lemma product_paths nin : forall t A, (forall c, In c A -> length c = nin) -> shaped (length A) t ->
  rsum (concat (fold_left (mat_mul nin) (map weights_abs t) A)) = dot (map rsum A) (map (from t) (seq 0 (length A))).
Proof.
  induction t as [|l t IH]; intros A H Sh; cbn [map fold_left].
  - transitivity (rsum (map rsum A)).
    + clear. induction A as [|c A IHA]; [reflexivity|]. simpl. rewrite rsum_app, IHA. reflexivity.
    + generalize 0%nat. clear. induction A as [|c A IHA]; intros b; [reflexivity|]. simpl. rewrite from_nil, (IHA (S b)). ring.
  - destruct Sh as (S1 & S2). rewrite IH.
    + unfold mat_mul at 2. rewrite map_length, weights_abs_length. unfold mat_mul. rewrite map_map.
      rewrite (map_ext_in _ (dot (map rsum A))) by (intros b Hb; apply combine_cols_spec; auto).
      rewrite dot_exchange.
      * rewrite map_length. f_equal. apply map_ext. intros k. apply from_col.
      * intros b Hb. rewrite map_length. apply (weights_abs_col _ _ _ S1 Hb).
      * rewrite map_length, seq_length, weights_abs_length. reflexivity.
    + intros c Hc. apply in_map_iff in Hc. destruct Hc as (b & <- & _). apply combine_cols_spec; auto.
    + unfold mat_mul. rewrite map_length, weights_abs_length. exact S2.
Qed.
Lemma rsum_as_dot l : rsum l = dot (repeat 1 (length l)) l.
Proof. induction l as [|x l IH]; simpl; [auto|rewrite IH; ring]. Qed.
Lemma dot_ones_l n (f : nat -> R) : forall b, dot (repeat 1 n) (map f (seq b n)) = rsum (map f (seq b n)).
Proof. induction n as [|n IH]; intros b; simpl; [reflexivity|rewrite IH; ring]. Qed.
Lemma complexity_paths nin layers : layers <> [] -> shaped nin layers -> subnet_complexity nin layers = rsum (map (from layers) (seq 0 nin)).
Proof.
  destruct layers as [|l t]; [congruence|]. intros _ (S1 & S2). unfold subnet_complexity. rewrite product_paths.
  - rewrite weights_abs_length. rewrite (map_ext_in rsum (dot (repeat 1 nin))).
    2: { intros c Hc. rewrite rsum_as_dot, (weights_abs_col _ _ _ S1 Hc). reflexivity. }
    rewrite dot_exchange.
    + rewrite repeat_length, dot_ones_l. f_equal. apply map_ext. intros k. apply from_col.
    + intros b Hb. rewrite repeat_length. apply (weights_abs_col _ _ _ S1 Hb).
    + rewrite map_length, seq_length, weights_abs_length. reflexivity.
  - intros c Hc. apply (weights_abs_col _ _ _ S1 Hc).
  - rewrite weights_abs_length. exact S2.
Qed.
Lemma path_weight_nonneg layers : forall i p, 0 <= path_weight layers i p.
Proof. induction layers as [|l t IH]; intros i [|j p]; simpl; try lra. apply Rmult_le_pos; [apply Rabs_pos|apply IH]. Qed.
Lemma rsum_nonneg l : (forall x, In x l -> 0 <= x) -> 0 <= rsum l.
Proof. induction l as [|x l IH]; intros H; simpl; [lra|]. pose proof (H x (or_introl eq_refl)). specialize (IH (fun y Hy => H y (or_intror Hy))). lra. Qed.
Lemma rsum_zero l : (forall x, In x l -> 0 <= x) -> rsum l = 0 -> forall x, In x l -> x = 0.
Proof.
  induction l as [|y l IH]; intros H E x Hx; [destruct Hx|]. simpl in E. pose proof (H y (or_introl eq_refl)). pose proof (rsum_nonneg l (fun z Hz => H z (or_intror Hz))).
  destruct Hx as [<-|Hx]; [lra|]. apply IH; auto; [intros; apply H; right; auto|lra].
Qed.

(** ** Feeding *)
Section Feed.
Variable act : R -> R.
Lemma subnet_out_ok : forall layers x, shaped (length x) layers -> exists o, subnet_out act x layers = Ok o /\ length o = outputs (length x) layers.
Proof.
  induction layers as [|l t IH]; intros x Sh; cbn [subnet_out outputs]; [eauto|]. destruct Sh as (S1 & S2).
  assert (E : forallb (fun n => Nat.eqb (length n) (S (length x))) l = true) by (apply forallb_forall; intros n Hn; apply Nat.eqb_eq; auto). rewrite E.
  assert (L : length (layer_out act x l) = length l) by apply map_length. destruct (IH (layer_out act x l)) as (o & Eo & Lo); [rewrite L; auto|]. exists o. rewrite L in Lo. auto.
Qed.
Lemma pick_ok x s : (forall v, In v s -> (v < length x)%nat) -> exists xs, pick_vars x s = Ok xs /\ length xs = length s.
Proof.
  induction s as [|v s IH]; intros H; cbn [pick_vars]; [eauto|]. destruct (nth_error x v) as [a|] eqn:E; [|apply nth_error_None in E; specialize (H v (or_introl eq_refl)); lia].
  destruct (IH (fun w Hw => H w (or_intror Hw))) as (xs & -> & L). cbn [bind]. eexists. split; [reflexivity|]. simpl; auto.
Qed.
Lemma feed_ok x : forall subsets subnets, (length subnets <= length subsets)%nat -> (forall s v, In s subsets -> In v s -> (v < length x)%nat) ->
  (forall s net, In (s, net) (combine subsets subnets) -> shaped (length s) net) ->
  exists o, feed act subsets subnets x = Ok o /\ length o = list_sum (map (fun p => outputs (length (fst p)) (snd p)) (combine subsets subnets)).
Proof.
  induction subsets as [|s ss IH]; intros [|net nets] L V Sh; cbn [feed]; try (simpl in L; lia); try (exists []; auto; fail).
  destruct (pick_ok x s (fun v Hv => V s v (or_introl eq_refl) Hv)) as (xs & -> & Lx). cbn [bind].
  assert (S1 : shaped (length xs) net) by (rewrite Lx; apply Sh; left; auto).
  destruct (subnet_out_ok net xs S1) as (o & -> & Lo). cbn [bind].
  destruct (IH nets) as (r & -> & Lr); [simpl in L; lia|intros s0 v Hs; apply V; right; auto|intros s0 n0 Hs; apply Sh; right; auto|]. cbn [bind]. eexists. split; [reflexivity|].
  rewrite app_length, Lo, Lr, Lx. reflexivity.
Qed.
Lemma each_row_length {A B} (f : A -> res B) l r : each_row f l = Ok r -> length r = length l.
Proof. revert r; induction l as [|a l IH]; intros r E; cbn [each_row] in E; [injection E as <-; reflexivity|]. destruct (f a); [|discriminate]. cbn [bind] in E. destruct (each_row f l) as [t|]; [|discriminate]. injection E as <-. simpl. rewrite (IH t); auto. Qed.
Lemma each_row_nth {A B} (f : A -> res B) l r : each_row f l = Ok r -> forall i a, nth_error l i = Some a -> exists b, f a = Ok b /\ nth_error r i = Some b.
Proof.
  revert r; induction l as [|x l IH]; intros r E i a H; [destruct i; discriminate|]. cbn [each_row] in E. destruct (f x) as [b|] eqn:Ef; [|discriminate]. cbn [bind] in E. destruct (each_row f l) as [t|] eqn:Et; [|discriminate]. injection E as <-.
  destruct i as [|i]; cbn [nth_error] in H |- *; [injection H as ->; eauto|]. apply (IH t eq_refl i a H).
Qed.
Lemma each_row_ok {A B} (f : A -> res B) l : (forall a, In a l -> exists b, f a = Ok b) -> exists r, each_row f l = Ok r.
Proof. induction l as [|a l IH]; intros H; cbn [each_row]; [eauto|]. destruct (H a (or_introl eq_refl)) as (b & ->). destruct (IH (fun x Hx => H x (or_intror Hx))) as (r & ->). cbn [bind]. eauto. Qed.
End Feed.
Lemma node_out_cons p w : node_out p w = dot (1 :: p) w.
Proof. unfold node_out. destruct w as [|b w]; simpl; [rewrite dot_nil_r; ring|ring]. Qed.

(** ** Subsets *)
Open Scope nat_scope.
Section Sub.
Variable slot : nat -> nat.
Notation step := (fun ss v => if existsb (mem_nat v) ss then ss else append_at (slot v) v ss).
Lemma covered_spec v (ss : list (list nat)) : existsb (mem_nat v) ss = true <-> exists s, In s ss /\ In v s.
Proof. rewrite existsb_exists. split; intros (s & H1 & H2); exists s; split; auto; apply mem_nat_In; auto. Qed.
Lemma set_nth_In {A} i (x y : A) l : In y (set_nth i x l) -> y = x \/ In y l.
Proof. revert i; induction l as [|z l IH]; intros [|i]; simpl; auto; intros [H|H]; auto. apply IH in H. tauto. Qed.
Lemma set_nth_here {A} i (x : A) l : i < length l -> In x (set_nth i x l).
Proof. revert i; induction l as [|z l IH]; intros [|i] H; simpl in *; try lia; auto. right. apply IH. lia. Qed.
Lemma set_nth_stays {A} i (x y : A) l z : nth_error l i = Some z -> In y l -> y = z \/ In y (set_nth i x l).
Proof. revert i; induction l as [|a l IH]; intros [|i] E H; simpl in *; try discriminate. - injection E as ->. destruct H; auto. - destruct H as [->|H]; auto. destruct (IH i E H); auto. Qed.
Definition inv (nvar : nat) (ss : list (list nat)) : Prop := forall s, In s ss -> s <> [] /\ NoDup s /\ forall v, In v s -> v < nvar.
Lemma append_length i v ss : length (append_at i v ss) = length ss.
Proof. unfold append_at. destruct (nth_error ss i); auto. apply length_set_nth. Qed.
Lemma cover_step nvar k v ss : (forall v, slot v < k) -> length ss = k -> v < nvar -> inv nvar ss ->
  length (step ss v) = k /\ inv nvar (step ss v) /\ (exists s, In s (step ss v) /\ In v s) /\ (forall s u, In s ss -> In u s -> exists s', In s' (step ss v) /\ In u s').
Proof.
  intros Hs L Hv Inv. case_eq (existsb (mem_nat v) ss); intros E.
  - split; auto. split; auto. split; [apply covered_spec; auto|]. intros s u H1 H2. eauto.
  - rewrite append_length. split; auto. unfold append_at. destruct (nth_error ss (slot v)) as [s0|] eqn:En; [|apply nth_error_None in En; specialize (Hs v); lia].
    assert (Hi : In s0 ss) by (apply (nth_error_In _ _ En)). assert (Hlt : slot v < length ss) by (apply nth_error_Some; congruence).
    assert (Nv : ~ In v s0). { intros X. assert (existsb (mem_nat v) ss = true) by (apply covered_spec; eauto). congruence. }
    split; [|split].
    + intros s Hin. apply set_nth_In in Hin. destruct Hin as [->|Hin]; [|apply Inv; auto]. destruct (Inv s0 Hi) as (N & D & B). split; [destruct s0; discriminate|]. split.
      * rewrite <- (rev_involutive (s0 ++ [v])). apply NoDup_rev. rewrite rev_app_distr. simpl. constructor; [rewrite <- in_rev; auto|apply NoDup_rev; auto].
      * intros u Hu. apply in_app_or in Hu. destruct Hu as [Hu|[<-|[]]]; auto.
    + exists (s0 ++ [v]). split; [apply set_nth_here; auto|apply in_or_app; right; left; auto].
    + intros s u H1 H2. destruct (set_nth_stays (slot v) (s0 ++ [v]) s ss s0 En H1) as [->|H]; [|eauto]. exists (s0 ++ [v]). split; [apply set_nth_here; auto|apply in_or_app; auto].
Qed.
Lemma cover_all nvar k : (forall v, slot v < k) -> forall vs ss, (forall v, In v vs -> v < nvar) -> length ss = k -> inv nvar ss ->
  let ss' := fold_left step vs ss in
  length ss' = k /\ inv nvar ss' /\ (forall v, In v vs -> exists s, In s ss' /\ In v s) /\ (forall s u, In s ss -> In u s -> exists s', In s' ss' /\ In u s').
Proof.
  intros Hs. induction vs as [|v vs IH]; intros ss Hv L Inv; cbn [fold_left].
  - split; auto. split; auto. split; [intros v []|]. intros s u H1 H2; eauto.
  - destruct (cover_step nvar k v ss Hs L (Hv v (or_introl eq_refl)) Inv) as (L1 & I1 & (s1 & A1 & A2) & K1).
    destruct (IH (step ss v) (fun u Hu => Hv u (or_intror Hu)) L1 I1) as (L2 & I2 & C2 & K2). split; auto. split; auto. split.
    + intros u [<-|Hu]; [apply (K2 s1 v A1 A2)|auto].
    + intros s u H1 H2. destruct (K1 s u H1 H2) as (s' & B1 & B2). apply (K2 s' u B1 B2).
Qed.
End Sub.
