(** C126: what is recorded as a model's objectives while surrogate models are trained. *)
From Coq Require Import Reals Lra QArith FunctionalExtensionality.
From Verif Require Import Base RVec M_EvoNet Spec_EvoNet P_EvoNet Properties_EvoNet M_BioGP M_GPfit Spec_BioGP P_BioGP Spec_GPfit P_GPfit Properties_GPfit M_Perf P_LeastSq.
Open Scope nat_scope.

(** Mean squared error of predictions p for targets y. *)
Definition mse (y p : list R) : R := (squared_error p y / INR (length y))%R.

Lemma Forall2_len {A B} (P : A -> B -> Prop) l l' : Forall2 P l l' -> length l = length l'.
Proof. induction 1; cbn [length]; congruence. Qed.

Section Nets.
Context (act : R -> R) (lstsq : list (list R) -> list R -> list R).

Lemma each_row_oks {A B} (f : A -> res B) (P : A -> B -> Prop) l : (forall a, In a l -> exists b, f a = Ok b /\ P a b) -> exists r, each_row f l = Ok r /\ Forall2 P l r.
Proof.
  induction l as [|a l IH]; intros H; cbn [each_row]; [exists []; auto|]. destruct (H a (or_introl eq_refl)) as (b & -> & Hb). cbn [bind].
  destruct IH as (r & -> & Hr); [intros; apply H; right; auto|]. cbn [bind]. exists (b :: r). auto.
Qed.
Lemma each_row_all {A B} (f : A -> res B) l : forall r, each_row f l = Ok r -> Forall2 (fun a b => f a = Ok b) l r.
Proof.
  induction l as [|a l IH]; intros r; cbn [each_row]; [intros E; injection E as <-; constructor|]. destruct (f a) as [b|] eqn:E1; [|discriminate]. cbn [bind].
  destruct (each_row f l) as [t|]; [|discriminate]. cbn [bind]. intros E. injection E as <-. constructor; auto.
Qed.

(** C126, EvoNN. Evaluating a batch of networks on the training data gives a row for each, in order: the mean squared error of that network with its own output layer - no other output
    layer does better - and its number of non-zero weights; a single network gives the same pair. *)
Theorem C126_evonn_rows : forall s X y nets, least_squares lstsq -> length X = length y -> y <> [] ->
  exists rows, nn_performance act lstsq mse s X y (Some (Nets nets)) None = Ok (Rows rows) /\ length rows = length nets /\
  forall i f, nth_error nets i = Some f -> exists e,
    nth_error rows i = Some (e, INR (connections (concat f))) /\
    nn_performance act lstsq mse s X y (Some (ANet f)) None = Ok (One (e, INR (connections (concat f)))) /\
    (exists last, e = mse y (map (nn_pred act f last) X)) /\ forall last, (e <= mse y (map (nn_pred act f last) X))%R.
Proof.
  intros s X y nets LS HX Hy. unfold nn_performance.
  destruct (each_row_oks (nn_row act lstsq mse X y (Some y)) (fun f r => nn_row act lstsq mse X y (Some y) f = Ok r /\ r = (mse y (map (nn_pred act f (nn_last act lstsq X y f)) X), INR (connections (concat f)))) nets) as (rows & E & F).
  { intros f _. unfold nn_row. rewrite HX, Nat.eqb_refl. rewrite count_connections. eexists. split; [reflexivity|]. split; reflexivity. }
  rewrite E. cbn [bind]. exists rows. split; [reflexivity|]. split; [symmetry; eapply Forall2_len; exact F|].
  intros i f Hi. assert (G : exists r, nth_error rows i = Some r /\ nn_row act lstsq mse X y (Some y) f = Ok r /\ r = (mse y (map (nn_pred act f (nn_last act lstsq X y f)) X), INR (connections (concat f)))).
  { clear - F Hi. revert i Hi. induction F as [|a b l l' H F IH]; intros [|i] Hi; try discriminate; [injection Hi as <-; exists b; auto|apply (IH i Hi)]. }
  destruct G as (r & G1 & G2 & ->). eexists. split; [exact G1|]. split; [rewrite G2; reflexivity|]. split; [eauto|].
  intros last. unfold mse. apply Rmult_le_compat_r; [left; apply Rinv_0_lt_compat, lt_0_INR; destruct y; [congruence|cbn; lia]|]. apply (C94_best_output_layer act lstsq LS).
Qed.

(** C126, EvoNN. After a successful training, asking for the performance of the model (without arguments) gives the error of what it predicts for the training data; an untrained
    model refuses. *)
Theorem C126_evonn_trained_model : forall loss c X y pop errors s s', length X = length y -> nn_fit_end act lstsq c X y pop errors s = (s', Ok tt) ->
  exists p f, nn_predict act s' X = Ok p /\ In f pop /\ nn_performance act lstsq loss s' X y None None = Ok (One (loss y p, INR (connections (concat f)))).
Proof.
  intros loss c X y pop errors s s' HX E. unfold nn_fit_end in E. destruct (nn_select act lstsq c X y pop errors s) as [s1 [[]|]] eqn:Es; [|discriminate]. injection E as <-.
  assert (G : exists i l, nn_finish act lstsq X y pop l i s = (s1, Ok tt)).
  { unfold nn_select in Es. destruct c.
    - destruct (argmin errors); [eauto|discriminate].
    - destruct (map (nn_aicc act lstsq X y) pop) as [|a l]; [discriminate|eauto].
    - discriminate. }
  destruct G as (i & l & G). unfold nn_finish in G. destruct (nth_error pop i) as [f|] eqn:Ef; [|discriminate]. destruct (nth_error l i); [|discriminate]. injection G as <-.
  cbn [nn_first nn_lastl nn_rmse nn_AICc nn_trained nn_predict]. eexists _, f. split; [reflexivity|]. split; [eapply nth_error_In; eauto|].
  unfold nn_performance. cbn [nn_trained negb nn_first option_map]. unfold nn_row. rewrite HX, Nat.eqb_refl, count_connections. reflexivity.
Qed.
Theorem C126_evonn_untrained : forall loss s X y other, nn_trained s = false -> nn_performance act lstsq loss s X y None other = Err ModelError.
Proof. intros loss s X y other H. unfold nn_performance. rewrite H. reflexivity. Qed.
(** C126 (false of the code). The performance on other data than the training data cannot be had: the call fails whatever the data, for every network. *)
Theorem C126_other_data_refuted : forall loss s X y other arg, (forall l, arg = Some (Nets l) -> l <> []) ->
  exists e, nn_performance act lstsq loss s X y arg (Some other) = Err e.
Proof.
  intros loss s X y other arg Ha. unfold nn_performance. destruct (match arg with None => negb (nn_trained s) | Some _ => false end); [eauto|].
  assert (R : forall f, exists e, nn_row act lstsq loss other y None f = Err e) by (intros f; unfold nn_row; destruct (Nat.eqb (length other) (length y)); eauto).
  destruct (match arg with Some a => Some a | None => option_map ANet (nn_first s) end) as [[l|f]|] eqn:E; [| |eauto].
  - assert (Hl : l <> []) by (destruct arg as [a|]; [injection E as ->; apply Ha; auto|destruct (nn_first s); discriminate]).
    destruct l as [|f l]; [congruence|]. cbn [each_row]. destruct (R f) as [e ->]. cbn [bind]. eauto.
  - destruct (R f) as [e ->]. cbn [bind]. eauto.
Qed.

(** C126, EvoDN2. Two or more networks that can be evaluated: a row for each, in order - the mean squared error of the network with an output layer no other beats, and the
    complexity of the same network. *)
Theorem C126_evodn2_rows : forall s X y ss nets rows, dn_subsets s = Some ss -> dn_performance act lstsq mse s X y (Some nets) = Ok (Rows rows) -> least_squares lstsq -> y <> [] ->
  length rows = length nets /\
  forall i net, nth_error nets i = Some net -> exists e hidden, each_row (feed act ss net) X = Ok hidden /\
    nth_error rows i = Some (e, complexity ss net) /\
    (exists w, e = mse y (map (fun h => dot (1%R :: h) w) hidden)) /\ forall w, (e <= mse y (map (fun h => dot (1%R :: h) w) hidden))%R.
Proof.
  intros s X y ss nets rows Hss E LS Hy. unfold dn_performance in E. destruct (Nat.ltb 1 (length nets)); [|discriminate]. rewrite Hss in E.
  destruct (each_row (dn_row act lstsq mse ss X y) nets) as [r|] eqn:Er; [|discriminate]. cbn [bind] in E. injection E as <-.
  apply each_row_all in Er. split; [symmetry; eapply Forall2_len; exact Er|].
  intros i net Hi. assert (G : exists p, nth_error r i = Some p /\ dn_row act lstsq mse ss X y net = Ok p).
  { clear - Er Hi. revert i Hi. induction Er as [|a b l l' H F IH]; intros [|i] Hi; try discriminate; [injection Hi as <-; exists b; auto|apply (IH i Hi)]. }
  destruct G as (p & G1 & G2). unfold dn_row in G2. destruct (each_row (feed act ss net) X) as [hidden|]; [|discriminate]. cbn [bind] in G2. injection G2 as <-.
  eexists _, hidden. split; [reflexivity|]. split; [exact G1|]. unfold dn_linear. cbn [fst]. rewrite map_map. split; [eauto|].
  intros w. unfold mse. apply Rmult_le_compat_r; [left; apply Rinv_0_lt_compat, lt_0_INR; destruct y; [congruence|cbn; lia]|].
  pose proof (LS (map (cons 1%R) hidden) y w) as H. rewrite !map_map in H. exact H.
Qed.
(** What EvoDN2.fit records of the selected network is the smallest error recorded during training, and the complexity recorded with it. *)
Theorem C126_evodn2_records_agree : forall X y pop rows s s', dn_performance act lstsq mse s X y (Some pop) = Ok (Rows rows) -> y <> [] ->
  dn_fit_end act lstsq MinError X y pop (map fst rows) s = (s', Ok tt) ->
  exists i e c, nth_error rows i = Some (e, c) /\ (forall r, In r rows -> (e <= fst r)%R) /\ nth_error pop i = dn_subnets s' /\ dn_complexity s' = Some c /\
    exists rm, dn_rmse s' = Some rm /\ (0 <= rm /\ rm ^ 2 = e)%R.
Proof.
  intros X y pop rows s s' E Hy Ef. unfold dn_performance in E. destruct (Nat.ltb 1 (length pop)); [|discriminate]. destruct (dn_subsets s) as [ss|] eqn:Hss; [|discriminate].
  destruct (each_row (dn_row act lstsq mse ss X y) pop) as [r|] eqn:Er; [|discriminate]. cbn [bind] in E. injection E as ->. apply each_row_all in Er.
  unfold dn_fit_end, dn_select in Ef. rewrite Hss in Ef. destruct (argmin (map fst rows)) as [i|] eqn:Ei; [|discriminate].
  destruct (nth_error pop i) as [net|] eqn:En; [|discriminate].
  assert (G : exists p, nth_error rows i = Some p /\ dn_row act lstsq mse ss X y net = Ok p).
  { clear - Er En. revert i En. induction Er as [|a b l l' H F IH]; intros [|i] Hi; try discriminate; [injection Hi as <-; exists b; auto|apply (IH i Hi)]. }
  destruct G as ((e, c) & G1 & G2). unfold dn_row in G2. destruct (each_row (feed act ss net) X) as [hidden|]; [|discriminate]. cbn [bind] in G2. 
    assert (G3 : (mse y (fst (dn_linear lstsq hidden y)), complexity ss net) = (e, c)) by congruence. pose proof (f_equal fst G3) as Ge. pose proof (f_equal snd G3) as Gc. cbn [fst snd] in Ge, Gc. clear G3 G2.
  destruct (dn_linear lstsq hidden y) as [yp w] eqn:Ed. cbn [fst] in Ge. injection Ef as <-.
  exists i, e, c. split; [exact G1|]. split.
  - destruct (argmin_spec _ _ Ei) as (v & Hv & Hall & _). rewrite nth_error_map, G1 in Hv. cbn [option_map fst] in Hv. injection Hv as <-. intros p Hp. apply Hall. apply in_map. exact Hp.
  - cbn [dn_subnets dn_complexity dn_rmse]. split; [exact En|]. split; [congruence|]. eexists. split; [reflexivity|].
    destruct (rmse_is yp y Hy) as [A B]. split; [exact A|]. rewrite <- Ge. exact B.
Qed.
(** C126 (false of the code). The performance of a trained EvoDN2 model cannot be asked for: TypeError. *)
Theorem C126_evodn2_trained_model_refuted : forall loss X y pop errors s s', dn_fit_end act lstsq MinError X y pop errors s = (s', Ok tt) ->
  dn_performance act lstsq loss s' X y None = Err TypeError.
Proof.
  intros loss X y pop errors s s' E. unfold dn_fit_end in E. destruct (dn_select act lstsq MinError X y pop errors s) as [s1 [[]|]]; [|discriminate]. injection E as <-. reflexivity.
Qed.
(** C126. A model that was only constructed refuses, whatever its options and data. *)
Remark new_models : forall loss subsets X y other,
  nn_performance act lstsq loss nn_new X y None other = Err ModelError /\ dn_performance act lstsq loss (dn_new subsets) X y None = Err ModelError.
Proof. intros. split; reflexivity. Qed.
End Nets.

Section GP.
Context {V F : Type} (zero_p : V -> bool) (one : V) (arity : F -> nat) (is_div : F -> bool) (sem : F -> list (list V) -> list V) (rows : nat).
Context (fs : list F) (ts : list (term V)) (pick : nat -> nat -> nat) (coin : nat -> bool).
Context (lstsq : list (list V) -> list V -> list V) (dot : list (list V) -> list V -> list V) (low : list (list V) -> list V -> list bool) (loss : list V -> list V -> V).
Hypothesis one_nz : zero_p one = false.
Hypothesis div2 : forall f, is_div f = true -> arity f = 2.
(** C126, BioGP. If no variable used as a bare denominator has a zero in the data, every individual of a batch is fitted to the data as they are, and its row is its own error
    and complexity. *)
Theorem C126_biogp_rows_partial : forall D m cs d y inds t d' res t',
  gp_rows zero_p one arity is_div sem rows lstsq dot low pick coin fs ts loss D m cs d y inds t = Ok (d', res, t') ->
  (forall roots, In roots inds -> individual arity fs ts (Tr VLin roots) /\ forall k c, In k roots -> bare_denominator is_div k c -> no_zero zero_p (d c)) ->
  d' = d /\ Forall2 (fun roots nr => snd nr = (loss y (l_out (fst nr)), l_complexity (fst nr)) /\
    exists t1 t2, calculate_linear zero_p one arity is_div sem rows lstsq dot low pick coin fs ts D m cs d y roots t1 = Ok (d, fst nr, t2)) inds res.
Proof.
  intros D m cs d y inds. induction inds as [|roots l IH]; intros t d' rs t' E H; cbn [gp_rows] in E.
  - injection E as <- <- <-. auto.
  - destruct (calculate_linear zero_p one arity is_div sem rows lstsq dot low pick coin fs ts D m cs d y roots t) as [[[d1 n] t1]|] eqn:Ec; [|discriminate]. cbn [bind] in E.
    destruct (gp_rows zero_p one arity is_div sem rows lstsq dot low pick coin fs ts loss D m cs d1 y l t1) as [[[d2 ns] t2]|] eqn:Eg; [|discriminate]. cbn [bind] in E. injection E as <- <- <-.
    destruct (H roots (or_introl eq_refl)) as [[_ W] Z].
    assert (Ed : d1 = d).
    { apply linear_prune in Ec as (_ & -> & _). apply functional_extensionality. intros c.
      apply (columns_value zero_p one arity is_div sem rows fs ts one_nz div2 roots d W Z). }
    subst d1. destruct (IH t1 d2 ns t2 Eg) as [-> HF]; [intros; apply H; right; auto|]. split; [reflexivity|]. constructor; [|exact HF]. cbn [fst snd]. split; [reflexivity|eauto].
Qed.
End GP.
(** C126 (false of the code): two rows, x0 = (0, 1), x1 = (3, 4), y = (5, 7). The individual x0 alone fits y exactly: error 0. Evaluated in a batch after x1 / x0, which writes a 1 over the
    zero in the data, the same individual is recorded with error 1. *)
Section GPExample.
(** Least squares on two rows for a constant and one column (of least norm if that column is constant). *)
Definition lstsq2 (m : list (list Q)) (y : list Q) : list Q :=
  match m, y with
  | [_; [x1; x2]], [y1; y2] =>
      if Qeq_bool x1 x2 then [Qred ((y1 + y2) / 2 / (1 + x1 * x1)); Qred ((y1 + y2) / 2 / (1 + x1 * x1) * x1)]%Q
      else [Qred (y1 - (y2 - y1) / (x2 - x1) * x1); Qred ((y2 - y1) / (x2 - x1))]%Q
  | _, _ => []
  end.
Definition dot2 (m : list (list Q)) (w : list Q) : list Q :=
  match m, w with [[a1; a2]; [x1; x2]], [w0; w1] => [Qred (a1 * w0 + x1 * w1); Qred (a2 * w0 + x2 * w1)]%Q | _, _ => [] end.
Definition mse2 (y p : list Q) : Q := match y, p with [y1; y2], [p1; p2] => Qred (((y1 - p1) * (y1 - p1) + (y2 - p2) * (y2 - p2)) / 2)%Q | _, _ => 0%Q end.
Definition data2 (c : nat) : list Q := match c with O => [0; 1]%Q | _ => [3; 4]%Q end.
Definition batch2 := gp_rows zp 1%Q (fun _ : fn => 2) isdiv sem 2 lstsq2 dot2 (fun _ _ => [false]) (fun _ _ => 0) (fun _ => true) fns tms mse2 3 1 (1 # 2)%Q data2 [5; 7]%Q.
Definition ratio : tree fn (term Q) := Tr (VFun Div) [var 1; var 0].
Theorem C126_biogp_batch_order_refuted :
  (exists d n c t, batch2 [[var 0]] 0 = Ok (d, [(n, (0%Q, c))], t) /\ l_roots n = [var 0]) /\
  (exists d n c n' r t, batch2 [[ratio]; [var 0]] 0 = Ok (d, [(n', r); (n, (1%Q, c))], t) /\ l_roots n = [var 0] /\ d 0 = [1; 1]%Q) /\
  individual (fun _ => 2) fns tms (Tr VLin [ratio]) /\ individual (fun _ => 2) fns tms (Tr VLin [var 0]).
Proof.
  split; [|split; [|split]].
  - eexists _, _, _, _. split; [vm_compute; reflexivity|reflexivity].
  - eexists _, _, _, _, _, _. split; [vm_compute; reflexivity|]. split; vm_compute; reflexivity.
  - split; [reflexivity|]. intros k [<-|[]] n s A; (inversion A as [|? k0 ? ? Hk A']; subst; [split; [cbn; tauto|reflexivity]|]; destruct Hk as [<-|[<-|[]]]; (inversion A' as [|? ? ? ? Hk' ?]; subst; [cbn; auto|destruct Hk'])).
  - split; [reflexivity|]. intros k [<-|[]] n s A; (inversion A as [|? k0 ? ? Hk A']; subst; [cbn; auto|destruct Hk]).
Qed.
(** Without the zero (here x1 as only denominator) the hypotheses of the partial theorem hold. *)
Example C126_biogp_hyps : forall roots, In roots [[Tr (VFun Div) [var 0; var 1]]; [var 0]] ->
  individual (fun _ => 2) fns tms (Tr VLin roots) /\ forall k c, In k roots -> bare_denominator isdiv k c -> no_zero zp (data2 c).
Proof.
  intros roots [<-|[<-|[]]]; split.
  - split; [reflexivity|]. intros k [<-|[]] n s A; (inversion A as [|? k0 ? ? Hk A']; subst; [split; [cbn; tauto|reflexivity]|]; destruct Hk as [<-|[<-|[]]]; (inversion A' as [|? ? ? ? Hk' ?]; subst; [cbn; auto|destruct Hk'])).
  - intros k c [<-|[]] (n & f & x & kids & H1 & A). inversion A as [|? k0 n0 ? Hk A']; subst.
    + vm_compute. intros v [<-|[<-|[]]]; reflexivity.
    + destruct Hk as [<-|[<-|[]]]; inversion A' as [|? ? ? ? Hk' ?]; subst; destruct Hk'.
  - split; [reflexivity|]. intros k [<-|[]] n s A; (inversion A as [|? k0 ? ? Hk A']; subst; [cbn; auto|destruct Hk]).
  - intros k c [<-|[]] (n & f & x & kids & H1 & A). inversion A as [|? k0 n0 ? Hk A']; subst. destruct Hk.
Qed.
End GPExample.
Print Assumptions C126_biogp_batch_order_refuted.
Print Assumptions C126_evonn_rows.
Print Assumptions C126_evonn_trained_model.
Print Assumptions C126_evonn_untrained.
Print Assumptions C126_other_data_refuted.
Print Assumptions C126_evodn2_rows.
Print Assumptions C126_evodn2_records_agree.
Print Assumptions C126_evodn2_trained_model_refuted.
Print Assumptions C126_biogp_rows_partial.

(** ** Instances *)
(** The contract on least squares (also that of C94) can be met, for every matrix. *)
Example C126_least_squares : least_squares ref_lstsq.
Proof. exact ref_lstsq_least. Qed.
(** Two networks, one sample. *)
Example C126_evodn2_example : exists rows s', dn_performance relu ref_lstsq mse (dn_new (Some [[0; 1]])) [[1; 2]]%R [3]%R (Some [[nets]; [nets]]) = Ok (Rows rows) /\
  dn_fit_end relu ref_lstsq MinError [[1; 2]]%R [3]%R [[nets]; [nets]] (map fst rows) (dn_new (Some [[0; 1]])) = (s', Ok tt).
Proof.
  assert (E : exists rows, dn_performance relu ref_lstsq mse (dn_new (Some [[0; 1]])) [[1; 2]]%R [3]%R (Some [[nets]; [nets]]) = Ok (Rows rows) /\ length rows = 2) by (eexists; split; reflexivity).
  destruct E as (rows & E & L). exists rows.
  destruct (C96_selection_succeeds relu ref_lstsq [[1; 2]]%R [3]%R [[nets]; [nets]] (map fst rows) (dn_new (Some [[0; 1]])) [[0; 1]] 2) as [s' Es]; try reflexivity; try discriminate.
  - rewrite map_length, L. reflexivity.
  - intros sub v [<-|[]] [<-|[<-|[]]]; lia.
  - intros x [<-|[]]; reflexivity.
  - intros n [<-|[<-|[]]]; (split; [simpl; lia|]); intros sub net [Ee|[]]; injection Ee as <- <-; apply C95_example.
  - exists s'. split; [exact E|exact Es].
Qed.
