(** C132 (false of the code): what numpy's seed does not determine. *)
From Coq Require Import Reals QArith Lra Lia Permutation.
From Verif Require Import Base M_Create M_Recombination M_MOEAD M_MoeadRun M_Indicator M_Seed Properties_Seed.
Open Scope nat_scope.

(** Generators for the witnesses: numpy's holds a list of coins, one per call ([true]: all numbers 0, [false]: all 1/2); Python's holds a bit: shuffle keeps the order or reverses it. *)
Definition coin (l : list bool) : R := if hd false l then 0%R else (1 / 2)%R.
Definition coins : generators := mkGenerators (list bool) bool
  (fun k l => (repeat (coin l) k, tl l)) (fun k l => (repeat false k, l)) (fun k l => (0%Z, tl l)) (fun k m l => (seq 0 m, tl l)) (fun k m l => (repeat (repeat (coin l) k) m, tl l))
  (fun k b => (if b then seq 0 k else rev (seq 0 k), b)).
Lemma coin_range l : (0 <= coin l < 1)%R. Proof. unfold coin. destruct (hd false l); lra. Qed.
Lemma coins_honest : honest coins.
Proof.
  assert (F : forall l k, Forall (fun x => 0 <= x < 1)%R (repeat (coin l) k)) by (intros l k; apply Forall_forall; intros x Hx; apply repeat_spec in Hx; subst; apply coin_range).
  split; [intros k l; split; [apply repeat_length|apply F]|]. split; [intros k l; apply repeat_length|].
  split; [intros k l Hk; cbn; lia|].
  split; [intros k m l Hm; cbn [coins g_choice fst]; split; [apply seq_length|split; [apply seq_NoDup|apply Forall_forall; intros i Hi; apply in_seq in Hi; lia]]|].
  split; [intros k m l; cbn [coins g_lhs fst]; split; [apply repeat_length|apply Forall_forall; intros r Hr; apply repeat_spec in Hr; subst; split; [apply repeat_length|apply F]]|].
  intros k [|]; cbn [coins g_shuffle fst]; [reflexivity|]. apply Permutation_sym, Permutation_rev.
Qed.

Open Scope R_scope.
Lemma npow_one y : npow 1 y = Some 1.
Proof. unfold npow. destruct (Rlt_dec 0 1) as [_|N]; [|lra]. f_equal. unfold Rpower. rewrite ln_1, Rmult_0_r. apply exp_0. Qed.
Lemma npow_zero y : 0 < y -> npow 0 y = Some 0.
Proof. intros H. unfold npow. destruct (Rlt_dec 0 0) as [N|_]; [lra|]. destruct (Req_EM_T 0 0) as [_|N]; [|lra]. destruct (Rlt_dec 0 y); [reflexivity|lra]. Qed.
Lemma npow_nonneg s y : 0 <= s -> 0 < y -> exists a, npow s y = Some a.
Proof. intros H Hy. destruct (Req_dec s 0) as [->|N]; [rewrite npow_zero by lra; eauto|]. unfold npow. destruct (Rlt_dec 0 s) as [_|M]; [eauto|lra]. Qed.
(** Mutation drawing 1/2 leaves a gene alone. *)
Lemma bp_half ProM DisM k x : -1 < DisM -> 0 <= x <= 1 -> bp_gene ProM DisM 0 1 k (1 / 2) (Some x) = Some x.
Proof.
  intros HD Hx. unfold bp_gene. cbv zeta. cbn [obind]. destruct (Req_EM_T (1 - 0) 0) as [N|_]; [lra|]. cbn [obind].
  destruct (npow_nonneg ((x - 0) / (1 - 0)) (DisM + 1)) as [a Ea]; [replace ((x - 0) / (1 - 0)) with x by field; lra|lra|].
  replace (2 * (1 - 1 / 2)) with 1 by lra. rewrite Ea. cbn [obind]. replace (1 + 2 * (1 / 2 - 1 / 2) * a) with 1 by lra. rewrite npow_one. cbn [obind].
  destruct (Rlt_dec (1 / 2) (1 / 2)) as [N|_]; [lra|]. replace (x + (1 - 0) * (1 - 1)) with x by lra.
  assert (C : clamp_lo 0 (clamp_hi 1 (Some x)) = Some x).
  { unfold clamp_hi. destruct (Rlt_dec 1 x) as [N|_]; [lra|]. unfold clamp_lo. destruct (Rlt_dec x 0) as [N|_]; [lra|reflexivity]. }
  destruct (Rle_dec k ProM); exact C.
Qed.
Lemma beta_zero ProC DisC pr : -1 < DisC -> pr <= ProC -> sbx_beta ProC DisC (mkDraw 0 false pr) = Some 0.
Proof.
  intros HD Hp. unfold sbx_beta. cbn [d_miu d_neg d_pr]. destruct (Rle_dec 0 (1 / 2)) as [_|N]; [|lra]. rewrite Rmult_0_r, npow_zero by (apply Rdiv_lt_0_compat; lra).
  destruct (Rlt_dec ProC pr); [lra|reflexivity].
Qed.
Lemma beta_half ProC DisC pr : -1 < DisC -> sbx_beta ProC DisC (mkDraw (1 / 2) false pr) = Some 1.
Proof.
  intros HD. unfold sbx_beta. cbn [d_miu d_neg d_pr]. destruct (Rle_dec (1 / 2) (1 / 2)) as [_|N]; [|lra]. replace (2 * (1 / 2)) with 1 by lra. rewrite npow_one.
  destruct (Rlt_dec ProC pr); reflexivity.
Qed.
Lemma gene_zero ProC DisC pr x y : -1 < DisC -> pr <= ProC -> sbx_gene ProC DisC (mkDraw 0 false pr) x y = (Some ((x + y) / 2), Some ((x + y) / 2)).
Proof. intros. unfold sbx_gene. rewrite beta_zero by auto. f_equal; f_equal; lra. Qed.
Lemma gene_half ProC DisC pr x y : -1 < DisC -> sbx_gene ProC DisC (mkDraw (1 / 2) false pr) x y = (Some x, Some y).
Proof. intros. unfold sbx_gene. rewrite beta_half by auto. f_equal; f_equal; lra. Qed.
Section Witness.
Context (ProC DisC ProM DisM nan : R).
Hypothesis HC : 1 / 2 <= ProC.
Hypothesis HDC : -1 < DisC.
Hypothesis HDM : -1 < DisM.
Notation mate_ := (pop_mate coins ProC DisC ProM DisM [0] [1] nan).
Lemma take3 (x y z : list R) : take_rows [x; y; z] (map Z.of_nat [0; 1; 2]%nat) = Ok [x; y; z] /\ take_rows [x; y; z] (map Z.of_nat [2; 1; 0]%nat) = Ok [z; y; x].
Proof. split; reflexivity. Qed.
Lemma take2 (x y : list R) : take_rows [x; y] (map Z.of_nat [0; 1]%nat) = Ok [x; y].
Proof. reflexivity. Qed.
(** Two pairs drawing 0 for the spread and 1/2 for the mutation: every pair gives its midpoint twice. *)
Lemma mate_three b x y z : 0 <= x <= 1 -> 0 <= y <= 1 -> 0 <= z <= 1 ->
  mate_ [[x]; [y]; [z]] None [true; true; true; true; false; false] b =
  (Ok (if b then [[(x + y) / 2]; [(x + y) / 2]; [(z + x) / 2]; [(z + x) / 2]] else [[(z + y) / 2]; [(z + y) / 2]; [(x + z) / 2]; [(x + z) / 2]]), ([], b)).
Proof.
  intros Hx Hy Hz. unfold pop_mate, andthen at 1. unfold python. change (g_shuffle coins (length [[x]; [y]; [z]]) b) with (if b then [0; 1; 2]%nat else [2; 1; 0]%nat, b).
  cbn [fst snd]. cbv zeta. unfold andthen at 1, of_res at 1. destruct (take3 [x] [y] [z]) as [T1 T2].
  assert (T : take_rows [[x]; [y]; [z]] (map Z.of_nat (if b then [0; 1; 2]%nat else [2; 1; 0]%nat)) = Ok (if b then [[x]; [y]; [z]] else [[z]; [y]; [x]])) by (destruct b; assumption).
  rewrite T. cbn [fst snd]. assert (D : Nat.div2 (length (close_odd (if b then [[x]; [y]; [z]] else [[z]; [y]; [x]]))) = 2%nat) by (destruct b; reflexivity). rewrite D.
  set (ids := map Z.of_nat _) in *. cbn. unfold andthen, numpy, draw_array, ret, of_res. cbn.
  unfold mate, sbx_do. rewrite T. unfold cell. destruct b; cbn.
  all: rewrite !gene_zero by (auto; lra); cbn; rewrite !bp_half by (auto; lra); reflexivity.
Qed.
Lemma mate_two x y c c1 c2 t b : 0 <= x <= 1 -> 0 <= y <= 1 ->
  mate_ [[x]; [y]] None (c :: c1 :: c2 :: false :: t) true = (Ok (if c then [[(x + y) / 2]; [(x + y) / 2]] else [[x]; [y]]), (t, true)) /\
  mate_ [[x]; [y]] (Some [0; 1]%nat) (c :: c1 :: c2 :: false :: t) b = (Ok (if c then [[(x + y) / 2]; [(x + y) / 2]] else [[x]; [y]]), (t, b)).
Proof.
  intros Hx Hy. assert (P : coin (c1 :: c2 :: false :: t) <= ProC) by (unfold coin; cbn [hd]; destruct c1; lra).
  assert (X : forall b, (let ids' := map Z.of_nat [0; 1]%nat in
    andthen coins (of_res coins (take_rows [[x]; [y]] ids')) (fun mp =>
    let n_pairs := Nat.div2 (length (close_odd mp)) in
    andthen coins (draw_pairs coins n_pairs (length [0])) (fun ds =>
    andthen coins (draw_array coins (2 * n_pairs) (length [0])) (fun k =>
    andthen coins (draw_array coins (2 * n_pairs) (length [0])) (fun miu =>
    andthen coins (of_res coins (mate ProC DisC ProM DisM (cell no_draw ds) (fun i j => (k i j, miu i j)) [0] [1] [[x]; [y]] ids')) (fun off =>
    ret coins (map (map (gene nan)) off))))))) (c :: c1 :: c2 :: false :: t) b = (Ok (if c then [[(x + y) / 2]; [(x + y) / 2]] else [[x]; [y]]), (t, b))).
  { clear b. intros b. cbv zeta. set (ids := map Z.of_nat _). pose proof (take2 [x] [y]) as T. fold ids in T. clearbody ids. rewrite T. unfold andthen at 1, of_res at 1. cbn [fst snd].
    change (Nat.div2 (length (close_odd [[x]; [y]]))) with 1%nat. cbn. unfold andthen, numpy, draw_array, ret, of_res. cbn. unfold mate, sbx_do. rewrite T. unfold cell. cbn.
    unfold coin at 1 3. cbn [hd]. destruct c.
    - rewrite !gene_zero by (auto; unfold coin; cbn [hd]; destruct c1; lra). cbn. rewrite !bp_half by (auto; lra). reflexivity.
    - rewrite !gene_half by auto. cbn. rewrite !bp_half by (auto; lra). reflexivity. }
  split; [exact (X true)|exact (X b)].
Qed.
End Witness.

(** Operator settings within the usual ranges (the defaults are 1, 30, 20). *)
Definition usual (ProC DisC DisM : R) : Prop := 1 / 2 <= ProC /\ -1 < DisC /\ -1 < DisM.
(** A selection operator that always selects existing members. *)
Definition selects {G A} (select : A -> list (list R) -> NP G -> res (A * list nat) * NP G) : Prop :=
  forall a xs n, xs <> [] -> exists a' sel n', select a xs n = (Ok (a', sel), n') /\ Forall (fun i => (i < length xs)%nat) sel.
Lemma take_ok {A} (l : list A) sel : Forall (fun i => (i < length l)%nat) sel -> exists r, take_rows l (map Z.of_nat sel) = Ok r.
Proof.
  intros H. unfold take_rows. assert (E : exists r, norm_idxs (length l) (map Z.of_nat sel) = Ok r).
  { induction H as [|i sel Hi _ (r & IH)]; cbn [map norm_idxs]; [eauto|]. unfold norm_idx.
    destruct (Z.leb_spec 0 (Z.of_nat i)) as [HT|HT]; [|lia]. destruct (Z.ltb_spec (Z.of_nat i) (Z.of_nat (length l))) as [HU|HU]; [|lia].
    cbn [andb]. rewrite IH. cbn. eauto. }
  destruct E as [r ->]. cbn. eauto.
Qed.
Lemma gen_evaluates {G A} ProC DisC ProM DisM lbs ubs nan (select : A -> list (list R) -> NP G -> res (A * list nat) * NP G) s n p off n1 p1 :
  selects select -> pop_mate G ProC DisC ProM DisM lbs ubs nan (ds_pop s) None n p = (Ok off, (n1, p1)) -> ds_pop s <> [] ->
  exists t st, decomposition_gen G ProC DisC ProM DisM lbs ubs nan select s n p = (Ok t, st) /\ ds_evaluated t = ds_evaluated s ++ off.
Proof.
  intros H M N. unfold decomposition_gen. unfold andthen at 1. rewrite M. cbn [fst snd]. cbv zeta. unfold andthen at 1.
  destruct (H (ds_op s) (ds_pop s ++ off) n1) as (a' & sel & n' & E & B); [intros Z; apply app_eq_nil in Z; tauto|]. rewrite E. cbn [fst snd].
  destruct (take_ok _ _ B) as (r & T). unfold andthen, of_res. rewrite T. eexists. eexists. split; reflexivity.
Qed.

(** C132 (false of the code). Seeding numpy does not determine the offspring of Population.mate() ... *)
Theorem C132_mate_refuted : forall ProC DisC ProM DisM nan, usual ProC DisC DisM ->
  exists G pop n p p' o o', honest G /\ fst (pop_mate G ProC DisC ProM DisM [0] [1] nan pop None n p) = Ok o /\
    fst (pop_mate G ProC DisC ProM DisM [0] [1] nan pop None n p') = Ok o' /\ exists x, In x o /\ ~ In x o'.
Proof.
  intros ProC DisC ProM DisM nan (HC & HDC & HDM). exists coins, [[0]; [1 / 2]; [1]], [true; true; true; true; false; false], true, false.
  assert (H0 : 0 <= 0 <= 1) by lra. assert (H1 : 0 <= 1 / 2 <= 1) by lra. assert (H2 : 0 <= 1 <= 1) by lra.
  eexists. eexists. split; [apply coins_honest|]. rewrite !(mate_three ProC DisC ProM DisM nan HC HDC HDM) by auto. cbn [fst]. split; [reflexivity|]. split; [reflexivity|].
  exists [(0 + 1 / 2) / 2]. split; [left; reflexivity|]. intros [E|[E|[E|[E|[]]]]]; injection E as E; lra.
Qed.
(** ... nor which solutions a generation of RVEA or NSGA-III (whatever the selection operator) evaluates. *)
Theorem C132_decomposition_refuted : forall ProC DisC ProM DisM nan, usual ProC DisC DisM ->
  exists G, honest G /\ forall A (select : A -> list (list R) -> NP G -> res (A * list nat) * NP G) a, selects select ->
  exists pop n p p' t t', fst (decomposition_gen G ProC DisC ProM DisM [0] [1] nan select (mkDS a pop []) n p) = Ok t /\
    fst (decomposition_gen G ProC DisC ProM DisM [0] [1] nan select (mkDS a pop []) n p') = Ok t' /\ exists x, In x (ds_evaluated t) /\ ~ In x (ds_evaluated t').
Proof.
  intros ProC DisC ProM DisM nan (HC & HDC & HDM). exists coins. split; [apply coins_honest|]. intros A select a Hs.
  assert (H0 : 0 <= 0 <= 1) by lra. assert (H1 : 0 <= 1 / 2 <= 1) by lra. assert (H2 : 0 <= 1 <= 1) by lra.
  exists [[0]; [1 / 2]; [1]], [true; true; true; true; false; false], true, false. set (s := mkDS a _ []).
  destruct (gen_evaluates ProC DisC ProM DisM [0] [1] nan select s _ _ _ _ _ Hs (mate_three ProC DisC ProM DisM nan HC HDC HDM true 0 (1 / 2) 1 H0 H1 H2)) as (t & st & E & L); [discriminate|].
  destruct (gen_evaluates ProC DisC ProM DisM [0] [1] nan select s _ _ _ _ _ Hs (mate_three ProC DisC ProM DisM nan HC HDC HDM false 0 (1 / 2) 1 H0 H1 H2)) as (t' & st' & E' & L'); [discriminate|].
  exists t, t'. rewrite E, E'. split; [reflexivity|]. split; [reflexivity|]. rewrite L, L'. exists [(0 + 1 / 2) / 2]. split; [left; reflexivity|].
  intros [X|[X|[X|[X|[]]]]]; injection X as X; lra.
Qed.
(** C132 (false of the code). "Asking for the requests does not influence the run": calling requests() once more before iterate() changes what an interactive RVEA or NSGA-III evaluates next. *)
Theorem C132_extra_request_refuted : forall ProC DisC ProM DisM nan, usual ProC DisC DisM ->
  exists G, honest G /\ forall A (select : A -> list (list R) -> NP G -> res (A * list nat) * NP G) a, selects select ->
  exists pop n p t t', let go := iterate G true (ret G) (decomposition_gen G ProC DisC ProM DisM [0] [1] nan select) 1 (mkDS a pop []) in
    fst (go n p) = Ok t /\ fst (andthen G (requests G true) (fun _ => go) n p) = Ok t' /\ exists x, In x (ds_evaluated t) /\ ~ In x (ds_evaluated t').
Proof.
  intros ProC DisC ProM DisM nan (HC & HDC & HDM). exists coins. split; [apply coins_honest|]. intros A select a Hs.
  assert (H0 : 0 <= 0 <= 1) by lra. assert (H2 : 0 <= 1 <= 1) by lra.
  exists [[0]; [1]], [false; true; true; false; false], true. set (s := mkDS a _ []).
  destruct (gen_evaluates ProC DisC ProM DisM [0] [1] nan select s _ _ _ _ _ Hs (proj1 (mate_two ProC DisC ProM DisM nan HC HDC HDM 0 1 false true true [false] true H0 H2))) as (t & st & E & L); [discriminate|].
  destruct (gen_evaluates ProC DisC ProM DisM [0] [1] nan select s _ _ _ _ _ Hs (proj1 (mate_two ProC DisC ProM DisM nan HC HDC HDM 0 1 true true false [] true H0 H2))) as (t' & st' & E' & L'); [discriminate|].
  exists t, t'. cbv zeta. unfold iterate, ret. unfold andthen at 1 2. cbn [fst snd]. unfold andthen at 1 2. cbn [generations]. unfold andthen at 1 4. cbn [fst snd].
  set (g := decomposition_gen coins ProC DisC ProM DisM [0] [1] nan select) in *.
  assert (X : forall n b u v, g s n b = (Ok u, v) -> fst (andthen coins (generations coins g 1 s) (fun s2 => andthen coins (requests coins true) (fun _ => ret coins s2)) n b) = Ok u).
  { intros n b u v Y. unfold andthen. cbn [generations]. unfold andthen. rewrite Y. reflexivity. }
  split; [apply (X _ _ _ _ E)|]. split; [apply (X _ _ _ _ E')|].
  rewrite L, L'. exists [0]. split; [left; reflexivity|]. intros [Y|[Y|[]]]; injection Y as Y; lra.
Qed.
(** C132 (false of the code). "A run started from a given seed does not depend on what else the process does": a generation of another algorithm in between (RVEA, whose selection draws nothing)
    changes what this one evaluates. *)
Theorem C132_other_algorithm_refuted : forall ProC DisC ProM DisM nan, usual ProC DisC DisM ->
  exists G, honest G /\ forall A B (select : A -> list (list R) -> NP G -> res (A * list nat) * NP G) a (other : B -> list (list R) -> res (B * list nat)) b,
  selects select -> selects (G := G) (fun b xs n => (other b xs, n)) ->
  exists pop n p t t', let go := decomposition_gen G ProC DisC ProM DisM [0] [1] nan select (mkDS a pop []) in
    let go_other := decomposition_gen G ProC DisC ProM DisM [0] [1] nan (fun b xs n => (other b xs, n)) (mkDS b pop []) in
    fst (go n p) = Ok t /\ fst (andthen G go_other (fun _ => go) n p) = Ok t' /\ exists x, In x (ds_evaluated t) /\ ~ In x (ds_evaluated t').
Proof.
  intros ProC DisC ProM DisM nan (HC & HDC & HDM). exists coins. split; [apply coins_honest|]. intros A B select a other b Hs Ho.
  assert (H0 : 0 <= 0 <= 1) by lra. assert (H2 : 0 <= 1 <= 1) by lra.
  exists [[0]; [1]], [false; true; true; false; true; true; true; false], true. set (s := mkDS a _ []).
  pose proof (proj1 (mate_two ProC DisC ProM DisM nan HC HDC HDM 0 1 false true true [true; true; true; false] true H0 H2)) as M1.
  destruct (gen_evaluates ProC DisC ProM DisM [0] [1] nan select s _ _ _ _ _ Hs M1) as (t & st & E & L); [discriminate|].
  destruct (gen_evaluates ProC DisC ProM DisM [0] [1] nan select s _ _ _ _ _ Hs (proj1 (mate_two ProC DisC ProM DisM nan HC HDC HDM 0 1 true true true [] true H0 H2))) as (t' & st' & E' & L'); [discriminate|].
  exists t, t'. cbv zeta. rewrite E. split; [reflexivity|]. split.
  - unfold andthen at 1. unfold decomposition_gen at 1. unfold andthen at 1. cbn [ds_pop]. rewrite M1. cbn [fst snd]. cbv zeta. unfold andthen at 1. cbn [ds_op ds_pop].
    set (all := [[0]; [1]] ++ [[0]; [1]]). destruct (Ho b all [true; true; true; false]) as (b' & sel & n' & Eo & Bo); [discriminate|]. injection Eo as Eo En. rewrite Eo. cbn [fst snd].
    destruct (take_ok _ _ Bo) as (r & T). unfold andthen, of_res, ret. rewrite T. cbn [fst snd]. rewrite E'. reflexivity.
  - rewrite L, L'. exists [0]. split; [left; reflexivity|]. intros [Y|[Y|[]]]; injection Y as Y; lra.
Qed.

(** Non-vacuity: the default settings; a selection keeping the first member; two different states of Python's generator with the same offspring for a given mating list. *)
Example ex_usual : usual 1 30 20. Proof. unfold usual. lra. Qed.
Example ex_selects : selects (G := coins) (fun (a : unit) (xs : list (list R)) n => (Ok (a, [0%nat]), n)).
Proof. intros a xs n H. exists a, [0%nat], n. split; [reflexivity|]. constructor; [|constructor]. destruct xs; [congruence|cbn [length]; lia]. Qed.
Example ex_given_parents : forall b, pop_mate coins 1 30 1 20 [0] [1] 0 [[0]; [1]] (Some [0; 1]%nat) [true; true; true; false] b = (Ok [[(0 + 1) / 2]; [(0 + 1) / 2]], ([], b)).
Proof. intros b. apply (proj2 (mate_two 1 30 1 20 0 ltac:(lra) ltac:(lra) ltac:(lra) 0 1 true true true [] b ltac:(lra) ltac:(lra))). Qed.
(** A run of IBEA from an LHS design of two individuals, no generation, two iterate() calls: it produces a population. *)
Example ex_ibea_start : exists s st, indicator_run coins 1 30 1 20 [0] [1] 0 (fun (_ : unit) x y => hd 0 x - hd 0 y) 1 LHSDesign 2 tt true (fun _ s n => (Ok s, n)) [0; 0]%nat [false] true = (Ok s, st) /\ length (snd s) = 2%nat.
Proof. eexists. eexists. split; reflexivity. Qed.

Print Assumptions C132_mate_refuted.
Print Assumptions C132_decomposition_refuted.
Print Assumptions C132_extra_request_refuted.
Print Assumptions C132_other_algorithm_refuted.
