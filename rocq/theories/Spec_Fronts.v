(** Specification of non-dominated sorting (contract of desdeo_tools'
    fast_non_dominated_sort), with a reference implementation meeting it; Pareto dominance on
    real vectors. *)
From Verif Require Import Base RVec.
From Coq Require Import Reals Lra Permutation Sorted.
Open Scope R_scope.

(** Pareto dominance (minimisation): nowhere worse, somewhere better. *)
Definition rdominates (a b : list R) : Prop :=
  Forall2 Rle a b /\ exists i x y, nth_error a i = Some x /\ nth_error b i = Some y /\ x < y.

(** Row [i] dominates row [j]. *)
Definition row_dom (fit : list (list R)) (i j : nat) : Prop :=
  exists a b, nth_error fit i = Some a /\ nth_error fit j = Some b /\ rdominates a b.

(** [fronts] is the non-dominated sorting of the rows 0..n-1: every row is in exactly one front,
    no front is empty, a row is dominated only by rows of earlier fronts, and every row beyond the first front is
    dominated by a row of the front before. *)
Record sorted_fronts (n : nat) (dom : nat -> nat -> Prop) (fronts : list (list nat)) : Prop := {
  sf_perm : Permutation (concat fronts) (seq 0 n);
  sf_nonempty : forall f, In f fronts -> f <> [];
  sf_order : forall a b fa fb i j, nth_error fronts a = Some fa -> nth_error fronts b = Some fb ->
    In i fa -> In j fb -> dom i j -> (a < b)%nat;
  sf_prev : forall a fa fb j, nth_error fronts a = Some fa -> nth_error fronts (S a) = Some fb ->
    In j fb -> exists i, In i fa /\ dom i j }.

Lemma rdominates_irrefl a : ~ rdominates a a.
Proof. intros [_ (i & x & y & H1 & H2 & H3)]. rewrite H1 in H2. injection H2 as ->. lra. Qed.
Lemma Forall2_nth_ex {A B} (P : A -> B -> Prop) l l' : Forall2 P l l' -> forall i x, nth_error l i = Some x ->
  exists y, nth_error l' i = Some y /\ P x y.
Proof. induction 1; intros [|i] z Hz; simpl in *; try discriminate; [injection Hz as <-; eauto|eauto]. Qed.
Lemma Forall2_Rle_tr u v w : Forall2 Rle u v -> Forall2 Rle v w -> Forall2 Rle u w.
Proof. intros H; revert w; induction H; intros w' H'; inversion H'; subst; constructor; auto. eapply Rle_trans; eauto. Qed.
Lemma rdominates_trans a b c : rdominates a b -> rdominates b c -> rdominates a c.
Proof.
  intros [H1 (i & x & y & Hx & Hy & L)] [H2 _]. split; [eapply Forall2_Rle_tr; eauto|].
  destruct (Forall2_nth_ex _ _ _ H2 i y Hy) as (z & Hz & L'). exists i, x, z. repeat split; auto. lra.
Qed.
Lemma row_dom_irrefl fit i : ~ row_dom fit i i.
Proof. intros (a & b & Ha & Hb & D). rewrite Ha in Hb. injection Hb as <-. apply (rdominates_irrefl a D). Qed.
Lemma row_dom_trans fit i j k : row_dom fit i j -> row_dom fit j k -> row_dom fit i k.
Proof.
  intros (a & b & Ha & Hb & D) (b' & c & Hb' & Hc & D'). rewrite Hb in Hb'. injection Hb' as <-.
  exists a, c. split; [auto|]. split; [auto|]. eapply rdominates_trans; eauto.
Qed.
Lemma rdominates_dec a b : {rdominates a b} + {~ rdominates a b}.
Proof.
  assert (D1 : {Forall2 Rle a b} + {~ Forall2 Rle a b}).
  { revert b; induction a as [|x a IH]; intros [|y b].
    - left; constructor.
    - right; intros H; inversion H.
    - right; intros H; inversion H.
    - destruct (Rle_dec x y) as [L|L]; [|right; intros H; inversion H; contradiction].
      destruct (IH b) as [E|E]; [left; constructor; auto|right; intros H; inversion H; contradiction]. }
  assert (D2 : {exists i x y, nth_error a i = Some x /\ nth_error b i = Some y /\ x < y} + {~ exists i x y, nth_error a i = Some x /\ nth_error b i = Some y /\ x < y}).
  { clear D1. revert b; induction a as [|x a IH]; intros [|y b].
    - right; intros ([|i] & u & v & H & _); discriminate.
    - right; intros ([|i] & u & v & H & _); discriminate.
    - right; intros ([|i] & u & v & _ & H & _); discriminate.
    - destruct (Rlt_dec x y) as [L|L]; [left; exists 0%nat, x, y; auto|].
      destruct (IH b) as [E|E].
      + left. destruct E as (i & u & v & E). exists (S i), u, v; auto.
      + right. intros ([|i] & u & v & H1 & H2 & H3); simpl in *.
        * injection H1 as ->. injection H2 as ->. contradiction.
        * apply E. exists i, u, v; auto. }
  destruct D1, D2; [left; split; auto|right; intros []; auto|right; intros []; auto|right; intros []; auto].
Qed.
Lemma row_dom_dec fit i j : {row_dom fit i j} + {~ row_dom fit i j}.
Proof.
  destruct (nth_error fit i) as [a|] eqn:Ea; [|right; intros (a & b & H & _); congruence].
  destruct (nth_error fit j) as [b|] eqn:Eb; [|right; intros (a' & b & _ & H & _); congruence].
  destruct (rdominates_dec a b) as [D|D]; [left; exists a, b; auto|right].
  intros (a' & b' & Ha & Hb & D'). rewrite Ha in Ea. rewrite Hb in Eb. injection Ea as ->. injection Eb as ->. contradiction.
Qed.

(** Reference implementation: peel off the rows not dominated by a remaining row. *)
Section Peel.
Context (dom : nat -> nat -> Prop) (dec : forall i j, {dom i j} + {~ dom i j}).
Definition undominated (rest : list nat) (i : nat) : bool :=
  negb (existsb (fun j => if dec j i then true else false) rest).
Fixpoint peel (fuel : nat) (rest : list nat) : list (list nat) :=
  match fuel, rest with
  | O, _ => []
  | _, [] => []
  | S f, _ => filter (undominated rest) rest :: peel f (filter (fun i => negb (undominated rest i)) rest)
  end.

Hypothesis irr : forall i, ~ dom i i.
Hypothesis trn : forall i j k, dom i j -> dom j k -> dom i k.

Lemma undominated_spec rest i : undominated rest i = true <-> forall j, In j rest -> ~ dom j i.
Proof.
  unfold undominated. rewrite negb_true_iff. split.
  - intros H j Hj D. assert (T : existsb (fun j => if dec j i then true else false) rest = true).
    { apply existsb_exists. exists j. split; auto. destruct (dec j i); auto. } congruence.
  - intros H. destruct (existsb _ rest) eqn:E; auto. apply existsb_exists in E. destruct E as (j & Hj & E).
    destruct (dec j i) as [D|D]; [|discriminate]. exfalso. apply (H j Hj D).
Qed.

Lemma filter_len_le {A} (g : A -> bool) l : (length (filter g l) <= length l)%nat.
Proof. induction l as [|x l IH]; simpl; [lia|]. destruct (g x); simpl; lia. Qed.

(** In a finite strict order, below every element there is a minimal one. *)
Lemma minimal_below (P : nat -> Prop) rest i : In i rest -> P i ->
  (forall x y, P x -> dom y x -> In y rest -> P y) ->
  exists j, In j rest /\ P j /\ (j = i \/ dom j i) /\ forall k, In k rest -> ~ dom k j.
Proof.
  intros Hi HP Hcl.
  assert (G : forall n l x, (length l <= n)%nat -> (forall y, In y l -> In y rest) -> In x rest -> P x -> (forall y, In y rest -> dom y x -> In y l) ->
    exists j, In j rest /\ P j /\ (j = x \/ dom j x) /\ forall k, In k rest -> ~ dom k j).
  { induction n as [|n IH]; intros l x Hl Hsub Hx Px Hall.
    - destruct l; [|simpl in Hl; lia]. exists x. split; [auto|]. split; [auto|]. split; [auto|]. intros k Hk D. apply (Hall k Hk D).
    - destruct (existsb (fun y => if dec y x then true else false) l) eqn:E.
      + apply existsb_exists in E. destruct E as (y & Hy & E). destruct (dec y x) as [D|]; [|discriminate].
        destruct (IH (filter (fun z => if Nat.eq_dec z y then false else true) l) y) as (j & J1 & J2 & J3 & J4).
        * assert (F : (length (filter (fun z => if Nat.eq_dec z y then false else true) l) < length l)%nat).
          { clear -Hy. induction l as [|a l IHl]; [destruct Hy|]. simpl. destruct (Nat.eq_dec a y) as [->|N].
            - pose proof (filter_len_le (fun z => if Nat.eq_dec z y then false else true) l). lia.
            - destruct Hy as [|Hy]; [congruence|]. simpl. specialize (IHl Hy). lia. }
          lia.
        * intros z Hz. apply filter_In in Hz. apply Hsub, Hz.
        * auto.
        * eapply Hcl; eauto.
        * intros z Hz Dz. apply filter_In. split; [apply Hall; eauto|]. destruct (Nat.eq_dec z y) as [->|]; auto.
          exfalso. apply (irr y Dz).
        * exists j. split; [auto|]. split; [auto|]. split; [|auto]. destruct J3 as [->|J3]; [auto|]. right. eapply trn; eauto.
      + exists x. split; [auto|]. split; [auto|]. split; [auto|]. intros k Hk D. assert (T : existsb (fun y => if dec y x then true else false) l = true).
        { apply existsb_exists. exists k. split; [auto|]. destruct (dec k x); auto. } congruence. }
  destruct (G (length rest) rest i (le_n _) (fun _ h => h) Hi HP (fun y Hy _ => Hy)) as (j & J). exists j. exact J.
Qed.

Lemma Permutation_filter_split {A} (g : A -> bool) l : Permutation (filter g l ++ filter (fun x => negb (g x)) l) l.
Proof.
  induction l as [|x l IH]; simpl; [constructor|]. destruct (g x); simpl; [constructor; auto|].
  eapply Permutation_trans; [symmetry; apply Permutation_middle|]. constructor; auto.
Qed.

Lemma peel_ok fuel : forall rest, (length rest <= fuel)%nat -> 
  Permutation (concat (peel fuel rest)) rest /\
  (forall f, In f (peel fuel rest) -> f <> []) /\
  (forall a b fa fb i j, nth_error (peel fuel rest) a = Some fa -> nth_error (peel fuel rest) b = Some fb ->
     In i fa -> In j fb -> dom i j -> (a < b)%nat) /\
  (forall a fa fb j, nth_error (peel fuel rest) a = Some fa -> nth_error (peel fuel rest) (S a) = Some fb ->
     In j fb -> exists i, In i fa /\ dom i j).
Proof.
  induction fuel as [|fuel IH]; intros rest Hl.
  - destruct rest; [|simpl in Hl; lia]. simpl. split; [constructor|]. split; [intros f []|]. split; intros [|a]; discriminate.
  - destruct rest as [|r0 rest0]; [simpl; split; [constructor|]; split; [intros f []|]; split; intros [|a]; discriminate|].
    set (rest := r0 :: rest0) in *. change (peel (S fuel) rest) with (filter (undominated rest) rest :: peel fuel (filter (fun i => negb (undominated rest i)) rest)).
    set (F0 := filter (undominated rest) rest). set (R0 := filter (fun i => negb (undominated rest i)) rest).
    assert (Hpre : forall i, In i rest -> exists j, In j F0 /\ (j = i \/ dom j i)).
    { intros i Hi. destruct (minimal_below (fun _ => True) rest i Hi I ltac:(auto)) as (j & J1 & _ & J3 & J4).
      exists j. split; [|auto]. apply filter_In. split; [auto|]. apply undominated_spec. auto. }
    destruct (Hpre r0 (or_introl eq_refl)) as (j0 & Hj0 & _).
    assert (Hlen : (length R0 <= fuel)%nat).
    { pose proof (Permutation_length (Permutation_filter_split (undominated rest) rest)) as L. fold F0 R0 in L. rewrite app_length in L.
      destruct F0; [destruct Hj0|]. simpl in L, Hl. lia. }
    destruct (IH R0 Hlen) as (A & B & C & D).
    assert (Hin : forall a f x, nth_error (peel fuel R0) a = Some f -> In x f -> In x R0).
    { intros a f x Ha Hx. eapply Permutation_in; [exact A|]. apply in_concat. exists f. split; [eapply nth_error_In; eauto|auto]. }
    split; [|split; [|split]].
    + simpl. eapply Permutation_trans; [apply Permutation_app_head; exact A|]. apply Permutation_filter_split.
    + intros f [<-|Hf]; [|auto]. intros E. rewrite E in Hj0. destruct Hj0.
    + intros [|a] [|b] fa fb i j Ha Hb Hi Hj Hd; simpl in Ha, Hb; try lia.
      * injection Ha as <-. injection Hb as <-. exfalso. apply filter_In in Hi, Hj. destruct Hj as [_ Hj].
        rewrite undominated_spec in Hj. apply (Hj i); [apply Hi|auto].
      * exfalso. injection Hb as <-. apply filter_In in Hj. destruct Hj as [_ Hj]. rewrite undominated_spec in Hj.
        apply (Hj i); [|auto]. apply (Hin _ _ _ Ha) in Hi. apply filter_In in Hi. apply Hi.
      * specialize (C a b fa fb i j Ha Hb Hi Hj Hd). lia.
    + intros [|a] fa fb j Ha Hb Hj; simpl in Ha, Hb.
      * injection Ha as <-. assert (HR : In j R0) by exact (Hin 0%nat fb j Hb Hj). apply filter_In in HR. destruct HR as [Hr Hn].
        destruct (Hpre j Hr) as (i & Hi & [->|Hd]); [|eauto]. apply filter_In in Hi. destruct Hi as [_ Hi]. rewrite Hi in Hn. discriminate.
      * eapply D; eauto.
Qed.

Theorem peel_sorted n : sorted_fronts n dom (peel n (seq 0 n)).
Proof.
  destruct (peel_ok n (seq 0 n)) as (A & B & C & D); [rewrite seq_length; auto|]. constructor; auto.
Qed.
End Peel.

(** The contract of fast_non_dominated_sort is satisfiable, for every fitness matrix. *)
Definition ref_fnds (fit : list (list R)) : list (list nat) := peel (row_dom fit) (row_dom_dec fit) (length fit) (seq 0 (length fit)).
Theorem ref_fnds_sorted fit : sorted_fronts (length fit) (row_dom fit) (ref_fnds fit).
Proof. apply peel_sorted; [apply row_dom_irrefl|apply row_dom_trans]. Qed.
