(** C21, C57: interaction types and preferences. *)
From Verif Require Import Base M_Preferences P_Preferences.

(** C21 (partial). For an interactive EA on an ordinary problem and any sequence of
    set_interaction_type calls: an unknown type raises ValueError and never changes the chosen
    type; start succeeds iff some call named a documented type. What is missing from the full
    statement: a rejected call does change which error start raises (refuted below). *)
Theorem C21_start_requires_valid_type_partial : forall l rnd,
  (exists r, snd (start (calls (new_ea true PlainProblem) l) rnd) = Ok r) <->
  exists t, last_valid l = Some t.
Proof. exact start_ok_iff. Qed.

Theorem C21_rejected_type_partial : forall e,
  ea_loc e = LocSelection ->
  snd (set_interaction_type e ArgOther) = Err ValueError /\
  ea_type (fst (set_interaction_type e ArgOther)) = ea_type e /\
  (forall t, set_interaction_type e (ArgType t) =
     (mkEA (ea_interact e) LocSelection true (Some t) (ea_reqid e), Ok tt)).
Proof. intros [i l b t r] H. simpl in H. subst l. cbn. auto. Qed.

(** C21 in full is false: a rejected (or None) type switches the "type has been set" flag on, so
    start passes its gate and fails later with a ValueError instead of the documented eaError. *)
Theorem C21_rejected_type_changes_nothing_refuted : exists a e,
  e = new_ea true PlainProblem /\
  (snd (set_interaction_type e a) = Err ValueError) /\
  snd (start e 1) = Err EaError /\
  snd (start (fst (set_interaction_type e a)) 1) = Err ValueError.
Proof. exists ArgOther, (new_ea true PlainProblem). vm_compute. auto. Qed.

(** C21: an interactive EA built from an initial population can never be started, whatever
    interaction types are set (its interaction location stays None). *)
Theorem C21_interactive_initial_population_refuted : forall l rnd,
  snd (start (calls (new_ea true NoProblem) l) rnd) = Err EaError.
Proof.
  intros l rnd. assert (calls (new_ea true NoProblem) l = new_ea true NoProblem) as ->; [|reflexivity].
  induction l as [|a l IH]; [reflexivity|]. exact IH.
Qed.

(** C21: on an IOPIS problem no type has to be chosen: an interactive algorithm starts whatever types have been set and asks for the problem's preference. *)
Theorem C21_iopis_problem_starts : forall l rnd,
  snd (start (calls (new_ea true IOPISproblem) l) rnd) = Ok (Some ReqProblem).
Proof.
  intros l rnd. assert (calls (new_ea true IOPISproblem) l = new_ea true IOPISproblem) as ->; [|reflexivity].
  induction l as [|a l IH]; [reflexivity|]. exact IH.
Qed.
(** C21: a non-interactive algorithm starts whatever types have been set, asks for nothing, and setting a type raises nothing. *)
Theorem C21_non_interactive_starts : forall k l rnd,
  snd (start (calls (new_ea false k) l) rnd) = Ok None /\ forall a, snd (set_interaction_type (calls (new_ea false k) l) a) = Ok tt.
Proof.
  intros k l rnd. assert (calls (new_ea false k) l = new_ea false k) as ->; [|split; [reflexivity|intros a; reflexivity]].
  induction l as [|a l IH]; [reflexivity|]. exact IH.
Qed.
(** C21: the request of a started algorithm is for the type chosen last, under the id drawn for it. *)
Theorem C21_request_for_last_type : forall l t rnd, last_valid l = Some t -> t <> PreferredRanges ->
  snd (start (calls (new_ea true PlainProblem) l) rnd) = Ok (Some (ReqSelection t rnd)) /\
  ea_reqid (fst (start (calls (new_ea true PlainProblem) l) rnd)) = Some rnd.
Proof.
  intros l t rnd E Hn. destruct (calls_selection (new_ea true PlainProblem) l eq_refl) as (A & B & C & D). rewrite E in C.
  unfold start, request_preferences, sel_request. rewrite A, B, C, D. cbn [ea_interact new_ea]. destruct l as [|a l]; [discriminate|]. cbn [andb negb].
  destruct t; try (split; reflexivity). congruence.
Qed.

(** C57. Preferences answering another request or of the wrong class are rejected without
    effect; None only re-adapts; a matching one is applied. *)
Theorem C57_selection_preferences : forall (VS Payload : Type) (adapt : VS -> VS)
    (ap : itype -> Payload -> VS -> VS) e v p,
  (p = None -> manage_preferences adapt ap e v p = (adapt v, Ok tt)) /\
  (forall q, p = Some q -> ea_reqid e <> Some (pf_id q) ->
     manage_preferences adapt ap e v p = (v, Err ValueError)) /\
  (forall q, p = Some q -> ea_reqid e = Some (pf_id q) -> ea_type e = None ->
     manage_preferences adapt ap e v p = (v, Err ValueError)) /\
  (forall q t, p = Some q -> ea_reqid e = Some (pf_id q) -> ea_type e = Some t -> pf_class q <> Some t ->
     manage_preferences adapt ap e v p = (v, Err TypeError)) /\
  (forall q t, p = Some q -> ea_reqid e = Some (pf_id q) -> ea_type e = Some t -> pf_class q = Some t ->
     manage_preferences adapt ap e v p = (ap t (pf_payload q) v, Ok tt)).
Proof.
  intros VS Payload adapt ap e v p. repeat split.
  - intros ->. reflexivity.
  - intros q -> H. simpl. destruct (ea_reqid e) as [i|]; simpl; auto.
    destruct (Nat.eqb_spec i (pf_id q)); simpl; auto. congruence.
  - intros q -> H Ht. simpl. rewrite H, Nat.eqb_refl, Ht. reflexivity.
  - intros q t -> H Ht Hc. simpl. rewrite H, Nat.eqb_refl, Ht. simpl.
    destruct (pf_class q) as [c|]; auto. destruct c, t; simpl; auto; congruence.
  - intros q t -> H Ht Hc. simpl. rewrite H, Nat.eqb_refl, Ht, Hc. simpl. destruct t; reflexivity.
Qed.

(** C57: only the latest request can be answered. *)
Theorem C57_latest_request_only : forall (VS Payload : Type) (adapt : VS -> VS)
    (ap : itype -> Payload -> VS -> VS) e v t r1 r2 (q : pref Payload),
  ea_type e = Some t -> r1 <> r2 -> pf_id q = r1 ->
  let e1 := fst (sel_request e r1) in let e2 := fst (sel_request e1 r2) in
  manage_preferences adapt ap e2 v (Some q) = (v, Err ValueError).
Proof.
  intros VS Payload adapt ap e v t r1 r2 q Ht Hn Hq. unfold sel_request. rewrite Ht. destruct t; cbn;
  rewrite Hq; destruct (Nat.eqb_spec r2 r1); try congruence; reflexivity.
Qed.

(** C57: requests. Three interaction types hand out the stored id; "Preferred ranges" stores an id
    but returns nothing (missing return), so its preference can never be given. *)
Theorem C57_request_returns_partial : forall e t rnd,
  ea_type e = Some t -> t <> PreferredRanges ->
  sel_request e rnd = (mkEA (ea_interact e) (ea_loc e) (ea_set_bool e) (Some t) (Some rnd), Ok (Some (ReqSelection t rnd))).
Proof. intros e t rnd H Hn. unfold sel_request. rewrite H. destruct t; try reflexivity. congruence. Qed.

Theorem C57_preferred_ranges_request_refuted : forall e rnd,
  ea_type e = Some PreferredRanges -> snd (sel_request e rnd) = Ok None.
Proof. intros e rnd H. unfold sel_request. rewrite H. reflexivity. Qed.

(** C57: indicator EAs and IOPIS EAs. *)
Theorem C57_indicator_preferences : forall (Payload : Type) (to_fitness : Payload -> Payload) reqid (s : ind_state Payload) p,
  match p with
  | Some q => if match pf_class q with Some ReferencePoint => true | _ => false end
              then (reqid = Some (pf_id q) -> ind_manage to_fitness true reqid s p =
                      (mkInd (Some (to_fitness (pf_payload q))) (2 * ind_iters s)%Z (2 * ind_fe s)%Z, Ok tt)) /\
                   (reqid <> Some (pf_id q) -> ind_manage to_fitness true reqid s p = (s, Err (if reqid then EaError else AttributeError)))
              else ind_manage to_fitness true reqid s p = (s, Err EaError)
  | None => ind_manage to_fitness true reqid s p = (s, Err EaError)
  end /\ ind_manage to_fitness false reqid s p = (s, Ok tt).
Proof.
  intros Payload to_fitness reqid s [q|]; split; auto. unfold ind_manage; cbn [negb].
  destruct (pf_class q) as [[]|]; cbn [negb]; auto. split.
  - intros ->. rewrite Nat.eqb_refl. cbn [negb].
    replace (2 * ind_iters s)%Z with (ind_iters s + ind_iters s)%Z by ring.
    replace (2 * ind_fe s)%Z with (ind_fe s + ind_fe s)%Z by ring. reflexivity.
  - intros H. destruct reqid as [i|]; cbn [negb]; auto. destruct (Nat.eqb_spec i (pf_id q)); cbn [negb]; auto. congruence.
Qed.

Theorem C57_iopis_preferences : forall (VS Payload : Type) (ad : Payload -> VS -> VS) reqid s p,
  match p with
  | Some q => if match pf_class q with Some ReferencePoint => true | _ => false end
              then (reqid = Some (pf_id q) -> iopis_manage ad reqid s p =
                      ((Some (pf_payload q), ad (pf_payload q) (snd s)), Ok tt)) /\
                   (reqid <> Some (pf_id q) -> iopis_manage ad reqid s p = (s, Err (if reqid then EaError else AttributeError)))
              else iopis_manage ad reqid s p = (s, Err EaError)
  | None => iopis_manage ad reqid s p = (s, Err EaError)
  end.
Proof.
  intros VS Payload ad reqid s [q|]; auto. unfold iopis_manage.
  destruct (pf_class q) as [[]|]; simpl; auto. split.
  - intros ->. rewrite Nat.eqb_refl. reflexivity.
  - intros H. destruct reqid as [i|]; simpl; auto. destruct (Nat.eqb_spec i (pf_id q)); simpl; auto. congruence.
Qed.

(** C57: preferences of an IOPIS problem; the classification variant accepts none at all. *)
Theorem C57_iopis_problem_preferences : forall (Payload : Type) t k (pl : Payload) s,
  (snd (problem_manage t k pl s) = Ok tt <->
     (t = PIS_IOPIS /\ k = PyDict) \/ (t = PIS_MultiDM /\ k = PyList)) /\
  (snd (problem_manage t k pl s) = Ok tt -> fst (problem_manage t k pl s) = Some pl) /\
  (snd (problem_manage t k pl s) <> Ok tt -> problem_manage t k pl s = (s, Err TypeError)).
Proof.
  intros Payload t k pl s. destruct t, k; simpl; repeat split; auto;
    try (intros [[? ?]|[? ?]]; discriminate); try discriminate; intros H; exfalso; apply H; reflexivity.
Qed.

(** ** Non-vacuity *)
Example ex_calls : last_valid [ArgOther; ArgType ReferencePoint; ArgNone; ArgType PreferredRanges; ArgOther] = Some PreferredRanges.
Proof. reflexivity. Qed.
Example ex_start : snd (start (calls (new_ea true PlainProblem) [ArgOther; ArgType ReferencePoint]) 7)
  = Ok (Some (ReqSelection ReferencePoint 7)).
Proof. reflexivity. Qed.
Example ex_manage :
  manage_preferences (fun v => v) (fun _ p v => p :: v)
    (fst (start (calls (new_ea true PlainProblem) [ArgType ReferencePoint]) 7)) [] 
    (Some (mkPref (Some ReferencePoint) 7 42)) = ([42], Ok tt).
Proof. reflexivity. Qed.

Print Assumptions C21_start_requires_valid_type_partial.
Print Assumptions C21_rejected_type_partial.
Print Assumptions C21_rejected_type_changes_nothing_refuted.
Print Assumptions C21_interactive_initial_population_refuted.
Print Assumptions C57_selection_preferences.
Print Assumptions C57_latest_request_only.
Print Assumptions C57_request_returns_partial.
Print Assumptions C57_preferred_ranges_request_refuted.
Print Assumptions C57_indicator_preferences.
Print Assumptions C57_iopis_preferences.
Print Assumptions C57_iopis_problem_preferences.
