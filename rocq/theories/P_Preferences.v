From Verif Require Import Base M_Preferences.

(** Type set by the last valid call. *)
Fixpoint last_valid (l : list itype_arg) : option itype :=
  match l with
  | [] => None
  | a :: t => match last_valid t with
              | Some x => Some x
              | None => match a with ArgType x => Some x | _ => None end
              end
  end.

Definition calls (e : ea) (l : list itype_arg) : ea :=
  fold_left (fun e a => fst (set_interaction_type e a)) l e.

Lemma calls_selection e l : ea_loc e = LocSelection ->
  ea_loc (calls e l) = LocSelection /\ ea_interact (calls e l) = ea_interact e /\
  ea_type (calls e l) = match last_valid l with Some t => Some t | None => ea_type e end /\
  ea_set_bool (calls e l) = match l with [] => ea_set_bool e | _ => true end.
Proof.
  revert e; induction l as [|a l IH]; intros e H; simpl; auto.
  set (e1 := fst (set_interaction_type e a)).
  assert (H1 : ea_loc e1 = LocSelection /\ ea_interact e1 = ea_interact e /\ ea_set_bool e1 = true /\
               ea_type e1 = match a with ArgType x => Some x | _ => ea_type e end).
  { unfold e1, set_interaction_type. rewrite H. destruct a; simpl; auto. }
  destruct H1 as (A & B & C & D). destruct (IH e1 A) as (I1 & I2 & I3 & I4).
  split; auto. split; [congruence|]. split.
  - fold (calls e1 l). rewrite I3, D. destruct (last_valid l); auto. destruct a; auto.
  - fold (calls e1 l). rewrite I4, C. destruct l; auto.
Qed.

Lemma start_ok_iff l rnd :
  let e := calls (new_ea true PlainProblem) l in
  (exists r, snd (start e rnd) = Ok r) <-> exists t, last_valid l = Some t.
Proof.
  cbn zeta. destruct (calls_selection (new_ea true PlainProblem) l eq_refl) as (A & B & C & D).
  set (e := calls (new_ea true PlainProblem) l) in *.
  unfold start, request_preferences, sel_request. rewrite A, B. simpl in *. rewrite C, D.
  destruct l as [|a l].
  - simpl. split; [intros [r H]; discriminate|intros [t H]; discriminate].
  - simpl. destruct (last_valid (a :: l)) as [t|] eqn:E.
    + simpl in E. rewrite E. simpl. split; eauto.
    + simpl in E. rewrite E. simpl. split; [intros [r H]; discriminate|intros [t H]; discriminate].
Qed.

