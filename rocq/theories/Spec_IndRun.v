(** Specification vocabulary for sessions of the indicator based EAs: read off a session's calls and their outcomes. *)
From Verif Require Import Base M_Preferences M_IndRun.

Section S.
Context {Payload : Type}.
(** The calls of a session, each with whether it returned (true) or raised. *)
Definition history := list (icall Payload * bool).
(** The iterate() calls that returned. *)
Definition iterations (h : history) : nat := length (filter (fun e => match e with (IIterate _ _, true) => true | _ => false end) h).
(** The id of the last request handed out, by requests(), start() or a returning iterate(). *)
Definition then_request (last : option nat) (e : icall Payload * bool) : option nat :=
  match e with
  | (IRequests r, true) | (IStart r, true) | (IIterate _ r, true) => Some r
  | _ => last
  end.
Definition last_request (h : history) : option nat := fold_left then_request h None.
(** Does the preference answer that request with a reference point? *)
Definition answers (last : option nat) (p : option (pref Payload)) : bool :=
  match last, p with
  | Some i, Some q => match pf_class q with Some ReferencePoint => Nat.eqb (pf_id q) i | _ => false end
  | _, _ => false
  end.
(** The preferences given to iterate() that do, in order. *)
Fixpoint accepted (last : option nat) (h : history) : list Payload :=
  match h with
  | [] => []
  | (c, ok) :: t =>
      match c with
      | IIterate (Some p) _ => if answers last (Some p) then [pf_payload p] else []
      | _ => []
      end ++ accepted (then_request last (c, ok)) t
  end.
End S.
(** Offspring evaluated by, and the number of, the generations that returned among the first [n]. *)
Fixpoint offspring (off : nat -> res nat) (n : nat) : nat := match n with O => 0 | S k => offspring off k + match off k with Ok m => m | Err _ => 0 end end.
Fixpoint returned (off : nat -> res nat) (n : nat) : nat := match n with O => 0 | S k => returned off k + match off k with Ok _ => 1 | Err _ => 0 end end.

