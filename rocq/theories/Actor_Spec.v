(** A sequential object, and what callers of one through concurrent calls may rely on. *)
From Verif Require Import Base Trie_Model Trie_Spec Actor_Model.

Section Spec.
  Context {St Cmd Rep : Type} (exec : St -> Cmd -> option (St * Rep)).
  (** One after the other: caller, command and reply. *)
  Fixpoint sequential (s : St) (l : list (nat * Cmd * Rep)) (s' : St) : Prop :=
    match l with [] => s = s' | (_, c, r) :: l' => exists s1, exec s c = Some (s1, r) /\ sequential s1 l' s' end.
  Definition settled (x : call Cmd Rep) : Prop := match x with Returned _ _ | Closed _ | GivenUp _ => True | _ => False end.
  (** The calls as the history [l] explains them: every reply is the one the history gives, a call that failed or was not sent yet has had no effect, none is executed twice. *)
  Definition explains (l : list (nat * Cmd * Rep)) (calls : list (call Cmd Rep)) : Prop :=
    NoDup (map (fun e => fst (fst e)) l) /\
    (forall i c r, In (i, c, r) l -> exists x, nth_error calls i = Some x /\ (x = Replied c r \/ x = Returned c r \/ x = GivenUp c)) /\
    (forall i c r, nth_error calls i = Some (Returned c r) \/ nth_error calls i = Some (Replied c r) -> In (i, c, r) l).
End Spec.
(** The batches a history of halves commits. *)
Definition batches (l : list half) : list (list entry) := flat_map (fun a => match a with TrieWrite es => [es] | StateWrite _ => [] end) l.
