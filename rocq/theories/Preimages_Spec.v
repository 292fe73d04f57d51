(** What acceptable preimages are, and when a preimage is available. *)
From Verif Require Import Base Preimages_Model.
Open Scope N_scope.

(** Lexicographic order of byte strings, and of entries: by service, then data. *)
Definition lex_lt (a b : bytes) : Prop :=
  (exists y s, b = (a ++ y :: s)%list) \/ exists p x y s s', a = (p ++ x :: s)%list /\ b = (p ++ y :: s')%list /\ x < y.
Definition entry_lt (a b : pentry) : Prop :=
  pe_service a < pe_service b \/ (pe_service a = pe_service b /\ lex_lt (pe_data a) (pe_data b)).
Definition strictly_ascending (x : list pentry) : Prop :=
  forall l1 a b l2, x = (l1 ++ a :: b :: l2)%list -> entry_lt a b.

Section Spec.
  Variable H : bytes -> N.
  Variable D : N.
  (** Requested, and not provided. *)
  Definition wanted (st : pstate) (e : pentry) : Prop :=
    pre st (pe_service e) (H (pe_data e)) = None /\ look st (pe_service e) (H (pe_data e)) (dlen (pe_data e)) = Some [].
  Definition acceptable_preimages (st : pstate) (x : list pentry) : Prop :=
    strictly_ascending x /\ forall e, In e x -> wanted st e.

  (** How many recorded changes have happened by the slot. *)
  Definition changes_by (t : N) (l : list N) : nat := length (filter (fun x => x <=? t) l).
  Fixpoint nondecreasing (l : list N) : Prop := match l with a :: ((b :: _) as r) => a <= b /\ nondecreasing r | _ => True end.

  (** Histories: the data provided in one does not collide, times do not decrease, and a request is forgotten with the length
      of the data it is for (or before any data came). *)
  Definition data_of (ops : list (N * pop)) : list bytes :=
    flat_map (fun to => match snd to with Provide _ d => [d] | Integrate _ d => [d] | _ => [] end) ops.
  Definition no_collision (ops : list (N * pop)) : Prop :=
    forall d d', In d (data_of ops) -> In d' (data_of ops) -> H d = H d' -> d = d'.
  Definition timely (ops : list (N * pop)) : Prop := nondecreasing (map fst ops) /\ forall t o, In (t, o) ops -> t + D < 2 ^ 32.
  Definition right_length (st : pstate) (o : pop) : Prop :=
    match o with Forget s h n => forall d, pre st s h = Some d -> dlen d = n | _ => True end.
  Definition right_lengths (ops : list (N * pop)) : Prop :=
    forall l1 t o l2, ops = (l1 ++ (t, o) :: l2)%list -> right_length (prun H D pempty l1) o.
End Spec.
