(** What a key-value map is, for callers that may overlap and processes that may stop. *)
From Verif Require Import Base CachedDb_Model.

Section Spec.
  Context {K V : Type} (eqK : forall a b : K, {a = b} + {a <> b}).
  Definition kmap := K -> option V.
  Definition empty : kmap := fun _ => None.
  Definition write (m : kmap) (w : K * option V) : kmap := fun k => if eqK (fst w) k then snd w else m k.
  Definition effect (m : kmap) (o : op K V) : kmap :=
    match o with Get _ => m | Put k v => write m (k, Some v) | Delete k => write m (k, None) | Batch ws => fold_left write ws m end.
  (** The calls that have not returned, and were not cut off by a crash. *)
  Fixpoint open_from (l : list (nat * op K V)) (tr : list (event K V)) : list (nat * op K V) :=
    match tr with
    | [] => l
    | Call i o :: tr' => open_from ((i, o) :: l) tr'
    | Ret i _ _ :: tr' => open_from (filter (fun x => negb (Nat.eqb (fst x) i)) l) tr'
    | Crash :: tr' => open_from [] tr'
    end.
  Definition open (tr : list (event K V)) : list (nat * op K V) := open_from [] tr.
  (** The map after some events: calls that returned [Done] have happened, calls that failed have not, and of the calls a crash cut off those have
      happened that [applied] names. *)
  Fixpoint after_from (applied : nat -> bool) (l : list (nat * op K V)) (m : kmap) (tr : list (event K V)) : kmap :=
    match tr with
    | [] => m
    | Call i o :: tr' => after_from applied ((i, o) :: l) m tr'
    | Ret i o r :: tr' =>
        after_from applied (filter (fun x => negb (Nat.eqb (fst x) i)) l) (match r with Done => effect m o | _ => m end) tr'
    | Crash :: tr' => after_from applied [] (fold_left (fun m x => if applied (fst x) then effect m (snd x) else m) l m) tr'
    end.
  Definition after (applied : nat -> bool) (tr : list (event K V)) : kmap := after_from applied [] empty tr.
  Definition touches (o : op K V) (k : K) : Prop :=
    match o with Get k' | Put k' _ | Delete k' => k = k' | Batch ws => In k (map fst ws) end.
  Definition is_read (o : op K V) : Prop := match o with Get _ => True | _ => False end.
  (** Calls about the same key overlap only if they are reads. *)
  Definition no_overlap (tr : list (event K V)) : Prop :=
    forall tr1 i o tr2 j o' k, tr = tr1 ++ Call i o :: tr2 -> In (j, o') (open tr1) -> touches o k -> touches o' k -> is_read o /\ is_read o'.
  (** Every read returned what the map held. *)
  Definition reads_agree (applied : nat -> bool) (tr : list (event K V)) : Prop :=
    forall tr1 i k r tr2, tr = tr1 ++ Ret i (Get k) r :: tr2 -> r = Value (after applied tr1 k).
  (** Only values that survive their encoding are written. *)
  Definition sound_op (ok : V -> Prop) (o : op K V) : Prop :=
    match o with Put _ v => ok v | Batch ws => forall k v, In (k, Some v) ws -> ok v | _ => True end.
  Definition sound (ok : V -> Prop) (l : list (@action K V)) : Prop := forall o, In (Start o) l -> sound_op ok o.
  Definition reads_work (l : list (@action K V)) : Prop := forall i, ~ In (FailRead i) l.
End Spec.
