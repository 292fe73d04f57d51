(** What a pool should answer: it is the list of the submissions it accepted. *)
From Verif Require Import Base Pool_Model.

(** Number of different hashes among the accepted submissions *)
Definition distinct (acc : list (entry * N)) : nat := length (nodup N.eq_dec (map (fun x => e_hash (fst x)) acc)).
(** A submission is accepted while there are fewer than [max] different entries; a query answers the accepted submissions for the kind and slot, in order. *)
Definition reply (max : nat) (acc : list (entry * N)) (c : call) : list (entry * N) * answer :=
  match c with
  | Add e s => if Nat.ltb (distinct acc) max then (acc ++ [(e, s)], Added true) else (acc, Added false)
  | Get k s => (acc, Got (map fst (filter (fun x => N.eqb (e_kind (fst x)) k && N.eqb (snd x) s)%bool acc)))
  end.
(** The answers to calls made one after the other *)
Fixpoint replies (max : nat) (acc : list (entry * N)) (cs : list call) : list answer :=
  match cs with [] => [] | c :: r => snd (reply max acc c) :: replies max (fst (reply max acc c)) r end.

(** Different entries have different hashes. *)
Definition no_collisions (cs : list call) : Prop := forall e1 s1 e2 s2, In (Add e1 s1) cs -> In (Add e2 s2) cs -> e_hash e1 = e_hash e2 -> e1 = e2.
(** Threads about to make these calls *)
Definition starting (cs : list call) : list thread := map (fun c => (c, Begin)) cs.
(** The calls that returned *)
Definition returned (ts : list thread) : list (call * answer) := flat_map (fun t => match t with (c, Back a) => [(c, a)] | _ => [] end) ts.
