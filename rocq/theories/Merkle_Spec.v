(** What a verifier does with a Merkle proof, and which strings get hashed; independent of the model's functions. *)
From Verif Require Import Base.

Definition node_tag : bytes := [110; 111; 100; 101]%N.
Definition leaf_tag : bytes := [108; 101; 97; 102]%N.

Definition peak_tag : bytes := [112; 101; 97; 107]%N.

Section S.
  Variable H : bytes -> bytes.

  (** The tree over [ls] has root [r]: one leaf is its own root, more leaves are split with the larger half first. *)
  Inductive tree : list bytes -> bytes -> Prop :=
  | tree_leaf : forall d, tree [d] d
  | tree_node : forall l r a b, l <> [] -> r <> [] -> (length l = length r \/ length l = S (length r)) ->
      tree l a -> tree r b -> tree (l ++ r) (H (node_tag ++ a ++ b)).

  (** The strings hashed in computing that root. *)
  Inductive tree_hashes : list bytes -> bytes -> Prop :=
  | th_here : forall l r a b, l <> [] -> r <> [] -> (length l = length r \/ length l = S (length r)) ->
      tree l a -> tree r b -> tree_hashes (l ++ r) (node_tag ++ a ++ b)
  | th_left : forall l r s, l <> [] -> r <> [] -> (length l = length r \/ length l = S (length r)) ->
      tree_hashes l s -> tree_hashes (l ++ r) s
  | th_right : forall l r s, l <> [] -> r <> [] -> (length l = length r \/ length l = S (length r)) ->
      tree_hashes r s -> tree_hashes (l ++ r) s.

  (** Recomputing the root from a leaf, its position among [n] leaves and the siblings listed from the top.
      The result also carries the strings the verifier hashed. *)
  Inductive climbs : nat -> nat -> bytes -> list bytes -> bytes -> list bytes -> Prop :=
  | climb_leaf : forall leaf, climbs 1 0 leaf [] leaf []
  | climb_left : forall nl nr i leaf sib sibs r hs,
      0 < nr -> (nl = nr \/ nl = S nr) -> i < nl ->
      climbs nl i leaf sibs r hs ->
      climbs (nl + nr) i leaf (sib :: sibs) (H (node_tag ++ r ++ sib)) ((node_tag ++ r ++ sib) :: hs)
  | climb_right : forall nl nr i leaf sib sibs r hs,
      0 < nr -> (nl = nr \/ nl = S nr) -> i < nr ->
      climbs nr i leaf sibs r hs ->
      climbs (nl + nr) (nl + i) leaf (sib :: sibs) (H (node_tag ++ sib ++ r)) ((node_tag ++ sib ++ r) :: hs).

  (** Root of a perfect binary tree of depth [k] with an untagged pair hash (used by mountain ranges). *)
  Fixpoint perfect (k : nat) (ls : list bytes) : bytes :=
    match k with
    | 0 => hd [] ls
    | S j => H (perfect j (firstn (2 ^ j) ls) ++ perfect j (skipn (2 ^ j) ls))
    end.

  (** The strings hashed when the peaks [p :: ps] are folded into one, starting from [p]. *)
  Fixpoint peak_hashes (p : bytes) (ps : list bytes) : list bytes :=
    match ps with
    | [] => []
    | q :: t => (peak_tag ++ p ++ q) :: peak_hashes (H (peak_tag ++ p ++ q)) t
    end.

  (** The super-peak of a range, slot by slot: empty slots do not matter, the first peak is taken as it is, every further peak is
      hashed behind what the slots below it gave; it is zeros where there is no peak. *)
  Inductive peaked : list (option bytes) -> bytes -> Prop :=
  | pk_none : peaked [] (repeat 0%N 32)
  | pk_gap : forall l r, peaked l r -> peaked (l ++ [None]) r
  | pk_first : forall l p, (forall o, In o l -> o = None) -> peaked (l ++ [Some p]) p
  | pk_next : forall l q r p, In (Some q) l -> peaked l r -> peaked (l ++ [Some p]) (H (peak_tag ++ r ++ p)).

  (** The strings hashed for a well-balanced root: a single item is hashed itself. *)
  Definition wb_hashes (items : list bytes) (s : bytes) : Prop := items = [s] \/ (2 <= length items /\ tree_hashes items s).

  Definition collision (s t : bytes) : Prop := s <> t /\ H s = H t.
End S.
