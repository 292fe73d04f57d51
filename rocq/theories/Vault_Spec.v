(** What the state should be to its users: a map from items to values, one committed and one worked on, and the Merkle root of the Graypaper's serialization of the map. *)
From Verif Require Import Base StateKeys_Spec Trie_Model Trie_Spec StateCache_Model Block_Model Comp_Model Comp_Spec Vault_Model.
From Coq Require Import Permutation.

Definition item_eq_dec : forall a b : item, {a = b} + {a <> b}.
Proof. decide equality; try apply N.eq_dec; apply list_eq_dec; apply N.eq_dec. Defined.

(** What each entry of the state is (Graypaper D.1): the components alpha, phi, beta, gamma, psi, eta, iota, kappa, lambda, rho, tau, chi, pi, omega, xi and
    theta have the numbers 1 to 16, in this order. *)
Definition kind (i : item) : sort :=
  match i with
  | Chapter 1 => KPool | Chapter 2 => KQueue | Chapter 3 => KHistory | Chapter 4 => KSafrole | Chapter 5 => KDisputes | Chapter 6 => KEntropy
  | Chapter 7 => KStaging | Chapter 8 => KActive | Chapter 9 => KPast | Chapter 10 => KPending | Chapter 11 => KSlot | Chapter 12 => KPrivileges
  | Chapter 13 => KStatistics | Chapter 14 => KReady | Chapter 15 => KAccumulated | Chapter _ => KOutputs
  | Account _ => KAccount | Storage _ _ => KStorage | Preimage _ _ => KPreimage | Lookup _ _ _ => KLookup
  end%N.
Section Spec.
  Variable H : bytes -> bytes.
  Variable P : params.
  Variable Z : msizes.
  Variable POOL HISTORY QUEUE : nat.
  Definition imap := item -> option (entry P).
  (** [b_now]: what the calls work on; [b_kept]: the last committed map; [b_staged]: a map prepared but not applied; [b_touched]: the items changed since. *)
  Record book := mk_book { b_kept : imap; b_now : imap; b_staged : option imap; b_touched : list item }.
  Definition blank : book := mk_book (fun _ => None) (fun _ => None) None [].
  Definition with_item (m : imap) (i : item) (o : option (entry P)) : imap := fun x => if item_eq_dec x i then o else m x.
  Definition change (b : book) (i : item) (o : option (entry P)) : book := mk_book (b_kept b) (with_item (b_now b) i o) (b_staged b) (i :: b_touched b).
  Definition after (b : book) (c : call P) : book :=
    match c with
    | Look _ _ | LookClean _ _ | Forget _ _ | Digest _ => b
    | New _ i e => match b_now b i with None => change b i (Some e) | Some _ => b end
    | Change _ i f => match b_now b i with Some x => match f x with Some y => change b i (Some y) | None => b end | None => b end
    | Drop _ i => match b_now b i with Some _ => change b i None | None => b end
    | Save _ _ => mk_book (b_now b) (b_now b) (b_staged b) []
    | Undo _ => mk_book (b_kept b) (b_kept b) (b_staged b) []
    | Stage _ _ => mk_book (b_kept b) (b_kept b) (match b_touched b with [] => None | _ => Some (b_now b) end) []
    | Land _ => match b_staged b with Some m => mk_book m m None [] | None => b end
    end.
  (** [r] is the root of the trie that holds, for each item of the map, its value's octets under its key. *)
  Definition root_of_items (m : imap) (r : bytes) : Prop :=
    exists d kvs, NoDup (map fst d) /\ (forall i e, In (i, e) d <-> m i = Some e) /\
      Forall2 (fun (x : item * entry P) (kv : path * bytes) => (exists key, key_bytes H (fst x) key /\ fst kv = bits key) /\ gp_entry (snd x) (snd kv)) d kvs /\
      r = state_root H kvs.
  Definition is_there (o : option (entry P)) : bool := match o with Some _ => true | None => false end.
  Definition said (b : bool) : answer (V := entry P) := if b then Done else Failed.
  (** A component must be there; an entry of an account need not. *)
  Definition shown (i : item) (o : option (entry P)) : answer (V := entry P) := match i, o with Chapter _, None => Failed | _, _ => Value o end.
  Definition answered (b : book) (c : call P) (a : answer (V := entry P)) : Prop :=
    match c with
    | Look _ i => a = shown i (b_now b i)
    | LookClean _ i => a = shown i (b_kept b i)
    | New _ i _ => a = said (negb (is_there (b_now b i)))
    | Change _ i f => a = said (match b_now b i with Some x => is_there (f x) | None => false end)
    | Drop _ i => a = said (is_there (b_now b i))
    | Save _ _ | Undo _ | Forget _ _ => a = Done
    | Stage _ _ => match b_touched b with [] => a = Root None | _ => exists r, a = Root (Some r) /\ root_of_items (b_now b) r end
    | Land _ => a = said (match b_staged b with Some _ => true | None => false end)
    | Digest _ => exists r, a = Root (Some r) /\ root_of_items (b_kept b) r
    end.
  Fixpoint faithful (b : book) (l : list (call P)) (ans : list (answer (V := entry P))) : Prop :=
    match l, ans with
    | [], [] => True
    | c :: l', a :: ans' => answered b c a /\ faithful (after b c) l' ans'
    | _, _ => False
    end.

  (** A value that belongs to an item. *)
  Definition belongs (i : item) (e : entry P) : Prop := entry_held P Z POOL HISTORY QUEUE e /\ sort_of P e = kind i.
  (** A commit that does not remove every item committed before. *)
  Definition some_stay (b : book) : Prop := (forall i, b_kept b i <> None -> b_now b i <> None) \/ exists i, b_kept b i <> None /\ b_now b i <> None.
  (** Calls made as they should be; the uses left out are those of C32 for which its [_refuted] theorems show what happens. *)
  Definition proper (b : book) (c : call P) : Prop :=
    match c with
    | Look _ _ | Undo _ | Digest _ => True
    | LookClean _ i => b_kept b i = None -> b_now b i = None
    | New _ i e => belongs i e /\ (b_kept b i <> None -> b_now b i <> None)
    | Change _ i f => forall x y, b_now b i = Some x -> f x = Some y -> belongs i y
    | Drop _ i => b_kept b i = None -> b_now b i = None
    | Forget _ i => ~ In i (b_touched b)
    | Save _ ord => (forall l, Permutation l (ord l)) /\ some_stay b /\ (b_touched b <> [] -> b_staged b = None)
    | Stage _ ord => (forall l, Permutation l (ord l)) /\ some_stay b
    | Land _ => b_touched b = []
    end.
  Fixpoint all_proper (b : book) (l : list (call P)) : Prop := match l with [] => True | c :: l' => proper b c /\ all_proper (after b c) l' end.
  Fixpoint books (b : book) (l : list (call P)) : list book := b :: match l with [] => [] | c :: l' => books (after b c) l' end.
  (** The octets too long for a leaf of any value ever held. *)
  Definition long_octets (l : list (call P)) (o : bytes) : Prop :=
    exists b i e, In b (books blank l) /\ b_now b i = Some e /\ gp_entry e o /\ (32 < length o)%nat.
  (** The items a history names: they exist, and no two of them have clashing keys. *)
  Definition named (l : list (call P)) (i : item) : Prop := exists c, In c l /\ item_of P c = Some i.
  Definition separate (l : list (call P)) : Prop :=
    (forall i, named l i -> item_ok i /\ plain i) /\ forall i j, named l i -> named l j -> ~ StateKeys_Spec.clash H i j.
End Spec.
