(** The state as its users see it: typed entries named by component, service and key. This joins the models of the state keys
    (StateKeys_Model), of the components' octets (Comp_Model) and of the state manager over its trie (StateCache_Model).
    Simplifications: those of the three, and the check that a cached value has the type asked for is made on reads only. *)
From Verif Require Import Base StateKeys_Model StateKeys_Spec Trie_Model StateCache_Model Block_Model Comp_Model.

Section Vault.
  Variable H : bytes -> bytes.            (* Blake2b-256 *)
  Variable P : params.
  Variable Z : msizes.
  Variable POOL HISTORY QUEUE : nat.

  (** state/src/state_utils.rs:202-220: the component of each number; an account's entries by the accessor used, state/src/manager.rs:1132-1300. *)
  Definition sort_at (i : item) : sort :=
    match i with
    | Chapter n => nth (N.to_nat n) [KPool; KPool; KQueue; KHistory; KSafrole; KDisputes; KEntropy; KStaging; KActive; KPast; KPending; KSlot; KPrivileges; KStatistics; KReady; KAccumulated] KOutputs
    | Account _ => KAccount | Storage _ _ => KStorage | Preimage _ _ => KPreimage | Lookup _ _ _ => KLookup
    end.
  (** The state key an accessor computes: state/src/manager.rs:1025, 1037, 1054, 1065 for components and 1136, 1169, 1214, 1259 for accounts. *)
  Definition key_at (i : item) : bytes :=
    match i with
    | Chapter n => simple_key n
    | Account s => metadata_key s
    | Storage s k => storage_key H s k
    | Preimage s h => preimage_key H s h
    | Lookup s h l => lookups_key H s h l
    end.
  (** The key as the trie has it: state/state-merkle-v2/src/utils.rs:6-13. *)
  Definition place (i : item) : path := bits (key_at i).
  (** What a commit writes: state/src/manager.rs:772-800. Writing the values of [entry_held] does not fail. *)
  Definition octets_of (e : entry P) : bytes := match write_entry P Z POOL HISTORY QUEUE e with Ok o => o | _ => [] end.
  (** state/src/manager.rs:911, 948: T::decode, T being the type of the accessor; errors and panics alike are None here. *)
  Definition read_at (i : item) (b : bytes) : option (entry P) := match read_entry P Z POOL HISTORY QUEUE (sort_at i) b with Ok e => Some e | _ => None end.

  (** The typed accessors of state/src/manager.rs:136-172 (components), 1132-1300 (accounts), and the commits of 772-880. [Forget] is the cache library dropping an entry on its own. *)
  Inductive call :=
  | Look (i : item) | LookClean (i : item) | New (i : item) (e : entry P) | Change (i : item) (f : entry P -> option (entry P)) | Drop (i : item) | Forget (i : item)
  | Save (ord : list path -> list path) | Undo | Stage (ord : list path -> list path) | Land | Digest.
  (** The item a call names, state/src/manager.rs:1021-1300. *)
  Definition item_of (c : call) : option item :=
    match c with Look i | LookClean i | New i _ | Change i _ | Drop i | Forget i => Some i | _ => None end.
  (** state/src/manager.rs:1021-1300: each accessor is the generic one at its key. *)
  Definition lower (c : call) : op (V := entry P) :=
    match c with
    | Look i => Get (place i) | LookClean i => GetClean (place i) | New i e => Add (place i) e | Change i f => Update (place i) f | Drop i => Remove (place i) | Forget i => Evict (place i)
    | Save ord => Commit ord | Undo => Rollback | Stage ord => Prepare ord | Land => Apply | Digest => ReadRoot
    end.
  (** state/src/manager.rs:911, 948. *)
  Definition decoder (c : call) (k : path) (b : bytes) : option (entry P) := match item_of c with Some i => read_at i b | None => None end.
  (** state/src/manager.rs:941-942: a cached value of another type is an error. *)
  Definition sort_eq_dec : forall a b : sort, {a = b} + {a <> b}. Proof. decide equality. Defined.
  (** state/src/manager.rs:1021-1042: a component that is not there is an error, an account's entry that is not there is None; 941-942. *)
  Definition typed (c : call) (a : answer (V := entry P)) : answer (V := entry P) :=
    match c, a with
    | Look i, Value (Some e) | LookClean i, Value (Some e) => if sort_eq_dec (sort_of P e) (sort_at i) then a else Failed
    | Look (Chapter _), Value None | LookClean (Chapter _), Value None => Failed
    | _, _ => a
    end.
  (** One call, state/src/manager.rs:772-1300. *)
  Definition do_call (w : world (V := entry P)) (c : call) : world (V := entry P) * answer (V := entry P) :=
    let (w', a) := step H octets_of (decoder c) w (lower c) in (w', typed c a).
  (** Calls one after the other, state/src/manager.rs:772-1300. *)
  Fixpoint calls (w : world (V := entry P)) (l : list call) : list (answer (V := entry P)) :=
    match l with [] => [] | c :: r => let (w', a) := do_call w c in a :: calls w' r end.
End Vault.
