(** What coming up should mean. Used from the model: the disk, the columns, the crash points, the peers of C103, the state manager's [get] and the trie's reads and roots. *)
From Verif Require Import Base Trie_Model Trie_Spec StateCache_Model StateCache_Spec Boot_Model.
From Verif Require Net_Model.
From Coq Require Import Permutation.

(** The key of state component [i]: [i], then thirty zero octets. *)
Definition component_key (i : N) : path := bits (i :: repeat 0%N 30).
Definition component (i : N) : Prop := (1 <= i <= 16)%N.
(** The validator's place: the first one with its key. *)
Definition first_place (l : list vkv) (k : N) (o : option nat) : Prop :=
  match o with
  | Some i => option_map vk_band (nth_error l i) = Some k /\ forall j, j < i -> option_map vk_band (nth_error l j) <> Some k
  | None => forall v, In v l -> vk_band v <> k
  end.
(** Whom to dial: every address of the three sets but the own one and the empty one, with the entry of the newest set that has it. *)
Definition dials (past active staging : list vkv) (local : bytes) (l : list Net_Model.peer) : Prop :=
  forall p, In p l <-> Net_Model.p_addr p <> local /\ Net_Model.p_addr p <> repeat 0%N 18 /\
    exists l1 l2, map vk_peer (past ++ active ++ staging) = l1 ++ p :: l2 /\ forall x, In x l2 -> Net_Model.p_addr x <> Net_Model.p_addr p.

Section Boot.
  Context (H : bytes -> bytes) {V : Type} (enc : V -> bytes) (dec : path -> bytes -> option V).
  Context {Hd X : Type} (header_hash : Hd -> bytes) (xt_hash : Hd -> bytes) (set_of : V -> list vkv).
  (** The genesis state as a map: its sixteen components and nothing else. *)
  Definition is_genesis (g : genesis (V := V) (Hd := Hd) (X := X)) (m : path -> option V) : Prop :=
    (forall i, component i -> m (component_key i) = Some (g_vals g i)) /\ forall k x, m k = Some x -> exists i, component i /\ k = component_key i.
  (** The components can be read back from their encodings. *)
  Definition decodable (g : genesis (V := V) (Hd := Hd) (X := X)) : Prop := forall i, component i -> dec (component_key i) (enc (g_vals g i)) = Some (g_vals g i).
  (** The encodings of components too long for a leaf. *)
  Definition long_components (g : genesis (V := V) (Hd := Hd) (X := X)) (b : bytes) : Prop := exists i, component i /\ b = enc (g_vals g i) /\ 32 < length b.
  (** The node is up, on disk [d], with the genesis block and state. *)
  Definition up (g : genesis) (me : N) (local : bytes) (d : disk) (n : booted (V := V) (Hd := Hd) (X := X)) : Prop :=
    n_disk n = d /\ n_best n = g_header g /\
    Net_Model.col_get (k_headers d) (header_hash (g_header g)) = Some (g_header g) /\
    (xt_hash (g_header g) = zero_hash -> get_block xt_hash d (header_hash (g_header g)) = Some (g_header g, g_xts g)) /\
    (exists m, is_genesis g m /\
      (forall k, snd (get dec (n_sm n) k) = Ok (m k)) /\
      (forall k, store_read (restart (k_store d)) k = Ok (option_map enc (m k))) /\
      exists r, Net_Model.col_get (k_roots d) (header_hash (g_header g)) = Some r /\ store_root (m_store (n_sm n)) = r /\ root_of H enc m r) /\
    first_place (set_of (g_vals g 8)) me (n_index n) /\
    dials (set_of (g_vals g 9)) (set_of (g_vals g 8)) (set_of (g_vals g 7)) local (n_peers n).

  (** A chain of processes on one disk, each crashing at one of its crash points. *)
  Inductive lives (g : genesis) (at_points : nat -> Prop) : disk (Hd := Hd) (X := X) -> disk (Hd := Hd) (X := X) -> Prop :=
  | lives_none : forall d, lives g at_points d d
  | lives_more : forall d d1 d2 ord i, lives g at_points d d1 -> (forall l, Permutation l (ord l)) ->
      nth_error (crash_points H enc dec header_hash g ord d1) i = Some d2 -> at_points i -> lives g at_points d d2.
End Boot.
