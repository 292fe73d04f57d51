(** Properties of the state trie (C33, C34, C66, C67). *)
From Verif Require Import Base Base_Proofs Trie_Model Trie_Spec TrieCodec_Proofs Trie3_Proofs Trie4_Proofs TrieBind_Proofs.

(** A history used in the examples: five keys, two of them sharing their first 15 bits, one long value, updates and removals. *)
Definition key (a b : N) : path := bits ([a; b] ++ repeat 0%N 29).
Definition long : bytes := repeat 5%N 40.
Definition sample : list (list entry) :=
  [ [mk_entry (key 1 0) SAdd [1%N]; mk_entry (key 1 1) SAdd long; mk_entry (key 200 0) SAdd []];
    [mk_entry (key 1 0) SRemove []; mk_entry (key 7 0) SAdd [2%N]; mk_entry (key 200 0) SUpdate [3%N; 4%N]];
    [mk_entry (key 7 0) SClean []];
    [mk_entry (key 9 9) SAdd long; mk_entry (key 200 0) SRemove []] ].
Definition sample_state : list (path * bytes) := [(key 9 9, long); (key 7 0, [2%N]); (key 1 1, long)].
Lemma key_inj : forall a b c d, (a < 256)%N -> (b < 256)%N -> (c < 256)%N -> (d < 256)%N -> key a b = key c d -> a = c /\ b = d.
Proof.
  intros a b c d A B C D E. assert (X : [a; b] ++ repeat 0%N 29 = [c; d] ++ repeat 0%N 29).
  { assert (Z : Bytes (repeat 0%N 29)) by (apply Forall_forall; intros x X; apply repeat_spec in X; subst; unfold is_byte; lia).
    apply bits_inj; try assumption; repeat (constructor; [assumption|]); assumption. }
  inversion X. auto.
Qed.
Ltac kneq := let X := fresh in intro X; apply key_inj in X; [destruct X; discriminate|reflexivity..].
Ltac each := let e := fresh "e" in let He := fresh "He" in intros e He; repeat (destruct He as [<-|He]); [..|destruct He].
Ltac nodup := repeat (constructor; [let X := fresh in intro X; repeat (destruct X as [X|X]; [revert X; kneq|]); destruct X|]); constructor.
Ltac fit := apply Forall_forall; each; (split; [reflexivity|vm_compute; solve [exact I|reflexivity|discriminate]]).
Example sample_ok : history_ok no_state sample.
Proof.
  cbn [history_ok sample].
  split; [split; [cbn [map e_key]; nodup|split; [fit|]]|].
  { left. each; discriminate. }
  split; [split; [cbn [map e_key]; nodup|split; [fit|]]|].
  { right. exists (key 1 1). split; [vm_compute; discriminate|]. each; intro; try discriminate; cbn [e_key]; kneq. }
  split; [split; [cbn [map e_key]; nodup|split; [fit|]]|].
  { left. each; discriminate. }
  split; [split; [cbn [map e_key]; nodup|split; [fit|]]|exact I].
  { right. exists (key 1 1). split; [vm_compute; discriminate|]. each; intro; try discriminate; cbn [e_key]; kneq. }
Qed.
Example sample_lists : lists sample_state (history_map sample).
Proof.
  split; [unfold sample_state; cbn [map fst]; nodup|]. intros k v. unfold sample_state, history_map, sample. cbn [fold_left apply_batch apply_entry e_status e_key e_value In].
  unfold set, no_state. repeat match goal with |- context [list_eq_dec Bool.bool_dec k ?x] => destruct (list_eq_dec Bool.bool_dec k x) as [->|] end.
  all: split; [intro X; repeat (destruct X as [X|X]; [inversion X; subst; try reflexivity; try congruence|]); try destruct X|intro X; try discriminate; inversion X; subst; auto].
  all: exfalso; match goal with Y : key _ _ = key _ _ |- _ => revert Y; kneq | Y : bits _ = _ |- _ => idtac | _ => idtac end.
Qed.
(** A toy hash to run the examples with. *)
Definition toy (x : bytes) : bytes := le_bytes 32 (fold_left (fun a b => (a * 263 + b + 1) mod 2 ^ 256)%N x 7%N).
Example sample_run : exists s, run_history toy empty_store sample = Some s /\ store_root s = state_root toy sample_state /\ store_root s <> zero_hash /\
  store_read s (key 1 1) = Ok (Some long) /\ store_read s (key 200 0) = Ok None /\ store_read s (key 7 0) = Ok (Some [2%N]).
Proof. eexists. split; [vm_compute; reflexivity|]. vm_compute. repeat split; try reflexivity. discriminate. Qed.

(** ** C33: the root is the merklization of the map, and reads are reads of the map *)
(** After any valid sequence of batches, every commit has succeeded and the root is the specification's root of the resulting map. Missing: batches that leave no key (below). *)
Theorem trie_root_exact_partial : forall H bs d, history_ok no_state bs -> lists d (history_map bs) ->
  exists s, run_history H empty_store bs = Some s /\ store_root s = state_root H d.
Proof. exact root_exact. Qed.
Example trie_root_case : exists s, run_history toy empty_store sample = Some s /\ store_root s = state_root toy sample_state.
Proof. exact (trie_root_exact_partial toy sample sample_state sample_ok sample_lists). Qed.
(** Two histories with the same final map have the same root, however their changes were ordered and grouped. *)
Theorem trie_root_order_partial : forall H bs1 bs2, history_ok no_state bs1 -> history_ok no_state bs2 -> (forall k, history_map bs1 k = history_map bs2 k) ->
  exists s1 s2, run_history H empty_store bs1 = Some s1 /\ run_history H empty_store bs2 = Some s2 /\ store_root s1 = store_root s2.
Proof.
  intros H bs1 bs2 O1 O2 E. destruct (history_listed H bs1 O1) as [d L].
  assert (L2 : lists d (history_map bs2)) by (destruct L as [N L]; split; [exact N|]; intros k v; rewrite L, E; reflexivity).
  destruct (root_exact H bs1 d O1 L) as [s1 [R1 E1]], (root_exact H bs2 d O2 L2) as [s2 [R2 E2]]. exists s1, s2. repeat split; try assumption. congruence.
Qed.
(** The same final map as [sample], in one batch. *)
Definition sample2 : list (list entry) := [[mk_entry (key 1 1) SAdd long; mk_entry (key 9 9) SAdd long; mk_entry (key 7 0) SAdd [2%N]]].
Example sample2_ok : history_ok no_state sample2.
Proof. cbn [history_ok sample2]. split; [split; [cbn [map e_key]; nodup|split; [fit|]]|exact I]. left. each; discriminate. Qed.
Example trie_order_case : forall k, history_map sample k = history_map sample2 k.
Proof.
  intro k. unfold history_map, sample, sample2. cbn [fold_left apply_batch apply_entry e_status e_key e_value]. unfold set, no_state.
  repeat match goal with |- context [list_eq_dec Bool.bool_dec k ?x] => destruct (list_eq_dec Bool.bool_dec k x) as [->|] end; try reflexivity.
  all: exfalso; match goal with Y : key _ _ = key _ _ |- _ => revert Y; kneq end.
Qed.
(** Reads return the map, unless two of the long values written have the same hash. *)
Theorem trie_reads_exact_partial : forall H bs, history_ok no_state bs -> no_collision H (hashed_values bs) ->
  exists s, run_history H empty_store bs = Some s /\ forall k, store_read s k = Ok (history_map bs k).
Proof. exact read_exact. Qed.
Example trie_reads_case : no_collision toy (hashed_values sample).
Proof.
  assert (X : forall v, hashed_values sample v -> v = long).
  { intros v [es [e [A [B [<- C]]]]]. cbn [sample In] in A. repeat (destruct A as [<-|A]; [cbn [In] in B; repeat (destruct B as [<-|B]; [cbn [e_value] in *; try reflexivity; simpl in C; lia|]); destruct B|]). destruct A. }
  intros v w A B _. rewrite (X v A), (X w B). reflexivity.
Qed.
(** Removing the last key is refused although the empty map has a root. *)
Theorem trie_empty_refuted : exists H s s', run_history H empty_store [[mk_entry (key 1 0) SAdd [1%N]]] = Some s /\
  store_commit H s [mk_entry (key 1 0) SRemove []] = (s', Err ENotInitialized).
Proof. exists toy. do 2 eexists. split; [reflexivity|]. vm_compute. reflexivity. Qed.
(** A batch that replaces the only key is accepted in one order of its entries and refused in the other; the node takes the order of a hash set. *)
Theorem trie_batch_order_refuted : exists H s s1 s2, run_history H empty_store [[mk_entry (key 1 0) SAdd [1%N]]] = Some s /\
  store_commit H s [mk_entry (key 2 0) SAdd [2%N]; mk_entry (key 1 0) SRemove []] = (s1, Ok tt) /\
  store_commit H s [mk_entry (key 1 0) SRemove []; mk_entry (key 2 0) SAdd [2%N]] = (s2, Err ENotInitialized).
Proof. exists toy. do 3 eexists. split; [reflexivity|]. split; vm_compute; reflexivity. Qed.
(** Adding a key that is already there crashes the node. *)
Theorem trie_add_twice_refuted : exists H s s', run_history H empty_store [[mk_entry (key 1 0) SAdd [1%N]]] = Some s /\
  store_commit H s [mk_entry (key 1 0) SAdd [1%N]] = (s', Panic).
Proof. exists toy. do 2 eexists. split; [reflexivity|]. vm_compute. reflexivity. Qed.

(** ** C34: node encodings *)
(** What a node holds: a 248-bit key with at most 32 bytes or a hash; or 255 and 256 bits of the children's hashes. *)
Theorem node_size : forall n, node_ok n -> length (encode n) = 64 /\ Bytes (encode n).
Proof. intros n Hn. split; [apply encode_length; assumption|apply encode_Bytes; assumption]. Qed.
Theorem node_roundtrip : forall n, node_ok n -> decode (encode n) = Ok n.
Proof. exact decode_encode. Qed.
Theorem node_distinct : forall a b, node_ok a -> node_ok b -> encode a = encode b -> a = b.
Proof. exact encode_inj. Qed.
(** A leaf's and a branch's encodings are the specification's; a branch keeps its children's hashes but for the first bit of the left one. *)
Theorem leaf_encoding : forall H k v, length k = KEY_BITS -> encode (NLeaf (fst (entry_leaf H k v))) = unbits (spec_leaf H k v).
Proof. intros. unfold encode. cbn [node_bits]. rewrite leaf_bits_spec by assumption. reflexivity. Qed.
Theorem branch_encoding : forall l r, encode (NBranch (new_branch l r)) = unbits (spec_branch l r).
Proof. intros. unfold encode. cbn [node_bits]. rewrite branch_bits_spec. reflexivity. Qed.
Theorem branch_keeps_hashes : forall l r l' r', length l = 32 -> length r = 32 -> length l' = 32 -> length r' = 32 -> Bytes l -> Bytes r -> Bytes l' -> Bytes r' ->
  encode (NBranch (new_branch l r)) = encode (NBranch (new_branch l' r')) <-> (tl (bits l) = tl (bits l') /\ r = r').
Proof.
  intros l r l' r' A B C D E F G I. rewrite !tl_skipn1, <- new_branch_eq by assumption. split; [|congruence].
  intro X. apply encode_inj in X; try (apply new_branch_ok; assumption). congruence.
Qed.
(** Every node in the database is one the codec restores. *)
Theorem stored_nodes_decode : forall H bs, history_ok no_state bs -> (forall x, length (H x) = 32 /\ Bytes (H x)) -> (forall es e, In es bs -> In e es -> Bytes (e_value e)) ->
  exists s, run_history H empty_store bs = Some s /\ forall p n, oget (d_nodes (g_db (s_mgr s))) p = Some n -> length (encode n) = 64 /\ decode (encode n) = Ok n.
Proof. exact stored_decodes. Qed.
Lemma toy_hash : forall x, length (toy x) = 32 /\ Bytes (toy x).
Proof. intro x. split; [apply le_bytes_length|apply le_bytes_Bytes]. Qed.
Example node_case : node_ok (NLeaf (fst (entry_leaf toy (key 1 1) long))) /\ node_ok (NBranch (new_branch (toy [1%N]) (toy [2%N]))) /\ (forall es e, In es sample -> In e es -> Bytes (e_value e)).
Proof.
  split; [split; [reflexivity|apply toy_hash]|]. split; [apply new_branch_ok; apply toy_hash|].
  intros es e A B. cbn [sample In] in A.
  assert (Z : Bytes long) by (apply Forall_forall; intros x X; apply repeat_spec in X; subst; unfold is_byte; lia).
  repeat (destruct A as [<-|A]; [cbn [In] in B; repeat (destruct B as [<-|B]; [cbn [e_value]; try exact Z; repeat (constructor; [unfold is_byte; lia|]); constructor|]); destruct B|]). destruct A.
Qed.

(** ** C66: the root determines the state *)
Theorem trie_root_binds : forall H, (forall x, length (H x) = 32 /\ Bytes (H x)) -> forall d1 d2, state_ok d1 -> state_ok d2 -> state_root H d1 = state_root H d2 ->
  (forall k v, In (k, v) d1 <-> In (k, v) d2) \/ clash H (root_inputs H d1) (root_inputs H d2).
Proof. exact root_binds. Qed.
Example trie_binds_case : state_ok sample_state /\ state_ok (rev sample_state) /\ sample_state <> rev sample_state /\ state_root toy sample_state = state_root toy (rev sample_state) /\ length (root_inputs toy sample_state) = 11.
Proof.
  assert (Z : Bytes long) by (apply Forall_forall; intros x X; apply repeat_spec in X; subst; unfold is_byte; lia).
  assert (A : forall k v, In (k, v) sample_state -> length k = KEY_BITS /\ Bytes v).
  { intros k v X. cbn [sample_state In] in X. repeat (destruct X as [X|X]; [inversion X; subst; split; [reflexivity|try exact Z; repeat (constructor; [unfold is_byte; lia|]); constructor]|]). destruct X. }
  split; [split; [unfold sample_state; cbn [map fst]; nodup|exact A]|].
  split; [split; [unfold sample_state; cbn [rev app map fst]; nodup|intros k v X; apply A; apply in_rev; exact X]|]. split; [|split; vm_compute; reflexivity].
  unfold sample_state. cbn [rev app]. intro X. assert (W : key 9 9 <> key 1 1) by kneq. apply W.
  apply (f_equal (fun l => match l with e :: _ => fst e | [] => [] end)) in X. exact X.
Qed.

(** ** C67: commits that fail, and restarts *)
(** Preparing a commit writes nothing, whether or not it succeeds. *)
Theorem prepare_writes_nothing : forall H g es, g_db (fst (prepare_commit H g es)) = g_db g.
Proof. exact prepare_keeps_db. Qed.
(** After a restart the stored map is still read, further histories work, and the root is right again after the next write. *)
Theorem restart_exact_partial : forall H bs cs, history_ok no_state (bs ++ cs) ->
  exists s s', run_history H empty_store bs = Some s /\ run_history H (restart s) cs = Some s' /\
    ((exists es, In es cs /\ some_write es) -> forall d, lists d (history_map (bs ++ cs)) -> store_root s' = state_root H d) /\
    (no_collision H (hashed_values (bs ++ cs)) -> forall k, store_read s' k = Ok (history_map (bs ++ cs) k)).
Proof. exact restart_exact. Qed.
Example restart_case : history_ok no_state (firstn 2 sample ++ skipn 2 sample) /\ exists es, In es (skipn 2 sample) /\ some_write es.
Proof. split; [exact sample_ok|]. eexists. split; [right; left; reflexivity|]. exists (mk_entry (key 9 9) SAdd long). split; [left; reflexivity|discriminate]. Qed.
(** Until then the root is zero. *)
Theorem restart_root_refuted : exists H s, run_history H empty_store sample = Some s /\ store_root s <> zero_hash /\ store_root (restart s) = zero_hash.
Proof. exists toy. destruct sample_run as [s [A [B [C _]]]]. exists s. split; [exact A|]. split; [exact C|reflexivity]. Qed.
(** What a refused batch had changed stays in the manager, and the next batch commits it: here the key of the refused batch is stored. *)
Theorem failed_commit_leaks_refuted : exists H s s1 s2, run_history H empty_store sample2 = Some s /\
  store_commit H s [mk_entry (key 50 0) SAdd [9%N]; mk_entry (key 60 0) SUpdate []] = (s1, Err EPathUnknown) /\
  store_commit H s1 [mk_entry (key 7 0) SUpdate [2%N]] = (s2, Ok tt) /\ store_read s (key 50 0) = Ok None /\ store_read s2 (key 50 0) = Ok (Some [9%N]).
Proof. exists toy. do 3 eexists. split; [vm_compute; reflexivity|]. split; [vm_compute; reflexivity|]. split; [vm_compute; reflexivity|]. split; vm_compute; reflexivity. Qed.
(** Nodes and leaf paths are written one after the other. After a crash in between, a key that the batch does not mention is gone, and a removed key reads as another key's value. *)
Theorem crash_loses_key_refuted : exists H s, run_history H empty_store [[mk_entry (key 1 0) SAdd [1%N]; mk_entry (key 200 0) SAdd [2%N]]] = Some s /\
  let s' := crash_between H s [mk_entry (key 3 0) SAdd [3%N]] in store_read s (key 1 0) = Ok (Some [1%N]) /\ store_read s' (key 1 0) = Ok None.
Proof. exists toy. eexists. split; [vm_compute; reflexivity|]. split; vm_compute; reflexivity. Qed.
Theorem crash_wrong_value_refuted : exists H s, run_history H empty_store [[mk_entry (key 1 0) SAdd [1%N]; mk_entry (key 200 0) SAdd [2%N]; mk_entry (key 130 0) SAdd [4%N]]] = Some s /\
  let s' := crash_between H s [mk_entry (key 1 0) SRemove []; mk_entry (key 3 0) SAdd [3%N]] in store_read s (key 1 0) = Ok (Some [1%N]) /\ store_read s' (key 1 0) = Ok (Some [3%N]).
Proof. exists toy. eexists. split; [vm_compute; reflexivity|]. split; vm_compute; reflexivity. Qed.
(** The trie is written before the values it points to: after a crash in between, reading the key fails. *)
Theorem crash_dangling_refuted : exists H s, run_history H empty_store [[mk_entry (key 1 0) SAdd [1%N]]] = Some s /\
  store_read (crash_before_state H s [mk_entry (key 1 0) SUpdate long]) (key 1 0) = Err tt.
Proof. exists toy. eexists. split; [vm_compute; reflexivity|]. vm_compute. reflexivity. Qed.
(** A prepared commit applied after another one: the other commit's key now reads as this one's value. *)
Theorem stale_artifact_refuted : exists H s m w s1 s2, run_history H empty_store [[mk_entry (key 1 0) SAdd [1%N]; mk_entry (key 200 0) SAdd [2%N]]] = Some s /\
  prepare_commit H (s_mgr s) [mk_entry (key 3 0) SAdd [3%N]] = (m, Ok (Some w)) /\ m = s_mgr s /\
  store_commit H s [mk_entry (key 2 0) SAdd [5%N]] = (s1, Ok tt) /\ store_read s1 (key 2 0) = Ok (Some [5%N]) /\
  s2 = mk_store (apply_commit (s_mgr s1) w) (s_db s1) /\ store_read s2 (key 2 0) = Ok (Some [3%N]).
Proof. exists toy. do 5 eexists. split; [vm_compute; reflexivity|]. split; [vm_compute; reflexivity|]. split; [vm_compute; reflexivity|]. split; [vm_compute; reflexivity|]. split; [vm_compute; reflexivity|]. split; [reflexivity|]. vm_compute. reflexivity. Qed.
