(** C36: the cached database is the database. *)
From Verif Require Import Base Trie_Model Trie_Spec TrieCodec_Proofs CachedDb_Model CachedDb_Spec CachedDb_Proofs.

(** Calls may run at the same time, interleaved at any point, entries may be evicted at any time, writes may fail, and the process may stop at any time
    and restart. As long as reads of the disk work and calls about one key do not overlap except for reads, every read returns what a map would hold
    on which the returned writes, and some of the writes cut off by crashes, each whole, have been made. *)
Theorem cached_db_partial : forall (K V : Type) (eqK : forall a b : K, {a = b} + {a <> b}) key (enc : V -> bytes) dec (ok : V -> Prop),
  (forall a b, key a = key b -> a = b) -> (forall v, ok v -> dec (enc v) = Some v) ->
  forall l s tr, exec eqK key enc dec fresh l = (s, tr) -> sound ok l -> reads_work l -> no_overlap tr -> exists applied, reads_agree eqK applied tr.
Proof. intros. now eapply exec_exact with (ok := ok); eauto. Qed.
(** A call that is given its turns returns, unless the disk fails. *)
Theorem cached_db_returns : forall (K V : Type) (eqK : forall a b : K, {a = b} + {a <> b}) key (enc : V -> bytes) dec s o,
  exists n s' tr r, exec eqK key enc dec s (Start o :: repeat (Step (c_next s)) n) = (s', tr) /\ In (Ret (c_next s) o r) tr /\ r <> Failed.
Proof. intros. apply start_returns. Qed.
(** The formats in which the node's databases keep keys and values: byte strings, hashes, trie paths and trie nodes. What is stored is read back, and nothing
    but what is stored for a key or a value is read as that key or value. *)
Theorem cached_db_formats :
  (forall a b, array_key a = array_key b -> a = b) /\ (forall n k, length k = n -> array_from_key n (array_key k) = Some k) /\
  (forall p q, path_key p = path_key q -> p = q) /\ (forall v, vec_dec (vec_enc v) = Some v) /\ (forall v, length v = 32 -> hash_dec (hash_enc v) = Some v) /\
  (forall p, path_dec (path_key p) = Some p) /\ (forall n, node_ok n -> node_dec (node_enc n) = Some n).
Proof.
  split; [auto|]. split; [intros n k <-; unfold array_from_key; now rewrite Nat.eqb_refl|]. split; [exact path_key_inj|]. split; [reflexivity|].
  split; [intros v E; unfold hash_dec; unfold hash_enc; now rewrite E|]. split; [exact path_dec_key|]. intros n Hn. unfold node_dec, node_enc. now rewrite decode_encode.
Qed.
Theorem cached_db_formats_strict :
  (forall n b k, array_from_key n b = Some k -> b = array_key k /\ length k = n) /\ (forall b v, hash_dec b = Some v -> b = hash_enc v /\ length v = 32) /\
  (forall b p, path_dec b = Some p -> b = path_key p).
Proof.
  split; [intros n b k; unfold array_from_key; destruct (Nat.eqb_spec (length b) n); [intros E; injection E as <-; auto | discriminate]|].
  split; [intros b v; unfold hash_dec; destruct (Nat.eqb_spec (length b) 32); [intros E; injection E as <-; auto | discriminate]|]. exact path_dec_only.
Qed.
Example cached_db_strict_case : array_from_key 2 [1%N; 2%N] = Some [1%N; 2%N] /\ hash_dec (repeat 7%N 32) = Some (repeat 7%N 32) /\ hash_dec [7%N] = None /\ path_dec [48%N; 49%N] = Some [false; true].
Proof. repeat split. Qed.
(** The trie nodes, as one of the databases. *)
Theorem node_db_partial : forall l s tr, exec (list_eq_dec Bool.bool_dec) path_key node_enc node_dec fresh l = (s, tr) -> sound node_ok l -> reads_work l ->
  no_overlap tr -> exists applied, reads_agree (list_eq_dec Bool.bool_dec) applied tr.
Proof. apply cached_db_partial; apply cached_db_formats. Qed.
(** A put, an overlapping read and put of another key, an eviction, a put cut off by a crash, reads. *)
Definition sample : list (@action nat bytes) :=
  [Start (Put 1 [5%N]); Step 0; Step 0; Step 0; Evict 1; Start (Get 1); Start (Batch [(2, Some [7%N]); (3, None); (2, Some [8%N])]); Step 1; Step 2; Step 1; Step 2; Evict 2; Step 2; Step 2; Step 2;
   Start (Get 2); Step 3; Step 3; Start (Put 2 [9%N]); Step 4; Restart; Start (Get 2); Step 5; Step 5; Start (Get 2); Start (Get 3); Step 7; Step 7].
Example cached_db_case : exists s tr, exec Nat.eq_dec (fun n => repeat 1%N n) vec_enc vec_dec fresh sample = (s, tr) /\ reads_work sample /\ no_overlap tr /\
  In (Ret 1 (Get 1) (Value (Some [5%N]))) tr /\ In (Ret 3 (Get 2) (Value (Some [8%N]))) tr /\ In (Ret 5 (Get 2) (Value (Some [9%N]))) tr /\ In (Ret 7 (Get 3) (Value None)) tr.
Proof.
  do 2 eexists. split; [vm_compute; reflexivity|]. split; [intros i; cbn; intuition congruence|]. split.
  - assert (G : forall tr : list (event nat bytes), (forall n i o j o' k, nth_error tr n = Some (Call i o) -> In (j, o') (open (firstn n tr)) -> touches o k -> touches o' k -> is_read o /\ is_read o') -> no_overlap tr).
    { intros tr H tr1 i o tr2 j o' k -> O. apply (H (length tr1) i o j o' k).
      - rewrite nth_error_app2, PeanoNat.Nat.sub_diag by apply le_n. reflexivity.
      - rewrite firstn_app, PeanoNat.Nat.sub_diag, firstn_all. cbn. now rewrite app_nil_r. }
    apply G. clear G. intros n i o j o' k.
    do 20 (destruct n as [|n]; [cbn; intros E O T T'; try discriminate E; injection E as <- <-; repeat (destruct O as [O|O]; [injection O as <- <-|]); cbn in *; intuition congruence|]).
    cbn. destruct n; discriminate.
  - cbn. auto 20.
Qed.
(** Without the restrictions the property is false. A read that fetched the old value before a put caches it after: reads that begin later return the old
    value although the put has returned. And a failing disk read is answered as if there were no entry. *)
Theorem cached_db_refuted :
  (exists l s tr i k v w, exec Nat.eq_dec (fun n => repeat 1%N n) vec_enc vec_dec fresh l = (s, tr ++ [Call i (Get k); Ret i (Get k) (Value (Some v))]) /\ reads_work l /\
     open tr = [] /\ v <> w /\ forall applied, after Nat.eq_dec applied tr k = Some w) /\
  (exists l s tr i k v, exec Nat.eq_dec (fun n => repeat 1%N n) vec_enc vec_dec fresh l = (s, tr ++ [Call i (Get k); Ret i (Get k) (Value None)]) /\ no_overlap tr /\
     open tr = [] /\ forall applied, after Nat.eq_dec applied tr k = Some v).
Proof.
  split.
  - exists [Start (Put 1 [5%N]); Step 0; Step 0; Step 0; Evict 1; Start (Get 1); Step 1; Start (Put 1 [6%N]); Step 2; Step 2; Step 2; Step 1; Start (Get 1)].
    eexists. exists [Call 0 (Put 1 [5%N]); Ret 0 (Put 1 [5%N]) Done; Call 1 (Get 1); Call 2 (Put 1 [6%N]); Ret 2 (Put 1 [6%N]) Done; Ret 1 (Get 1) (Value (Some [5%N]))].
    exists 3, 1, [5%N], [6%N]. split; [vm_compute; reflexivity|].
    split; [intros i; cbn; intuition congruence|]. split; [reflexivity|]. split; [discriminate|]. reflexivity.
  - exists [Start (Put 1 [5%N]); Step 0; Step 0; Step 0; Evict 1; Start (Get 1); FailRead 1; Step 1].
    eexists. exists [Call 0 (Put 1 [5%N]); Ret 0 (Put 1 [5%N]) Done]. exists 1, 1, [5%N]. split; [vm_compute; reflexivity|]. split; [|split; reflexivity].
    intros tr1 i o tr2 j o' k E O. destruct tr1 as [|e [|e' tr1]]; cbn in E; [destruct O|discriminate|]. destruct tr1; discriminate.
Qed.
Print Assumptions cached_db_formats_strict.
