(** Properties of coming up (C108, C109). *)
From Verif Require Import Base Base_Proofs Trie_Model Trie_Spec Trie_Props Trie4_Proofs StateCache_Model StateCache_Spec StateCache_Proofs StateCache_Props Boot_Model Boot_Spec Boot_Proofs.
From Verif Require Net_Model.
From Coq Require Import Permutation.

(** * C108: coming up on a new database *)
(** On an empty database, also after any number of attempts that crashed before the state was written, the node comes up: it has the genesis block as its best block and serves it,
    its state is exactly the sixteen components, in memory and on disk, the root recorded for the genesis block is the root of that state, its index is its place in the active set,
    and its peers are the validators' addresses. *)
Theorem boot_fresh : forall (H : bytes -> bytes) (V Hd X : Type) (enc : V -> bytes) (dec : path -> bytes -> option V) (header_hash xt_hash : Hd -> bytes) (set_of : V -> list vkv)
  (g : genesis (V := V) (Hd := Hd) (X := X)), decodable enc dec g -> no_collision H (long_components enc g) ->
  forall d, lives H enc dec header_hash g (fun i => i < 3) empty_disk d -> forall ord me local, (forall l, Permutation l (ord l)) ->
  exists d' n, init_node H enc dec header_hash set_of g ord me local d = (d', Ok n) /\ up H enc dec header_hash xt_hash set_of g me local d' n.
Proof.
  intros H V Hd X enc dec hh xh so g D C d L ord me local P. apply boot_up; try assumption. rewrite (lives_early _ _ _ _ _ _ _ L). reflexivity.
Qed.
(** A genesis with three validators, the second of which is this node, and a component too long for a leaf. *)
Definition val_addr (b : N) : bytes := repeat b 18.
Definition set_bytes (l : bytes) : list vkv := map (fun b => mk_vkv b (Net_Model.mk_peer (repeat b 32) (val_addr b))) l.
Definition small_genesis : genesis (V := bytes) (Hd := N) (X := bytes) :=
  mk_gen 5%N [77%N] (fun i => if (i =? 7)%N || (i =? 8)%N then [11; 12; 13]%N else if (i =? 9)%N then [0; 0; 0]%N else if (i =? 2)%N then long else [i; i]).
Definition hash_of (h : N) : bytes := le_bytes 32 (h + 1).
Definition zero_of (h : N) : bytes := zero_hash.
Notation start_up d := (init_node toy same plain_dec hash_of set_bytes small_genesis (fun l => l) 12%N (val_addr 12%N) d).
Notation crashes d := (crash_points toy same plain_dec hash_of small_genesis (fun l => l) d).
Lemma small_decodable : decodable same plain_dec small_genesis.
Proof. intros i _. reflexivity. Qed.
Lemma small_collision : no_collision toy (long_components same small_genesis).
Proof.
  assert (U : forall b, long_components same small_genesis b -> b = long).
  { intros b [i [[A B] [-> L]]]. unfold same in *. revert L. unfold small_genesis. cbn [g_vals]. destruct (i =? 7)%N, (i =? 8)%N, (i =? 9)%N, (i =? 2)%N; cbn [orb]; intro L; try reflexivity; cbn in L; lia. }
  intros a b A B _. rewrite (U a A), (U b B). reflexivity.
Qed.
Example boot_case : exists d1 d2 d' n, nth_error (crashes empty_disk) 1 = Some d1 /\ nth_error (crashes d1) 2 = Some d2 /\ lives toy same plain_dec hash_of small_genesis (fun i => i < 3) empty_disk d2 /\
  start_up d2 = (d', Ok n) /\ n_index n = Some 1 /\ map Net_Model.p_addr (n_peers n) = [val_addr 13; val_addr 11]%N /\ get_block zero_of d' (hash_of 5) = Some (5%N, [77%N]) /\
  snd (get plain_dec (n_sm n) (component_key 8)) = Ok (Some [11; 12; 13]%N) /\ Net_Model.col_get (k_roots d') (hash_of 5) <> Some zero_hash.
Proof.
  do 4 eexists. split; [reflexivity|]. split; [reflexivity|]. split.
  - eapply (lives_more _ _ _ _ _ _ _ _ _ (fun l => l) 2); [|apply Permutation_refl|reflexivity|lia]. eapply (lives_more _ _ _ _ _ _ _ _ _ (fun l => l) 1); [constructor|apply Permutation_refl|reflexivity|lia].
  - split; [vm_compute; reflexivity|]. split; [reflexivity|]. split; [reflexivity|]. split; [reflexivity|]. split; [vm_compute; reflexivity|]. vm_compute. discriminate.
Qed.
Print Assumptions boot_fresh.

(** * C109: coming up again *)
(** A start that is refused has not touched the state, the recorded roots or any other block. *)
Theorem refused_start_keeps_partial : forall (H : bytes -> bytes) (V Hd X : Type) (enc : V -> bytes) (dec : path -> bytes -> option V) (header_hash : Hd -> bytes) (set_of : V -> list vkv)
  (g : genesis (V := V) (Hd := Hd) (X := X)) d ord me local, store_read (k_store d) (component_key 1) <> Ok None ->
  exists e d', init_node H enc dec header_hash set_of g ord me local d = (d', Err e) /\ k_store d' = k_store d /\ k_roots d' = k_roots d /\
    (forall h, h <> header_hash (g_header g) -> Net_Model.col_get (k_headers d') h = Net_Model.col_get (k_headers d) h) /\
    (forall h, h <> zero_hash -> Net_Model.col_get (k_xts d') h = Net_Model.col_get (k_xts d) h).
Proof.
  intros H V Hd X enc dec hh so g d ord me local S. destruct (boot_refused H enc dec hh so g ord d me local S) as [e E]. exists e. eexists. split; [exact E|].
  split; [reflexivity|]. split; [reflexivity|]. assert (G : forall (A : Type) (c : list (bytes * A)) h h' x, h <> h' -> Net_Model.col_get ((h', x) :: c) h = Net_Model.col_get c h).
  { intros A c h h' x D. cbn [Net_Model.col_get]. unfold Net_Model.same. destruct (list_eq_dec N.eq_dec h' h); [congruence|reflexivity]. }
  split; intros h D; apply G; exact D.
Qed.
(** A node that came up once, or crashed while doing so after the trie was written, never comes up again on its database: every later start, after any number of further crashes, fails. *)
Theorem second_start_refuted : forall (H : bytes -> bytes) (V Hd X : Type) (enc : V -> bytes) (dec : path -> bytes -> option V) (header_hash : Hd -> bytes) (set_of : V -> list vkv)
  (g : genesis (V := V) (Hd := Hd) (X := X)), decodable enc dec g -> no_collision H (long_components enc g) ->
  forall d1 d2 d3 i ord, lives H enc dec header_hash g (fun i => i < 3) empty_disk d1 -> (forall l, Permutation l (ord l)) ->
  4 <= i -> nth_error (crash_points H enc dec header_hash g ord d1) i = Some d2 -> lives H enc dec header_hash g (fun _ => True) d2 d3 ->
  forall ord' me local, exists e d4, init_node H enc dec header_hash set_of g ord' me local d3 = (d4, Err e).
Proof.
  intros H V Hd X enc dec hh so g D C d1 d2 d3 i ord L1 P I N L2 ord' me local.
  assert (S : has_state d3).
  { eapply lives_state; [|exact L2]. eapply crash_late; [exact P|exact D|exact C| |exact I|exact N]. rewrite (lives_early _ _ _ _ _ _ _ L1). reflexivity. }
  destruct (boot_refused H enc dec hh so g ord' d3 me local S) as [e E]. eauto.
Qed.
(** The end of a successful start is such a crash point. *)
Theorem start_is_a_crash_point : forall (H : bytes -> bytes) (V Hd X : Type) (enc : V -> bytes) (dec : path -> bytes -> option V) (header_hash : Hd -> bytes) (set_of : V -> list vkv)
  (g : genesis (V := V) (Hd := Hd) (X := X)) ord me local d d' n, init_node H enc dec header_hash set_of g ord me local d = (d', Ok n) ->
  nth_error (crash_points H enc dec header_hash g ord d) 6 = Some d'.
Proof.
  intros H V Hd X enc dec hh so g ord me local d d' n. unfold init_node, crash_points. destruct (add_all dec (open_state d) (genesis_entries g)) as [s1 [[]| |]]; try discriminate.
  destruct (commit_cache H enc s1 ord) as [s2 [[]| |]]; try discriminate. unfold finish_boot. destruct (read_set so _) as [s3 [a| |]]; try (intro E; discriminate E).
  destruct (read_set so _) as [s4 [b| |]]; try (intro E; discriminate E). destruct (read_set so _) as [s5 [c| |]]; try (intro E; discriminate E). destruct (read_set so _) as [s6 [e| |]]; try (intro E; discriminate E).
  intro E. injection E as <- _. reflexivity.
Qed.
(** Nor does a node that imported blocks: whatever batches were committed, as long as the authorizer pools are still stored. *)
Theorem start_after_blocks_refuted : forall (H : bytes -> bytes) (V Hd X : Type) (enc : V -> bytes) (dec : path -> bytes -> option V) (header_hash : Hd -> bytes) (set_of : V -> list vkv)
  (g : genesis (V := V) (Hd := Hd) (X := X)) bs s d b, history_ok no_state bs -> no_collision H (hashed_values bs) -> history_map bs (component_key 1) = Some b ->
  run_history H empty_store bs = Some s -> k_store d = s -> forall ord me local, exists e d', init_node H enc dec header_hash set_of g ord me local d = (d', Err e).
Proof.
  intros H V Hd X enc dec hh so g bs s d b O C M R E ord me local. destruct (trie_reads_exact_partial H bs O C) as [s' [R' G]]. assert (s' = s) by congruence. subst s'.
  destruct (boot_refused H enc dec hh so g ord d me local) as [e Q]; [|eauto]. unfold has_state. rewrite E, G, M. discriminate.
Qed.
(** A crash between the two batches of the trie: no component reads as stored, the next start adds them all, and the commit panics. *)
Theorem start_between_refuted : exists d d', nth_error (crashes empty_disk) 3 = Some d /\ (forall i, component i -> store_read (k_store d) (component_key i) = Ok None) /\ start_up d = (d', Panic).
Proof.
  eexists. eexists. split; [vm_compute; reflexivity|]. split; [|vm_compute; reflexivity].
  intros i C. apply in_chapters in C. unfold chapters in C. cbn [In] in C. repeat (destruct C as [<-|C]; [vm_compute; reflexivity|]). contradiction.
Qed.
(** A crash before the values: a start fails; so does one after a complete start. *)
Example second_start_case : exists d4 d6 d7 d8 e e', nth_error (crashes empty_disk) 4 = Some d4 /\ start_up d4 = (d7, Err e) /\ nth_error (crashes empty_disk) 6 = Some d6 /\
  start_up d6 = (d8, Err e') /\ store_read (k_store d8) (component_key 8) = Ok (Some [11; 12; 13]%N).
Proof. do 6 eexists. split; [vm_compute; reflexivity|]. split; [vm_compute; reflexivity|]. split; [vm_compute; reflexivity|]. split; vm_compute; reflexivity. Qed.
Print Assumptions refused_start_keeps_partial.
Print Assumptions second_start_refuted.
Print Assumptions start_is_a_crash_point.
Print Assumptions start_after_blocks_refuted.
Print Assumptions start_between_refuted.
Definition block_batches : list (list entry) := [[mk_entry (key 1 0) SAdd [1%N]; mk_entry (key 2 0) SAdd [2%N]]; [mk_entry (key 1 0) SUpdate [3%N]; mk_entry (key 2 0) SRemove []]].
Example after_blocks_case : history_ok no_state block_batches /\ no_collision toy (hashed_values block_batches) /\ history_map block_batches (component_key 1) = Some [3%N] /\
  exists s, run_history toy empty_store block_batches = Some s.
Proof.
  split; [|split; [|split; [vm_compute; reflexivity|eexists; vm_compute; reflexivity]]].
  - cbn [history_ok block_batches]. split; [split; [cbn [map e_key]; nodup|split; [fit|left; each; discriminate]]|]. split; [split; [cbn [map e_key]; nodup|split; [fit|]]|exact Logic.I].
    right. exists (key 1 0). split; [vm_compute; discriminate|]. each; intro; try discriminate; cbn [e_key]; kneq.
  - intros v w [es [e [A [B [<- C]]]]]. exfalso. cbn [block_batches In] in A. repeat (destruct A as [<-|A]; [cbn [In] in B; repeat (destruct B as [<-|B]; [simpl in C; lia|]); destruct B|]). destruct A.
Qed.
