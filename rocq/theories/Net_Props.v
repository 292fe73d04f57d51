(** C99-C103: announcing, fetching and serving blocks, the streams of a connection, dialling *)
From Verif Require Import Base Base_Proofs Codec_Model Codec_Spec Codec_Proofs Codec2_Proofs Codec3_Proofs Block_Model Block_Spec Net_Model Net_Spec Net_Proofs.
Open Scope N_scope.

(** * Concrete data: small and full chain parameters, headers and a hash that adds up octets *)
Definition tiny : params :=
  {| validator_count := 6; core_count := 2; epoch_length := 12; super_majority := 5;
     sz_ticket := 16; sz_preimage := 32; sz_guarantee := 512; sz_credential := 66; sz_assurance := 160;
     sz_verdict := 400; sz_culprit := 128; sz_fault := 136; sz_digest := 152; sz_import := 34; sz_xtinfo := 36; sz_item := 200 |}.
Definition full : params :=
  {| validator_count := 1023; core_count := 341; epoch_length := 600; super_majority := 683;
     sz_ticket := 16; sz_preimage := 32; sz_guarantee := 512; sz_credential := 66; sz_assurance := 160;
     sz_verdict := 400; sz_culprit := 128; sz_fault := 136; sz_digest := 152; sz_import := 34; sz_xtinfo := 36; sz_item := 200 |}.
Definition adds (b : bytes) : bytes := repeat (N.modulo (fold_left N.add b 1) 256) 32.
Lemma adds_like : hash_like adds.
Proof.
  intros x. unfold adds. split; [apply repeat_length|]. apply Forall_forall. intros y Y. apply repeat_spec in Y. subst y. unfold is_byte. apply N.mod_lt. lia.
Qed.
Definition hdr (P : params) (xt : bytes) (slot : N) (epoch : option (interp (t_epoch_marker P))) : header P :=
  ((repeat 7 32, (repeat 7 32, (xt, (slot, (epoch, (None, (3, (repeat 7 96, [])))))))), repeat 7 96).
Definition ok_or {E A} (d : A) (r : result E A) : A := match r with Ok a => a | _ => d end.
Fixpoint chop (fuel n : nat) (l : bytes) : list bytes :=
  match fuel with O => [] | S f => match l with [] => [] | _ => firstn n l :: chop f n (skipn n l) end end.
Lemma chop_cut : forall fuel n l, (0 < n <= 1024)%nat -> (length l <= fuel)%nat -> cut l (chop fuel n l).
Proof.
  induction fuel as [|f IH]; intros n l Hn Hl.
  - destruct l; [|cbn in Hl; lia]. split; [reflexivity|constructor].
  - destruct l as [|x l]; [split; [reflexivity|constructor]|]. change (chop (S f) n (x :: l)) with (firstn n (x :: l) :: chop f n (skipn n (x :: l))).
    destruct (IH n (skipn n (x :: l)) Hn) as [A B]; [rewrite skipn_length; cbn [length] in *; lia|]. split.
    + cbn [concat]. rewrite A. apply firstn_skipn.
    + apply Forall_cons; [|exact B]. split; [destruct n; [lia|discriminate]|]. rewrite firstn_length. lia.
Qed.
Definition xs_hash (P : params) (e : xts P) : bytes := ok_or [] (extrinsics_hash P adds e).
Definition one : header tiny := hdr tiny (xs_hash tiny (no_xts tiny)) 5 None.
Definition two : header tiny := hdr tiny (xs_hash tiny (no_xts tiny)) 6 None.
Definition message (P : params) (h : header P) : bytes := ok_or [] (announcement_blob P adds h).
Definition hash_of (P : params) (h : header P) : bytes := ok_or [] (header_hash P adds h).

(** * C99: every announced block is requested by the peers that read the announcement stream *)
Theorem announcements_heard_partial : forall P H hs messages hashes, core_count P <= bitvec_max_bits -> hash_like H ->
  Forall (wf (t_header P)) hs -> announces P H hs messages hashes -> Forall (fun m => (length m <= 1024)%nat) messages ->
  cut (concat messages) messages /\ heard P messages = hashes.
Proof.
  intros P H hs messages hashes HC HH W A L. split; [|exact (heard_all P H HC HH hs messages hashes W A)]. split; [reflexivity|].
  destruct A as [A _]. clear W. induction A as [|h m hs ms E A IH]; [constructor|]. inversion L as [|? ? L1 L2]. subst. constructor; [|exact (IH L2)]. split; [|exact L1].
  intros Z. subst m. unfold announcement_blob in E. destruct (encode (t_header P) h) as [b| |]; try discriminate. cbn [bind] in E.
  destruct (header_hash P H h) as [x| |]; try discriminate. cbn [bind] in E. injection E as E. apply app_eq_nil in E. destruct E as [_ E]. apply app_eq_nil in E. destruct E as [_ E].
  exact (integer_encode_nonempty _ E).
Qed.
(** A piece that lacks the end of an announcement is lost, in particular the first piece of any announcement of more than 1024 octets. *)
Theorem piece_unheard : forall P H h m c d rest, core_count P <= bitvec_max_bits -> hash_like H -> wf (t_header P) h -> announcement_blob P H h = Ok m ->
  m = c ++ d -> d <> [] -> heard P (c :: rest) = heard P rest \/ heard P (c :: rest) = [].
Proof.
  intros P H h m c d rest HC HH W E Em Hd. cbn [heard]. destruct (decode (t_announcement P) c) as [x| |] eqn:D; [|left; reflexivity|right; reflexivity].
  exfalso. exact (long_unheard P H HC HH h m c d x W E Em Hd D).
Qed.
Theorem announcement_merged_refuted : exists P H hs messages hashes chunks, hash_like H /\ Forall (wf (t_header P)) hs /\ announces P H hs messages hashes /\
  cut (concat messages) chunks /\ length hashes = 2%nat /\ heard P chunks = firstn 1 hashes.
Proof.
  exists tiny, adds, [one; two], [message tiny one; message tiny two], [hash_of tiny one; hash_of tiny two], [message tiny one ++ message tiny two].
  split; [exact adds_like|]. split; [repeat apply Forall_cons; try apply Forall_nil; apply wfb_sound; vm_compute; reflexivity|].
  split; [split; repeat constructor; vm_compute; reflexivity|]. split.
  - split; [vm_compute; reflexivity|]. constructor; [|constructor]. split; [vm_compute; discriminate|]. apply Nat.leb_le. vm_compute. reflexivity.
  - split; [reflexivity|]. vm_compute. reflexivity.
Qed.
Theorem announcement_split_refuted : exists P H h m x chunks, hash_like H /\ wf (t_header P) h /\ announces P H [h] [m] [x] /\ cut m chunks /\ heard P chunks = [].
Proof.
  exists tiny, adds, one, (message tiny one), (hash_of tiny one), (chop 1024 200 (message tiny one)).
  split; [exact adds_like|]. split; [apply wfb_sound; vm_compute; reflexivity|]. split; [split; repeat constructor; vm_compute; reflexivity|]. split.
  - apply chop_cut; [lia|]. apply Nat.leb_le. vm_compute. reflexivity.
  - vm_compute. reflexivity.
Qed.
(** With the full validator set, a header that starts an epoch is announced in pieces of the largest size, none of which is understood. *)
Definition starts_epoch : header full := hdr full (repeat 7 32) 600 (Some (repeat 7 32, (repeat 7 32, repeat (repeat 7 32, repeat 7 32) 1023))).
Theorem epoch_announcement_refuted : exists m x chunks, hash_like adds /\ wf (t_header full) starts_epoch /\ announces full adds [starts_epoch] [m] [x] /\ cut m chunks /\
  (forall c, In c (removelast chunks) -> length c = 1024%nat) /\ heard full chunks = [].
Proof.
  exists (message full starts_epoch), (hash_of full starts_epoch), (chop (N.to_nat 70000) 1024 (message full starts_epoch)).
  split; [exact adds_like|]. split; [apply wfb_sound; vm_compute; reflexivity|]. split; [split; repeat constructor; vm_compute; reflexivity|]. split; [|split].
  - apply chop_cut; [lia|]. apply Nat.leb_le. vm_compute. reflexivity.
  - intros c C. assert (A : forallb (fun c => Nat.eqb (length c) 1024) (removelast (chop (N.to_nat 70000) 1024 (message full starts_epoch))) = true) by (vm_compute; reflexivity).
    rewrite forallb_forall in A. apply Nat.eqb_eq. exact (A c C).
  - vm_compute. reflexivity.
Qed.
Example announcements_case : Forall (wf (t_header tiny)) [one; two] /\ announces tiny adds [one; two] [message tiny one; message tiny two] [hash_of tiny one; hash_of tiny two] /\
  heard tiny [message tiny one; message tiny two] = [hash_of tiny one; hash_of tiny two] /\ hash_of tiny one <> hash_of tiny two /\ length (message tiny one) = 330%nat.
Proof.
  split; [repeat apply Forall_cons; try apply Forall_nil; apply wfb_sound; vm_compute; reflexivity|]. split; [split; repeat constructor; vm_compute; reflexivity|].
  split; [vm_compute; reflexivity|]. split; [vm_compute; discriminate|vm_compute; reflexivity].
Qed.
Print Assumptions announcements_heard_partial.
Print Assumptions piece_unheard.
Print Assumptions announcement_merged_refuted.
Print Assumptions announcement_split_refuted.
Print Assumptions epoch_announcement_refuted.

(** * C100: a block a peer can serve is fetched *)
Theorem block_fetched_partial : forall P s x h e, core_count P <= bitvec_max_bits -> Bytes x -> length x = 32%nat -> get_block P s x = Ok (h, e) -> wf (t_block P) (h, e) ->
  exists a b, request_blob x = Ok a /\ serve P s a = Replied b /\ encode (t_block P) (h, e) = Ok b /\ b <> [] /\ fetch P x (Some b) = Ok (h, e).
Proof.
  intros P s x h e HC B L G W. unfold get_block in G. destruct (col_get (s_headers s) x) as [h'|] eqn:Eh; [|discriminate].
  destruct (col_get (s_xts s) (xt_hash_of P h')) as [e'|] eqn:Ee; [|discriminate]. injection G as -> ->.
  destruct (served P HC s x h e B L Eh Ee W) as (a & b & A1 & A2 & A3). exists a, b. split; [exact A1|]. split; [exact A3|]. split; [exact A2|].
  split; [exact (block_not_empty P HC (h, e) b W A2)|exact (fetched P HC x (h, e) b W A2)].
Qed.
(** The requester's task panics on every reply that does not arrive in one piece, so on every reply of more than 1024 octets. *)
Theorem reply_in_pieces : forall P x k b chunks, core_count P <= bitvec_max_bits -> wf (t_block P) k -> encode (t_block P) k = Ok b -> cut b chunks ->
  (1 < length chunks)%nat \/ (1024 < length b)%nat -> fetch P x (hd_error chunks) = Panic.
Proof.
  intros P x k b chunks HC W E [C1 C2] L. destruct chunks as [|c [|c2 r]].
  - exfalso. cbn in C1. subst b. exact (block_not_empty P HC k [] W E eq_refl).
  - exfalso. cbn [concat] in C1. rewrite app_nil_r in C1. subst c. inversion C2 as [|? ? [_ Q] _]. subst. cbn [length] in L. lia.
  - cbn [hd_error]. apply (part_fetched P HC x k b c (concat (c2 :: r)) W E (eq_sym C1)).
    intros Z. cbn [concat] in Z. apply app_eq_nil in Z. destruct Z as [Z _]. inversion C2 as [|? ? _ C3]. inversion C3 as [|? ? [Q _] _]. subst. contradiction.
Qed.
Definition two_tickets : xts tiny := ([(0, repeat 3 784); (1, repeat 4 784)], ([], ([], ([], ([], ([], [])))))).
Definition ticket_block : block tiny := (hdr tiny (xs_hash tiny two_tickets) 5 None, two_tickets).
Theorem large_block_refuted : exists P H s x k, hash_like H /\ wf (t_block P) k /\ header_hash P H (fst k) = Ok x /\ get_block P s x = Ok k /\ length (fst (snd k)) = 2%nat /\
  exists a b, request_blob x = Ok a /\ serve P s a = Replied b /\ forall chunks, cut b chunks -> fetch P x (hd_error chunks) = Panic.
Proof.
  assert (W : wf (t_block tiny) ticket_block) by (apply wfb_sound; vm_compute; reflexivity).
  set (s := mk_store [(hash_of tiny (fst ticket_block), fst ticket_block)] [(xt_hash_of tiny (fst ticket_block), snd ticket_block)] : store tiny).
  exists tiny, adds, s, (hash_of tiny (fst ticket_block)), ticket_block. split; [exact adds_like|]. split; [exact W|]. split; [vm_compute; reflexivity|].
  assert (G : get_block tiny s (hash_of tiny (fst ticket_block)) = Ok ticket_block) by (vm_compute; reflexivity). split; [exact G|]. split; [reflexivity|].
  assert (HC : core_count tiny <= bitvec_max_bits) by (vm_compute; discriminate).
  destruct (block_fetched_partial tiny s (hash_of tiny (fst ticket_block)) (fst ticket_block) (snd ticket_block) HC) as (a & b & A1 & A2 & A3 & _).
  - apply bytesb_sound. vm_compute. reflexivity.
  - vm_compute. reflexivity.
  - exact G.
  - exact W.
  - exists a, b. split; [exact A1|]. split; [exact A2|]. intros chunks C. apply (reply_in_pieces tiny _ ticket_block b chunks HC W A3 C). right.
    assert (Q : match encode (t_block tiny) ticket_block with Ok b => Nat.ltb 1024 (length b) | _ => false end = true) by (vm_compute; reflexivity).
    change (encode (t_block tiny) (fst ticket_block, snd ticket_block)) with (encode (t_block tiny) ticket_block) in A3. rewrite A3 in Q. apply Nat.ltb_lt. exact Q.
Qed.
(** An empty reply, or a reply that is no block at all, is a panic as well; and any block is taken, whatever was announced. *)
Theorem other_block_refuted : exists P H x k b, hash_like H /\ wf (t_block P) k /\ encode (t_block P) k = Ok b /\ (length b <= 1024)%nat /\
  header_hash P H (fst k) <> Ok x /\ fetch P x (Some b) = Ok k.
Proof.
  exists tiny, adds, (hash_of tiny two), (one, no_xts tiny), (ok_or [] (encode (t_block tiny) (one, no_xts tiny))).
  split; [exact adds_like|]. split; [apply wfb_sound; vm_compute; reflexivity|]. split; [vm_compute; reflexivity|].
  split; [apply Nat.leb_le; vm_compute; reflexivity|]. split; [vm_compute; discriminate|vm_compute; reflexivity].
Qed.
Example fetch_case : let s := mk_store [(hash_of tiny one, one)] [(xt_hash_of tiny one, no_xts tiny)] : store tiny in
  get_block tiny s (hash_of tiny one) = Ok (one, no_xts tiny) /\ wf (t_block tiny) (one, no_xts tiny) /\ length (hash_of tiny one) = 32%nat /\
  fetch tiny (hash_of tiny one) (Some [7]) = Panic /\ fetch tiny (hash_of tiny one) None = Err tt.
Proof. split; [vm_compute; reflexivity|]. split; [apply wfb_sound; vm_compute; reflexivity|]. vm_compute. auto. Qed.
Print Assumptions block_fetched_partial.
Print Assumptions reply_in_pieces.
Print Assumptions large_block_refuted.
Print Assumptions other_block_refuted.

(** * C101: a node serves the blocks it has, and only those under their own hash *)
Theorem served_block_matches : forall P H g s ds x a max bs, core_count P <= bitvec_max_bits -> hash_like H -> life P H g s ds -> get_blocks P s x a max = Ok bs ->
  exists h e, bs = [(h, e)] /\ header_hash P H h = Ok x /\ seen P g ds h /\ (extrinsics_hash P H e = Ok (xt_hash_of P h) \/ (xt_hash_of P h = repeat 0 32 /\ e = no_xts P)).
Proof. intros P H g s ds x a max bs HC HH. exact (served_matches P H g s ds x a max bs). Qed.
Theorem authored_block_served_partial : forall P H g s ds b x, core_count P <= bitvec_max_bits -> hash_like H -> life P H g s ds -> In (CommitState b) ds ->
  header_hash P H (fst b) = Ok x -> xt_hash_of P (fst b) <> repeat 0 32 ->
  get_blocks P s x false 1 = Ok [b] \/ (exists h', seen P g ds h' /\ headers_collide P H (fst b) h') \/ (exists b', In (CommitState b') ds /\ bodies_collide P H (snd b) (snd b')).
Proof. intros P H g s ds b x HC HH. exact (authored_served P H HC HH g s ds b x). Qed.
Definition genesis : header tiny := hdr tiny (repeat 0 32) 0 None.
Theorem imported_block_refuted : exists P H g b x s ds, hash_like H /\ life P H g s ds /\ In (Import b) ds /\ header_hash P H (fst b) = Ok x /\
  extrinsics_hash P H (snd b) = Ok (xt_hash_of P (fst b)) /\ get_blocks P s x false 1 = Err NoXts.
Proof.
  exists tiny, adds, genesis, ticket_block, (hash_of tiny (fst ticket_block)), (done tiny adds (genesis_store tiny adds genesis) (Import ticket_block)), [Import ticket_block].
  split; [exact adds_like|]. split; [apply imports_block; [apply born|]; apply wfb_sound; vm_compute; reflexivity|]. split; [left; reflexivity|].
  split; [vm_compute; reflexivity|]. split; [vm_compute; reflexivity|]. vm_compute. reflexivity.
Qed.
(** Between the announcement and the end of authoring, the announced block is refused. *)
Theorem announced_block_refuted : exists P H g h x s ds, hash_like H /\ life P H g s ds /\ In (CommitHeader h) ds /\ header_hash P H h = Ok x /\
  extrinsics_hash P H (no_xts P) = Ok (xt_hash_of P h) /\ get_blocks P s x false 1 = Err NoXts.
Proof.
  exists tiny, adds, genesis, one, (hash_of tiny one), (done tiny adds (genesis_store tiny adds genesis) (CommitHeader one)), [CommitHeader one].
  split; [exact adds_like|]. split; [apply makes_header; [apply born|]; apply wfb_sound; vm_compute; reflexivity|]. split; [left; reflexivity|].
  split; [vm_compute; reflexivity|]. split; [vm_compute; reflexivity|]. vm_compute. reflexivity.
Qed.
(** Any other request than "this one block" ends the task that reads it. *)
Theorem other_request_refuted : forall P s x ascending max, Bytes x -> length x = 32%nat -> max < 2 ^ 32 -> ascending = true \/ max <> 1 ->
  exists a, encode t_request (x, (ascending, max)) = Ok a /\ serve P s a = Crashed.
Proof.
  intros P s x ascending max B L M O. assert (W : wf t_request (x, (ascending, max))) by (split; [split; assumption|]; split; [exact Logic.I|exact M]).
  assert (K : ty_ok t_request) by (cbn; lia). destruct (codec_roundtrip _ _ K W) as (a & E & _ & R). exists a. split; [exact E|]. specialize (R []). rewrite app_nil_r in R.
  unfold serve. rewrite R. unfold get_blocks. replace (negb ascending && (max =? 1)) with false; [reflexivity|]. symmetry. destruct ascending; [reflexivity|]. cbn [negb andb]. apply N.eqb_neq.
  destruct O as [O|O]; [discriminate|exact O].
Qed.
Example life_case : exists s, life tiny adds genesis s [CommitState (one, no_xts tiny); CommitHeader one; Import ticket_block] /\ xt_hash_of tiny one <> repeat 0 32 /\
  get_blocks tiny s (hash_of tiny one) false 1 = Ok [(one, no_xts tiny)] /\ get_blocks tiny s (hash_of tiny genesis) false 1 = Ok [(genesis, no_xts tiny)].
Proof.
  eexists. split; [apply makes_block; [apply makes_header; [apply imports_block; [apply born|]|]|left; reflexivity| |]; try (apply wfb_sound; vm_compute; reflexivity); vm_compute; reflexivity|].
  split; [vm_compute; discriminate|]. split; vm_compute; reflexivity.
Qed.
Print Assumptions served_block_matches.
Print Assumptions authored_block_served_partial.
Print Assumptions imported_block_refuted.
Print Assumptions announced_block_refuted.
Print Assumptions other_request_refuted.

(** * C102: a peer's block requests are answered whatever else it sends *)
Theorem acceptor_answers : forall P s ts us a b, serve P s a = Replied b -> nth_error (acceptor P s (ts ++ (Got 128, Got a) :: us)) (length ts) = Some (Replied b).
Proof.
  intros P s ts us a b E. unfold acceptor. rewrite map_app, nth_error_app2 by (rewrite map_length; lia). rewrite map_length, Nat.sub_diag. cbn [map nth_error].
  unfold stream_outcome. cbn [fst snd kind_known N.eqb Pos.eqb orb N.leb N.compare Pos.compare Pos.compare_cont andb negb]. rewrite E. reflexivity.
Qed.
Theorem initiator_answers_partial : forall P s ts us a b, Forall (calm P s) ts -> serve P s a = Replied b ->
  nth_error (initiator P s (ts ++ (Got 128, Got a) :: us)) (length ts) = Some (Replied b).
Proof.
  intros P s ts us a b C E. rewrite (initiator_goes_on P s ts _ C), nth_error_app2 by (rewrite map_length; lia). rewrite map_length, Nat.sub_diag. cbn [initiator].
  unfold stream_outcome. cbn [fst snd kind_known N.eqb Pos.eqb orb N.leb N.compare Pos.compare Pos.compare_cont andb negb]. rewrite E. reflexivity.
Qed.
(** The dialling side's only task dies of every stream kind that is known but not implemented, and waits for ever for a stream on which nothing comes. *)
Theorem initiator_stops_refuted : forall P s k rest us, 129 <= k <= 145 -> k <> 130 -> initiator P s ((Got k, rest) :: us) = [Crashed].
Proof.
  intros P s k rest us K D. cbn [initiator]. unfold stream_outcome, kind_known. cbn [fst snd]. replace (k =? 0) with false by lia. replace (128 <=? k) with true by lia.
  replace (k <=? 145) with true by lia. replace (k =? 130) with false by lia. replace (k =? 128) with false by lia. reflexivity.
Qed.
Theorem initiator_waits_refuted : forall P s us, initiator P s ((Got 128, Silent) :: us) = [Waiting] /\ initiator P s ((Silent, Silent) :: us) = [Waiting].
Proof. intros. split; reflexivity. Qed.
Definition a_store : store tiny := mk_store [(hash_of tiny one, one)] [(xt_hash_of tiny one, no_xts tiny)].
Definition a_request : bytes := ok_or [] (request_blob (hash_of tiny one)).
Example streams_case : Forall (calm tiny a_store) [(Got 0, Silent); (Got 130, Silent); (Ended, Ended); (Got 128, Got [1; 2])] /\
  (exists b, serve tiny a_store a_request = Replied b /\ length b = 304%nat) /\
  initiator tiny a_store [(Got 131, Silent); (Got 128, Got a_request)] = [Crashed] /\ length (acceptor tiny a_store [(Got 131, Silent); (Got 128, Got a_request)]) = 2%nat.
Proof.
  split; [|split; [eexists; split; [vm_compute; reflexivity|vm_compute; reflexivity]|split; vm_compute; reflexivity]].
  repeat apply Forall_cons; try apply Forall_nil; unfold calm; cbn [fst snd]; auto.
  right; right; right; right. split; [reflexivity|]. vm_compute. discriminate.
Qed.
Print Assumptions acceptor_answers.
Print Assumptions initiator_answers_partial.
Print Assumptions initiator_stops_refuted.
Print Assumptions initiator_waits_refuted.

(** * C103: a node knows and dials its peers, two nodes agree which of them does it first *)
Theorem one_side_dials_first : forall a b connected connected' q q', a <> b -> p_key q = b -> p_key q' = a -> connected q = false -> connected' q' = false ->
  dials_first a connected q = negb (dials_first b connected' q').
Proof. exact dials_one_side. Qed.
Theorem peers_are_validators : forall own past active staging p, In p (load_peers own past active staging) <->
  p_addr p <> own /\ p_addr p <> repeat 0 18 /\ exists l1 l2, past ++ active ++ staging = l1 ++ p :: l2 /\ forall x, In x l2 -> p_addr x <> p_addr p.
Proof. exact loaded_iff. Qed.
Theorem peers_complete_partial : forall own past active staging p, In p (past ++ active ++ staging) -> p_addr p <> own -> p_addr p <> repeat 0 18 ->
  (forall q, In q (past ++ active ++ staging) -> p_addr q = p_addr p -> q = p) -> In p (load_peers own past active staging).
Proof. intros own past active staging p I A B U. apply loaded_iff. split; [exact A|]. split; [exact B|]. exact (last_occurrence _ p I U). Qed.
Theorem shared_address_refuted : exists own past active staging p, In p active /\ p_addr p <> own /\ p_addr p <> repeat 0 18 /\ ~ In p (load_peers own past active staging).
Proof.
  exists (repeat 1 18), [], [mk_peer (repeat 5 32) (repeat 2 18); mk_peer (repeat 6 32) (repeat 2 18)], [], (mk_peer (repeat 5 32) (repeat 2 18)).
  split; [left; reflexivity|]. split; [discriminate|]. split; [discriminate|]. vm_compute. intros [E|[]]. discriminate.
Qed.
Theorem all_dialled_partial : forall me peers answers before between, NoDup (map p_addr peers) ->
  (forall p, In p peers -> dials_first me before p = true -> answers p = true) ->
  forall p, In p peers -> p_key p <> me -> between p = false -> In p (dialled me peers answers before between).
Proof. exact dialled_all. Qed.
Theorem dialled_at_most_once : forall me peers answers before between, NoDup (map p_addr peers) -> NoDup (dialled me peers answers before between) /\
  forall p, In p (dialled me peers answers before between) -> In p peers /\ p_key p <> me.
Proof. exact dialled_once. Qed.
(** One validator that does not answer in the first round keeps the node from dialling those that are to dial first but do not. *)
Theorem dead_peer_refuted : exists me peers answers p, NoDup (map p_addr peers) /\ In p peers /\ p_key p <> me /\ answers p = true /\
  (exists q, In q peers /\ answers q = false /\ forall r, In r peers -> answers r = false -> r = q) /\
  ~ In p (dialled me peers answers (fun _ => false) (fun _ => false)).
Proof.
  set (q := mk_peer (repeat 9 32) (repeat 2 18)). set (p := mk_peer (repeat 1 32) (repeat 3 18)).
  exists (repeat 5 32), [q; p], (fun r => negb (same (p_key r) (repeat 9 32))), p.
  split; [repeat constructor; cbn; intuition discriminate|]. split; [right; left; reflexivity|]. split; [discriminate|]. split; [reflexivity|]. split.
  - exists q. split; [left; reflexivity|]. split; [reflexivity|]. intros r [<-|[<-|[]]] A; [reflexivity|discriminate].
  - vm_compute. intros [E|[]]. discriminate.
Qed.
Example dialling_case : let a := repeat 5 32 in let q := mk_peer (repeat 9 32) (repeat 2 18) in let p := mk_peer (repeat 1 32) (repeat 3 18) in
  preferred a (p_key q) = a /\ preferred a (p_key p) = p_key p /\ preferred (repeat 200 32) a = repeat 200 32 /\
  load_peers (repeat 1 18) [p] [q; p] [] = [p; q] /\ dialled a [q; p] (fun _ => true) (fun _ => false) (fun _ => false) = [q; p] /\
  dialled a [q; p] (fun _ => true) (fun _ => false) (fun r => same (p_key r) (p_key p)) = [q].
Proof. vm_compute. repeat split. Qed.
Print Assumptions one_side_dials_first.
Print Assumptions peers_are_validators.
Print Assumptions peers_complete_partial.
Print Assumptions shared_address_refuted.
Print Assumptions all_dialled_partial.
Print Assumptions dialled_at_most_once.
Print Assumptions dead_peer_refuted.
