(** Properties of the fuzzing protocol's messages (C92). *)
From Verif Require Import Base Base_Proofs Codec_Model Codec_Spec Codec_Proofs Codec2_Proofs Block_Model FuzzMsg_Model FuzzMsg_Proofs Comp_Spec Wire_Spec FuzzMsg_Spec FuzzMsg2_Proofs.
Open Scope N_scope.

(** C92. Whatever messages are sent one after the other are read, in order, and nothing of what follows them is. *)
Theorem messages_arrive : forall P age sz_kv sz_anc ks fs rest, core_count P <= bitvec_max_bits -> Forall (wf_kind P age sz_kv sz_anc) ks ->
  Forall2 (fun k f => frame k = Ok f) ks fs -> read_all P age sz_kv sz_anc (length ks) (concat fs ++ rest) = (map Ok ks, rest).
Proof. intros P age sz_kv sz_anc ks fs rest C W F. exact (read_frames P age sz_kv sz_anc C ks fs rest W F). Qed.
(** A message is sent as its length in four octets and then itself, unless it has 2^32 octets or more. *)
Theorem message_frame : forall P age sz_kv sz_anc k, core_count P <= bitvec_max_bits -> wf_kind P age sz_kv sz_anc k ->
  exists b, encode_kind k = Ok b /\ frame k = if N.of_nat (length b) <? 2 ^ 32 then Ok (le_bytes 4 (N.of_nat (length b)) ++ b) else Err ConversionError.
Proof. intros P age sz_kv sz_anc k C W. exact (frame_is P age sz_kv sz_anc C k W). Qed.
(** As long as part of a message is missing, nothing is read. *)
Theorem message_whole : forall P age sz_kv sz_anc k f p q, core_count P <= bitvec_max_bits -> wf_kind P age sz_kv sz_anc k ->
  frame k = Ok f -> f = p ++ q -> q <> [] -> read_message P age sz_kv sz_anc p = None.
Proof. intros P age sz_kv sz_anc k f p q C W. exact (read_part P age sz_kv sz_anc C k f p q W). Qed.
(** The octets of a message are the ones, and the only ones, of the protocol. *)
Theorem message_octets : forall P age sz_kv sz_anc k b, core_count P <= bitvec_max_bits -> wf_kind P age sz_kv sz_anc k ->
  (encode_kind k = Ok b <-> fz_message P age sz_kv sz_anc k b).
Proof.
  intros P age sz_kv sz_anc k b C W. split; [apply message_writes; exact W|]. intro G. destruct (kind_roundtrip P age sz_kv sz_anc C k W) as (b' & E & _). rewrite E. f_equal.
  apply (uniq_message P age sz_kv sz_anc k); [apply message_writes; assumption|exact G].
Qed.
Definition xp : params := Build_params 1 1 1 1 1 1 1 1 1 1 1 1 1 1 1 1.
Definition xh : bytes := repeat 7 32.
Definition xks : list (kind xp 24 56 36) :=
  [KPeerInfo (1, (2, ((0, (7, 2)), ((1, (0, 0)), [102; 200])))); KStateRoot xh; KState [(repeat 1 31, [9; 9])]; KError [104; 105]; KGetState xh].
Example messages_met : core_count xp <= bitvec_max_bits /\ Forall (wf_kind xp 24 56 36) xks /\ exists fs, Forall2 (fun k f => frame k = Ok f) xks fs /\
  nth 3 fs [] = [4; 0; 0; 0; 255; 2; 104; 105].
Proof.
  split; [vm_compute; discriminate|]. split; [repeat (constructor; [apply wfb_sound; vm_compute; reflexivity|]); constructor|].
  eexists. split; [repeat (constructor; [vm_compute; reflexivity|]); constructor|reflexivity].
Qed.
(** A frame may carry octets after its message, which are dropped: two frames are read as the same message. *)
Theorem frame_canonical_refuted : exists f1 f2 k, f1 <> f2 /\ read_message xp 24 56 36 f1 = Some (Ok k, []) /\ read_message xp 24 56 36 f2 = Some (Ok k, []).
Proof.
  exists (33 :: 0 :: 0 :: 0 :: 4 :: xh), (34 :: 0 :: 0 :: 0 :: 4 :: (xh ++ [1])), (KGetState xh). split; [vm_compute; discriminate|]. split; vm_compute; reflexivity.
Qed.
(** A state of 2^64 - 1 entries announced in ten octets makes the reader panic. *)
Theorem read_total_refuted : exists f, (length f = 14)%nat /\ read_message xp 24 56 36 f = Some (Panic, []).
Proof. exists [10; 0; 0; 0; 5; 255; 255; 255; 255; 255; 255; 255; 255; 255]. split; [reflexivity|]. vm_compute. reflexivity. Qed.
(** Text is sent as a count and its octets only if they are below 128: others take two octets each. *)
Theorem text_octets_partial : forall l, Forall (fun x => x < 128) l -> encode (TVec 1 (TUint 8)) l = Ok (integer_encode (N.of_nat (length l)) ++ l).
Proof. intros l F. cbn [encode]. pose proof (small_octets_ l F) as E. cbn [encode] in E. rewrite E. reflexivity. Qed.
Theorem text_octets_refuted : encode (TVec 1 (TUint 8)) [195; 169] = Ok [2; 128; 195; 128; 169].
Proof. vm_compute. reflexivity. Qed.
(** The features are the two lowest bits of a peer's word. *)
Theorem features_read : forall w, with_ancestors w = N.testbit w 0 /\ with_forking w = N.testbit w 1.
Proof.
  intro w. assert (E : forall n, N.land w (2 ^ n) = if N.testbit w n then 2 ^ n else 0).
  { intro n. apply N.bits_inj. intro i. rewrite N.land_spec, N.pow2_bits_eqb. destruct (N.eqb_spec n i) as [->|Z].
    - rewrite andb_true_r. destruct (N.testbit w i) eqn:T; [rewrite N.pow2_bits_true; reflexivity|rewrite N.bits_0; reflexivity].
    - rewrite andb_false_r. destruct (N.testbit w n); [rewrite N.pow2_bits_false by congruence; reflexivity|rewrite N.bits_0; reflexivity]. }
  unfold with_ancestors, with_forking. rewrite (E 0 : N.land w 1 = _), (E 1 : N.land w 2 = _). destruct (N.testbit w 0), (N.testbit w 1); split; reflexivity.
Qed.
Example features_met : with_ancestors 2 = false /\ with_forking 2 = true /\ with_forking 5 = false. Proof. vm_compute. auto. Qed.

Print Assumptions messages_arrive.
Print Assumptions message_frame.
Print Assumptions message_whole.
Print Assumptions frame_canonical_refuted.
Print Assumptions read_total_refuted.
Print Assumptions text_octets_partial.
Print Assumptions text_octets_refuted.
Print Assumptions features_read.
Print Assumptions message_octets.
