(** The messages of the fuzzing protocol are written in the protocol's octets. *)
From Verif Require Import Base Base_Proofs Codec_Model Codec_Spec Codec_Proofs Codec2_Proofs Codec3_Proofs Block_Model FuzzMsg_Model FuzzMsg_Proofs Comp_Spec Comp_Proofs Wire_Spec Wire_Proofs FuzzMsg_Spec.
From Coq Require Import Lia.
Open Scope N_scope.

Section Messages.
  Variable P : params.
  Variables (age sz_kv sz_anc : N).
  Hypothesis Hcore : core_count P <= bitvec_max_bits.
  Notation kind := (kind P age sz_kv sz_anc).

  Lemma version_writes : forall v o, writes t_version v o -> fz_version v o.
  Proof. intros (a & b & c) o E. unfold t_version in E. peel E. unfold fz_version. pieces; plain. Qed.
  Lemma text_writes : forall l o, wf (TVec 1 (TUint 8)) l -> writes (TVec 1 (TUint 8)) l o -> fz_text l o.
  Proof. intros l o W E. unfold fz_text. refine (w_vec_as _ _ _ _ _ W _ E). intros a x Wa X. plain. Qed.
  Lemma peer_writes : forall v o, wf t_peer v -> writes t_peer v o -> fz_peer v o.
  Proof.
    intros (p & f & j & ap & nm) o (W1 & W2 & W3 & W4 & W5) E. unfold t_peer in E. cbn [fst snd] in *.
    do 4 (apply w_pair in E; let x := fresh "x" in let y := fresh "y" in let A := fresh "A" in destruct E as (x & y & -> & A & E); cbn [fst snd] in A, E).
    unfold fz_peer. pieces; [plain|plain|apply version_writes; assumption|apply version_writes; assumption|apply text_writes; assumption].
  Qed.
  Lemma state_writes : forall l o, wf (t_state sz_kv) l -> writes (t_state sz_kv) l o -> fz_state sz_kv l o.
  Proof.
    intros l o W E. unfold fz_state. refine (w_vec_as _ _ _ _ _ W _ E). intros (k & v) xx (W1 & W2) X. unfold t_kv in X. peel X. cbn [fst snd] in *. pieces; [|plain].
    match goal with A : writes (TByteArr 31) k ?x |- _ => apply w_bytes in A; split; [exact A|rewrite A] end. exact (proj2 W1).
  Qed.
  Lemma ancestry_writes : forall l o, wf (t_ancestry age sz_anc) l -> writes (t_ancestry age sz_anc) l o -> fz_ancestry age sz_anc l o.
  Proof. intros l o W E. unfold fz_ancestry. refine (w_lim_as _ _ _ _ _ _ W _ E). intros (s & h) xx _ X. peel X. cbn [fst snd]. pieces; plain. Qed.
  Lemma initialize_writes : forall v o, wf (t_initialize P age sz_kv sz_anc) v -> writes (t_initialize P age sz_kv sz_anc) v o -> fz_initialize P age sz_kv sz_anc v o.
  Proof.
    intros (h & s & a) o (W1 & W2 & W3) E. unfold t_initialize in E. cbn [fst snd] in *.
    do 2 (apply w_pair in E; let x := fresh "x" in let y := fresh "y" in let A := fresh "A" in destruct E as (x & y & -> & A & E); cbn [fst snd] in A, E).
    unfold fz_initialize. pieces; [apply header_writes|apply state_writes|apply ancestry_writes]; assumption.
  Qed.
  Lemma uniq_text : forall l, uniq (fz_text l). Proof. intro l. unfold fz_text. uniq. Qed.
  Lemma uniq_version : forall v, uniq (fz_version v). Proof. intros (a & b & c). unfold fz_version. uniq. Qed.
  Lemma uniq_peer : forall v, uniq (fz_peer v).
  Proof. intros (p & f & j & ap & nm). unfold fz_peer. uniq; first [apply uniq_version|apply uniq_text]. Qed.
  Lemma uniq_state : forall l, uniq (fz_state sz_kv l).
  Proof. intro l. unfold fz_state. uniq; try apply uniq_blob. intros x y (X & _) (Y & _). exact (uniq_as_is _ x y X Y). Qed.
  Lemma uniq_ancestry : forall l, uniq (fz_ancestry age sz_anc l). Proof. intro l. unfold fz_ancestry. uniq. Qed.
  Lemma uniq_message : forall k : kind, uniq (fz_message P age sz_kv sz_anc k).
  Proof.
    destruct k as [v|v|v|v|v|v|v]; unfold fz_message; apply uniq_parts; (apply Forall_cons; [apply uniq_as_is|apply Forall_cons; [|apply Forall_nil]]);
      try first [apply uniq_as_is|apply uniq_peer|apply uniq_block|apply uniq_state|apply uniq_text].
    destruct v as (h & s & a). unfold fz_initialize. apply uniq_parts.
    apply Forall_cons; [apply uniq_header|apply Forall_cons; [apply uniq_state|apply Forall_cons; [apply uniq_ancestry|apply Forall_nil]]].
  Qed.
  Lemma message_writes : forall (k : kind) b, wf_kind P age sz_kv sz_anc k -> encode_kind k = Ok b -> fz_message P age sz_kv sz_anc k b.
  Proof.
    intros k b W E. destruct k as [v|v|v|v|v|v|v]; cbn [wf_kind] in W; unfold encode_kind in E;
      match type of E with context [encode ?t v] => destruct (encode t v) as [x| |] eqn:X; cbn [bind] in E; try discriminate E end;
      apply ok_inj in E; subst b; unfold fz_message; (apply (parts_more _ _ [_] x); [reflexivity|apply parts_one]).
    - apply peer_writes; assumption.
    - apply initialize_writes; assumption.
    - eapply w_bytes; exact X.
    - apply block_writes; assumption.
    - eapply w_bytes; exact X.
    - apply state_writes; assumption.
    - apply text_writes; assumption.
  Qed.
End Messages.
