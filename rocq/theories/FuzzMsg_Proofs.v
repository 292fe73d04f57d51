From Verif Require Import Base Base_Proofs Codec_Model Codec_Spec Codec_Proofs Codec2_Proofs Block_Model Codec3_Proofs FuzzMsg_Model.
Open Scope N_scope.

Section Messages.
  Variable P : params.
  Variables (age sz_kv sz_anc : N).
  Hypothesis Hcore : core_count P <= bitvec_max_bits.
  Notation kind := (kind P age sz_kv sz_anc).

  Definition wf_kind (k : kind) : Prop :=
    match k with
    | KPeerInfo v => wf t_peer v
    | KInitialize v => wf (t_initialize P age sz_kv sz_anc) v
    | KStateRoot v | KGetState v => wf t_hash v
    | KImportBlock v => wf (t_block P) v
    | KState v => wf (t_state sz_kv) v
    | KError v => wf (TVec 1 (TUint 8)) v
    end.
  Lemma peer_ok : ty_ok t_peer. Proof. cbn. repeat split; lia. Qed.
  Lemma init_ok : ty_ok (t_initialize P age sz_kv sz_anc). Proof. cbn. repeat split; lia. Qed.
  Lemma name_ok : ty_ok (TVec 1 (TUint 8)). Proof. cbn. lia. Qed.
  Lemma kind_roundtrip k : wf_kind k -> exists b, encode_kind k = Ok b /\ Bytes b /\ forall rest, decode_kind P age sz_kv sz_anc (b ++ rest) = Ok (k, rest).
  Proof.
    destruct k as [v|v|v|v|v|v|v]; cbn [wf_kind]; intro W.
    - destruct (codec_roundtrip _ v peer_ok W) as (b & E & B & D). unfold encode_kind. rewrite E. cbn [bind]. eexists. split; [reflexivity|]. split; [constructor; auto; red; lia|].
      intro rest. unfold decode_kind. cbn [app read_byte bind]. change (0 =? 0) with true. cbn iota. rewrite D. reflexivity.
    - destruct (codec_roundtrip _ v init_ok W) as (b & E & B & D). unfold encode_kind. rewrite E. cbn [bind]. eexists. split; [reflexivity|]. split; [constructor; auto; red; lia|].
      intro rest. unfold decode_kind. cbn [app read_byte bind]. cbn [N.eqb Pos.eqb]. cbn iota. rewrite D. reflexivity.
    - destruct (codec_roundtrip _ v I W) as (b & E & B & D). unfold encode_kind. rewrite E. cbn [bind]. eexists. split; [reflexivity|]. split; [constructor; auto; red; lia|].
      intro rest. unfold decode_kind. cbn [app read_byte bind]. cbn [N.eqb Pos.eqb]. cbn iota. rewrite D. reflexivity.
    - destruct (codec_roundtrip _ v (block_ok P Hcore) W) as (b & E & B & D). unfold encode_kind. rewrite E. cbn [bind]. eexists. split; [reflexivity|]. split; [constructor; auto; red; lia|].
      intro rest. unfold decode_kind. cbn [app read_byte bind]. cbn [N.eqb Pos.eqb]. cbn iota. rewrite D. reflexivity.
    - destruct (codec_roundtrip _ v I W) as (b & E & B & D). unfold encode_kind. rewrite E. cbn [bind]. eexists. split; [reflexivity|]. split; [constructor; auto; red; lia|].
      intro rest. unfold decode_kind. cbn [app read_byte bind]. cbn [N.eqb Pos.eqb]. cbn iota. rewrite D. reflexivity.
    - assert (T : ty_ok (t_state sz_kv)) by (cbn; auto).
      destruct (codec_roundtrip _ v T W) as (b & E & B & D). unfold encode_kind. rewrite E. cbn [bind]. eexists. split; [reflexivity|]. split; [constructor; auto; red; lia|].
      intro rest. unfold decode_kind. cbn [app read_byte bind]. cbn [N.eqb Pos.eqb]. cbn iota. rewrite D. reflexivity.
    - destruct (codec_roundtrip _ v name_ok W) as (b & E & B & D). unfold encode_kind. rewrite E. cbn [bind]. eexists. split; [reflexivity|]. split; [constructor; auto; red; lia|].
      intro rest. unfold decode_kind. cbn [app read_byte bind]. cbn [N.eqb Pos.eqb]. cbn iota. rewrite D. reflexivity.
  Qed.
  (** The frame of a message: its length in four octets, then the message; refused from 2^32 octets on. *)
  Lemma frame_is k : wf_kind k -> exists b, encode_kind k = Ok b /\
    frame k = if N.of_nat (length b) <? 2 ^ 32 then Ok (le_bytes 4 (N.of_nat (length b)) ++ b) else Err ConversionError.
  Proof.
    intro W. destruct (kind_roundtrip k W) as (b & E & B & D). exists b. split; auto. unfold frame. rewrite E. cbn [bind].
    destruct (N.ltb_spec (N.of_nat (length b)) (2 ^ 32)) as [L|L]; [|reflexivity].
    rewrite (proj2 (encode_fixed_ok_iff _ _ _) (conj (ltac:(lia) : (4 <= 8)%nat) (conj (L : N.of_nat (length b) < 2 ^ (8 * N.of_nat 4)) eq_refl))). reflexivity.
  Qed.
  Lemma le4_length x : length (le_bytes 4 x) = 4%nat. Proof. reflexivity. Qed.
  Lemma read_framed b r : N.of_nat (length b) < 2 ^ 32 ->
    read_message P age sz_kv sz_anc ((le_bytes 4 (N.of_nat (length b)) ++ b) ++ r) = Some (let! (k, _) := decode_kind P age sz_kv sz_anc b in Ok k, r).
  Proof.
    intro L. unfold read_message. rewrite <- app_assoc. rewrite app_length, le4_length.
    destruct (N.ltb_spec (N.of_nat (4 + length (b ++ r))) 4) as [Q|_]; [lia|].
    assert (F : firstn 4 (le_bytes 4 (N.of_nat (length b)) ++ b ++ r) = le_bytes 4 (N.of_nat (length b))) by reflexivity.
    assert (K : skipn 4 (le_bytes 4 (N.of_nat (length b)) ++ b ++ r) = (b ++ r)%list) by reflexivity.
    rewrite F, K. rewrite <- (app_nil_r (le_bytes 4 (N.of_nat (length b)))). rewrite decode_fixed_ok; [|lia|cbn; lia|exact L].
    rewrite app_length. destruct (N.ltb_spec (N.of_nat (length b + length r)) (N.of_nat (length b))) as [Q|_]; [lia|].
    rewrite Nat2N.id, firstn_app, Nat.sub_diag, firstn_all, skipn_app, Nat.sub_diag, skipn_all. cbn [firstn skipn app]. rewrite app_nil_r. reflexivity.
  Qed.
  Lemma frame_ok_inv k f : wf_kind k -> frame k = Ok f -> exists b, encode_kind k = Ok b /\ N.of_nat (length b) < 2 ^ 32 /\ f = (le_bytes 4 (N.of_nat (length b)) ++ b)%list.
  Proof.
    intros W E. destruct (frame_is k W) as (b & E1 & E2). exists b. split; auto. rewrite E2 in E. destruct (N.ltb_spec (N.of_nat (length b)) (2 ^ 32)); [|discriminate].
    injection E as <-. auto.
  Qed.
  Lemma read_frame k f r : wf_kind k -> frame k = Ok f -> read_message P age sz_kv sz_anc (f ++ r) = Some (Ok k, r).
  Proof.
    intros W E. destruct (frame_ok_inv k f W E) as (b & E1 & L & ->). rewrite read_framed by auto.
    destruct (kind_roundtrip k W) as (b' & E' & _ & D). assert (b' = b) by congruence. subst b'. specialize (D []). rewrite app_nil_r in D. rewrite D. reflexivity.
  Qed.
  Lemma read_frames ks : forall fs r, Forall wf_kind ks -> Forall2 (fun k f => frame k = Ok f) ks fs ->
    read_all P age sz_kv sz_anc (length ks) (concat fs ++ r) = (map Ok ks, r).
  Proof.
    induction ks as [|k ks IH]; intros fs r W F; inversion F; subst; [reflexivity|]. apply Forall_cons_iff in W. destruct W as [W0 W].
    cbn [length read_all concat map]. rewrite <- app_assoc. rewrite (read_frame k y (concat l' ++ r)) by auto. rewrite IH by auto. reflexivity.
  Qed.
  Lemma read_part k f p q : wf_kind k -> frame k = Ok f -> f = (p ++ q)%list -> q <> [] -> read_message P age sz_kv sz_anc p = None.
  Proof.
    intros W E S N0. destruct (frame_ok_inv k f W E) as (b & E1 & L & ->). unfold read_message.
    destruct (N.ltb_spec (N.of_nat (length p)) 4) as [|G]; [reflexivity|].
    assert (Lq : (0 < length q)%nat) by (destruct q; [contradiction|cbn; lia]).
    assert (LE : length (le_bytes 4 (N.of_nat (length b)) ++ b) = length (p ++ q)) by (rewrite S; reflexivity). rewrite !app_length, le4_length in LE.
    assert (F : firstn 4 p = le_bytes 4 (N.of_nat (length b))).
    { assert (X : firstn 4 (p ++ q) = firstn 4 p) by (rewrite firstn_app; replace (4 - length p)%nat with 0%nat by lia; cbn [firstn]; apply app_nil_r).
      rewrite <- X, <- S. reflexivity. }
    rewrite F. rewrite <- (app_nil_r (le_bytes 4 (N.of_nat (length b)))). rewrite decode_fixed_ok; [|lia|cbn; lia|exact L].
    rewrite skipn_length. destruct (N.ltb_spec (N.of_nat (length p - 4)) (N.of_nat (length b))) as [|Q]; [reflexivity|lia].
  Qed.
End Messages.
  (** Octets below 128 are their own code. *)
  Lemma small_octets_ (l : list N) : Forall (fun x => x < 128) l -> encode_seq (encode (TUint 8)) l = Ok l.
  Proof.
    induction l as [|x l IH]; intro F; [reflexivity|]. apply Forall_cons_iff in F. destruct F as [Fx F]. cbn [encode_seq encode bind]. cbn [encode] in IH. rewrite (IH F). cbn [bind].
    assert (E : integer_encode x = [x]).
    { destruct (N.eq_dec x 0) as [->|Z]; [reflexivity|]. symmetry. apply gp_int_fun.
      replace [x] with ((2 ^ 8 - 2 ^ (8 - 0) + x / 2 ^ (8 * 0)) :: le_bytes (N.to_nat 0) (x mod 2 ^ (8 * 0))). { apply gp_small; [lia|]. change (2 ^ (7 * 0)) with 1. change (2 ^ (7 * (0 + 1))) with 128. lia. }
      change (2 ^ (8 * 0)) with 1. rewrite N.div_1_r. reflexivity. }
    rewrite E. reflexivity.
  Qed.
