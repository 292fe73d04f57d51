(** Exact size hints; hash commitments of blocks and extrinsics. *)
From Verif Require Import Base Base_Proofs Codec_Model Codec_Spec Codec_Proofs Codec2_Proofs Block_Model Block_Spec.
Open Scope N_scope.
Ltac Zify.zify_post_hook ::= Z.div_mod_to_equations.

(** * size_hint *)
Lemma hint_seq : forall A (P : A -> Prop) enc (h : A -> N),
  (forall v bs, P v -> enc v = Ok bs -> h v = N.of_nat (length bs)) ->
  forall l bs, Forall P l -> encode_seq enc l = Ok bs -> sumN (map h l) = N.of_nat (length bs).
Proof.
  intros A P enc h H l. induction l as [|a l IH]; intros bs HF E; cbn [encode_seq] in E.
  - inversion E; subst. reflexivity.
  - inversion_clear HF as [|? ? Ha HF'].
    destruct (enc a) as [x| |] eqn:E1; cbn [bind] in E; try discriminate.
    destruct (encode_seq enc l) as [y| |] eqn:E2; cbn [bind] in E; try discriminate.
    inversion E; subst. cbn [map sumN fold_right]. fold (sumN (map h l)).
    rewrite (H a x Ha E1), (IH y HF' eq_refl), app_length. lia.
Qed.

Lemma codec_size_hint : forall t v bs, ty_ok t -> exact_hint t -> wf t v -> encode t v = Ok bs ->
  size_hint t v = N.of_nat (length bs).
Proof.
  induction t; intros v bs Hok He Hwf E; cbn [ty_ok exact_hint wf interp encode size_hint] in *;
    fold interp in *; try contradiction.
  - inversion E; subst. reflexivity.
  - inversion E; subst. apply integer_size_hint_length.
    apply N.lt_le_trans with (2 ^ w); [assumption|]. apply N.pow_le_mono_r; lia.
  - apply encode_fixed_ok_iff in E as (_ & _ & ->). now rewrite le_bytes_length.
  - inversion E; subst. destruct Hwf as [_ Hl]. now rewrite Hl.
  - inversion E; subst. destruct Hwf as [_ Hl]. pose proof isize_max_lt.
    rewrite app_length, integer_size_hint_length by lia. lia.
  - destruct Hok as [Hk Hok]. destruct He as [Hk' He]. destruct v as [v|i].
    + destruct (encode t v) as [x| |] eqn:E1; cbn [bind] in E; try discriminate. inversion E; subst.
      rewrite (IHt v x Hok He Hwf E1). cbn [integer_encode N.eqb app length]. lia.
    + inversion E; subst.
      rewrite <- integer_size_hint_length by (change (2 ^ 64) with 18446744073709551616; lia).
      unfold integer_size_hint. destruct (N.eqb_spec i 0); [lia|].
      destruct (N.ltb_spec i (2 ^ 56)); [|change (2 ^ 56) with 72057594037927936 in *; lia].
      assert (N.log2 i < 7) by (apply N.log2_lt_pow2; [lia|change (2 ^ 7) with 128; lia]).
      rewrite N.div_small by lia. reflexivity.
  - apply encode_fixed_ok_iff in E as (_ & _ & ->). now rewrite le_bytes_length.
  - inversion E; subst. reflexivity.
  - destruct v as [v|].
    + destruct (encode t v) as [x| |] eqn:E1; cbn [bind] in E; try discriminate. inversion E; subst.
      rewrite (IHt v x Hok He Hwf E1). change (integer_encode 1) with [1]. cbn [app length]. lia.
    + inversion E; subst. reflexivity.
  - destruct Hwf as [HF Hl]. eapply hint_seq; eauto.
  - destruct Hwf as (HF & Hl & _).
    destruct (encode_seq (encode t) v) as [x| |] eqn:E1; cbn [bind] in E; try discriminate.
    inversion E; subst. rewrite app_length, integer_size_hint_length by assumption.
    rewrite (hint_seq _ (wf t) _ (size_hint t) (fun v bs W E => IHt v bs Hok He W E) v x HF E1). lia.
  - destruct Hwf as (HF & Hl & _).
    destruct (encode_seq (encode t) v) as [x| |] eqn:E1; cbn [bind] in E; try discriminate.
    inversion E; subst. rewrite app_length, integer_size_hint_length by assumption.
    rewrite (hint_seq _ (wf t) _ (size_hint t) (fun v bs W E => IHt v bs Hok He W E) v x HF E1). lia.
  - unfold encode_bits_fixed in E. destruct (N.eqb_spec (N.of_nat (length v)) n) as [Hn|]; [|discriminate].
    inversion E; subst bs. rewrite pack_bits_length, <- Hn. lia.
  - destruct Hok as [O1 O2]. destruct He as [H1 H2]. destruct v as [a b]. destruct Hwf as [W1 W2].
    cbn [fst snd] in *.
    destruct (encode t1 a) as [x| |] eqn:E1; cbn [bind] in E; try discriminate.
    destruct (encode t2 b) as [y| |] eqn:E2; cbn [bind] in E; try discriminate.
    inversion E; subst. rewrite (IHt1 _ _ O1 H1 W1 E1), (IHt2 _ _ O2 H2 W2 E2), app_length. lia.
Qed.

(** * Injectivity of encoding *)
Lemma encode_inj : forall t v1 v2 bs, ty_ok t -> wf t v1 -> wf t v2 ->
  encode t v1 = Ok bs -> encode t v2 = Ok bs -> v1 = v2.
Proof.
  intros t v1 v2 bs Hok W1 W2 E1 E2.
  destruct (codec_prefix_free t v1 v2 bs bs [] Hok W1 W2 E1 E2); [now rewrite app_nil_r|assumption].
Qed.

Lemma report_ok : forall P, ty_ok (t_report P).
Proof. intros P. cbn. repeat split; lia. Qed.
Lemma block_ok : forall P, core_count P <= bitvec_max_bits -> ty_ok (t_block P).
Proof. intros P H. cbn. repeat split; try lia; exact H. Qed.

Section Commit.
  Variables (P : params) (H : bytes -> bytes).
  Hypothesis Hlen : forall x, length (H x) = 32%nat.
  Hypothesis Hbyt : forall x, Bytes (H x).
  Hypothesis Hcore : core_count P <= bitvec_max_bits.

  Lemma app_inj_len : forall A (a b c d : list A), length a = length c -> a ++ b = c ++ d -> a = c /\ b = d.
  Proof.
    induction a as [|x a IH]; destruct c as [|y c]; cbn; intros d E Hd; try discriminate; auto.
    inversion Hd; subst. destruct (IH b c d) as [-> ->]; auto.
  Qed.

  (* A guarantee with its report replaced by an opaque 32-byte hash: a codec type of its own. *)
  Definition t_hashed := t_hash ** t_u32_4 ** t_credentials P.
  Definition hashed_of (g : interp (t_guarantee P)) : interp t_hashed :=
    (match encode (t_report P) (fst g) with Ok r => H r | _ => [] end, snd g).

  Lemma hashed_encode : forall g bs, encode_hashed_guarantee P H g = Ok bs -> encode t_hashed (hashed_of g) = Ok bs.
  Proof.
    intros [r [s c]] bs E. unfold encode_hashed_guarantee in E. cbn [encode t_hashed hashed_of fst snd t_hash].
    destruct (encode (t_report P) r) as [x| |]; cbn [bind] in *; try discriminate.
    destruct (encode t_u32_4 s) as [y| |]; cbn [bind] in *; try discriminate.
    destruct (encode (t_credentials P) c) as [z| |]; cbn [bind] in *; try discriminate. exact E.
  Qed.

  Lemma hashed_encode_seq : forall gs bs, encode_seq (encode_hashed_guarantee P H) gs = Ok bs ->
    encode_seq (encode t_hashed) (map hashed_of gs) = Ok bs.
  Proof.
    induction gs as [|g gs IH]; intros bs E; cbn [encode_seq map] in *; [assumption|].
    destruct (encode_hashed_guarantee P H g) as [x| |] eqn:E1; cbn [bind] in E; try discriminate.
    destruct (encode_seq (encode_hashed_guarantee P H) gs) as [y| |] eqn:E2; cbn [bind] in E; try discriminate.
    rewrite (hashed_encode _ _ E1). cbn [bind]. rewrite (IH _ eq_refl). exact E.
  Qed.

  Lemma hashed_ok : ty_ok t_hashed.
  Proof. cbn. repeat split; lia. Qed.

  Lemma hashed_wf : forall g, wf (t_guarantee P) g -> wf t_hashed (hashed_of g).
  Proof.
    intros [r [s c]] (W1 & W2 & W3). cbn [fst snd] in *.
    destruct (codec_roundtrip (t_report P) r (report_ok P) W1) as (x & E & _).
    unfold hashed_of. cbn [fst snd]. rewrite E.
    split; [split; [apply Hbyt|apply Hlen]|]. split; assumption.
  Qed.

  Lemma guarantees_inj : forall gs1 gs2 bs, wf (t_guarantees P) gs1 -> wf (t_guarantees P) gs2 ->
    encode_with_hashed_reports P H gs1 = Ok bs -> encode_with_hashed_reports P H gs2 = Ok bs ->
    map hashed_of gs1 = map hashed_of gs2.
  Proof.
    intros gs1 gs2 bs (F1 & L1 & M1 & X1) (F2 & L2 & M2 & X2) E1 E2.
    unfold encode_with_hashed_reports in *.
    destruct (encode_seq (encode_hashed_guarantee P H) gs1) as [x| |] eqn:A1; cbn [bind] in E1; try discriminate.
    destruct (encode_seq (encode_hashed_guarantee P H) gs2) as [y| |] eqn:A2; cbn [bind] in E2; try discriminate.
    apply hashed_encode_seq in A1, A2.
    apply (encode_inj (TVec 0 t_hashed) _ _ bs).
    - exact hashed_ok.
    - repeat split; [|rewrite map_length; exact L1|rewrite N.mul_0_r; apply N.le_0_l].
      apply Forall_map. eapply Forall_impl; [|exact F1]. exact hashed_wf.
    - repeat split; [|rewrite map_length; exact L2|rewrite N.mul_0_r; apply N.le_0_l].
      apply Forall_map. eapply Forall_impl; [|exact F2]. exact hashed_wf.
    - cbn [encode]. rewrite A1. cbn [bind]. rewrite map_length. exact E1.
    - cbn [encode]. rewrite A2. cbn [bind]. rewrite map_length. exact E2.
  Qed.

  Lemma hashed_of_collision : forall gs1 gs2, Forall (wf (t_guarantee P)) gs1 -> Forall (wf (t_guarantee P)) gs2 ->
    map hashed_of gs1 = map hashed_of gs2 ->
    gs1 = gs2 \/ exists g1 g2 x y, In g1 gs1 /\ In g2 gs2 /\ encode (t_report P) (fst g1) = Ok x /\
      encode (t_report P) (fst g2) = Ok y /\ x <> y /\ H x = H y.
  Proof.
    intros gs1 gs2 F1. revert gs2. induction F1 as [|[r1 s1] gs1 W1 F1 IH]; intros [|[r2 s2] gs2] F2 E;
      try discriminate; [now left|].
    inversion_clear F2 as [|? ? W2 F2']. cbn [map] in E.
    assert (Eh : hashed_of (r1, s1) = hashed_of (r2, s2)) by congruence.
    assert (E3 : map hashed_of gs1 = map hashed_of gs2) by congruence. clear E.
    assert (E1 := f_equal fst Eh). assert (E2 : s1 = s2) by exact (f_equal snd Eh). subst s2.
    unfold hashed_of in E1. cbn [fst] in E1.
    destruct (IH gs2 F2' E3) as [->|(g1 & g2 & x & y & I1 & I2 & R)].
    2:{ right. exists g1, g2, x, y. split; [now right|]. split; [now right|]. exact R. }
    destruct W1 as [W1 _]. destruct W2 as [W2 _]. cbn [fst] in *.
    destruct (codec_roundtrip (t_report P) r1 (report_ok P) W1) as (x & Ex & _).
    destruct (codec_roundtrip (t_report P) r2 (report_ok P) W2) as (y & Ey & _).
    rewrite Ex, Ey in E1. destruct (list_eq_dec N.eq_dec x y) as [->|Hne].
    - left. f_equal. f_equal. eapply encode_inj; eauto using report_ok.
    - right. exists (r1, s1), (r2, s1), x, y. cbn [fst]. repeat split; auto; now left.
  Qed.

  Theorem extrinsics_hash_commits : forall e1 e2 h, wf (t_extrinsics P) e1 -> wf (t_extrinsics P) e2 ->
    extrinsics_hash P H e1 = Ok h -> extrinsics_hash P H e2 = Ok h ->
    e1 = e2 \/ exists x y, hashed_by P H e1 x /\ hashed_by P H e2 y /\ x <> y /\ H x = H y.
  Proof.
    intros (t1 & p1 & g1 & a1 & d1) (t2 & p2 & g2 & a2 & d2) h
      (Wt1 & Wp1 & Wg1 & Wa1 & Wd1) (Wt2 & Wp2 & Wg2 & Wa2 & Wd2) E1 E2.
    cbn [fst snd] in *. unfold extrinsics_hash in *.
    destruct (encode (t_tickets P) t1) as [bt1| |] eqn:Et1; cbn [bind] in E1; try discriminate.
    destruct (encode (t_preimages P) p1) as [bp1| |] eqn:Ep1; cbn [bind] in E1; try discriminate.
    destruct (encode_with_hashed_reports P H g1) as [bg1| |] eqn:Eg1; cbn [bind] in E1; try discriminate.
    destruct (encode (t_assurances P) a1) as [ba1| |] eqn:Ea1; cbn [bind] in E1; try discriminate.
    destruct (encode (t_disputes P) d1) as [bd1| |] eqn:Ed1; cbn [bind] in E1; try discriminate.
    destruct (encode (t_tickets P) t2) as [bt2| |] eqn:Et2; cbn [bind] in E2; try discriminate.
    destruct (encode (t_preimages P) p2) as [bp2| |] eqn:Ep2; cbn [bind] in E2; try discriminate.
    destruct (encode_with_hashed_reports P H g2) as [bg2| |] eqn:Eg2; cbn [bind] in E2; try discriminate.
    destruct (encode (t_assurances P) a2) as [ba2| |] eqn:Ea2; cbn [bind] in E2; try discriminate.
    destruct (encode (t_disputes P) d2) as [bd2| |] eqn:Ed2; cbn [bind] in E2; try discriminate.
    injection E1 as E1. injection E2 as E2.
    pose proof (block_ok P Hcore) as Hok. destruct Hok as [_ (Ot & Op & Og & Oa & Od)].
    set (top1 := H bt1 ++ H bp1 ++ H bg1 ++ H ba1 ++ H bd1) in *.
    set (top2 := H bt2 ++ H bp2 ++ H bg2 ++ H ba2 ++ H bd2) in *.
    assert (Top1 : hashed_by P H (t1, (p1, (g1, (a1, d1)))) top1) by (subst top1; eapply hb_top; eassumption).
    assert (Top2 : hashed_by P H (t2, (p2, (g2, (a2, d2)))) top2) by (subst top2; eapply hb_top; eassumption).
    destruct (list_eq_dec N.eq_dec top1 top2) as [Heq|Hne].
    2:{ right. exists top1, top2. repeat split; try assumption. congruence. }
    subst top1 top2.
    apply app_inj_len in Heq as [Ht Heq]; [|now rewrite !Hlen].
    apply app_inj_len in Heq as [Hp Heq]; [|now rewrite !Hlen].
    apply app_inj_len in Heq as [Hg Heq]; [|now rewrite !Hlen].
    apply app_inj_len in Heq as [Ha Hd]; [|now rewrite !Hlen].
    destruct (list_eq_dec N.eq_dec bt1 bt2) as [->|Hne];
      [|right; exists bt1, bt2; repeat split; try assumption; now apply hb_tickets].
    destruct (list_eq_dec N.eq_dec bp1 bp2) as [->|Hne];
      [|right; exists bp1, bp2; repeat split; try assumption; now apply hb_preimages].
    destruct (list_eq_dec N.eq_dec ba1 ba2) as [->|Hne];
      [|right; exists ba1, ba2; repeat split; try assumption; now apply hb_assurances].
    destruct (list_eq_dec N.eq_dec bd1 bd2) as [->|Hne];
      [|right; exists bd1, bd2; repeat split; try assumption; now apply hb_disputes].
    destruct (list_eq_dec N.eq_dec bg1 bg2) as [->|Hne];
      [|right; exists bg1, bg2; repeat split; try assumption; now apply hb_guarantees].
    assert (t1 = t2) by (eapply encode_inj; eassumption).
    assert (p1 = p2) by (eapply encode_inj; eassumption).
    assert (a1 = a2) by (eapply encode_inj; eassumption).
    assert (d1 = d2) by (eapply encode_inj; eassumption).
    subst.
    pose proof (guarantees_inj _ _ _ Wg1 Wg2 Eg1 Eg2) as Hm.
    destruct Wg1 as [Wg1 _]. destruct Wg2 as [Wg2 _].
    destruct (hashed_of_collision _ _ Wg1 Wg2 Hm) as [->|(r1 & r2 & x & y & I1 & I2 & Ex & Ey & Hne & Hxy)].
    - now left.
    - right. exists x, y. repeat split; try assumption; [apply (hb_report P H _ r1)|apply (hb_report P H _ r2)]; assumption.
  Qed.

  Theorem header_hash_commits : forall h1 h2 x, wf (t_header P) h1 -> wf (t_header P) h2 ->
    header_hash P H h1 = Ok x -> header_hash P H h2 = Ok x ->
    h1 = h2 \/ exists b1 b2, encode (t_header P) h1 = Ok b1 /\ encode (t_header P) h2 = Ok b2 /\ b1 <> b2 /\ H b1 = H b2.
  Proof.
    intros h1 h2 x W1 W2 E1 E2. unfold header_hash in *.
    destruct (encode (t_header P) h1) as [b1| |] eqn:A1; cbn [bind] in E1; try discriminate.
    destruct (encode (t_header P) h2) as [b2| |] eqn:A2; cbn [bind] in E2; try discriminate.
    injection E1 as E1. injection E2 as E2.
    destruct (list_eq_dec N.eq_dec b1 b2) as [->|Hne].
    - left. eapply encode_inj; try eassumption. apply (block_ok P Hcore).
    - right. exists b1, b2. repeat split; try assumption. congruence.
  Qed.
End Commit.
