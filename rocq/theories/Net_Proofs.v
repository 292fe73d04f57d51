(** Proofs about the network model *)
From Verif Require Import Base Base_Proofs Codec_Model Codec_Spec Codec_Proofs Codec2_Proofs Codec3_Proofs Block_Model Block_Spec Net_Model Net_Spec.
Open Scope N_scope.

Lemma same_iff : forall a b, same a b = true <-> a = b.
Proof. intros. unfold same. destruct (list_eq_dec N.eq_dec a b); intuition congruence. Qed.
Lemma same_refl : forall a, same a a = true.
Proof. intros. apply same_iff. reflexivity. Qed.

Lemma whole_only : forall t v bs c d x, ty_ok t -> wf t v -> encode t v = Ok bs -> bs = c ++ d -> decode t c = Ok x -> d = [].
Proof.
  intros t v bs c d [v' r] Ht W En Eb D.
  destruct (codec_roundtrip t v Ht W) as (bs' & E1 & B & R). assert (bs' = bs) by congruence. subst bs'.
  assert (Bc : Bytes c). { rewrite Eb in B. apply Forall_app in B. tauto. }
  destruct (codec_local t c v' r Ht Bc D) as (_ & used & U1 & U2).
  specialize (R []). rewrite app_nil_r, Eb, U1, <- app_assoc, U2 in R. injection R as R1 R2.
  apply app_eq_nil in R2. tauto.
Qed.

Section Net.
  Variable P : params.
  Variable H : bytes -> bytes.
  Hypothesis HC : core_count P <= bitvec_max_bits.
  Hypothesis HH : hash_like H.

  Lemma header_ty_ok : ty_ok (t_header P).
  Proof. exact (proj1 (block_ok P HC)). Qed.
  Lemma announcement_ty_ok : ty_ok (t_announcement P).
  Proof. split; [exact header_ty_ok|]. cbn. lia. Qed.

  Lemma slot_range : forall h, wf (t_header P) h -> slot_of P h < 2 ^ 32.
  Proof. intros h W. destruct W as [W _]. destruct W as (_ & _ & _ & W & _). exact W. Qed.

  Lemma blob_is_announcement : forall h m, announcement_blob P H h = Ok m -> wf (t_header P) h ->
    exists x, header_hash P H h = Ok x /\ wf (t_announcement P) (h, (x, slot_of P h)) /\ encode (t_announcement P) (h, (x, slot_of P h)) = Ok m.
  Proof.
    intros h m E W. unfold announcement_blob in E. destruct (encode (t_header P) h) as [b| |] eqn:Eb; try discriminate. cbn [bind] in E.
    destruct (header_hash P H h) as [x| |] eqn:Ex; try discriminate. cbn [bind] in E. injection E as <-.
    exists x. split; [reflexivity|].
    assert (Hx : length x = 32%nat /\ Bytes x). { unfold header_hash in Ex. rewrite Eb in Ex. cbn [bind] in Ex. injection Ex as <-. apply HH. }
    split.
    - split; [exact W|]. split; [split; [exact (proj2 Hx)|exact (proj1 Hx)]|]. exact (slot_range h W).
    - unfold t_announcement. change (encode (t_header P ** t_hash ** TUint 32) (h, (x, slot_of P h)))
        with (let! a := encode (t_header P) h in let! y := (let! a' := Ok x in let! b' := Ok (integer_encode (slot_of P h)) in Ok (a' ++ b')) in Ok (a ++ y) : result cerr bytes).
      rewrite Eb. reflexivity.
  Qed.

  Lemma heard_one : forall h m x rest, wf (t_header P) h -> announcement_blob P H h = Ok m -> header_hash P H h = Ok x -> heard P ([m] ++ rest) = x :: heard P rest.
  Proof.
    intros h m x rest W E Ex. destruct (blob_is_announcement h m E W) as (x' & E1 & W1 & En). assert (x' = x) by congruence. subst x'.
    destruct (codec_roundtrip _ _ announcement_ty_ok W1) as (bs & E2 & _ & R). assert (bs = m) by congruence. subst bs.
    specialize (R []). rewrite app_nil_r in R. cbn [app heard]. rewrite R. reflexivity.
  Qed.

  Lemma heard_all : forall hs messages hashes, Forall (wf (t_header P)) hs -> announces P H hs messages hashes -> heard P messages = hashes.
  Proof.
    intros hs messages hashes W [A B]. revert hashes W B. induction A as [|h m hs ms E A IH]; intros hashes W B.
    - inversion B. reflexivity.
    - inversion B as [|? x ? xs Ex B']. subst. inversion W as [|? ? W1 W2]. subst. change (m :: ms) with ([m] ++ ms).
      rewrite (heard_one h m x ms W1 E Ex). f_equal. exact (IH xs W2 B').
  Qed.

  Lemma long_unheard : forall h m c d x, wf (t_header P) h -> announcement_blob P H h = Ok m -> m = c ++ d -> d <> [] -> decode (t_announcement P) c <> Ok x.
  Proof.
    intros h m c d x W E Em Hd D. destruct (blob_is_announcement h m E W) as (x' & _ & W1 & En).
    exact (Hd (whole_only _ _ m c d x announcement_ty_ok W1 En Em D)).
  Qed.

  (** ** Serving and fetching *)
  Lemma request_ok : forall x, Bytes x -> length x = 32%nat -> exists a, request_blob x = Ok a /\ decode t_request a = Ok ((x, (false, 1)), []).
  Proof.
    intros x B L. assert (W : wf t_request (x, (false, 1))). { split; [split; assumption|]. split; [exact Logic.I|]. cbn. lia. }
    assert (K : ty_ok t_request) by (cbn; lia). destruct (codec_roundtrip _ _ K W) as (a & E & _ & R). exists a. split; [exact E|].
    specialize (R []). rewrite app_nil_r in R. exact R.
  Qed.

  Lemma served : forall s x h e, Bytes x -> length x = 32%nat -> col_get (s_headers s) x = Some h -> col_get (s_xts s) (xt_hash_of P h) = Some e -> wf (t_block P) (h, e) ->
    exists a b, request_blob x = Ok a /\ encode (t_block P) (h, e) = Ok b /\ serve P s a = Replied b.
  Proof.
    intros s x h e B L Hh He W. destruct (request_ok x B L) as (a & E & D). destruct (codec_roundtrip _ _ (block_ok P HC) W) as (b & Eb & _).
    exists a, b. split; [exact E|]. split; [exact Eb|]. unfold serve. rewrite D. unfold get_blocks. cbn [negb andb N.eqb Pos.eqb]. unfold get_block. rewrite Hh, He. cbn [bind encode_seq].
    rewrite Eb. cbn [bind]. rewrite app_nil_r. reflexivity.
  Qed.

  Lemma block_not_empty : forall k b, wf (t_block P) k -> encode (t_block P) k = Ok b -> b <> [].
  Proof.
    intros k b W E Z. subst b. destruct (codec_roundtrip _ _ (block_ok P HC) W) as (b & E1 & _ & R). assert (b = []) by congruence. subst b.
    specialize (R []). cbn [app] in R. unfold t_block, t_header, t_header_data in R. cbn [decode] in R. unfold read_exact in R. cbn in R. discriminate.
  Qed.

  Lemma response_first : forall fuel b k r, decode (t_block P) b = Ok (k, r) -> forall l, decode_response P (S fuel) b = Ok l -> exists l', l = k :: l'.
  Proof.
    intros fuel b k r D l E. cbn [decode_response] in E. rewrite D in E. destruct (decode_response P fuel r) as [l'| |]; try discriminate. cbn [bind] in E. injection E as <-. eauto.
  Qed.

  Lemma empty_response : forall fuel, decode_response P fuel [] = Ok [].
  Proof.
    intros [|f]; [reflexivity|]. cbn [decode_response]. replace (decode (t_block P) []) with (@Err cerr (interp (t_block P) * bytes) InputError); [reflexivity|].
    unfold t_block, t_header, t_header_data. cbn [decode]. unfold read_exact. cbn. reflexivity.
  Qed.

  Lemma fetched : forall x k b, wf (t_block P) k -> encode (t_block P) k = Ok b -> fetch P x (Some b) = Ok k.
  Proof.
    intros x k b W E. destruct (codec_roundtrip _ _ (block_ok P HC) W) as (b' & E1 & _ & R). assert (b' = b) by congruence. subst b'.
    specialize (R []). rewrite app_nil_r in R. unfold fetch. cbn [decode_response]. rewrite R. rewrite empty_response. reflexivity.
  Qed.

  Lemma part_fetched : forall x k b c d, wf (t_block P) k -> encode (t_block P) k = Ok b -> b = c ++ d -> d <> [] -> fetch P x (Some c) = Panic.
  Proof.
    intros x k b c d W E Eb Hd. unfold fetch. cbn [decode_response]. destruct (decode (t_block P) c) as [y| |] eqn:D; [|reflexivity|reflexivity].
    exfalso. exact (Hd (whole_only _ _ b c d y (block_ok P HC) W E Eb D)).
  Qed.

  (** ** What is stored *)
  Variable g : header P.
  Lemma col_get_set : forall A (c : list (bytes * A)) k a k', col_get (col_set c k a) k' = if same k k' then Some a else col_get c k'.
  Proof. reflexivity. Qed.
  Lemma still_there : forall A (c : list (bytes * A)) k a x, (exists v, col_get c x = Some v) -> exists v, col_get (col_set c k a) x = Some v.
  Proof. intros A c k a x [v V]. rewrite col_get_set. destruct (same k x); eauto. Qed.
  Lemma now_there : forall A (c : list (bytes * A)) k a, exists v, col_get (col_set c k a) k = Some v.
  Proof. intros. rewrite col_get_set, same_refl. eauto. Qed.

  Definition inv (s : store P) (ds : list (deed P)) : Prop :=
    (forall x h, col_get (s_headers s) x = Some h -> header_hash P H h = Ok x /\ seen P g ds h /\ wf (t_header P) h) /\
    (forall x e, col_get (s_xts s) x = Some e -> (x = repeat 0 32 /\ e = no_xts P) \/ (extrinsics_hash P H e = Ok x /\ exists h, In (CommitState (h, e)) ds)) /\
    (forall h x, seen P g ds h -> header_hash P H h = Ok x -> exists h', col_get (s_headers s) x = Some h') /\
    (forall b, In (CommitState b) ds -> exists e, col_get (s_xts s) (xt_hash_of P (fst b)) = Some e) /\
    (forall b, In (CommitState b) ds -> In (CommitHeader (fst b)) ds /\ extrinsics_hash P H (snd b) = Ok (xt_hash_of P (fst b)) /\ wf (t_extrinsics P) (snd b)) /\
    (forall h, seen P g ds h -> wf (t_header P) h).

  Lemma seen_more : forall ds d h, seen P g ds h -> seen P g (d :: ds) h.
  Proof. intros ds d h [E|[E|[e E]]]; [left; exact E|right; left; right; exact E|right; right; exists e; right; exact E]. Qed.
  Lemma seen_commit : forall ds h h', seen P g (CommitHeader h :: ds) h' -> h' = h \/ seen P g ds h'.
  Proof. intros ds h h' [E|[[E|E]|[e [E|E]]]]; [right; left; exact E|left; congruence|right; right; left; exact E|discriminate|right; right; right; exists e; exact E]. Qed.
  Lemma seen_state : forall ds b h', seen P g (CommitState b :: ds) h' -> seen P g ds h'.
  Proof. intros ds h h' [E|[[E|E]|[e [E|E]]]]; [left; exact E|discriminate|right; left; exact E|discriminate|right; right; exists e; exact E]. Qed.
  Lemma seen_import : forall ds b h', seen P g (Import b :: ds) h' -> h' = fst b \/ seen P g ds h'.
  Proof.
    intros ds b h' [E|[[E|E]|[e [E|E]]]]; [right; left; exact E|discriminate|right; right; left; exact E| |right; right; right; exists e; exact E].
    left. injection E as ->. reflexivity.
  Qed.

  Lemma inv_header : forall s ds h d, inv s ds -> wf (t_header P) h -> (forall b, d <> CommitState b) -> (forall h', seen P g (d :: ds) h' <-> h' = h \/ seen P g ds h') ->
    inv (match header_hash P H h with Ok x => mk_store (col_set (s_headers s) x h) (s_xts s) | _ => s end) (d :: ds).
  Proof.
    intros s ds h d (I1 & I2 & I3 & I4 & I5 & I6) W Hd Hs.
    assert (J2 : forall x e, col_get (s_xts s) x = Some e -> (x = repeat 0 32 /\ e = no_xts P) \/ (extrinsics_hash P H e = Ok x /\ exists h, In (CommitState (h, e)) (d :: ds))).
    { intros x e V. destruct (I2 x e V) as [Z|[Z [k K]]]; [left; exact Z|right; split; [exact Z|exists k; right; exact K]]. }
    assert (J4 : forall b, In (CommitState b) (d :: ds) -> exists e, col_get (s_xts s) (xt_hash_of P (fst b)) = Some e).
    { intros b [Q|Q]; [exfalso; exact (Hd b Q)|auto]. }
    assert (J5 : forall b, In (CommitState b) (d :: ds) -> In (CommitHeader (fst b)) (d :: ds) /\ extrinsics_hash P H (snd b) = Ok (xt_hash_of P (fst b)) /\ wf (t_extrinsics P) (snd b)).
    { intros b [Q|Q]; [exfalso; exact (Hd b Q)|]. destruct (I5 b Q) as [A B]. split; [right; exact A|exact B]. }
    assert (J6 : forall h', seen P g (d :: ds) h' -> wf (t_header P) h').
    { intros h' Q. apply Hs in Q. destruct Q as [->|Q]; [exact W|auto]. }
    destruct (header_hash P H h) as [x0|er|] eqn:Eh.
    - split; [|split; [exact J2|split; [|split; [exact J4|split; [exact J5|exact J6]]]]]; cbn [s_headers s_xts].
      + intros x k V. rewrite col_get_set in V. destruct (same x0 x) eqn:Q.
        * apply same_iff in Q. injection V as <-. subst x0. split; [exact Eh|]. split; [apply Hs; left; reflexivity|exact W].
        * destruct (I1 x k V) as (A & B & C). split; [exact A|]. split; [apply seen_more; exact B|exact C].
      + intros k x Q Ek. apply Hs in Q. destruct Q as [->|Q]; [assert (x = x0) by congruence; subst; apply now_there|apply still_there; eauto].
    - split; [|split; [exact J2|split; [|split; [exact J4|split; [exact J5|exact J6]]]]].
      + intros x k V. destruct (I1 x k V) as (A & B & C). split; [exact A|]. split; [apply seen_more; exact B|exact C].
      + intros k x Q Ek. apply Hs in Q. destruct Q as [->|Q]; [congruence|eauto].
    - split; [|split; [exact J2|split; [|split; [exact J4|split; [exact J5|exact J6]]]]].
      + intros x k V. destruct (I1 x k V) as (A & B & C). split; [exact A|]. split; [apply seen_more; exact B|exact C].
      + intros k x Q Ek. apply Hs in Q. destruct Q as [->|Q]; [congruence|eauto].
  Qed.

  Lemma life_inv : forall s ds, life P H g s ds -> inv s ds.
  Proof.
    intros s ds L. induction L as [Wg|s ds h L IH W|s ds h e L IH Hin W He|s ds b L IH W].
    - assert (Sg : forall h, seen P g [] h -> h = g). { intros h [E|[[]|[e []]]]. exact E. }
      split; [|split; [|split; [|split; [intros b []|split; [intros b []|intros h Q; rewrite (Sg h Q); exact Wg]]]]]; unfold genesis_store; cbn [s_headers s_xts].
      + intros x h. destruct (header_hash P H g) as [y|er|] eqn:Eg; cbn [col_get]; try discriminate. destruct (same y x) eqn:Q; [|discriminate]. apply same_iff in Q.
        intros V. injection V as <-. split; [congruence|]. split; [left; reflexivity|exact Wg].
      + intros x e. cbn [col_get]. destruct (same _ x) eqn:Q; [|discriminate]. apply same_iff in Q. intros V. left. split; congruence.
      + intros h x Q Eh. rewrite (Sg h Q) in Eh. rewrite Eh. cbn [col_get]. rewrite same_refl. eauto.
    - exact (inv_header s ds h (CommitHeader h) IH W ltac:(discriminate) (fun h' => conj (seen_commit ds h h') (fun q => match q with
        | or_introl e => or_intror (or_introl (or_introl (f_equal CommitHeader (eq_sym e)))) | or_intror q => seen_more ds _ h' q end))).
    - destruct IH as (I1 & I2 & I3 & I4 & I5 & I6). unfold done. split; [|split; [|split; [|split; [|split]]]]; cbn [s_headers s_xts fst snd].
      + intros x k V. destruct (I1 x k V) as (A & B & C). split; [exact A|]. split; [apply seen_more; exact B|exact C].
      + intros x e'. rewrite col_get_set. destruct (same _ x) eqn:Q.
        * apply same_iff in Q. intros V. injection V as <-. right. split; [congruence|]. exists h. left. reflexivity.
        * intros V. destruct (I2 x e' V) as [Z|[Z [k K]]]; [left; exact Z|right; split; [exact Z|exists k; right; exact K]].
      + intros k x Q Ek. apply seen_state in Q. eauto.
      + intros b [Q|Q]; [injection Q as <-; apply now_there|apply still_there; auto].
      + intros b [Q|Q]; [injection Q as <-; split; [right; exact Hin|split; [exact He|exact W]]|]. destruct (I5 b Q) as [A B]. split; [right; exact A|exact B].
      + intros k Q. apply seen_state in Q. auto.
    - refine (inv_header s ds (fst b) (Import b) IH (proj1 W) ltac:(discriminate) (fun h' => conj (seen_import ds b h') (fun q => match q with
        | or_introl e => or_intror (or_intror (ex_intro _ (snd b) (or_introl _))) | or_intror q => seen_more ds _ h' q end))).
      rewrite e. destruct b. reflexivity.
  Qed.

  Lemma served_matches : forall s ds x a max bs, life P H g s ds -> get_blocks P s x a max = Ok bs ->
    exists h e, bs = [(h, e)] /\ header_hash P H h = Ok x /\ seen P g ds h /\ (extrinsics_hash P H e = Ok (xt_hash_of P h) \/ (xt_hash_of P h = repeat 0 32 /\ e = no_xts P)).
  Proof.
    intros s ds x a max bs L E. destruct (life_inv s ds L) as (I1 & I2 & _). unfold get_blocks in E. destruct (negb a && (max =? 1)); [|discriminate].
    unfold get_block in E. destruct (col_get (s_headers s) x) as [h|] eqn:Eh; [|discriminate]. destruct (col_get (s_xts s) (xt_hash_of P h)) as [e|] eqn:Ee; [|discriminate].
    cbn [bind] in E. injection E as <-. exists h, e. split; [reflexivity|]. destruct (I1 x h Eh) as (A & B & C). split; [exact A|]. split; [exact B|].
    destruct (I2 _ e Ee) as [Z|[Z _]]; auto.
  Qed.

  Lemma authored_served : forall s ds b x, life P H g s ds -> In (CommitState b) ds -> header_hash P H (fst b) = Ok x -> xt_hash_of P (fst b) <> repeat 0 32 ->
    get_blocks P s x false 1 = Ok [b] \/ (exists h', seen P g ds h' /\ headers_collide P H (fst b) h') \/ (exists b', In (CommitState b') ds /\ bodies_collide P H (snd b) (snd b')).
  Proof.
    intros s ds b x L Hin Hx Hz. destruct (life_inv s ds L) as (I1 & I2 & I3 & I4 & I5 & I6). destruct (I5 b Hin) as (A1 & A2 & A3).
    assert (Sb : seen P g ds (fst b)) by (right; left; exact A1).
    destruct (I3 _ x Sb Hx) as [h' Eh]. destruct (I1 x h' Eh) as (B1 & B2 & B3).
    destruct (header_hash_commits P H HC (fst b) h' x (I6 _ Sb) B3 Hx B1) as [Q|Q]; [|right; left; exists h'; split; [exact B2|exact Q]].
    destruct (I4 b Hin) as [e' Ee]. destruct (I2 _ e' Ee) as [[Z _]|[Z [k K]]]; [exfalso; exact (Hz Z)|].
    destruct (I5 _ K) as (_ & _ & W'). cbn [snd] in W'.
    destruct (extrinsics_hash_commits P H (fun y => proj1 (HH y)) (fun y => proj2 (HH y)) HC (snd b) e' _ A3 W' A2 Z) as [R|R]; [|right; right; exists (k, e'); split; [exact K|exact R]].
    left. unfold get_blocks. cbn [negb andb N.eqb Pos.eqb]. unfold get_block. rewrite Eh, <- Q, Ee, <- R. cbn [bind]. destruct b. reflexivity.
  Qed.

End Net.

Section Streams.
  Variable P : params.
  (** ** Streams *)
  Lemma calm_goes_on : forall s t, calm P s t -> stream_outcome P s t <> Crashed /\ stream_outcome P s t <> Waiting.
  Proof.
    intros s [k a] C. unfold calm in C. unfold stream_outcome. cbn [fst snd] in *. destruct k as [k| |]; [|split; discriminate|contradiction].
    unfold kind_known. destruct C as [->|[->|[C|[C|[-> C]]]]].
    - split; discriminate.
    - split; discriminate.
    - replace (k =? 0) with false by lia. replace (128 <=? k) with false by lia. split; discriminate.
    - replace (k =? 0) with false by lia. replace (k <=? 145) with false by lia. rewrite andb_false_r. split; discriminate.
    - cbn [N.eqb Pos.eqb orb N.leb N.compare Pos.compare Pos.compare_cont andb negb]. destruct a as [a| |]; [|split; discriminate|contradiction]. split; [exact C|].
      unfold serve. destruct (decode t_request a) as [[[x [b m]] r]|er|]; [|discriminate|discriminate]. destruct (get_blocks P s x b m) as [bs|er|]; [|discriminate|discriminate].
      destruct (encode_seq _ _); discriminate.
  Qed.
  Lemma initiator_goes_on : forall s ts us, Forall (calm P s) ts -> initiator P s (ts ++ us) = map (stream_outcome P s) ts ++ initiator P s us.
  Proof.
    intros s ts us C. induction C as [|t ts C _ IH]; [reflexivity|]. cbn [app initiator map]. destruct (calm_goes_on s t C) as [C1 C2].
    destruct (stream_outcome P s t); try contradiction; rewrite IH; reflexivity.
  Qed.
End Streams.

(** ** Dialling *)
Lemma cmp_list_refl_eq : forall a b, cmp_list N.compare a b = Eq -> a = b.
Proof.
  induction a as [|x a IH]; destruct b as [|y b]; cbn [cmp_list]; try discriminate; [reflexivity|].
  destruct (N.compare x y) eqn:C; try discriminate. apply N.compare_eq in C. intros E. f_equal; auto.
Qed.
Lemma cmp_list_flip : forall a b, cmp_list N.compare b a = CompOpp (cmp_list N.compare a b).
Proof.
  induction a as [|x a IH]; destruct b as [|y b]; cbn [cmp_list CompOpp]; try reflexivity.
  rewrite (N.compare_antisym x y). destruct (N.compare x y); cbn [CompOpp]; auto.
Qed.
Lemma key_lt_total : forall a b, a <> b -> key_lt b a = negb (key_lt a b).
Proof.
  intros a b D. unfold key_lt. rewrite (cmp_list_flip a b). destruct (cmp_list N.compare a b) eqn:C; cbn [CompOpp negb]; try reflexivity.
  exfalso. exact (D (cmp_list_refl_eq a b C)).
Qed.
Lemma preferred_sym : forall a b, preferred a b = preferred b a.
Proof.
  intros a b. destruct (list_eq_dec N.eq_dec a b) as [->|D]; [reflexivity|]. unfold preferred. rewrite (key_lt_total a b D).
  destruct (127 <? nth 31 a 0), (127 <? nth 31 b 0), (key_lt a b); reflexivity.
Qed.
Lemma preferred_one : forall a b, preferred a b = a \/ preferred a b = b.
Proof. intros. unfold preferred. destruct (xorb _ _); auto. Qed.

Lemma put_peer_other : forall m p a, a <> p_addr p -> forall q, In (a, q) (put_peer m p) <-> In (a, q) m.
Proof.
  intros m p a D q. unfold put_peer. cbn [In]. rewrite filter_In. cbn [fst]. split.
  - intros [E|[E _]]; [injection E as E1 E2; congruence|exact E].
  - intros E. right. split; [exact E|]. apply Bool.negb_true_iff, Bool.not_true_iff_false. intros Q. apply same_iff in Q. congruence.
Qed.
Lemma put_peer_has : forall m p q, In (p_addr p, q) (put_peer m p) <-> q = p.
Proof.
  intros m p q. unfold put_peer. cbn [In]. rewrite filter_In. cbn [fst]. rewrite same_refl. cbn [negb]. split.
  - intros [E|[_ E]]; [congruence|discriminate].
  - intros ->. auto.
Qed.
(** the last peer with an address is the one in the map *)
Lemma fold_peers : forall l m a q, In (a, q) (fold_left put_peer l m) <->
  (exists l1 l2, l = l1 ++ q :: l2 /\ p_addr q = a /\ forall x, In x l2 -> p_addr x <> a) \/ ((forall x, In x l -> p_addr x <> a) /\ In (a, q) m).
Proof.
  induction l as [|p l IH] using rev_ind; intros m a q.
  - cbn [fold_left]. split; [right; split; [intros x []|assumption]|]. intros [(l1 & l2 & E & _)|[_ E]]; [destruct l1; discriminate|exact E].
  - rewrite fold_left_app. cbn [fold_left]. destruct (list_eq_dec N.eq_dec a (p_addr p)) as [->|D].
    + rewrite put_peer_has. split.
      * intros ->. left. exists l, []. repeat split. intros x [].
      * intros [(l1 & l2 & E & A & B)|[A _]].
        -- destruct (exists_last (l := q :: l2) ltac:(discriminate)) as (l3 & z & Z). rewrite Z, app_assoc in E. apply app_inj_tail in E. destruct E as [_ E]. subst z.
           destruct l3 as [|y l3]; [injection Z as Z; assumption|]. injection Z as Z1 Z2. exfalso. apply (B p); [rewrite Z2; apply in_or_app; right; left; reflexivity|reflexivity].
        -- exfalso. apply (A p); [apply in_or_app; right; left; reflexivity|reflexivity].
    + rewrite (put_peer_other _ p a D q), IH. split.
      * intros [(l1 & l2 & E & A & B)|[A B]].
        -- left. exists l1, (l2 ++ [p]). rewrite E, <- app_assoc. repeat split; [exact A|]. intros x X. apply in_app_or in X. destruct X as [X|[X|[]]]; [auto|congruence].
        -- right. split; [|exact B]. intros x X. apply in_app_or in X. destruct X as [X|[X|[]]]; [auto|congruence].
      * intros [(l1 & l2 & E & A & B)|[A B]].
        -- left. destruct (list_eq_dec N.eq_dec (p_addr q) (p_addr p)) as [Q|Q]; [congruence|].
           destruct l2 as [|y l2 _] using rev_ind.
           ++ apply app_inj_tail in E. destruct E as [_ E]. congruence.
           ++ exists l1, l2. rewrite app_comm_cons, app_assoc in E. apply app_inj_tail in E. destruct E as [E _]. repeat split; auto.
              intros x X. apply B. apply in_or_app. auto.
        -- right. split; [|exact B]. intros x X. apply A. apply in_or_app. auto.
Qed.

Lemma loaded_iff : forall own past active staging p, In p (load_peers own past active staging) <->
  p_addr p <> own /\ p_addr p <> repeat 0 18 /\ exists l1 l2, past ++ active ++ staging = l1 ++ p :: l2 /\ forall x, In x l2 -> p_addr x <> p_addr p.
Proof.
  intros own past active staging p. unfold load_peers. rewrite filter_In, in_map_iff, Bool.andb_true_iff, !Bool.negb_true_iff, <- !Bool.not_true_iff_false, !same_iff. split.
  - intros [[[a q] [E I]] [A B]]. cbn [snd] in E. subst q. apply fold_peers in I. destruct I as [(l1 & l2 & I1 & I2 & I3)|[_ []]]. subst a.
    split; [exact A|]. split; [exact B|]. exists l1, l2. split; [exact I1|exact I3].
  - intros (A & B & l1 & l2 & I1 & I3). split; [|split; assumption]. exists (p_addr p, p). split; [reflexivity|]. apply fold_peers. left. exists l1, l2. auto.
Qed.

Lemma last_occurrence : forall (l : list peer) p, In p l -> (forall q, In q l -> p_addr q = p_addr p -> q = p) -> exists l1 l2, l = l1 ++ p :: l2 /\ forall x, In x l2 -> p_addr x <> p_addr p.
Proof.
  induction l as [|y l IH] using rev_ind; intros p I U; [contradiction|].
  destruct (list_eq_dec N.eq_dec (p_addr y) (p_addr p)) as [D|D].
  - assert (y = p) by (apply U; [apply in_or_app; right; left; reflexivity|exact D]). subst y. exists l, []. split; [reflexivity|intros x []].
  - apply in_app_or in I. destruct I as [I|[I|[]]]; [|congruence].
    destruct (IH p I) as (l1 & l2 & E & F); [intros q Q; apply U; apply in_or_app; left; exact Q|].
    exists l1, (l2 ++ [y]). rewrite E, <- app_assoc. split; [reflexivity|]. intros x X. apply in_app_or in X. destruct X as [X|[X|[]]]; [auto|congruence].
Qed.

Lemma dials_one_side : forall a b c c' q q', a <> b -> p_key q = b -> p_key q' = a -> c q = false -> c' q' = false -> dials_first a c q = negb (dials_first b c' q').
Proof.
  intros a b c c' q q' D Q Q' C C'. unfold dials_first. rewrite C, C', Q, Q'. cbn [negb andb].
  replace (same a b) with false by (symmetry; apply Bool.not_true_iff_false; rewrite same_iff; exact D).
  replace (same b a) with false by (symmetry; apply Bool.not_true_iff_false; rewrite same_iff; congruence). cbn [negb andb].
  rewrite (preferred_sym b a). destruct (preferred_one a b) as [->| ->].
  - rewrite same_refl. replace (same b a) with false by (symmetry; apply Bool.not_true_iff_false; rewrite same_iff; congruence). reflexivity.
  - rewrite same_refl. replace (same a b) with false by (symmetry; apply Bool.not_true_iff_false; rewrite same_iff; exact D). reflexivity.
Qed.

Lemma dialled_all : forall me peers answers before between, NoDup (map p_addr peers) ->
  (forall p, In p peers -> dials_first me before p = true -> answers p = true) ->
  forall p, In p peers -> p_key p <> me -> between p = false -> In p (dialled me peers answers before between).
Proof.
  intros me peers answers before between ND A p I K B. unfold dialled.
  replace (forallb answers (filter (dials_first me before) peers)) with true.
  2: { symmetry. apply forallb_forall. intros x X. apply filter_In in X. destruct X as [X1 X2]. auto. }
  apply in_or_app. destruct (dials_first me before p) eqn:F; [left; apply filter_In; split; assumption|]. right. apply filter_In. split; [exact I|].
  unfold dials_later. rewrite B, orb_false_r. apply andb_true_intro. split.
  - apply Bool.negb_true_iff, Bool.not_true_iff_false. intros X. apply existsb_exists in X. destruct X as (q & Q1 & Q2). apply same_iff in Q2. apply filter_In in Q1. destruct Q1 as [Q1 Q3].
    assert (q = p); [|congruence]. clear - ND Q1 I Q2. induction peers as [|y l IH]; [contradiction|]. cbn [map] in ND. inversion ND as [|? ? N1 N2]. subst.
    destruct Q1 as [->|Q1], I as [->|I]; auto.
    + exfalso. apply N1. rewrite Q2. apply in_map. exact I.
    + exfalso. apply N1. rewrite <- Q2. apply in_map. exact Q1.
  - apply Bool.negb_true_iff, Bool.not_true_iff_false. intros X. apply same_iff in X. congruence.
Qed.

Lemma dialled_once : forall me peers answers before between, NoDup (map p_addr peers) -> NoDup (dialled me peers answers before between) /\
  forall p, In p (dialled me peers answers before between) -> In p peers /\ p_key p <> me.
Proof.
  intros me peers answers before between ND.
  assert (N0 : NoDup peers) by (apply (NoDup_map_inv p_addr); exact ND).
  assert (F1 : NoDup (filter (dials_first me before) peers)) by (apply NoDup_filter; exact N0).
  assert (F2 : forall p, In p (filter (dials_first me before) peers) -> In p peers /\ p_key p <> me).
  { intros p X. apply filter_In in X. destruct X as [X1 X2]. split; [exact X1|]. unfold dials_first in X2. intros K. rewrite K, same_refl in X2. rewrite andb_false_r in X2. discriminate. }
  unfold dialled. destruct (forallb _ _); [|split; assumption]. split.
  - set (fs := filter (dials_first me before) peers) in *.
    assert (F3 : forall p, In p fs -> ~ In p (filter (dials_later me (fun p => existsb (fun q => same (p_addr q) (p_addr p)) fs || between p)) peers)).
    { intros p X Y. apply filter_In in Y. destruct Y as [_ Y]. unfold dials_later in Y. replace (existsb (fun q => same (p_addr q) (p_addr p)) fs) with true in Y; [discriminate|].
      symmetry. apply existsb_exists. exists p. split; [exact X|apply same_refl]. }
    assert (F4 : NoDup (filter (dials_later me (fun p => existsb (fun q => same (p_addr q) (p_addr p)) fs || between p)) peers)) by (apply NoDup_filter; exact N0).
    revert F1 F3 F4. generalize (filter (dials_later me (fun p => existsb (fun q => same (p_addr q) (p_addr p)) fs || between p)) peers). clearbody fs. clear.
    intros l F1 F3 F4. induction fs as [|x fs IH]; [exact F4|]. inversion F1 as [|? ? A B]. subst. cbn [app]. constructor.
    + intros X. apply in_app_or in X. destruct X as [X|X]; [exact (A X)|exact (F3 x (or_introl eq_refl) X)].
    + apply IH; [exact B|]. intros p Q. apply F3. right. exact Q.
  - intros p X. apply in_app_or in X. destruct X as [X|X]; [auto|]. apply filter_In in X. destruct X as [X1 X2]. split; [exact X1|]. unfold dials_later in X2. intros K. rewrite K, same_refl in X2.
    rewrite andb_false_r in X2. discriminate.
Qed.
