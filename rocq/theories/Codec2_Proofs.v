(** Composite types: order laws, round trip, locality, well-formedness, canonicity of the rigid fragment. *)
From Verif Require Import Base Base_Proofs Codec_Model Codec_Spec Codec_Proofs.
Open Scope N_scope.
Ltac Zify.zify_post_hook ::= Z.div_mod_to_equations.

(** * Order laws *)
Record OrdOk {A : Type} (c : A -> A -> comparison) : Prop := {
  ord_eq : forall a b, c a b = Eq <-> a = b;
  ord_opp : forall a b, c b a = CompOpp (c a b);
  ord_trans : forall x y z, c x y = Lt -> c y z = Lt -> c x z = Lt }.

Lemma ord_N : OrdOk N.compare.
Proof.
  split.
  - intros. apply N.compare_eq_iff.
  - intros. apply N.compare_antisym.
  - intros x y z. rewrite !N.compare_lt_iff. lia.
Qed.

Lemma ord_bool : OrdOk cmp_bool.
Proof. split; [intros [] []|intros [] []|intros [] [] []]; cbn; intuition congruence. Qed.

Lemma ord_list : forall A (c : A -> A -> comparison), OrdOk c -> OrdOk (cmp_list c).
Proof.
  intros A c [He Ho Ht]. split.
  - induction a as [|x a IH]; destruct b as [|y b]; cbn; try (split; congruence).
    destruct (c x y) eqn:E.
    + rewrite IH. apply He in E; subst. split; congruence.
    + split; [discriminate|]. intros H; inversion H; subst.
      assert (c y y = Eq) by now apply He. congruence.
    + split; [discriminate|]. intros H; inversion H; subst.
      assert (c y y = Eq) by now apply He. congruence.
  - induction a as [|x a IH]; destruct b as [|y b]; cbn; try reflexivity.
    rewrite (Ho x y). destruct (c x y); cbn; auto.
  - induction x as [|a x IH]; destruct y as [|b y]; destruct z as [|d z]; cbn; try congruence.
    destruct (c a b) eqn:E1; try congruence.
    + apply He in E1; subst. destruct (c b d); try congruence. apply IH.
    + intros _. destruct (c b d) eqn:E2; try congruence.
      * apply He in E2; subst. now rewrite E1.
      * now rewrite (Ht _ _ _ E1 E2).
Qed.

Lemma ord_pair : forall A B (ca : A -> A -> comparison) (cb : B -> B -> comparison),
  OrdOk ca -> OrdOk cb -> OrdOk (cmp_pair ca cb).
Proof.
  intros A B ca cb [He1 Ho1 Ht1] [He2 Ho2 Ht2]. unfold cmp_pair. split.
  - intros [a1 b1] [a2 b2]; cbn. destruct (ca a1 a2) eqn:E.
    + rewrite He2. apply He1 in E; subst. split; congruence.
    + split; [discriminate|]. intros H; inversion H; subst.
      assert (ca a2 a2 = Eq) by now apply He1. congruence.
    + split; [discriminate|]. intros H; inversion H; subst.
      assert (ca a2 a2 = Eq) by now apply He1. congruence.
  - intros [a1 b1] [a2 b2]; cbn. rewrite (Ho1 a1 a2). destruct (ca a1 a2); cbn; auto.
  - intros [a1 b1] [a2 b2] [a3 b3]; cbn.
    destruct (ca a1 a2) eqn:E1; try congruence.
    + apply He1 in E1; subst. destruct (ca a2 a3); try congruence. apply Ht2.
    + intros _. destruct (ca a2 a3) eqn:E2; try congruence.
      * apply He1 in E2; subst. now rewrite E1.
      * now rewrite (Ht1 _ _ _ E1 E2).
Qed.

Lemma ord_ty : forall t, OrdOk (cmp t).
Proof.
  induction t; cbn [cmp interp];
    try (first [apply ord_N | apply ord_bool | apply ord_list | apply ord_pair]; fail);
    try solve [first [apply ord_N | apply ord_bool
      | apply ord_list; first [apply ord_N | apply ord_bool | assumption | apply ord_pair; assumption]
      | apply ord_pair; first [apply ord_N | apply ord_bool | assumption]]].
  - split; [intros [] []|intros [] []|intros [] [] []]; intuition congruence.
  - destruct IHt as [He Ho Ht]. split.
    + intros [a|a] [b|b]; try (split; congruence).
      * rewrite He. split; congruence.
      * rewrite N.compare_eq_iff. split; congruence.
    + intros [a|a] [b|b]; auto. apply N.compare_antisym.
    + intros [x|x] [y|y] [z|z]; try congruence; eauto.
      rewrite !N.compare_lt_iff. lia.
  - destruct IHt as [He Ho Ht]. split.
    + intros [a|] [b|]; try (split; congruence). rewrite He. split; congruence.
    + intros [a|] [b|]; auto.
    + intros [x|] [y|] [z|]; try congruence; eauto.
Qed.

(** * Ordered sequences *)
Lemma increasing_nil : forall A (c : A -> A -> comparison), increasing c [].
Proof. intros A c [|i] [|j] x y _ H; discriminate. Qed.

Lemma increasing_cons : forall A (c : A -> A -> comparison) a l,
  increasing c (a :: l) <-> Forall (fun y => c a y = Lt) l /\ increasing c l.
Proof.
  intros A c a l. split.
  - intros H. split.
    + apply Forall_forall. intros y Hy. apply In_nth_error in Hy as [n Hn].
      apply (H 0%nat (S n) a y); [lia|reflexivity|exact Hn].
    + intros i j x y Hij Hi Hj. apply (H (S i) (S j) x y); [lia|exact Hi|exact Hj].
  - intros [HF HI] i j x y Hij Hi Hj. destruct j as [|j]; [lia|]. cbn in Hj.
    destruct i as [|i]; cbn in Hi.
    + inversion Hi; subst. rewrite Forall_forall in HF. apply HF. eapply nth_error_In; eassumption.
    + apply (HI i j); [lia|assumption|assumption].
Qed.

Lemma increasing_app_last : forall A (c : A -> A -> comparison) l a,
  increasing c l -> Forall (fun y => c y a = Lt) l -> increasing c (l ++ [a]).
Proof.
  intros A c l a. induction l as [|x l IH]; intros HI HF.
  - apply increasing_cons. split; [constructor|apply increasing_nil].
  - apply increasing_cons in HI as [HF' HI]. inversion_clear HF as [|? ? Hx HF2].
    cbn [app]. apply increasing_cons. split; [|now apply IH].
    apply Forall_app. split; [assumption|]. repeat constructor. assumption.
Qed.

Lemma increasing_app : forall A (c : A -> A -> comparison) l1 l2,
  increasing c (l1 ++ l2) -> increasing c l1 /\ increasing c l2 /\
  (forall x y, In x l1 -> In y l2 -> c x y = Lt).
Proof.
  intros A c l1 l2. induction l1 as [|a l1 IH]; cbn [app].
  - intros H. repeat split; [apply increasing_nil|assumption|]. intros x y [].
  - intros H. apply increasing_cons in H as [HF HI]. apply IH in HI as (H1 & H2 & H3).
    apply Forall_app in HF as [HFa HFb]. repeat split; [|assumption|].
    + apply increasing_cons. split; assumption.
    + intros x y [->|Hx] Hy; [|now apply H3]. rewrite Forall_forall in HFb. now apply HFb.
Qed.

Section Ins.
  Context {K V : Type} (c : K -> K -> comparison) (O : OrdOk c).

  Lemma cmp_gt_lt : forall a b, c a b = Gt <-> c b a = Lt.
  Proof using O. intros a b. rewrite (ord_opp _ O a b). destruct (c a b); cbn; split; congruence. Qed.

  Lemma map_insert_last : forall k (v : V) m, Forall (fun y => c y k = Lt) (map fst m) ->
    map_insert c k v m = m ++ [(k, v)].
  Proof using O.
    induction m as [|[k' v'] m IH]; intros HF; [reflexivity|].
    cbn [map fst] in HF. inversion_clear HF as [|? ? Hk HF']. cbn [map_insert app].
    apply cmp_gt_lt in Hk. rewrite Hk. now rewrite IH.
  Qed.

  Lemma set_insert_last : forall k m, Forall (fun y => c y k = Lt) m -> set_insert c k m = m ++ [k].
  Proof using O.
    induction m as [|k' m IH]; intros HF; [reflexivity|].
    inversion_clear HF as [|? ? Hk HF']. cbn [set_insert app].
    apply cmp_gt_lt in Hk. rewrite Hk. now rewrite IH.
  Qed.

  Lemma map_insert_keys : forall k (v : V) m x, In x (map fst (map_insert c k v m)) ->
    x = k \/ In x (map fst m).
  Proof using O.
    induction m as [|[k' v'] m IH]; cbn [map_insert map fst In]; intros x Hx.
    - destruct Hx as [->|[]]; auto.
    - destruct (c k k') eqn:E; cbn [map fst In] in Hx.
      + destruct Hx as [->|Hx]; auto.
      + destruct Hx as [->|Hx]; auto.
      + destruct Hx as [->|Hx]; auto. apply IH in Hx as [->|Hx]; auto.
  Qed.

  Lemma map_insert_increasing : forall k (v : V) m, increasing c (map fst m) ->
    increasing c (map fst (map_insert c k v m)).
  Proof using O.
    induction m as [|[k' v'] m IH]; intros HI; cbn [map_insert].
    - apply increasing_cons. split; [constructor|apply increasing_nil].
    - cbn [map fst] in HI. pose proof HI as HI0. apply increasing_cons in HI as [HF HI].
      destruct (c k k') eqn:E; cbn [map fst].
      + apply increasing_cons. split; assumption.
      + apply increasing_cons. split; [|assumption]. constructor; [assumption|].
        eapply Forall_impl; [|exact HF]. intros y Hy. eapply (ord_trans _ O); eassumption.
      + apply increasing_cons. split; [|now apply IH].
        apply Forall_forall. intros x Hx. apply map_insert_keys in Hx as [->|Hx].
        * now apply cmp_gt_lt.
        * rewrite Forall_forall in HF. now apply HF.
  Qed.

  Lemma map_insert_Forall : forall (P : K * V -> Prop) k v m,
    (forall k' v', P (k', v') -> c k k' = Eq -> P (k', v)) ->
    P (k, v) -> Forall P m -> Forall P (map_insert c k v m).
  Proof using O.
    intros P k v m HE Hk HF. induction HF as [|[k' v'] m Hp HF IH]; cbn [map_insert].
    - repeat constructor; assumption.
    - destruct (c k k') eqn:E; repeat constructor; try assumption. eapply HE; eassumption.
  Qed.

  Lemma map_insert_len : forall k (v : V) m, (length (map_insert c k v m) <= S (length m))%nat.
  Proof using O.
    induction m as [|[k' v'] m IH]; cbn [map_insert]; [cbn; lia|].
    destruct (c k k'); cbn [length] in *; lia.
  Qed.

  Lemma set_insert_In : forall k m x, In x (set_insert c k m) -> x = k \/ In x m.
  Proof using O.
    induction m as [|k' m IH]; cbn [set_insert In]; intros x Hx.
    - destruct Hx as [->|[]]; auto.
    - destruct (c k k') eqn:E; cbn [In] in Hx.
      + destruct Hx as [->|Hx]; auto.
      + destruct Hx as [->|Hx]; auto.
      + destruct Hx as [->|Hx]; auto. apply IH in Hx as [->|Hx]; auto.
  Qed.

  Lemma set_insert_increasing : forall k m, increasing c m -> increasing c (set_insert c k m).
  Proof using O.
    induction m as [|k' m IH]; intros HI; cbn [set_insert].
    - apply increasing_cons. split; [constructor|apply increasing_nil].
    - pose proof HI as HI0. apply increasing_cons in HI as [HF HI].
      destruct (c k k') eqn:E.
      + assumption.
      + apply increasing_cons. split; [|assumption]. constructor; [assumption|].
        eapply Forall_impl; [|exact HF]. intros y Hy. eapply (ord_trans _ O); eassumption.
      + apply increasing_cons. split; [|now apply IH].
        apply Forall_forall. intros x Hx. apply set_insert_In in Hx as [->|Hx].
        * now apply cmp_gt_lt.
        * rewrite Forall_forall in HF. now apply HF.
  Qed.

  Lemma set_insert_len : forall k m, (length (set_insert c k m) <= S (length m))%nat.
  Proof using O.
    induction m as [|k' m IH]; cbn [set_insert]; [cbn; lia|].
    destruct (c k k'); cbn [length] in *; lia.
  Qed.
End Ins.

(** * Bit strings *)
Definition byte_of (bits : list bool) : N :=
  fold_right (fun (b : bool) acc => (if b then 1 else 0) + 2 * acc) 0 bits.

Lemma pack_chunk : forall c r, length c = 8%nat ->
  pack_bits (c ++ r) = byte_of c :: pack_bits r /\ byte_bits (byte_of c) = c /\ byte_of c < 256.
Proof.
  intros c r Hc.
  destruct c as [|b0 [|b1 [|b2 [|b3 [|b4 [|b5 [|b6 [|b7 [|]]]]]]]]]; try discriminate.
  destruct b0, b1, b2, b3, b4, b5, b6, b7; repeat split.
Qed.

Lemma pack_partial : forall c, (0 < length c < 8)%nat ->
  pack_bits c = [byte_of c] /\ firstn (length c) (byte_bits (byte_of c)) = c /\ byte_of c < 256.
Proof.
  intros c Hc.
  destruct c as [|b0 [|b1 [|b2 [|b3 [|b4 [|b5 [|b6 [|b7 c]]]]]]]]; cbn [length] in Hc; try lia;
  repeat match goal with b : bool |- _ => destruct b end; repeat split.
Qed.

Lemma byte_bits_length : forall b, length (byte_bits b) = 8%nat.
Proof. reflexivity. Qed.

Lemma byte_of_byte_bits : forall b, b < 256 -> byte_of (byte_bits b) = b.
Proof.
  intros b Hb. assert (S : forallb (fun b => byte_of (byte_bits b) =? b) (Nrange 256) = true)
    by (vm_compute; reflexivity).
  apply N.eqb_eq. exact (Nrange_forallb _ _ S b Hb).
Qed.

Lemma pack_bits_length : forall bits, length (pack_bits bits) = ((length bits + 7) / 8)%nat.
Proof.
  intros bits. remember (length bits) as n eqn:En. revert bits En.
  induction n as [n IH] using lt_wf_ind. intros bits ->.
  destruct (Nat.le_gt_cases 8 (length bits)) as [H8|H8].
  - rewrite <- (firstn_skipn 8 bits).
    assert (Hl : length (firstn 8 bits) = 8%nat) by (rewrite firstn_length; lia).
    destruct (pack_chunk (firstn 8 bits) (skipn 8 bits) Hl) as (-> & _).
    cbn [length]. rewrite (IH (length (skipn 8 bits))); [|rewrite skipn_length; lia|reflexivity].
    rewrite app_length, Hl. rewrite skipn_length. lia.
  - destruct bits as [|b bits]; [reflexivity|].
    destruct (pack_partial (b :: bits)) as (-> & _); [cbn [length] in *; lia|].
    cbn [length] in *. lia.
Qed.

Lemma pack_bits_Bytes : forall bits, Bytes (pack_bits bits).
Proof.
  intros bits. remember (length bits) as n eqn:En. revert bits En.
  induction n as [n IH] using lt_wf_ind. intros bits ->.
  destruct (Nat.le_gt_cases 8 (length bits)) as [H8|H8].
  - rewrite <- (firstn_skipn 8 bits).
    assert (Hl : length (firstn 8 bits) = 8%nat) by (rewrite firstn_length; lia).
    destruct (pack_chunk (firstn 8 bits) (skipn 8 bits) Hl) as (-> & _ & Hb).
    constructor; [exact Hb|]. eapply IH; [|reflexivity]. rewrite skipn_length; lia.
  - destruct bits as [|b bits]; [constructor|].
    destruct (pack_partial (b :: bits)) as (-> & _ & Hb); [cbn [length] in *; lia|].
    repeat constructor. exact Hb.
Qed.

Lemma decode_bits_loop_ok : forall bits acc size rest,
  size = N.of_nat (length acc) + N.of_nat (length bits) ->
  decode_bits_loop ((length bits + 7) / 8) size acc (pack_bits bits ++ rest) = Ok (acc ++ bits, rest).
Proof.
  intros bits. remember (length bits) as n eqn:En. revert bits En.
  induction n as [n IH] using lt_wf_ind. intros bits -> acc size rest Hsize.
  destruct (Nat.le_gt_cases 8 (length bits)) as [H8|H8].
  - assert (Hl : length (firstn 8 bits) = 8%nat) by (rewrite firstn_length; lia).
    assert (Hs : length (skipn 8 bits) = (length bits - 8)%nat) by apply skipn_length.
    destruct (pack_chunk (firstn 8 bits) (skipn 8 bits) Hl) as (Hp & Hbb & Hb).
    rewrite firstn_skipn in Hp. rewrite Hp.
    replace ((length bits + 7) / 8)%nat with (S ((length (skipn 8 bits) + 7) / 8)) by lia.
    cbn [decode_bits_loop app read_byte bind]. rewrite Hbb.
    replace (N.to_nat (N.min 8 (size - N.of_nat (length acc)))) with 8%nat by lia.
    replace (firstn 8 (firstn 8 bits)) with (firstn 8 bits) by (rewrite firstn_firstn; reflexivity).
    rewrite (IH (length (skipn 8 bits))); [|lia|reflexivity|rewrite app_length; lia].
    rewrite <- app_assoc, firstn_skipn. reflexivity.
  - destruct (Nat.eq_dec (length bits) 0) as [H0|H0].
    + destruct bits; [|discriminate]. cbn. now rewrite app_nil_r.
    + destruct (pack_partial bits) as (Hp & Hf & Hb); [lia|]. rewrite Hp.
      replace ((length bits + 7) / 8)%nat with 1%nat by lia.
      cbn [decode_bits_loop app read_byte bind].
      replace (N.to_nat (N.min 8 (size - N.of_nat (length acc)))) with (length bits) by lia.
      now rewrite Hf.
Qed.

Lemma decode_bits_fixed_ok : forall bits rest, N.of_nat (length bits) <= bitvec_max_bits ->
  decode_bits_fixed (N.of_nat (length bits)) (pack_bits bits ++ rest) = Ok (bits, rest).
Proof.
  intros bits rest H. unfold decode_bits_fixed.
  destruct (N.ltb_spec bitvec_max_bits (N.of_nat (length bits))); [lia|].
  replace (N.to_nat ((N.of_nat (length bits) + 7) / 8)) with ((length bits + 7) / 8)%nat by lia.
  rewrite decode_bits_loop_ok; [reflexivity|simpl; lia].
Qed.

Lemma decode_bits_loop_local : forall n size acc inp x rest,
  decode_bits_loop n size acc inp = Ok (x, rest) ->
  exists used, length used = n /\ inp = used ++ rest /\
    (forall r, decode_bits_loop n size acc (used ++ r) = Ok (x, r)).
Proof.
  induction n as [|n IH]; intros size acc inp x rest H; cbn [decode_bits_loop] in H.
  - inversion H; subst. exists []. repeat split.
  - destruct inp as [|b r]; cbn [read_byte bind] in H; [discriminate|].
    apply IH in H as (used & Hl & -> & Hu). exists (b :: used). repeat split; [cbn; lia|].
    intros r'. cbn. apply Hu.
Qed.

Lemma decode_bits_loop_len : forall n size acc inp x rest,
  decode_bits_loop n size acc inp = Ok (x, rest) ->
  N.of_nat (length acc) <= size ->
  N.of_nat (length x) = N.min size (N.of_nat (length acc) + 8 * N.of_nat n).
Proof.
  induction n as [|n IH]; intros size acc inp x rest H Hs; cbn [decode_bits_loop] in H.
  - inversion H; subst. lia.
  - destruct inp as [|b r]; cbn [read_byte bind] in H; [discriminate|].
    apply IH in H; rewrite app_length, firstn_length, byte_bits_length in *; lia.
Qed.

Lemma decode_bits_fixed_local : forall n inp x rest, decode_bits_fixed n inp = Ok (x, rest) ->
  exists used, inp = used ++ rest /\ (forall r, decode_bits_fixed n (used ++ r) = Ok (x, r)) /\
    n <= bitvec_max_bits /\ N.of_nat (length x) = n.
Proof.
  intros n inp x rest H. unfold decode_bits_fixed in *.
  destruct (N.ltb_spec bitvec_max_bits n); [discriminate|].
  pose proof (decode_bits_loop_len _ _ _ _ _ _ H ltac:(simpl; lia)) as Hl.
  apply decode_bits_loop_local in H as (used & _ & -> & Hu). exists used. repeat split; try assumption.
  cbn [length] in Hl. lia.
Qed.

Lemma decode_bits_fixed_ne_panic : forall n inp, n <= bitvec_max_bits -> decode_bits_fixed n inp <> Panic.
Proof.
  intros n inp Hn. unfold decode_bits_fixed. destruct (N.ltb_spec bitvec_max_bits n); [lia|].
  generalize (N.to_nat ((n + 7) / 8)) as k, (@nil bool) as acc. intros k. revert inp.
  induction k as [|k IH]; intros [|b r] acc; cbn [decode_bits_loop read_byte bind]; try discriminate.
  apply IH.
Qed.

Lemma decode_bits_loop_full : forall n size acc inp x rest, Bytes inp ->
  size = N.of_nat (length acc) + 8 * N.of_nat n ->
  decode_bits_loop n size acc inp = Ok (x, rest) ->
  exists bits, x = acc ++ bits /\ inp = pack_bits bits ++ rest.
Proof.
  induction n as [|n IH]; intros size acc inp x rest HB Hs H; cbn [decode_bits_loop] in H.
  - inversion H; subst. exists []. rewrite app_nil_r. split; reflexivity.
  - destruct inp as [|b r]; cbn [read_byte bind] in H; [discriminate|].
    inversion_clear HB as [|? ? Hb HB'].
    replace (N.to_nat (N.min 8 (size - N.of_nat (length acc)))) with 8%nat in H by lia.
    change (firstn 8 (byte_bits b)) with (byte_bits b) in H.
    apply IH in H as (bits & -> & ->); [|assumption|rewrite app_length, byte_bits_length; lia].
    exists (byte_bits b ++ bits). split; [now rewrite app_assoc|].
    destruct (pack_chunk (byte_bits b) bits (byte_bits_length b)) as (-> & _).
    now rewrite byte_of_byte_bits.
Qed.

(** * Reading raw bytes *)
Lemma read_exact_ok : forall bs rest, read_exact (length bs) (bs ++ rest) = Ok (bs, rest).
Proof.
  intros. unfold read_exact. rewrite app_length.
  destruct (Nat.ltb_spec (length bs + length rest) (length bs)); [lia|].
  now rewrite firstn_app_exact, skipn_app_exact.
Qed.

Lemma read_exact_inv : forall n inp x rest, read_exact n inp = Ok (x, rest) -> inp = x ++ rest /\ length x = n.
Proof.
  unfold read_exact. intros n inp x rest H. destruct (Nat.ltb_spec (length inp) n); [discriminate|].
  inversion H; subst. rewrite firstn_skipn, firstn_length. split; [reflexivity|lia].
Qed.

Lemma read_exact_N_eq : forall n inp, read_exact_N n inp = read_exact (N.to_nat n) inp.
Proof.
  intros. unfold read_exact_N, read_exact.
  destruct (N.ltb_spec (N.of_nat (length inp)) n); destruct (Nat.ltb_spec (length inp) (N.to_nat n));
    try lia; reflexivity.
Qed.

(** * Round trip *)
Definition RT {A} (P : A -> Prop) (enc : A -> result cerr bytes) (d : dec A) : Prop :=
  forall v, P v -> exists bs, enc v = Ok bs /\ Bytes bs /\ forall rest, d (bs ++ rest) = Ok (v, rest).

Lemma RT_seq : forall A (P : A -> Prop) enc d, RT P enc d ->
  forall l, Forall P l -> exists bs, encode_seq enc l = Ok bs /\ Bytes bs /\
    forall rest, decode_seq d (length l) (bs ++ rest) = Ok (l, rest).
Proof.
  intros A P enc d H l HF. induction HF as [|a l Ha HF IH].
  - exists []. repeat split. constructor.
  - destruct (H a Ha) as (b1 & E1 & B1 & D1). destruct IH as (b2 & E2 & B2 & D2).
    exists (b1 ++ b2). cbn [encode_seq]. rewrite E1. cbn [bind]. rewrite E2. cbn [bind].
    repeat split; [now apply Forall_app|]. intros rest. cbn [length decode_seq].
    rewrite <- app_assoc, D1. cbn [bind]. rewrite D2. reflexivity.
Qed.

Lemma RT_map : forall K V (c : K -> K -> comparison) (PK : K -> Prop) (PV : V -> Prop) ek dk ev dv,
  OrdOk c -> RT PK ek dk -> RT PV ev dv ->
  forall m2 m1, Forall (fun p => PK (fst p) /\ PV (snd p)) m2 -> increasing c (map fst (m1 ++ m2)) ->
  exists bs, encode_seq (fun p => let! a := ek (fst p) in let! b := ev (snd p) in Ok (a ++ b)) m2 = Ok bs
    /\ Bytes bs
    /\ forall rest, decode_map_loop c dk dv (length m2) m1 (bs ++ rest) = Ok (m1 ++ m2, rest).
Proof.
  intros K V c PK PV ek dk ev dv O HK HV m2.
  induction m2 as [|[k v] m2 IH]; intros m1 HF HI.
  - exists []. rewrite app_nil_r. repeat split. constructor.
  - inversion_clear HF as [|? ? [Hk Hv] HF']. cbn [fst snd] in *.
    destruct (HK k Hk) as (b1 & E1 & B1 & D1). destruct (HV v Hv) as (b2 & E2 & B2 & D2).
    destruct (IH (m1 ++ [(k, v)])) as (b3 & E3 & B3 & D3); [assumption|now rewrite <- app_assoc|].
    exists ((b1 ++ b2) ++ b3). cbn [encode_seq fst snd]. rewrite E1. cbn [bind]. rewrite E2. cbn [bind].
    rewrite E3. cbn [bind]. repeat split.
    { apply Forall_app; split; [now apply Forall_app|assumption]. }
    intros rest. cbn [length decode_map_loop]. rewrite <- !app_assoc, D1. cbn [bind]. rewrite D2. cbn [bind].
    rewrite (map_insert_last _ O).
    + rewrite D3. now rewrite <- app_assoc.
    + rewrite map_app in HI. apply increasing_app in HI as (_ & _ & H3).
      apply Forall_forall. intros q Hq. apply H3; [assumption|]. now left.
Qed.

Lemma RT_set : forall K (c : K -> K -> comparison) (PK : K -> Prop) ek dk,
  OrdOk c -> RT PK ek dk ->
  forall m2 m1, Forall PK m2 -> increasing c (m1 ++ m2) ->
  exists bs, encode_seq ek m2 = Ok bs /\ Bytes bs
    /\ forall rest, decode_set_loop c dk (length m2) m1 (bs ++ rest) = Ok (m1 ++ m2, rest).
Proof.
  intros K c PK ek dk O HK m2.
  induction m2 as [|k m2 IH]; intros m1 HF HI.
  - exists []. rewrite app_nil_r. repeat split. constructor.
  - inversion_clear HF as [|? ? Hk HF'].
    destruct (HK k Hk) as (b1 & E1 & B1 & D1).
    destruct (IH (m1 ++ [k])) as (b3 & E3 & B3 & D3); [assumption|now rewrite <- app_assoc|].
    exists (b1 ++ b3). cbn [encode_seq]. rewrite E1. cbn [bind]. rewrite E3. cbn [bind]. repeat split.
    { now apply Forall_app. }
    intros rest. cbn [length decode_set_loop]. rewrite <- !app_assoc, D1. cbn [bind].
    rewrite (set_insert_last _ O).
    + rewrite D3. now rewrite <- app_assoc.
    + apply increasing_app in HI as (_ & _ & H3).
      apply Forall_forall. intros x Hx. apply H3; [assumption|]. now left.
Qed.

Lemma len_roundtrip : forall n rest, n < 2 ^ 64 -> integer_decode 64 (integer_encode n ++ rest) = Ok (n, rest).
Proof. intros. now apply integer_roundtrip. Qed.

Lemma bitvec_max_lt : bitvec_max_bits < 2 ^ 64.
Proof. now vm_compute. Qed.
Lemma isize_max_lt : isize_max < 2 ^ 64.
Proof. now vm_compute. Qed.

Theorem codec_RT : forall t, ty_ok t -> RT (wf t) (encode t) (decode t).
Proof.
  induction t; intros Hok v Hwf; cbn [ty_ok wf interp encode decode] in *; fold interp in *.
  - (* TUnit *) destruct v. exists []. repeat split. constructor.
  - (* TUint *) exists (integer_encode v). repeat split.
    + apply integer_encode_Bytes. apply N.lt_le_trans with (2 ^ w); [assumption|]. apply N.pow_le_mono_r; lia.
    + intros. apply integer_roundtrip; [lia|assumption].
  - (* TFix *) exists (le_bytes k v). repeat split.
    + apply encode_fixed_ok_iff. repeat split; [lia|assumption].
    + apply le_bytes_Bytes.
    + intros. apply decode_fixed_ok; [lia|lia|assumption].
  - (* TByteArr *) destruct Hwf as [HB Hl]. exists v. repeat split; [assumption|].
    intros. rewrite <- Hl. apply read_exact_ok.
  - (* TOctets *) destruct Hwf as [HB Hl]. exists (integer_encode (N.of_nat (length v)) ++ v).
    pose proof isize_max_lt. repeat split.
    + apply Forall_app. split; [apply integer_encode_Bytes; lia|assumption].
    + intros. rewrite <- app_assoc, len_roundtrip by lia. cbn [bind].
      unfold alloc_ok. destruct (N.leb_spec (N.of_nat (length v) * 1) isize_max); [|lia].
      rewrite read_exact_N_eq, Nat2N.id. apply read_exact_ok.
  - (* TTagged *) destruct Hok as [Hk Hok]. destruct v as [v|i].
    + destruct (IHt Hok v Hwf) as (bs & E & B & D). exists (integer_encode 0 ++ bs).
      rewrite E. cbn [bind]. repeat split.
      * apply Forall_app. split; [apply integer_encode_Bytes; simpl; lia|assumption].
      * intros. rewrite <- app_assoc, integer_roundtrip by (simpl; lia). cbn [bind N.eqb]. now rewrite D.
    + assert (Hi : i < 2 ^ 8) by (change (2 ^ 8) with 256; lia).
      assert (2 ^ 8 < 2 ^ 64) by reflexivity.
      exists (integer_encode i). repeat split; [apply integer_encode_Bytes; lia|].
      intros. rewrite integer_roundtrip by (assumption || lia). cbn [bind].
      destruct (N.eqb_spec i 0); [lia|]. destruct (N.leb_spec i k); [reflexivity|lia].
  - (* TIdx15 *) destruct v as [tag i]. cbn [fst snd] in *. change (2 ^ 15) with 32768 in *.
    change (2 ^ 16) with 65536.
    set (x := if tag then (i + 32768) mod 65536 else i).
    assert (Hx : x < 65536) by (subst x; destruct tag; lia).
    exists (le_bytes 2 x). repeat split.
    + apply encode_fixed_ok_iff. repeat split; [lia|]. exact Hx.
    + apply le_bytes_Bytes.
    + intros. rewrite decode_fixed_ok; [|lia|simpl; lia|exact Hx]. cbn [bind].
      subst x. destruct tag.
      * destruct (N.leb_spec 32768 ((i + 32768) mod 65536)); [|lia]. f_equal. f_equal. f_equal. lia.
      * destruct (N.leb_spec 32768 i); [lia|]. reflexivity.
  - (* TBool *) exists [if v then 1 else 0]. repeat split.
    + repeat constructor. destruct v; now vm_compute.
    + intros. destruct v; reflexivity.
  - (* TOption *) destruct v as [v|].
    + destruct (IHt Hok v Hwf) as (bs & E & B & D). exists (integer_encode 1 ++ bs).
      rewrite E. cbn [bind]. repeat split.
      * apply Forall_app. split; [repeat constructor|assumption].
      * intros. change (integer_encode 1) with [1]. cbn [app read_byte bind N.eqb Pos.eqb]. now rewrite D.
    + exists [0]. repeat split; repeat constructor.
  - (* TArr *) destruct Hwf as [HF Hl]. destruct (RT_seq _ _ _ _ (IHt Hok) v HF) as (bs & E & B & D).
    exists bs. repeat split; try assumption. intros. rewrite <- Hl. apply D.
  - (* TVec *) destruct Hwf as (HF & Hl & Hm). destruct (RT_seq _ _ _ _ (IHt Hok) v HF) as (bs & E & B & D).
    exists (integer_encode (N.of_nat (length v)) ++ bs). rewrite E. cbn [bind]. repeat split.
    + apply Forall_app. split; [now apply integer_encode_Bytes|assumption].
    + intros. rewrite <- app_assoc, len_roundtrip by assumption. cbn [bind]. unfold alloc_ok.
      destruct (N.leb_spec (N.of_nat (length v) * esz) isize_max) as [Hx|Hx]; [|exfalso; exact (N.lt_irrefl _ (N.lt_le_trans _ _ _ Hx Hm))]. rewrite Nat2N.id. apply D.
  - (* TLim *) destruct Hwf as (HF & Hl & Hm & Hmax).
    destruct (RT_seq _ _ _ _ (IHt Hok) v HF) as (bs & E & B & D).
    exists (integer_encode (N.of_nat (length v)) ++ bs). rewrite E. cbn [bind]. repeat split.
    + apply Forall_app. split; [now apply integer_encode_Bytes|assumption].
    + intros. rewrite <- app_assoc, len_roundtrip by assumption. cbn [bind]. unfold alloc_ok.
      destruct (N.ltb_spec max (N.of_nat (length v))) as [Hy|Hy]; [exfalso; exact (N.lt_irrefl _ (N.lt_le_trans _ _ _ Hy Hmax))|].
      destruct (N.leb_spec (N.of_nat (length v) * esz) isize_max) as [Hx|Hx]; [|exfalso; exact (N.lt_irrefl _ (N.lt_le_trans _ _ _ Hx Hm))]. rewrite Nat2N.id. apply D.
  - (* TBits *) exists (integer_encode (N.of_nat (length v)) ++ pack_bits v).
    pose proof bitvec_max_lt. unfold encode_bits_fixed. rewrite N.eqb_refl. cbn [bind]. repeat split.
    + apply Forall_app. split; [apply integer_encode_Bytes; lia|apply pack_bits_Bytes].
    + intros. rewrite <- app_assoc, len_roundtrip by lia. cbn [bind]. now apply decode_bits_fixed_ok.
  - (* TBitsFix *) subst n. exists (pack_bits v). unfold encode_bits_fixed. rewrite N.eqb_refl. repeat split.
    + apply pack_bits_Bytes.
    + intros. now apply decode_bits_fixed_ok.
  - (* TMap *) destruct Hok as [Ok1 Ok2]. destruct Hwf as (HF & Hl & HI).
    destruct (RT_map _ _ _ _ _ _ _ _ _ (ord_ty t1) (IHt1 Ok1) (IHt2 Ok2) v [] HF HI) as (bs & E & B & D).
    exists (integer_encode (N.of_nat (length v)) ++ bs). rewrite E. cbn [bind]. repeat split.
    + apply Forall_app. split; [now apply integer_encode_Bytes|assumption].
    + intros. rewrite <- app_assoc, len_roundtrip by assumption. cbn [bind]. rewrite Nat2N.id. apply D.
  - (* TSet *) destruct Hwf as (HF & Hl & HI).
    destruct (RT_set _ _ _ _ _ (ord_ty t) (IHt Hok) v [] HF HI) as (bs & E & B & D).
    exists (integer_encode (N.of_nat (length v)) ++ bs). rewrite E. cbn [bind]. repeat split.
    + apply Forall_app. split; [now apply integer_encode_Bytes|assumption].
    + intros. rewrite <- app_assoc, len_roundtrip by assumption. cbn [bind]. rewrite Nat2N.id. apply D.
  - (* TPair *) destruct Hok as [Ok1 Ok2]. destruct v as [a b]. destruct Hwf as [Ha Hb]. cbn [fst snd] in *.
    destruct (IHt1 Ok1 a Ha) as (b1 & E1 & B1 & D1). destruct (IHt2 Ok2 b Hb) as (b2 & E2 & B2 & D2).
    exists (b1 ++ b2). rewrite E1. cbn [bind]. rewrite E2. cbn [bind]. repeat split.
    + now apply Forall_app.
    + intros. rewrite <- app_assoc, D1. cbn [bind]. rewrite D2. reflexivity.
Qed.

Lemma codec_roundtrip : forall t v, ty_ok t -> wf t v ->
  exists bs, encode t v = Ok bs /\ Bytes bs /\ forall rest, decode t (bs ++ rest) = Ok (v, rest).
Proof. intros t v H1 H2. exact (codec_RT t H1 v H2). Qed.

Lemma codec_prefix_free : forall t v1 v2 b1 b2 r, ty_ok t -> wf t v1 -> wf t v2 ->
  encode t v1 = Ok b1 -> encode t v2 = Ok b2 -> b1 = b2 ++ r -> v1 = v2 /\ r = [].
Proof.
  intros t v1 v2 b1 b2 r Hok W1 W2 E1 E2 H.
  destruct (codec_RT t Hok v1 W1) as (c1 & F1 & _ & D1). rewrite E1 in F1; inversion F1; subst c1.
  destruct (codec_RT t Hok v2 W2) as (c2 & F2 & _ & D2). rewrite E2 in F2; inversion F2; subst c2.
  specialize (D1 []). rewrite app_nil_r, H, D2 in D1. inversion D1; auto.
Qed.

(** * Locality and well-formedness of whatever is accepted *)
Definition LOC {A} (P : A -> Prop) (d : dec A) : Prop :=
  forall inp v rest, Bytes inp -> d inp = Ok (v, rest) ->
    P v /\ exists used, inp = used ++ rest /\ forall r, d (used ++ r) = Ok (v, r).

Lemma LOC_seq : forall A (P : A -> Prop) d, LOC P d -> forall n inp v rest, Bytes inp ->
  decode_seq d n inp = Ok (v, rest) ->
  Forall P v /\ length v = n /\ exists used, inp = used ++ rest /\ forall r, decode_seq d n (used ++ r) = Ok (v, r).
Proof.
  intros A P d H. induction n as [|n IH]; intros inp v rest HB Hd; cbn [decode_seq] in Hd.
  - inversion Hd; subst. repeat split; [constructor|]. exists []. split; reflexivity.
  - destruct (d inp) as [[a r]| |] eqn:E; cbn [bind] in Hd; try discriminate.
    apply H in E as (Pa & u1 & -> & D1); [|assumption].
    apply Forall_app in HB as [HB1 HB2].
    destruct (decode_seq d n r) as [[l r']| |] eqn:E2; cbn [bind] in Hd; try discriminate.
    apply IH in E2 as (Pl & Hl & u2 & -> & D2); [|assumption]. inversion Hd; subst.
    repeat split; [now constructor|]. exists (u1 ++ u2). split; [now rewrite app_assoc|].
    intros r. cbn [decode_seq]. rewrite <- app_assoc, D1. cbn [bind]. rewrite D2. reflexivity.
Qed.

Lemma LOC_map : forall K V (c : K -> K -> comparison) (PK : K -> Prop) (PV : V -> Prop) dk dv,
  OrdOk c -> LOC PK dk -> LOC PV dv ->
  forall n m inp v rest, Bytes inp -> Forall (fun p => PK (fst p) /\ PV (snd p)) m -> increasing c (map fst m) ->
  decode_map_loop c dk dv n m inp = Ok (v, rest) ->
  Forall (fun p => PK (fst p) /\ PV (snd p)) v /\ increasing c (map fst v) /\
  (length v <= length m + n)%nat /\
  exists used, inp = used ++ rest /\ forall r, decode_map_loop c dk dv n m (used ++ r) = Ok (v, r).
Proof.
  intros K V c PK PV dk dv O HK HV. induction n as [|n IH]; intros m inp v rest HB HF HI Hd;
    cbn [decode_map_loop] in Hd.
  - inversion Hd; subst. repeat split; [assumption|assumption|lia|]. exists []. split; reflexivity.
  - destruct (dk inp) as [[k r]| |] eqn:E; cbn [bind] in Hd; try discriminate.
    apply HK in E as (Pk & u1 & -> & D1); [|assumption]. apply Forall_app in HB as [HB1 HB2].
    destruct (dv r) as [[x r']| |] eqn:E2; cbn [bind] in Hd; try discriminate.
    apply HV in E2 as (Pv & u2 & -> & D2); [|assumption]. apply Forall_app in HB2 as [HB2 HB3].
    apply IH in Hd as (F & I & L & u3 & -> & D3); [|assumption| |].
    2:{ apply map_insert_Forall; try assumption.
        - intros k' v' [Ha Hb] _. cbn [fst snd] in *. now split.
        - now split. }
    2:{ now apply map_insert_increasing. }
    pose proof (map_insert_len c O k x m) as HL.
    repeat split; [assumption|assumption|lia|]. exists (u1 ++ u2 ++ u3).
    split; [now rewrite !app_assoc|]. intros r. cbn [decode_map_loop].
    rewrite <- !app_assoc, D1. cbn [bind]. rewrite D2. cbn [bind]. apply D3.
Qed.

Lemma LOC_set : forall K (c : K -> K -> comparison) (PK : K -> Prop) dk,
  OrdOk c -> LOC PK dk ->
  forall n m inp v rest, Bytes inp -> Forall PK m -> increasing c m ->
  decode_set_loop c dk n m inp = Ok (v, rest) ->
  Forall PK v /\ increasing c v /\ (length v <= length m + n)%nat /\
  exists used, inp = used ++ rest /\ forall r, decode_set_loop c dk n m (used ++ r) = Ok (v, r).
Proof.
  intros K c PK dk O HK. induction n as [|n IH]; intros m inp v rest HB HF HI Hd;
    cbn [decode_set_loop] in Hd.
  - inversion Hd; subst. repeat split; [assumption|assumption|lia|]. exists []. split; reflexivity.
  - destruct (dk inp) as [[k r]| |] eqn:E; cbn [bind] in Hd; try discriminate.
    apply HK in E as (Pk & u1 & -> & D1); [|assumption]. apply Forall_app in HB as [HB1 HB2].
    apply IH in Hd as (F & I & L & u3 & -> & D3); [|assumption| |].
    2:{ apply Forall_forall. intros y Hy. apply (set_insert_In c O) in Hy as [->|Hy]; [assumption|].
        rewrite Forall_forall in HF. now apply HF. }
    2:{ now apply set_insert_increasing. }
    pose proof (set_insert_len c O k m) as HL.
    repeat split; [assumption|assumption|lia|]. exists (u1 ++ u3).
    split; [now rewrite !app_assoc|]. intros r. cbn [decode_set_loop].
    rewrite <- !app_assoc, D1. cbn [bind]. apply D3.
Qed.

Ltac dint H n r u D Hr :=
  match type of H with
  | context [bind (integer_decode ?w ?inp) _] =>
      let E := fresh "E" in
      destruct (integer_decode w inp) as [[n r]| |] eqn:E; cbn [bind] in H; try discriminate H;
      pose proof (integer_decode_range _ _ _ _ E) as Hr;
      apply integer_decode_local in E as (u & _ & -> & D)
  end.

Theorem codec_LOC : forall t, ty_ok t -> LOC (wf t) (decode t).
Proof.
  induction t; intros Hok inp v rest HB H; cbn [ty_ok wf interp decode] in *; fold interp in *.
  - inversion H; subst. split; [exact I|]. exists []. split; reflexivity.
  - pose proof (integer_decode_range _ _ _ _ H) as Hr. split; [assumption|].
    apply integer_decode_local in H as (u & _ & -> & D). exists u. split; [reflexivity|assumption].
  - pose proof (decode_fixed_inv _ _ _ _ _ HB H) as (H1 & H2 & H3 & H4). split; [assumption|].
    now apply decode_fixed_local in H.
  - apply read_exact_inv in H as [-> Hl]. apply Forall_app in HB as [HB1 HB2].
    split; [split; assumption|]. exists v. split; [reflexivity|]. intros. rewrite <- Hl. apply read_exact_ok.
  - dint H n r u D Hr. unfold alloc_ok in H. destruct (N.leb_spec (n * 1) isize_max) as [Ha|Ha]; [|discriminate].
    rewrite read_exact_N_eq in H. apply read_exact_inv in H as [-> Hl].
    apply Forall_app in HB as [HB1 HB2]. apply Forall_app in HB2 as [HB2 HB3].
    split; [split; [assumption|lia]|]. exists (u ++ v). split; [now rewrite app_assoc|].
    intros r. rewrite <- app_assoc, D. cbn [bind]. unfold alloc_ok.
    destruct (N.leb_spec (n * 1) isize_max); [|lia]. rewrite read_exact_N_eq, <- Hl. apply read_exact_ok.
  - destruct Hok as [Hk Hok]. dint H tag r u D Hr. apply Forall_app in HB as [HB1 HB2].
    destruct (N.eqb_spec tag 0).
    + destruct (decode t r) as [[w r']| |] eqn:E; cbn [bind] in H; try discriminate. inversion H; subst.
      apply (IHt Hok) in E as (Hw & u2 & -> & D2); [|assumption]. split; [assumption|].
      exists (u ++ u2). split; [now rewrite app_assoc|]. intros r. rewrite <- app_assoc, D. cbn [bind N.eqb].
      rewrite D2. reflexivity.
    + destruct (N.leb_spec tag k); [|discriminate]. inversion H; subst. split; [lia|].
      exists u. split; [reflexivity|]. intros r. rewrite D. cbn [bind].
      destruct (N.eqb_spec tag 0); [lia|]. destruct (N.leb_spec tag k); [reflexivity|lia].
  - destruct (decode_fixed 16 2 inp) as [[x r]| |] eqn:E; cbn [bind] in H; try discriminate.
    pose proof (decode_fixed_inv _ _ _ _ _ HB E) as (H1 & H2 & H3 & H4).
    apply decode_fixed_local in E as (u & -> & D). change (2 ^ 15) with 32768 in *.
    change (2 ^ 16) with 65536 in H4. destruct (N.leb_spec 32768 x) as [Hx|Hx]; inversion H; subst.
    + cbn [snd]. split; [lia|]. exists u. split; [reflexivity|]. intros r. rewrite D. cbn [bind].
      destruct (N.leb_spec 32768 x); [reflexivity|lia].
    + cbn [snd]. split; [lia|]. exists u. split; [reflexivity|]. intros r. rewrite D. cbn [bind].
      destruct (N.leb_spec 32768 x); [lia|reflexivity].
  - destruct inp as [|b r]; cbn [read_byte bind] in H; [discriminate|]. split; [exact I|].
    exists [b]. destruct (b =? 0) eqn:E0; [|destruct (b =? 1) eqn:E1; [|discriminate]]; inversion H; subst.
    + split; [reflexivity|]. intros r. cbn [app read_byte bind]. now rewrite E0.
    + split; [reflexivity|]. intros r. cbn [app read_byte bind]. now rewrite E0, E1.
  - destruct inp as [|b r]; cbn [read_byte bind] in H; [discriminate|].
    inversion_clear HB as [|? ? Hb HB'].
    destruct (b =? 0) eqn:E0; [|destruct (b =? 1) eqn:E1; [|discriminate]].
    + inversion H; subst. split; [exact I|]. exists [b]. split; [reflexivity|].
      intros r. cbn [app read_byte bind]. now rewrite E0.
    + destruct (decode t r) as [[w r']| |] eqn:E; cbn [bind] in H; try discriminate. inversion H; subst.
      apply (IHt Hok) in E as (Hw & u2 & -> & D2); [|assumption]. split; [assumption|].
      exists (b :: u2). split; [reflexivity|]. intros r. cbn [app read_byte bind]. rewrite E0, E1, D2. reflexivity.
  - apply (LOC_seq _ _ _ (IHt Hok)) in H as (F & L & u & -> & D); [|assumption].
    split; [split; assumption|]. exists u. split; [reflexivity|assumption].
  - dint H n r u D Hr. apply Forall_app in HB as [HB1 HB2].
    unfold alloc_ok in *. destruct (N.leb_spec (n * esz) isize_max) as [Ha|Ha]; [|discriminate].
    apply (LOC_seq _ _ _ (IHt Hok)) in H as (F & L & u2 & -> & D2); [|assumption].
    split; [repeat split; [assumption|lia|replace (N.of_nat (length v)) with n by lia; assumption]|].
    exists (u ++ u2). split; [now rewrite app_assoc|]. intros r. rewrite <- app_assoc, D. cbn [bind].
    destruct (N.leb_spec (n * esz) isize_max); [apply D2|lia].
  - dint H n r u D Hr. apply Forall_app in HB as [HB1 HB2].
    destruct (N.ltb_spec max n) as [Hm|Hm]; [discriminate|].
    unfold alloc_ok in *. destruct (N.leb_spec (n * esz) isize_max) as [Ha|Ha]; [|discriminate].
    apply (LOC_seq _ _ _ (IHt Hok)) in H as (F & L & u2 & -> & D2); [|assumption].
    split; [repeat split; [assumption|lia|replace (N.of_nat (length v)) with n by lia; assumption|lia]|].
    exists (u ++ u2). split; [now rewrite app_assoc|]. intros r. rewrite <- app_assoc, D. cbn [bind].
    destruct (N.ltb_spec max n); [lia|].
    destruct (N.leb_spec (n * esz) isize_max); [apply D2|lia].
  - dint H n r u D Hr. apply decode_bits_fixed_local in H as (u2 & -> & D2 & Hm & Hl).
    split; [lia|]. exists (u ++ u2). split; [now rewrite app_assoc|]. intros r. rewrite <- app_assoc, D.
    cbn [bind]. apply D2.
  - apply decode_bits_fixed_local in H as (u2 & -> & D2 & Hm & Hl). split; [assumption|].
    exists u2. split; [reflexivity|assumption].
  - destruct Hok as [Ok1 Ok2]. dint H n r u D Hr. apply Forall_app in HB as [HB1 HB2].
    apply (LOC_map _ _ _ _ _ _ _ (ord_ty t1) (IHt1 Ok1) (IHt2 Ok2)) in H
      as (F & I & L & u2 & -> & D2); [|assumption|constructor|apply increasing_nil].
    split; [repeat split; [assumption|cbn [length] in L; lia|assumption]|].
    exists (u ++ u2). split; [now rewrite app_assoc|]. intros r. rewrite <- app_assoc, D. cbn [bind]. apply D2.
  - dint H n r u D Hr. apply Forall_app in HB as [HB1 HB2].
    apply (LOC_set _ _ _ _ (ord_ty t) (IHt Hok)) in H
      as (F & I & L & u2 & -> & D2); [|assumption|constructor|apply increasing_nil].
    split; [repeat split; [assumption|cbn [length] in L; lia|assumption]|].
    exists (u ++ u2). split; [now rewrite app_assoc|]. intros r. rewrite <- app_assoc, D. cbn [bind]. apply D2.
  - destruct Hok as [Ok1 Ok2].
    destruct (decode t1 inp) as [[x r]| |] eqn:E; cbn [bind] in H; try discriminate.
    apply (IHt1 Ok1) in E as (Wx & u1 & -> & D1); [|assumption]. apply Forall_app in HB as [HB1 HB2].
    destruct (decode t2 r) as [[y r']| |] eqn:E2; cbn [bind] in H; try discriminate.
    apply (IHt2 Ok2) in E2 as (Wy & u2 & -> & D2); [|assumption]. inversion H; subst.
    split; [split; assumption|]. exists (u1 ++ u2). split; [now rewrite app_assoc|].
    intros r. rewrite <- app_assoc, D1. cbn [bind]. rewrite D2. reflexivity.
Qed.

Lemma codec_local : forall t inp v rest, ty_ok t -> Bytes inp -> decode t inp = Ok (v, rest) ->
  wf t v /\ exists used, inp = used ++ rest /\ forall r, decode t (used ++ r) = Ok (v, r).
Proof. intros t inp v rest H1 H2 H3. exact (codec_LOC t H1 inp v rest H2 H3). Qed.

(** * Canonicity of the rigid fragment *)
Definition CAN {A} (enc : A -> result cerr bytes) (d : dec A) : Prop :=
  forall inp v rest, Bytes inp -> d inp = Ok (v, rest) -> exists bs, enc v = Ok bs /\ inp = bs ++ rest.

Lemma CAN_seq : forall A enc (d : dec A), CAN enc d -> forall n inp v rest, Bytes inp ->
  decode_seq d n inp = Ok (v, rest) -> exists bs, encode_seq enc v = Ok bs /\ inp = bs ++ rest.
Proof.
  intros A enc d H. induction n as [|n IH]; intros inp v rest HB Hd; cbn [decode_seq] in Hd.
  - inversion Hd; subst. exists []. split; reflexivity.
  - destruct (d inp) as [[a r]| |] eqn:E; cbn [bind] in Hd; try discriminate.
    apply H in E as (b1 & E1 & ->); [|assumption]. apply Forall_app in HB as [HB1 HB2].
    destruct (decode_seq d n r) as [[l r']| |] eqn:E2; cbn [bind] in Hd; try discriminate.
    apply IH in E2 as (b2 & E2 & ->); [|assumption]. inversion Hd; subst.
    exists (b1 ++ b2). cbn [encode_seq]. rewrite E1. cbn [bind]. rewrite E2. cbn [bind].
    split; [reflexivity|now rewrite app_assoc].
Qed.

Theorem rigid_CAN : forall t, ty_ok t -> rigid t -> CAN (encode t) (decode t).
Proof.
  induction t; intros Hok Hr inp v rest HB H; cbn [rigid ty_ok interp decode encode] in *; fold interp in *; try contradiction.
  - inversion H; subst. exists []. split; reflexivity.
  - pose proof (decode_fixed_inv _ _ _ _ _ HB H) as (H1 & H2 & H3 & H4).
    exists (le_bytes k v). split; [|assumption]. apply encode_fixed_ok_iff. repeat split; [lia|assumption].
  - apply read_exact_inv in H as [-> Hl]. exists v. split; reflexivity.
  - destruct (decode_fixed 16 2 inp) as [[x r]| |] eqn:E; cbn [bind] in H; try discriminate.
    pose proof (decode_fixed_inv _ _ _ _ _ HB E) as (H1 & H2 & H3 & H4).
    change (2 ^ 15) with 32768 in *. change (2 ^ 16) with 65536 in *.
    exists (le_bytes 2 x). destruct (N.leb_spec 32768 x) as [Hx|Hx]; inversion H; subst; cbn [fst snd].
    + replace ((x - 32768 + 32768) mod 65536) with x by lia. split; [|reflexivity].
      apply encode_fixed_ok_iff. repeat split; [lia|exact H4].
    + split; [|reflexivity]. apply encode_fixed_ok_iff. repeat split; [lia|exact H4].
  - destruct inp as [|b r]; cbn [read_byte bind] in H; [discriminate|].
    exists [b]. destruct (N.eqb_spec b 0); [|destruct (N.eqb_spec b 1); [|discriminate]];
      inversion H; subst; split; reflexivity.
  - destruct inp as [|b r]; cbn [read_byte bind] in H; [discriminate|].
    inversion_clear HB as [|? ? Hb HB'].
    destruct (N.eqb_spec b 0); [|destruct (N.eqb_spec b 1); [|discriminate]].
    + inversion H; subst. exists [0]. split; reflexivity.
    + destruct (decode t r) as [[w r']| |] eqn:E; cbn [bind] in H; try discriminate. inversion H; subst.
      apply (IHt Hok Hr) in E as (bs & E & ->); [|assumption]. exists (1 :: bs). rewrite E. cbn [bind].
      split; reflexivity.
  - apply (CAN_seq _ _ _ (IHt Hok Hr)) in H; assumption.
  - unfold decode_bits_fixed in H. destruct (N.ltb_spec bitvec_max_bits n); [discriminate|].
    pose proof H as H9. apply decode_bits_loop_full in H as (bits & -> & ->); [|assumption|cbn [length]; lia].
    cbn [app]. exists (pack_bits bits). split; [|reflexivity]. unfold encode_bits_fixed.
    destruct (decode_bits_fixed_local n (pack_bits bits ++ rest) bits rest) as (_ & _ & _ & _ & Hl).
    { unfold decode_bits_fixed. destruct (N.ltb_spec bitvec_max_bits n); [lia|exact H9]. }
    rewrite Hl, N.eqb_refl. reflexivity.
  - destruct Hok as [Ok1 Ok2]. destruct Hr as [R1 R2].
    destruct (decode t1 inp) as [[x r]| |] eqn:E; cbn [bind] in H; try discriminate.
    apply (IHt1 Ok1 R1) in E as (b1 & E1 & ->); [|assumption]. apply Forall_app in HB as [HB1 HB2].
    destruct (decode t2 r) as [[y r']| |] eqn:E2; cbn [bind] in H; try discriminate.
    apply (IHt2 Ok2 R2) in E2 as (b2 & E2 & ->); [|assumption]. inversion H; subst. cbn [fst snd].
    exists (b1 ++ b2). rewrite E1. cbn [bind]. rewrite E2. cbn [bind]. split; [reflexivity|now rewrite app_assoc].
Qed.

(** * A checker for [wf], used by the examples *)
Fixpoint incb {A} (c : A -> A -> comparison) (l : list A) : bool :=
  match l with
  | [] => true
  | a :: r => forallb (fun b => match c a b with Lt => true | _ => false end) r && incb c r
  end.
Lemma incb_sound : forall A (c : A -> A -> comparison) l, incb c l = true -> increasing c l.
Proof.
  induction l as [|a l IH]; intros H; [apply increasing_nil|]. cbn [incb] in H.
  apply andb_prop in H as [H1 H2]. apply increasing_cons. split; [|auto].
  apply Forall_forall. intros x Hx. rewrite forallb_forall in H1. specialize (H1 x Hx).
  destruct (c a x); congruence.
Qed.
Definition bytesb (l : bytes) : bool := forallb (fun b => b <? 256) l.
Lemma bytesb_sound : forall l, bytesb l = true -> Bytes l.
Proof. intros l H. apply Forall_forall. intros x Hx. unfold bytesb in H. rewrite forallb_forall in H.
  apply N.ltb_lt. now apply H. Qed.

Fixpoint wfb (t : ty) : interp t -> bool :=
  match t return interp t -> bool with
  | TUnit | TBool => fun _ => true
  | TUint w => fun x => x <? 2 ^ w
  | TFix _ k => fun x => x <? 2 ^ (8 * N.of_nat k)
  | TByteArr n => fun b => bytesb b && Nat.eqb (length b) n
  | TOctets => fun b => bytesb b && (N.of_nat (length b) <=? isize_max)
  | TTagged k t => fun r => match r with inl v => wfb t v | inr i => (1 <=? i) && (i <=? k) end
  | TIdx15 => fun p => snd p <? 2 ^ 15
  | TOption t => fun o => match o with None => true | Some v => wfb t v end
  | TArr n t => fun l => forallb (wfb t) l && Nat.eqb (length l) n
  | TVec esz t => fun l =>
      forallb (wfb t) l && ((N.of_nat (length l) <? 2 ^ 64) && (N.of_nat (length l) * esz <=? isize_max))
  | TLim esz max t => fun l =>
      forallb (wfb t) l && ((N.of_nat (length l) <? 2 ^ 64) && ((N.of_nat (length l) * esz <=? isize_max)
      && (N.of_nat (length l) <=? max)))
  | TBits => fun l => N.of_nat (length l) <=? bitvec_max_bits
  | TBitsFix n => fun l => N.of_nat (length l) =? n
  | TSet t => fun l => forallb (wfb t) l && ((N.of_nat (length l) <? 2 ^ 64) && incb (cmp t) l)
  | TMap k v => fun m =>
      forallb (fun p => wfb k (fst p) && wfb v (snd p)) m && ((N.of_nat (length m) <? 2 ^ 64)
      && incb (cmp k) (map fst m))
  | TPair a b => fun p => wfb a (fst p) && wfb b (snd p)
  end.

Lemma forallb_Forall : forall A (f : A -> bool) (P : A -> Prop) l,
  (forall x, f x = true -> P x) -> forallb f l = true -> Forall P l.
Proof. intros A f P l H Hf. apply Forall_forall. intros x Hx. rewrite forallb_forall in Hf. auto. Qed.

Lemma wfb_sound : forall t v, wfb t v = true -> wf t v.
Proof.
  induction t; intros v H; cbn [wfb wf interp] in *; fold interp in *;
    repeat match goal with H : _ && _ = true |- _ => apply andb_prop in H as [? ?] end;
    repeat match goal with
    | H : (_ <? _) = true |- _ => apply N.ltb_lt in H
    | H : (_ <=? _) = true |- _ => apply N.leb_le in H
    | H : (_ =? _) = true |- _ => apply N.eqb_eq in H
    | H : Nat.eqb _ _ = true |- _ => apply Nat.eqb_eq in H
    | H : bytesb _ = true |- _ => apply bytesb_sound in H
    | H : incb _ _ = true |- _ => apply incb_sound in H
    end; try solve [repeat split; auto; eauto using forallb_Forall].
  - destruct v; auto. apply andb_prop in H as [? ?]. split; now apply N.leb_le.
  - destruct v; auto.
  - repeat split; auto. eapply forallb_Forall; [|eassumption]. intros x Hx.
    apply andb_prop in Hx as [? ?]. split; auto.
Qed.
