(** Bits and bytes; the node encoding. *)
From Verif Require Import Base Trie_Model Trie_Spec.

Lemma byte_bits_length : forall b, length (byte_bits b) = 8. Proof. reflexivity. Qed.
Lemma byte_of_snoc : forall l b, byte_of (l ++ [b]) = (2 * byte_of l + if b then 1 else 0)%N.
Proof. intros. unfold byte_of. rewrite fold_left_app. reflexivity. Qed.
Lemma byte_of_byte_bits : forall b, (b < 256)%N -> byte_of (byte_bits b) = b.
Proof.
  intros b Hb. assert (exists n, (n < 256)%nat /\ b = N.of_nat n) as [n [Hn ->]].
  { exists (N.to_nat b). split; lia. }
  clear Hb. do 256 (destruct n as [|n]; [reflexivity|]). lia.
Qed.
Lemma byte_bits_byte_of : forall l, length l = 8 -> byte_bits (byte_of l) = l /\ (byte_of l < 256)%N.
Proof.
  intros l Hl. do 8 (destruct l as [|[|] l]; [discriminate| |]); destruct l; try discriminate; split; reflexivity.
Qed.
Lemma bits_length : forall bs, length (bits bs) = 8 * length bs.
Proof. induction bs; simpl; [reflexivity|]. fold (bits bs). rewrite IHbs. lia. Qed.
Lemma bits_app : forall a b, bits (a ++ b) = bits a ++ bits b.
Proof. intros. apply flat_map_app. Qed.
Lemma bits_cons : forall b bs, bits (b :: bs) = byte_bits b ++ bits bs.
Proof. reflexivity. Qed.
Lemma unbits_from_step : forall n l, l <> [] -> unbits_from (S n) l = byte_of (firstn 8 l) :: unbits_from n (skipn 8 l).
Proof. intros n [|x l] E; [congruence|reflexivity]. Qed.
Lemma unbits_from_bits : forall bs n, Bytes bs -> 8 * length bs <= n -> unbits_from n (bits bs) = bs.
Proof.
  induction bs as [|b bs IH]; intros n Hb Hn.
  - destruct n; reflexivity.
  - simpl length in Hn. destruct n as [|n]; [lia|]. rewrite bits_cons.
    assert (E : byte_bits b ++ bits bs <> []). { intro X. apply (f_equal (@length bool)) in X. rewrite app_length in X. simpl in X. lia. }
    rewrite unbits_from_step by assumption.
    inversion Hb; subst. f_equal.
    + change (firstn 8 (byte_bits b ++ bits bs)) with (byte_bits b). apply byte_of_byte_bits; assumption.
    + change (skipn 8 (byte_bits b ++ bits bs)) with (bits bs). apply IH; [assumption|lia].
Qed.
Lemma unbits_bits : forall bs, Bytes bs -> unbits (bits bs) = bs.
Proof. intros. apply unbits_from_bits; [assumption|]. rewrite bits_length. lia. Qed.
Lemma unbits_from_spec : forall n m l, length l = 8 * n -> length l <= m -> bits (unbits_from m l) = l /\ length (unbits_from m l) = n /\ Bytes (unbits_from m l).
Proof.
  induction n as [|n IH]; intros m l Hl Hm.
  - destruct l; [|discriminate]. destruct m; repeat split; constructor.
  - destruct m as [|m]; [lia|].
    destruct l as [|x l']; [discriminate|]. set (l := x :: l') in *.
    change (unbits_from (S m) l) with (byte_of (firstn 8 l) :: unbits_from m (skipn 8 l)).
    assert (L8 : length (firstn 8 l) = 8). { rewrite firstn_length. lia. }
    destruct (byte_bits_byte_of _ L8) as [E B].
    assert (Ls : length (skipn 8 l) = length l - 8) by apply skipn_length.
    destruct (IH m (skipn 8 l)) as [E1 [E2 E3]]; [lia|lia|].
    split; [|split].
    + rewrite bits_cons, E, E1. apply firstn_skipn.
    + cbn [length]. rewrite E2. reflexivity.
    + constructor; assumption.
Qed.
Lemma bits_unbits : forall n l, length l = 8 * n -> bits (unbits l) = l.
Proof. intros. unfold unbits. eapply unbits_from_spec; eauto. Qed.
Lemma unbits_length : forall n l, length l = 8 * n -> length (unbits l) = n.
Proof. intros. unfold unbits. eapply unbits_from_spec; eauto. Qed.
Lemma unbits_Bytes : forall n l, length l = 8 * n -> Bytes (unbits l).
Proof. intros. unfold unbits. eapply unbits_from_spec; eauto. Qed.
Lemma bits_inj : forall a b, Bytes a -> Bytes b -> bits a = bits b -> a = b.
Proof. intros a b Ha Hb E. rewrite <- (unbits_bits a Ha), <- (unbits_bits b Hb), E. reflexivity. Qed.
Lemma unbits_inj : forall n a b, length a = 8 * n -> length b = 8 * n -> unbits a = unbits b -> a = b.
Proof. intros n a b Ha Hb E. rewrite <- (bits_unbits n a Ha), <- (bits_unbits n b Hb), E. reflexivity. Qed.
(** The bits of bytes, by position. *)
Lemma bits_nth : forall bs i, i < 8 * length bs -> nth i (bits bs) false = N.testbit (nth (i / 8) bs 0%N) (N.of_nat (7 - i mod 8)).
Proof.
  induction bs as [|b bs IH]; intros i Hi; simpl length in Hi; [lia|].
  rewrite bits_cons. destruct (Nat.ltb_spec i 8) as [L|L].
  - rewrite app_nth1 by (rewrite byte_bits_length; assumption).
    do 8 (destruct i as [|i]; [reflexivity|]). lia.
  - rewrite app_nth2 by (rewrite byte_bits_length; lia). rewrite byte_bits_length.
    replace i with (8 + (i - 8)) at 2 3 by lia.
    replace (8 + (i - 8)) with ((i - 8) + 1 * 8) by lia.
    rewrite Nat.div_add, Nat.mod_add by lia. rewrite Nat.add_1_r. cbn [nth]. apply IH. lia.
Qed.

(** ** Nodes *)
Definition data_ok (d : ldata) : Prop := match d with Embedded v => length v <= 32 /\ Bytes v | Regular h => length h = 32 /\ Bytes h end.
Definition node_ok (n : node) : Prop :=
  match n with NLeaf l => length (lf_key l) = KEY_BITS /\ data_ok (lf_data l) | NBranch b => length (br_left b) = 255 /\ length (br_right b) = 256 end.
Lemma node_bits_length : forall n, node_ok n -> length (node_bits n) = 512.
Proof.
  intros [[k d]|[l r]] Hok; unfold node_ok in Hok; cbn [lf_key lf_data br_left br_right] in Hok.
  - destruct Hok as [Hk Hd]. cbn [node_bits]. unfold leaf_bits. cbn [lf_key lf_data]. unfold KEY_BITS in Hk. destruct d as [v|h]; destruct Hd as [Hv _].
    + rewrite app_length. unfold zeros, NODE_BITS. rewrite repeat_length.
      set (b := true :: _). assert (length b = 256 + 8 * length v).
      { unfold b. cbn [length]. rewrite !app_length, bits_length, Hk. cbn [length skipn byte_bits map]. lia. }
      lia.
    + cbn [length]. rewrite !app_length, bits_length, Hk, Hv. reflexivity.
  - destruct Hok. cbn [node_bits branch_bits length br_left br_right]. unfold branch_bits. cbn [length br_left br_right]. rewrite app_length. lia.
Qed.
Lemma encode_length : forall n, node_ok n -> length (encode n) = 64.
Proof. intros. unfold encode. eapply unbits_length. rewrite node_bits_length by assumption. reflexivity. Qed.
Lemma encode_Bytes : forall n, node_ok n -> Bytes (encode n).
Proof. intros. unfold encode. eapply (unbits_Bytes 64). rewrite node_bits_length by assumption. reflexivity. Qed.
Lemma bits_encode : forall n, node_ok n -> bits (encode n) = node_bits n.
Proof. intros. unfold encode. apply (bits_unbits 64). rewrite node_bits_length by assumption. reflexivity. Qed.

Lemma firstn_app_exact : forall A (a b : list A) n, length a = n -> firstn n (a ++ b) = a.
Proof. intros. subst. rewrite firstn_app, firstn_all, Nat.sub_diag. simpl. apply app_nil_r. Qed.
Lemma skipn_app_exact : forall A (a b : list A) n, length a = n -> skipn n (a ++ b) = b.
Proof. intros. subst. rewrite skipn_app, skipn_all, Nat.sub_diag. reflexivity. Qed.
Lemma slice_app : forall a b c n m, length a = n -> length b = m - n -> n <= m -> slice (a ++ b ++ c) n m = Ok b.
Proof.
  intros a b c n m Ha Hb Hn. unfold slice. rewrite !app_length.
  replace (Nat.leb n m && Nat.leb m (length a + (length b + length c)))%bool with true.
  - rewrite (skipn_app_exact _ _ _ _ Ha), (firstn_app_exact _ _ _ _ Hb). reflexivity.
  - symmetry. apply andb_true_intro. split; apply Nat.leb_le; lia.
Qed.
Lemma slice_app_end : forall a b n m, length a = n -> length b = m - n -> n <= m -> slice (a ++ b) n m = Ok b.
Proof. intros. rewrite <- (app_nil_r b) at 1. apply slice_app; assumption. Qed.
Lemma length_byte : forall n, n <= 32 -> N.to_nat (byte_of (false :: false :: skipn 2 (byte_bits (N.of_nat n mod 256)))) = n.
Proof. intros n Hn. do 33 (destruct n as [|n]; [reflexivity|]). lia. Qed.

Lemma decode_encode : forall n, node_ok n -> decode (encode n) = Ok n.
Proof.
  intros n Hok. unfold decode. rewrite bits_encode by assumption. pose proof (node_bits_length _ Hok) as Len.
  destruct n as [[k d]|[l r]].
  - cbn [node_bits] in *. destruct Hok as [Hk Hd]. cbn [lf_key lf_data] in *. unfold KEY_BITS in Hk. destruct d as [v|h].
    + destruct Hd as [Hv Hb].
      unfold leaf_bits in *. cbn [lf_key lf_data] in *.
      set (sk := skipn 2 (byte_bits (N.of_nat (length v) mod 256))) in *.
      assert (Lsk : length sk = 6) by reflexivity.
      set (z := zeros _) in *.
      assert (E : (true :: false :: sk ++ k ++ bits v) ++ z = ((true :: false :: sk) ++ k) ++ bits v ++ z).
      { cbn. rewrite <- !app_assoc. reflexivity. }
      assert (E2 : (true :: false :: sk ++ k ++ bits v) ++ z = (true :: false :: sk) ++ k ++ bits v ++ z).
      { cbn. rewrite <- !app_assoc. reflexivity. }
      assert (E3 : (true :: false :: sk ++ k ++ bits v) ++ z = [true; false] ++ sk ++ k ++ bits v ++ z).
      { cbn. rewrite <- !app_assoc. reflexivity. }
      assert (N0 : nth_error ((true :: false :: sk ++ k ++ bits v) ++ z) 0 = Some true) by reflexivity.
      assert (N1 : nth_error ((true :: false :: sk ++ k ++ bits v) ++ z) 1 = Some false) by reflexivity.
      set (L := (true :: false :: sk ++ k ++ bits v) ++ z) in *.
      rewrite N0. unfold leaf_decode. rewrite Len, N0, N1. change (Nat.eqb 512 NODE_BITS) with true. cbn [negb].
      rewrite E3 at 1. rewrite slice_app by (reflexivity || lia). cbn [bind].
      unfold sk at 1. rewrite length_byte by assumption.
      rewrite E. rewrite slice_app; [| rewrite app_length; cbn [length]; rewrite Lsk, Hk; reflexivity | rewrite bits_length; lia | lia].
      cbn [bind]. rewrite <- E, E2.
      rewrite slice_app; [| cbn [length]; rewrite Lsk; reflexivity | rewrite Hk; reflexivity | lia].
      cbn [bind]. rewrite unbits_bits by assumption. reflexivity.
    + destruct Hd as [Hv Hb]. unfold leaf_bits in *. cbn [lf_key lf_data] in *.
      cbn [nth_error]. unfold leaf_decode. rewrite Len. change (Nat.eqb 512 NODE_BITS) with true. cbn [negb nth_error].
      change (true :: true :: zeros 6 ++ k ++ bits h) with ((true :: true :: zeros 6) ++ k ++ bits h).
      assert (E : (true :: true :: zeros 6) ++ k ++ bits h = ((true :: true :: zeros 6) ++ k) ++ bits h) by apply app_assoc.
      rewrite E. rewrite slice_app_end; [| rewrite app_length, Hk; reflexivity | rewrite bits_length, Hv; reflexivity | lia].
      cbn [bind]. rewrite <- E. rewrite slice_app; [|reflexivity|rewrite Hk; reflexivity|lia].
      cbn [bind]. unfold to_hash. rewrite unbits_bits by assumption. rewrite Hv. reflexivity.
  - destruct Hok as [Hl Hr]. cbn [br_left br_right] in *. cbn [node_bits branch_bits nth_error] in *. unfold branch_bits in *. cbn [br_left br_right nth_error] in *.
    unfold branch_decode. rewrite Len. change (Nat.eqb 512 NODE_BITS) with true. cbn [negb nth_error].
    change (false :: l ++ r) with ([false] ++ l ++ r) at 1. rewrite slice_app by (reflexivity || lia). cbn [bind].
    change (false :: l ++ r) with ((false :: l) ++ r) at 1. rewrite slice_app_end; [|cbn; lia|cbn; lia|lia].
    reflexivity.
Qed.
Lemma encode_inj : forall a b, node_ok a -> node_ok b -> encode a = encode b -> a = b.
Proof. intros a b Ha Hb E. pose proof (decode_encode _ Ha) as X. rewrite E, decode_encode in X by assumption. congruence. Qed.
Lemma new_branch_ok : forall l r, length l = 32 -> length r = 32 -> node_ok (NBranch (new_branch l r)).
Proof.
  intros l r Hl Hr. cbn [node_ok new_branch br_left br_right]. split.
  - rewrite skipn_length, bits_length, Hl. reflexivity.
  - rewrite bits_length, Hr. reflexivity.
Qed.
Lemma new_branch_eq : forall l r l' r', Bytes l -> Bytes r -> Bytes l' -> Bytes r' ->
  new_branch l r = new_branch l' r' <-> (skipn 1 (bits l) = skipn 1 (bits l') /\ r = r').
Proof.
  intros. unfold new_branch. split.
  - intro E. inversion E. split; [assumption|]. apply bits_inj; assumption.
  - intros [E ->]. rewrite E. reflexivity.
Qed.
(** The model's encodings are those of the specification. *)
Lemma leaf_bits_spec : forall H k v, length k = KEY_BITS -> leaf_bits (fst (entry_leaf H k v)) = spec_leaf H k v.
Proof.
  intros H k v Hk. unfold entry_leaf, spec_leaf. destruct (Nat.ltb_spec 32 (length v)) as [L|L].
  - replace (Nat.leb (length v) 32) with false by (symmetry; apply Nat.leb_gt; assumption). reflexivity.
  - replace (Nat.leb (length v) 32) with true by (symmetry; apply Nat.leb_le; assumption).
    cbn [fst]. unfold leaf_bits. cbn [lf_data lf_key].
    replace (N.of_nat (length v) mod 256)%N with (N.of_nat (length v)) by (rewrite N.mod_small; lia).
    assert (E : bits [N.of_nat (length v)] = byte_bits (N.of_nat (length v))). { reflexivity. }
    rewrite E. set (sk := skipn 2 (byte_bits (N.of_nat (length v)))).
    assert (Lb : length (true :: false :: sk ++ k ++ bits v) = 256 + 8 * length v).
    { cbn [length]. rewrite !app_length, bits_length, Hk. change (length sk) with 6. unfold KEY_BITS. lia. }
    rewrite Lb. unfold zeros, NODE_BITS. replace (512 - (256 + 8 * length v)) with (8 * (32 - length v)) by lia.
    cbn [app]. rewrite <- !app_assoc. reflexivity.
Qed.
Lemma tl_skipn1 : forall A (l : list A), tl l = skipn 1 l. Proof. intros A [|]; reflexivity. Qed.
Lemma branch_bits_spec : forall l r, branch_bits (new_branch l r) = spec_branch l r.
Proof. intros. unfold branch_bits, new_branch, spec_branch. rewrite tl_skipn1. reflexivity. Qed.
