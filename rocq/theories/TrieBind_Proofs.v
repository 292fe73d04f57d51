(** The root determines the state, up to hash collisions. *)
From Verif Require Import Base Trie_Model Trie_Spec TrieCodec_Proofs TrieShape_Proofs Trie4_Proofs.
Section Bind.
  Context (H : bytes -> bytes) (Hh : forall x, length (H x) = 32 /\ Bytes (H x)).
  Notation clash := (clash H).
  Lemma clash_mono : forall a b a' b', (forall x, In x a -> In x a') -> (forall x, In x b -> In x b') -> clash a b -> clash a' b'.
  Proof.
    intros a b a' b' A B [[x [y [X [Y Z]]]]|[x [[X|X] Z]]]; [left; exists x, y; auto| |]; right; exists x; auto.
  Qed.
  Lemma merkle_hash : forall f n d, length (merkle H f n d) = 32 /\ Bytes (merkle H f n d).
  Proof.
    assert (Z : length (repeat 0%N 32) = 32 /\ Bytes (repeat 0%N 32)).
    { split; [reflexivity|]. apply Forall_forall. intros x X. apply repeat_spec in X. subst. unfold is_byte. lia. }
    intros f n [|[k v] [|e d]]; [destruct f; exact Z|destruct f; apply Hh|destruct f; [exact Z|apply Hh]].
  Qed.
  Lemma leaf_encode : forall k v, length k = KEY_BITS -> unbits (spec_leaf H k v) = encode (NLeaf (fst (entry_leaf H k v))).
  Proof. intros. unfold encode. cbn [node_bits]. rewrite leaf_bits_spec by assumption. reflexivity. Qed.
  Lemma leaf_node_ok : forall k v, length k = KEY_BITS -> Bytes v -> node_ok (NLeaf (fst (entry_leaf H k v))).
  Proof.
    intros k v Lk Bv. unfold entry_leaf. destruct (Nat.ltb_spec 32 (length v)); cbn [fst node_ok lf_key lf_data data_ok]; (split; [assumption|]); [apply Hh|split; [lia|assumption]].
  Qed.
  Lemma branch_encode : forall l r, unbits (spec_branch l r) = encode (NBranch (new_branch l r)).
  Proof. intros. unfold encode. cbn [node_bits]. rewrite branch_bits_spec. reflexivity. Qed.
  Lemma bytes_dec : forall a b : bytes, a = b \/ a <> b.
  Proof. intros a b. destruct (list_eq_dec N.eq_dec a b); auto. Qed.
  Lemma one_hash : forall x y, tl (bits (H x)) = tl (bits (H y)) -> x = y \/ clash [x] [y].
  Proof. intros x y E. destruct (bytes_dec x y) as [->|N]; [auto|]. right. left. exists x, y. simpl. auto. Qed.
  Lemma zero_clash : forall x xs ys, tl (bits (repeat 0%N 32)) = tl (bits (H x)) -> In x xs \/ In x ys -> clash xs ys.
  Proof. intros x xs ys E I. right. exists x. split; [assumption|]. rewrite <- E. reflexivity. Qed.

  Definition under (n : nat) (d : list kv) : Prop := forall e e', In e d -> In e' d -> firstn n (fst e) = firstn n (fst e').
  Lemma under_filter : forall n (b : bool) (d : list kv), (forall e, In e d -> n < length (fst e)) -> under n d -> under (S n) (filter (fun e => Bool.eqb b (nth n (fst e) false)) d).
  Proof.
    intros n b d L Hu e e' A B. apply filter_In in A, B. destruct A as [A1 A2], B as [B1 B2]. apply Bool.eqb_prop in A2, B2.
    assert (X : forall (l : path), n < length l -> firstn (S n) l = firstn n l ++ [nth n l false]).
    { clear. induction n as [|n IH]; intros [|a l] Hl; simpl in *; try lia; [reflexivity|]. f_equal. apply IH. lia. }
    rewrite !X by (apply L; assumption). rewrite (Hu e e' A1 B1), <- A2, <- B2. reflexivity.
  Qed.
  Lemma state_filter : forall f d, state_ok d -> state_ok (filter f d).
  Proof. intros f d [N L]. split; [apply NoDup_map_filter; assumption|]. intros k v X. apply filter_In in X. apply L. apply X. Qed.
  Lemma filter_false : forall n (d : list kv), filter (fun e => negb (nth n (fst e) false)) d = filter (fun e => Bool.eqb false (nth n (fst e) false)) d.
  Proof. intros. apply filter_ext_in'. intros x _. destruct (nth n (fst x) false); reflexivity. Qed.
  Lemma filter_true : forall n (d : list kv), filter (fun e => nth n (fst e) false) d = filter (fun e => Bool.eqb true (nth n (fst e) false)) d.
  Proof. intros. apply filter_ext_in'. intros x _. destruct (nth n (fst x) false); reflexivity. Qed.
  Definition same (d1 d2 : list kv) : Prop := forall e, In e d1 <-> In e d2.
  Lemma same_split : forall n d1 d2, (forall b, same (filter (fun e => Bool.eqb b (nth n (fst e) false)) d1) (filter (fun e => Bool.eqb b (nth n (fst e) false)) d2)) -> same d1 d2.
  Proof.
    intros n d1 d2 S e. specialize (S (nth n (fst e) false) e). rewrite !filter_In, Bool.eqb_reflx in S. tauto.
  Qed.
  Definition two (d : list kv) : Prop := exists a b c, d = a :: b :: c.
  Lemma merkle_two : forall f n d, two d -> merkle H (S f) n d = H (unbits (spec_branch (merkle H f (S n) (filter (fun e => Bool.eqb false (nth n (fst e) false)) d)) (merkle H f (S n) (filter (fun e => Bool.eqb true (nth n (fst e) false)) d)))).
  Proof. intros f n d [[k v] [b [c ->]]]. rewrite <- filter_false, <- filter_true. reflexivity. Qed.
  Lemma inputs_two : forall f n d, two d -> hash_inputs H (S f) n d = unbits (spec_branch (merkle H f (S n) (filter (fun e => Bool.eqb false (nth n (fst e) false)) d)) (merkle H f (S n) (filter (fun e => Bool.eqb true (nth n (fst e) false)) d)))
    :: hash_inputs H f (S n) (filter (fun e => Bool.eqb false (nth n (fst e) false)) d) ++ hash_inputs H f (S n) (filter (fun e => Bool.eqb true (nth n (fst e) false)) d).
  Proof. intros f n d [[k v] [b [c ->]]]. rewrite <- filter_false, <- filter_true. reflexivity. Qed.
  Lemma two_fuel : forall n d, two d -> state_ok d -> under n d -> n < KEY_BITS.
  Proof.
    intros n d [a [b [c ->]]] [N L] Hu. destruct (Nat.ltb_spec n KEY_BITS) as [|G]; [assumption|]. exfalso.
    pose proof (Hu a b (or_introl eq_refl) (or_intror (or_introl eq_refl))) as E. destruct a as [ka va], b as [kb vb]. cbn [fst] in E.
    rewrite !firstn_all2 in E by (destruct (L kb vb) as [X _]; [simpl; auto|]; destruct (L ka va) as [Y _]; [simpl; auto|]; lia).
    simpl in N. inversion N as [|? ? X]; subst. apply X. left. reflexivity.
  Qed.
  Inductive size (d : list kv) : Prop := size0 : d = [] -> size d | size1 k v : d = [(k, v)] -> size d | size2 : two d -> size d.
  Lemma size_of : forall d, size d.
  Proof. intros [|[k v] [|e d]]; [apply size0; reflexivity|eapply size1; reflexivity|apply size2; do 3 eexists; reflexivity]. Qed.

  Lemma M0 : forall f n, merkle H f n [] = repeat 0%N 32. Proof. intros []; reflexivity. Qed.
  Lemma M1 : forall f n k v, merkle H f n [(k, v)] = H (unbits (spec_leaf H k v)). Proof. intros []; reflexivity. Qed.
  Lemma I1 : forall f n k v, hash_inputs H f n [(k, v)] = unbits (spec_leaf H k v) :: (if Nat.leb (length v) 32 then [] else [v]). Proof. intros []; reflexivity. Qed.
  Lemma LL : forall f n k1 v1 k2 v2, state_ok [(k1, v1)] -> state_ok [(k2, v2)] -> tl (bits (H (unbits (spec_leaf H k1 v1)))) = tl (bits (H (unbits (spec_leaf H k2 v2)))) ->
    same [(k1, v1)] [(k2, v2)] \/ clash (hash_inputs H f n [(k1, v1)]) (hash_inputs H f n [(k2, v2)]).
  Proof.
    intros fu n k1 v1 k2 v2 [_ A] [_ B] X. destruct (A k1 v1 (or_introl eq_refl)) as [A1 A2], (B k2 v2 (or_introl eq_refl)) as [B1 B2].
    rewrite !I1. destruct (one_hash _ _ X) as [Y|Y]; [|right; eapply clash_mono; [| |exact Y]; intros ? [<-|[]]; left; reflexivity].
    rewrite !leaf_encode in Y by assumption. apply encode_inj in Y; try (apply leaf_node_ok; assumption). unfold entry_leaf in Y.
    destruct (Nat.ltb_spec 32 (length v1)) as [G1|G1], (Nat.ltb_spec 32 (length v2)) as [G2|G2]; cbn [fst] in Y; inversion Y as [[Ek Ev]]; subst.
    - destruct (one_hash v1 v2) as [->|C]; [rewrite Ev; reflexivity|left; intro; reflexivity|right].
      replace (Nat.leb (length v1) 32) with false by (symmetry; apply Nat.leb_gt; assumption). replace (Nat.leb (length v2) 32) with false by (symmetry; apply Nat.leb_gt; assumption).
      eapply clash_mono; [| |exact C]; intros ? [<-|[]]; right; left; reflexivity.
    - left. intro. reflexivity.
  Qed.

  Lemma binds : forall f n d1 d2, n + f = KEY_BITS -> state_ok d1 -> state_ok d2 -> under n d1 -> under n d2 ->
    tl (bits (merkle H f n d1)) = tl (bits (merkle H f n d2)) -> same d1 d2 \/ clash (hash_inputs H f n d1) (hash_inputs H f n d2).
  Proof.
    induction f as [|f IH]; intros n d1 d2 Hn O1 O2 U1 U2 E.
    - destruct (size_of d1) as [->|k1 v1 ->|T1]; [| |pose proof (two_fuel _ _ T1 O1 U1); lia]; (destruct (size_of d2) as [->|k2 v2 ->|T2]; [| |pose proof (two_fuel _ _ T2 O2 U2); lia]).
      + left. intro. reflexivity.
      + right. rewrite M0, M1 in E. eapply zero_clash; [exact E|]. rewrite I1. right. left. reflexivity.
      + right. rewrite M0, M1 in E. eapply zero_clash; [symmetry; exact E|]. rewrite I1. left. left. reflexivity.
      + rewrite !M1 in E. apply LL; assumption.
    - assert (TL : forall k1 v1 d, two d -> length k1 = KEY_BITS -> Bytes v1 -> unbits (spec_leaf H k1 v1) <> unbits (spec_branch (merkle H f (S n) (filter (fun e => Bool.eqb false (nth n (fst e) false)) d)) (merkle H f (S n) (filter (fun e => Bool.eqb true (nth n (fst e) false)) d)))).
      { intros k1 v1 d T Lk Bv X. rewrite leaf_encode, branch_encode in X by assumption. apply encode_inj in X; [discriminate|apply leaf_node_ok; assumption|apply new_branch_ok; apply merkle_hash]. }
      destruct (size_of d1) as [->|k1 v1 ->|T1]; (destruct (size_of d2) as [->|k2 v2 ->|T2]).
      + left. intro. reflexivity.
      + right. rewrite M0, M1 in E. eapply zero_clash; [exact E|]. rewrite I1. right. left. reflexivity.
      + right. rewrite M0, (merkle_two _ _ _ T2) in E. eapply zero_clash; [exact E|]. rewrite (inputs_two _ _ _ T2). right. left. reflexivity.
      + right. rewrite M0, M1 in E. eapply zero_clash; [symmetry; exact E|]. rewrite I1. left. left. reflexivity.
      + rewrite !M1 in E. apply LL; assumption.
      + right. rewrite M1, merkle_two in E by assumption. rewrite I1, inputs_two by assumption. left. do 2 eexists. split; [left; reflexivity|]. split; [left; reflexivity|]. split; [|exact E].
        destruct O1 as [_ O1]. destruct (O1 k1 v1 (or_introl eq_refl)). apply TL; assumption.
      + right. rewrite M0, (merkle_two _ _ _ T1) in E. eapply zero_clash; [symmetry; exact E|]. rewrite (inputs_two _ _ _ T1). left. left. reflexivity.
      + right. rewrite M1, merkle_two in E by assumption. rewrite I1, inputs_two by assumption. left. do 2 eexists. split; [left; reflexivity|]. split; [left; reflexivity|]. split; [|exact E].
        destruct O2 as [_ O2]. destruct (O2 k2 v2 (or_introl eq_refl)). intro X. symmetry in X. revert X. apply TL; assumption.
      + rewrite !merkle_two in E by assumption. rewrite !inputs_two by assumption.
        destruct (one_hash _ _ E) as [Y|Y]; [|right; eapply clash_mono; [| |exact Y]; intros ? [<-|[]]; left; reflexivity].
        rewrite !branch_encode in Y. apply encode_inj in Y; try (apply new_branch_ok; apply merkle_hash).
        assert (Y' : new_branch (merkle H f (S n) (filter (fun e => Bool.eqb false (nth n (fst e) false)) d1)) (merkle H f (S n) (filter (fun e => Bool.eqb true (nth n (fst e) false)) d1)) = new_branch (merkle H f (S n) (filter (fun e => Bool.eqb false (nth n (fst e) false)) d2)) (merkle H f (S n) (filter (fun e => Bool.eqb true (nth n (fst e) false)) d2))) by congruence.
        apply new_branch_eq in Y'; try apply merkle_hash. destruct Y' as [Yl Yr]. rewrite <- !tl_skipn1 in Yl. apply (f_equal bits) in Yr. apply (f_equal (@tl bool)) in Yr.
        assert (Lk : forall d, state_ok d -> forall e, In e d -> n < length (fst e)). { intros d [_ L] [k v] X. destruct (L k v X) as [L' _]. cbn [fst]. unfold KEY_BITS in *. lia. }
        pose proof (fun b => under_filter n b d1 (Lk d1 O1) U1) as UA. pose proof (fun b => under_filter n b d2 (Lk d2 O2) U2) as UB.
        destruct (IH (S n) _ _ ltac:(lia) (state_filter _ _ O1) (state_filter _ _ O2) (UA false) (UB false) Yl) as [Sl|C]; [|right; eapply clash_mono; [| |exact C]; intros; right; apply in_or_app; auto].
        destruct (IH (S n) _ _ ltac:(lia) (state_filter _ _ O1) (state_filter _ _ O2) (UA true) (UB true) Yr) as [Sr|C]; [|right; eapply clash_mono; [| |exact C]; intros; right; apply in_or_app; auto].
        left. apply (same_split n). intros [|]; assumption.
  Qed.
  Lemma binds_from : forall f d1 d2, f = KEY_BITS -> state_ok d1 -> state_ok d2 -> merkle H f 0 d1 = merkle H f 0 d2 -> (forall k v, In (k, v) d1 <-> In (k, v) d2) \/ clash (hash_inputs H f 0 d1) (hash_inputs H f 0 d2).
  Proof.
    intros f d1 d2 Ef O1 O2 E. destruct (binds f 0 d1 d2) as [S|C]; [exact Ef|exact O1|exact O2|intros e e' _ _; reflexivity|intros e e' _ _; reflexivity|rewrite E; reflexivity| |].
    - left. intros k v. apply S.
    - right. exact C.
  Qed.
  Lemma root_binds : forall d1 d2, state_ok d1 -> state_ok d2 -> state_root H d1 = state_root H d2 -> (forall k v, In (k, v) d1 <-> In (k, v) d2) \/ clash (root_inputs H d1) (root_inputs H d2).
  Proof. intros d1 d2. exact (binds_from KEY_BITS d1 d2 eq_refl). Qed.
End Bind.
