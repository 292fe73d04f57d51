From Verif Require Import Base Base_Proofs PvmMem_Model PvmProg_Model PvmStep_Model Sandbox_Model Sandbox_Spec Sandbox_Proofs Host_Model Host_Spec Host_Proofs.
From Coq Require Import Permutation.
Set Implicit Arguments.
Open Scope N_scope.

Definition fits (m : meta) : Prop := m_items m + 2 < 2 ^ 32 /\ m_octets m + 2 ^ 34 < 2 ^ 63 /\ m_balance m < 2 ^ 64.
Lemma threshold_least : forall m, m_items m < 2 ^ 32 -> m_octets m < 2 ^ 63 -> threshold m = least m.
Proof. intros m A B. unfold threshold, least, u64. rewrite N.mod_small; [reflexivity|]. change (2 ^ 32) with 4294967296 in *. change (2 ^ 63) with 9223372036854775808 in *. change (2 ^ 64) with 18446744073709551616. lia. Qed.
Lemma set_usage_id : forall m, set_usage m (m_items m) (m_octets m) = m. Proof. destruct m; reflexivity. Qed.
Lemma apply_delta_ok : forall w f d, (0 <= Z.of_N f + d < 2 ^ Z.of_N w)%Z -> apply_delta w f d = Z.to_N (Z.of_N f + d).
Proof.
  intros w f d H. unfold apply_delta, sat_add. assert (E : Z.of_N (2 ^ w) = (2 ^ Z.of_N w)%Z) by (rewrite N2Z.inj_pow; reflexivity).
  destruct (Z.ltb_spec d 0) as [L|L]; [|rewrite N.min_r]; lia.
Qed.

Lemma foot_storage : forall m k old new, fits m ->
  N.of_nat (length k) <= 2 ^ 32 -> (forall v, new = Some v -> N.of_nat (length v) <= 2 ^ 32) ->
  (forall o, old = Some o -> 1 <= m_items m /\ octets_of (KStorage k) o <= m_octets m) ->
  add_foot m (storage_foot (usage_delta (option_map (storage_octets k) old) (option_map (storage_octets k) new))) = recount m (KStorage k) old new.
Proof.
  intros m k old new [F1 [F2 F3]] K V O. unfold add_foot, recount, storage_foot, storage_octets, octets_of, items_of in *.
  destruct old as [o|]; [destruct (O o eq_refl) as [O1 O2]|]; (destruct new as [v|]; [pose proof (V v eq_refl)|]); cbn [option_map usage_delta fst snd];
    change (2 ^ 34) with 17179869184 in *; change (2 ^ 63) with 9223372036854775808 in *; change (2 ^ 32) with 4294967296 in *;
    f_equal; (rewrite apply_delta_ok; [lia|]); change (2 ^ Z.of_N 32)%Z with 4294967296%Z; change (2 ^ Z.of_N 64)%Z with 18446744073709551616%Z; lia.
Qed.
Lemma foot_solicit : forall m h len, fits m -> len < 2 ^ 32 -> add_foot m (lookup_foot (usage_delta None (Some len))) = recount m (KLookup h len) None (Some []).
Proof.
  intros m h len [F1 [F2 F3]] L. unfold add_foot, recount, lookup_foot, octets_of, items_of in *. cbn [usage_delta fst snd].
  change (2 ^ 34) with 17179869184 in *; change (2 ^ 63) with 9223372036854775808 in *; change (2 ^ 32) with 4294967296 in *.
  f_equal; (rewrite apply_delta_ok; [lia|]); change (2 ^ Z.of_N 32)%Z with 4294967296%Z; change (2 ^ Z.of_N 64)%Z with 18446744073709551616%Z; lia.
Qed.
Lemma foot_forget : forall m h len l, fits m -> len < 2 ^ 32 -> 2 <= m_items m -> 81 + len <= m_octets m ->
  add_foot m (lookup_foot (usage_delta (Some len) None)) = recount m (KLookup h len) (Some l) None.
Proof.
  intros m h len l [F1 [F2 F3]] L A B. unfold add_foot, recount, lookup_foot, octets_of, items_of in *. cbn [usage_delta fst snd].
  change (2 ^ 34) with 17179869184 in *; change (2 ^ 63) with 9223372036854775808 in *; change (2 ^ 32) with 4294967296 in *.
  f_equal; (rewrite apply_delta_ok; [lia|]); change (2 ^ Z.of_N 32)%Z with 4294967296%Z; change (2 ^ Z.of_N 64)%Z with 18446744073709551616%Z; lia.
Qed.
Lemma add_foot_zero : forall m d, fits m -> zero_delta d = true -> add_foot m d = m.
Proof.
  intros m [a b] [F1 [F2 F3]] Z. unfold zero_delta in Z. simpl in Z. assert (a = 0%Z /\ b = 0%Z) as [-> ->] by lia. unfold add_foot. simpl.
  change (2 ^ 34) with 17179869184 in *; change (2 ^ 63) with 9223372036854775808 in *; change (2 ^ 32) with 4294967296 in *.
  rewrite !apply_delta_ok; try (change (2 ^ Z.of_N 32)%Z with 4294967296%Z; change (2 ^ Z.of_N 64)%Z with 18446744073709551616%Z; lia).
  rewrite !Z.add_0_r, !N2Z.id. apply set_usage_id.
Qed.
Lemma usage_zero : forall m k old new, fits m -> N.of_nat (length k) <= 2 ^ 32 -> (forall v, new = Some v -> N.of_nat (length v) <= 2 ^ 32) ->
  (forall o, old = Some o -> 1 <= m_items m /\ octets_of (KStorage k) o <= m_octets m) ->
  zero_delta (usage_delta (option_map (storage_octets k) old) (option_map (storage_octets k) new)) = true -> recount m (KStorage k) old new = m.
Proof.
  intros m k old new F K V O Z. rewrite <- (@foot_storage m k old new F K V O). apply add_foot_zero; [assumption|].
  unfold zero_delta, storage_foot in *. cbn [fst snd]. destruct (usage_delta (option_map (storage_octets k) old) (option_map (storage_octets k) new)) as [i o]. cbn [fst snd] in *. lia.
Qed.

(** What an entry says about the counts *)
Lemma sum_in : forall (l : list ekey) f k, In k l -> f k <= sum (map f l).
Proof. induction l as [|x l IH]; intros f k []; simpl; [subst; lia|]. pose proof (IH f k H). lia. Qed.
Lemma sum_in2 : forall (l : list ekey) f k j, NoDup l -> k <> j -> In k l -> In j l -> f k + f j <= sum (map f l).
Proof.
  induction l as [|x l IH]; intros f k j N D A B; [destruct A|]. inversion N; subst. simpl in *. destruct A as [->|A].
  - destruct B as [->|B]; [contradiction|]. pose proof (@sum_in l f j B). lia.
  - destruct B as [->|B]; [pose proof (@sum_in l f k A); lia|]. pose proof (IH f k j H2 D A B). lia.
Qed.
Lemma counted_le : forall w s m k v, counted w s m -> g_ent w s k = Some v -> items_of k <= m_items m /\ octets_of k v <= m_octets m.
Proof.
  intros w s m k v [ks [N [I [A B]]]] E. assert (X : In k ks) by (apply I; congruence). rewrite A, B. split.
  - apply (@sum_in ks items_of k X).
  - pose proof (@sum_in ks (fun k => match g_ent w s k with Some v => octets_of k v | None => 0 end) k X) as Y. simpl in Y. rewrite E in Y. exact Y.
Qed.
(** An account of two items with a request has no other entry that counts *)
Lemma counted_two : forall w s m h len, counted w s m -> m_items m = 2 -> g_ent w s (KLookup h len) <> None ->
  forall k, k <> KLookup h len -> items_of k <> 0 -> g_ent w s k = None.
Proof.
  intros w s m h len [ks [N [I [A B]]]] M E k D Z. destruct (g_ent w s k) eqn:X; [|reflexivity]. exfalso.
  assert (K1 : In k ks) by (apply I; congruence). assert (K2 : In (KLookup h len) ks) by (apply I; assumption).
  pose proof (@sum_in2 ks items_of k (KLookup h len) N D K1 K2). simpl in H. lia.
Qed.
Lemma two_only : forall e x t m h len, tidy e x -> g_meta (fst x) t = Some m -> m_items m = 2 -> g_ent (fst x) t (KLookup h len) <> None ->
  forall k, k <> KLookup h len -> k <> KPreimage h -> g_ent (fst x) t k = None.
Proof.
  intros e x t m h len T M I E k D1 D2. pose proof (td_counted _ _ T _ _ M) as C. destruct k as [b|b|b l].
  - apply (counted_two C I E); [discriminate | simpl; lia].
  - destruct (g_ent (fst x) t (KPreimage b)) eqn:X; [|reflexivity]. exfalso. destruct (td_requested _ _ T t b) as [j L]; [congruence|].
    destruct (ekey_eq (KLookup b j) (KLookup h len)) as [Q|Q]; [inversion Q; subst; apply D2; reflexivity|].
    apply L. apply (counted_two C I E); [assumption | simpl; lia].
  - apply (counted_two C I E); [assumption | simpl; lia].
Qed.

(** ** Memory *)
Lemma nrange_len : forall n a, length (nrange a n) = n. Proof. induction n; intros; simpl; [reflexivity | rewrite IHn; reflexivity]. Qed.
Lemma rd_len : forall s a n b, rd s a n = Some b -> m_len (v_mem s) <= 2 ^ 32 -> N.of_nat (length b) = n /\ n < 2 ^ 32.
Proof.
  intros s a n b H L. unfold rd, as_u32 in H. destruct (a <? 2 ^ 32); [|discriminate].
  destruct (is_address_range_readable (v_mem s) a n) eqn:R; [|discriminate]. unfold read_bytes in H. unfold is_address_range_readable, range_ok in R.
  destruct (N.eqb_spec n 0) as [->|Z]; [inversion H; subst; simpl; split; lia|].
  destruct (2 ^ 64 <=? a + n); [discriminate|]. destruct (N.leb_spec (m_len (v_mem s)) (a + n - 1)); [discriminate|].
  destruct (validate page_readable (v_mem s) a n) eqn:V; simpl in H; [|discriminate|discriminate]. inversion H; subst. rewrite map_length, nrange_len.
  unfold validate in V. destruct (N.ltb_spec a INIT_ZONE_SIZE) as [Z0|Z0]; [discriminate|]. unfold INIT_ZONE_SIZE in Z0. lia.
Qed.
Lemma rd_addr : forall s a n b, rd s a n = Some b -> (a <? 2 ^ 32) = true.
Proof. intros s a n b H. unfold rd, as_u32 in H. destruct (a <? 2 ^ 32); [reflexivity | discriminate]. Qed.
