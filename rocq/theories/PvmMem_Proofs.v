From Verif Require Import Base Base_Proofs PvmMem_Model PvmMem_Spec.
Open Scope N_scope.

Lemma nrange_In : forall n a x, In x (nrange a n) <-> a <= x < a + N.of_nat n.
Proof. induction n as [|n IH]; intros a x; cbn [nrange In]; [lia|]. rewrite IH. lia. Qed.
Lemma nrange_length : forall n a, length (nrange a n) = n.
Proof. induction n as [|n IH]; intros a; cbn; [reflexivity|]. now rewrite IH. Qed.
Lemma nrange_nth : forall n a i d, (i < n)%nat -> nth i (nrange a n) d = a + N.of_nat i.
Proof. induction n as [|n IH]; intros a [|i] d Hi; cbn [nrange nth]; try lia. rewrite IH by lia. lia. Qed.
Lemma range_In : forall a b x, In x (range a b) <-> a <= x < b.
Proof. intros. unfold range. rewrite nrange_In. lia. Qed.

Lemma page_readable_spec : forall m x, mem_ok m -> page_readable m (x / 4096) = true <-> can_read m x.
Proof.
  intros m x (A & B & C). unfold page_readable, can_read. rewrite andb_true_iff, N.ltb_lt. rewrite B.
  assert (x / 4096 < m_pages m <-> x < 4096 * m_pages m) by (split; intros H; [apply N.nle_gt; intros L; apply N.nle_gt in H; apply H, N.div_le_lower_bound; lia|apply N.div_lt_upper_bound; lia]).
  rewrite H. split; intros [P Q]; (split; [assumption|]); destruct (m_acc m (x / 4096)); congruence.
Qed.
Lemma page_writable_spec : forall m x, mem_ok m -> page_writable m (x / 4096) = true <-> can_write m x.
Proof.
  intros m x (A & B & C). unfold page_writable, can_write. rewrite andb_true_iff, N.ltb_lt. rewrite B.
  assert (x / 4096 < m_pages m <-> x < 4096 * m_pages m) by (split; intros H; [apply N.nle_gt; intros L; apply N.nle_gt in H; apply H, N.div_le_lower_bound; lia|apply N.div_lt_upper_bound; lia]).
  rewrite H. split; intros [P Q]; (split; [assumption|]); destruct (m_acc m (x / 4096)); congruence.
Qed.
(** A page check of a byte predicate. *)
Definition page_check (ok : mem -> N -> bool) (P : mem -> N -> Prop) : Prop := forall m x, mem_ok m -> ok m (x / 4096) = true <-> P m x.

Lemma u32_small : forall x, x < 2 ^ 32 -> u32 x = x.
Proof. intros. now apply N.mod_small. Qed.
Lemma touched : forall a n i, 0 < n -> a / 4096 <= i < (a + n - 1) / 4096 + 1 -> exists x, a <= x < a + n /\ x / 4096 = i.
Proof.
  intros a n i Hn Hi. exists (N.max a (4096 * i)).
  assert (E1 := N.div_mod a 4096 ltac:(discriminate)). assert (E2 := N.div_mod (a + n - 1) 4096 ltac:(discriminate)).
  assert (L1 := N.mod_lt a 4096 ltac:(discriminate)). assert (L2 := N.mod_lt (a + n - 1) 4096 ltac:(discriminate)).
  set (q1 := a / 4096) in *. set (r1 := a mod 4096) in *. set (q2 := (a + n - 1) / 4096) in *. set (r2 := (a + n - 1) mod 4096) in *.
  assert (q1 <= i) by lia. assert (i <= q2) by lia. split; [lia|].
  destruct (N.le_gt_cases a (4096 * i)) as [L|L].
  - rewrite N.max_r by assumption. rewrite N.mul_comm. apply N.div_mul. discriminate.
  - rewrite N.max_l by lia. change (q1 = i). lia.
Qed.
Lemma touched_in : forall a n x, a <= x < a + n -> a / 4096 <= x / 4096 < (a + n - 1) / 4096 + 1.
Proof. intros a n x Hx. assert (a / 4096 <= x / 4096) by (apply N.div_le_mono; lia). assert (x / 4096 <= (a + n - 1) / 4096) by (apply N.div_le_mono; lia). lia. Qed.

Section Check.
  Variables (ok : mem -> N -> bool) (P : mem -> N -> Prop).
  Hypothesis HC : page_check ok P.

  Lemma pages_ok : forall m a n, mem_ok m -> 0 < n ->
    forallb (ok m) (range (a / 4096) ((a + n - 1) / 4096 + 1)) = true <-> (forall x, a <= x < a + n -> P m x).
  Proof.
    intros m a n Hm Hn. rewrite forallb_forall. split.
    - intros H x Hx. apply (HC m x Hm), H, range_In. now apply touched_in.
    - intros H i Hi. apply range_In in Hi. destruct (touched a n i Hn Hi) as (x & Hx & <-). apply (HC m x Hm). auto.
  Qed.
  Lemma range_ok_spec : (forall m x, P m x -> x < m_len m) -> forall m a n, mem_ok m -> a < 2 ^ 32 -> n < 2 ^ 64 ->
    range_ok ok m a n = true <-> (forall x, a <= x < a + n -> P m x).
  Proof.
    intros HP m a n Hm Ha Hn. assert (Hm' := Hm). destruct Hm' as (A & B & C). unfold range_ok. destruct (N.eqb_spec n 0) as [->|Nz]; [split; [intros _ x Hx; lia|auto]|].
    destruct (N.leb_spec (2 ^ 64) (a + n)) as [L|L].
    - split; [discriminate|]. intros H. exfalso. specialize (H (a + n - 1) ltac:(lia)). apply HP in H. change (2 ^ 32) with 4294967296 in *. change (2 ^ 64) with 18446744073709551616 in *. lia.
    - destruct (N.leb_spec (m_len m) (a + n - 1)) as [L2|L2].
      + split; [discriminate|]. intros H. exfalso. specialize (H (a + n - 1) ltac:(lia)). apply HP in H. lia.
      + unfold page_of. rewrite A, u32_small by lia. apply pages_ok; [assumption|lia].
  Qed.
  Lemma validate_spec : (forall m x, P m x -> x < m_len m) -> forall m a n, mem_ok m -> 0 < n -> a < 2 ^ 32 ->
    (validate ok m a n = Ok tt <-> allowed (P m) a n) /\
    (forall p, validate ok m a n = Err (AccessViolation p) -> faults_at (P m) a n p) /\
    (65536 <= a -> a + n <= m_len m -> validate ok m a n = Ok tt \/ exists p, validate ok m a n = Err (AccessViolation p)) /\
    (65536 <= a -> m_len m < a + n -> validate ok m a n = Err (OutOfRange a)) /\
    (a < 65536 -> validate ok m a n = Err (Forbidden a)).
  Proof.
    intros HP m a n Hm Hn Ha. assert (Hm' := Hm). destruct Hm' as (A & B & C). unfold validate, allowed, INIT_ZONE_SIZE.
    destruct (N.ltb_spec a 65536) as [L0|L0]; [split; [split; [discriminate|lia]|split; [discriminate|split; [lia|split; [lia|reflexivity]]]]|].
    assert (T64 : 2 ^ 32 + 2 ^ 32 < 2 ^ 64) by reflexivity.
    destruct (N.leb_spec (2 ^ 64) (a + n)) as [L1|L1].
    { assert (m_len m < a + n) by lia. split; [split; [discriminate|]|split; [discriminate|split; [lia|split; [reflexivity|lia]]]].
      intros [_ H']. specialize (H' (a + n - 1) ltac:(lia)). apply HP in H'. lia. }
    destruct (N.ltb_spec (m_len m) (a + n)) as [L2|L2].
    { split; [split; [discriminate|]|split; [discriminate|split; [lia|split; [reflexivity|lia]]]].
      intros [_ H']. specialize (H' (a + n - 1) ltac:(lia)). apply HP in H'. lia. }
    unfold page_of, first_not. rewrite A, u32_small by lia. set (l := range (a / 4096) ((a + n - 1) / 4096 + 1)).
    assert (Hall := pages_ok m a n Hm Hn). fold l in Hall. destruct (find (fun i => negb (ok m i)) l) as [i|] eqn:Ef; cbn [option_map].
    - destruct (find_some _ _ Ef) as [Hi Hno]. apply negb_true_iff in Hno. split; [split; [discriminate|]|split; [|split; [eauto|split; [lia|lia]]]].
      + intros [_ H']. rewrite <- Hall, forallb_forall in H'. rewrite (H' i Hi) in Hno. discriminate.
      + intros p [= <-]. apply range_In in Hi. destruct (touched a n i Hn Hi) as (x & Hx & E).
        assert (E1 := N.div_mod x 4096 ltac:(discriminate)). assert (L3 := N.mod_lt x 4096 ltac:(discriminate)). rewrite E in E1.
        unfold mem_address, PAGE_SIZE. rewrite N.add_0_r, u32_small by lia. unfold faults_at. split; [apply N.mod_mul; discriminate|]. split.
        * exists x. split; [assumption|]. split; [lia|]. rewrite <- (HC m x Hm), E. congruence.
        * intros y Hy Ly. apply (HC m y Hm). assert (Hyi : y / 4096 < i) by (apply N.div_lt_upper_bound; [discriminate|lia]).
          (* earlier pages passed the check *)
          clear - Ef Hy Hyi. assert (T := touched_in a n y Hy). unfold l, range in Ef. revert Ef T. generalize ((a + n - 1) / 4096 + 1) as e, (a / 4096) as s. intros e s.
          remember (N.to_nat (e - s)) as k. revert s Heqk. induction k as [|k IH]; intros s Hk Ef T; [lia|]. cbn [nrange find] in Ef.
          destruct (ok m s) eqn:Es; cbn [negb] in Ef; [|injection Ef as <-; lia]. destruct (N.eq_dec s (y / 4096)) as [->|Ne]; [assumption|]. apply (IH (s + 1)); [lia|assumption|lia].
    - split; [split; [intros _|reflexivity]|split; [discriminate|split; [auto|split; [lia|lia]]]]. split; [assumption|]. apply Hall, forallb_forall. intros i Hi. apply (find_none _ _ Ef) in Hi. now apply negb_false_iff.
  Qed.
End Check.

Lemma read_check : page_check page_readable can_read.
Proof. intros m x. apply page_readable_spec. Qed.
Lemma write_check : page_check page_writable can_write.
Proof. intros m x. apply page_writable_spec. Qed.
Lemma can_read_len : forall m x, can_read m x -> x < m_len m. Proof. intros m x [A _]. exact A. Qed.
Lemma can_write_len : forall m x, can_write m x -> x < m_len m. Proof. intros m x [A _]. exact A. Qed.

Lemma read_bytes_spec : forall m a n, mem_ok m -> a < 2 ^ 32 -> 0 < n ->
  (forall bs, read_bytes m a n = Ok bs <-> allowed (can_read m) a n /\ length bs = N.to_nat n /\ forall i, (i < N.to_nat n)%nat -> nth i bs 0 = m_data m (a + N.of_nat i)) /\
  (forall p, read_bytes m a n = Err (AccessViolation p) -> faults_at (can_read m) a n p) /\
  (65536 <= a -> a + n <= m_len m -> (exists bs, read_bytes m a n = Ok bs) \/ exists p, read_bytes m a n = Err (AccessViolation p)) /\
  (a < 65536 -> read_bytes m a n = Err (Forbidden a)).
Proof.
  intros m a n Hm Ha Hn. destruct (validate_spec page_readable can_read read_check can_read_len m a n Hm Hn Ha) as (V1 & V2 & V3 & _ & V4).
  unfold read_bytes. destruct (N.eqb_spec n 0) as [->|Nz]; [lia|].
  assert (Hmap : forall bs : bytes, map (m_data m) (nrange a (N.to_nat n)) = bs <-> length bs = N.to_nat n /\ forall i, (i < N.to_nat n)%nat -> nth i bs 0 = m_data m (a + N.of_nat i)).
  { intros bs. split.
    - intros <-. split; [rewrite map_length; apply nrange_length|]. intros i Hi. rewrite (nth_indep _ 0 (m_data m 0)) by (rewrite map_length, nrange_length; lia). rewrite map_nth, nrange_nth by lia. reflexivity.
    - intros [Hl Hnth]. apply (nth_ext _ _ 0 0); [rewrite map_length, nrange_length; auto|]. intros i Hi. rewrite map_length, nrange_length in Hi. rewrite Hnth by assumption.
      rewrite (nth_indep _ 0 (m_data m 0)) by (rewrite map_length, nrange_length; lia). rewrite map_nth, nrange_nth by lia. reflexivity. }
  split; [|split; [|split]].
  - intros bs. rewrite <- V1, <- Hmap. destruct (validate page_readable m a n) as [[]|e|]; cbn [bind]; split; try discriminate; try (intros [H _]; discriminate).
    + intros [= <-]. auto.
    + intros [_ <-]. reflexivity.
  - intros p Hp. apply V2. destruct (validate page_readable m a n) as [[]|e|]; cbn [bind] in Hp; [discriminate|congruence|discriminate].
  - intros A B. destruct (V3 A B) as [->|[p ->]]; cbn [bind]; eauto.
  - intros A. rewrite (V4 A). reflexivity.
Qed.
Lemma read_bytes_nil : forall m a, read_bytes m a 0 = Ok [].
Proof. reflexivity. Qed.
Lemma read_byte_spec : forall m a, mem_ok m -> forall v, read_byte m a = Ok v <-> 65536 <= a /\ can_read m a /\ v = m_data m a.
Proof.
  intros m a Hm v. assert (Hm' := Hm). destruct Hm' as (A & B & C). unfold read_byte, INIT_ZONE_SIZE, page_of. rewrite A.
  destruct (N.ltb_spec a 65536); [split; [discriminate|lia]|]. destruct (N.leb_spec (m_len m) a); [split; [discriminate|intros (_ & [Q _] & _); lia]|].
  destruct (page_readable m (a / 4096)) eqn:E; split.
  - intros [= <-]. apply (page_readable_spec m a Hm) in E. auto.
  - intros (_ & _ & ->). reflexivity.
  - discriminate.
  - intros (_ & Q & _). apply (page_readable_spec m a Hm) in Q. congruence.
Qed.

(** Everything but the addressed bytes stays. *)
Definition wrote (m : mem) (a : N) (bs : bytes) (m' : mem) : Prop :=
  (forall x, m_data m' x = if (a <=? x) && (x <? a + N.of_nat (length bs)) then nth (N.to_nat (x - a)) bs 0 else m_data m x) /\
  m_acc m' = m_acc m /\ m_len m' = m_len m /\ m_psz m' = m_psz m /\ m_pages m' = m_pages m /\ m_heap_start m' = m_heap_start m /\ m_heap_end m' = m_heap_end m /\
  m_stack_start m' = m_stack_start m.

Lemma write_bytes_ok_iff : forall m a bs, mem_ok m -> a < 2 ^ 32 -> bs <> [] ->
  ((exists m', write_bytes m a bs = Ok m') <-> allowed (can_write m) a (N.of_nat (length bs))) /\
  (forall m', write_bytes m a bs = Ok m' -> wrote m a bs m') /\
  (forall p, write_bytes m a bs = Err (AccessViolation p) -> faults_at (can_write m) a (N.of_nat (length bs)) p) /\
  (65536 <= a -> a + N.of_nat (length bs) <= m_len m -> (exists m', write_bytes m a bs = Ok m') \/ exists p, write_bytes m a bs = Err (AccessViolation p)) /\
  (a < 65536 -> write_bytes m a bs = Err (Forbidden a)).
Proof.
  intros m a bs Hm Ha Hne. assert (Hn : 0 < N.of_nat (length bs)) by (destruct bs; [congruence|cbn; lia]).
  destruct (validate_spec page_writable can_write write_check can_write_len m a _ Hm Hn Ha) as (V1 & V2 & V3 & _ & V4).
  assert (E : write_bytes m a bs = let! _ := validate page_writable m a (N.of_nat (length bs)) in
     Ok (set_data m (fun x => if (a <=? x) && (x <? a + N.of_nat (length bs)) then nth (N.to_nat (x - a)) bs 0 else m_data m x))) by (destruct bs; [congruence|reflexivity]).
  rewrite E. split; [|split; [|split; [|split]]].
  - rewrite <- V1. destruct (validate page_writable m a _) as [[]|e|]; cbn [bind]; split; try discriminate; try (intros [m' H]; discriminate); eauto.
  - intros m'. destruct (validate page_writable m a _) as [[]|e|]; cbn [bind]; try discriminate. intros [= <-]. unfold wrote, set_data. cbn. intuition.
  - intros p Hp. apply V2. destruct (validate page_writable m a _) as [[]|e|]; cbn [bind] in Hp; [discriminate|congruence|discriminate].
  - intros A B. destruct (V3 A B) as [->|[p ->]]; cbn [bind]; eauto.
  - intros A. rewrite (V4 A). reflexivity.
Qed.
Lemma wrote_ok : forall m a bs m', mem_ok m -> wrote m a bs m' -> mem_ok m'.
Proof. intros m a bs m' (A & B & C) (_ & _ & D & E & F & _). unfold mem_ok. rewrite D, E, F. auto. Qed.
Lemma wrote_write : forall m a bs m' x, wrote m a bs m' -> can_write m' x <-> can_write m x.
Proof. intros m a bs m' x (_ & A & B & _). unfold can_write. rewrite A, B. tauto. Qed.

Lemma history : forall l m x, mem_ok m -> Forall (fun w => fst w < 2 ^ 32) l ->
  byte_after m x l (m_data (try_writes m l) x) /\ m_acc (try_writes m l) = m_acc m /\ m_len (try_writes m l) = m_len m /\ mem_ok (try_writes m l) /\
  (forall y, can_write (try_writes m l) y <-> can_write m y).
Proof.
  intros l m x Hm. induction l as [|[a bs] l IH] using rev_ind; intros Hl; [split; [apply ba_start|cbn; tauto]|].
  apply Forall_app in Hl as [Hl H1]. inversion H1 as [|? ? Ha _]; subst. cbn [fst] in Ha. destruct (IH Hl) as (I1 & I2 & I3 & I4 & I5).
  unfold try_writes in *. rewrite fold_left_app. cbn [fold_left fst snd]. set (m1 := fold_left _ l m) in *.
  destruct bs as [|b0 bs0] eqn:Ebs; [cbn [write_bytes]; split; [apply ba_miss; [assumption|cbn; lia]|auto]|]. rewrite <- Ebs in *. assert (Hne : bs <> []) by (rewrite Ebs; discriminate).
  destruct (write_bytes_ok_iff m1 a bs I4 Ha Hne) as (W1 & W2 & _).
  assert (Hal : allowed (can_write m1) a (N.of_nat (length bs)) <-> allowed (can_write m) a (N.of_nat (length bs))) by (unfold allowed; split; intros [Q R]; (split; [assumption|]); intros y Hy; apply I5; auto).
  destruct (write_bytes m1 a bs) as [m2|e|] eqn:Ew.
  - assert (Hw := W2 m2 eq_refl). assert (Hw' := Hw). destruct Hw' as (D & Acc & Len & _). rewrite D, Acc, Len.
    split; [|split; [assumption|split; [assumption|split; [eapply wrote_ok; eauto|intros y; rewrite (wrote_write m1 a bs m2 y Hw); auto]]]].
    destruct ((a <=? x) && (x <? a + N.of_nat (length bs))) eqn:Ex.
    + apply andb_prop in Ex as [X1 X2]. apply N.leb_le in X1. apply N.ltb_lt in X2. apply ba_hit; [|lia]. apply Hal, W1. eauto.
    + apply ba_miss; [assumption|]. intros [_ Hx]. apply andb_false_iff in Ex as [X|X]; [apply N.leb_gt in X|apply N.ltb_ge in X]; lia.
  - split; [|auto]. apply ba_miss; [assumption|]. intros [Q _]. apply Hal, W1 in Q as [m' E]. discriminate.
  - split; [|auto]. apply ba_miss; [assumption|]. intros [Q _]. apply Hal, W1 in Q as [m' E]. discriminate.
Qed.

Lemma range_readable_spec : forall m a n, mem_ok m -> a < 2 ^ 32 -> n < 2 ^ 64 -> is_address_range_readable m a n = true <-> (forall x, a <= x < a + n -> can_read m x).
Proof. exact (range_ok_spec page_readable can_read read_check can_read_len). Qed.
Lemma range_writable_spec : forall m a n, mem_ok m -> a < 2 ^ 32 -> n < 2 ^ 64 -> is_address_range_writable m a n = true <-> (forall x, a <= x < a + n -> can_write m x).
Proof. exact (range_ok_spec page_writable can_write write_check can_write_len). Qed.

(** ** Page permissions *)
Lemma set_pages_spec : forall l m x, (forall i, In i l -> i < m_pages m) -> exists m', set_pages m l x = Ok m' /\
  (forall i, m_acc m' i = if existsb (N.eqb i) l then x else m_acc m i) /\ m_data m' = m_data m /\ m_len m' = m_len m /\ m_psz m' = m_psz m /\ m_pages m' = m_pages m /\
  m_heap_start m' = m_heap_start m /\ m_heap_end m' = m_heap_end m /\ m_stack_start m' = m_stack_start m.
Proof.
  induction l as [|i l IH]; intros m x Hl; [exists m; cbn; repeat split; auto|]. cbn [set_pages]. unfold set_page_access at 1.
  assert (i < m_pages m) by (apply Hl; now left). destruct (N.leb_spec (m_pages m) i); [lia|]. cbn [bind].
  destruct (IH (mk_mem (m_data m) (m_len m) (fun j => if j =? i then x else m_acc m j) (m_psz m) (m_pages m) (m_heap_start m) (m_heap_end m) (m_stack_start m)) x) as (m' & E & A & B); [cbn; intros j Hj; apply Hl; now right|].
  exists m'. split; [assumption|]. cbn in B. split; [|assumption]. intros j. rewrite A. cbn [existsb m_acc]. destruct (j =? i); cbn [orb]; [now destruct (existsb (N.eqb j) l)|reflexivity].
Qed.
Lemma existsb_range : forall a b i, existsb (N.eqb i) (range a b) = (a <=? i) && (i <? b).
Proof.
  intros a b i. apply eq_true_iff_eq. rewrite existsb_exists, andb_true_iff, N.leb_le, N.ltb_lt. split; [intros (x & Hx & E); apply N.eqb_eq in E; subst; now apply range_In|].
  intros H. exists i. split; [now apply range_In|apply N.eqb_refl].
Qed.
Lemma set_address_range_spec : forall m a b x, mem_ok m -> b <= m_len m -> exists m', set_address_range_access m a b x = Ok m' /\ mem_ok m' /\
  (forall i, m_acc m' i = if (a <? b) && (a / 4096 <=? i) && (i <=? (b - 1) / 4096) then x else m_acc m i) /\ m_data m' = m_data m /\ m_len m' = m_len m /\
  m_heap_start m' = m_heap_start m /\ m_heap_end m' = m_heap_end m /\ m_stack_start m' = m_stack_start m.
Proof.
  intros m a b x Hm Hb. assert (Hm' := Hm). destruct Hm' as (A & B & C). unfold set_address_range_access. destruct (N.leb_spec b a) as [L|L].
  - exists m. split; [reflexivity|]. split; [assumption|]. split; [|auto 6]. intros i. destruct (N.ltb_spec a b); [lia|reflexivity].
  - unfold set_page_range_access, page_of. rewrite A. change (4096 =? 0) with false. cbv iota. destruct (set_pages_spec (range (a / 4096) ((b - 1) / 4096 + 1)) m x) as (m' & E & P1 & P2 & P3 & P4 & P5 & P6).
    { intros i Hi. apply range_In in Hi. assert (H0 : (b - 1) / 4096 < m_pages m) by (apply N.div_lt_upper_bound; [discriminate|lia]). lia. }
    exists m'. split; [assumption|]. split; [unfold mem_ok; rewrite P3, P4, P5; auto|]. split; [|rewrite P2, P3; auto].
    intros i. rewrite P1, existsb_range. destruct (N.ltb_spec a b); [|lia]. cbn [andb]. destruct (a / 4096 <=? i); cbn [andb]; [|reflexivity].
    destruct (N.ltb_spec i ((b - 1) / 4096 + 1)), (N.leb_spec i ((b - 1) / 4096)); try lia; reflexivity.
Qed.

(** ** sbrk *)
Lemma break_step_ge : forall m size b, b <= either (break_step m size b).
Proof. intros. unfold break_step. destruct (_ && _); cbn; lia. Qed.
Lemma break_loop_ge : forall m size p b, b <= either (break_loop m size p b).
Proof.
  intros m size. induction p as [q IH|q IH|]; intros b; cbn [break_loop].
  - assert (S := break_step_ge m size b). destruct (break_step m size b) as [x|b1]; [exact S|]. cbn [either] in S. assert (I := IH b1). destruct (break_loop m size q b1) as [x|b2]; cbn [either] in *; [lia|].
    assert (J := IH b2). lia.
  - assert (I := IH b). destruct (break_loop m size q b) as [x|b2]; cbn [either] in *; [lia|]. assert (J := IH b2). lia.
  - apply break_step_ge.
Qed.
Lemma get_break_ge : forall m size, m_heap_end m <= get_break m size.
Proof. intros. exact (break_loop_ge m size (2 ^ 32)%positive (m_heap_end m)). Qed.
(** The address found: every earlier one was readable but not writable there. *)
Lemma sbrk_spec : forall m size m' b, mem_ok m -> m_len m = 2 ^ 32 -> sbrk m size = Ok (m', b) -> b + size < 2 ^ 32 ->
  mem_ok m' /\ m_len m' = 2 ^ 32 /\ m_heap_end m <= b /\ m_heap_end m' = b + size /\ (m_heap_start m <> 0 -> b + size < m_stack_start m) /\
  (forall x, b <= x < b + size -> can_write m' x) /\ m_data m' = m_data m /\ m_heap_start m' = m_heap_start m /\ m_stack_start m' = m_stack_start m /\
  (forall i, (forall x, b <= x < b + size -> x / 4096 <> i) -> m_acc m' i = m_acc m i).
Proof.
  intros m size m' b Hm Hl. unfold sbrk, expand_heap. assert (G := get_break_ge m size). revert G. generalize (get_break m size) as g. intros g G.
  destruct (negb (m_heap_start m =? 0) && (m_stack_start m <=? u32 (g + u32 size))) eqn:Ec; [discriminate|].
  intros E Hb. destruct (set_address_range_access m g (u32 (g + u32 size)) ReadWrite) as [m1|e|] eqn:Es; try discriminate. cbn [bind] in E.
  assert (b = g) by congruence. subst b. rewrite (u32_small size) in * by lia. rewrite (u32_small (g + size)) in * by lia.
  destruct (set_address_range_spec m g (g + size) ReadWrite Hm) as (m2 & E2 & P1 & P2 & P3 & P4 & P5 & P6 & P7); [lia|]. rewrite E2 in Es. injection Es as <-. injection E as <-.
  cbn [m_len m_heap_end m_data m_heap_start m_stack_start m_acc]. split; [exact P1|]. split; [lia|]. split; [assumption|]. split; [reflexivity|]. split.
  { intros Hs. apply andb_false_iff in Ec as [Ec|Ec]; [apply negb_false_iff, N.eqb_eq in Ec; congruence|now apply N.leb_gt in Ec]. }
  split; [|split; [assumption|split; [assumption|split; [assumption|]]]].
  - intros x Hx. unfold can_write. cbn [m_len m_acc]. split; [lia|]. rewrite P2. assert (T := touched_in g size x Hx).
    destruct (N.ltb_spec g (g + size)); [|lia]. cbn [andb]. destruct (N.leb_spec (g / 4096) (x / 4096)); [|lia]. cbn [andb]. destruct (N.leb_spec (x / 4096) ((g + size - 1) / 4096)); [reflexivity|lia].
  - intros i Hi. rewrite P2. destruct (N.ltb_spec g (g + size)) as [L|L]; [|reflexivity]. cbn [andb]. destruct (N.leb_spec (g / 4096) i) as [L1|L1]; [|reflexivity]. cbn [andb].
    destruct (N.leb_spec i ((g + size - 1) / 4096)) as [L2|L2]; [|reflexivity]. exfalso. destruct (touched g size i ltac:(lia) ltac:(lia)) as (x & Hx & Ex). exact (Hi x Hx Ex).
Qed.
