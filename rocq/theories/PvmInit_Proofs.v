From Coq Require Import Lia ZArith ZifyBool.
From Verif Require Import Base Base_Proofs Codec_Model Codec_Proofs Codec2_Proofs PvmMem_Model PvmMem_Spec PvmMem_Proofs PvmProg_Model PvmProg_Proofs PvmStep_Model PvmRun_Spec PvmRun_Proofs PvmInit_Model PvmInit_Spec.
Open Scope N_scope.

Lemma rounds_up k x : k <> 0 -> rounds k x (k * div_ceil x k).
Proof.
  intros Hk. unfold rounds, div_ceil. split; [apply N.divide_factor_l|]. pose proof (N.div_mod (x + k - 1) k Hk). pose proof (N.mod_lt (x + k - 1) k Hk). nia.
Qed.
Lemma rounds_uniq k x y y' : rounds k x y -> rounds k x y' -> y = y'.
Proof. intros ([a ->] & A) ([b ->] & B). destruct (N.lt_trichotomy a b) as [L|[->|L]]; [|reflexivity|]; exfalso; nia. Qed.
Lemma page_rounds x : rounds 4096 x (page_align x). Proof. now apply rounds_up. Qed.
Lemma zone_rounds x : rounds 65536 x (zone_align x). Proof. now apply rounds_up. Qed.
Lemma page_mult x : exists k, page_align x = 4096 * k. Proof. now exists (div_ceil x 4096). Qed.
Lemma zone_mult x : exists k, zone_align x = 65536 * k. Proof. now exists (div_ceil x 65536). Qed.
Lemma page_bounds x : x <= page_align x < x + 4096. Proof. apply page_rounds. Qed.
Lemma zone_bounds x : x <= zone_align x < x + 65536. Proof. apply zone_rounds. Qed.
Lemma page_in_zone x e : page_align x + 4096 * e <= zone_align (x + e * 4096).
Proof. destruct (page_mult x) as [k Hk], (zone_mult (x + e * 4096)) as [j Hj]. pose proof (page_bounds x). pose proof (zone_bounds (x + e * 4096)). lia. Qed.

Lemma fits_valid f : is_program_size_valid f = true <-> fits f.
Proof.
  unfold is_program_size_valid, fits, INIT_INPUT_SIZE, INIT_ZONE_SIZE. rewrite N.leb_le. split.
  - intros H. do 3 eexists. split; [apply zone_rounds|]. split; [apply zone_rounds|]. split; [apply zone_rounds|]. unfold PAGE_SIZE in H. rewrite (N.mul_comm 4096). exact H.
  - intros (a & b & c & A & B & C & H). pose proof (rounds_uniq _ _ _ _ A (zone_rounds _)). pose proof (rounds_uniq _ _ _ _ B (zone_rounds _)). pose proof (rounds_uniq _ _ _ _ C (zone_rounds _)).
    unfold PAGE_SIZE. rewrite (N.mul_comm (f_extra f)). lia.
Qed.

(** ** One region *)
Definition page_in (a b i : N) : bool := (a <=? 4096 * i) && (4096 * i <? b).
Lemma set_region m a b x : mem_ok m -> m_len m = 2 ^ 32 -> (4096 | a) -> (4096 | b) -> b <= 2 ^ 32 ->
  exists m', set_address_range_access m a b x = Ok m' /\ mem_ok m' /\ m_len m' = 2 ^ 32 /\ (forall i, m_acc m' i = if page_in a b i then x else m_acc m i) /\
    m_data m' = m_data m /\ m_heap_start m' = m_heap_start m /\ m_heap_end m' = m_heap_end m /\ m_stack_start m' = m_stack_start m.
Proof.
  intros Hm HL [ka ->] [kb ->] Hb. destruct (set_address_range_spec m (ka * 4096) (kb * 4096) x Hm) as (m' & E & O & A & D & L & H1 & H2 & H3); [lia|].
  exists m'. split; [exact E|]. split; [exact O|]. split; [congruence|]. split; [|auto]. intros i. rewrite A.
  match goal with |- (if ?c then _ else _) = (if ?c' then _ else _) => enough (HC : c = c') by now rewrite HC end.
  unfold page_in. rewrite N.div_mul by discriminate.
  destruct (N.ltb_spec (ka * 4096) (kb * 4096)) as [Lt|Ge]; cbn [andb].
  - assert (Eb : (kb * 4096 - 1) / 4096 = kb - 1).
    { replace (kb * 4096 - 1) with ((kb - 1) * 4096 + 4095) by lia. rewrite N.div_add_l by discriminate. change (4095 / 4096) with 0. lia. }
    rewrite Eb. destruct (N.leb_spec ka i), (N.leb_spec i (kb - 1)), (N.leb_spec (ka * 4096) (4096 * i)), (N.ltb_spec (4096 * i) (kb * 4096)); cbn [andb]; try reflexivity; exfalso; lia.
  - destruct (N.leb_spec (ka * 4096) (4096 * i)), (N.ltb_spec (4096 * i) (kb * 4096)); cbn [andb]; try reflexivity; exfalso; lia.
Qed.
Definition in_bytes (a : N) (bs : bytes) (x : N) : bool := (a <=? x) && (x <? a + N.of_nat (length bs)).
Lemma write_region m a b bs : mem_ok m -> m_len m = 2 ^ 32 -> 65536 <= a -> b <= 2 ^ 32 -> a + N.of_nat (length bs) <= b -> (4096 | b) ->
  (forall i, page_in (4096 * (a / 4096)) b i = true -> m_acc m i = ReadWrite) ->
  exists m', write_bytes m a bs = Ok m' /\ mem_ok m' /\ m_len m' = 2 ^ 32 /\ m_acc m' = m_acc m /\
    (forall x, m_data m' x = if in_bytes a bs x then nth (N.to_nat (x - a)) bs 0 else m_data m x) /\
    m_heap_start m' = m_heap_start m /\ m_heap_end m' = m_heap_end m /\ m_stack_start m' = m_stack_start m.
Proof.
  intros Hm HL Ha Hb Hlen Hdiv HA. destruct (list_eq_dec N.eq_dec bs []) as [->|NE].
  - exists m. split; [reflexivity|]. split; [exact Hm|]. split; [exact HL|]. split; [reflexivity|]. split; [|auto].
    intros x. unfold in_bytes. cbn [length N.of_nat]. destruct (N.leb_spec a x), (N.ltb_spec x (a + 0)); cbn [andb]; try reflexivity. lia.
  - assert (NL : length bs <> 0%nat) by (destruct bs; [congruence|discriminate]).
    destruct (write_bytes_ok_iff m a bs Hm ltac:(lia) NE) as (I & W & _).
    assert (AL : allowed (can_write m) a (N.of_nat (length bs))).
    { split; [exact Ha|]. intros x Hx. split; [lia|]. apply HA. unfold page_in. pose proof (N.div_mod x 4096 ltac:(discriminate)).
      pose proof (N.mod_lt x 4096 ltac:(discriminate)). pose proof (N.div_le_mono a x 4096 ltac:(discriminate) ltac:(lia)). destruct Hdiv as [k ->].
      apply andb_true_intro. split; [apply N.leb_le; lia|apply N.ltb_lt; lia]. }
    destruct (proj2 I AL) as [m' E]. exists m'. split; [exact E|]. pose proof (W m' E) as Wm. split; [now apply (wrote_ok m a bs)|].
    destruct Wm as (D & A & L & _ & _ & H1 & H2 & H3). split; [congruence|]. split; [exact A|]. split; [|auto]. exact D.
Qed.

(** ** The whole layout *)
Definition w_lo (f : fprog) : N := 2 * 65536 + zone_align (f_static_size f).
Definition w_hi (f : fprog) : N := w_lo f + page_align (f_heap_size f) + 4096 * f_extra f.
Definition s_hi : N := 2 ^ 32 - 2 * 65536 - 2 ^ 24.
Definition s_lo (f : fprog) : N := s_hi - page_align (f_stack_size f).
Definition a_lo : N := 2 ^ 32 - 65536 - 2 ^ 24.
Lemma div4096_add a b : (4096 | a) -> (4096 | b) -> (4096 | a + b). Proof. apply N.divide_add_r. Qed.
Lemma page_div x : (4096 | page_align x). Proof. apply page_rounds. Qed.
Lemma zone_div x : (4096 | zone_align x). Proof. destruct (zone_mult x) as [k ->]. exists (16 * k). lia. Qed.
Lemma u32_id x : x < 2 ^ 32 -> u32 x = x. Proof. apply u32_small. Qed.
Lemma sizes f : fprog_ok f -> is_program_size_valid f = true ->
  65536 + page_align (f_static_size f) + 65536 <= w_lo f /\ w_hi f + 65536 <= s_lo f /\ s_lo f + page_align (f_stack_size f) = s_hi /\ page_align (f_heap_size f) < 2 ^ 25 /\
  zone_align (f_static_size f) < 2 ^ 25 /\ page_align (f_static_size f) < 2 ^ 25.
Proof.
  intros (E1 & E2 & E3 & B1 & B2 & B3 & B4 & B5 & _) V. unfold is_program_size_valid, INIT_INPUT_SIZE, INIT_ZONE_SIZE, PAGE_SIZE in V. apply N.leb_le in V.
  pose proof (page_in_zone (f_static_size f) 0) as P1. replace (f_static_size f + 0 * 4096) with (f_static_size f) in P1 by lia.
  pose proof (page_in_zone (f_stack_size f) 0) as P2. replace (f_stack_size f + 0 * 4096) with (f_stack_size f) in P2 by lia.
  pose proof (page_in_zone (f_heap_size f) (f_extra f)). pose proof (zone_bounds (f_static_size f)). pose proof (page_bounds (f_heap_size f)). pose proof (page_bounds (f_stack_size f)).
  unfold w_hi, w_lo, s_lo, s_hi. lia.
Qed.
Definition acc_of (f : fprog) (n i : N) : access :=
  if page_in a_lo (a_lo + page_align n) i then ReadOnly else if page_in (s_lo f) s_hi i then ReadWrite else if page_in (w_lo f) (w_hi f) i then ReadWrite
  else if page_in 65536 (65536 + page_align (f_static_size f)) i then ReadOnly else Inaccessible.
Definition data_of (f : fprog) (args : bytes) (x : N) : N :=
  if in_bytes a_lo args x then nth (N.to_nat (x - a_lo)) args 0 else if in_bytes (w_lo f) (f_heap f) x then nth (N.to_nat (x - w_lo f)) (f_heap f) 0
  else if in_bytes 65536 (f_static f) x then nth (N.to_nat (x - 65536)) (f_static f) 0 else 0.
Lemma page_in_self a b i : page_in (4096 * (a / 4096)) b i = true -> (4096 | a) -> page_in a b i = true.
Proof. intros H [k ->]. rewrite N.div_mul in H by discriminate. unfold page_in in *. now rewrite (N.mul_comm k). Qed.
Lemma setup_spec f args : fprog_ok f -> is_program_size_valid f = true -> N.of_nat (length args) <= 2 ^ 24 ->
  exists m, setup_memory_layout f args = Ok m /\ mem_ok m /\ m_len m = 2 ^ 32 /\ (forall i, m_acc m i = acc_of f (N.of_nat (length args)) i) /\
    (forall x, m_data m x = data_of f args x) /\ m_heap_start m = w_lo f /\ m_heap_end m = w_hi f /\ m_stack_start m = s_lo f.
Proof.
  intros F V HA. destruct (sizes f F V) as (S1 & S2 & S3 & S4 & S5 & S6). destruct F as (E1 & E2 & E3 & B1 & B2 & B3 & B4 & B5 & _).
  pose proof (page_bounds (N.of_nat (length args))) as PA. pose proof (page_bounds (f_static_size f)) as PO. pose proof (page_bounds (f_heap_size f)) as PW.
  assert (PA' : page_align (N.of_nat (length args)) <= 2 ^ 24).
  { destruct (page_mult (N.of_nat (length args))) as [k Hk]. rewrite Hk in *. assert (k <= 4096) by lia. change (2 ^ 24) with (4096 * 4096). lia. }
  assert (D1 : (4096 | 65536)) by (now exists 16). assert (D2 : (4096 | s_hi)) by (unfold s_hi; now exists 1044448). assert (D3 : (4096 | a_lo)) by (unfold a_lo; now exists 1044464).
  assert (D4 : (4096 | w_lo f)) by (unfold w_lo; apply div4096_add; [now exists 32|apply zone_div]).
  assert (D5 : (4096 | w_hi f)) by (unfold w_hi; apply div4096_add; [apply div4096_add; [exact D4|apply page_div]|apply N.divide_factor_l]).
  assert (D6 : (4096 | s_lo f)).
  { destruct D2 as [k Hk], (page_div (f_stack_size f)) as [j Hj]. exists (k - j). rewrite Hk, Hj in S3. lia. }
  assert (D7 : (4096 | 65536 + page_align (f_static_size f))) by (apply div4096_add; [exact D1|apply page_div]).
  assert (D8 : (4096 | a_lo + page_align (N.of_nat (length args)))) by (apply div4096_add; [exact D3|apply page_div]).
  assert (L0 : w_hi f = w_lo f + page_align (f_heap_size f) + 4096 * f_extra f) by reflexivity.
  assert (L1 : s_hi < 2 ^ 32) by reflexivity. assert (L2 : s_hi + 65536 = a_lo) by reflexivity. assert (L3 : a_lo + 2 ^ 24 < 2 ^ 32) by reflexivity.
  unfold setup_memory_layout. cbv zeta.
  assert (M0 : mem_ok (mem_new MEMORY_SIZE PAGE_SIZE)) by (repeat split; discriminate).
  assert (ML : m_len (mem_new MEMORY_SIZE PAGE_SIZE) = 2 ^ 32) by reflexivity.
  change (u32 INIT_ZONE_SIZE) with 65536. rewrite (u32_id (page_align (f_static_size f))) by lia. rewrite (u32_id (65536 + page_align (f_static_size f))) by lia.
  change (2 * INIT_ZONE_SIZE + zone_align (f_static_size f)) with (w_lo f). rewrite (u32_id (w_lo f)) by lia.
  assert (EW : u32 (u32 (w_lo f + u32 (page_align (f_heap_size f))) + u32 (f_extra f * PAGE_SIZE)) = w_hi f).
  { unfold PAGE_SIZE. assert (w_hi f = w_lo f + page_align (f_heap_size f) + 4096 * f_extra f) by reflexivity. rewrite !u32_id; try lia; rewrite ?u32_id; try lia; rewrite ?u32_id; lia. }
  rewrite EW. change (2 ^ 32 - 2 * INIT_ZONE_SIZE - INIT_INPUT_SIZE) with s_hi. change (s_hi - page_align (f_stack_size f)) with (s_lo f).
  rewrite (u32_id (s_lo f)) by lia. rewrite (u32_id s_hi) by lia. change (u32 (2 ^ 32 - INIT_ZONE_SIZE - INIT_INPUT_SIZE)) with a_lo.
  rewrite (u32_id (page_align (N.of_nat (length args)))) by lia. rewrite (u32_id (a_lo + page_align (N.of_nat (length args)))) by lia.
  destruct (set_region _ 65536 (65536 + page_align (f_static_size f)) ReadWrite M0 ML D1 D7 ltac:(lia)) as (m1 & -> & O1 & ML1 & A1 & Dt1 & Hs1 & He1 & St1). cbn [bind].
  destruct (write_region m1 65536 (65536 + page_align (f_static_size f)) (f_static f) O1 ML1 ltac:(lia) ltac:(lia) ltac:(lia) D7) as (m2 & -> & O2 & ML2 & A2 & Dt2 & Hs2 & He2 & St2).
  { intros i Hi. apply page_in_self in Hi; [|exact D1]. now rewrite A1, Hi. }
  cbn [bind]. destruct (set_region m2 65536 (65536 + page_align (f_static_size f)) ReadOnly O2 ML2 D1 D7 ltac:(lia)) as (m3 & -> & O3 & ML3 & A3 & Dt3 & Hs3 & He3 & St3). cbn [bind].
  destruct (set_region m3 (w_lo f) (w_hi f) ReadWrite O3 ML3 D4 D5 ltac:(lia)) as (m4 & -> & O4 & ML4 & A4 & Dt4 & Hs4 & He4 & St4). cbn [bind].
  destruct (write_region m4 (w_lo f) (w_hi f) (f_heap f) O4 ML4 ltac:(lia) ltac:(lia) ltac:(unfold w_hi; lia) D5) as (m5 & -> & O5 & ML5 & A5 & Dt5 & Hs5 & He5 & St5).
  { intros i Hi. apply page_in_self in Hi; [|exact D4]. now rewrite A4, Hi. }
  cbn [bind]. assert (O6 : mem_ok (set_heap m5 (w_lo f) (w_hi f))) by exact O5.
  destruct (set_region (set_heap m5 (w_lo f) (w_hi f)) (s_lo f) s_hi ReadWrite O6 ML5 D6 D2 ltac:(lia)) as (m7 & -> & O7 & ML7 & A7 & Dt7 & Hs7 & He7 & St7). cbn [bind].
  assert (O8 : mem_ok (set_stack m7 (s_lo f))) by exact O7.
  destruct (set_region (set_stack m7 (s_lo f)) a_lo (a_lo + page_align (N.of_nat (length args))) ReadWrite O8 ML7 D3 D8 ltac:(lia)) as (m9 & -> & O9 & ML9 & A9 & Dt9 & Hs9 & He9 & St9).
  cbn [bind]. destruct (write_region m9 a_lo (a_lo + page_align (N.of_nat (length args))) args O9 ML9 ltac:(lia) ltac:(lia) ltac:(lia) D8) as (m10 & -> & O10 & ML10 & A10 & Dt10 & Hs10 & He10 & St10).
  { intros i Hi. apply page_in_self in Hi; [|exact D3]. now rewrite A9, Hi. }
  cbn [bind]. destruct (set_region m10 a_lo (a_lo + page_align (N.of_nat (length args))) ReadOnly O10 ML10 D3 D8 ltac:(lia)) as (m11 & -> & O11 & ML11 & A11 & Dt11 & Hs11 & He11 & St11).
  exists m11. split; [reflexivity|]. split; [exact O11|]. split; [exact ML11|].
  cbn [m_acc m_data m_heap_start m_heap_end m_stack_start set_heap set_stack mem_new] in *.
  split; [|split; [|repeat split; congruence]].
  - intros i. unfold acc_of. rewrite A11, A10, A9. destruct (page_in a_lo _ i); [reflexivity|]. rewrite A7. destruct (page_in (s_lo f) s_hi i); [reflexivity|].
    rewrite A5, A4. destruct (page_in (w_lo f) (w_hi f) i); [reflexivity|]. rewrite A3. destruct (page_in 65536 _ i) eqn:Q; [reflexivity|]. rewrite A2, A1, Q. reflexivity.
  - intros x. unfold data_of. rewrite Dt11, Dt10. destruct (in_bytes a_lo args x); [reflexivity|]. rewrite Dt9, Dt7, Dt5. destruct (in_bytes (w_lo f) (f_heap f) x); [reflexivity|].
    rewrite Dt4, Dt3, Dt2. destruct (in_bytes 65536 (f_static f) x); [reflexivity|]. now rewrite Dt1.
Qed.

(** ** What the regions mean *)
Lemma bounds_static f n lo hi : bounds f n ZStatic lo hi <-> lo = 65536 /\ hi = 65536 + page_align (f_static_size f).
Proof.
  cbn [bounds]. split; [intros (-> & p & R & ->)|intros (-> & ->)].
  - now rewrite (rounds_uniq _ _ _ _ R (page_rounds _)).
  - split; [reflexivity|]. eexists. split; [apply page_rounds|reflexivity].
Qed.
Lemma bounds_heap f n lo hi : bounds f n ZHeap lo hi <-> lo = w_lo f /\ hi = w_hi f.
Proof.
  cbn [bounds]. unfold w_hi, w_lo. split; [intros (q & p & Q & R & -> & ->)|intros (-> & ->)].
  - now rewrite (rounds_uniq _ _ _ _ R (page_rounds _)), (rounds_uniq _ _ _ _ Q (zone_rounds _)).
  - do 2 eexists. split; [apply zone_rounds|]. split; [apply page_rounds|]. split; reflexivity.
Qed.
Lemma bounds_stack f n lo hi : f_stack_size f < 2 ^ 24 -> bounds f n ZStack lo hi <-> lo = s_lo f /\ hi = s_hi.
Proof.
  intros B. pose proof (page_bounds (f_stack_size f)) as P. cbn [bounds]. unfold s_lo. change (2 ^ 32 - 2 * 65536 - 2 ^ 24) with s_hi.
  assert (s_hi = 4278059008) by reflexivity. split; [intros (-> & p & R & E)|intros (-> & ->)].
  - apply (rounds_uniq _ _ _ _ (page_rounds _)) in R. subst p. lia.
  - split; [reflexivity|]. eexists. split; [apply page_rounds|]. lia.
Qed.
Lemma bounds_args f n lo hi : bounds f n ZArgs lo hi <-> lo = a_lo /\ hi = a_lo + page_align n.
Proof.
  cbn [bounds]. change (2 ^ 32 - 65536 - 2 ^ 24) with a_lo. split; [intros (-> & p & R & ->)|intros (-> & ->)].
  - now rewrite (rounds_uniq _ _ _ _ R (page_rounds _)).
  - split; [reflexivity|]. eexists. split; [apply page_rounds|reflexivity].
Qed.
Definition zlo (f : fprog) (z : zone) : N := match z with ZStatic => 65536 | ZHeap => w_lo f | ZStack => s_lo f | ZArgs => a_lo end.
Definition zhi (f : fprog) (n : N) (z : zone) : N :=
  match z with ZStatic => 65536 + page_align (f_static_size f) | ZHeap => w_hi f | ZStack => s_hi | ZArgs => a_lo + page_align n end.
Lemma bounds_is f n z lo hi : f_stack_size f < 2 ^ 24 -> bounds f n z lo hi <-> lo = zlo f z /\ hi = zhi f n z.
Proof. intros B. destruct z; cbn [zlo zhi]; [apply bounds_static|apply bounds_heap|now apply bounds_stack|apply bounds_args]. Qed.
Lemma inside_is f n z x : f_stack_size f < 2 ^ 24 -> inside f n z x <-> zlo f z <= x < zhi f n z.
Proof.
  intros B. unfold inside. split.
  - intros (lo & hi & H & Hx). apply bounds_is in H as [-> ->]; assumption.
  - intros Hx. exists (zlo f z), (zhi f n z). split; [now apply bounds_is|exact Hx].
Qed.
Lemma args_round n : n <= 2 ^ 24 -> page_align n <= 2 ^ 24.
Proof. intros H. pose proof (page_bounds n). destruct (page_mult n) as [k Hk]. rewrite Hk in *. assert (k <= 4096) by lia. change (2 ^ 24) with (4096 * 4096). lia. Qed.
Lemma order f n : fprog_ok f -> is_program_size_valid f = true -> n <= 2 ^ 24 ->
  65536 <= zhi f n ZStatic /\ zhi f n ZStatic + 65536 <= zlo f ZHeap /\ zlo f ZHeap <= zhi f n ZHeap /\ zhi f n ZHeap + 65536 <= zlo f ZStack /\ zlo f ZStack <= zhi f n ZStack /\
  zhi f n ZStack + 65536 <= zlo f ZArgs /\ zlo f ZArgs <= zhi f n ZArgs /\ zhi f n ZArgs + 65536 <= 2 ^ 32.
Proof.
  intros F V Hn. destruct (sizes f F V) as (S1 & S2 & S3 & S4 & S5 & S6). pose proof (args_round n Hn). cbn [zlo zhi].
  assert (E1 : s_hi = 4278059008) by reflexivity. assert (E2 : a_lo = 4278124544) by reflexivity. assert (w_lo f <= w_hi f) by (unfold w_hi; lia). lia.
Qed.
Lemma zones_apart_lemma f n z z' lo hi lo' hi' : fprog_ok f -> fits f -> n <= 2 ^ 24 -> z <> z' -> bounds f n z lo hi -> bounds f n z' lo' hi' ->
  (hi + 65536 <= lo' \/ hi' + 65536 <= lo) /\ 65536 <= lo /\ lo <= hi /\ hi + 65536 <= 2 ^ 32.
Proof.
  intros F V Hn Ne B B'. apply fits_valid in V. pose proof (order f n F V Hn) as O. assert (f_stack_size f < 2 ^ 24) by apply F.
  apply bounds_is in B as [-> ->]; [|assumption]. apply bounds_is in B' as [-> ->]; [|assumption].
  destruct z, z'; try congruence; cbn [zlo zhi] in *; lia.
Qed.
Lemma zone_div_lo f z : fprog_ok f -> is_program_size_valid f = true -> (4096 | zlo f z).
Proof.
  intros F V. destruct (sizes f F V) as (_ & _ & S3 & _). destruct z; cbn [zlo].
  - now exists 16.
  - unfold w_lo. apply div4096_add; [now exists 32|apply zone_div].
  - assert (D2 : (4096 | s_hi)) by (unfold s_hi; now exists 1044448). destruct D2 as [k Hk], (page_div (f_stack_size f)) as [j Hj]. exists (k - j). rewrite Hk, Hj in S3. lia.
  - unfold a_lo. now exists 1044464.
Qed.
Lemma zone_div_hi f n z : fprog_ok f -> is_program_size_valid f = true -> (4096 | zhi f n z).
Proof.
  intros F V. destruct z; cbn [zhi].
  - apply div4096_add; [now exists 16|apply page_div].
  - unfold w_hi. apply div4096_add; [apply div4096_add; [exact (zone_div_lo f ZHeap F V)|apply page_div]|apply N.divide_factor_l].
  - unfold s_hi. now exists 1044448.
  - apply div4096_add; [exact (zone_div_lo f ZArgs F V)|apply page_div].
Qed.
Lemma page_in_byte lo hi x : (4096 | lo) -> (4096 | hi) -> page_in lo hi (x / 4096) = true <-> lo <= x < hi.
Proof.
  intros [a ->] [b ->]. unfold page_in. rewrite andb_true_iff, N.leb_le, N.ltb_lt. pose proof (N.div_mod x 4096 ltac:(discriminate)).
  pose proof (N.mod_lt x 4096 ltac:(discriminate)). nia.
Qed.
Lemma acc_by_zone f n x : fprog_ok f -> is_program_size_valid f = true -> n <= 2 ^ 24 ->
  (forall z, zlo f z <= x < zhi f n z -> acc_of f n (x / 4096) = rights z) /\ ((forall z, ~ zlo f z <= x < zhi f n z) -> acc_of f n (x / 4096) = Inaccessible).
Proof.
  intros F V Hn. pose proof (order f n F V Hn) as O.
  assert (P : forall z, page_in (zlo f z) (zhi f n z) (x / 4096) = true <-> zlo f z <= x < zhi f n z) by (intros z; apply page_in_byte; [now apply zone_div_lo|now apply zone_div_hi]).
  unfold acc_of. change (page_in a_lo (a_lo + page_align n)) with (page_in (zlo f ZArgs) (zhi f n ZArgs)). change (page_in (s_lo f) s_hi) with (page_in (zlo f ZStack) (zhi f n ZStack)).
  change (page_in (w_lo f) (w_hi f)) with (page_in (zlo f ZHeap) (zhi f n ZHeap)).
  change (page_in 65536 (65536 + page_align (f_static_size f))) with (page_in (zlo f ZStatic) (zhi f n ZStatic)).
  assert (P' : forall z, page_in (zlo f z) (zhi f n z) (x / 4096) = false <-> ~ zlo f z <= x < zhi f n z).
  { intros z. rewrite <- P. destruct (page_in _ _ _); split; congruence. }
  split.
  - intros z Hz. assert (T : page_in (zlo f z) (zhi f n z) (x / 4096) = true) by now apply P.
    destruct z; cbn [rights].
    + assert (page_in (zlo f ZArgs) (zhi f n ZArgs) (x / 4096) = false) as -> by (apply P'; cbn [zlo zhi] in *; lia).
      assert (page_in (zlo f ZStack) (zhi f n ZStack) (x / 4096) = false) as -> by (apply P'; cbn [zlo zhi] in *; lia).
      assert (page_in (zlo f ZHeap) (zhi f n ZHeap) (x / 4096) = false) as -> by (apply P'; cbn [zlo zhi] in *; lia). now rewrite T.
    + assert (page_in (zlo f ZArgs) (zhi f n ZArgs) (x / 4096) = false) as -> by (apply P'; cbn [zlo zhi] in *; lia).
      assert (page_in (zlo f ZStack) (zhi f n ZStack) (x / 4096) = false) as -> by (apply P'; cbn [zlo zhi] in *; lia). now rewrite T.
    + assert (page_in (zlo f ZArgs) (zhi f n ZArgs) (x / 4096) = false) as -> by (apply P'; cbn [zlo zhi] in *; lia). now rewrite T.
    + now rewrite T.
  - intros H. rewrite !(proj2 (P' _) (H _)). reflexivity.
Qed.
Lemma in_bytes_spec a bs x : in_bytes a bs x = true <-> a <= x < a + N.of_nat (length bs).
Proof. unfold in_bytes. rewrite andb_true_iff, N.leb_le, N.ltb_lt. tauto. Qed.
Lemma in_bytes_no a bs x : ~ a <= x < a + N.of_nat (length bs) -> in_bytes a bs x = false.
Proof. intros H. destruct (in_bytes a bs x) eqn:E; [|reflexivity]. now apply in_bytes_spec in E. Qed.
Lemma nth_beyond (bs : bytes) a x : a <= x -> in_bytes a bs x = false -> nth (N.to_nat (x - a)) bs 0 = 0.
Proof. intros H E. apply nth_overflow. unfold in_bytes in E. destruct (N.leb_spec a x); [|lia]. cbn [andb] in E. apply N.ltb_ge in E. lia. Qed.
Lemma data_by_zone f args x : fprog_ok f -> is_program_size_valid f = true -> N.of_nat (length args) <= 2 ^ 24 ->
  (forall z, zlo f z <= x < zhi f (N.of_nat (length args)) z -> data_of f args x = nth (N.to_nat (x - zlo f z)) (content f args z) 0) /\
  ((forall z, ~ zlo f z <= x < zhi f (N.of_nat (length args)) z) -> data_of f args x = 0).
Proof.
  intros F V Hn. set (n := N.of_nat (length args)) in *. pose proof (order f n F V Hn) as O.
  pose proof (page_bounds n) as B1. pose proof (page_bounds (f_static_size f)) as B2. pose proof (page_bounds (f_heap_size f)) as B3.
  assert (E1 : f_static_size f = N.of_nat (length (f_static f))) by apply F. assert (E2 : f_heap_size f = N.of_nat (length (f_heap f))) by apply F.
  assert (W : w_hi f = w_lo f + page_align (f_heap_size f) + 4096 * f_extra f) by reflexivity.
  unfold data_of. cbn [zlo zhi] in O. split.
  - intros z Hz. destruct z; cbn [zlo zhi content] in *.
    + rewrite (in_bytes_no a_lo) by lia. rewrite (in_bytes_no (w_lo f)) by lia. destruct (in_bytes 65536 (f_static f) x) eqn:E; [reflexivity|]. symmetry. apply nth_beyond; [lia|exact E].
    + rewrite (in_bytes_no a_lo) by lia. destruct (in_bytes (w_lo f) (f_heap f) x) eqn:E; [reflexivity|]. rewrite (in_bytes_no 65536) by lia. symmetry. apply nth_beyond; [lia|exact E].
    + rewrite (in_bytes_no a_lo) by lia. rewrite (in_bytes_no (w_lo f)) by lia. rewrite (in_bytes_no 65536) by lia. now destruct (N.to_nat (x - s_lo f)).
    + destruct (in_bytes a_lo args x) eqn:E; [reflexivity|]. rewrite (in_bytes_no (w_lo f)) by lia. rewrite (in_bytes_no 65536) by lia. symmetry. apply nth_beyond; [lia|exact E].
  - intros H. pose proof (H ZArgs) as H1. pose proof (H ZHeap) as H2. pose proof (H ZStatic) as H3. cbn [zlo zhi] in *.
    rewrite (in_bytes_no a_lo) by (fold n; lia). rewrite (in_bytes_no (w_lo f)) by lia. rewrite (in_bytes_no 65536) by lia. reflexivity.
Qed.

(** ** Decoding *)
Lemma decode_raw_app bs rest : N.of_nat (length bs) < 2 ^ 32 -> decode_raw (N.of_nat (length bs)) (bs ++ rest) = Ok (bs, rest).
Proof.
  intros H. unfold decode_raw, alloc_ok, isize_max. destruct (N.leb_spec (N.of_nat (length bs) * 1) (2 ^ 63 - 1)); [|lia].
  rewrite read_exact_N_eq, Nat2N.id. apply read_exact_ok.
Qed.
Lemma decode_raw_inv n inp bs rest : decode_raw n inp = Ok (bs, rest) -> inp = bs ++ rest /\ n = N.of_nat (length bs).
Proof.
  unfold decode_raw. destruct (alloc_ok 1 n); [|discriminate]. rewrite read_exact_N_eq. intros H. apply read_exact_inv in H as [-> Hl]. split; [reflexivity|lia].
Qed.
Lemma decode_raw_no_panic n inp : n < 2 ^ 32 -> decode_raw n inp <> Panic.
Proof.
  intros H. unfold decode_raw, alloc_ok, isize_max. destruct (N.leb_spec (n * 1) (2 ^ 63 - 1)); [|lia]. unfold read_exact_N. now destruct (_ <? n).
Qed.
Lemma standard_decodes f : fprog_ok f -> from_standard_program (standard (f_static f) (f_heap f) (f_code f) (f_extra f) (f_stack_size f)) = Ok f.
Proof.
  intros (E1 & E2 & E3 & B1 & B2 & B3 & B4 & B5 & _). unfold from_standard_program, decode_fprog, standard. rewrite <- E1, <- E2, <- E3.
  rewrite decode_fixed_ok by (cbn; lia). cbn [bind]. rewrite decode_fixed_ok by (cbn; lia). cbn [bind]. rewrite decode_fixed_ok by (cbn; lia). cbn [bind].
  rewrite decode_fixed_ok by (cbn; lia). cbn [bind]. rewrite E1, decode_raw_app by lia. cbn [bind]. rewrite E2, decode_raw_app by lia. cbn [bind].
  rewrite decode_fixed_ok by (cbn; lia). cbn [bind]. rewrite E3.
  pose proof (decode_raw_app (f_code f) [] ltac:(lia)) as DC. rewrite app_nil_r in DC. rewrite DC. cbn [bind lift].
  rewrite <- E1, <- E2, <- E3. now destruct f.
Qed.
Lemma standard_inv blob f : Bytes blob -> from_standard_program blob = Ok f ->
  fprog_ok f /\ blob = standard (f_static f) (f_heap f) (f_code f) (f_extra f) (f_stack_size f).
Proof.
  intros HB H. unfold from_standard_program, decode_fprog in H.
  destruct (decode_fixed 32 3 blob) as [[o r1]| |] eqn:D1; cbn [bind lift] in H; try discriminate. apply decode_fixed_inv in D1 as (_ & -> & L1 & _); [|exact HB].
  apply Forall_app in HB as [_ HB]. destruct (decode_fixed 32 3 r1) as [[w r2]| |] eqn:D2; cbn [bind lift] in H; try discriminate. apply decode_fixed_inv in D2 as (_ & -> & L2 & _); [|exact HB].
  apply Forall_app in HB as [_ HB]. destruct (decode_fixed 16 2 r2) as [[z r3]| |] eqn:D3; cbn [bind lift] in H; try discriminate. apply decode_fixed_inv in D3 as (_ & -> & L3 & _); [|exact HB].
  apply Forall_app in HB as [_ HB]. destruct (decode_fixed 32 3 r3) as [[s r4]| |] eqn:D4; cbn [bind lift] in H; try discriminate. apply decode_fixed_inv in D4 as (_ & -> & L4 & _); [|exact HB].
  apply Forall_app in HB as [_ HB]. destruct (decode_raw o r4) as [[od r5]| |] eqn:D5; cbn [bind lift] in H; try discriminate. apply decode_raw_inv in D5 as [-> ->].
  apply Forall_app in HB as [Bo HB]. destruct (decode_raw w r5) as [[wd r6]| |] eqn:D6; cbn [bind lift] in H; try discriminate. apply decode_raw_inv in D6 as [-> ->].
  apply Forall_app in HB as [Bw HB]. destruct (decode_fixed 32 4 r6) as [[c r7]| |] eqn:D7; cbn [bind lift] in H; try discriminate. apply decode_fixed_inv in D7 as (_ & -> & L7 & _); [|exact HB].
  apply Forall_app in HB as [_ HB]. destruct (decode_raw c r7) as [[cd r8]| |] eqn:D8; cbn [bind lift] in H; try discriminate. apply decode_raw_inv in D8 as [-> ->].
  apply Forall_app in HB as [Bc _]. destruct r8; [|discriminate]. injection H as <-.
  cbn in L1, L2, L3, L4, L7. unfold fprog_ok, standard. cbn [f_static_size f_heap_size f_extra f_stack_size f_static f_heap f_code_size f_code].
  rewrite app_nil_r. split; [|reflexivity]. change (2 ^ 24) with 16777216. change (2 ^ 16) with 65536. change (2 ^ 32) with 4294967296. auto 12.
Qed.
Lemma decode_fixed_no_panic w n inp : decode_fixed w n inp <> Panic.
Proof.
  unfold decode_fixed. destruct (_ <? _); [discriminate|]. pose proof (decode_fixed_loop_no_panic n 0 0 inp). destruct (decode_fixed_loop n 0 0 inp) as [[v r]| |]; cbn [bind]; try congruence.
  unfold try_from. destruct (_ <? _); discriminate.
Qed.
Lemma standard_no_panic blob : from_standard_program blob <> Panic.
Proof.
  unfold from_standard_program, decode_fprog.
  assert (Q : forall n inp x r, (n <= 4)%nat -> decode_fixed 32 n inp = Ok (x, r) -> x < 2 ^ 32).
  { intros n inp x r _ E. unfold decode_fixed in E. destruct (_ <? _); [discriminate|]. destruct (decode_fixed_loop n 0 0 inp) as [[v r']| |]; cbn [bind] in E; try discriminate.
    unfold try_from in E. destruct (N.ltb_spec v (2 ^ 32)); cbn [bind] in E; [|discriminate]. now injection E as <- <-. }
  pose proof (decode_fixed_no_panic 32 3 blob). destruct (decode_fixed 32 3 blob) as [[o r1]| |] eqn:D1; cbn [bind lift]; try congruence. apply Q in D1; [|lia].
  pose proof (decode_fixed_no_panic 32 3 r1). destruct (decode_fixed 32 3 r1) as [[w r2]| |] eqn:D2; cbn [bind lift]; try congruence. apply Q in D2; [|lia].
  pose proof (decode_fixed_no_panic 16 2 r2). destruct (decode_fixed 16 2 r2) as [[z r3]| |] eqn:D3; cbn [bind lift]; try congruence.
  pose proof (decode_fixed_no_panic 32 3 r3). destruct (decode_fixed 32 3 r3) as [[s r4]| |] eqn:D4; cbn [bind lift]; try congruence.
  pose proof (decode_raw_no_panic o r4 D1). destruct (decode_raw o r4) as [[od r5]| |]; cbn [bind lift]; try congruence.
  pose proof (decode_raw_no_panic w r5 D2). destruct (decode_raw w r5) as [[wd r6]| |]; cbn [bind lift]; try congruence.
  pose proof (decode_fixed_no_panic 32 4 r6). destruct (decode_fixed 32 4 r6) as [[c r7]| |] eqn:D7; cbn [bind lift]; try congruence. apply Q in D7; [|lia].
  pose proof (decode_raw_no_panic c r7 D7). destruct (decode_raw c r7) as [[cd r8]| |]; cbn [bind lift]; try congruence. now destruct r8.
Qed.
(** ** The machine *)
Lemma new_pvm_iff f args : fprog_ok f -> new_pvm f args <> None <-> N.of_nat (length args) <= 2 ^ 24 /\ fits f.
Proof.
  intros F. unfold new_pvm, INIT_INPUT_SIZE. rewrite <- fits_valid. destruct (N.ltb_spec (2 ^ 24) (N.of_nat (length args))) as [L|L].
  - split; [congruence|]. intros [Q _]. lia.
  - destruct (is_program_size_valid f) eqn:V; cbn [negb]; [|split; [congruence|intros [_ Q]; discriminate]].
    destruct (setup_spec f args F V L) as (m & -> & _). split; [auto|discriminate].
Qed.
Lemma bytes_nth bs k : Bytes bs -> nth k bs 0 < 256.
Proof.
  intros H. destruct (Nat.lt_ge_cases k (length bs)) as [L|L]; [|rewrite nth_overflow by exact L; reflexivity]. unfold Bytes in H. rewrite Forall_forall in H. apply H. now apply nth_In.
Qed.
Lemma new_pvm_spec f args s : fprog_ok f -> Bytes args -> new_pvm f args = Some s ->
  machine_ok s /\ v_regs s = initial_registers (N.of_nat (length args)) /\
  (forall z x, inside f (N.of_nat (length args)) z x -> m_acc (v_mem s) (x / 4096) = rights z) /\
  (forall x, (forall z, ~ inside f (N.of_nat (length args)) z x) -> m_acc (v_mem s) (x / 4096) = Inaccessible) /\
  (forall z lo hi x, bounds f (N.of_nat (length args)) z lo hi -> lo <= x < hi -> m_data (v_mem s) x = nth (N.to_nat (x - lo)) (content f args z) 0) /\
  (forall x, (forall z, ~ inside f (N.of_nat (length args)) z x) -> m_data (v_mem s) x = 0) /\
  bounds f (N.of_nat (length args)) ZHeap (m_heap_start (v_mem s)) (m_heap_end (v_mem s)) /\
  bounds f (N.of_nat (length args)) ZStack (m_stack_start (v_mem s)) (2 ^ 32 - 2 * 65536 - 2 ^ 24).
Proof.
  intros F HB H. assert (NN : new_pvm f args <> None) by congruence. apply new_pvm_iff in NN as [L V]; [|exact F]. apply fits_valid in V.
  unfold new_pvm, INIT_INPUT_SIZE in H. destruct (N.ltb_spec (2 ^ 24) (N.of_nat (length args))) as [|_]; [lia|]. rewrite V in H. cbn [negb] in H.
  destruct (setup_spec f args F V L) as (m & E & O & ML & A & D & H1 & H2 & H3). rewrite E in H. injection H as <-. cbn [v_mem v_regs].
  assert (St : f_stack_size f < 2 ^ 24) by apply F.
  split; [|split; [reflexivity|]].
  - split; [reflexivity|]. split; [|split; [exact O|split; [exact ML|]]].
    + unfold initial_registers. cbn [v_regs]. repeat (constructor; [first [reflexivity|lia]|]). constructor.
    + intros x. cbn [v_mem]. rewrite D. unfold data_of. destruct (in_bytes a_lo args x); [now apply bytes_nth|]. destruct (in_bytes (w_lo f) _ x); [apply bytes_nth, F|].
      destruct (in_bytes 65536 _ x); [apply bytes_nth, F|reflexivity].
  - split; [|split; [|split; [|split; [|split]]]].
    + intros z x Hx. rewrite A. apply acc_by_zone; auto. now apply inside_is.
    + intros x Hx. rewrite A. apply acc_by_zone; auto. intros z Hz. apply (Hx z). now apply inside_is.
    + intros z lo hi x Hb Hx. apply bounds_is in Hb as [-> ->]; [|exact St]. rewrite D. now apply data_by_zone.
    + intros x Hx. rewrite D. apply data_by_zone; auto. intros z Hz. apply (Hx z). now apply inside_is.
    + apply bounds_is; [exact St|]. now split.
    + apply bounds_is; [exact St|]. now split.
Qed.

(** ** The cache *)
Section CacheProofs.
Context {K : Type} (keq : forall x y : K, {x = y} + {x <> y}) (H : bytes -> K).
Lemma cache_get_In k (c : cache) e : cache_get keq k c = Some e -> In (k, e) c.
Proof.
  unfold cache_get. destruct (find _ c) as [[k' e']|] eqn:F; [|discriminate]. intros Q. injection Q as <-. apply find_some in F as [F1 F2]. cbn [fst] in F2.
  destruct (keq k' k) as [->|]; [exact F1|discriminate].
Qed.
Lemma cache_holds bs c : cache_history keq H bs c -> forall k e, In (k, e) c -> exists b, In b bs /\ H b = k /\ prepare b = Ok e.
Proof.
  induction 1 as [|bs c b Hc IH|bs c c' Hc IH I]; intros k e Hin.
  - destruct Hin.
  - unfold fetch in Hin. destruct (cache_get keq (H b) c) as [e'|].
    + apply IH in Hin as (b' & B & R). exists b'. split; [now right|exact R].
    + destruct (prepare b) as [e'| |] eqn:P; cbn [snd] in Hin.
      * destruct Hin as [Q|Hin]; [injection Q as <- <-; exists b; split; [now left|now split]|]. apply IH in Hin as (b' & B & R). exists b'. split; [now right|exact R].
      * apply IH in Hin as (b' & B & R). exists b'. split; [now right|exact R].
      * apply IH in Hin as (b' & B & R). exists b'. split; [now right|exact R].
  - apply IH. now apply I.
Qed.
Lemma cache_transparent bs c b : cache_history keq H bs c -> fst (fetch keq H c b) = prepare b \/ exists b', In b' bs /\ b' <> b /\ H b' = H b.
Proof.
  intros Hc. unfold fetch. destruct (cache_get keq (H b) c) as [e|] eqn:G.
  - apply cache_get_In in G. apply (cache_holds bs c Hc) in G as (b' & B & E & P). cbn [fst]. destruct (list_eq_dec N.eq_dec b' b) as [->|Ne]; [now left|]. right. exists b'. auto.
  - left. now destruct (prepare b).
Qed.
End CacheProofs.
(** ** Results *)
Lemma as_signed_le g : g < 2 ^ 64 -> (as_signed g <= Z.of_N g)%Z.
Proof. unfold as_signed. destruct (N.ltb_spec g (2 ^ 63)); lia. Qed.
Lemma gas_used_is limit counter : limit < 2 ^ 64 -> (counter <= Z.of_N limit)%Z -> Z.of_N (gas_used limit counter) = (Z.of_N limit - Z.max 0 counter)%Z.
Proof. intros L C. unfold gas_used, as_unsigned. rewrite Z.mod_small by lia. rewrite Z2N.id; lia. Qed.
Section ResultProofs.
Context {C : Type} (host : N -> vm -> C -> result verr (hchange * C)).
Lemma run_prepared_inv fuel t fp pc limit args c g o c' : run_prepared host fuel t fp pc limit args c = Some (Ok (g, o, c')) ->
  (new_pvm (fst fp) args = None /\ g = 0 /\ o = OutputPanic /\ c' = c) \/
  exists s0 x s, new_pvm (fst fp) args = Some s0 /\ invoke_extended host fuel t (snd fp) (mk_vm (v_regs s0) (v_mem s0) pc (as_signed limit)) c = Some (Ok (x, s, c')) /\
    result_of limit x s = Ok (g, o).
Proof.
  unfold run_prepared. destruct (new_pvm (fst fp) args) as [s0|]; [|intros Q; injection Q as <- <- <-; now left].
  destruct (invoke_extended _ _ _ _ _ _) as [[[[x s] c1]|e|]|] eqn:E; intros Q; try discriminate. destruct (result_of limit x s) as [[g' o']| |] eqn:R; cbn [bind] in Q; try discriminate.
  injection Q as <- <- <-. right. exists s0, x, s. auto.
Qed.
Lemma result_of_gas limit x s g o : result_of limit x s = Ok (g, o) -> g = gas_used limit (v_gas s).
Proof.
  unfold result_of. destruct x; intros Q; try (now injection Q as <- <-). destruct (2 ^ 32 <=? _); [discriminate|]. destruct (is_address_range_readable _ _ _); [|now injection Q as <- <-].
  destruct (read_bytes _ _ _); cbn [lift bind] in Q; try discriminate. now injection Q as <- <-.
Qed.
Lemma invocation_gas fuel t fp pc limit args c g o c' : limit < 2 ^ 64 -> run_prepared host fuel t fp pc limit args c = Some (Ok (g, o, c')) -> g <= limit.
Proof.
  intros L H. apply run_prepared_inv in H as [(_ & -> & _)|(s0 & x & s & _ & E & R)]; [lia|]. apply result_of_gas in R as ->. apply extended_gas in E. cbn [v_gas] in E.
  pose proof (as_signed_le limit L). pose proof (gas_used_is limit (v_gas s) L). lia.
Qed.
Lemma result_out limit x s g o : result_of limit x s = Ok (g, o) -> o = OutputOutOfGas <-> x = OutOfGas.
Proof.
  unfold result_of. intros Q. destruct x; try (injection Q as <- <-; split; congruence). destruct (2 ^ 32 <=? _); [discriminate|]. destruct (is_address_range_readable _ _ _).
  - destruct (read_bytes _ _ _); cbn [lift bind] in Q; try discriminate. injection Q as <- <-. split; congruence.
  - injection Q as <- <-. split; congruence.
Qed.
Lemma invocation_ends t fp pc limit args c : limit < 2 ^ 63 -> exists r, forall fuel, (limit < N.of_nat fuel) -> run_prepared host fuel t fp pc limit args c = Some r.
Proof.
  intros L. unfold run_prepared. destruct (new_pvm (fst fp) args) as [s0|]; [|eexists; reflexivity].
  assert (SG : as_signed limit = Z.of_N limit) by (unfold as_signed; destruct (N.ltb_spec limit (2 ^ 63)); [reflexivity|lia]).
  set (s := mk_vm (v_regs s0) (v_mem s0) pc (as_signed limit)).
  destruct (extended_ends host t (snd fp) (S (N.to_nat limit)) s c) as [r Hr]; [cbn [s v_gas]; lia|cbn [s v_gas]; lia|].
  destruct r as [[[x s'] c']|e|]; eexists; intros fuel Hf; rewrite Hr by lia; reflexivity.
Qed.
End ResultProofs.
Lemma halt_result limit s g o : mem_ok (v_mem s) -> nth 8 (v_regs s) 0 < 2 ^ 64 -> result_of limit RegularHalt s = Ok (g, o) ->
  let a := nth 7 (v_regs s) 0 in let n := nth 8 (v_regs s) 0 in
  a < 2 ^ 32 /\ ((exists bs, o = Output bs /\ length bs = N.to_nat n /\ (forall i, (i < N.to_nat n)%nat -> nth i bs 0 = m_data (v_mem s) (a + N.of_nat i)) /\
                    forall x, a <= x < a + n -> can_read (v_mem s) x) \/
                 (o = OutputUnavailable /\ exists x, a <= x < a + n /\ ~ can_read (v_mem s) x)).
Proof.
  intros Hm Hn H. cbv zeta. unfold result_of in H. set (a := nth 7 (v_regs s) 0) in *. set (n := nth 8 (v_regs s) 0) in *.
  destruct (N.leb_spec (2 ^ 32) a) as [|La]; [discriminate|]. split; [exact La|].
  destruct (is_address_range_readable (v_mem s) a n) eqn:R.
  - pose proof (proj1 (range_readable_spec (v_mem s) a n Hm La Hn) R) as R'. clear R. rename R' into R. left. destruct (read_bytes (v_mem s) a n) as [bs| |] eqn:E; cbn [lift bind] in H; try discriminate. injection H as <- <-.
    exists bs. split; [reflexivity|]. destruct (N.eq_dec n 0) as [Z|Z].
    + rewrite Z in *. cbn in E. injection E as <-. split; [reflexivity|]. split; [cbn; lia|exact R].
    + apply (read_bytes_spec (v_mem s) a n Hm La ltac:(lia)) in E as (_ & L & D). auto.
  - right. injection H as <- <-. split; [reflexivity|]. assert (NR : ~ forall x, a <= x < a + n -> can_read (v_mem s) x) by (intros Q; apply (range_readable_spec (v_mem s) a n Hm La Hn) in Q; congruence).
    assert (DR : forall x, {can_read (v_mem s) x} + {~ can_read (v_mem s) x}).
    { intros x. destruct (page_readable (v_mem s) (x / 4096)) eqn:Q; [left|right]; rewrite <- (page_readable_spec _ _ Hm); congruence. }
    destruct (N.eq_dec n 0) as [Z|Z]; [exfalso; apply NR; intros; lia|].
    assert (S : forall k, (exists x, a <= x < a + k /\ ~ can_read (v_mem s) x) \/ forall x, a <= x < a + k -> can_read (v_mem s) x).
    { induction k as [|k IH] using N.peano_ind; [right; intros; lia|]. destruct IH as [(x & Hx & Nx)|IH]; [left; exists x; split; [lia|exact Nx]|].
      destruct (DR (a + k)) as [Y|Y]; [right|left; exists (a + k); split; [lia|exact Y]]. intros x Hx. destruct (N.eq_dec x (a + k)) as [->|]; [exact Y|]. apply IH. lia. }
    destruct (S n) as [X|X]; [exact X|contradiction].
Qed.
