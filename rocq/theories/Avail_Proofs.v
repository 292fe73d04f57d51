(** Proofs about availability commitments. *)
From Verif Require Import Base Codec_Model LVec_Model LVec_Proofs Merkle_Model Merkle_Spec Merkle_Proofs Erasure_Model
  Erasure_Spec Erasure_Proofs Avail_Model Avail_Spec.
Local Open Scope nat_scope.
Set Implicit Arguments.

Lemma collect_in {E A B} (f : A -> result E B) l bs : collect f l = Ok bs -> Forall2 (fun a b => f a = Ok b) l bs.
Proof.
  revert bs; induction l as [|a l IH]; intros bs X; cbn in X; [injection X as <-; constructor|].
  destruct (f a) as [b| |] eqn:E1; cbn in X; try discriminate.
  destruct (collect f l) as [cs| |] eqn:E2; cbn in X; try discriminate.
  injection X as <-. constructor; auto.
Qed.
Lemma Forall2_collect {E A B} (f : A -> result E B) l bs : Forall2 (fun a b => f a = Ok b) l bs -> collect f l = Ok bs.
Proof. induction 1 as [|a b l bs X _ IH]; [reflexivity|]. cbn. rewrite X. cbn. now rewrite IH. Qed.

(** * Transposition *)
Section Transpose.
  Variable reed : Type.
  Lemma nth_set (l : list bytes) i c q : i < length l ->
    nth q (firstn i l ++ c :: skipn (S i) l) [] = if Nat.eqb q i then c else nth q l [].
  Proof.
    intros L. assert (L1 : length (firstn i l) = i) by (rewrite firstn_length; lia).
    destruct (Nat.eqb_spec q i) as [->|NE].
    - rewrite app_nth2 by lia. now rewrite L1, Nat.sub_diag.
    - destruct (Nat.lt_ge_cases q i).
      + rewrite app_nth1 by lia. now apply nth_firstn_lt.
      + rewrite app_nth2 by lia. rewrite L1. replace (q - i) with (S (q - i - 1)) by lia. cbn [nth].
        rewrite nth_skipn_add. f_equal. lia.
  Qed.
  Lemma nth_set2 (l : list (list bytes)) i c q : i < length l ->
    nth q (firstn i l ++ c :: skipn (S i) l) [] = if Nat.eqb q i then c else nth q l [].
  Proof.
    intros L. assert (L1 : length (firstn i l) = i) by (rewrite firstn_length; lia).
    destruct (Nat.eqb_spec q i) as [->|NE].
    - rewrite app_nth2 by lia. now rewrite L1, Nat.sub_diag.
    - destruct (Nat.lt_ge_cases q i).
      + rewrite app_nth1 by lia. now apply nth_firstn_lt.
      + rewrite app_nth2 by lia. rewrite L1. replace (q - i) with (S (q - i - 1)) by lia. cbn [nth].
        rewrite nth_skipn_add. f_equal. lia.
  Qed.

  Definition grid (n m : nat) (t : list (list bytes)) : Prop := length t = n /\ forall j, j < n -> length (nth j t []) = m.

  Lemma put_chunk_ok n m t j i c : grid n m t -> j < n -> i < m ->
    exists t', @put_chunk reed t j i c = Ok t' /\ grid n m t' /\
      forall r q, nth q (nth r t' []) [] = if andb (Nat.eqb r j) (Nat.eqb q i) then c else nth q (nth r t []) [].
  Proof.
    intros [G1 G2] J I1. unfold put_chunk.
    destruct (nth_error t j) as [row|] eqn:E; [|apply nth_error_None in E; lia].
    pose proof (nth_error_nth t j [] E) as R. assert (Lr : length row = m) by (rewrite <- R; now apply G2).
    replace (Nat.ltb i (length row)) with true by (symmetry; apply Nat.ltb_lt; lia).
    eexists. split; [reflexivity|]. split.
    - split.
      + rewrite app_length. cbn [length]. rewrite firstn_length, skipn_length. lia.
      + intros r Hr. rewrite nth_set2 by lia. destruct (Nat.eqb r j); [|auto].
        rewrite app_length. cbn [length]. rewrite firstn_length, skipn_length. lia.
    - intros r q. rewrite nth_set2 by lia. destruct (Nat.eqb_spec r j) as [->|]; cbn [andb]; [|reflexivity].
      rewrite nth_set by lia. now rewrite R.
  Qed.

  Lemma put_chunks_ok n m i cs : i < m -> forall t j, grid n m t -> j + length cs <= n ->
    exists t', @put_chunks reed t i j cs = Ok t' /\ grid n m t' /\
      forall r q, nth q (nth r t' []) [] =
        if andb (andb (Nat.leb j r) (Nat.ltb r (j + length cs))) (Nat.eqb q i) then nth (r - j) cs []
        else nth q (nth r t []) [].
  Proof.
    intros I1. induction cs as [|c cs IH]; intros t j G L; cbn [put_chunks].
    - exists t. split; [reflexivity|]. split; [exact G|]. intros r q. cbn [length].
      replace (andb (Nat.leb j r) (Nat.ltb r (j + 0))) with false
        by (symmetry; apply andb_false_iff; destruct (Nat.le_gt_cases j r); [right; apply Nat.ltb_ge; lia|left; apply Nat.leb_gt; lia]).
      reflexivity.
    - cbn [length] in L. destruct (@put_chunk_ok n m t j i c G) as (t1 & E1 & G1 & A1); [lia|exact I1|].
      rewrite E1. cbn [bind]. destruct (IH t1 (S j) G1) as (t' & E' & G' & A'); [lia|].
      exists t'. split; [exact E'|]. split; [exact G'|]. intros r q. rewrite A', A1. cbn [length].
      destruct (Nat.eqb_spec q i) as [->|NE]; rewrite ?andb_true_r, ?andb_false_r; [|reflexivity].
      destruct (Nat.eqb_spec r j) as [->|NE].
      + replace (Nat.leb (S j) j) with false by (symmetry; apply Nat.leb_gt; lia). cbn [andb].
        replace (Nat.leb j j) with true by (symmetry; apply Nat.leb_le; lia).
        replace (Nat.ltb j (j + S (length cs))) with true by (symmetry; apply Nat.ltb_lt; lia).
        cbn [andb]. now rewrite Nat.sub_diag.
      + replace (Nat.leb j r) with (Nat.leb (S j) r)
          by (destruct (Nat.leb_spec (S j) r), (Nat.leb_spec j r); try reflexivity; lia).
        replace (j + S (length cs)) with (S j + length cs) by lia.
        destruct (andb (Nat.leb (S j) r) (Nat.ltb r (S j + length cs))) eqn:Eb; [|reflexivity].
        apply andb_true_iff in Eb as [B1 _]. apply Nat.leb_le in B1.
        replace (r - j) with (S (r - S j)) by lia. reflexivity.
  Qed.

  Lemma put_segments_ok n m segs : Forall (fun cs => length cs = n) segs ->
    forall t i, grid n m t -> i + length segs <= m ->
    exists t', @put_segments reed t i segs = Ok t' /\ grid n m t' /\
      forall r q, r < n -> nth q (nth r t' []) [] =
        if andb (Nat.leb i q) (Nat.ltb q (i + length segs)) then nth r (nth (q - i) segs []) []
        else nth q (nth r t []) [].
  Proof.
    induction 1 as [|cs segs Lc _ IH]; intros t i G L; cbn [put_segments].
    - exists t. split; [reflexivity|]. split; [exact G|]. intros r q _. cbn [length].
      replace (andb (Nat.leb i q) (Nat.ltb q (i + 0))) with false
        by (symmetry; apply andb_false_iff; destruct (Nat.le_gt_cases i q); [right; apply Nat.ltb_ge; lia|left; apply Nat.leb_gt; lia]).
      reflexivity.
    - cbn [length] in L.
      destruct (@put_chunks_ok n m i cs ltac:(lia) t 0 G) as (t1 & E1 & G1 & A1); [lia|].
      rewrite E1. cbn [bind]. destruct (IH t1 (S i) G1) as (t' & E' & G' & A'); [lia|].
      exists t'. split; [exact E'|]. split; [exact G'|]. intros r q Hr. rewrite A' by exact Hr. rewrite A1. cbn [length].
      replace (andb (Nat.leb 0 r) (Nat.ltb r (0 + length cs))) with true
        by (symmetry; apply andb_true_iff; split; [apply Nat.leb_le; lia|apply Nat.ltb_lt; lia]).
      cbn [andb]. rewrite Nat.sub_0_r.
      destruct (Nat.eqb_spec q i) as [->|NE].
      + replace (Nat.leb (S i) i) with false by (symmetry; apply Nat.leb_gt; lia). cbn [andb].
        replace (Nat.leb i i) with true by (symmetry; apply Nat.leb_le; lia).
        replace (Nat.ltb i (i + S (length segs))) with true by (symmetry; apply Nat.ltb_lt; lia).
        cbn [andb]. now rewrite Nat.sub_diag.
      + replace (Nat.leb i q) with (Nat.leb (S i) q)
          by (destruct (Nat.leb_spec (S i) q), (Nat.leb_spec i q); try reflexivity; lia).
        replace (i + S (length segs)) with (S i + length segs) by lia.
        destruct (andb (Nat.leb (S i) q) (Nat.ltb q (S i + length segs))) eqn:Eb; [|reflexivity].
        apply andb_true_iff in Eb as [B1 _]. apply Nat.leb_le in B1.
        replace (q - i) with (S (q - S i)) by lia. reflexivity.
  Qed.

  Lemma transposed_ok n segs d : Forall (fun cs => length cs = n) segs ->
    @put_segments reed (repeat (repeat d (length segs)) n) 0 segs =
      Ok (map (fun j => map (fun cs => nth j cs []) segs) (seq 0 n)).
  Proof.
    intros F.
    destruct (@put_segments_ok n (length segs) segs F (repeat (repeat d (length segs)) n) 0) as (t & E & [G1 G2] & A).
    - split; [apply repeat_length|]. intros j J.
      rewrite (nth_indep _ [] (repeat d (length segs))) by (now rewrite repeat_length).
      now rewrite nth_repeat, repeat_length.
    - lia.
    - rewrite E. f_equal. apply (nth_ext _ _ [] []); [now rewrite map_length, seq_length|].
      intros r Hr. rewrite G1 in Hr.
      rewrite (nth_indep (map _ (seq 0 n)) [] (map (fun cs => nth 0 cs []) segs)) by (now rewrite map_length, seq_length).
      rewrite (map_nth (fun j => map (fun cs => nth j cs []) segs) (seq 0 n) 0 r), seq_nth by exact Hr. cbn [Nat.add].
      apply (nth_ext _ _ [] []); [rewrite G2, map_length by exact Hr; reflexivity|].
      intros q Hq. rewrite G2 in Hq by exact Hr. rewrite A by exact Hr.
      replace (andb (Nat.leb 0 q) (Nat.ltb q (0 + length segs))) with true
        by (symmetry; apply andb_true_iff; split; [apply Nat.leb_le; lia|apply Nat.ltb_lt; lia]).
      rewrite Nat.sub_0_r.
      rewrite (nth_indep (map _ segs) [] (nth r (@nil bytes) [])) by (now rewrite map_length).
      symmetry. exact (map_nth (fun cs : list bytes => nth r cs []) segs [] q).
  Qed.
End Transpose.

Lemma Forall_firstn {A} (P : A -> Prop) n l : Forall P l -> Forall P (firstn n l).
Proof. intros F. revert n; induction F; intros [|n]; cbn; constructor; auto. Qed.

(** * Paged proofs fit a segment *)
Lemma hashes_encode_length (l : list bytes) : Forall (fun h : bytes => length h = 32) l -> (N.of_nat (length l) < 128)%N ->
  length (hashes_encode l) = 1 + 32 * length l.
Proof.
  intros F L. unfold hashes_encode. rewrite app_length.
  assert (E : length (integer_encode (N.of_nat (length l))) = 1).
  { unfold integer_encode. destruct (N.eqb_spec (N.of_nat (length l)) 0); [reflexivity|].
    replace (N.of_nat (length l) <? 2 ^ 56)%N with true
      by (symmetry; apply N.ltb_lt; change (2 ^ 56)%N with 72057594037927936%N; lia).
    assert (N.log2 (N.of_nat (length l)) < 7)%N.
    { apply N.log2_lt_pow2; [lia|]. exact L. }
    rewrite (N.div_small (N.log2 _) 7) by assumption. reflexivity. }
  rewrite E. f_equal. clear E L. induction F as [|h l Hh _ IH]; [reflexivity|].
  cbn [concat length]. rewrite app_length, IH, Hh. lia.
Qed.

Lemma trace_32 (H : bytes -> bytes) : (forall x, length (H x) = 32) -> forall (data : list bytes) i, Forall (fun d : bytes => length d = 32) data ->
  Forall (fun d : bytes => length d = 32) (trace H data i).
Proof.
  intros H32.
  assert (Hn : forall f (d : list bytes), Forall (fun d : bytes => length d = 32) d -> length (node_f H f d) = 32).
  { intros f; destruct f as [|f]; intros d F; [reflexivity|]. cbn [node_f].
    destruct d as [|a [|b d]]; [reflexivity|now inversion F|apply H32]. }
  assert (Hs : forall (d : list bytes) i b, Forall (fun d : bytes => length d = 32) d -> Forall (fun d : bytes => length d = 32) (split_and_select d i b)).
  { intros d i b F. unfold split_and_select. destruct (Bool.eqb _ _).
    - now apply Forall_firstn.
    - apply Forall_forall. intros x I. rewrite Forall_forall in F. apply F.
      rewrite <- (firstn_skipn (half (length d)) d). apply in_or_app. now right. }
  assert (X : forall f (data : list bytes) i, Forall (fun d : bytes => length d = 32) data -> Forall (fun d : bytes => length d = 32) (trace_f H f data i));
    [|intros data i F; now apply X].
  induction f as [|f IH]; intros data i F; cbn [trace_f]; [constructor|].
  destruct (Nat.leb (length data) 1); [constructor|]. constructor.
  - unfold node. apply Hn. now apply Hs.
  - apply IH. now apply Hs.
Qed.

Lemma paged_proof_ok reed (H : bytes -> bytes) segment (exports : list bytes) page : 32 * 122 + 2 <= segment ->
  (forall x, length (H x) = 32) ->
  (N.of_nat (length exports) < 2 ^ 64)%N -> page < pages (length exports) ->
  exists p, @paged_proof reed H segment exports page = Ok p /\ length p = segment /\
    exists z leaves, p = hashes_encode (single_page_justification H exports page 6) ++ hashes_encode leaves ++ repeat 0%N z /\
      leaves = map (fun item => H (leaf_tag ++ item)) (firstn 64 (skipn (64 * page) exports)).
Proof.
  intros Rm H32 NL P.
  assert (P64 : 64 * page < length exports).
  { unfold pages in P. assert (page + 1 <= (length exports + 63) / 64) by lia.
    pose proof (Nat.mul_div_le (length exports + 63) 64 ltac:(lia)). lia. }
  unfold paged_proof.
  set (leaves := map (fun item => H (leaf_tag ++ item)) (firstn 64 (skipn (64 * page) exports))).
  assert (EL : subtree_page_leaf_hashes H exports page 6 = Ok leaves).
  { unfold subtree_page_leaf_hashes. change (2 ^ 6) with 64.
    replace (Nat.ltb (Nat.min (length exports) (64 * page + 64)) (64 * page)) with false
      by (symmetry; apply Nat.ltb_ge; lia).
    unfold leaves. do 2 f_equal.
    destruct (Nat.le_gt_cases (64 * page + 64) (length exports)) as [C|C].
    - rewrite Nat.min_r by lia. f_equal. lia.
    - rewrite Nat.min_l by lia. rewrite !firstn_all2; [reflexivity| |]; rewrite skipn_length; lia. }
  rewrite EL. cbn [padding bind].
  assert (Lj : length (single_page_justification H exports page 6) <= 58).
  { unfold single_page_justification, resize. rewrite app_length, repeat_length, firstn_length.
    unfold next_pow2. rewrite Nat.log2_pow2 by lia.
    assert (Nat.log2_up (length exports) <= 64).
    { destruct (Nat.le_gt_cases (length exports) 1) as [C|C]; [rewrite Nat.log2_up_eqn0 by lia; lia|].
      apply Nat.log2_up_le_pow2; [lia|]. 
      apply N.lt_le_incl in NL. 
      assert (X : (N.of_nat (length exports) <= N.of_nat (2 ^ 64))%N).
      { rewrite Nat2N.inj_pow. exact NL. }
      lia. }
    lia. }
  assert (Fj : Forall (fun h : bytes => length h = 32) (single_page_justification H exports page 6)).
  { unfold single_page_justification, resize. apply Forall_app. split.
    - apply Forall_firstn. apply trace_32; [exact H32|]. unfold constancy_preprocess.
      destruct exports as [|e es]; [constructor; [reflexivity|constructor]|].
      apply Forall_app. split; [|apply Forall_forall; intros x I; apply repeat_spec in I; subst; reflexivity].
      apply Forall_forall. intros x I. apply in_map_iff in I as (y & <- & _). apply H32.
    - apply Forall_forall; intros x I; apply repeat_spec in I; subst; reflexivity. }
  assert (Fl : Forall (fun h : bytes => length h = 32) leaves).
  { apply Forall_forall. intros x I. apply in_map_iff in I as (y & <- & _). apply H32. }
  assert (Ll : length leaves <= 64) by (unfold leaves; rewrite map_length, firstn_length; lia).
  set (buf := hashes_encode (single_page_justification H exports page 6) ++ hashes_encode leaves).
  assert (Lb : 0 < length buf <= segment).
  { unfold buf. rewrite app_length, !hashes_encode_length by (assumption || lia). lia. }
  destruct (zero_pad_spec segment buf ltac:(lia)) as (z & Ez & Z). rewrite Ez. cbn [padding bind].
  assert (Lz : length (buf ++ repeat 0%N z) = segment).
  { revert Z. clear -Lb Rm. intros Z. rewrite app_length, repeat_length. destruct Z as (Z1 & Z2 & Z3 & _).
    assert (K : z < segment) by (apply Z3; intros ->; cbn in Lb; lia).
    apply Nat.mod_divide in Z1 as [c C]; [|lia].
    assert (c = 1). { destruct c as [|[|c]]; [lia|reflexivity|]. exfalso. cbn [Nat.mul] in C. lia. } subst. lia. }
  rewrite Lz. rewrite Nat.eqb_refl. eexists. split; [reflexivity|]. split; [exact Lz|].
  exists z, leaves. split; [|reflexivity]. unfold buf. now rewrite <- app_assoc.
Qed.

Lemma Forall2_nth_map {A B} (R : A -> B -> Prop) (f : A -> B) l : (forall a, In a l -> R a (f a)) -> Forall2 R l (map f l).
Proof.
  induction l as [|a l IH]; intros F; cbn; constructor; [apply F; now left|]. apply IH. intros; apply F; now right.
Qed.

Lemma combine_maps {A B C} (f : A -> B) (g : A -> C) l : combine (map f l) (map g l) = map (fun x => (f x, g x)) l.
Proof. induction l as [|a l IH]; [reflexivity|]. cbn. now rewrite IH. Qed.
Lemma map_nth_seq {A} (l : list A) d : map (fun j => nth j l d) (seq 0 (length l)) = l.
Proof.
  apply (nth_ext _ _ d d); [now rewrite map_length, seq_length|]. intros n L. rewrite map_length, seq_length in L.
  rewrite (nth_indep _ d (nth 0 l d)) by (now rewrite map_length, seq_length).
  rewrite (map_nth (fun j => nth j l d) (seq 0 (length l)) 0 n). now rewrite seq_nth.
Qed.

Lemma Forall2_in_r {A B} (R : A -> B -> Prop) l m b : Forall2 R l m -> In b m -> exists a, In a l /\ R a b.
Proof. induction 1 as [|x y l m X _ IH]; intros []; [subst; exists x; split; [now left|auto]|]. destruct IH as (a & ? & ?); auto. exists a. split; [now right|auto]. Qed.

Lemma Forall2_len {A B} (R : A -> B -> Prop) l m : Forall2 R l m -> length l = length m.
Proof. induction 1; cbn; congruence. Qed.

Section Root.
  Variable reed : Type.
  Variable rs : reed_solomon reed.
  Variable H : bytes -> bytes.
  Variables validators msg : nat.
  Hypothesis H32 : forall x, length (H x) = 32.
  Hypothesis M0 : 0 < msg.
  Hypothesis MV : msg <= validators.
  Hypothesis code : reed_solomon_code rs msg (validators - msg).
  Variable segment : nat.
  Hypothesis room : 32 * 122 + 2 <= segment.
  Hypothesis fits : Nat.divide (2 * msg) segment.

  (** Data of a whole number of words per chunk are encoded as they are. *)
  Lemma whole_encode data : Nat.divide (2 * msg) (length data) -> exists chunks,
    erasure_encode rs validators msg data = Ok chunks /\ length chunks = validators /\
    (forall c, In c chunks -> length c * msg = length data) /\ concat (firstn msg chunks) = data /\
    (forall keep, msg <= kept keep validators -> erasure_recover rs msg (lose keep chunks) = Ok data).
  Proof.
    intros D. destruct (encode_layout M0 MV code data) as (d & k & chunks & Pd & L & E & Lc & Lw & Cc & _ & Rr).
    assert (d = data) as ->.
    { apply (padded_one M0 MV Pd). exists 0. cbn [repeat]. rewrite app_nil_r. split; [reflexivity|]. split; [exact D|lia]. }
    exists chunks. split; [exact E|]. split; [exact Lc|]. split; [|split; [exact Cc|exact Rr]].
    intros c I. rewrite (Lw c I). lia.
  Qed.

  Lemma root_ok bundle (exports : list bytes) : (N.of_nat (length exports) < 2 ^ 64)%N -> Forall (fun e : bytes => length e = segment) exports ->
    exists padded proofs bchunks segs root, root_of rs H validators msg segment bundle exports padded proofs bchunks segs root.
  Proof.
    intros NL F.
    destruct (zero_pad_spec (2 * msg) bundle ltac:(lia)) as (z & Ez & Z1 & _).
    assert (D : Nat.divide (2 * msg) (length (bundle ++ repeat 0%N z))).
    { rewrite app_length, repeat_length. apply Nat.mod_divide; [lia|exact Z1]. }
    destruct (@whole_encode _ D) as (bchunks & Eb & Lb & Wb & _).
    assert (G : exists proofs : list bytes, generate_paged_proofs reed H segment exports = Ok proofs /\
      length proofs = pages (length exports) /\ Forall (fun p : bytes => length p = segment) proofs).
    { unfold generate_paged_proofs.
      set (g := fun page => match @paged_proof reed H segment exports page with Ok p => p | _ => [] end).
      exists (map g (seq 0 (pages (length exports)))). split; [|split].
      - apply (@collect_ok _ _ _ _ g). intros page I. apply in_seq in I.
        destruct (@paged_proof_ok reed H segment exports page room H32 NL) as (p & E & _); [lia|]. unfold g. now rewrite E.
      - now rewrite map_length, seq_length.
      - apply Forall_forall. intros p I. apply in_map_iff in I as (page & <- & I). apply in_seq in I.
        destruct (@paged_proof_ok reed H segment exports page room H32 NL) as (p & E & L & _); [lia|]. unfold g. now rewrite E. }
    destruct G as (proofs & Gp & Gl & Gf).
    set (g := fun d : bytes => match erasure_encode rs validators msg d with Ok cs => cs | _ => [] end).
    assert (Fs : Forall (fun d : bytes => length d = segment) (exports ++ proofs)) by (apply Forall_app; auto).
    assert (A : forall d, In d (exports ++ proofs) -> erasure_encode rs validators msg d = Ok (g d) /\ length (g d) = validators).
    { intros d I. rewrite Forall_forall in Fs. destruct (@whole_encode d) as (cs & E & L & _); [rewrite (Fs d I); exact fits|].
      unfold g. rewrite E. auto. }
    exists (bundle ++ repeat 0%N z), proofs, bchunks, (map g (exports ++ proofs)), 
      (wb_root H (map (fun j => share_leaf H (share bchunks (map g (exports ++ proofs)) j)) (seq 0 validators))).
    split; [|now exists z|exact D|exact Gp|exact Gl|exact Gf|exact Eb| |reflexivity].
    2:{ apply Forall2_nth_map. intros d I. now apply A. }
    unfold compute_erasure_root. rewrite Ez. cbn [padding bind]. rewrite Eb. cbn [erasing bind]. rewrite Gp. cbn [bind].
    rewrite (@collect_ok _ _ _ _ g) by (intros d I; destruct (A d I) as [-> _]; reflexivity).
    cbn [bind].
    pose proof (@transposed_ok reed validators (map g (exports ++ proofs)) (repeat 0%N 12)) as T.
    rewrite map_length in T. unfold bytes in T |- *. rewrite T.
    2:{ apply Forall_forall. intros cs I. apply in_map_iff in I as (d & <- & I). now apply A. }
    cbn [bind]. do 2 f_equal. rewrite map_map.
    replace bchunks with (map (fun j => nth j bchunks []) (seq 0 validators)) at 1 by (rewrite <- Lb; apply map_nth_seq).
    rewrite map_map, combine_maps, map_map. reflexivity.
  Qed.

  Section Two.
  Variables (bundle : bytes) (exports : list bytes) (pd : bytes) (proofs : list bytes) (bchunks : list bytes)
    (segs : list (list bytes)) (root : bytes).
  Hypothesis E0 : Forall (fun e : bytes => length e = segment) exports.
  Hypothesis RO : root_of rs H validators msg segment bundle exports pd proofs bchunks segs root.

  Lemma seg_facts : forall cs, In cs segs -> exists d, In d (exports ++ proofs) /\ length d = segment /\
    erasure_encode rs validators msg d = Ok cs /\ length cs = validators /\
    (forall c, In c cs -> length c = segment / msg) /\ concat (firstn msg cs) = d.
  Proof.
    intros cs I. destruct (@Forall2_in_r _ _ _ _ _ _ (ro_segments RO) I) as (d & Id & Ed). exists d. split; [exact Id|].
    assert (Ld : length d = segment).
    { assert (F : Forall (fun e : bytes => length e = segment) (exports ++ proofs)) by (apply Forall_app; split; [exact E0|apply (ro_each RO)]).
      rewrite Forall_forall in F. auto. }
    split; [exact Ld|]. split; [exact Ed|].
    destruct (@whole_encode d) as (cs' & E & L & W & C & _); [rewrite Ld; exact fits|].
    rewrite Ed in E. injection E as <-. split; [exact L|]. split; [|exact C].
    intros c Ic. pose proof (W c Ic) as X. rewrite Ld in X. rewrite <- X. symmetry. apply Nat.div_mul. lia.
  Qed.
  Lemma bundle_facts : length bchunks = validators /\ concat (firstn msg bchunks) = pd.
  Proof.
    destruct (@whole_encode pd (ro_size RO)) as (cs & E & L & _ & C & _). pose proof (ro_bundle RO) as X.
    rewrite E in X. injection X as <-. auto.
  Qed.
  Lemma segs_count : length segs = length exports + pages (length exports).
  Proof. rewrite <- (Forall2_len (ro_segments RO)), app_length, (ro_count RO). reflexivity. Qed.

  Lemma shares_recover keep : msg <= kept keep validators ->
    erasure_recover rs msg (lose keep bchunks) = Ok pd /\
    Forall2 (fun d cs => erasure_recover rs msg (lose keep cs) = Ok d) (exports ++ proofs) segs.
  Proof.
    intros K. split.
    - destruct (@whole_encode pd (ro_size RO)) as (cs & E & _ & _ & _ & R). pose proof (ro_bundle RO) as X.
      rewrite E in X. injection X as <-. auto.
    - assert (F : Forall (fun e : bytes => length e = segment) (exports ++ proofs)) by (apply Forall_app; split; [exact E0|apply (ro_each RO)]).
      revert F. generalize (ro_segments RO). generalize (exports ++ proofs) as l0, segs as m0. intros l0 m0 S.
      induction S as [|d cs l m X _ IH]; intros F; [constructor|].
      pose proof (Forall_inv F) as Fd. pose proof (Forall_inv_tail F) as Fl. cbv beta in Fd. constructor; [|now apply IH].
      destruct (@whole_encode d) as (cs' & E & _ & _ & _ & R); [rewrite Fd; exact fits|].
      rewrite X in E. injection E as <-. auto.
  Qed.
  End Two.

  Lemma wb_root_32 d : length (wb_root H d) = 32.
  Proof.
    unfold wb_root. destruct d as [|a [|b d]]; [reflexivity|apply H32|].
    rewrite firstn_length. unfold node. cbn [length node_f]. rewrite H32. reflexivity.
  Qed.

  Lemma all_or (P : nat -> Prop) (Q : Prop) n : (forall j, j < n -> P j \/ Q) -> (forall j, j < n -> P j) \/ Q.
  Proof.
    induction n as [|n IH]; intros F; [left; intros; lia|].
    destruct IH as [A|A]; [intros; apply F; lia| |now right].
    destruct (F n) as [B|B]; [lia| |now right].
    left. intros j J. destruct (Nat.eq_dec j n) as [->|]; [exact B|apply A; lia].
  Qed.

  Lemma same_data l1 l2 m : Forall2 (fun d cs => erasure_encode rs validators msg d = Ok cs) l1 m ->
    Forall2 (fun d cs => erasure_encode rs validators msg d = Ok cs) l2 m ->
    Forall (fun e : bytes => length e = segment) l1 -> Forall (fun e : bytes => length e = segment) l2 -> l1 = l2.
  Proof.
    intros Q1. revert l2.
    assert (W : forall d cs, length d = segment -> erasure_encode rs validators msg d = Ok cs -> concat (firstn msg cs) = d).
    { intros d cs Ld E. destruct (@whole_encode d) as (cs' & E' & _ & _ & C & _); [rewrite Ld; exact fits|]. congruence. }
    induction Q1 as [|d cs l m X _ IH]; intros l2 Q2 G1 G2; inversion Q2 as [|d' ? l' ? X' Q2']; [reflexivity|].
    subst l2. pose proof (Forall_inv G1) as D1. pose proof (Forall_inv G2) as D2. cbv beta in D1, D2.
    f_equal; [|apply IH; [exact Q2'|exact (Forall_inv_tail G1)|exact (Forall_inv_tail G2)]].
    rewrite <- (W d cs), <- (W d' cs); auto.
  Qed.

  Lemma roots_bind b1 e1 p1 r1 bc1 sg1 b2 e2 p2 r2 bc2 sg2 root :
    Forall (fun e : bytes => length e = segment) e1 -> Forall (fun e : bytes => length e = segment) e2 ->
    root_of rs H validators msg segment b1 e1 p1 r1 bc1 sg1 root -> root_of rs H validators msg segment b2 e2 p2 r2 bc2 sg2 root ->
    length e1 = length e2 ->
    (p1 = p2 /\ e1 = e2) \/ exists s t, hashed H validators bc1 sg1 s /\ hashed H validators bc2 sg2 t /\ collision H s t.
  Proof.
    intros F1 F2 R1 R2 L.
    destruct (bundle_facts R1) as [Lb1 Cb1]. destruct (bundle_facts R2) as [Lb2 Cb2].
    pose proof (segs_count R1) as Ls1. pose proof (segs_count R2) as Ls2. rewrite <- L in Ls2.
    pose proof (seg_facts F1 R1) as S1. pose proof (seg_facts F2 R2) as S2.
    set (lf1 := fun j => share_leaf H (share bc1 sg1 j)) in *. set (lf2 := fun j => share_leaf H (share bc2 sg2 j)) in *.
    assert (L64 : forall bc sg l, Forall (fun d : bytes => length d = 64) (map (fun j => share_leaf H (share bc sg j)) l)).
    { intros bc sg l. apply Forall_forall. intros x I. apply in_map_iff in I as (j & <- & _).
      unfold share_leaf. rewrite app_length, H32, wb_root_32. reflexivity. }
    assert (ER : wb_root H (map lf1 (seq 0 validators)) = wb_root H (map lf2 (seq 0 validators))).
    { transitivity root; [symmetry; exact (ro_is R1)|exact (ro_is R2)]. }
    destruct (wb_binding H H32 (map lf1 (seq 0 validators)) (map lf2 (seq 0 validators)) 64 ltac:(rewrite !map_length; reflexivity) (L64 bc1 sg1 (seq 0 validators)) (L64 bc2 sg2 (seq 0 validators)) ER) as [EL|(s & t & A & B & C)].
    2:{ right. exists s, t. split; [right; now right|]. split; [right; now right|exact C]. }
    assert (EJ : forall j, j < validators -> H (nth j bc1 []) = H (nth j bc2 []) /\
      wb_root H (map (fun cs => nth j cs []) sg1) = wb_root H (map (fun cs => nth j cs []) sg2)).
    { intros j J. assert (X : nth j (map lf1 (seq 0 validators)) (lf1 0) = nth j (map lf2 (seq 0 validators)) (lf1 0)) by (now rewrite EL).
      rewrite (nth_indep (map lf2 _) (lf1 0) (lf2 0)) in X by (now rewrite map_length, seq_length).
      rewrite !map_nth, !seq_nth in X by exact J. cbn [Nat.add] in X. unfold lf1, lf2, share_leaf, share in X. cbn [fst snd] in X.
      apply app_eq_len in X; [exact X|]. now rewrite !H32. }
    destruct (@all_or (fun j => nth j bc1 [] = nth j bc2 [])
      (exists s t, hashed H validators bc1 sg1 s /\ hashed H validators bc2 sg2 t /\ collision H s t) validators) as [EB|Q]; [| |now right].
    { intros j J. destruct (list_eq_dec N.eq_dec (nth j bc1 []) (nth j bc2 [])) as [E|NE]; [now left|]. right.
      exists (nth j bc1 []), (nth j bc2 []). split; [left; apply nth_In; lia|]. split; [left; apply nth_In; lia|].
      split; [exact NE|]. now apply EJ. }
    assert (Ebc : bc1 = bc2) by (apply (@nth_ext bytes _ _ [] []); [rewrite Lb1, Lb2; reflexivity|]; intros j J; apply EB; rewrite Lb1 in J; exact J).
    set (g1 := fun j => map (fun cs : list bytes => nth j cs []) sg1). set (g2 := fun j => map (fun cs : list bytes => nth j cs []) sg2).
    assert (LG : forall sg : list (list bytes), (forall cs : list bytes, In cs sg -> length cs = validators /\ forall c, In c cs -> length c = segment / msg) ->
      forall j, j < validators -> Forall (fun d : bytes => length d = segment / msg) (map (fun cs : list bytes => nth j cs []) sg)).
    { intros sg X j J. apply Forall_forall. intros c I. apply in_map_iff in I as (cs & <- & I).
      destruct (X cs I) as [Lc Wc]. apply Wc, nth_In. rewrite Lc. exact J. }
    destruct (@all_or (fun j => g1 j = g2 j)
      (exists s t, hashed H validators bc1 sg1 s /\ hashed H validators bc2 sg2 t /\ collision H s t) validators) as [EG|Q]; [| |now right].
    { intros j J. destruct (wb_binding H H32 (g1 j) (g2 j) (segment / msg)) as [E|(s & t & A & B & C)].
      - unfold g1, g2. rewrite !map_length, Ls1, Ls2. reflexivity.
      - apply LG; [|exact J]. intros cs I. destruct (S1 cs I) as (_ & _ & _ & _ & A & B & _). auto.
      - apply LG; [|exact J]. intros cs I. destruct (S2 cs I) as (_ & _ & _ & _ & A & B & _). auto.
      - now apply EJ.
      - now left.
      - right. exists s, t. split; [right; left; exists j; split; [exact J|exact A]|].
        split; [right; left; exists j; split; [exact J|exact B]|exact C]. }
    left. split; [congruence|].
    assert (Esg : sg1 = sg2).
    { apply (@nth_ext (list bytes) _ _ [] []); [rewrite Ls1, Ls2; reflexivity|]. intros q Hq.
      destruct (S1 (nth q sg1 [])) as (_ & _ & _ & _ & A1 & _); [now apply nth_In|].
      destruct (S2 (nth q sg2 [])) as (_ & _ & _ & _ & A2 & _); [apply nth_In; rewrite Ls2, <- Ls1; exact Hq|].
      apply (@nth_ext bytes _ _ [] []); [rewrite A1, A2; reflexivity|]. intros j J. rewrite A1 in J.
      pose proof (EG j J) as X. apply (f_equal (fun l => nth q l (nth j (@nil bytes) []))) in X. unfold g1, g2 in X.
      rewrite (map_nth (fun cs : list bytes => nth j cs []) sg1 [] q) in X.
      rewrite (map_nth (fun cs : list bytes => nth j cs []) sg2 [] q) in X. exact X. }
    subst sg2.
    assert (EE : e1 ++ r1 = e2 ++ r2).
    { pose proof (ro_segments R1) as Q1. pose proof (ro_segments R2) as Q2.
      apply (same_data Q1 Q2); apply Forall_app; split; [exact F1|apply (ro_each R1)|exact F2|apply (ro_each R2)]. }
    apply app_eq_len in EE; [apply EE|exact L].
  Qed.
End Root.
