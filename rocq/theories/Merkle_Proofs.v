From Verif Require Import Base Base_Proofs Merkle_Model Merkle_Spec.
Ltac Zify.zify_post_hook ::= Z.div_mod_to_equations.

Lemma half_bounds : forall n, 2 <= n -> 0 < half n /\ half n < n /\ (half n = n - half n \/ half n = S (n - half n)).
Proof. intros n Hn. unfold half. lia. Qed.

Lemma split_unique : forall (l1 r1 l2 r2 : list bytes),
  (length l1 = length r1 \/ length l1 = S (length r1)) -> (length l2 = length r2 \/ length l2 = S (length r2)) ->
  length (l1 ++ r1) = length (l2 ++ r2) -> length l1 = length l2 /\ length r1 = length r2.
Proof. intros. rewrite !app_length in *. lia. Qed.

Lemma app_eq_len : forall (A : Type) (l1 r1 l2 r2 : list A), length l1 = length l2 -> l1 ++ r1 = l2 ++ r2 -> l1 = l2 /\ r1 = r2.
Proof.
  induction l1 as [|a l1 IH]; intros r1 [|b l2] r2 Hl He; cbn in *; try lia; auto.
  inversion He; subst. destruct (IH r1 l2 r2) as [-> ->]; auto.
Qed.

  Lemma pow2_pos : forall k, 0 < 2 ^ k.
  Proof. intros k. pose proof (Nat.pow_nonzero 2 k). lia. Qed.

Section P.
  Variable H : bytes -> bytes.
  Notation node := (node H). Notation node_f := (node_f H). Notation trace := (trace H). Notation trace_f := (trace_f H).

  Lemma node_f_enough : forall f g data, length data <= f -> length data <= g -> node_f f data = node_f g data.
  Proof.
    induction f as [|f IH]; intros g data Hf Hg.
    - destruct data; [|cbn in Hf; lia]. destruct g; reflexivity.
    - destruct g as [|g].
      + destruct data; [reflexivity|cbn in Hg; lia].
      + cbn [Merkle_Model.node_f]. destruct data as [|d1 [|d2 data]]; try reflexivity.
        set (l := d1 :: d2 :: data) in *.
        assert (H2 : 2 <= length l) by (subst l; cbn; lia).
        destruct (half_bounds (length l) H2) as (A & B & _).
        rewrite (IH g (firstn (half (length l)) l)) by (rewrite firstn_length; lia).
        rewrite (IH g (skipn (half (length l)) l)) by (rewrite skipn_length; lia).
        reflexivity.
  Qed.

  Lemma node_eq : forall data, 2 <= length data ->
    node data = H (NODE ++ node (firstn (half (length data)) data) ++ node (skipn (half (length data)) data)).
  Proof.
    intros data H2. unfold Merkle_Model.node at 1.
    destruct data as [|d1 [|d2 data]]; try (cbn in H2; lia).
    set (l := d1 :: d2 :: data) in *.
    destruct (half_bounds (length l) H2) as (A & B & _).
    replace (length l) with (S (length l - 1)) at 1 by lia.
    cbn [Merkle_Model.node_f]. subst l. fold (length (d1 :: d2 :: data)).
    set (l := d1 :: d2 :: data) in *. unfold Merkle_Model.node.
    rewrite (node_f_enough (length l - 1) (length (firstn (half (length l)) l)) (firstn _ l))
      by (rewrite ?firstn_length; lia).
    rewrite (node_f_enough (length l - 1) (length (skipn (half (length l)) l)) (skipn _ l))
      by (rewrite ?skipn_length; lia).
    reflexivity.
  Qed.

  Lemma len_ind : forall (P : list bytes -> Prop),
    (forall l, (forall l', length l' < length l -> P l') -> P l) -> forall l, P l.
  Proof.
    intros P IH l. remember (length l) as n eqn:E. assert (Hn : length l <= n) by lia. clear E.
    revert l Hn. induction n as [|n IHn]; intros l Hn; apply IH; intros l' Hl'; [lia|]. apply IHn. lia.
  Qed.

  Lemma halves : forall (data : list bytes), 2 <= length data ->
    let m := half (length data) in
    firstn m data <> [] /\ skipn m data <> [] /\
    (length (firstn m data) = length (skipn m data) \/ length (firstn m data) = S (length (skipn m data))) /\
    length (firstn m data) = m /\ length (skipn m data) = length data - m /\ m < length data /\ 0 < m.
  Proof.
    intros data H2 m. destruct (half_bounds (length data) H2) as (A & B & C). fold m in A, B, C. clearbody m.
    assert (L1 : length (firstn m data) = m) by (rewrite firstn_length; lia).
    assert (L2 : length (skipn m data) = length data - m) by (rewrite skipn_length; lia).
    repeat split; try assumption; try lia.
    - intros E. rewrite E in L1. cbn in L1. lia.
    - intros E. rewrite E in L2. cbn in L2. lia.
  Qed.

  Lemma node_tree : forall data, data <> [] -> tree H data (node data).
  Proof.
    induction data as [data IH] using len_ind. intros Hne.
    destruct (Nat.le_gt_cases 2 (length data)) as [H2|H1].
    - destruct (halves data H2) as (A & B & C & L1 & L2 & D & E).
      rewrite node_eq by assumption.
      rewrite <- (firstn_skipn (half (length data)) data) at 1.
      apply tree_node; auto; apply IH; auto; lia.
    - destruct data as [|d [|e data]]; cbn in H1; try lia; [congruence|]. constructor.
  Qed.

  Lemma tree_nonempty : forall l r, tree H l r -> l <> [].
  Proof. intros l r T. destruct T; [discriminate|]. destruct l; [congruence|discriminate]. Qed.

  Lemma tree_fun : forall l a, tree H l a -> forall b, tree H l b -> a = b.
  Proof.
    intros l a T. induction T as [d | l r a b Hl Hr Hlen T1 IH1 T2 IH2]; intros c Tc.
    - inversion Tc as [d'|l r a b Hl Hr Hlen T1 T2 E1]; subst; [reflexivity|].
      destruct l as [|x [|y l]]; destruct r; cbn in *; try congruence; try discriminate.
    - inversion Tc as [d' E1|l' r' a' b' Hl' Hr' Hlen' T1' T2' E1]; subst.
      + exfalso. destruct l as [|x [|y l]]; destruct r; cbn in *; try congruence; try discriminate.
      + assert (E2 : length (l ++ r) = length (l' ++ r')) by (now rewrite E1).
        destruct (split_unique _ _ _ _ Hlen Hlen' E2) as [El Er].
        destruct (app_eq_len _ l r l' r' El) as [-> ->]; [congruence|].
        now rewrite (IH1 _ T1'), (IH2 _ T2').
  Qed.

  Lemma tree_is_node : forall l r, tree H l r -> r = node l.
  Proof. intros l r T. apply (tree_fun l r T). apply node_tree. eapply tree_nonempty; eassumption. Qed.

  Lemma tree_length32 : (forall x, length (H x) = 32) -> forall l r, 2 <= length l -> tree H l r -> length r = 32.
  Proof. intros H32 l r H2 T. destruct T; [cbn in H2; lia|]. apply H32. Qed.

  (** ** Traces *)
  Lemma trace_f_enough : forall f g data i, length data <= f -> length data <= g -> trace_f f data i = trace_f g data i.
  Proof.
    induction f as [|f IH]; intros g data i Hf Hg.
    - destruct g; cbn; [reflexivity|]. destruct (Nat.leb_spec (length data) 1); [reflexivity|lia].
    - destruct g as [|g]; cbn [Merkle_Model.trace_f].
      + destruct (Nat.leb_spec (length data) 1); [reflexivity|lia].
      + destruct (Nat.leb_spec (length data) 1); [reflexivity|]. f_equal.
        destruct (half_bounds (length data) ltac:(lia)) as (A & B & _).
        apply IH; unfold split_and_select; destruct (Bool.eqb _ _); rewrite ?firstn_length, ?skipn_length; lia.
  Qed.

  Lemma trace_nil : forall data i, length data <= 1 -> trace data i = [].
  Proof.
    intros data i H1. unfold Merkle_Model.trace. destruct (length data) as [|n] eqn:E; [reflexivity|].
    cbn. rewrite E. destruct n; [reflexivity|lia].
  Qed.

  Lemma trace_eq_left : forall data i, 2 <= length data -> i < half (length data) ->
    trace data i = node (skipn (half (length data)) data) :: trace (firstn (half (length data)) data) i.
  Proof.
    intros data i H2 Hi. unfold Merkle_Model.trace at 1.
    replace (length data) with (S (length data - 1)) at 1 by lia. cbn [Merkle_Model.trace_f].
    destruct (Nat.leb_spec (length data) 1); [lia|].
    unfold split_and_select, merkle_index_offset. destruct (Nat.ltb_spec i (half (length data))); [|lia].
    cbn [Bool.eqb]. rewrite Nat.sub_0_r. f_equal. unfold Merkle_Model.trace.
    destruct (halves data H2) as (_ & _ & _ & L1 & L2 & D & E).
    apply trace_f_enough; lia.
  Qed.
  Lemma trace_eq_right : forall data i, 2 <= length data -> half (length data) <= i ->
    trace data i = node (firstn (half (length data)) data) :: trace (skipn (half (length data)) data) (i - half (length data)).
  Proof.
    intros data i H2 Hi. unfold Merkle_Model.trace at 1.
    replace (length data) with (S (length data - 1)) at 1 by lia. cbn [Merkle_Model.trace_f].
    destruct (Nat.leb_spec (length data) 1); [lia|].
    unfold split_and_select, merkle_index_offset. destruct (Nat.ltb_spec i (half (length data))); [lia|].
    cbn [Bool.eqb]. f_equal. unfold Merkle_Model.trace.
    destruct (halves data H2) as (_ & _ & _ & L1 & L2 & D & E).
    apply trace_f_enough; lia.
  Qed.

  Lemma trace_climbs : forall data i leaf, nth_error data i = Some leaf ->
    exists hs, climbs H (length data) i leaf (trace data i) (node data) hs.
  Proof.
    induction data as [data IH] using len_ind. intros i leaf Hn.
    assert (Hi : i < length data) by (apply nth_error_Some; congruence).
    destruct (Nat.le_gt_cases 2 (length data)) as [H2|H1].
    - destruct (halves data H2) as (A & B & C & L1 & L2 & D & E).
      set (m := half (length data)) in *.
      assert (Hd : data = firstn m data ++ skipn m data) by (symmetry; apply firstn_skipn).
      rewrite node_eq by assumption. fold m.
      destruct (Nat.lt_ge_cases i m) as [Him|Him].
      + rewrite trace_eq_left by assumption. fold m.
        destruct (IH (firstn m data) ltac:(lia) i leaf) as [hs Hc].
        { rewrite Hd in Hn. rewrite nth_error_app1 in Hn by lia. exact Hn. }
        exists ((node_tag ++ node (firstn m data) ++ node (skipn m data)) :: hs).
        replace (length data) with (m + (length data - m)) by lia.
        apply climb_left; try lia. rewrite L1 in Hc. exact Hc.
      + rewrite trace_eq_right by assumption. fold m.
        destruct (IH (skipn m data) ltac:(lia) (i - m) leaf) as [hs Hc].
        { rewrite Hd in Hn. rewrite nth_error_app2 in Hn by lia. rewrite L1 in Hn. exact Hn. }
        exists ((node_tag ++ node (firstn m data) ++ node (skipn m data)) :: hs).
        replace (length data) with (m + (length data - m)) by lia.
        replace i with (m + (i - m)) at 1 by lia.
        apply climb_right; try lia. rewrite L2 in Hc. exact Hc.
    - destruct data as [|d [|e data]]; cbn in H1, Hi; try lia.
      destruct i; [|lia]. cbn in Hn. inversion Hn; subst. exists []. rewrite trace_nil by (cbn; lia). constructor.
  Qed.

  Lemma log2_up_half : forall n, 2 <= n -> S (Nat.log2_up (half n)) <= Nat.log2_up n.
  Proof.
    intros n Hn.
    pose proof (Nat.log2_up_spec n ltac:(lia)) as [_ U].
    pose proof (Nat.log2_up_pos n ltac:(lia)) as P.
    assert (Hh : half n <= 2 ^ Nat.pred (Nat.log2_up n)).
    { destruct (Nat.log2_up n) as [|k]; [lia|]. cbn [Nat.pred]. rewrite Nat.pow_succ_r' in U. unfold half. lia. }
    apply Nat.log2_up_le_mono in Hh. rewrite Nat.log2_up_pow2 in Hh by lia. lia.
  Qed.

  Lemma trace_length_log : forall data i, length (trace data i) <= Nat.log2_up (length data).
  Proof.
    induction data as [data IH] using len_ind. intros i.
    destruct (Nat.le_gt_cases 2 (length data)) as [H2|H1].
    - destruct (halves data H2) as (A & B & C & L1 & L2 & D & E).
      pose proof (log2_up_half (length data) H2) as Hl.
      destruct (Nat.lt_ge_cases i (half (length data))) as [Him|Him].
      + rewrite trace_eq_left by assumption. cbn [length].
        pose proof (IH (firstn (half (length data)) data) ltac:(lia) i) as G. rewrite L1 in G. lia.
      + rewrite trace_eq_right by assumption. cbn [length].
        pose proof (IH (skipn (half (length data)) data) ltac:(lia) (i - half (length data))) as G. rewrite L2 in G.
        assert (Nat.log2_up (length data - half (length data)) <= Nat.log2_up (half (length data)))
          by (apply Nat.log2_up_le_mono; lia).
        lia.
    - rewrite trace_nil by lia. cbn. lia.
  Qed.

  (** ** Binding *)
  Hypothesis H32 : forall x, length (H x) = 32.

  Lemma root_len : forall l r L, tree H l r -> Forall (fun d => length d = L) l ->
    length r = (if Nat.leb (length l) 1 then L else 32).
  Proof.
    intros l r L T F. destruct T.
    - inversion F; subst. reflexivity.
    - rewrite H32. destruct l as [|x l]; [congruence|]. destruct r as [|y r]; [congruence|].
      rewrite app_length. cbn [length]. destruct (Nat.leb_spec (S (length l) + S (length r)) 1); [lia|reflexivity].
  Qed.

  Lemma tree_binding : forall d1 r, tree H d1 r -> forall d2 L, tree H d2 r -> length d1 = length d2 ->
    Forall (fun d => length d = L) d1 -> Forall (fun d => length d = L) d2 ->
    d1 = d2 \/ exists s t, tree_hashes H d1 s /\ tree_hashes H d2 t /\ collision H s t.
  Proof.
    intros d1 r T. induction T as [d | l r a b Hl Hr Hlen T1 IH1 T2 IH2]; intros d2 L Td2 El F1 F2.
    - destruct Td2 as [d'|l r a b Hl Hr Hlen T1 T2]; [left; reflexivity|].
      exfalso. rewrite app_length in El. destruct l; [congruence|]. destruct r; [congruence|]. cbn in El. lia.
    - remember (H (node_tag ++ a ++ b)) as rt eqn:Ert.
      destruct Td2 as [d'|l' r' a' b' Hl' Hr' Hlen' T1' T2'].
      { exfalso. rewrite app_length in El. destruct l; [congruence|]. destruct r; [congruence|]. cbn in El. lia. }
      destruct (split_unique _ _ _ _ Hlen Hlen' El) as [EL ER].
      apply Forall_app in F1. destruct F1 as [F1l F1r]. apply Forall_app in F2. destruct F2 as [F2l F2r].
      destruct (list_eq_dec N.eq_dec (node_tag ++ a ++ b) (node_tag ++ a' ++ b')) as [Es|Es].
      + apply app_inv_head in Es.
        assert (La : length a = length a') by (rewrite (root_len l a L), (root_len l' a' L), EL by assumption; reflexivity).
        destruct (app_eq_len _ a b a' b' La Es) as [-> ->].
        destruct (IH1 l' L T1' EL F1l F2l) as [->|(s & t & A & B & C)].
        * destruct (IH2 r' L T2' ER F1r F2r) as [->|(s & t & A & B & C)]; [left; reflexivity|].
          right. exists s, t. split; [apply th_right; auto|]. split; [apply th_right; auto|exact C].
        * right. exists s, t. split; [apply th_left; auto|]. split; [apply th_left; auto|exact C].
      + right. exists (node_tag ++ a ++ b), (node_tag ++ a' ++ b').
        split; [apply th_here; auto|]. split; [apply th_here; auto|]. split; [exact Es|]. congruence.
  Qed.

  (** A proof that verifies against the root of [data] shows the true item, or a collision between what the verifier
      hashed and what the tree hashes. Leaves and siblings are 32 bytes. *)
  Lemma climbs_len : forall n i leaf sibs r hs, climbs H n i leaf sibs r hs -> length leaf = 32 -> length r = 32.
  Proof. intros n i leaf sibs r hs C. induction C; intros; auto; apply H32. Qed.

  Lemma tree_len : forall l r, tree H l r -> Forall (fun d => length d = 32) l -> length r = 32.
  Proof. intros l r T F. rewrite (root_len l r 32 T F). now destruct (Nat.leb _ _). Qed.

  Lemma climbs_sound : forall n i leaf sibs r hs, climbs H n i leaf sibs r hs ->
    forall data, tree H data r -> length data = n -> length leaf = 32 ->
    Forall (fun d => length d = 32) data -> Forall (fun d => length d = 32) sibs ->
    nth_error data i = Some leaf \/ exists s t, In s hs /\ tree_hashes H data t /\ collision H s t.
  Proof.
    intros n i leaf sibs r hs C.
    induction C as [leaf | nl nr i leaf sib sibs r hs Hnr Hnl Hi C IH | nl nr i leaf sib sibs r hs Hnr Hnl Hi C IH];
      intros data T Hn Hleaf F Fs.
    - remember leaf as rt eqn:E in T. destruct T as [d|l r a b Hl Hr Hlen T1 T2].
      + subst. left. reflexivity.
      + exfalso. rewrite app_length in Hn. destruct l; [congruence|]. destruct r; [congruence|]. cbn in Hn. lia.
    - inversion Fs as [|? ? Fsib Fs']; subst.
      remember (H (node_tag ++ r ++ sib)) as rt eqn:E in T. destruct T as [d|l r' a b Hl Hr Hlen T1 T2].
      { cbn in Hn. lia. }
      rewrite app_length in Hn. assert (L1 : length l = nl) by lia. assert (L2 : length r' = nr) by lia.
      apply Forall_app in F. destruct F as [F1 F2].
      destruct (list_eq_dec N.eq_dec (node_tag ++ r ++ sib) (node_tag ++ a ++ b)) as [Es|Es].
      + apply app_inv_head in Es.
        destruct (app_eq_len _ r sib a b) as [-> ->]; [|assumption|].
        { rewrite (climbs_len _ _ _ _ _ _ C Hleaf), (tree_len l a T1 F1). reflexivity. }
        destruct (IH l T1 L1 Hleaf F1 Fs') as [G|(s & t & A & B & D)].
        * left. rewrite nth_error_app1 by lia. exact G.
        * right. exists s, t. split; [now right|]. split; [now apply th_left|exact D].
      + right. exists (node_tag ++ r ++ sib), (node_tag ++ a ++ b). split; [now left|].
        split; [now apply th_here|]. split; [exact Es|congruence].
    - inversion Fs as [|? ? Fsib Fs']; subst.
      remember (H (node_tag ++ sib ++ r)) as rt eqn:E in T. destruct T as [d|l r' a b Hl Hr Hlen T1 T2].
      { cbn in Hn. lia. }
      rewrite app_length in Hn. assert (L1 : length l = nl) by lia. assert (L2 : length r' = nr) by lia.
      apply Forall_app in F. destruct F as [F1 F2].
      destruct (list_eq_dec N.eq_dec (node_tag ++ sib ++ r) (node_tag ++ a ++ b)) as [Es|Es].
      + apply app_inv_head in Es.
        destruct (app_eq_len _ sib r a b) as [-> ->]; [|assumption|].
        { rewrite Fsib, (tree_len l a T1 F1). reflexivity. }
        destruct (IH r' T2 L2 Hleaf F2 Fs') as [G|(s & t & A & B & D)].
        * left. rewrite nth_error_app2 by lia. replace (nl + i - length l) with i by lia. exact G.
        * right. exists s, t. split; [now right|]. split; [now apply th_right|exact D].
      + right. exists (node_tag ++ sib ++ r), (node_tag ++ a ++ b). split; [now left|].
        split; [now apply th_here|]. split; [exact Es|congruence].
  Qed.

  (** ** Well-balanced root *)
  Lemma wb_root_tree : forall data, 2 <= length data -> tree H data (wb_root H data).
  Proof.
    intros data H2. destruct data as [|a [|b data]]; try (cbn in H2; lia).
    unfold wb_root. rewrite firstn_all2; [apply node_tree; discriminate|].
    assert (Hne : a :: b :: data <> []) by discriminate.
    rewrite (tree_length32 H32 (a :: b :: data) _ H2 (node_tree _ Hne)). lia.
  Qed.

  (** ** Constant depth *)
  Lemma next_pow2_ge : forall n, n <= next_pow2 n.
  Proof.
    intros n. unfold next_pow2. destruct (Nat.le_gt_cases n 1) as [Hn|Hn].
    - destruct n as [|[|n]]; cbn; lia.
    - pose proof (Nat.log2_up_spec n Hn). lia.
  Qed.

  Lemma preprocess_length : forall data, length (constancy_preprocess H data) = 2 ^ Nat.log2_up (length data).
  Proof.
    intros [|d data]; [reflexivity|]. unfold constancy_preprocess. rewrite app_length, map_length, repeat_length.
    pose proof (next_pow2_ge (length (d :: data))) as Hp. unfold next_pow2 in *.
    rewrite Nat.add_comm. now rewrite Nat.sub_add.
  Qed.

  Lemma preprocess_32 : forall data, Forall (fun d => length d = 32) (constancy_preprocess H data).
  Proof.
    intros [|d data]; [repeat constructor|]. unfold constancy_preprocess. apply Forall_app. split.
    - apply Forall_map. apply Forall_forall. auto.
    - apply Forall_forall. intros x Hx. apply repeat_spec in Hx. now subst.
  Qed.

  Lemma preprocess_ne : forall data, constancy_preprocess H data <> [].
  Proof. intros [|d data]; discriminate. Qed.

  Lemma cd_root_tree : forall data, tree H (constancy_preprocess H data) (cd_root H data).
  Proof.
    intros data. assert (T : tree H (constancy_preprocess H data) (node (constancy_preprocess H data)))
      by (apply node_tree, preprocess_ne).
    destruct data as [|d data]; [exact T|]. unfold cd_root.
    rewrite firstn_all2; [exact T|]. rewrite (tree_len _ _ T (preprocess_32 _)). lia.
  Qed.

  Lemma half_pow2 : forall k, half (2 ^ S k) = 2 ^ k.
  Proof. intros k. unfold half. rewrite Nat.pow_succ_r'. lia. Qed.


  (** The page of size 2^d containing index 2^d * p sits at the end of the first (k - d) siblings. *)
  Lemma page_climb : forall e d data p, length data = 2 ^ (e + d) -> p < 2 ^ e ->
    exists hs, climbs H (2 ^ e) p (node (firstn (2 ^ d) (skipn (2 ^ d * p) data)))
                 (firstn e (trace data (2 ^ d * p))) (node data) hs.
  Proof.
    induction e as [|e IH]; intros d data p Hl Hp.
    - cbn [Nat.pow] in Hp. assert (p = 0) by lia. subst p. rewrite Nat.mul_0_r. cbn [skipn firstn].
      rewrite firstn_all2 by (rewrite Hl; cbn; lia). exists []. constructor.
    - cbn [Nat.add] in Hl.
      assert (H2 : 2 <= length data) by (rewrite Hl, Nat.pow_succ_r'; pose proof (pow2_pos (e + d)); lia).
      destruct (halves data H2) as (A & B & C & L1 & L2 & D & E).
      assert (Hh : half (length data) = 2 ^ (e + d)) by (rewrite Hl; apply half_pow2).
      rewrite Hh in *.
      assert (Hpow : 2 ^ (e + d) = 2 ^ d * 2 ^ e) by (rewrite Nat.pow_add_r; lia).
      assert (Hd : data = firstn (2 ^ (e + d)) data ++ skipn (2 ^ (e + d)) data) by (symmetry; apply firstn_skipn).
      rewrite (node_eq data) by assumption. rewrite Hh.
      replace (2 ^ S e) with (2 ^ e + 2 ^ e) by (rewrite Nat.pow_succ_r'; lia).
      destruct (Nat.lt_ge_cases p (2 ^ e)) as [Hpe|Hpe].
      + assert (Hi : 2 ^ d * p < 2 ^ (e + d)).
        { rewrite Hpow. apply Nat.mul_lt_mono_pos_l; [apply pow2_pos|assumption]. }
        rewrite trace_eq_left by (rewrite ?Hh; assumption). rewrite Hh. cbn [firstn].
        destruct (IH d (firstn (2 ^ (e + d)) data) p L1 Hpe) as [hs Hc].
        assert (Es : firstn (2 ^ d) (skipn (2 ^ d * p) data) =
                     firstn (2 ^ d) (skipn (2 ^ d * p) (firstn (2 ^ (e + d)) data))).
        { rewrite Hd at 1. rewrite skipn_app, firstn_app.
          replace (2 ^ d - length (skipn (2 ^ d * p) (firstn (2 ^ (e + d)) data))) with 0.
          - cbn [firstn]. now rewrite app_nil_r.
          - rewrite skipn_length, L1, Hpow. assert (2 ^ d * (p + 1) <= 2 ^ d * 2 ^ e) by (apply Nat.mul_le_mono_l; lia). lia. }
        rewrite Es. exists ((node_tag ++ node (firstn (2 ^ (e + d)) data) ++ node (skipn (2 ^ (e + d)) data)) :: hs).
        apply climb_left; try lia; try apply pow2_pos. exact Hc.
      + assert (Hi : 2 ^ (e + d) <= 2 ^ d * p).
        { rewrite Hpow. apply Nat.mul_le_mono_l. assumption. }
        rewrite trace_eq_right by (rewrite ?Hh; assumption). rewrite Hh. cbn [firstn].
        replace (2 ^ d * p - 2 ^ (e + d)) with (2 ^ d * (p - 2 ^ e)) by (rewrite Hpow, Nat.mul_sub_distr_l; lia).
        assert (L2' : length (skipn (2 ^ (e + d)) data) = 2 ^ (e + d)).
        { rewrite L2, Hl, Nat.pow_succ_r'. lia. }
        assert (Hp' : p - 2 ^ e < 2 ^ e) by (rewrite Nat.pow_succ_r' in Hp; lia).
        destruct (IH d (skipn (2 ^ (e + d)) data) (p - 2 ^ e) L2' Hp') as [hs Hc].
        assert (Es : firstn (2 ^ d) (skipn (2 ^ d * p) data) =
                     firstn (2 ^ d) (skipn (2 ^ d * (p - 2 ^ e)) (skipn (2 ^ (e + d)) data))).
        { f_equal. rewrite Hd at 1. rewrite skipn_app.
          rewrite (skipn_all2 (firstn (2 ^ (e + d)) data)) by lia. cbn [app]. rewrite L1. f_equal.
          rewrite Hpow, Nat.mul_sub_distr_l. lia. }
        rewrite Es. exists ((node_tag ++ node (firstn (2 ^ (e + d)) data) ++ node (skipn (2 ^ (e + d)) data)) :: hs).
        replace p with (2 ^ e + (p - 2 ^ e)) at 1 by lia.
        apply climb_right; try lia; try apply pow2_pos. exact Hc.
  Qed.

  Lemma trace_pow2_length : forall k data i, length data = 2 ^ k -> length (trace data i) = k.
  Proof.
    induction k as [|k IH]; intros data i Hl.
    - now rewrite trace_nil by (rewrite Hl; cbn; lia).
    - assert (H2 : 2 <= length data) by (rewrite Hl, Nat.pow_succ_r'; pose proof (pow2_pos k); lia).
      assert (Hh : half (length data) = 2 ^ k) by (rewrite Hl; apply half_pow2).
      destruct (halves data H2) as (A & B & C & L1 & L2 & D & E). rewrite Hh in *.
      destruct (Nat.lt_ge_cases i (2 ^ k)) as [Hi|Hi].
      + rewrite trace_eq_left by (rewrite ?Hh; assumption). rewrite Hh. cbn [length]. f_equal. now apply IH.
      + rewrite trace_eq_right by (rewrite ?Hh; assumption). rewrite Hh. cbn [length]. f_equal. apply IH.
        rewrite L2, Hl, Nat.pow_succ_r'. lia.
  Qed.

  Lemma page_leaves : forall data p d ls, subtree_page_leaf_hashes H data p d = Ok ls ->
    2 ^ d * p <= length data ->
    d <= Nat.log2_up (length data) -> p < 2 ^ (Nat.log2_up (length data) - d) ->
    data <> [] ->
    firstn (2 ^ d) (skipn (2 ^ d * p) (constancy_preprocess H data)) = ls ++ repeat zero_hash (2 ^ d - length ls).
  Proof.
    intros data p d ls Hs Hstart Hd Hp Hne. unfold subtree_page_leaf_hashes in Hs.
    destruct (Nat.ltb_spec (Nat.min (length data) (2 ^ d * p + 2 ^ d)) (2 ^ d * p)); [lia|].
    set (f := fun item : bytes => H (LEAF ++ item)) in *.
    assert (Hls : ls = map f (firstn (Nat.min (length data) (2 ^ d * p + 2 ^ d) - 2 ^ d * p) (skipn (2 ^ d * p) data)))
      by congruence. clear Hs.
    assert (Hcp : constancy_preprocess H data = map f data ++ repeat zero_hash (next_pow2 (length data) - length data))
      by (destruct data; [congruence|reflexivity]).
    rewrite Hcp. rename data into w.
    set (k := Nat.log2_up (length w)) in *.
    assert (Hk : 2 ^ k = 2 ^ d * 2 ^ (k - d)) by (rewrite <- Nat.pow_add_r; f_equal; lia).
    assert (Hpk : 2 ^ d * p + 2 ^ d <= 2 ^ k).
    { rewrite Hk. assert (2 ^ d * (p + 1) <= 2 ^ d * 2 ^ (k - d)) by (apply Nat.mul_le_mono_l; lia). lia. }
    assert (Hwk : length w <= 2 ^ k) by exact (next_pow2_ge (length w)).
    unfold next_pow2. fold k.
    rewrite skipn_app, map_length. replace (2 ^ d * p - length w) with 0 by lia. rewrite skipn_O.
    rewrite firstn_app, skipn_length, map_length. subst ls. rewrite skipn_map, firstn_map.
    destruct (Nat.le_gt_cases (2 ^ d * p + 2 ^ d) (length w)) as [Hc|Hc].
    - rewrite Nat.min_r by lia. replace (2 ^ d * p + 2 ^ d - 2 ^ d * p) with (2 ^ d) by lia.
      replace (2 ^ d - (length w - 2 ^ d * p)) with 0 by lia. rewrite firstn_O.
      rewrite map_length, firstn_length, skipn_length.
      replace (2 ^ d - Nat.min (2 ^ d) (length w - 2 ^ d * p)) with 0 by lia. reflexivity.
    - rewrite Nat.min_l by lia.
      rewrite (firstn_all2 (n := 2 ^ d)) by (rewrite skipn_length; lia).
      rewrite (firstn_all2 (n := length w - _)) by (rewrite skipn_length; lia).
      f_equal. rewrite map_length, skipn_length.
      assert (R : forall n m (z : bytes), n <= m -> firstn n (repeat z m) = repeat z n).
      { clear. induction n as [|n IH]; intros [|m] z Hnm; cbn; auto; try lia. f_equal. apply IH. lia. }
      apply R. lia.
  Qed.

  Lemma page_justification : forall data p d,
    d <= Nat.log2_up (length data) -> p < 2 ^ (Nat.log2_up (length data) - d) ->
    2 ^ d * p < length data ->
    exists ls pr hs,
      subtree_page_leaf_hashes H data p d = Ok ls /\
      tree H (ls ++ repeat zero_hash (2 ^ d - length ls)) pr /\
      climbs H (2 ^ (Nat.log2_up (length data) - d)) p pr (single_page_justification H data p d) (cd_root H data) hs /\
      length (single_page_justification H data p d) = Nat.log2_up (length data) - d.
  Proof.
    intros data p d Hd Hp Hstart.
    assert (Hne : data <> []) by (destruct data; [cbn in Hstart; lia|discriminate]).
    assert (Hok : exists ls, subtree_page_leaf_hashes H data p d = Ok ls).
    { unfold subtree_page_leaf_hashes.
      destruct (Nat.ltb_spec (Nat.min (length data) (2 ^ d * p + 2 ^ d)) (2 ^ d * p)); [lia|eexists; reflexivity]. }
    destruct Hok as [ls Hls].
    pose proof (page_leaves data p d ls Hls ltac:(lia) Hd Hp Hne) as Hpage.
    set (k := Nat.log2_up (length data)) in *.
    destruct (page_climb (k - d) d (constancy_preprocess H data) p) as [hs Hc]; [|exact Hp|].
    { rewrite preprocess_length. fold k. f_equal. lia. }
    rewrite Hpage in Hc.
    assert (Hj : single_page_justification H data p d = firstn (k - d) (trace (constancy_preprocess H data) (2 ^ d * p))).
    { unfold single_page_justification, resize, next_pow2. rewrite Nat.log2_pow2 by lia. fold k.
      rewrite (trace_pow2_length k) by apply preprocess_length.
      replace (k - d - k) with 0 by lia. cbn [repeat]. apply app_nil_r. }
    assert (Hroot : cd_root H data = node (constancy_preprocess H data)) by (apply tree_is_node, cd_root_tree).
    exists ls, (node (ls ++ repeat zero_hash (2 ^ d - length ls))), hs.
    split; [exact Hls|]. split; [|split].
    - apply node_tree. rewrite <- Hpage. intros E. apply (f_equal (@length _)) in E.
      rewrite firstn_length, skipn_length, preprocess_length in E. fold k in E. cbn in E.
      pose proof (pow2_pos d). assert (Hk : 2 ^ k = 2 ^ d * 2 ^ (k - d)) by (rewrite <- Nat.pow_add_r; f_equal; lia).
      assert (2 ^ d * (p + 1) <= 2 ^ d * 2 ^ (k - d)) by (apply Nat.mul_le_mono_l; lia). lia.
    - rewrite Hj, Hroot. exact Hc.
    - rewrite Hj, firstn_length, (trace_pow2_length k) by apply preprocess_length. lia.
  Qed.

End P.

(** ** Mountain ranges *)
Section M.
  Variable H : bytes -> bytes.
  Lemma perfect_app : forall k a b, length a = 2 ^ k -> perfect H (S k) (a ++ b) = H (perfect H k a ++ perfect H k b).
  Proof.
    intros k a b Ha. cbn [perfect]. rewrite <- Ha, firstn_app_exact, skipn_app_exact. reflexivity.
  Qed.

  (** the loop, seen as a recursion on the peaks from the index on *)
  Fixpoint append_rec (rest : list (option bytes)) (curr_root : bytes) : list (option bytes) :=
    match rest with
    | [] => [Some curr_root]
    | None :: t => Some curr_root :: t
    | Some old_root :: t => None :: append_rec t (H (old_root ++ curr_root))
    end.

  Fixpoint inc (p : list (option (list bytes))) (c : list bytes) : list (option (list bytes)) :=
    match p with
    | [] => [Some c]
    | None :: t => Some c :: t
    | Some o :: t => None :: inc t (o ++ c)
    end.
  Fixpoint rmap (k : nat) (p : list (option (list bytes))) : list (option bytes) :=
    match p with [] => [] | o :: t => option_map (perfect H k) o :: rmap (S k) t end.
  Definition ol (o : option (list bytes)) : list bytes := match o with Some l => l | None => [] end.
  Fixpoint flat (p : list (option (list bytes))) : list bytes :=
    match p with [] => [] | o :: t => flat t ++ ol o end.
  Fixpoint wfr (k : nat) (p : list (option (list bytes))) : Prop :=
    match p with [] => True | o :: t => (forall l, o = Some l -> length l = 2 ^ k) /\ wfr (S k) t end.
  Definition lastsome (p : list (option (list bytes))) : Prop := p = [] \/ exists q l, p = q ++ [Some l].

  Lemma inc_rmap : forall p k c, wfr k p -> append_rec (rmap k p) (perfect H k c) = rmap k (inc p c).
  Proof.
    induction p as [|[o|] p IH]; intros k c W; cbn [rmap option_map append_rec inc]; try reflexivity.
    destruct W as [Wo W]. rewrite <- (perfect_app k o c) by auto. f_equal. now apply IH.
  Qed.
  Lemma inc_flat : forall p c, flat (inc p c) = flat p ++ c.
  Proof.
    induction p as [|[o|] p IH]; intros c; cbn [inc flat ol]; try (now rewrite ?app_nil_r).
    rewrite IH, app_nil_r, app_assoc. reflexivity.
  Qed.
  Lemma inc_wfr : forall p k c, wfr k p -> length c = 2 ^ k -> wfr k (inc p c).
  Proof.
    induction p as [|[o|] p IH]; intros k c W Hc; cbn [inc wfr] in *.
    - split; [|exact I]. intros l E. now inversion E; subst.
    - split; [discriminate|]. destruct W as [Wo W]. apply IH; [assumption|].
      rewrite app_length, (Wo o eq_refl), Hc, Nat.pow_succ_r'. lia.
    - split; [|tauto]. intros l E. now inversion E; subst.
  Qed.
  Lemma inc_last : forall p c, lastsome p -> lastsome (inc p c).
  Proof.
    induction p as [|o p IH]; intros c L; cbn [inc].
    - right. exists [], c. reflexivity.
    - assert (Lp : lastsome p).
      { destruct L as [E|(q & l & E)]; [discriminate|]. destruct q as [|q0 q]; inversion E; subst; [left; reflexivity|].
        right. now exists q, l. }
      destruct o as [o|].
      + destruct (IH (o ++ c) Lp) as [E|(q & l & E)].
        * destruct p as [|[?|] p]; discriminate.
        * right. exists (None :: q), l. now rewrite E.
      + destruct L as [E|(q & l & E)]; [discriminate|]. destruct q as [|q0 q]; inversion E; subst.
        right. exists (Some c :: q), l. reflexivity.
  Qed.

  Lemma flat_len : forall p k, wfr k p -> exists m, length (flat p) = 2 ^ k * m.
  Proof.
    induction p as [|o p IH]; intros k W; [exists 0; cbn; lia|]. destruct W as [Wo W].
    destruct (IH (S k) W) as [m Hm]. cbn [flat]. rewrite app_length, Hm, Nat.pow_succ_r'.
    destruct o as [l|]; cbn [ol].
    - exists (2 * m + 1). rewrite (Wo l eq_refl). lia.
    - exists (2 * m). cbn. lia.
  Qed.

  Lemma div_drop : forall a b r j k, a = 2 ^ S k * b -> r < 2 ^ S k -> (a + r) / 2 ^ (S k + j) = a / 2 ^ (S k + j).
  Proof.
    intros a b r j k -> Hr. rewrite Nat.pow_add_r. rewrite <- !Nat.div_div by (apply Nat.pow_nonzero; lia).
    f_equal. rewrite (Nat.mul_comm (2 ^ S k) b). rewrite Nat.div_add_l by (apply Nat.pow_nonzero; lia).
    rewrite Nat.div_mul by (apply Nat.pow_nonzero; lia). rewrite (Nat.div_small r) by assumption. lia.
  Qed.

  Lemma firstn_skipn_app : forall (A : Type) n a (x y : list A), length (firstn n (skipn a x)) = n ->
    firstn n (skipn a (x ++ y)) = firstn n (skipn a x).
  Proof.
    intros A n a x y Hl. rewrite firstn_length, skipn_length in Hl.
    destruct n as [|n]; [reflexivity|].
    rewrite skipn_app, firstn_app, skipn_length. replace (S n - (length x - a)) with 0 by lia.
    cbn [firstn]. apply app_nil_r.
  Qed.

  Lemma ol_small : forall k o, (forall l, o = Some l -> length l = 2 ^ k) -> length (ol o) < 2 ^ S k.
  Proof.
    intros k [l|] W; cbn [ol]; [rewrite (W l eq_refl)|cbn [length]]; rewrite Nat.pow_succ_r'; pose proof (pow2_pos k); lia.
  Qed.

  Lemma digit : forall p k j o, wfr k p -> nth_error p j = Some o ->
    (exists l, o = Some l) <-> (length (flat p) / 2 ^ (k + j)) mod 2 = 1.
  Proof.
    induction p as [|a p IH]; intros k j o W Hn; [destruct j; discriminate|]. destruct W as [Wa W].
    destruct (flat_len p (S k) W) as [m Hm]. pose proof (ol_small k a Wa) as Hs.
    destruct j as [|j].
    - cbn in Hn. inversion Hn; subst a. rewrite Nat.add_0_r. cbn [flat]. rewrite app_length, Hm, Nat.pow_succ_r'.
      replace (2 * 2 ^ k * m + length (ol o)) with (2 * m * 2 ^ k + length (ol o)) by lia.
      rewrite Nat.div_add_l by (apply Nat.pow_nonzero; lia).
      destruct o as [l|]; cbn [ol].
      + rewrite (Wa l eq_refl), Nat.div_same by (apply Nat.pow_nonzero; lia).
        split; [intros _; lia|intros _; eexists; reflexivity].
      + rewrite Nat.div_small by (cbn; apply pow2_pos). split; [intros [l E]; discriminate|lia].
    - cbn [nth_error] in Hn. cbn [flat]. rewrite app_length. replace (k + S j) with (S k + j) by lia.
      rewrite (div_drop _ m _ j k Hm Hs). now apply IH.
  Qed.

  Lemma run_pos : forall p k j l, wfr k p -> nth_error p j = Some (Some l) ->
    l = firstn (2 ^ (k + j)) (skipn (length (flat p) / 2 ^ S (k + j) * 2 ^ S (k + j)) (flat p)).
  Proof.
    induction p as [|a p IH]; intros k j l W Hn; [destruct j; discriminate|]. destruct W as [Wa W].
    destruct (flat_len p (S k) W) as [m Hm]. pose proof (ol_small k a Wa) as Hs.
    destruct j as [|j].
    - cbn in Hn. inversion Hn; subst a. rewrite Nat.add_0_r. cbn [flat]. rewrite app_length.
      pose proof (div_drop _ m _ 0 k Hm Hs) as Ed. rewrite Nat.add_0_r in Ed. rewrite Ed.
      rewrite Hm. rewrite (Nat.mul_comm (2 ^ S k) m), Nat.div_mul by (apply Nat.pow_nonzero; lia).
      rewrite (Nat.mul_comm m), <- Hm, skipn_app_exact. cbn [ol].
      rewrite <- (Wa l eq_refl), firstn_all. reflexivity.
    - cbn [nth_error] in Hn. cbn [flat]. rewrite app_length. replace (k + S j) with (S k + j) by lia.
      replace (S (S k + j)) with (S k + S j) by lia. rewrite (div_drop _ m _ (S j) k Hm Hs).
      pose proof (IH (S k) j l W Hn) as E. replace (S (S k + j)) with (S k + S j) in E by lia.
      assert (Ll : length l = 2 ^ (S k + j)).
      { clear - W Hn. revert k j W Hn. induction p as [|a p IH]; intros k j W Hn; [destruct j; discriminate|].
        destruct W as [Wa W]. destruct j as [|j]; cbn in Hn.
        - inversion Hn; subst. rewrite Nat.add_0_r. now apply Wa.
        - rewrite (IH (S k) j W Hn). f_equal. lia. }
      rewrite firstn_skipn_app; [exact E|]. rewrite <- E. exact Ll.
  Qed.

  Lemma nth_rmap : forall p k j, nth_error (rmap k p) j = option_map (option_map (perfect H (k + j))) (nth_error p j).
  Proof.
    induction p as [|o p IH]; intros k [|j]; cbn [rmap nth_error option_map]; try reflexivity.
    - now rewrite Nat.add_0_r.
    - rewrite IH. now replace (S k + j) with (k + S j) by lia.
  Qed.
  Lemma rmap_len : forall p k, length (rmap k p) = length p.
  Proof. induction p; intros; cbn; auto. Qed.

  Lemma append_loop_rec : forall rest done cur fuel, length rest < fuel ->
    append_loop H fuel (done ++ rest) (length done) cur = done ++ append_rec rest cur.
  Proof.
    induction rest as [|o rest IH]; intros done cur fuel Hf; (destruct fuel as [|fuel]; [cbn in Hf; lia|]); cbn [append_loop].
    - rewrite app_nil_r, Nat.leb_refl. reflexivity.
    - rewrite app_length. cbn [length]. destruct (Nat.leb_spec (length done + S (length rest)) (length done)); [lia|].
      rewrite nth_error_app2, Nat.sub_diag by lia. cbn [nth_error].
      assert (Hset : forall x, set_peak (done ++ o :: rest) (length done) x = done ++ x :: rest).
      { clear. intros x. induction done as [|a done IHd]; cbn; [reflexivity|]. now rewrite IHd. }
      destruct o as [o|]; rewrite Hset; [|reflexivity].
      cbn [append_rec]. replace (length done + 1) with (length (done ++ [None : option bytes])) by (rewrite app_length; cbn; lia).
      replace (done ++ None :: rest) with ((done ++ [None]) ++ rest) by (now rewrite <- app_assoc).
      rewrite IH by (cbn in Hf; lia). now rewrite <- app_assoc.
  Qed.

  Lemma append_is_rec : forall peaks leaf, mmr_append H peaks leaf = append_rec peaks leaf.
  Proof. intros. unfold mmr_append. apply (append_loop_rec peaks [] leaf). lia. Qed.

  Lemma append_recursive_same : forall peaks leaf, mmr_append_recursive H peaks leaf 0 = mmr_append H peaks leaf.
  Proof.
    unfold mmr_append_recursive, mmr_append. intros peaks. generalize (S (length peaks)) as fuel. generalize 0 as index.
    intros index fuel. revert peaks index. induction fuel as [|fuel IH]; intros peaks index leaf; [reflexivity|].
    cbn [append_recursive_f append_loop]. destruct (Nat.leb _ _); [reflexivity|].
    destruct (nth_error peaks index) as [[o|]|]; auto.
  Qed.

  Lemma mmr_runs : forall xs, exists p, fold_left (mmr_append H) xs [] = rmap 0 p /\ wfr 0 p /\ flat p = xs /\ lastsome p.
  Proof.
    induction xs as [|x xs (p & E & W & F & L)] using rev_ind.
    - exists []. repeat split. now left.
    - exists (inc p [x]). rewrite fold_left_app. cbn [fold_left]. rewrite E, append_is_rec.
      change x with (perfect H 0 [x]) at 1. rewrite inc_rmap by assumption.
      split; [reflexivity|]. split; [apply inc_wfr; auto|]. split; [rewrite inc_flat; now subst|]. now apply inc_last.
  Qed.

  Lemma mmr_peaks : forall xs i, let n := length xs in let P := fold_left (mmr_append H) xs [] in
    (Nat.testbit n i = true ->
       nth_error P i = Some (Some (perfect H i (firstn (2 ^ i) (skipn (n / 2 ^ S i * 2 ^ S i) xs))))) /\
    (Nat.testbit n i = false -> i < length P -> nth_error P i = Some None) /\
    (0 < n -> length P = S (Nat.log2 n)) /\ (n = 0 -> P = []).
  Proof.
    intros xs i n P. destruct (mmr_runs xs) as (p & E & W & F & L). subst P. rewrite E. subst n.
    assert (Hlen : 0 < length xs -> length p = S (Nat.log2 (length xs))).
    { intros Hpos. destruct L as [->|(q & l & ->)]; [cbn in F; subst xs; cbn in Hpos; lia|].
      rewrite app_length. cbn [length]. rewrite Nat.add_comm. cbn [Nat.add]. f_equal. symmetry.
      assert (Hb : forall q k, wfr k (q ++ [Some l]) ->
        2 ^ (k + length q) <= length (flat (q ++ [Some l])) < 2 ^ (k + S (length q))).
      { clear. induction q as [|o q IH]; intros k Wq.
        - cbn in *. destruct Wq as [Wo _]. rewrite (Wo l eq_refl), Nat.add_0_r, Nat.add_1_r, Nat.pow_succ_r'.
          pose proof (pow2_pos k). lia.
        - cbn [app] in *. destruct Wq as [Wo Wq]. specialize (IH (S k) Wq). cbn [flat length]. rewrite app_length.
          destruct (flat_len _ _ Wq) as [m Hm]. pose proof (ol_small k o Wo) as Hs.
          replace (k + S (length q)) with (S k + length q) by lia. split; [lia|].
          replace (k + S (S (length q))) with (S k + S (length q)) by lia.
          destruct IH as [_ IH]. rewrite (Nat.pow_add_r 2 (S k)) in IH |- *.
          rewrite Hm in *. set (A := 2 ^ S k) in *. set (B := 2 ^ S (length q)) in *. clearbody A B.
          assert (m < B) by nia. assert (A * (m + 1) <= A * B) by (apply Nat.mul_le_mono_l; lia). lia. }
      specialize (Hb q 0 W). rewrite F in Hb. cbn [Nat.add] in Hb.
      apply Nat.log2_unique; lia. }
    assert (Hnth : forall o, nth_error p i = Some o -> (exists l, o = Some l) <-> Nat.testbit (length xs) i = true).
    { intros o Ho. rewrite (digit p 0 i o W Ho), F. cbn [Nat.add]. rewrite Nat.testbit_eqb. symmetry. apply Nat.eqb_eq. }
    split; [|split; [|split]].
    - intros Ht. rewrite nth_rmap. cbn [Nat.add].
      destruct (nth_error p i) as [o|] eqn:En.
      + destruct (proj2 (Hnth o eq_refl) Ht) as [l ->]. cbn [option_map]. do 3 f_equal.
        pose proof (run_pos p 0 i l W En) as R. rewrite F in R. exact R.
      + exfalso. apply nth_error_None in En.
        destruct (Nat.eq_dec (length xs) 0) as [Z|Z].
        * rewrite Z, Nat.bits_0 in Ht. discriminate.
        * rewrite Nat.bits_above_log2 in Ht; [discriminate|]. rewrite Hlen in En by lia. lia.
    - intros Ht Hi. rewrite rmap_len in Hi. rewrite nth_rmap.
      destruct (nth_error p i) as [[l|]|] eqn:En.
      + exfalso. assert (Nat.testbit (length xs) i = true) by (apply (Hnth (Some l) eq_refl); now exists l). congruence.
      + reflexivity.
      + apply nth_error_None in En. lia.
    - intros Hpos. rewrite rmap_len. auto.
    - intros Hz. destruct L as [->|(q & l & ->)]; [reflexivity|]. exfalso.
      assert (Hb : forall q k, wfr k (q ++ [Some l]) -> 0 < length (flat (q ++ [Some l]))).
      { clear. induction q as [|o q IH]; intros k Wq.
        - cbn in *. destruct Wq as [Wo _]. rewrite (Wo l eq_refl). apply pow2_pos.
        - cbn [app flat] in *. destruct Wq as [_ Wq]. rewrite app_length. specialize (IH _ Wq). lia. }
      specialize (Hb q 0 W). rewrite F in Hb. lia.
  Qed.
End M.

(** ** Super-peak *)
Section SP.
  Variable K : bytes -> bytes.
  Hypothesis K32 : forall x, length (K x) = 32.
  Definition sp_step := fun result peak => K (PEAK ++ result ++ peak).
  Lemma fold_len : forall ps r, length r = 32 -> length (fold_left sp_step ps r) = 32.
  Proof. induction ps as [|p ps IH]; intros r Hr; cbn [fold_left]; [exact Hr|]. apply IH, K32. Qed.

  Lemma sp_binding : forall ps r qs s, length ps = length qs -> length r = 32 -> length s = 32 ->
    Forall (fun d => length d = 32) ps -> Forall (fun d => length d = 32) qs ->
    fold_left sp_step ps r = fold_left sp_step qs s ->
    (r = s /\ ps = qs) \/ exists a b, In a (peak_hashes K r ps) /\ In b (peak_hashes K s qs) /\ a <> b /\ K a = K b.
  Proof.
    induction ps as [|p ps IH]; intros r qs s Hl Hr Hs Fp Fq He.
    - destruct qs; [|discriminate]. cbn in He. auto.
    - destruct qs as [|q qs]; [discriminate|]. cbn [fold_left] in He. inversion Fp; subst. inversion Fq; subst.
      destruct (IH (sp_step r p) qs (sp_step s q)) as [[E1 E2]|(a & b & A & B & C)]; auto; try apply K32.
      + unfold sp_step in E1.
        destruct (list_eq_dec N.eq_dec (PEAK ++ r ++ p) (PEAK ++ s ++ q)) as [Es|Es].
        * apply app_inv_head in Es. destruct (app_eq_len _ r p s q) as [-> ->]; [congruence|assumption|].
          left. subst. auto.
        * right. exists (PEAK ++ r ++ p), (PEAK ++ s ++ q). cbn. auto.
      + right. exists a, b. cbn. unfold sp_step in *. auto.
  Qed.
End SP.

Lemma wb_binding : forall H, (forall x, length (H x) = 32) -> forall (d1 d2 : list bytes) L,
  length d1 = length d2 -> Forall (fun d => length d = L) d1 -> Forall (fun d => length d = L) d2 ->
  wb_root H d1 = wb_root H d2 ->
  d1 = d2 \/ exists s t, wb_hashes H d1 s /\ wb_hashes H d2 t /\ collision H s t.
Proof.
  intros H H32 d1 d2 L Hl F1 F2 E. destruct (Nat.le_gt_cases 2 (length d1)) as [H2|H1].
  - pose proof (wb_root_tree H H32 d1 H2) as T1. pose proof (wb_root_tree H H32 d2 ltac:(lia)) as T2.
    rewrite E in T1.
    destruct (tree_binding H H32 d1 _ T1 d2 L T2 Hl F1 F2) as [->|(s & t & A & B & C)]; [now left|].
    right. exists s, t. split; [right; auto|]. split; [right; split; [lia|assumption]|assumption].
  - destruct d1 as [|a [|a2 d1]]; destruct d2 as [|b [|b2 d2]]; cbn in Hl, H1; try lia; [now left|].
    cbn [wb_root] in E. destruct (list_eq_dec N.eq_dec a b) as [->|Hn]; [now left|].
    right. exists a, b. split; [now left|]. split; [now left|]. split; assumption.
Qed.

Lemma super_peak_binding : forall K, (forall x, length (K x) = 32) -> forall P Q p ps q qs,
  somes P = p :: ps -> somes Q = q :: qs -> length ps = length qs ->
  Forall (fun d => length d = 32) (p :: ps) -> Forall (fun d => length d = 32) (q :: qs) ->
  super_peak K P = super_peak K Q ->
  somes P = somes Q \/ exists s t, In s (peak_hashes K p ps) /\ In t (peak_hashes K q qs) /\ collision K s t.
Proof.
  intros K K32 P Q p ps q qs EP EQ Hl FP FQ E. unfold super_peak in E. rewrite EP, EQ in *.
  inversion FP; subst. inversion FQ; subst.
  destruct (sp_binding K K32 ps p qs q) as [[-> ->]|(s & t & A & B & C)]; auto.
  right. now exists s, t.
Qed.

Lemma preprocess_nth : forall H data i, data <> [] ->
  nth_error (constancy_preprocess H data) i =
    match nth_error data i with
    | Some item => Some (H (leaf_tag ++ item))
    | None => if Nat.ltb i (2 ^ Nat.log2_up (length data)) then Some (repeat 0%N 32) else None
    end.
Proof.
  intros H data i Hne.
  assert (Hcp : constancy_preprocess H data = map (fun item : bytes => H (LEAF ++ item)) data
     ++ repeat zero_hash (next_pow2 (length data) - length data)) by (destruct data; [congruence|reflexivity]).
  rewrite Hcp. pose proof (next_pow2_ge (length data)) as Hg. unfold next_pow2 in *.
  set (w := 2 ^ Nat.log2_up (length data)) in *. clearbody w.
  destruct (nth_error data i) as [item|] eqn:E.
  - assert (i < length data) by (apply nth_error_Some; congruence).
    rewrite nth_error_app1 by (now rewrite map_length). exact (map_nth_error (fun item : bytes => H (LEAF ++ item)) i data E).
  - apply nth_error_None in E. rewrite nth_error_app2, map_length by (now rewrite map_length).
    destruct (Nat.ltb_spec i w) as [Hi|Hi].
    + assert (Hx : i - length data < w - length data) by lia.
      destruct (nth_error (repeat zero_hash (w - length data)) (i - length data)) as [x|] eqn:Ex.
      * apply nth_error_In in Ex. apply repeat_spec in Ex. now subst.
      * apply nth_error_None in Ex. rewrite repeat_length in Ex. lia.
    + apply nth_error_None. rewrite repeat_length. lia.
Qed.

Lemma somes_app (l r : list (option bytes)) : somes (l ++ r) = somes l ++ somes r.
Proof. induction l as [|[x|] l IH]; cbn; [reflexivity|f_equal; exact IH|exact IH]. Qed.
Lemma somes_none (l : list (option bytes)) : somes l = [] <-> forall o, In o l -> o = None.
Proof.
  induction l as [|[x|] l IH]; cbn; [split; [intros _ o []|reflexivity]|split; [discriminate|intro F; specialize (F (Some x) (or_introl eq_refl)); discriminate]|].
  rewrite IH. split; intros F o; [intros [<-|I]; [reflexivity|exact (F o I)]|intro I; exact (F o (or_intror I))].
Qed.
Lemma super_peak_snoc K (l : list (option bytes)) o : super_peak K (l ++ [o]) =
  match o with None => super_peak K l | Some p => match somes l with [] => p | _ => K (PEAK ++ super_peak K l ++ p) end end.
Proof.
  unfold super_peak. rewrite somes_app. destruct o as [p|]; cbn [somes]; [|rewrite app_nil_r; reflexivity].
  destruct (somes l) as [|q qs]; cbn [app]; [reflexivity|]. rewrite fold_left_app. reflexivity.
Qed.
Lemma super_peak_peaked : forall K P r, peaked K P r <-> r = super_peak K P.
Proof.
  intros K P r. split.
  - induction 1 as [|l r _ IH|l p N|l q r p I _ IH]; [reflexivity| | |].
    + rewrite super_peak_snoc. exact IH.
    + rewrite super_peak_snoc. apply somes_none in N. rewrite N. reflexivity.
    + rewrite super_peak_snoc. destruct (somes l) eqn:E; [|rewrite IH; reflexivity]. apply somes_none with (o := Some q) in E; [discriminate|exact I].
  - intros ->. induction P as [|o P IH] using rev_ind; [constructor|]. rewrite super_peak_snoc. destruct o as [p|]; [|constructor; exact IH].
    destruct (somes P) as [|q qs] eqn:E; [apply pk_first, somes_none, E|].
    apply pk_next with (q := q); [|exact IH]. clear IH. revert E. induction P as [|[x|] P IH]; cbn; [discriminate|intro E; injection E as <- _; left; reflexivity|intro E; right; apply IH, E].
Qed.
