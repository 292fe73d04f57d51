(** Proofs about erasure coding. *)
From Verif Require Import Base Erasure_Model Erasure_Spec.
Set Implicit Arguments.

Lemma collect_ok {E A B} (f : A -> result E B) (g : A -> B) l :
  (forall a, In a l -> f a = Ok (g a)) -> collect f l = Ok (map g l).
Proof.
  induction l as [|a l IH]; intros F; cbn; [reflexivity|].
  rewrite (F a (or_introl eq_refl)). cbn. rewrite IH by (intros; apply F; now right). reflexivity.
Qed.

Lemma cut_word {E} d at_ : at_ + 2 <= length d -> @cut E d at_ 2 = Ok [nth at_ d 0%N; nth (at_ + 1) d 0%N].
Proof.
  intros L. unfold cut. replace (length d <? at_ + 2) with false by (symmetry; apply Nat.ltb_ge; lia).
  f_equal. revert d L. induction at_ as [|n IH]; intros d L.
  - destruct d as [|a [|b d]]; cbn in *; try lia. reflexivity.
  - destruct d as [|a d]; cbn in L; [lia|]. cbn [skipn nth Nat.add]. apply IH. lia.
Qed.

Lemma nth_firstn_lt {A} (l : list A) n i d : i < n -> nth i (firstn n l) d = nth i l d.
Proof.
  revert l i; induction n as [|n IH]; intros l i L; [lia|].
  destruct l, i; cbn; try reflexivity. apply IH. lia.
Qed.
Lemma nth_skipn_add {A} (l : list A) n i d : nth i (skipn n l) d = nth (n + i) l d.
Proof.
  revert l; induction n as [|n IH]; intros l; [reflexivity|]. destruct l; cbn; [now destruct i|apply IH].
Qed.

(** * Writing words *)
Lemma nth_put (l w r : bytes) j : nth j (l ++ w ++ r) 0%N =
  if j <? length l then nth j l 0%N
  else if j <? length l + length w then nth (j - length l) w 0%N else nth (j - length l - length w) r 0%N.
Proof.
  destruct (Nat.ltb_spec j (length l)); [now apply app_nth1|].
  rewrite app_nth2 by lia. destruct (Nat.ltb_spec j (length l + length w)).
  - apply app_nth1. lia.
  - apply app_nth2. lia.
Qed.

Section Put.
  Variable reed : Type.

  Lemma put_word_ok (c : bytes) pos w : 2 * pos + 2 <= length c -> length w = 2 ->
    exists c', @put_word reed c pos w = Ok c' /\ length c' = length c /\
      word c' pos = w /\ forall q, q <> pos -> word c' q = word c q.
  Proof.
    intros L W. unfold put_word. replace (length c <? 2 * pos + 2) with false by (symmetry; apply Nat.ltb_ge; lia).
    rewrite W. cbn [orb negb Nat.eqb]. eexists. split; [reflexivity|].
    assert (L1 : length (firstn (2 * pos) c) = 2 * pos) by (rewrite firstn_length; lia).
    split; [|split].
    - rewrite !app_length, L1, skipn_length, W. lia.
    - unfold word. rewrite !nth_put, L1, W.
      replace (2 * pos <? 2 * pos) with false by (symmetry; apply Nat.ltb_ge; lia).
      replace (2 * pos <? 2 * pos + 2) with true by (symmetry; apply Nat.ltb_lt; lia).
      replace (2 * pos + 1 <? 2 * pos) with false by (symmetry; apply Nat.ltb_ge; lia).
      replace (2 * pos + 1 <? 2 * pos + 2) with true by (symmetry; apply Nat.ltb_lt; lia).
      replace (2 * pos - 2 * pos) with 0 by lia. replace (2 * pos + 1 - 2 * pos) with 1 by lia.
      destruct w as [|a [|b [|]]]; cbn in W; try discriminate. reflexivity.
    - intros q NE. unfold word. rewrite !nth_put, L1, W.
      assert (X : forall j, (j < 2 * pos \/ 2 * pos + 2 <= j) ->
        (if j <? 2 * pos then nth j (firstn (2 * pos) c) 0%N
         else if j <? 2 * pos + 2 then nth (j - 2 * pos) w 0%N
         else nth (j - 2 * pos - 2) (skipn (2 * pos + 2) c) 0%N) = nth j c 0%N).
      { intros j [J|J].
        - replace (j <? 2 * pos) with true by (symmetry; apply Nat.ltb_lt; lia). now apply nth_firstn_lt.
        - replace (j <? 2 * pos) with false by (symmetry; apply Nat.ltb_ge; lia).
          replace (j <? 2 * pos + 2) with false by (symmetry; apply Nat.ltb_ge; lia).
          rewrite nth_skipn_add. f_equal. lia. }
      rewrite !X by lia. reflexivity.
  Qed.

  Definition square (n len : nat) (t : list bytes) : Prop := length t = n /\ forall i, i < n -> length (nth i t []) = len.

  Lemma put_at_ok n len t pos idx w : square n len t -> idx < n -> 2 * pos + 2 <= len -> length w = 2 ->
    exists t', @put_at reed t pos idx w = Ok t' /\ square n len t' /\
      word (nth idx t' []) pos = w /\
      forall i q, (i, q) <> (idx, pos) -> word (nth i t' []) q = word (nth i t []) q.
  Proof.
    intros [S1 S2] I1 P W. unfold put_at.
    destruct (nth_error t idx) as [c|] eqn:E; [|apply nth_error_None in E; lia].
    pose proof (nth_error_nth t idx [] E) as C.
    assert (Lc : length c = len) by (rewrite <- C; now apply S2).
    destruct (@put_word_ok c pos w) as (c' & E' & L' & W' & O'); [lia|assumption|].
    rewrite E'. cbn [bind]. eexists. split; [reflexivity|].
    assert (L1 : length (firstn idx t) = idx) by (rewrite firstn_length; lia).
    assert (G : forall i, nth i (firstn idx t ++ c' :: skipn (S idx) t) [] = if i =? idx then c' else nth i t []).
    { intros i. destruct (Nat.eqb_spec i idx) as [->|NE].
      - rewrite app_nth2 by lia. rewrite L1, Nat.sub_diag. reflexivity.
      - destruct (Nat.lt_ge_cases i idx).
        + rewrite app_nth1 by lia. now apply nth_firstn_lt.
        + rewrite app_nth2 by lia. rewrite L1. replace (i - idx) with (S (i - idx - 1)) by lia. cbn [nth].
          rewrite nth_skipn_add. f_equal. lia. }
    split; [|split].
    - split.
      + rewrite app_length. cbn [length]. rewrite L1, skipn_length. lia.
      + intros i Hi. rewrite G. destruct (i =? idx); [lia|auto].
    - rewrite G, Nat.eqb_refl. exact W'.
    - intros i q NE. rewrite G. destruct (Nat.eqb_spec i idx) as [->|]; [|reflexivity].
      rewrite O' by congruence. now rewrite C.
  Qed.

  Lemma merge_ok n len (f : nat -> nat -> bytes) ws : forall t, square n len t ->
    (forall pos idx w, In (pos, idx, w) ws -> idx < n /\ 2 * pos + 2 <= len /\ length w = 2 /\ w = f pos idx) ->
    exists t', @merge reed t ws = Ok t' /\ square n len t' /\
      forall i q, (word (nth i t' []) q = f q i) \/
        (word (nth i t' []) q = word (nth i t []) q /\ forall w, ~ In (q, i, w) ws).
  Proof.
    induction ws as [|[[pos idx] w] ws IH]; intros t Q F; cbn [merge].
    - exists t. split; [reflexivity|]. split; [assumption|]. intros i q. right. split; [reflexivity|]. intros ? [].
    - destruct (F pos idx w (or_introl eq_refl)) as (I1 & P1 & W1 & F1).
      destruct (@put_at_ok n len t pos idx w Q I1 P1 W1) as (t1 & E1 & Q1 & A1 & O1).
      rewrite E1. cbn [bind].
      destruct (IH t1 Q1) as (t' & E' & Q' & A'); [intros; apply F; now right|].
      exists t'. split; [exact E'|]. split; [exact Q'|]. intros i q.
      destruct (A' i q) as [X|[X Y]]; [now left|].
      destruct (Nat.eq_dec i idx) as [->|NE]; [destruct (Nat.eq_dec q pos) as [->|NE2]|].
      + left. congruence.
      + right. split; [rewrite X; apply O1; congruence|]. intros v [U|U]; [congruence|eapply Y; exact U].
      + right. split; [rewrite X; apply O1; congruence|]. intros v [U|U]; [congruence|eapply Y; exact U].
  Qed.
End Put.

Lemma square_zero n len : square n len (repeat (repeat 0%N len) n).
Proof.
  split; [apply repeat_length|]. intros i Hi.
  rewrite (nth_indep _ [] (repeat 0%N len)) by (now rewrite repeat_length).
  rewrite nth_repeat. apply repeat_length.
Qed.

(** * Chunks are their words *)
Lemma words_eq c d k : length c = 2 * k -> length d = 2 * k ->
  (forall q, q < k -> word c q = word d q) -> c = d.
Proof.
  intros L1 L2 W. apply (nth_ext c d 0%N 0%N); [congruence|]. intros j J. rewrite L1 in J.
  assert (Q : j / 2 < k) by (apply Nat.div_lt_upper_bound; lia).
  specialize (W _ Q). unfold word in W. injection W as W1 W2.
  pose proof (Nat.div_mod j 2 ltac:(lia)) as D.
  pose proof (Nat.mod_upper_bound j 2 ltac:(lia)).
  destruct (j mod 2) as [|[|]] eqn:M; [| |lia].
  - replace j with (2 * (j / 2)) by lia. exact W1.
  - replace j with (2 * (j / 2) + 1) by lia. exact W2.
Qed.
Lemma word_two c q : length (word c q) = 2.
Proof. reflexivity. Qed.

Lemma in_combine_seq {A} (l : list A) s i (w : A) (x : A) :
  In (i, w) (combine (seq s (length l)) l) <-> (s <= i < s + length l /\ nth (i - s) l x = w).
Proof.
  revert s; induction l as [|a l IH]; intros s; cbn [length seq combine In]; [split; [easy|lia]|].
  rewrite IH. split.
  - intros [E|[H1 H2]].
    + injection E as -> ->. split; [lia|]. now rewrite Nat.sub_diag.
    + split; [lia|]. replace (i - s) with (S (i - S s)) by lia. exact H2.
  - intros [H1 H2]. destruct (Nat.eq_dec i s) as [->|NE].
    + left. rewrite Nat.sub_diag in H2. cbn in H2. congruence.
    + right. split; [lia|]. replace (i - s) with (S (i - S s)) in H2 by lia. exact H2.
Qed.

(** * Padding *)
Section Codec.
  Variable reed : Type.
  Variable rs : reed_solomon reed.
  Variables total msg : nat.
  Hypothesis M0 : 0 < msg.
  Hypothesis MT : msg <= total.
  Hypothesis code : reed_solomon_code rs msg (total - msg).

  Lemma pad_ok data : exists d, @zero_pad_data reed data msg = Ok d /\ padded msg data d.
  Proof.
    unfold zero_pad_data. replace (msg =? 0) with false by (symmetry; apply Nat.eqb_neq; lia).
    replace (msg * 2) with (2 * msg) by lia.
    destruct (Nat.eqb_spec (length data mod (2 * msg)) 0) as [E|E].
    - exists data. split; [reflexivity|]. exists 0. cbn [repeat]. rewrite app_nil_r. split; [reflexivity|].
      split; [|lia]. apply Nat.mod_divide; lia.
    - eexists. split; [reflexivity|].
      pose proof (Nat.div_mod (length data) (2 * msg) ltac:(lia)) as D.
      pose proof (Nat.mod_upper_bound (length data) (2 * msg) ltac:(lia)).
      set (q := length data / (2 * msg)) in *. set (r := length data mod (2 * msg)) in *.
      exists ((q + 1) * (2 * msg) - length data). split; [reflexivity|]. split; [|lia].
      rewrite app_length, repeat_length. exists (q + 1). lia.
  Qed.

  Lemma padded_one data d d' : padded msg data d -> padded msg data d' -> d = d'.
  Proof.
    intros (z & -> & [a A] & Z) (z' & -> & [b B] & Z'). do 2 f_equal.
    rewrite app_length, repeat_length in A, B.
    assert (a = b).
    { destruct (Nat.lt_trichotomy a b) as [L|[E|L]]; [|exact E|].
      - assert ((a + 1) * (2 * msg) <= b * (2 * msg)) by (apply Nat.mul_le_mono_r; lia). lia.
      - assert ((b + 1) * (2 * msg) <= a * (2 * msg)) by (apply Nat.mul_le_mono_r; lia). lia. }
    subst. lia.
  Qed.

  (** The word of original chunk [i] at [pos]. *)
  Definition ow (d : bytes) (k pos i : nat) : bytes :=
    [nth (2 * (pos + i * k)) d 0%N; nth (2 * (pos + i * k) + 1) d 0%N].
  Definition ows (d : bytes) (k pos : nat) : list bytes := map (ow d k pos) (seq 0 msg).
  Definition recs (d : bytes) (k pos : nat) : list bytes :=
    match rs_encode rs (ows d k pos) with Ok r => r | _ => [] end.
  Definition cw (d : bytes) (k pos : nat) : list bytes := ows d k pos ++ recs d k pos.

  Lemma ows_length d k pos : length (ows d k pos) = msg.
  Proof. unfold ows. now rewrite map_length, seq_length. Qed.
  Lemma ows_two d k pos : Forall (fun w => length w = 2) (ows d k pos).
  Proof. unfold ows. apply Forall_forall. intros w I. apply in_map_iff in I as (i & <- & _). reflexivity. Qed.
  Lemma recs_ok d k pos : rs_encode rs (ows d k pos) = Ok (recs d k pos) /\
    length (recs d k pos) = total - msg /\ Forall (fun w => length w = 2) (recs d k pos).
  Proof.
    destruct (rc_encodes code (ows_length d k pos) (ows_two d k pos)) as (r & E & L & F).
    unfold recs. rewrite E. auto.
  Qed.
  Lemma cw_length d k pos : length (cw d k pos) = total.
  Proof. unfold cw. rewrite app_length, ows_length. destruct (recs_ok d k pos) as (_ & -> & _). lia. Qed.
  Lemma cw_two d k pos : Forall (fun w => length w = 2) (cw d k pos).
  Proof. apply Forall_app. split; [apply ows_two|apply recs_ok]. Qed.
  Lemma cw_code d k pos : codeword rs (ows d k pos) (cw d k pos).
  Proof. exists (recs d k pos). split; [apply recs_ok|reflexivity]. Qed.
  Lemma cw_nth d k pos i : i < msg -> nth i (cw d k pos) [] = ow d k pos i.
  Proof.
    intros L. unfold cw. rewrite app_nth1 by (now rewrite ows_length). unfold ows.
    rewrite (nth_indep _ [] (ow d k pos 0)) by (now rewrite map_length, seq_length).
    rewrite map_nth. now rewrite seq_nth.
  Qed.
  Lemma ows_nth d k pos i : i < msg -> nth i (ows d k pos) [] = ow d k pos i.
  Proof. intros L. rewrite <- (cw_nth d k pos L). unfold cw. now rewrite app_nth1 by (now rewrite ows_length). Qed.

  Lemma encode_word_ok d k pos : length d = msg * (2 * k) -> pos < k ->
    encode_word rs msg d k pos =
      Ok (map (fun iw => (pos, fst iw, snd iw)) (combine (seq 0 msg) (ows d k pos))
        ++ map (fun iw => (pos, msg + fst iw, snd iw)) (combine (seq 0 (length (recs d k pos))) (recs d k pos))).
  Proof.
    intros L P. unfold encode_word, original_words.
    rewrite (@collect_ok _ _ _ _ (ow d k pos)).
    - cbn [bind]. fold (ows d k pos). destruct (recs_ok d k pos) as (-> & _). cbn [reeds bind]. reflexivity.
    - intros i I. apply in_seq in I. apply cut_word. rewrite L.
      assert ((i + 1) * (2 * k) <= msg * (2 * k)) by (apply Nat.mul_le_mono_r; lia). lia.
  Qed.

  Lemma encode_ok data : exists d k chunks,
    padded msg data d /\ length d = msg * (2 * k) /\ erasure_encode rs total msg data = Ok chunks /\
    square total (2 * k) chunks /\ forall i q, i < total -> q < k -> word (nth i chunks []) q = nth i (cw d k q) [].
  Proof.
    destruct (pad_ok data) as (d & E & Pd). pose proof Pd as (z & _ & [k K] & _).
    exists d, k. unfold erasure_encode. rewrite E. cbn [bind].
    replace (msg =? 0) with false by (symmetry; apply Nat.eqb_neq; lia).
    assert (L : length d = msg * (2 * k)) by lia.
    assert (O : length d / msg = 2 * k) by (rewrite L, Nat.mul_comm; apply Nat.div_mul; lia).
    rewrite O. replace (2 * k / 2) with k by (rewrite Nat.mul_comm; symmetry; apply Nat.div_mul; lia).
    set (g := fun pos => map (fun iw => (pos, fst iw, snd iw)) (combine (seq 0 msg) (ows d k pos))
        ++ map (fun iw => (pos, msg + fst iw, snd iw)) (combine (seq 0 (length (recs d k pos))) (recs d k pos))).
    rewrite (@collect_ok _ _ _ _ g) by (intros p I; apply in_seq in I; apply encode_word_ok; [exact L|lia]).
    cbn [bind].
    assert (G : forall pos idx w, In (pos, idx, w) (concat (map g (seq 0 k))) <->
      pos < k /\ idx < total /\ w = nth idx (cw d k pos) []).
    { intros pos idx w. rewrite in_concat. split.
      - intros (l & Il & Iw). apply in_map_iff in Il as (p & <- & Ip). apply in_seq in Ip.
        unfold g in Iw. apply in_app_or in Iw as [Iw|Iw]; apply in_map_iff in Iw as ([i v] & Ev & Iv);
          cbn [fst snd] in Ev; injection Ev as -> <- <-.
        + rewrite <- (ows_length d k pos) in Iv at 1. apply (@in_combine_seq bytes _ _ _ _ []) in Iv as [H1 H2].
          rewrite ows_length in H1. rewrite Nat.sub_0_r in H2.
          split; [lia|]. split; [lia|]. unfold cw. rewrite app_nth1 by (rewrite ows_length; lia). symmetry; exact H2.
        + apply (@in_combine_seq bytes _ _ _ _ []) in Iv as [H1 H2]. rewrite Nat.sub_0_r in H2.
          destruct (recs_ok d k pos) as (_ & LR & _). rewrite LR in H1.
          split; [lia|]. split; [lia|]. unfold cw. rewrite app_nth2 by (rewrite ows_length; lia).
          rewrite ows_length. replace (msg + i - msg) with i by lia. symmetry; exact H2.
      - intros (H1 & H2 & ->). exists (g pos). split; [apply in_map, in_seq; lia|].
        unfold g. apply in_or_app. destruct (recs_ok d k pos) as (_ & LR & _).
        destruct (Nat.lt_ge_cases idx msg) as [L1|L1].
        + left. apply in_map_iff. exists (idx, nth idx (ows d k pos) []). cbn [fst snd]. split.
          * unfold cw. now rewrite app_nth1 by (now rewrite ows_length).
          * rewrite <- (ows_length d k pos) at 1. apply (@in_combine_seq bytes _ _ _ _ []).
            rewrite ows_length, Nat.sub_0_r. split; [lia|reflexivity].
        + right. apply in_map_iff. exists (idx - msg, nth (idx - msg) (recs d k pos) []). cbn [fst snd]. split.
          * unfold cw. rewrite app_nth2 by (rewrite ows_length; lia). rewrite ows_length. do 2 f_equal. lia.
          * apply (@in_combine_seq bytes _ _ _ _ []). rewrite Nat.sub_0_r, LR. split; [lia|reflexivity]. }
    destruct (@merge_ok reed total (2 * k) (fun pos idx => nth idx (cw d k pos) []) (concat (map g (seq 0 k)))
      _ (square_zero total (2 * k))) as (t & Et & Q & W).
    { intros pos idx w I. apply G in I as (H1 & H2 & ->). split; [assumption|]. split; [lia|]. split; [|reflexivity].
      pose proof (cw_two d k pos) as F. rewrite Forall_forall in F. apply F, nth_In. now rewrite cw_length. }
    exists t. split; [exact Pd|]. split; [exact L|]. split; [exact Et|]. split; [exact Q|].
    intros i q Hi Hq. destruct (W i q) as [X|[_ X]]; [exact X|].
    exfalso. apply (X (nth i (cw d k q) [])). apply G. auto.
  Qed.

  (** * Original chunks are slices of the data *)
  Lemma concat_nth (t : list bytes) n len j : length t = n -> (forall i, i < n -> length (nth i t []) = len) ->
    0 < len -> j < n * len -> nth j (concat t) 0%N = nth (j mod len) (nth (j / len) t []) 0%N.
  Proof.
    revert t j; induction n as [|n IH]; intros t j L R P J; [lia|].
    destruct t as [|c t]; cbn in L; [lia|]. cbn [concat].
    pose proof (R 0 ltac:(lia)) as R0. cbn in R0.
    destruct (Nat.lt_ge_cases j len) as [H|H].
    - rewrite app_nth1 by lia. rewrite Nat.mod_small, Nat.div_small by lia. reflexivity.
    - rewrite app_nth2 by lia. rewrite R0.
      rewrite IH; [|lia| |assumption|lia].
      + replace j with ((j - len) + 1 * len) at 3 4 by lia.
        rewrite Nat.mod_add, Nat.div_add by lia. rewrite Nat.add_1_r. reflexivity.
      + intros i Hi. apply (R (S i)). lia.
  Qed.
  Lemma concat_length_sq (t : list bytes) n len : length t = n -> (forall i, i < n -> length (nth i t []) = len) ->
    length (concat t) = n * len.
  Proof.
    revert t; induction n as [|n IH]; intros t L R; destruct t as [|c t]; cbn in L; try lia; [reflexivity|].
    pose proof (R 0 ltac:(lia)) as R0. cbn in R0. cbn [concat]. rewrite app_length, R0. rewrite (IH t); [lia|lia|].
    intros i Hi. apply (R (S i)). lia.
  Qed.

  Lemma joined d k t : length d = msg * (2 * k) -> square msg (2 * k) t ->
    (forall i q, i < msg -> q < k -> word (nth i t []) q = ow d k q i) -> concat t = d.
  Proof.
    intros L [Q1 Q2] W.
    apply (nth_ext _ _ 0%N 0%N); [rewrite (@concat_length_sq t msg (2 * k)); auto|].
    intros j J. rewrite (@concat_length_sq t msg (2 * k)) in J by auto.
    destruct (Nat.eq_dec k 0) as [->|K0]; [lia|].
    rewrite (@concat_nth t msg (2 * k)); [|assumption|assumption|lia|assumption].
    set (i := j / (2 * k)). set (r := j mod (2 * k)).
    assert (Hi : i < msg) by (apply Nat.div_lt_upper_bound; lia).
    assert (Hr : r < 2 * k) by (apply Nat.mod_upper_bound; lia).
    assert (Ej : j = 2 * k * i + r) by (apply Nat.div_mod; lia).
    assert (Hq : r / 2 < k) by (apply Nat.div_lt_upper_bound; lia).
    pose proof (Nat.div_mod r 2 ltac:(lia)) as D. pose proof (Nat.mod_upper_bound r 2 ltac:(lia)).
    revert D Hq. generalize (r / 2) as h. intros h D Hq.
    specialize (W i h Hi Hq). unfold word, ow in W.
    remember (2 * h) as h2 eqn:Eh. remember (2 * (h + i * k)) as x eqn:Ex. injection W as W1 W2.
    destruct (r mod 2) as [|[|]] eqn:Er; [| |lia].
    - replace r with h2 by lia. rewrite W1. f_equal. nia.
    - replace r with (h2 + 1) by lia. rewrite W2. f_equal. nia.
  Qed.

  (** * Recovery *)
  Lemma indexed_lose (keep : nat -> bool) (chunks : list bytes) s :
    indexed s (map (fun ic => if keep (fst ic) then Some (snd ic) else None) (combine (seq s (length chunks)) chunks))
    = map (fun i => (nth (i - s) chunks [], i)) (filter keep (seq s (length chunks))).
  Proof.
    revert s; induction chunks as [|c l IH]; intros s; [reflexivity|].
    cbn [length seq combine map filter fst snd].
    assert (T : map (fun i => (nth (i - s) (c :: l) [], i)) (filter keep (seq (S s) (length l)))
      = map (fun i => (nth (i - S s) l [], i)) (filter keep (seq (S s) (length l)))).
    { apply map_ext_in. intros i I. apply filter_In in I as [I _]. apply in_seq in I.
      f_equal. replace (i - s) with (S (i - S s)) by lia. reflexivity. }
    destruct (keep s); cbn [indexed map].
    - rewrite IH, T, Nat.sub_diag. reflexivity.
    - rewrite IH, T. reflexivity.
  Qed.

  Lemma filter_map_pair (f : nat -> bytes) (P : nat -> bool) l :
    filter (fun iw => P (fst iw)) (map (fun i => (i, f i)) l) = map (fun i => (i, f i)) (filter P l).
  Proof. induction l as [|a l IH]; [reflexivity|]. cbn. destruct (P a); cbn; now rewrite IH. Qed.

  Lemma recover_ok d k chunks keep : length d = msg * (2 * k) -> square total (2 * k) chunks ->
    (forall i q, i < total -> q < k -> word (nth i chunks []) q = nth i (cw d k q) []) ->
    msg <= kept keep total ->
    erasure_recover rs msg (lose keep chunks) = Ok d.
  Proof.
    intros L [Q1 Q2] W K. unfold erasure_recover, lose. rewrite indexed_lose, Q1.
    set (ks := filter keep (seq 0 total)).
    assert (Kl : msg <= length ks) by exact K.
    assert (Kn : NoDup ks) by (apply NoDup_filter, seq_NoDup).
    assert (Kt : forall i, In i ks -> i < total).
    { intros i I. apply filter_In in I as [I _]. apply in_seq in I. lia. }
    set (pr := map (fun i => (nth (i - 0) chunks [], i)) ks).
    assert (Lp : length pr = length ks) by (unfold pr; apply map_length).
    replace (length pr <? msg) with false by (symmetry; apply Nat.ltb_ge; lia).
    destruct pr as [|[c0 i0] pr'] eqn:Epr; [cbn in Lp; lia|].
    assert (Lc : length c0 = 2 * k).
    { assert (I : In (c0, i0) pr) by (rewrite Epr; now left). unfold pr in I.
      apply in_map_iff in I as (i & E & I). injection E as <- <-. rewrite Nat.sub_0_r. apply Q2. auto. }
    rewrite <- Epr. rewrite Lc.
    replace (2 * k / 2) with k by (rewrite Nat.mul_comm; symmetry; apply Nat.div_mul; lia).
    assert (R : forall pos, pos < k -> exists l, recover_word rs msg pr pos = Ok l /\
      forall p i w, In (p, i, w) l <-> p = pos /\ i < msg /\ w = ow d k pos i).
    { intros pos Hp. unfold recover_word, words_at.
      rewrite (@collect_ok _ _ _ _ (fun ci => (snd ci, word (fst ci) pos))).
      2:{ intros [c i] I. unfold pr in I. apply in_map_iff in I as (i' & E & I). injection E as <- <-.
          cbn [fst snd]. rewrite Nat.sub_0_r. rewrite cut_word; [reflexivity|]. rewrite Q2 by auto. lia. }
      cbn [bind].
      assert (M : map (fun ci => (snd ci, word (fst ci) pos)) pr = map (fun i => (i, nth i (cw d k pos) [])) ks).
      { unfold pr. rewrite map_map. apply map_ext_in. intros i I. cbn [fst snd]. rewrite Nat.sub_0_r.
        f_equal. apply W; auto. }
      rewrite M.
      rewrite (filter_map_pair (fun i => nth i (cw d k pos) []) (fun i => i <? msg)).
      rewrite (filter_map_pair (fun i => nth i (cw d k pos) []) (fun i => negb (i <? msg))).
      rewrite map_map. cbn [fst snd].
      destruct (rc_decodes code (ows_length d k pos) (ows_two d k pos) (cw_code d k pos) Kn) with
        (original := map (fun i => (i, nth i (cw d k pos) [])) (filter (fun i => i <? msg) ks))
        (recovery := map (fun i => (i - msg, nth i (cw d k pos) [])) (filter (fun i => negb (i <? msg)) ks))
        as (restored & E & R); [intros i I; apply Kt in I; lia|exact Kl|reflexivity|reflexivity|].
      rewrite E. cbn [reeds bind]. eexists. split; [reflexivity|].
      intros p i w. rewrite in_map_iff. split.
      - intros ([i' w'] & Ee & I). cbn [fst snd] in Ee. injection Ee as -> -> ->. split; [reflexivity|].
        apply in_app_or in I as [I|I].
        + apply in_map_iff in I as (j & Ej & I). injection Ej as -> <-. apply filter_In in I as [_ Lt].
          apply Nat.ltb_lt in Lt. split; [exact Lt|]. now apply cw_nth.
        + apply R in I as (H1 & _ & ->). split; [exact H1|]. now apply ows_nth.
      - intros (-> & Hi & ->). exists (i, ow d k pos i). split; [reflexivity|]. apply in_or_app.
        destruct (in_dec Nat.eq_dec i ks) as [I|I].
        + left. apply in_map_iff. exists i. split; [f_equal; now apply cw_nth|]. apply filter_In.
          split; [exact I|now apply Nat.ltb_lt].
        + right. apply R. split; [exact Hi|]. split; [exact I|]. symmetry. now apply ows_nth. }
    set (g := fun pos => match recover_word rs msg pr pos with Ok l => l | _ => [] end).
    rewrite (@collect_ok _ _ _ _ g).
    2:{ intros pos I. apply in_seq in I. destruct (R pos) as (l & E & _); [lia|]. unfold g. now rewrite E. }
    cbn [bind].
    assert (G : forall pos i w, In (pos, i, w) (concat (map g (seq 0 k))) <-> pos < k /\ i < msg /\ w = ow d k pos i).
    { intros pos i w. rewrite in_concat. split.
      - intros (l & Il & Iw). apply in_map_iff in Il as (p & <- & Ip). apply in_seq in Ip.
        destruct (R p) as (l & E & X); [lia|]. unfold g in Iw. rewrite E in Iw. apply X in Iw as (-> & H1 & H2).
        split; [lia|auto].
      - intros (H1 & H2 & ->). exists (g pos). split; [apply in_map, in_seq; lia|].
        destruct (R pos H1) as (l & E & X). unfold g. rewrite E. apply X. auto. }
    destruct (@merge_ok reed msg (2 * k) (fun pos idx => ow d k pos idx) (concat (map g (seq 0 k)))
      _ (square_zero msg (2 * k))) as (t & Et & Q & X).
    { intros pos idx w I. apply G in I as (H1 & H2 & ->). split; [assumption|]. split; [lia|]. split; reflexivity. }
    rewrite Et. cbn [bind]. f_equal. apply (joined L Q).
    intros i q Hi Hq. destruct (X i q) as [Y|[_ Y]]; [exact Y|].
    exfalso. apply (Y (ow d k q i)). apply G. auto.
  Qed.

  Lemma encode_layout data : exists d k chunks,
    padded msg data d /\ length d = msg * (2 * k) /\ erasure_encode rs total msg data = Ok chunks /\
    length chunks = total /\ (forall c, In c chunks -> length c = 2 * k) /\
    concat (firstn msg chunks) = d /\
    (forall pos, pos < k -> codeword rs (map (fun c => word c pos) (firstn msg chunks)) (map (fun c => word c pos) chunks)) /\
    (forall keep, msg <= kept keep total -> erasure_recover rs msg (lose keep chunks) = Ok d).
  Proof.
    destruct (encode_ok data) as (d & k & chunks & Pd & L & E & [Q1 Q2] & W).
    exists d, k, chunks. split; [exact Pd|]. split; [exact L|]. split; [exact E|]. split; [exact Q1|].
    split; [|split; [|split]].
    - intros c I. apply (@In_nth bytes _ _ []) in I as (i & Hi & <-). apply Q2. lia.
    - apply (@joined d k); [exact L| |].
      + split; [rewrite firstn_length; lia|]. intros i Hi. rewrite nth_firstn_lt by assumption. apply Q2. lia.
      + intros i q Hi Hq. rewrite nth_firstn_lt by assumption. rewrite W by lia. now apply cw_nth.
    - intros pos Hp.
      assert (A : map (fun c => word c pos) chunks = cw d k pos).
      { apply (nth_ext _ _ (word [] pos) []); [rewrite map_length, cw_length; exact Q1|].
        rewrite map_length, Q1. intros i Hi.
        rewrite (map_nth (fun c => word c pos) chunks [] i). now apply W. }
      rewrite A. rewrite <- firstn_map, A. unfold cw at 1. rewrite firstn_app, ows_length, Nat.sub_diag.
      cbn [firstn]. rewrite app_nil_r. rewrite firstn_all2 by (rewrite ows_length; lia). apply cw_code.
    - intros keep K. apply (@recover_ok d k chunks keep L); [split; assumption|exact W|exact K].
  Qed.

  Lemma indexed_length s chunks : length (indexed s chunks) = present chunks.
  Proof.
    revert s; induction chunks as [|[c|] l IH]; intros s; [reflexivity| |]; unfold present in *; cbn; now rewrite IH.
  Qed.
End Codec.

Lemma insufficient reed (rs : reed_solomon reed) msg chunks : present chunks < msg ->
  erasure_recover rs msg chunks = Err (InsufficientChunks (present chunks) msg).
Proof.
  intros L. unfold erasure_recover. rewrite !indexed_length.
  replace (present chunks <? msg) with true by (symmetry; now apply Nat.ltb_lt). reflexivity.
Qed.

(** * The parity code *)
Lemma sum_word_back a b : length a = 2 -> length b = 2 -> sum_word a (sum_word a b) = b /\ sum_word b (sum_word a b) = a.
Proof.
  intros A B. destruct a as [|a0 [|a1 [|]]]; try discriminate. destruct b as [|b0 [|b1 [|]]]; try discriminate.
  unfold sum_word. cbn.
  rewrite <- !N.lxor_assoc, !N.lxor_nilpotent, !N.lxor_0_l.
  rewrite (N.lxor_comm b0 a0), (N.lxor_comm b1 a1).
  rewrite !N.lxor_assoc, !N.lxor_nilpotent, !N.lxor_0_r. auto.
Qed.

Lemma parity_code : reed_solomon_code parity 2 1.
Proof.
  split.
  - intros ws L F. destruct ws as [|a [|b [|]]]; try discriminate. cbn. eexists. split; [reflexivity|]. split; [reflexivity|].
    constructor; [|constructor]. inversion F as [|? ? A F']; subst. inversion F' as [|? ? B _]; subst.
    unfold sum_word. rewrite map_length, combine_length. now rewrite A, B.
  - intros ws cw ks L F (rec & E & ->) ND LT K original recovery -> ->.
    destruct ws as [|a [|b [|]]]; try discriminate. cbn in E. injection E as <-.
    inversion F as [|? ? A F']; subst. inversion F' as [|? ? B _]; subst.
    destruct (sum_word_back a b A B) as [S1 S2].
    assert (K3 : length ks <= 3).
    { rewrite <- (seq_length 3 0). apply NoDup_incl_length; [exact ND|]. intros i I. apply in_seq. apply LT in I. lia. }
    assert (C : forall i, In i ks -> i = 0 \/ i = 1 \/ i = 2) by (intros i I; apply LT in I; lia).
    destruct ks as [|x [|y [|z [|]]]]; cbn in K, K3; try lia;
      repeat (match goal with H : NoDup (_ :: _) |- _ => inversion H; clear H; subst end); cbn [In] in *.
    all: pose proof (C x (or_introl eq_refl)) as X; pose proof (C y (or_intror (or_introl eq_refl))) as Y.
    2: pose proof (C z (or_intror (or_intror (or_introl eq_refl)))) as Z.
    all: destruct X as [->|[->| ->]], Y as [->|[->| ->]]; try (exfalso; tauto).
    7-12: destruct Z as [->|[->| ->]]; try (exfalso; tauto).
    all: cbn -[sum_word]; eexists; (split; [reflexivity|]); intros i w; cbn [In]; rewrite ?S1, ?S2; split.
    all: try (intros []; fail).
    all: try (intros (U1 & U2 & U3); exfalso; destruct i as [|[|]]; [tauto|tauto|lia]).
    all: try (intros [Ei|[]]; injection Ei as <- <-; split; [lia|split; [lia|reflexivity]]).
    all: try (intros (U1 & U2 & ->); left; destruct i as [|[|]]; try lia; try reflexivity; exfalso; tauto).
Qed.

(** * Recovery from chunks that need not be an encoding *)
Lemma merge_total reed n len ws : forall t, square n len t ->
  (forall pos idx w, In (pos, idx, w) ws -> idx < n /\ 2 * pos + 2 <= len /\ length w = 2) ->
  exists t', @merge reed t ws = Ok t'.
Proof.
  induction ws as [|[[pos idx] w] ws IH]; intros t Q F; cbn [merge]; [now exists t|].
  destruct (F pos idx w (or_introl eq_refl)) as (I1 & P1 & W1).
  destruct (@put_at_ok reed n len t pos idx w Q I1 P1 W1) as (t1 & E1 & Q1 & _).
  rewrite E1. cbn [bind]. apply IH; [exact Q1|]. intros; eapply F; now right.
Qed.
Lemma collect_total {E A B} (f : A -> result E B) l :
  (forall a, In a l -> f a <> Panic) -> collect f l <> Panic /\
  (forall bs, collect f l = Ok bs -> forall b, In b bs -> exists a, In a l /\ f a = Ok b).
Proof.
  induction l as [|a l IH]; intros F; cbn; [split; [discriminate|intros bs X; injection X as <-; intros b []]|].
  destruct IH as [N1 I1]; [intros; apply F; now right|]. pose proof (F a (or_introl eq_refl)) as Fa.
  destruct (f a) as [b|e|] eqn:Ea; cbn; [|split; discriminate|congruence].
  destruct (collect f l) as [bs|e|] eqn:El; cbn; [|split; discriminate|congruence].
  split; [discriminate|]. intros bs' X. injection X as <-. intros b' [<-|I]; [exists a; auto|].
  destruct (I1 bs eq_refl b' I) as (a' & ? & ?). exists a'. auto.
Qed.

Lemma in_indexed s chunks c i : In (c, i) (indexed s chunks) -> In (Some c) chunks.
Proof.
  revert s; induction chunks as [|[d|] l IH]; intros s X; cbn in X; [destruct X| |].
  - destruct X as [X|X]; [injection X as <- _; now left|right; eauto].
  - right; eauto.
Qed.

Lemma recover_total reed (rs : reed_solomon reed) msg len chunks : 0 < msg ->
  (forall o r, rs_decode rs o r <> Panic) ->
  (forall o r l i w, rs_decode rs o r = Ok l -> In (i, w) l -> i < msg /\ length w = 2) ->
  (forall c, In (Some c) chunks -> length c = len) ->
  erasure_recover rs msg chunks <> Panic.
Proof.
  intros M0 D1 D2 L. unfold erasure_recover. destruct (Nat.ltb_spec (length (indexed 0 chunks)) msg) as [|K]; [discriminate|].
  assert (IL : forall c i, In (c, i) (indexed 0 chunks) -> length c = len) by (intros c i I; apply in_indexed in I; auto).
  destruct (indexed 0 chunks) as [|[c0 i0] pr] eqn:Ep; [cbn in K; lia|].
  rewrite (IL c0 i0 (or_introl eq_refl)). remember ((c0, i0) :: pr) as ps eqn:Eps. clear Eps Ep K.
  pose proof (Nat.mul_div_le len 2 ltac:(lia)) as K2. set (k := len / 2) in *.
  assert (W : forall pos, pos < k -> recover_word rs msg ps pos <> Panic /\
    forall l, recover_word rs msg ps pos = Ok l -> forall p i w, In (p, i, w) l -> p = pos /\ i < msg /\ length w = 2).
  { intros pos P. unfold recover_word, words_at.
    rewrite (@collect_ok _ _ _ _ (fun ci => (snd ci, word (fst ci) pos))).
    2:{ intros [c i] I. cbn [fst snd]. rewrite cut_word; [reflexivity|]. rewrite (IL c i I). lia. }
    cbn [bind].
    match goal with |- context [rs_decode rs ?o ?r] => destruct (rs_decode rs o r) as [l|e|] eqn:Ed; [|split; discriminate|now apply D1 in Ed] end.
    cbn [reeds bind]. split; [discriminate|]. intros l' X p i w I. injection X as <-.
    apply in_map_iff in I as ([i' w'] & Ee & I). cbn [fst snd] in Ee. injection Ee as -> -> ->. split; [reflexivity|].
    apply in_app_or in I as [I|I]; [|eapply D2; eassumption].
    apply filter_In in I as [I B]. cbn [fst] in B. apply Nat.ltb_lt in B. split; [exact B|].
    apply in_map_iff in I as (ci & Ec & _). injection Ec as _ <-. apply word_two. }
  destruct (@collect_total _ _ _ (recover_word rs msg ps) (seq 0 k)) as [N1 I1].
  { intros pos I. apply in_seq in I. apply W. lia. }
  destruct (collect (recover_word rs msg ps) (seq 0 k)) as [wss|e|] eqn:Ec; cbn [bind]; [|discriminate|congruence].
  destruct (@merge_total reed msg len (concat wss) _ (square_zero msg len)) as (t & Et).
  { intros pos idx w I. apply in_concat in I as (l & Il & Iw). destruct (I1 wss eq_refl l Il) as (p & Ip & Ef).
    apply in_seq in Ip. destruct (W p ltac:(lia)) as [_ X]. destruct (X l Ef pos idx w Iw) as (-> & ? & ?).
    split; [assumption|]. split; [lia|assumption]. }
  rewrite Et. discriminate.
Qed.
