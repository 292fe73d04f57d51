From Verif Require Import Base Base_Proofs StateKeys_Model StateKeys_Spec.

Definition key_of (H : bytes -> bytes) (a : item) : bytes :=
  match a with
  | Chapter i => simple_key i
  | Account s => metadata_key s
  | Storage s k => storage_key H s k
  | Preimage s h => preimage_key H s h
  | Lookup s h l => lookups_key H s h l
  end.
Lemma chapter_cases : forall i, (1 <= i <= 16)%N -> simple_key i = i :: repeat 0%N 30.
Proof.
  intros i Hi. assert (E : exists n, n < 17 /\ i = N.of_nat n) by (exists (N.to_nat i); lia). destruct E as [n [A ->]].
  do 17 (destruct n as [|n]; [try reflexivity; lia|]). lia.
Qed.
Lemma metadata_eq : forall s, metadata_key s = 255%N :: nth 0 (le_bytes 4 s) 0%N :: 0%N :: nth 1 (le_bytes 4 s) 0%N :: 0%N :: nth 2 (le_bytes 4 s) 0%N :: 0%N :: nth 3 (le_bytes 4 s) 0%N :: repeat 0%N 23.
Proof. reflexivity. Qed.
Lemma cons8 : forall a0 a1 a2 a3 a4 a5 a6 a7 b0 b1 b2 b3 b4 b5 b6 b7 (r q : bytes), a0 :: a1 :: a2 :: a3 :: a4 :: a5 :: a6 :: a7 :: r = b0 :: b1 :: b2 :: b3 :: b4 :: b5 :: b6 :: b7 :: q ->
  (a0 = b0 /\ a2 = b2 /\ a4 = b4 /\ a6 = b6) /\ (a1 = b1 /\ a3 = b3 /\ a5 = b5 /\ a7 = b7) /\ r = q.
Proof. intros. inversion H. repeat split; reflexivity. Qed.
Lemma cons4 : forall a0 a1 a2 a3 b0 b1 b2 b3 (r q : bytes), [a0; a1; a2; a3] ++ r = [b0; b1; b2; b3] ++ q -> (a0 = b0 /\ a1 = b1 /\ a2 = b2 /\ a3 = b3) /\ r = q.
Proof. intros. inversion H. repeat split; reflexivity. Qed.
Section Hash.
  Context (H : bytes -> bytes) (Hh : forall x, length (H x) = 32).
  Lemma item_eq : forall s x, item_key H s x =
    nth 0 (le_bytes 4 s) 0%N :: nth 0 (H x) 0%N :: nth 1 (le_bytes 4 s) 0%N :: nth 1 (H x) 0%N :: nth 2 (le_bytes 4 s) 0%N :: nth 2 (H x) 0%N :: nth 3 (le_bytes 4 s) 0%N :: nth 3 (H x) 0%N :: firstn 23 (skipn 4 (H x)).
  Proof. reflexivity. Qed.
  Lemma le4 : forall s, le_bytes 4 s = [nth 0 (le_bytes 4 s) 0%N; nth 1 (le_bytes 4 s) 0%N; nth 2 (le_bytes 4 s) 0%N; nth 3 (le_bytes 4 s) 0%N].
  Proof. reflexivity. Qed.
  Lemma first27 : forall x, firstn 27 (H x) = [nth 0 (H x) 0%N; nth 1 (H x) 0%N; nth 2 (H x) 0%N; nth 3 (H x) 0%N] ++ firstn 23 (skipn 4 (H x)).
  Proof. intro x. pose proof (Hh x) as L. destruct (H x) as [|a [|b [|c [|d l]]]]; try discriminate. reflexivity. Qed.
  Lemma item_key_inj : forall s t x y, (s < 2 ^ 32)%N -> (t < 2 ^ 32)%N -> item_key H s x = item_key H t y <-> s = t /\ firstn 27 (H x) = firstn 27 (H y).
  Proof.
    intros s t x y Hs Ht. rewrite !item_eq, !first27. split.
    - intro E. apply cons8 in E. destruct E as [[E0 [E1 [E2 E3]]] [[E4 [E5 [E6 E7]]] E8]]. split.
      + apply (le_bytes_inj 4); [change (256 ^ N.of_nat 4)%N with (2 ^ 32)%N; assumption|change (256 ^ N.of_nat 4)%N with (2 ^ 32)%N; assumption|]. rewrite (le4 s), (le4 t). congruence.
      + congruence.
    - intros [-> E]. apply cons4 in E. destruct E as [[E0 [E1 [E2 E3]]] E4]. congruence.
  Qed.
  Lemma zeros_tail : forall x, firstn 23 (skipn 4 (H x)) = repeat 0%N 23 -> firstn 23 (skipn 4 (H x)) = repeat 0%N 23. Proof. auto. Qed.
  Lemma hashed_key : forall a, item_ok a -> match hashed a with Some (s, x) => key_of H a = item_key H s x /\ (s < 2 ^ 32)%N | None => True end.
  Proof.
    intros [i|s|s k|s h|s h l] Ok; cbn [hashed key_of item_ok] in *; try exact I; (split; [reflexivity|tauto]).
  Qed.
  Lemma hashed_inj : forall a b s x, item_ok a -> item_ok b -> plain a -> plain b -> hashed a = Some (s, x) -> hashed b = Some (s, x) -> a = b.
  Proof.
    intros a b s x Oa Ob Pa Pb Ea Eb.
    assert (P1 : le_bytes 4 (2 ^ 32 - 1) = [255; 255; 255; 255]%N) by reflexivity. assert (P2 : le_bytes 4 (2 ^ 32 - 2) = [254; 255; 255; 255]%N) by reflexivity.
    assert (Q : forall l l' (u v : bytes), (l < 2 ^ 32)%N -> (l' < 2 ^ 32)%N -> le_bytes 4 l ++ u = le_bytes 4 l' ++ v -> l = l' /\ u = v).
    { intros l l' u v Hl Hl' E. rewrite (le4 l), (le4 l') in E. apply cons4 in E. destruct E as [[E0 [E1 [E2 E3]]] E4]. split; [|exact E4]. apply (le_bytes_inj 4); [exact Hl|exact Hl'|]. rewrite (le4 l), (le4 l'). congruence. }
    assert (R : forall c t z, item_ok c -> hashed c = Some (t, z) -> exists p u, z = le_bytes 4 p ++ u /\ (p < 2 ^ 32)%N /\
      ((p = 2 ^ 32 - 1 /\ c = Storage t u) \/ (p = 2 ^ 32 - 2 /\ c = Preimage t u) \/ c = Lookup t u p)%N).
    { intros c t z O E. destruct c as [i|sc|sc k|sc h|sc h l]; cbn [hashed item_ok] in *; try discriminate; inversion E; subst.
      - exists (2 ^ 32 - 1)%N, k. rewrite P1. split; [reflexivity|]. split; [reflexivity|auto].
      - exists (2 ^ 32 - 2)%N, h. rewrite P2. split; [reflexivity|]. split; [reflexivity|auto].
      - exists l, h. split; [reflexivity|]. split; [tauto|auto]. }
    destruct (R a s x Oa Ea) as [p [u [E1 [L1 C1]]]], (R b s x Ob Eb) as [q [v [E2 [L2 C2]]]]. rewrite E1 in E2. destruct (Q _ _ _ _ L1 L2 E2) as [-> ->].
    destruct C1 as [[X ->]|[[X ->]| ->]], C2 as [[Y ->]|[[Y ->]| ->]]; try reflexivity; cbn [plain] in Pa, Pb; exfalso; lia.
  Qed.
  Lemma keys_distinct : forall a b, item_ok a -> item_ok b -> plain a -> plain b -> key_of H a = key_of H b -> a = b \/ clash H a b.
  Proof.
    intros a b Oa Ob Pa Pb E. pose proof (hashed_key a Oa) as Ka. pose proof (hashed_key b Ob) as Kb.
    assert (Tail : forall c s x, hashed c = None -> item_ok c -> key_of H c = item_key H s x -> firstn 23 (skipn 4 (H x)) = repeat 0%N 23).
    { intros c s x N O X. destruct c as [i|t| | |]; try discriminate; cbn [key_of item_ok] in *.
      - rewrite chapter_cases, item_eq in X by assumption. cbn [repeat] in X. apply cons8 in X. destruct X as [_ [_ X8]]. symmetry. exact X8.
      - rewrite metadata_eq, item_eq in X. cbn [repeat] in X. apply cons8 in X. destruct X as [_ [_ X8]]. symmetry. exact X8. }
    destruct (hashed a) as [[s x]|] eqn:Ha, (hashed b) as [[t y]|] eqn:Hb.
    - destruct Ka as [Ka Hs], Kb as [Kb Ht]. rewrite Ka, Kb in E. apply item_key_inj in E; [|assumption|assumption]. destruct E as [-> E].
      destruct (list_eq_dec N.eq_dec x y) as [->|N]; [left; eapply hashed_inj; eassumption|]. right. left. exists t, x, y. rewrite Ha, Hb. auto.
    - destruct Ka as [Ka Hs]. rewrite Ka in E. right. right. exists s, x. split; [left; assumption|]. apply (Tail b s x); auto.
    - destruct Kb as [Kb Ht]. rewrite Kb in E. right. right. exists t, y. split; [right; assumption|]. apply (Tail a t y); auto.
    - left. destruct a as [i|s| | |], b as [j|t| | |]; try discriminate; cbn [key_of item_ok] in *.
      + rewrite !chapter_cases in E by assumption. inversion E. reflexivity.
      + rewrite chapter_cases, metadata_eq in E by assumption. cbn [repeat] in E. apply cons8 in E. lia.
      + rewrite chapter_cases, metadata_eq in E by assumption. cbn [repeat] in E. apply cons8 in E. lia.
      + rewrite !metadata_eq in E. apply cons8 in E. destruct E as [_ [[E0 [E1 [E2 E3]]] _]]. f_equal. apply (le_bytes_inj 4); [exact Oa|exact Ob|]. rewrite (le4 s), (le4 t). congruence.
  Qed.
  Lemma le_nth : forall s j, j < 4 -> nth j (le_bytes 4 s) 0%N = service_byte s j.
  Proof.
    intros s j Hj. unfold service_byte. do 4 (destruct j as [|j]; [cbn [le_bytes nth]; try (rewrite N.div_1_r); repeat rewrite N.div_div by discriminate; f_equal; try reflexivity|]). lia.
  Qed.
  Lemma nth_repeat0 : forall n j, nth j (repeat 0%N n) 0%N = 0%N.
  Proof. induction n as [|n IH]; intros [|j]; simpl; auto. Qed.
  Lemma nth_firstn_lt : forall n (l : bytes) j, j < n -> nth j (firstn n l) 0%N = nth j l 0%N.
  Proof. induction n as [|n IH]; intros [|x l] [|j] L; simpl; try lia; auto. apply IH. lia. Qed.
  Lemma nth_skipn4 : forall n (l : bytes) j, nth j (skipn n l) 0%N = nth (n + j) l 0%N.
  Proof. induction n as [|n IH]; intros [|x l] j; simpl; auto. destruct j; reflexivity. Qed.
  Lemma keys_exact : forall a, item_ok a -> key_bytes H a (key_of H a).
  Proof.
    intros a Oa.
    assert (It : forall s x, length (item_key H s x) = 31 /\ (forall j, j < 4 -> at_ (item_key H s x) (2 * j) = service_byte s j /\ at_ (item_key H s x) (2 * j + 1) = at_ (H x) j) /\ forall j, 4 <= j < 27 -> at_ (item_key H s x) (j + 4) = at_ (H x) j).
    { intros s x. rewrite item_eq. split; [|split].
      - cbn [length]. rewrite firstn_length, skipn_length, Hh. reflexivity.
      - intros j Hj. unfold at_. rewrite <- le_nth by assumption. do 4 (destruct j as [|j]; [split; reflexivity|]). lia.
      - intros j Hj. unfold at_. replace (j + 4) with (8 + (j - 4)) by lia. cbn [Nat.add nth]. rewrite nth_firstn_lt, nth_skipn4 by lia. f_equal. lia. }
    destruct a as [i|s|s k|s h|s h l]; cbn [item_ok] in Oa; unfold key_bytes; cbn [hashed key_of]; try apply It.
    - rewrite chapter_cases by assumption. split; [reflexivity|]. split; [reflexivity|]. intros [|j] Hj; [lia|]. unfold at_. cbn [nth]. apply nth_repeat0.
    - rewrite metadata_eq. split; [reflexivity|]. split; [reflexivity|]. split.
      + intros j Hj. unfold at_. rewrite <- le_nth by assumption. do 4 (destruct j as [|j]; [split; reflexivity|]). lia.
      + intros j Hj. unfold at_. replace j with (8 + (j - 8)) by lia. cbn [Nat.add nth]. apply nth_repeat0.
  Qed.
End Hash.
