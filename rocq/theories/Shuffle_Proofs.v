From Verif Require Import Base Base_Proofs Shuffle_Model Shuffle_Spec.
From Coq Require Import Permutation.
Ltac Zify.zify_post_hook ::= Z.div_mod_to_equations.

Section P.
  Context {T : Type}.
  Variable d : T.

  Lemma set_nth_app1 : forall (l m : list T) i x, i < length l -> set_nth (l ++ m) i x = set_nth l i x ++ m.
  Proof. induction l as [|a l IH]; intros m i x Hi; cbn in Hi; [lia|]. destruct i; cbn; [reflexivity|]. f_equal. apply IH. lia. Qed.
  Lemma set_nth_mid : forall (a b : list T) x y, set_nth (a ++ x :: b) (length a) y = a ++ y :: b.
  Proof. induction a; intros; cbn; [reflexivity|]. now f_equal. Qed.

  Lemma idx_lt : forall r n, 0 < n -> N.to_nat (r mod N.of_nat n) < n.
  Proof. intros. lia. Qed.

  (** The live part of the array is its prefix of length [len - i]. *)
  Lemma loop_fy : forall live dead rs i len, len - i = length live -> length live <= length rs -> (live = [] -> len <= i) ->
    fisher_yates live rs (shuffle_loop d len (live ++ dead) i rs).
  Proof.
    intros live dead rs. revert live dead. induction rs as [|r rs IH]; intros live dead i len Hl Hrs Hnil.
    - destruct live; [|cbn in Hrs; lia]. constructor.
    - destruct live as [|z live].
      { cbn [shuffle_loop]. destruct (Nat.leb_spec len i); [constructor|]. specialize (Hnil eq_refl). lia. }
      cbn [shuffle_loop]. destruct (Nat.leb_spec len i); [cbn in Hl; lia|].
      rewrite Hl. remember (z :: live) as L eqn:EL. assert (HL : 0 < length L) by (subst L; cbn; lia). clear EL Hnil.
      set (idx := N.to_nat (r mod N.of_nat (length L))).
      assert (Hidx : idx < length L) by (apply idx_lt; assumption).
      destruct (exists_last (l := L)) as (s & y & Es); [destruct L; [cbn in HL; lia|discriminate]|].
      assert (Ls : length L = S (length s)) by (rewrite Es, app_length; cbn; lia).
      destruct (Nat.eq_dec idx (length s)) as [Hlast|Hmid].
      + (* last position *)
        assert (Hout : nth idx (L ++ dead) d = y).
        { rewrite Es, <- app_assoc, Hlast. rewrite app_nth2, Nat.sub_diag by lia. reflexivity. }
        rewrite Hout. rewrite Es at 1.
        apply fy_last.
        { unfold idx in Hlast. rewrite Ls in Hlast. exact Hlast. }
        set (e' := if Nat.ltb i (len - 1) then _ else _).
        assert (He' : e' = s ++ y :: dead).
        { subst e'. destruct (Nat.ltb i (len - 1)).
          - rewrite Es, <- app_assoc. cbn [app]. rewrite Hlast.
            replace (length (s ++ [y]) - 1) with (length s) by (rewrite app_length; cbn; lia).
            rewrite app_nth2, Nat.sub_diag by lia. cbn [nth]. apply set_nth_mid.
          - rewrite Es, <- app_assoc. reflexivity. }
        rewrite He'. apply IH; [lia|cbn in Hrs; lia|].
        intros ->. cbn in Ls. lia.
      + (* inner position *)
        assert (Hlt : idx < length s) by lia.
        destruct (nth_error s idx) as [x|] eqn:Ex; [|apply nth_error_None in Ex; lia].
        destruct (nth_error_split _ _ Ex) as (a & b & Eab & La).
        assert (Hout : nth idx (L ++ dead) d = x).
        { rewrite Es, Eab, <- !app_assoc. cbn [app]. rewrite app_nth2 by lia. rewrite La, Nat.sub_diag. reflexivity. }
        rewrite Hout. rewrite Es, Eab at 1. rewrite <- app_assoc. cbn [app].
        assert (Lab : length s = S (length a + length b)) by (rewrite Eab, app_length; cbn; lia).
        apply fy_mid.
        { unfold idx in La. rewrite Ls, Lab in La. congruence. }
        destruct (Nat.ltb_spec i (len - 1)) as [Hi|Hi]; [|lia].
        assert (He' : set_nth (L ++ dead) idx (nth (length L - 1) (L ++ dead) d) = (a ++ y :: b) ++ (y :: dead)).
        { assert (Hy : nth (length L - 1) (L ++ dead) d = y).
          { rewrite Ls. cbn [Nat.sub]. rewrite Nat.sub_0_r, Es, <- app_assoc. rewrite app_nth2, Nat.sub_diag by lia. reflexivity. }
          rewrite Hy, Es, Eab, <- !app_assoc. cbn [app]. rewrite <- La. apply set_nth_mid. }
        rewrite He'. apply IH.
        * rewrite app_length. cbn [length]. lia.
        * rewrite app_length. cbn [length] in *. rewrite Ls in Hrs. lia.
        * destruct a; discriminate.
  Qed.

  Lemma shuffle_is_fy : forall (elems : list T) rs, length elems <= length rs -> fisher_yates elems rs (shuffle d elems rs).
  Proof.
    intros elems rs Hl. unfold shuffle. destruct elems as [|e elems]; [constructor|].
    rewrite <- (app_nil_r (e :: elems)) at 3. apply loop_fy; [lia|assumption|discriminate].
  Qed.

  Lemma fy_perm : forall (s : list T) rs out, fisher_yates s rs out -> Permutation out s.
  Proof.
    induction 1 as [rs | s x r rs out Hr F IH | a x b y r rs out Hr F IH].
    - constructor.
    - rewrite IH. apply Permutation_cons_append.
    - rewrite IH. apply Permutation_cons_app. rewrite app_assoc, <- Permutation_cons_append.
      apply Permutation_sym, Permutation_middle.
  Qed.

  Lemma shuffle_perm : forall (elems : list T) rs, length elems <= length rs -> Permutation (shuffle d elems rs) elems.
  Proof. intros. eapply fy_perm, shuffle_is_fy. assumption. Qed.

  Lemma snoc_cases : forall (l : list T), l = [] \/ exists s x, l = s ++ [x].
  Proof. intros l. destruct l as [|a l] using rev_ind; [now left|right; eauto]. Qed.

  Lemma fy_fun : forall (s : list T) rs out, fisher_yates s rs out -> forall s' out', fisher_yates s' rs out' -> s = s' -> out = out'.
  Proof.
    induction 1 as [rs | s x r rs out Hr F IH | a x b y r rs out Hr F IH]; intros s' out' F' Es; subst s'.
    - inversion F' as [? E1| s2 x2 r2 rs2 out2 Hr2 F2 E1 E2| a2 x2 b2 y2 r2 rs2 out2 Hr2 F2 E1 E2]; subst; [reflexivity| |];
        [destruct s2|destruct a2]; discriminate.
    - inversion F' as [? E1| s2 x2 r2 rs2 out2 Hr2 F2 E1 E2| a2 x2 b2 y2 r2 rs2 out2 Hr2 F2 E1 E2]; subst; try symmetry in E1; rename E1 into Es.
      + destruct s; discriminate.
      + apply app_inj_tail in Es. destruct Es as [-> ->]. f_equal. eapply IH; eauto.
      + exfalso. assert (Hlen : length s = S (length a2 + length b2)).
        { apply (f_equal (@length T)) in Es. rewrite !app_length in Es. cbn in Es. rewrite app_length in Es. cbn in Es. lia. }
        rewrite Hlen in Hr. lia.
    - inversion F' as [? E1| s2 x2 r2 rs2 out2 Hr2 F2 E1 E2| a2 x2 b2 y2 r2 rs2 out2 Hr2 F2 E1 E2]; subst; try symmetry in E1; rename E1 into Es.
      + destruct a; discriminate.
      + exfalso. assert (Hlen : length s2 = S (length a + length b)).
        { apply (f_equal (@length T)) in Es. rewrite !app_length in Es. cbn in Es. rewrite app_length in Es. cbn in Es. lia. }
        rewrite Hlen in Hr2. lia.
      + assert (Hlen : length a + length b = length a2 + length b2).
        { apply (f_equal (@length T)) in Es. rewrite !app_length in Es. cbn in Es. rewrite !app_length in Es. cbn in Es. lia. }
        rewrite Hlen in Hr. assert (La : length a = length a2) by lia.
        assert (Hab : a = a2 /\ x = x2 /\ b = b2 /\ y = y2).
        { clear - La Es. revert a2 La Es. induction a as [|a0 a IHa]; intros [|a2' a2] La Es; cbn in *; try lia.
          - inversion Es as [[E1 E2]]. apply app_inj_tail in E2. tauto.
          - inversion Es as [[E1 E2]]. destruct (IHa a2) as (-> & ?); [lia|assumption|]. subst. auto. }
        destruct Hab as (-> & -> & -> & ->). f_equal. eapply IH; eauto.
  Qed.

  (** Every permutation is produced by some stream of 32-bit randoms. *)
  Lemma fy_reach : forall (out s : list T), Permutation out s -> (N.of_nat (length s) <= 2 ^ 32)%N ->
    exists rs, length rs = length s /\ Forall (fun r => (r < 2 ^ 32)%N) rs /\ fisher_yates s rs out.
  Proof.
    induction out as [|o out IH]; intros s P Hs.
    - apply Permutation_nil in P. subst. exists []. repeat constructor.
    - assert (Ho : In o s) by (eapply Permutation_in; [exact P|now left]).
      destruct (snoc_cases s) as [->|(s0 & y & ->)]; [inversion Ho|].
      assert (Ls : length (s0 ++ [y]) = S (length s0)) by (rewrite app_length; cbn; lia). rewrite Ls in *.
      destruct (in_split _ _ Ho) as (a & b & Eab).
      destruct (snoc_cases b) as [->|(b0 & z & ->)].
      + apply app_inj_tail in Eab. destruct Eab as [<- <-].
        destruct (IH s0) as (rs & L & Fb & F).
        { apply Permutation_cons_inv with (a := y). rewrite P. apply Permutation_sym, Permutation_cons_append. }
        { lia. }
        exists (N.of_nat (length s0) :: rs). split; [cbn; lia|]. split; [constructor; [lia|assumption]|].
        apply fy_last; [|exact F]. rewrite N.mod_small by lia. lia.
      + assert (Ey : s0 = a ++ o :: b0 /\ y = z).
        { apply app_inj_tail. rewrite <- app_assoc. exact Eab. }
        destruct Ey as [-> <-].
        destruct (IH (a ++ y :: b0)) as (rs & L & Fb & F).
        { apply Permutation_cons_inv with (a := o). rewrite P, <- app_assoc. cbn [app].
          rewrite <- Permutation_middle. constructor. rewrite app_assoc, <- Permutation_cons_append.
          apply Permutation_middle. }
        { rewrite !app_length in *. cbn in *. lia. }
        rewrite app_length in *. cbn [length] in *.
        exists (N.of_nat (length a) :: rs). split; [cbn; lia|]. split; [constructor; [lia|assumption]|].
        rewrite <- app_assoc. cbn [app]. apply fy_mid; [|exact F]. rewrite N.mod_small by lia. lia.
  Qed.

  Lemma fy_unique : forall (s : list T) rs out, fisher_yates s rs out -> NoDup s ->
    forall rs', fisher_yates s rs' out -> length rs = length s -> length rs' = length s ->
    forall i, i < length s ->
    (nth i rs 0%N mod N.of_nat (length s - i) = nth i rs' 0%N mod N.of_nat (length s - i))%N.
  Proof.
    induction 1 as [rs | s x r rs out Hr F IH | a x b y r rs out Hr F IH]; intros ND rs' F' L1 L2 i Hi.
    - cbn in Hi. lia.
    - assert (Ls : length (s ++ [x]) = S (length s)) by (rewrite app_length; cbn; lia). rewrite Ls in *.
      inversion F' as [? E1| s2 x2 r2 rs2 out2 Hr2 F2 E1 E2 E3| a2 x2 b2 y2 r2 rs2 out2 Hr2 F2 E1 E2 E3]; subst.
      + apply app_inj_tail in E1. destruct E1 as [-> _].
        apply NoDup_remove_1 in ND. rewrite app_nil_r in ND.
        destruct i as [|i]; cbn [nth].
        * rewrite Nat.sub_0_r. lia.
        * cbn [Nat.sub]. apply IH; auto; cbn in *; lia.
      + exfalso. assert (Es0 : s = a2 ++ x :: b2 /\ x = y2).
        { symmetry in E1. replace (a2 ++ x :: b2 ++ [y2]) with ((a2 ++ x :: b2) ++ [y2]) in E1 by (now rewrite <- app_assoc).
          apply app_inj_tail in E1. tauto. }
        destruct Es0 as [-> <-]. apply NoDup_remove_2 in ND. apply ND. rewrite app_nil_r. apply in_or_app. right. now left.
    - assert (Ls : length (a ++ x :: b ++ [y]) = S (S (length a + length b))).
      { rewrite app_length. cbn. rewrite app_length. cbn. lia. } rewrite Ls in *.
      assert (ND' : NoDup (a ++ y :: b)).
      { apply Permutation_NoDup with (l := a ++ b ++ [y]).
        - apply Permutation_app_head. apply Permutation_sym, Permutation_cons_append.
        - now apply NoDup_remove_1 in ND. }
      assert (Nx : ~ In x (a ++ b ++ [y])) by (now apply NoDup_remove_2 in ND).
      assert (L' : length (a ++ y :: b) = S (length a + length b)) by (rewrite app_length; cbn; lia).
      inversion F' as [? E1| s2 x2 r2 rs2 out2 Hr2 F2 E1 E2 E3| a2 x2 b2 y2 r2 rs2 out2 Hr2 F2 E1 E2 E3]; subst.
      + exfalso. replace (a ++ x :: b ++ [y]) with ((a ++ x :: b) ++ [y]) in E1 by (now rewrite <- app_assoc).
        apply app_inj_tail in E1. destruct E1 as [_ <-]. apply Nx. apply in_or_app. right. apply in_or_app. right. now left.
      + assert (Hab : a2 = a /\ b2 = b /\ y2 = y).
        { clear - E1 Nx ND. revert a2 E1. revert ND Nx. induction a as [|a0 a IHa]; intros ND Nx [|a2' a2] E1; cbn in *.
          - inversion E1 as [E2]. apply app_inj_tail in E2. tauto.
          - inversion E1 as [[E2 E3]]. subst. exfalso. apply Nx. rewrite <- E3. apply in_or_app. right. now left.
          - inversion E1 as [[E2 E3]]. subst. tauto.
          - inversion E1 as [[E2 E3]]. subst. inversion ND; subst. destruct (IHa H2) with (a2 := a2) as (-> & ?); auto. }
        destruct Hab as (-> & -> & ->).
        destruct i as [|i]; cbn [nth].
        * rewrite Nat.sub_0_r. lia.
        * rewrite Nat.sub_succ, <- L'. apply IH; auto; rewrite ?L'; cbn [length] in *; lia.
  Qed.
End P.

Lemma nth_map' : forall (A B : Type) (f : A -> B) d e l i, e = f d -> nth i (map f l) e = f (nth i l d).
Proof. intros. subst. apply map_nth. Qed.

Lemma set_nth_map : forall (A B : Type) (f : A -> B) l i x, set_nth (map f l) i (f x) = map f (set_nth l i x).
Proof. induction l as [|a l IH]; intros [|i] x; cbn; auto. now rewrite IH. Qed.

Lemma shuffle_loop_map : forall (A B : Type) (f : A -> B) d e rs len elems i, e = f d ->
  shuffle_loop e len (map f elems) i rs = map f (shuffle_loop d len elems i rs).
Proof.
  intros A B f d e rs. induction rs as [|r rs IH]; intros len elems i He; [reflexivity|]. cbn [shuffle_loop].
  destruct (Nat.leb len i); [reflexivity|]. cbn [map]. rewrite !(nth_map' A B f d e) by assumption. f_equal.
  destruct (Nat.ltb i (len - 1)); [rewrite set_nth_map|]; now apply IH.
Qed.
Lemma shuffle_map : forall (A B : Type) (f : A -> B) d elems rs,
  shuffle (f d) (map f elems) rs = map f (shuffle d elems rs).
Proof.
  intros. unfold shuffle. destruct elems as [|a l]; [reflexivity|]. cbn [map]. rewrite <- map_cons.
  rewrite map_length. now apply shuffle_loop_map.
Qed.

(** ** Rotation *)
Section R.
  Variable H : bytes -> bytes.
  Lemma randoms_length : forall h n, length (hash_to_randoms H h n) = n.
  Proof. intros. unfold hash_to_randoms. now rewrite map_length, seq_length. Qed.

  Lemma shuffle_with_hash_perm : forall elems h, Permutation (shuffle_with_hash H elems h) elems.
  Proof. intros. unfold shuffle_with_hash. apply shuffle_perm. rewrite randoms_length. lia. Qed.

  Lemma count_map_seq : forall f n c, count_occ Nat.eq_dec (map f (seq 0 n)) c = length (filter (fun i => Nat.eqb (f i) c) (seq 0 n)).
  Proof.
    intros f n c. generalize 0 as s. induction n as [|n IH]; intros s; [reflexivity|]. cbn [seq map count_occ filter].
    destruct (Nat.eq_dec (f s) c) as [E|E].
    - rewrite E, Nat.eqb_refl. cbn [length]. now rewrite IH.
    - apply Nat.eqb_neq in E. rewrite E. apply IH.
  Qed.

  Lemma filter_block : forall k c n, 0 < k -> c * k + k <= n ->
    length (filter (fun i => Nat.eqb (i / k) c) (seq 0 n)) = k.
  Proof.
    intros k c n Hk Hn.
    replace n with (c * k + (k + (n - c * k - k))) by lia.
    rewrite !seq_app, !filter_app, !app_length. rewrite Nat.add_0_l.
    assert (F0 : forall s m, (forall i, s <= i < s + m -> i / k <> c) -> filter (fun i => Nat.eqb (i / k) c) (seq s m) = []).
    { intros s m. revert s. induction m as [|m IH]; intros s Hf; [reflexivity|]. cbn [seq filter].
      destruct (Nat.eqb_spec (s / k) c) as [E|E]; [exfalso; apply (Hf s); [lia|assumption]|]. apply IH. intros i Hi. apply Hf. lia. }
    assert (F1 : forall s m, (forall i, s <= i < s + m -> i / k = c) -> filter (fun i => Nat.eqb (i / k) c) (seq s m) = seq s m).
    { intros s m. revert s. induction m as [|m IH]; intros s Hf; [reflexivity|]. cbn [seq filter].
      destruct (Nat.eqb_spec (s / k) c) as [E|E]; [f_equal; apply IH; intros i Hi; apply Hf; lia|].
      exfalso. apply E, Hf. lia. }
    rewrite (F0 0 (c * k)), (F1 (c * k) k), (F0 (c * k + k)).
    - cbn [length]. rewrite seq_length. lia.
    - intros i Hi E. assert (i / k >= c + 1); [|lia]. apply Nat.div_le_lower_bound; nia.
    - intros i Hi. symmetry. apply Nat.div_unique with (r := i - c * k); nia.
    - intros i Hi E. assert (i / k < c); [|lia]. apply Nat.div_lt_upper_bound; nia.
  Qed.

  Lemma count_perm : forall (l m : list nat) c, Permutation l m -> count_occ Nat.eq_dec l c = count_occ Nat.eq_dec m c.
  Proof. intros. apply Permutation_count_occ. assumption. Qed.

  Lemma count_rot : forall C shift l c, 0 < C -> c < C -> Forall (fun x => x < C) l ->
    count_occ Nat.eq_dec (rotate_validator_indices C l shift) ((c + shift) mod C) = count_occ Nat.eq_dec l c.
  Proof.
    intros C shift l c HC Hc F. unfold rotate_validator_indices. induction F as [|x l Hx F IH]; [reflexivity|].
    cbn [map count_occ]. rewrite IH.
    destruct (Nat.eq_dec x c) as [->|Hne].
    - destruct (Nat.eq_dec ((c + shift) mod C) ((c + shift) mod C)); [reflexivity|congruence].
    - destruct (Nat.eq_dec ((x + shift) mod C) ((c + shift) mod C)) as [E|E]; [|reflexivity].
      exfalso. apply Hne.
      rewrite (Nat.add_mod x), (Nat.add_mod c) in E by lia. rewrite (Nat.mod_small x), (Nat.mod_small c) in E by assumption.
      assert (Hs : shift mod C < C) by (apply Nat.mod_upper_bound; lia). set (s := shift mod C) in *. clearbody s.
      clear - E Hs Hx Hc.
      destruct (Nat.lt_ge_cases (x + s) C) as [A|A]; destruct (Nat.lt_ge_cases (c + s) C) as [B|B].
      + rewrite !Nat.mod_small in E by assumption. lia.
      + rewrite (Nat.mod_small (x + s)) in E by assumption.
        replace (c + s) with (c + s - C + 1 * C) in E by lia. rewrite Nat.mod_add, Nat.mod_small in E by lia. lia.
      + rewrite (Nat.mod_small (c + s)) in E by assumption.
        replace (x + s) with (x + s - C + 1 * C) in E by lia. rewrite Nat.mod_add, Nat.mod_small in E by lia. lia.
      + replace (c + s) with (c + s - C + 1 * C) in E by lia. replace (x + s) with (x + s - C + 1 * C) in E by lia.
        rewrite !Nat.mod_add, !Nat.mod_small in E by lia. lia.
  Qed.

  Lemma base_ok : forall C k, 0 < C -> 0 < k ->
    map (fun i => C * i / (C * k)) (seq 0 (C * k)) = map (fun i => i / k) (seq 0 (C * k)).
  Proof.
    intros C k HC Hk. apply map_ext. intros i. rewrite Nat.div_mul_cancel_l by lia. reflexivity.
  Qed.

  Lemma rot_spec : forall C k E R entropy slot, 0 < C -> 0 < k ->
    let out := permute_validator_indices H (C * k) C E R entropy slot in
    length out = C * k /\ Forall (fun c => c < C) out /\ (forall c, c < C -> count_occ Nat.eq_dec out c = k).
  Proof.
    intros C k E R entropy slot HC Hk out. unfold out, permute_validator_indices.
    rewrite base_ok by assumption. set (base := map (fun i => i / k) (seq 0 (C * k))).
    set (sh := N.to_nat (slot mod E / R)).
    pose proof (shuffle_with_hash_perm base entropy) as P.
    assert (Fb : Forall (fun c => c < C) base).
    { apply Forall_forall. intros c Hc. unfold base in Hc. apply in_map_iff in Hc. destruct Hc as (i & <- & Hi).
      apply in_seq in Hi. apply Nat.div_lt_upper_bound; nia. }
    assert (Fs : Forall (fun c => c < C) (shuffle_with_hash H base entropy)).
    { eapply Permutation_Forall; [apply Permutation_sym, P|exact Fb]. }
    split; [|split].
    - unfold rotate_validator_indices. rewrite map_length, (Permutation_length P). unfold base. now rewrite map_length, seq_length.
    - unfold rotate_validator_indices. apply Forall_map. apply Forall_forall. intros x _. apply Nat.mod_upper_bound. lia.
    - intros c Hc.
      assert (Hpre : exists c0, c0 < C /\ (c0 + sh) mod C = c).
      { exists ((c + (C - sh mod C)) mod C). split; [apply Nat.mod_upper_bound; lia|].
        pose proof (Nat.mod_upper_bound sh C ltac:(lia)) as Hs. pose proof (Nat.div_mod_eq sh C) as Hdm.
        rewrite Nat.add_mod_idemp_l by lia.
        replace (c + (C - sh mod C) + sh) with (c + (1 + sh / C) * C) by nia.
        rewrite Nat.mod_add by lia. apply Nat.mod_small. assumption. }
      destruct Hpre as (c0 & Hc0 & <-).
      rewrite count_rot by assumption. rewrite (count_perm _ _ c0 P).
      unfold base. rewrite count_map_seq. apply filter_block; [assumption|nia].
  Qed.

  Lemma rot_is_rotation : forall V C E R entropy slot, 0 < C -> (0 < E)%N -> (0 < R)%N ->
    permute_validator_indices H V C E R entropy slot =
    map (fun core => (core + N.to_nat (slot mod E / R)) mod C)
        (permute_validator_indices H V C E R entropy (E * (slot / E))%N).
  Proof.
    intros V C E R entropy slot HC HE HR. unfold permute_validator_indices, rotate_validator_indices.
    rewrite map_map. apply map_ext. intros c. rewrite (N.mul_comm E), N.mod_mul, N.div_0_l by lia. cbn [N.to_nat].
    rewrite Nat.add_0_r, Nat.add_mod_idemp_l by lia. reflexivity.
  Qed.
End R.

Lemma prev_rot : forall H V C E R entropy2 entropy3 slot, (0 < E)%N -> (R <= E)%N -> (R <= slot)%N ->
  previous_core_indices H V C E R entropy2 entropy3 slot =
    current_core_indices H V C E R (if (slot mod E <? R)%N then entropy3 else entropy2) (slot - R)%N.
Proof.
  intros H V C E R e2 e3 slot HE HR Hs. unfold previous_core_indices, current_core_indices.
  destruct (N.eqb_spec ((slot - R) / E) (slot / E)) as [Eq|Ne]; destruct (N.ltb_spec (slot mod E) R) as [A|A]; try reflexivity; exfalso.
  - pose proof (N.div_mod slot E ltac:(lia)). pose proof (N.div_mod (slot - R) E ltac:(lia)).
    pose proof (N.mod_lt slot E ltac:(lia)). pose proof (N.mod_lt (slot - R) E ltac:(lia)). rewrite Eq in *. nia.
  - apply Ne. symmetry. apply N.div_unique with (r := (slot mod E - R)%N).
    + pose proof (N.mod_lt slot E ltac:(lia)). lia.
    + pose proof (N.div_mod slot E ltac:(lia)). lia.
Qed.
