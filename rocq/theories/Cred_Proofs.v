From Verif Require Import Base Disputes_Model Disputes_Spec Reports_Model Reports_Spec Reports_Proofs Cred_Model Cred_Spec.
From Coq Require Import Lia Permutation Sorted.
Open Scope N_scope.

Lemma put_perm : forall c l, Permutation (put_cred c l) (c :: l).
Proof. intros c l. induction l as [|x r IH]; [reflexivity|]. cbn. destruct (cred_le c x); [reflexivity|]. rewrite IH. apply perm_swap. Qed.
Lemma sort_perm : forall l, Permutation (sort_creds l) l.
Proof. induction l as [|c l IH]; [reflexivity|]. cbn. rewrite put_perm. constructor. exact IH. Qed.
Definition le_c (a b : credential) : Prop := cred_le a b = true.
Lemma le_total : forall a b, cred_le a b = false -> cred_le b a = true.
Proof.
  intros a b. unfold cred_le. destruct (N.ltb_spec (cr_index a) (cr_index b)), (N.eqb_spec (cr_index a) (cr_index b)), (N.leb_spec (cr_sig a) (cr_sig b)), (N.ltb_spec (cr_index b) (cr_index a)), (N.eqb_spec (cr_index b) (cr_index a)), (N.leb_spec (cr_sig b) (cr_sig a)); cbn; auto; try discriminate; lia.
Qed.
Lemma le_index : forall a b, le_c a b -> cr_index a <= cr_index b.
Proof. intros a b. unfold le_c, cred_le. destruct (N.ltb_spec (cr_index a) (cr_index b)), (N.eqb_spec (cr_index a) (cr_index b)); cbn; try discriminate; lia. Qed.
Lemma put_sorted : forall c l, LocallySorted le_c l -> LocallySorted le_c (put_cred c l).
Proof.
  intros c l F. induction F as [|x|x y l F IH L]; cbn.
  - constructor.
  - destruct (cred_le c x) eqn:E; repeat constructor; auto. apply le_total. exact E.
  - destruct (cred_le c x) eqn:E; [constructor; [constructor; assumption|exact E]|]. cbn in IH. destruct (cred_le c y) eqn:E'.
    + constructor; [exact IH|apply le_total; exact E].
    + constructor; assumption.
Qed.
Lemma sort_sorted : forall l, LocallySorted le_c (sort_creds l).
Proof. induction l as [|c l IH]; [constructor|]. cbn. apply put_sorted. exact IH. Qed.
Lemma sorted_ascending : forall l, LocallySorted le_c l -> NoDup (map cr_index l) -> ascending (map cr_index l).
Proof.
  intros l F. induction F as [|x|x y l F IH L]; intro D; cbn; auto. inversion D as [|? ? NI D']; subst. split; [|apply IH; exact D'].
  assert (cr_index x <> cr_index y) by (intro X; apply NI; left; auto). apply le_index in L. lia.
Qed.
Lemma asc_lt : forall l a, ascending (a :: l) -> forall x, In x l -> a < x.
Proof. induction l as [|b l IH]; intros a A x X; [destruct X|]. cbn in A. destruct A as (L & A). destruct X as [<-|X]; [exact L|]. specialize (IH b A x X). lia. Qed.
Lemma asc_tl : forall l a, ascending (a :: l) -> ascending l.
Proof. intros [|b l] a A; cbn in *; tauto. Qed.
Lemma asc_unique : forall l l' : list credential, ascending (map cr_index l) -> ascending (map cr_index l') -> Permutation l l' -> l = l'.
Proof.
  induction l as [|a l IH]; intros l' A A' PM; [apply Permutation_nil in PM; auto|]. destruct l' as [|b l']; [apply Permutation_sym, Permutation_nil in PM; discriminate|].
  assert (E : a = b).
  { pose proof (asc_lt _ _ A) as X. pose proof (asc_lt _ _ A') as Y. assert (I1 : In a (b :: l')) by (apply (Permutation_in _ PM); left; reflexivity). assert (I2 : In b (a :: l)) by (apply (Permutation_in _ (Permutation_sym PM)); left; reflexivity).
    destruct I1 as [I1|I1]; auto. destruct I2 as [I2|I2]; auto. specialize (X _ (in_map cr_index _ _ I2)). specialize (Y _ (in_map cr_index _ _ I1)). lia. }
  subst b. f_equal. apply IH; [apply (asc_tl _ _ A)|apply (asc_tl _ _ A')|apply Permutation_cons_inv in PM; exact PM].
Qed.

(** What the entry holds after the signatures [cs]. *)
Definition inv (cs : list credential) (l : list credential) : Prop :=
  NoDup (map cr_index l) /\ ascending (map cr_index l) /\ first_three cs (map cr_index l) /\ forall c, In c l -> first_of_each cs c.
Lemma first_more : forall cs ds c, first_of_each cs c -> first_of_each (cs ++ ds) c.
Proof. intros cs ds c (b & a & -> & N). exists b, (a ++ ds)%list. rewrite <- app_assoc. auto. Qed.
Lemma three_le : forall cs ix, first_three cs ix -> (length ix <= 3)%nat.
Proof. intros cs ix (_ & b & a & _ & _ & [L|(L & _)]); lia. Qed.
Lemma inv_step : forall cs g c, inv cs (gu_creds g) ->
  (exists a, reply cs c a /\ match a with Some e => add_credential g (cr_index c) (cr_sig c) = Err e /\ inv (cs ++ [c]) (gu_creds g)
     | None => exists g', add_credential g (cr_index c) (cr_sig c) = Ok g' /\ gu_report g' = gu_report g /\ gu_slot g' = gu_slot g /\ inv (cs ++ [c]) (gu_creds g') end).
Proof.
  intros cs g c (D & A & T & F). pose proof (three_le _ _ T) as L3. unfold add_credential. destruct (Nat.leb_spec 3 (length (gu_creds g))) as [L|L].
  - exists (Some InvalidCredentialCount). assert (L' : length (map cr_index (gu_creds g)) = 3%nat) by (rewrite map_length in *; lia). split.
    + exists (map cr_index (gu_creds g)). split; [exact T|]. left. auto.
    + split; [reflexivity|]. split; [exact D|]. split; [exact A|]. split; [|intros x X; apply first_more; auto].
      destruct T as (T1 & b & a & -> & T2 & _). split; [exact T1|]. exists b, (a ++ [c])%list. rewrite <- app_assoc. auto.
  - assert (L' : (length (map cr_index (gu_creds g)) < 3)%nat) by (rewrite map_length; lia).
    pose proof T as (T1 & b & a & E & T2 & [T3|(_ & ->)]); [lia|]. rewrite app_nil_r in E. subst b.
    destruct (existsb (fun x => cr_index x =? cr_index c) (gu_creds g)) eqn:X.
    + exists (Some DuplicateValidatorIndex). apply existsb_exists in X. destruct X as (x & X & Y). apply N.eqb_eq in Y. assert (I : In (cr_index c) (map cr_index (gu_creds g))) by (rewrite <- Y; apply in_map; exact X). split.
      * exists (map cr_index (gu_creds g)). split; [exact T|]. right. left. auto.
      * split; [reflexivity|]. split; [exact D|]. split; [exact A|]. split; [|intros z Z0; apply first_more; auto]. split; [exact D|]. exists (cs ++ [c])%list, []. rewrite app_nil_r. split; [reflexivity|]. split; [|right; auto].
        intro i. rewrite map_app, in_app_iff. cbn. rewrite T2. split; [tauto|]. intros [Q|[<-|[]]]; auto. apply T2. exact I.
    + exists None. assert (I : ~ In (cr_index c) (map cr_index (gu_creds g))).
      { intro I. apply in_map_iff in I. destruct I as (x & X1 & X2). assert (Q : existsb (fun x => cr_index x =? cr_index c) (gu_creds g) = true); [apply existsb_exists; exists x; split; [exact X2|apply N.eqb_eq; exact X1]|congruence]. }
      split; [exists (map cr_index (gu_creds g)); split; [exact T|]; right; right; auto|].
      assert (EC : mk_cr (cr_index c) (cr_sig c) = c) by (destruct c; reflexivity). rewrite EC.
      assert (PM : Permutation (sort_creds (gu_creds g ++ [c])) (c :: gu_creds g)) by (rewrite sort_perm, Permutation_app_comm; reflexivity).
      assert (ND : NoDup (map cr_index (sort_creds (gu_creds g ++ [c])))) by (apply (Permutation_NoDup (l := map cr_index (c :: gu_creds g))); [apply Permutation_map; symmetry; exact PM|constructor; auto]).
      eexists. split; [reflexivity|]. split; [reflexivity|]. split; [reflexivity|]. cbn [gu_creds]. split; [exact ND|]. split; [apply sorted_ascending; [apply sort_sorted|exact ND]|]. split.
      * split; [exact ND|]. exists (cs ++ [c])%list, []. rewrite app_nil_r. split; [reflexivity|]. split.
        -- intro i. rewrite map_app, in_app_iff. cbn. split.
           ++ intro Q. apply (Permutation_in _ (Permutation_map cr_index PM)) in Q. cbn in Q. destruct Q as [Q|Q]; [right; left; exact Q|left; apply T2; exact Q].
           ++ intro Q. apply (Permutation_in _ (Permutation_map cr_index (Permutation_sym PM))). cbn. destruct Q as [Q|[Q|[]]]; [right; apply T2; exact Q|left; exact Q].
        -- rewrite map_length, (Permutation_length PM). cbn [length]. rewrite map_length in L'. assert (H : (S (length (gu_creds g)) = 3)%nat \/ (S (length (gu_creds g)) < 3)%nat) by lia. destruct H; auto.
      * intros x Q. apply (Permutation_in _ PM) in Q. destruct Q as [<-|Q]; [|apply first_more; auto]. exists cs, []. split; [reflexivity|]. intro Q. apply I. apply T2. exact Q.
Qed.
Definition replies (before cs : list credential) (ans : list (option cred_err)) : Prop :=
  length ans = length cs /\ forall i c, nth_error cs i = Some c -> exists a, nth_error ans i = Some a /\ reply (before ++ firstn i cs) c a.
Lemma gather_inv : forall cs before g, inv before (gu_creds g) ->
  exists g' ans, gather g cs = (g', ans) /\ inv (before ++ cs) (gu_creds g') /\ gu_report g' = gu_report g /\ gu_slot g' = gu_slot g /\ replies before cs ans.
Proof.
  induction cs as [|c cs IH]; intros before g V.
  - exists g, []. split; [reflexivity|]. rewrite app_nil_r. split; [exact V|]. split; [reflexivity|]. split; [reflexivity|]. split; [reflexivity|]. intros [|i] c X; discriminate.
  - destruct (inv_step _ _ c V) as (a & R & S). cbn [gather].
    assert (FIN : forall g1, inv (before ++ [c]) (gu_creds g1) -> gu_report g1 = gu_report g -> gu_slot g1 = gu_slot g -> exists g' ans, (let (g2, l) := gather g1 cs in (g2, a :: l)) = (g', ans) /\ inv (before ++ c :: cs) (gu_creds g') /\ gu_report g' = gu_report g /\ gu_slot g' = gu_slot g /\ replies before (c :: cs) ans).
    { intros g1 V1 E1 E2. destruct (IH _ _ V1) as (g' & ans & -> & V2 & E3 & E4 & (RL & RN)). exists g', (a :: ans). split; [reflexivity|]. rewrite <- app_assoc in V2. split; [exact V2|]. split; [congruence|]. split; [congruence|].
      split; [cbn; congruence|]. intros [|i] x X; cbn in X; [injection X as <-; exists a; split; [reflexivity|]; cbn; rewrite app_nil_r; exact R|].
      destruct (RN i x X) as (y & Y & Q). exists y. split; [exact Y|]. rewrite <- app_assoc in Q. exact Q. }
    destruct a as [e|].
    + destruct S as (-> & V1). apply FIN; auto.
    + destruct S as (g1 & -> & E1 & E2 & V1). apply FIN; auto.
Qed.
Lemma inv_nil : inv [] [].
Proof. split; [constructor|]. split; [exact I|]. split; [|intros c []]. split; [constructor|]. exists [], []. split; [reflexivity|]. split; [tauto|]. right. split; [cbn; lia|reflexivity]. Qed.
(** One arrival order or another. *)
Lemma all_taken : forall cs l, inv cs l -> NoDup (map cr_index cs) -> (length cs <= 3)%nat -> Permutation l cs.
Proof.
  intros cs l (D & A & (_ & b & a & E & T2 & T3) & F) N L3.
  assert (I : forall c, In c l -> In c cs). { intros c C. destruct (F c C) as (x & y & -> & _). apply in_or_app. right. left. reflexivity. }
  apply NoDup_Permutation_bis.
  - apply NoDup_map_inv in D. exact D.
  - destruct T3 as [T3|(_ & ->)]; [rewrite map_length in T3; lia|]. rewrite app_nil_r in E. subst b.
    rewrite <- (map_length cr_index cs), <- (map_length cr_index l). apply NoDup_incl_length; [exact N|]. intros i Q. apply T2. exact Q.
  - exact I.
Qed.
