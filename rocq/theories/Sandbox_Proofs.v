From Verif Require Import Base Sandbox_Model Sandbox_Spec.
From Coq Require Import Permutation.
Set Implicit Arguments.

Section MapLemmas.
  Context {K V : Type} (eqK : forall a b : K, {a = b} + {a <> b}).
  Implicit Types (m : list (K * V)) (k j : K) (v : V).
  Lemma mget_cons : forall j v m k, mget eqK ((j, v) :: m) k = if eqK j k then Some v else mget eqK m k.
  Proof. intros. unfold mget. simpl. destruct (eqK j k); reflexivity. Qed.
  Lemma mget_mdel : forall m k j, mget eqK (mdel eqK m k) j = if eqK k j then None else mget eqK m j.
  Proof.
    induction m as [|[a x] m IH]; intros; simpl.
    - destruct (eqK k j); reflexivity.
    - destruct (eqK a k).
      + subst. rewrite IH, mget_cons. destruct (eqK k j); reflexivity.
      + rewrite !mget_cons, IH. destruct (eqK a j), (eqK k j); congruence.
  Qed.
  Lemma mget_mset : forall m k v j, mget eqK (mset eqK m k v) j = if eqK k j then Some v else mget eqK m j.
  Proof. intros. unfold mset. rewrite mget_cons, mget_mdel. destruct (eqK k j); reflexivity. Qed.
  Lemma mget_None : forall m k, mget eqK m k = None <-> ~ In k (map fst m).
  Proof.
    induction m as [|[a x] m IH]; intros; [simpl; tauto|]. rewrite mget_cons. simpl. destruct (eqK a k); [split; [discriminate | tauto] | rewrite IH; tauto].
  Qed.
  Lemma mdel_in : forall m k j, In j (map fst (mdel eqK m k)) -> In j (map fst m) /\ j <> k.
  Proof.
    induction m as [|[a x] m IH]; simpl; intros; [tauto|]. destruct (eqK a k); simpl in *.
    - apply IH in H. tauto.
    - destruct H; [subst; tauto | apply IH in H; tauto].
  Qed.
  Lemma mdel_NoDup : forall m k, NoDup (map fst m) -> NoDup (map fst (mdel eqK m k)).
  Proof.
    induction m as [|[a x] m IH]; simpl; intros; [assumption|]. inversion H; subst. destruct (eqK a k); [apply IH; assumption|].
    simpl. constructor; [intro C; apply mdel_in in C; tauto | apply IH; assumption].
  Qed.
  Lemma mset_NoDup : forall m k v, NoDup (map fst m) -> NoDup (map fst (mset eqK m k v)).
  Proof. intros. simpl. constructor; [intro C; apply mdel_in in C; tauto | apply mdel_NoDup; assumption]. Qed.
  Lemma mget_In : forall m k v, NoDup (map fst m) -> (mget eqK m k = Some v <-> In (k, v) m).
  Proof.
    induction m as [|[a x] m IH]; intros k v D; [simpl; split; [discriminate | tauto]|]. inversion D; subst.
    rewrite mget_cons. simpl. destruct (eqK a k).
    - subst. split; [intro E; injection E as ->; tauto | intros [E | E]; [congruence | exfalso; apply H1; apply in_map_iff; exists (k, v); tauto]].
    - rewrite IH by assumption. split; [tauto | intros [E | E]; [congruence | tauto]].
  Qed.
  Lemma mget_perm : forall m m' k, NoDup (map fst m) -> Permutation m m' -> mget eqK m k = mget eqK m' k.
  Proof.
    intros m m' k D P. assert (D' : NoDup (map fst m')) by (eapply Permutation_NoDup; [apply Permutation_map; eassumption | assumption]).
    destruct (mget eqK m' k) eqn:E.
    - apply (mget_In m' k v D') in E. apply (mget_In m k v D). eapply Permutation_in; [apply Permutation_sym; eassumption | assumption].
    - apply mget_None in E. apply mget_None. intro C. apply E. eapply Permutation_in; [apply Permutation_map; eassumption | assumption].
  Qed.
End MapLemmas.

Lemma same_refl : forall a, same a a. Proof. split; reflexivity. Qed.
Lemma same_trans : forall a b c, same a b -> same b c -> same a c.
Proof. intros a b c [A B] [C D]. split; intros; [rewrite A, C | rewrite B, D]; reflexivity. Qed.
Lemma same_sym : forall a b, same a b -> same b a. Proof. intros a b [A B]. split; intros; symmetry; auto. Qed.
Lemma same_proper : forall a b, same a b -> proper a -> proper b.
Proof. intros a b [A B] P s E k. rewrite <- B. apply P. rewrite A. exact E. Qed.

Lemma sb_set : forall G ch sb s b, sb_ok G ch sb -> asb_ok G ch s b -> sb_ok G ch (aset sb s b).
Proof.
  intros G ch sb s b [D A] B. split; [apply mset_NoDup; assumption|]. intros x c E. rewrite mget_mset in E.
  destruct (N.eq_dec s x); [injection E as <-; subst; assumption | apply A; assumption].
Qed.
Lemma vmeta_set : forall G sb s b x, vmeta G (aset sb s b) x = if N.eq_dec s x then se_val (b_md b) else vmeta G sb x.
Proof. intros. unfold vmeta. rewrite mget_mset. destruct (N.eq_dec s x); reflexivity. Qed.
Lemma vent_set : forall G sb s b x k, vent G (aset sb s b) x k = if N.eq_dec s x then vent_in (b_ent b) (g_ent G s) k else vent G sb x k.
Proof. intros. unfold vent. rewrite mget_mset. destruct (N.eq_dec s x); [subst|]; reflexivity. Qed.

Lemma ensure_ok : forall G ch sb s, sb_ok G ch sb -> sb_ok G ch (ensure G sb s).
Proof.
  intros G ch sb s A. unfold ensure. destruct (aget sb s) eqn:E; [assumption|]. destruct (g_meta G s) eqn:M; [|assumption].
  apply sb_set; [assumption|]. split; [red; simpl; rewrite M; split; congruence|]. split; [constructor | intros k e C; discriminate].
Qed.
Lemma ensure_view : forall G sb s, same (view G (ensure G sb s)) (view G sb).
Proof.
  intros G sb s. unfold ensure. destruct (aget sb s) eqn:E; [apply same_refl|]. destruct (g_meta G s) eqn:M; [|apply same_refl].
  split; simpl; intros x; [rewrite vmeta_set | intro k; rewrite vent_set]; destruct (N.eq_dec s x); try reflexivity; subst; [unfold vmeta | unfold vent]; rewrite E;
    [rewrite M|]; reflexivity.
Qed.
Lemma ensure_get : forall G sb s, aget (ensure G sb s) s = None -> aget sb s = None /\ g_meta G s = None.
Proof.
  intros G sb s. unfold ensure. destruct (aget sb s) eqn:E; [congruence|]. destruct (g_meta G s) eqn:M; [|tauto]. rewrite mget_mset.
  destruct (N.eq_dec s s); congruence.
Qed.
Lemma ensure_idem : forall G sb s b, aget sb s = Some b -> ensure G sb s = sb.
Proof. intros. unfold ensure. rewrite H. reflexivity. Qed.

Lemma view_meta_ens : forall G sb s, match aget (ensure G sb s) s with Some b => se_val (b_md b) | None => None end = vmeta G sb s.
Proof.
  intros. destruct (ensure_view G sb s) as [A _]. specialize (A s). simpl in A. rewrite <- A. unfold vmeta at 1.
  destruct (aget (ensure G sb s) s) eqn:E; [reflexivity|]. apply ensure_get in E. symmetry. tauto.
Qed.

Lemma removed_val : forall ch s g e, md_ok ch s g e -> negb (is_removed e) = is_some (se_val e).
Proof.
  intros ch s g e M. red in M. unfold is_removed. destruct (se_status e); destruct M as [M0 M1]; destruct (se_val e); simpl; try reflexivity; try congruence.
Qed.
Lemma exists_effective_ok : forall G ch sb s, sb_ok G ch sb -> exists_effective G sb s = is_some (vmeta G sb s).
Proof.
  intros G ch sb s [D A]. unfold exists_effective, vmeta. destruct (aget sb s) eqn:E.
  - destruct (A _ _ E) as [M _]. eapply removed_val; eassumption.
  - destruct (g_meta G s); reflexivity.
Qed.
Lemma exists_active_ok : forall G ch sb s, sb_ok G ch sb ->
  sb_ok G ch (fst (exists_active G sb s)) /\ same (view G (fst (exists_active G sb s))) (view G sb) /\ snd (exists_active G sb s) = is_some (vmeta G sb s).
Proof.
  intros G ch sb s A. unfold exists_active. simpl. split; [apply ensure_ok; assumption|]. split; [apply ensure_view|].
  rewrite <- view_meta_ens. destruct (aget (ensure G sb s) s) eqn:E; [|reflexivity].
  destruct (ensure_ok s A) as [_ B]. destruct (B _ _ E) as [M _]. eapply removed_val; eassumption.
Qed.
Lemma get_meta_ok : forall G ch sb s, sb_ok G ch sb ->
  sb_ok G ch (fst (get_meta G sb s)) /\ same (view G (fst (get_meta G sb s))) (view G sb) /\ snd (get_meta G sb s) = vmeta G sb s.
Proof. intros G ch sb s A. unfold get_meta. simpl. split; [apply ensure_ok; assumption|]. split; [apply ensure_view | apply view_meta_ens]. Qed.

Lemma md_ok_incl : forall ch ch' s g e, incl ch ch' -> md_ok ch s g e -> md_ok ch' s g e.
Proof. intros ch ch' s g e I M. red in M |- *. destruct (se_status e); auto. destruct M as [A [B C]]. auto. Qed.
Lemma sb_ok_incl : forall G ch ch' sb, incl ch ch' -> sb_ok G ch sb -> sb_ok G ch' sb.
Proof. intros G ch ch' sb I [D A]. split; [assumption|]. intros s b E. destruct (A s b E) as [M F]. split; [eapply md_ok_incl; eassumption | assumption]. Qed.

Lemma change_meta_ok : forall G ch sb s f, sb_ok G ch sb ->
  let r := change_meta G sb s f in
  sb_ok G (s :: ch) (fst r) /\
  match vmeta G sb s with
  | Some m => match f m with
              | Some m' => same (view G (fst r)) (with_meta (view G sb) s (Some m')) /\ snd r = true
              | None => same (view G (fst r)) (view G sb) /\ snd r = false
              end
  | None => same (view G (fst r)) (view G sb) /\ snd r = false
  end.
Proof.
  intros G ch sb s f A. unfold change_meta. rewrite <- view_meta_ens. pose proof (ensure_ok s A) as B. pose proof (ensure_view G sb s) as V.
  assert (B' : sb_ok G (s :: ch) (ensure G sb s)) by (eapply sb_ok_incl; [apply incl_tl, incl_refl | exact B]).
  destruct (aget (ensure G sb s) s) as [b|] eqn:E; [|simpl; auto].
  destruct (se_val (b_md b)) as [m|] eqn:M; [|simpl; auto]. destruct (f m) as [m'|]; [|simpl; auto]. simpl.
  destruct B' as [D0 B0]. destruct (B0 _ _ E) as [O F]. split; [|split; [|reflexivity]].
  - apply sb_set; [split; assumption|]. split; [|assumption]. simpl. unfold md_ok in O |- *. unfold mark_updated. simpl.
    destruct (se_status (b_md b)) eqn:T; simpl; rewrite ?T; simpl.
    + split; [discriminate|]. split; [tauto | left; reflexivity].
    + split; [discriminate | tauto].
    + split; [discriminate | tauto].
    + destruct O as [O _]. congruence.
  - destruct V as [V1 V2]. simpl in V1, V2. split; simpl; intro x.
    + rewrite vmeta_set. destruct (N.eq_dec s x).
      * subst. rewrite N.eqb_refl. unfold mark_updated. simpl. destruct (se_status (b_md b)); reflexivity.
      * destruct (N.eqb_spec x s); [congruence | apply V1].
    + intro k. rewrite vent_set. destruct (N.eq_dec s x); [|apply V2]. subst. simpl. rewrite <- (V2 x k). simpl. unfold vent. rewrite E. reflexivity.
Qed.

(** ** Entries *)
Lemma ents_set : forall g m k e, ents_ok g m -> ent_ok (g k) e -> ents_ok g (eset m k e).
Proof.
  intros g m k e [D A] O. split; [apply mset_NoDup; assumption|]. intros j x E. rewrite mget_mset in E. destruct (ekey_eq k j); [subst; injection E as <-; assumption | apply A; assumption].
Qed.
Lemma vent_in_set : forall g m k e j, vent_in (eset m k e) g j = if ekey_eq k j then se_val e else vent_in m g j.
Proof. intros. unfold vent_in. rewrite mget_mset. destruct (ekey_eq k j); reflexivity. Qed.
Lemma load_ok : forall g m k, ents_ok g m ->
  let r := get_or_load m k (g k) in
  ents_ok g (fst r) /\ (forall j, vent_in (fst r) g j = vent_in m g j) /\ snd r = eget (fst r) k /\ val_of (snd r) = vent_in m g k.
Proof.
  intros g m k A. unfold get_or_load. destruct (eget m k) as [e|] eqn:E; simpl.
  - unfold vent_in. rewrite E. auto.
  - destruct (g k) as [v|] eqn:V; simpl.
    + split; [apply ents_set; [assumption | rewrite V; split; [reflexivity | discriminate]]|]. split; [|split].
      * intro j. rewrite vent_in_set. unfold vent_in. destruct (ekey_eq k j); [subst; rewrite E, V|]; reflexivity.
      * rewrite mget_mset. destruct (ekey_eq k k); congruence.
      * unfold vent_in. rewrite E, V. reflexivity.
    + unfold vent_in. rewrite E, V. auto.
Qed.

Lemma vent_absent : forall G sb s k, aget sb s = None -> g_meta G s = None -> proper G -> vent G sb s k = None.
Proof. intros G sb s k E M P. unfold vent. rewrite E. apply P. assumption. Qed.

Lemma view_upd_ent : forall G sb s b m k v, aget (ensure G sb s) s = Some b ->
  (forall j, vent_in m (g_ent G s) j = if ekey_eq k j then v else vent_in (b_ent b) (g_ent G s) j) ->
  same (view G (aset (ensure G sb s) s (mk_asb (b_md b) m))) (with_ent (view G sb) s k v).
Proof.
  intros G sb s b m k v E V. destruct (ensure_view G sb s) as [V1 V2]. simpl in V1, V2. split; simpl; intro x.
  - rewrite vmeta_set. destruct (N.eq_dec s x); [|apply V1]. subst. simpl. rewrite <- (V1 x). simpl. unfold vmeta. rewrite E. reflexivity.
  - intro j. rewrite vent_set. destruct (N.eq_dec s x).
    + subst. simpl. rewrite V, N.eqb_refl. destruct (ekey_eq k j), (ekey_eq j k); try congruence; try reflexivity.
      rewrite <- (V2 x j). simpl. unfold vent. rewrite E. reflexivity.
    + destruct (N.eqb_spec x s); [congruence | apply V2].
Qed.
Lemma view_keep_ent : forall G sb s b m, aget (ensure G sb s) s = Some b ->
  (forall j, vent_in m (g_ent G s) j = vent_in (b_ent b) (g_ent G s) j) ->
  same (view G (aset (ensure G sb s) s (mk_asb (b_md b) m))) (view G sb).
Proof.
  intros G sb s b m E V. destruct (ensure_view G sb s) as [V1 V2]. simpl in V1, V2. split; simpl; intro x.
  - rewrite vmeta_set. destruct (N.eq_dec s x); [|apply V1]. subst. simpl. rewrite <- (V1 x). simpl. unfold vmeta. rewrite E. reflexivity.
  - intro j. rewrite vent_set. destruct (N.eq_dec s x); [|apply V2]. subst. simpl. rewrite V. rewrite <- (V2 x j). simpl. unfold vent. rewrite E. reflexivity.
Qed.
Lemma view_ent_ens : forall G sb s b k, aget (ensure G sb s) s = Some b -> vent_in (b_ent b) (g_ent G s) k = vent G sb s k.
Proof. intros G sb s b k E. destruct (ensure_view G sb s) as [_ V]. specialize (V s k). simpl in V. rewrite <- V. unfold vent. rewrite E. reflexivity. Qed.
Lemma set_ents_ok : forall G ch sb s b m, sb_ok G ch sb -> aget sb s = Some b -> ents_ok (g_ent G s) m -> sb_ok G ch (aset sb s (mk_asb (b_md b) m)).
Proof. intros G ch sb s b m A E M. apply sb_set; [assumption|]. destruct A as [_ A]. destruct (A _ _ E) as [B _]. split; assumption. Qed.

Lemma get_entry_ok : forall G ch sb s k, proper G -> sb_ok G ch sb ->
  let r := get_entry G sb s k in sb_ok G ch (fst r) /\ same (view G (fst r)) (view G sb) /\ snd r = vent G sb s k.
Proof.
  intros G ch sb s k P A. unfold get_entry. pose proof (ensure_ok s A) as B. destruct (aget (ensure G sb s) s) as [b|] eqn:E.
  - destruct (proj2 B _ _ E) as [_ F]. destruct (load_ok k F) as [L1 [L2 [L3 L4]]]. destruct (get_or_load (b_ent b) k (g_ent G s k)) as [m o]. simpl in *.
    split; [apply set_ents_ok; assumption|]. split; [apply view_keep_ent; assumption|]. rewrite L4. apply view_ent_ens. assumption.
  - simpl. split; [assumption|]. split; [apply ensure_view|]. apply ensure_get in E. symmetry. apply vent_absent; tauto.
Qed.
Lemma insert_entry_ok : forall G ch sb s k v, sb_ok G ch sb -> (vmeta G sb s <> None) ->
  let r := insert_entry G sb s k v in
  sb_ok G ch (fst r) /\ same (view G (fst r)) (with_ent (view G sb) s k (Some v)) /\ snd r = Ok (vent G sb s k).
Proof.
  intros G ch sb s k v A X. unfold insert_entry. pose proof (ensure_ok s A) as B. rewrite <- view_meta_ens in X.
  destruct (aget (ensure G sb s) s) as [b|] eqn:E; [|congruence].
  destruct (proj2 B _ _ E) as [_ F]. destruct (load_ok k F) as [L1 [L2 [L3 L4]]]. destruct (get_or_load (b_ent b) k (g_ent G s k)) as [m o]. simpl in *.
  set (e := match o with Some e => _ | None => _ end).
  assert (O : ent_ok (g_ent G s k) e /\ se_val e = Some v).
  { unfold e. destruct o as [x|].
    - destruct (proj2 L1 k x (eq_sym L3)) as [C _]. destruct (clean_of x) as [c|] eqn:Q.
      + split; [split; simpl; [assumption | split; congruence] | reflexivity].
      + split; [split; simpl; [assumption | split; congruence] | reflexivity].
    - split; [|reflexivity]. assert (N0 : g_ent G s k = None).
      { symmetry in L3. specialize (L2 k). unfold vent_in in L2 at 1. rewrite L3 in L2. rewrite L2, <- L4. reflexivity. }
      rewrite N0. split; simpl; [reflexivity | split; congruence]. }
  destruct O as [O1 O2]. split; [apply set_ents_ok; [assumption | assumption | apply ents_set; assumption]|]. split.
  - apply view_upd_ent; [assumption|]. intro j. rewrite vent_in_set, O2. destruct (ekey_eq k j); [reflexivity | apply L2].
  - rewrite <- L3, L4. f_equal. apply view_ent_ens. assumption.
Qed.
Lemma remove_entry_ok : forall G ch sb s k, proper G -> sb_ok G ch sb ->
  let r := remove_entry G sb s k in sb_ok G ch (fst r) /\ same (view G (fst r)) (with_ent (view G sb) s k None).
Proof.
  intros G ch sb s k P A. unfold remove_entry. pose proof (ensure_ok s A) as B. destruct (aget (ensure G sb s) s) as [b|] eqn:E.
  2:{ simpl. split; [assumption|]. eapply same_trans; [apply ensure_view|]. apply ensure_get in E. split; simpl; intros; [reflexivity|].
      destruct (N.eqb_spec s0 s); [|reflexivity]. subst. destruct (ekey_eq k0 k); [|reflexivity]. apply vent_absent; tauto. }
  destruct (proj2 B _ _ E) as [_ F]. destruct (load_ok k F) as [L1 [L2 [L3 L4]]]. destruct (get_or_load (b_ent b) k (g_ent G s k)) as [m o]. simpl in *.
  assert (Z : forall d, (forall j, vent_in m d j = vent_in m d j)) by reflexivity. clear Z.
  destruct o as [e|].
  - destruct (proj2 L1 k e (eq_sym L3)) as [C0 C1]. destruct (se_val e) as [v|] eqn:V.
    + destruct (clean_of e) as [c|] eqn:C.
      * simpl. split; [apply set_ents_ok; [assumption | assumption | apply ents_set; [assumption | split; simpl; [assumption | split; congruence]]]|].
        apply view_upd_ent; [assumption|]. intro j. rewrite vent_in_set. simpl. destruct (ekey_eq k j); [reflexivity | apply L2].
      * simpl. split.
        -- apply set_ents_ok; [assumption | assumption|]. split; [apply mdel_NoDup; apply L1|]. intros j x Q. rewrite mget_mdel in Q.
           destruct (ekey_eq k j); [discriminate | apply L1; assumption].
        -- apply view_upd_ent; [assumption|]. intro j. rewrite <- (L2 j). unfold vent_in. rewrite mget_mdel. destruct (ekey_eq k j); [subst; congruence | reflexivity].
    + simpl. split; [apply set_ents_ok; assumption|]. apply view_upd_ent; [assumption|]. intro j. rewrite L2. destruct (ekey_eq k j); [subst; rewrite <- L4; exact V | reflexivity].
  - simpl. split; [apply set_ents_ok; assumption|]. apply view_upd_ent; [assumption|]. intro j. rewrite L2. destruct (ekey_eq k j); [subst; rewrite <- L4; reflexivity | reflexivity].
Qed.

(** ** Slots, ejection, creation *)
Lemma with_ent_same : forall a b s k v, same a b -> same (with_ent a s k v) (with_ent b s k v).
Proof. intros a b s k v [A B]. split; simpl; intros; [apply A|]. rewrite B. reflexivity. Qed.
Lemma with_meta_same : forall a b s m, same a b -> same (with_meta a s m) (with_meta b s m).
Proof. intros a b s m [A B]. split; simpl; intros; [|apply B]. rewrite A. reflexivity. Qed.
Lemma without_same : forall a b s, same a b -> same (without a s) (without b s).
Proof. intros a b s [A B]. split; simpl; intros; [rewrite A | rewrite B]; reflexivity. Qed.
Lemma vmeta_same : forall G sb sb' s, same (view G sb') (view G sb) -> vmeta G sb' s = vmeta G sb s.
Proof. intros G sb sb' s [A _]. apply (A s). Qed.
Lemma vent_same : forall G sb sb' s k, same (view G sb') (view G sb) -> vent G sb' s k = vent G sb s k.
Proof. intros G sb sb' s k [_ A]. apply (A s k). Qed.

Lemma extend_ok : forall G ch sb s h len ts, proper G -> proper (view G sb) -> sb_ok G ch sb ->
  let r := extend_slots G sb s h len ts in
  sb_ok G ch (fst r) /\
  match vent G sb s (KLookup h len) with
  | Some l => if (length l + length ts <=? 3)%nat then same (view G (fst r)) (with_ent (view G sb) s (KLookup h len) (Some (l ++ ts))) /\ snd r = true
              else same (view G (fst r)) (view G sb) /\ snd r = false
  | None => same (view G (fst r)) (view G sb) /\ snd r = false
  end.
Proof.
  intros G ch sb s h len ts P W A. unfold extend_slots. destruct (get_entry_ok s (KLookup h len) P A) as [A1 [V1 E1]].
  destruct (get_entry G sb s (KLookup h len)) as [sb1 o]. simpl in *. subst o.
  destruct (vent G sb s (KLookup h len)) as [l|] eqn:E; [|simpl; auto]. rewrite app_length. destruct (length l + length ts <=? 3)%nat; [|simpl; auto].
  assert (X : vmeta G sb1 s <> None).
  { rewrite (vmeta_same s V1). intro C. specialize (W s C (KLookup h len)). simpl in W. congruence. }
  destruct (insert_entry_ok s (KLookup h len) (l ++ ts) A1 X) as [A2 [V2 _]]. simpl. split; [assumption|]. split; [|reflexivity].
  eapply same_trans; [exact V2|]. apply with_ent_same. exact V1.
Qed.
Lemma drain_ok : forall G ch sb s h len, proper G -> proper (view G sb) -> sb_ok G ch sb ->
  let r := drain_slots G sb s h len in
  sb_ok G ch (fst r) /\
  match vent G sb s (KLookup h len) with
  | Some l => same (view G (fst r)) (with_ent (view G sb) s (KLookup h len) (Some [])) /\ snd r = true
  | None => same (view G (fst r)) (view G sb) /\ snd r = false
  end.
Proof.
  intros G ch sb s h len P W A. unfold drain_slots. destruct (get_entry_ok s (KLookup h len) P A) as [A1 [V1 E1]].
  destruct (get_entry G sb s (KLookup h len)) as [sb1 o]. simpl in *. subst o.
  destruct (vent G sb s (KLookup h len)) as [l|] eqn:E; [|simpl; auto].
  assert (X : vmeta G sb1 s <> None).
  { rewrite (vmeta_same s V1). intro C. specialize (W s C (KLookup h len)). simpl in W. congruence. }
  destruct (insert_entry_ok s (KLookup h len) [] A1 X) as [A2 [V2 _]]. simpl. split; [assumption|]. split; [|reflexivity].
  eapply same_trans; [exact V2|]. apply with_ent_same. exact V1.
Qed.

Lemma remove_keeps : forall G sb s k b, aget sb s = Some b -> exists m, aget (fst (remove_entry G sb s k)) s = Some (mk_asb (b_md b) m).
Proof.
  intros G sb s k b E. unfold remove_entry. rewrite (ensure_idem G sb s E), E. destruct (get_or_load (b_ent b) k (g_ent G s k)) as [m o].
  assert (Q : forall m', aget (aset sb s (mk_asb (b_md b) m')) s = Some (mk_asb (b_md b) m')) by (intro; rewrite mget_mset; destruct (N.eq_dec s s); congruence).
  destruct o as [e|]; [destruct (se_val e); [destruct (clean_of e)|]|]; simpl; eexists; apply Q.
Qed.

Lemma eject_ok : forall G ch sb s h len, proper G -> proper (view G sb) -> sb_ok G ch sb ->
  vmeta G sb s <> None -> (forall k, k <> KLookup h len -> k <> KPreimage h -> vent G sb s k = None) -> (has G s -> ~ In s ch) ->
  let r := eject_account G sb s h len in
  sb_ok G ch (fst r) /\ same (view G (fst r)) (without (view G sb) s) /\ snd r = Ok tt.
Proof.
  intros G ch sb s h len P W A X O N0. unfold eject_account, get_meta_clean, get_meta. pose proof (ensure_ok s A) as B. pose proof (ensure_view G sb s) as V.
  rewrite view_meta_ens. destruct (vmeta G sb s) as [m|] eqn:M; [|congruence]. clear X.
  destruct (aget (ensure G sb s) s) as [b|] eqn:E.
  2:{ pose proof (view_meta_ens G sb s) as Q. rewrite E in Q. congruence. }
  assert (Eb : se_val (b_md b) = Some m) by (pose proof (view_meta_ens G sb s) as Q; rewrite E in Q; congruence).
  rewrite (ensure_idem G _ s E), E. destruct (proj2 B _ _ E) as [Q F]. red in Q.
  destruct (clean_of (b_md b)) as [c|] eqn:C.
  - assert (T : se_status (b_md b) = Clean).
    { destruct (se_status (b_md b)) eqn:T; [reflexivity| | |].
      - exfalso. unfold clean_of in C. rewrite T in C. destruct Q as [_ [_ Q]]. congruence.
      - exfalso. destruct Q as [_ [Q1 Q2]]. apply N0; [exact Q1 | exact Q2].
      - exfalso. destruct Q. congruence. }
    rewrite T in Q. set (sb1 := ensure G sb s) in *.
    destruct (remove_entry_ok s (KPreimage h) P B) as [B2 V2]. destruct (remove_keeps G sb1 s (KPreimage h) E) as [m2 K2].
    destruct (remove_entry G sb1 s (KPreimage h)) as [sb2 o2]. simpl in B2, V2, K2.
    destruct (remove_entry_ok s (KLookup h len) P B2) as [B3 V3]. destruct (remove_keeps G sb2 s (KLookup h len) K2) as [m3 K3].
    destruct (remove_entry G sb2 s (KLookup h len)) as [sb3 o3]. simpl in B3, V3, K3.
    rewrite (ensure_idem G sb3 s K3), K3. simpl. split; [|split; [|reflexivity]].
    + apply sb_set; [assumption|]. destruct (proj2 B3 _ _ K3) as [_ F3]. split; [|exact F3]. red. simpl. split; [reflexivity | tauto].
    + destruct V as [Va Vb], V2 as [V2a V2b], V3 as [V3a V3b]. simpl in *. split; simpl; intro x.
      * rewrite vmeta_set. destruct (N.eq_dec s x); [subst; rewrite N.eqb_refl; reflexivity|]. destruct (N.eqb_spec x s); [congruence|].
        rewrite V3a, V2a, Va. reflexivity.
      * intro k. rewrite vent_set. destruct (N.eq_dec s x).
        -- subst x. rewrite N.eqb_refl. simpl. pose proof (V3b s k) as Y. unfold vent at 1 in Y. rewrite K3 in Y. simpl in Y. rewrite Y.
           rewrite V2b, N.eqb_refl, Vb. destruct (ekey_eq k (KLookup h len)); [reflexivity|]. destruct (ekey_eq k (KPreimage h)); [reflexivity|]. apply O; assumption.
        -- destruct (N.eqb_spec x s); [congruence|]. rewrite V3b. destruct (N.eqb_spec x s); [congruence|]. rewrite V2b. destruct (N.eqb_spec x s); [congruence|]. apply Vb.
  - simpl. split; [|split; [|reflexivity]].
    + destruct B as [B0 B1]. split; [apply mdel_NoDup; assumption|]. intros x y Z. rewrite mget_mdel in Z. destruct (N.eq_dec s x); [discriminate | apply B1; assumption].
    + assert (Gn : g_meta G s = None).
      { unfold clean_of in C. destruct (se_status (b_md b)) eqn:T.
        - congruence. - tauto. - exfalso. destruct Q as [_ [Q1 Q2]]. apply N0; assumption. - destruct Q. congruence. }
      destruct V as [Va Vb]. simpl in *. split; simpl; intro x.
      * unfold vmeta. rewrite mget_mdel. destruct (N.eq_dec s x); [subst; rewrite N.eqb_refl; assumption|]. destruct (N.eqb_spec x s); [congruence|]. apply (Va x).
      * intro k. unfold vent. rewrite mget_mdel. destruct (N.eq_dec s x); [subst; rewrite N.eqb_refl; apply P; assumption|]. destruct (N.eqb_spec x s); [congruence|]. apply (Vb x k).
Qed.

Lemma new_ok : forall G ch sb s m h len, proper G -> sb_ok G ch sb -> g_meta G s = None ->
  let r := new_account G sb s m h len in
  sb_ok G ch (fst r) /\ same (view G (fst r)) (with_ent (with_meta (without (view G sb) s) s (Some m)) s (KLookup h len) (Some [])) /\ exists o, snd r = Ok o.
Proof.
  intros G ch sb s m h len P A Gn. unfold new_account. set (sb1 := aset sb s (mk_asb (new_added m) [])).
  assert (A1 : sb_ok G ch sb1).
  { apply sb_set; [assumption|]. split; [red; simpl; rewrite Gn; repeat split; discriminate|]. split; [constructor | intros k e C; discriminate]. }
  assert (X : vmeta G sb1 s <> None) by (unfold sb1; rewrite vmeta_set; destruct (N.eq_dec s s); [discriminate | congruence]).
  destruct (insert_entry_ok s (KLookup h len) [] A1 X) as [A2 [V2 R]]. split; [assumption|]. split; [|eexists; exact R].
  eapply same_trans; [exact V2|]. apply with_ent_same. unfold sb1. split; simpl; intro x.
  - rewrite vmeta_set. destruct (N.eq_dec s x), (N.eqb_spec x s); try congruence; reflexivity.
  - intro k. rewrite vent_set. destruct (N.eq_dec s x), (N.eqb_spec x s); try congruence; subst; simpl. unfold vent_in. simpl. apply P. assumption.
Qed.

Lemma next_proper : forall G ch w o, proper w -> allowed G ch w o -> proper (fst (next w o)).
Proof.
  intros G ch w o P A s E k. destruct o; simpl in *; try (apply P; assumption).
  - destruct (g_meta w s0) eqn:M; [|apply P; assumption]. destruct (f m) as [m'|]; [|apply P; assumption]. simpl in *. destruct (N.eqb_spec s s0); [discriminate | apply P; assumption].
  - destruct (N.eqb_spec s s0); [subst; exfalso; apply A; assumption | apply P; assumption].
  - destruct (N.eqb_spec s s0); [destruct (ekey_eq k k0); [reflexivity|]|]; apply P; assumption.
  - destruct (g_ent w s0 (KLookup h len)) eqn:V; [|apply P; assumption]. destruct (length l + length ts <=? 3)%nat; simpl in *; [|apply P; assumption].
    destruct (N.eqb_spec s s0); [|apply P; assumption]. subst. rewrite P in V by assumption. discriminate.
  - destruct (g_ent w s0 (KLookup h len)) eqn:V; [|apply P; assumption]. simpl in *. destruct (N.eqb_spec s s0); [|apply P; assumption]. subst. rewrite P in V by assumption. discriminate.
  - destruct (N.eqb_spec s s0); [reflexivity | apply P; assumption].
  - destruct (N.eqb_spec s s0); [discriminate|]. apply P. assumption.
Qed.

Lemma step_ok : forall G ch sb w o, proper G -> proper w -> sb_ok G ch sb -> same (view G sb) w -> allowed G ch w o ->
  sb_ok G (changes o ++ ch) (fst (step G sb o)) /\ same (view G (fst (step G sb o))) (fst (next w o)) /\ snd (step G sb o) = snd (next w o).
Proof.
  intros G ch sb w o P W A V L. assert (Wv : proper (view G sb)) by (eapply same_proper; [apply same_sym; exact V | exact W]).
  pose proof V as [Va Vb]. simpl in Va, Vb. destruct o; cbn [step next changes allowed app] in L |- *.
  - split; [assumption|]. split; [assumption|]. rewrite (exists_effective_ok s A), Va. reflexivity.
  - destruct (exists_active_ok s A) as [A1 [V1 R]]. destruct (exists_active G sb s) as [sb1 b]. simpl in *. split; [assumption|].
    split; [eapply same_trans; eassumption|]. rewrite R, Va. reflexivity.
  - destruct (get_meta_ok s A) as [A1 [V1 R]]. destruct (get_meta G sb s) as [sb1 b]. simpl in *. split; [assumption|].
    split; [eapply same_trans; eassumption|]. rewrite R, Va. reflexivity.
  - destruct (change_meta_ok s f A) as [A1 R]. destruct (change_meta G sb s f) as [sb1 b]. simpl in *. split; [assumption|].
    rewrite Va in R. destruct (g_meta w s) as [m|]; [destruct (f m) as [m'|]|]; destruct R as [R1 R2]; subst b; simpl; split; try reflexivity.
    + eapply same_trans; [exact R1|]. apply with_meta_same. assumption.
    + eapply same_trans; eassumption.
    + eapply same_trans; eassumption.
  - destruct (get_entry_ok s k P A) as [A1 [V1 R]]. destruct (get_entry G sb s k) as [sb1 b]. simpl in *. split; [assumption|].
    split; [eapply same_trans; eassumption|]. rewrite R, Vb. reflexivity.
  - assert (X : vmeta G sb s <> None) by (rewrite Va; exact L).
    destruct (insert_entry_ok s k v A X) as [A1 [V1 R]]. destruct (insert_entry G sb s k v) as [sb1 b]. simpl in *. subst b. simpl. split; [assumption|].
    split; [eapply same_trans; [exact V1 | apply with_ent_same; assumption]|]. rewrite Vb. reflexivity.
  - destruct (remove_entry_ok s k P A) as [A1 V1]. destruct (remove_entry G sb s k) as [sb1 b]. simpl in *. split; [assumption|].
    split; [eapply same_trans; [exact V1 | apply with_ent_same; assumption] | reflexivity].
  - destruct (extend_ok s h len ts P Wv A) as [A1 R]. destruct (extend_slots G sb s h len ts) as [sb1 b]. simpl in *. split; [assumption|].
    rewrite Vb in R. destruct (g_ent w s (KLookup h len)) as [l|]; [destruct (length l + length ts <=? 3)%nat|]; destruct R as [R1 R2]; subst b; simpl; split; try reflexivity.
    + eapply same_trans; [exact R1|]. apply with_ent_same. assumption.
    + eapply same_trans; eassumption.
    + eapply same_trans; eassumption.
  - destruct (drain_ok s h len P Wv A) as [A1 R]. destruct (drain_slots G sb s h len) as [sb1 b]. simpl in *. split; [assumption|].
    rewrite Vb in R. destruct (g_ent w s (KLookup h len)) as [l|]; destruct R as [R1 R2]; subst b; simpl; split; try reflexivity.
    + eapply same_trans; [exact R1|]. apply with_ent_same. assumption.
    + eapply same_trans; eassumption.
  - destruct L as [L1 [L2 L3]]. destruct (@eject_ok G ch sb s h len) as [A1 [V1 R]]; try assumption.
    + rewrite Va. exact L1.
    + intros k K1 K2. rewrite Vb. apply L2; assumption.
    + destruct (eject_account G sb s h len) as [sb1 b]. simpl in *. subst b. simpl. split; [assumption|].
      split; [eapply same_trans; [exact V1 | apply without_same; assumption] | reflexivity].
  - assert (Gn : g_meta G s = None) by (destruct (g_meta G s) eqn:Q; [exfalso; apply L; red; congruence | reflexivity]).
    destruct (@new_ok G ch sb s m h len P A Gn) as [A1 [V1 [x R]]]. destruct (new_account G sb s m h len) as [sb1 b]. simpl in *. subst b. simpl. split; [assumption|].
    split; [|reflexivity]. eapply same_trans; [exact V1|]. apply with_ent_same, with_meta_same, without_same. assumption.
Qed.
Lemma run_ok : forall os G ch sb w, proper G -> proper w -> sb_ok G ch sb -> same (view G sb) w -> all_allowed G ch w os ->
  exists ch', sb_ok G ch' (fst (run G sb os)) /\ same (view G (fst (run G sb os))) (fst (runs w os)) /\ snd (run G sb os) = snd (runs w os) /\ proper (fst (runs w os)).
Proof.
  induction os as [|o os IH]; intros G ch sb w P W A V L; simpl; [exists ch; auto|]. destruct L as [L1 L2].
  destruct (step_ok o P W A V L1) as [A1 [V1 R1]]. pose proof (@next_proper G ch w o W L1) as W1.
  destruct (step G sb o) as [sb1 r1]. destruct (next w o) as [w1 q1]. simpl in *.
  destruct (IH G _ sb1 w1 P W1 A1 V1 L2) as [ch' [A2 [V2 [R2 W2]]]]. destruct (run G sb1 os) as [sb2 r2]. destruct (runs w1 os) as [w2 q2]. simpl in *.
  exists ch'. subst. auto.
Qed.

(** ** Application *)
Definition apply_ents_view (G : gstate) (s : N) (m : list (ekey * sentry (list N))) : ekey -> option (list N) := vent_in m (g_ent G s).
Lemma put_ent_ok : forall g e, ent_ok g e -> put g e = Ok (se_val e).
Proof.
  intros g e [C O]. unfold put. unfold clean_of in C. destruct (se_status e).
  - subst. reflexivity.
  - destruct O as [O1 O2]. subst. rewrite O2. destruct (se_val e); congruence.
  - destruct O as [O1 O2]. destruct (se_val e), g; congruence.
  - destruct O as [O1 O2]. destruct g; congruence.
Qed.
Lemma put_md_ok : forall ch s g e, md_ok ch s g e -> put g e = Ok (se_val e).
Proof.
  intros ch s g e O. unfold put. red in O. destruct (se_status e).
  - destruct O; congruence.
  - destruct O as [O1 [O2 _]]. rewrite O2. destruct (se_val e); congruence.
  - destruct O as [O1 [O2 _]]. destruct (se_val e), g; congruence.
  - destruct O as [O1 O2]. destruct g; congruence.
Qed.
Lemma apply_entries : forall s gone m G, NoDup (map fst m) -> (forall k e, eget m k = Some e -> ent_ok (g_ent G s k) e) ->
  (gone = true -> forall k e, eget m k = Some e -> is_removed e = false -> se_val e = g_ent G s k) ->
  exists G', fold_left (apply_entry s gone) m (Ok G) = Ok G' /\ (forall x, g_meta G' x = g_meta G x) /\
    (forall x k, g_ent G' x k = if N.eqb x s then vent_in m (g_ent G s) k else g_ent G x k).
Proof.
  intros s gone m. induction m as [|[k e] m IH]; intros G D A Z; simpl.
  - exists G. split; [reflexivity|]. split; [reflexivity|]. intros. unfold vent_in. simpl. destruct (N.eqb_spec x s); subst; reflexivity.
  - inversion D as [|? ? D1 D2]; subst. assert (Ek : eget ((k, e) :: m) k = Some e) by (rewrite mget_cons; destruct (ekey_eq k k); congruence).
    assert (Kn : eget m k = None) by (apply mget_None; assumption).
    set (G1 := mk_g (g_meta G) (upd_ent (g_ent G) s k (se_val e))).
    assert (G1e : forall j, k <> j -> g_ent G1 s j = g_ent G s j) by (intros j J; simpl; unfold upd_ent; rewrite N.eqb_refl; destruct (ekey_eq j k); congruence).
    destruct (gone && negb (is_removed e)) eqn:Sk.
    + apply andb_prop in Sk. destruct Sk as [Sg Sr]. apply negb_true_iff in Sr. pose proof (Z Sg k e Ek Sr) as Zk.
      destruct (IH G D2) as [G' [F [M X]]].
      * intros j x J. apply A. rewrite mget_cons. destruct (ekey_eq k j); [subst; congruence | assumption].
      * intros _ j x J R. apply Z; [assumption| |assumption]. rewrite mget_cons. destruct (ekey_eq k j); [subst; congruence | assumption].
      * exists G'. split; [exact F|]. split; [exact M|]. intros x j. rewrite X. destruct (N.eqb x s); [|reflexivity]. unfold vent_in. rewrite mget_cons.
        destruct (ekey_eq k j); [subst; rewrite Kn, Zk; reflexivity | reflexivity].
    + rewrite (put_ent_ok (A k e Ek)). simpl. fold G1. destruct (IH G1 D2) as [G' [F [M X]]].
      * intros j x J. rewrite G1e by congruence. apply A. rewrite mget_cons. destruct (ekey_eq k j); [subst; congruence | assumption].
      * intros Sg j x J R. rewrite G1e by congruence. apply Z; [assumption| |assumption]. rewrite mget_cons. destruct (ekey_eq k j); [subst; congruence | assumption].
      * exists G'. split; [exact F|]. split; [exact M|]. intros x j. rewrite X. destruct (N.eqb_spec x s).
        -- subst. unfold vent_in. rewrite mget_cons. destruct (ekey_eq k j).
           ++ subst. rewrite Kn. unfold G1. simpl. unfold upd_ent. rewrite N.eqb_refl. destruct (ekey_eq j j); congruence.
           ++ destruct (eget m j); [reflexivity | apply G1e; assumption].
        -- unfold G1. simpl. unfold upd_ent. destruct (N.eqb_spec x s); congruence.
Qed.

Lemma apply_all : forall sb G ch G0, NoDup (map fst sb) -> (forall s b, aget sb s = Some b -> asb_ok G0 ch s b) ->
  (forall s b, aget sb s = Some b -> se_val (b_md b) = None -> forall k, vent_in (b_ent b) (g_ent G0 s) k = None) ->
  (forall s, In s (map fst sb) -> g_meta G s = g_meta G0 s /\ forall k, g_ent G s k = g_ent G0 s k) ->
  exists G', fold_left apply_account sb (Ok G) = Ok G' /\
    forall s, match aget sb s with
              | Some b => g_meta G' s = se_val (b_md b) /\ forall k, g_ent G' s k = vent_in (b_ent b) (g_ent G0 s) k
              | None => g_meta G' s = g_meta G s /\ forall k, g_ent G' s k = g_ent G s k
              end.
Proof.
  induction sb as [|[s b] sb IH]; intros G ch G0 D A Z Q.
  - simpl. exists G. auto.
  - inversion D as [|? ? D1 D2]; subst. assert (Es : aget ((s, b) :: sb) s = Some b) by (rewrite mget_cons; destruct (N.eq_dec s s); congruence).
    assert (Sn : aget sb s = None) by (apply mget_None; assumption).
    destruct (A s b Es) as [M [F0 F1]]. destruct (Q s (or_introl eq_refl)) as [Q1 Q2].
    assert (Other : forall x c, aget sb x = Some c -> aget ((s, b) :: sb) x = Some c) by (intros x c X; rewrite mget_cons; destruct (N.eq_dec s x); [subst; congruence | assumption]).
    set (G1 := mk_g (upd (g_meta G) s (se_val (b_md b))) (g_ent G)).
    destruct (@apply_entries s (is_removed (b_md b)) (b_ent b) G1 F0) as [G2 [E2 [M2 X2]]].
    + intros k e K. simpl. rewrite Q2. apply F1. assumption.
    + intros R k e K S0. exfalso. red in M. unfold is_removed in R. destruct (se_status (b_md b)); try discriminate.
      specialize (Z s b Es (proj1 M) k). unfold vent_in in Z. rewrite K in Z. destruct (F1 k e K) as [_ O]. unfold is_removed in S0.
      destruct (se_status e); try discriminate; tauto.
    + change (fold_left apply_account ((s, b) :: sb) (Ok G)) with (fold_left apply_account sb (apply_account (Ok G) (s, b))).
      assert (Ap : apply_account (Ok G) (s, b) = Ok G2) by (simpl; rewrite Q1, (@put_md_ok _ _ _ _ M); simpl; exact E2). rewrite Ap.
      assert (G2o : forall x, x <> s -> g_meta G2 x = g_meta G x /\ forall k, g_ent G2 x k = g_ent G x k).
      { intros x X. rewrite M2. simpl. unfold upd. destruct (N.eqb_spec x s); [congruence|]. split; [reflexivity|]. intro k. rewrite X2. destruct (N.eqb_spec x s); [congruence | reflexivity]. }
      destruct (IH G2 ch G0 D2) as [G' [E' P']].
      * intros x c X. apply A. apply Other. assumption.
      * intros x c X. apply Z. apply Other. assumption.
      * intros x X. assert (Hx : x <> s) by (intro; subst; contradiction). destruct (G2o x Hx) as [U1 U2]. destruct (Q x (or_intror X)) as [Q3 Q4].
        rewrite U1. split; [assumption|]. intro k. rewrite U2. apply Q4.
      * exists G'. split; [exact E'|]. intro x. specialize (P' x). rewrite mget_cons. destruct (N.eq_dec s x).
        -- subst x. rewrite Sn in P'. destruct P' as [P1 P2]. rewrite P1, M2. simpl. unfold upd. rewrite N.eqb_refl. split; [reflexivity|]. intro k. rewrite P2, X2, N.eqb_refl.
           unfold vent_in. simpl. destruct (eget (b_ent b) k); [reflexivity | apply Q2].
        -- destruct (aget sb x); [assumption|]. destruct (G2o x (not_eq_sym n)) as [U1 U2]. destruct P' as [P1 P2]. rewrite P1, U1. split; [reflexivity|]. intro k. rewrite P2. apply U2.
Qed.
Lemma apply_view : forall G ch sb, sb_ok G ch sb -> proper (view G sb) -> exists G', apply G sb = Ok G' /\ same G' (view G sb).
Proof.
  intros G ch sb [D A] W. unfold apply. destruct (@apply_all sb G ch G D A) as [G' [E P]].
  - intros s b B N0 k. specialize (W s). simpl in W. unfold vmeta, vent in W. rewrite B in W. apply W. assumption.
  - auto.
  - exists G'. split; [exact E|]. split; intro s; specialize (P s); simpl; [unfold vmeta | intro k; unfold vent]; destruct (aget sb s); tauto || apply P.
Qed.

(** ** Reordering *)
Lemma reordered_ok : forall G ch a b, reordered a b -> sb_ok G ch a -> sb_ok G ch b /\ same (view G b) (view G a).
Proof.
  intros G ch a b [c [P F]] [D A].
  assert (Dc : NoDup (map fst c)) by (eapply Permutation_NoDup; [apply Permutation_map; eassumption | assumption]).
  assert (Kb : map fst b = map fst c).
  { clear -F. induction F as [|x y l l' [E _] F IH]; simpl; [reflexivity | rewrite E, IH; reflexivity]. }
  assert (Gt : forall s, match aget c s, aget b s with
                         | Some x, Some y => b_md x = b_md y /\ Permutation (b_ent x) (b_ent y)
                         | None, None => True | _, _ => False end).
  { clear -F. intro s. induction F as [|[x1 x2] [y1 y2] l l' [E F0] F IH]; [simpl; trivial|]. rewrite !mget_cons. simpl in *. subst. destruct (N.eq_dec y1 s); assumption. }
  assert (Gc : forall s, aget a s = aget c s) by (intro; apply mget_perm; assumption).
  assert (Ev : forall s x y, aget c s = Some x -> b_md x = b_md y -> Permutation (b_ent x) (b_ent y) ->
               asb_ok G ch s y /\ forall k, vent_in (b_ent y) (g_ent G s) k = vent_in (b_ent x) (g_ent G s) k).
  { intros s x y X1 X2 X3. destruct (A s x) as [M [N1 N2]]; [rewrite Gc; assumption|].
    assert (Q : forall k, eget (b_ent x) k = eget (b_ent y) k) by (intro; apply mget_perm; assumption). split; [split|].
    - rewrite <- X2. exact M.
    - split; [eapply Permutation_NoDup; [apply Permutation_map; exact X3 | exact N1]|]. intros k e K. apply N2. rewrite Q. exact K.
    - intro k. unfold vent_in. rewrite Q. reflexivity. }
  split; [split|split].
  - rewrite Kb. exact Dc.
  - intros s y Y. specialize (Gt s). rewrite Y in Gt. destruct (aget c s) as [x|] eqn:X; [|contradiction]. destruct Gt. eapply Ev; eassumption.
  - intro s. simpl. unfold vmeta. rewrite Gc. specialize (Gt s). destruct (aget c s), (aget b s); try contradiction; [|reflexivity]. destruct Gt as [Gt _]. rewrite Gt. reflexivity.
  - intros s k. simpl. unfold vent. rewrite Gc. specialize (Gt s). destruct (aget c s) eqn:X, (aget b s); try contradiction; [|reflexivity]. destruct Gt as [G1 G2].
    apply (Ev _ _ _ X G1 G2).
Qed.

Lemma sandbox_ok : forall G os, proper G -> all_allowed G [] G os ->
  snd (run G [] os) = snd (runs G os) /\
  forall sb, reordered (fst (run G [] os)) sb -> exists G', apply G sb = Ok G' /\ same G' (fst (runs G os)).
Proof.
  intros G os P L. assert (A0 : sb_ok G [] []) by (split; [constructor | intros s b E; discriminate]).
  destruct (@run_ok os G [] [] G P P A0 (same_refl _) L) as [ch [A [V [R W]]]]. split; [exact R|]. intros sb Re.
  destruct (reordered_ok Re A) as [A' V']. assert (Vs : same (view G sb) (fst (runs G os))) by (eapply same_trans; eassumption).
  destruct (apply_view A') as [G' [E S]]; [eapply same_proper; [apply same_sym; exact Vs | exact W]|]. exists G'. split; [exact E|]. eapply same_trans; eassumption.
Qed.
