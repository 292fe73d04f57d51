From Coq Require Import Sorted.
From Verif Require Import Base Base_Proofs Import_Model Fuzz_Model Fuzz_Spec.
Open Scope N_scope.

(** ** Maps *)
Lemma put_keys_in s k v x : In x (map fst (put s k v)) <-> x = k \/ In x (map fst s).
Proof.
  induction s as [|[k' v'] s IH]; cbn [put map fst In]; [intuition|].
  destruct (k <? k') eqn:E1; cbn [map fst In]; [intuition|].
  destruct (k =? k') eqn:E2; cbn [map fst In]; [apply N.eqb_eq in E2; subst; intuition|]. rewrite IH. intuition.
Qed.
Lemma put_ascending s k v : ascending s -> ascending (put s k v).
Proof.
  unfold ascending. induction s as [|[k' v'] s IH]; cbn [put map fst]; intro A; [repeat constructor|].
  apply StronglySorted_inv in A. destruct A as [A1 A2]. rewrite Forall_forall in A2.
  destruct (k <? k') eqn:E1; cbn [map fst].
  - apply N.ltb_lt in E1. constructor; [constructor; auto; apply Forall_forall; auto|]. constructor; auto. apply Forall_forall. intros y Hy. specialize (A2 y Hy). lia.
  - apply N.ltb_ge in E1. destruct (k =? k') eqn:E2; cbn [map fst].
    + apply N.eqb_eq in E2. subst. constructor; auto. apply Forall_forall; auto.
    + apply N.eqb_neq in E2. constructor; auto. apply Forall_forall. intros y Hy. apply put_keys_in in Hy. destruct Hy as [->|Hy]; [lia|auto].
Qed.
Lemma sorted_filter_map (s : state) (f : N * bytes -> bool) : StronglySorted N.lt (map fst s) -> StronglySorted N.lt (map fst (filter f s)).
Proof.
  induction s as [|a s IH]; cbn [filter map]; intro A; auto. apply StronglySorted_inv in A. destruct A as [A1 A2].
  destruct (f a); cbn [map]; auto. constructor; auto. rewrite Forall_forall in *. intros y Hy. apply A2. apply in_map_iff in Hy. destruct Hy as (z & <- & Hz).
  apply filter_In in Hz. apply in_map. tauto.
Qed.
Lemma del_ascending s k : ascending s -> ascending (del s k).
Proof. apply sorted_filter_map. Qed.
Lemma get_in s k : get s k <> None <-> In k (map fst s).
Proof.
  induction s as [|[k' v'] s IH]; cbn [get map fst In]; [intuition|]. destruct (k =? k') eqn:E.
  - apply N.eqb_eq in E. subst. intuition congruence.
  - apply N.eqb_neq in E. rewrite IH. intuition congruence.
Qed.
Lemma get_none s k : get s k = None <-> ~ In k (map fst s).
Proof. rewrite <- get_in. destruct (get s k); intuition congruence. Qed.
Lemma get_put s k v x : get (put s k v) x = if x =? k then Some v else get s x.
Proof.
  induction s as [|[k' v'] s IH]; cbn [put get]; [reflexivity|].
  destruct (k <? k') eqn:E1; cbn [get].
  - destruct (x =? k); auto.
  - destruct (k =? k') eqn:E2; cbn [get].
    + apply N.eqb_eq in E2. subst. destruct (x =? k'); auto.
    + rewrite IH. destruct (x =? k') eqn:E3; destruct (x =? k) eqn:E4; auto. apply N.eqb_eq in E3, E4. apply N.eqb_neq in E2. congruence.
Qed.
Lemma get_del s k x : get (del s k) x = if x =? k then None else get s x.
Proof.
  unfold del. induction s as [|[k' v'] s IH]; cbn [filter get fst]; [destruct (x =? k); auto|].
  destruct (k' =? k) eqn:E1; cbn [negb get].
  - rewrite IH. apply N.eqb_eq in E1. subst. destruct (x =? k) eqn:E2; auto.
  - rewrite IH. destruct (x =? k) eqn:E2; destruct (x =? k') eqn:E3; auto. apply N.eqb_eq in E2, E3. apply N.eqb_neq in E1. congruence.
Qed.
Lemma get_first_lt k v s x : ascending ((k, v) :: s) -> get s x <> None -> k < x.
Proof. intros A G. apply StronglySorted_inv in A. destruct A as [_ A]. rewrite Forall_forall in A. apply A. apply get_in. auto. Qed.
Lemma get_ext s : forall s', ascending s -> ascending s' -> (forall k, get s k = get s' k) -> s = s'.
Proof.
  induction s as [|[k v] s IH]; intros [|[k' v'] s'] A A' E.
  - reflexivity.
  - specialize (E k'). cbn [get] in E. rewrite N.eqb_refl in E. discriminate.
  - specialize (E k). cbn [get] in E. rewrite N.eqb_refl in E. discriminate.
  - assert (k = k').
    { pose proof (E k) as E1. pose proof (E k') as E2. cbn [get] in E1, E2. rewrite N.eqb_refl in E1, E2.
      destruct (k =? k') eqn:Q; [apply N.eqb_eq in Q; auto|]. rewrite N.eqb_sym, Q in E2.
      assert (k < k') by (apply (get_first_lt k v s); auto; rewrite E2; congruence).
      assert (k' < k) by (apply (get_first_lt k' v' s'); auto; rewrite <- E1; congruence). lia. }
    subst k'. pose proof (E k) as E1. cbn [get] in E1. rewrite N.eqb_refl in E1. injection E1 as ->. f_equal.
    pose proof A as A1. pose proof A' as A1'. apply StronglySorted_inv in A. apply StronglySorted_inv in A'. apply IH; [apply A|apply A'|]. intro x.
    pose proof (E x) as Ex. cbn [get] in Ex. destruct (x =? k) eqn:Q; auto. apply N.eqb_eq in Q. subst x.
    destruct (get s k) eqn:G1. { assert (k < k) by (apply (get_first_lt k v' s); auto; congruence). lia. }
    destruct (get s' k) eqn:G2; auto. assert (k < k) by (apply (get_first_lt k v' s'); auto; congruence). lia.
Qed.
Lemma get_In s k v : ascending s -> (In (k, v) s <-> get s k = Some v).
Proof.
  induction s as [|[k' v'] s IH]; intro A; cbn [In get]; [intuition congruence|].
  pose proof A as A0. apply StronglySorted_inv in A. destruct A as [A1 A2]. specialize (IH A1). destruct (k =? k') eqn:E.
  - apply N.eqb_eq in E. subst k'. split; [|intro H; injection H as ->; auto]. intros [H|H]; [congruence|]. exfalso.
    rewrite Forall_forall in A2. assert (L : k < k) by (apply A2; apply (in_map fst) in H; auto). lia.
  - apply N.eqb_neq in E. rewrite IH. split; auto. intros [H|H]; auto. congruence.
Qed.

(** ** Writing the dirty entries *)
Lemma write_get s e x : get (write_one s e) x = if x =? fst e then snd e else get s x.
Proof. destruct e as [k [v|]]; cbn [write_one fst snd]; [apply get_put|apply get_del]. Qed.
Lemma write_ascending s e : ascending s -> ascending (write_one s e).
Proof. destruct e as [k [v|]]; cbn [write_one fst snd]; [apply put_ascending|apply del_ascending]. Qed.
Lemma writes_ascending l : forall s, ascending s -> ascending (fold_left write_one l s).
Proof. induction l; cbn [fold_left]; auto using write_ascending. Qed.
Lemma commit_is s d : commit s d = fold_left write_one d s.
Proof. reflexivity. Qed.
Lemma find_set d k o x : find_delta (set_delta d k o) x = if x =? k then Some o else find_delta d x.
Proof.
  unfold set_delta. cbn [find_delta]. destruct (x =? k) eqn:E; auto. apply N.eqb_neq in E. induction d as [|[k' o'] d IH]; auto.
  cbn [filter fst]. destruct (k' =? k) eqn:Q; cbn [negb find_delta].
  - rewrite IH. apply N.eqb_eq in Q. subst. rewrite (proj2 (N.eqb_neq _ _) E). reflexivity.
  - rewrite IH. reflexivity.
Qed.
Lemma NoDup_filter_keys {A} (d : list (N * A)) f : NoDup (map fst d) -> NoDup (map fst (filter f d)).
Proof.
  induction d as [|a d IH]; cbn [filter map]; intro H; auto. apply NoDup_cons_iff in H. destruct (f a); cbn [map]; [|tauto]. constructor; [|tauto].
  intro Q. apply (proj1 H). apply in_map_iff in Q. destruct Q as (z & <- & Hz). apply filter_In in Hz. apply in_map. tauto.
Qed.
Lemma set_nodup d k o : NoDup (map fst d) -> NoDup (map fst (set_delta d k o)).
Proof.
  intro H. cbn [set_delta map fst]. constructor; [|apply NoDup_filter_keys; auto]. intro Q. apply in_map_iff in Q. destruct Q as (z & E & Hz).
  apply filter_In in Hz. destruct Hz as [_ Hz]. rewrite E, N.eqb_refl in Hz. discriminate.
Qed.
Lemma find_none d k : find_delta d k = None <-> ~ In k (map fst d).
Proof.
  induction d as [|[k' o] d IH]; cbn [find_delta map fst In]; [intuition|]. destruct (k =? k') eqn:E.
  - apply N.eqb_eq in E. subst. intuition congruence.
  - apply N.eqb_neq in E. rewrite IH. intuition congruence.
Qed.
Lemma commit_get d : forall s x, NoDup (map fst d) -> get (commit s d) x = match find_delta d x with Some o => o | None => get s x end.
Proof.
  induction d as [|[k o] d IH]; intros s x D; [reflexivity|]. cbn [map fst] in D. apply NoDup_cons_iff in D. destruct D as [D1 D2].
  rewrite commit_is. cbn [fold_left]. rewrite <- commit_is, IH by auto. cbn [find_delta]. rewrite write_get. cbn [fst snd]. destruct (x =? k) eqn:E; auto.
  apply N.eqb_eq in E. subst. apply find_none in D1. rewrite D1. reflexivity.
Qed.
Lemma dirty_gen l : forall d s s', NoDup (map fst d) -> (forall x, get s' x = match find_delta d x with Some o => o | None => get s x end) ->
  let d' := fold_left (fun d e => set_delta d (fst e) (snd e)) l d in
  NoDup (map fst d') /\ forall x, get (fold_left write_one l s') x = match find_delta d' x with Some o => o | None => get s x end.
Proof.
  induction l as [|e l IH]; intros d s s' D G; cbn [fold_left]; [auto|]. apply IH; [apply set_nodup; auto|].
  intro x. rewrite write_get, find_set. destruct (x =? fst e); auto.
Qed.
Lemma dirty_nodup l : NoDup (map fst (dirty l)).
Proof. apply (dirty_gen l [] [] []); [constructor|reflexivity]. Qed.
Lemma commit_dirty s l : ascending s -> commit s (dirty l) = fold_left write_one l s.
Proof.
  intro A. apply get_ext; [apply writes_ascending; auto|apply writes_ascending; auto|]. intro k.
  rewrite commit_get by apply dirty_nodup. symmetry. apply (dirty_gen l [] s s); [constructor|reflexivity].
Qed.
Lemma after_changes_is s l : after_changes s l = fold_left write_one (map (fun c => (fst c, value_of (snd c))) l) s.
Proof. unfold after_changes. revert s. induction l; intro s; cbn [map fold_left]; auto. Qed.
Lemma puts_is s l : fold_left (fun s e => put s (fst e) (snd e)) l s = fold_left write_one (map (fun e : N * bytes => (fst e, Some (snd e))) l) s.
Proof. revert s. induction l; intro s; cbn [map fold_left]; auto. Qed.
Lemma after_is s o : after s o = fold_left write_one (touches o) s.
Proof. unfold after, after_rest, after_accounts, touches. rewrite !fold_left_app, !after_changes_is, puts_is. reflexivity. Qed.
Lemma commit_after s o : ascending s -> commit s (dirty (touches o)) = after s o.
Proof. intro A. rewrite commit_dirty, after_is; auto. Qed.
Lemma after_ascending s o : ascending s -> ascending (after s o).
Proof. intro A. rewrite after_is. apply writes_ascending. auto. Qed.
Lemma puts_ascending l : forall s, ascending s -> ascending (fold_left (fun s (e : N * bytes) => put s (fst e) (snd e)) l s).
Proof. induction l; cbn [fold_left]; auto using put_ascending. Qed.

(** ** Key sets *)
Notation sorted := (StronglySorted N.lt).
Lemma key_insert_in l k x : In x (key_insert l k) <-> x = k \/ In x l.
Proof.
  induction l as [|y l IH]; cbn [key_insert In]; [intuition|]. destruct (k <? y); cbn [In]; [intuition|].
  destruct (k =? y) eqn:E; cbn [In]; [apply N.eqb_eq in E; subst; intuition|]. rewrite IH. intuition.
Qed.
Lemma key_insert_sorted l k : sorted l -> sorted (key_insert l k).
Proof.
  induction l as [|y l IH]; cbn [key_insert]; intro A; [repeat constructor|]. pose proof A as A0. apply StronglySorted_inv in A. destruct A as [A1 A2]. rewrite Forall_forall in A2.
  destruct (k <? y) eqn:E1.
  - apply N.ltb_lt in E1. constructor; auto. constructor; auto. apply Forall_forall. intros z Hz. specialize (A2 z Hz). lia.
  - apply N.ltb_ge in E1. destruct (k =? y) eqn:E2; auto. apply N.eqb_neq in E2. constructor; auto. apply Forall_forall. intros z Hz. apply key_insert_in in Hz.
    destruct Hz as [->|Hz]; [lia|auto].
Qed.
Lemma key_remove_in l k x : In x (key_remove l k) <-> In x l /\ x <> k.
Proof. unfold key_remove. rewrite filter_In. destruct (x =? k) eqn:E; cbn [negb]; [apply N.eqb_eq in E|apply N.eqb_neq in E]; intuition congruence. Qed.
Lemma key_remove_sorted l k : sorted l -> sorted (key_remove l k).
Proof.
  unfold key_remove. induction l as [|y l IH]; cbn [filter]; intro A; auto. apply StronglySorted_inv in A. destruct A as [A1 A2]. destruct (negb (y =? k)); auto.
  constructor; auto. rewrite Forall_forall in *. intros z Hz. apply filter_In in Hz. apply A2. tauto.
Qed.
Lemma sorted_ext l : forall l', sorted l -> sorted l' -> (forall x, In x l <-> In x l') -> l = l'.
Proof.
  induction l as [|a l IH]; intros [|b l'] A A' E; auto.
  - exfalso. apply (proj2 (E b)). left; auto.
  - exfalso. apply (proj1 (E a)). left; auto.
  - apply StronglySorted_inv in A. apply StronglySorted_inv in A'. destruct A as [A1 A2], A' as [A1' A2']. rewrite Forall_forall in A2, A2'.
    assert (a = b).
    { destruct (proj1 (E a)) as [H|H]; [left; auto|auto|]. destruct (proj2 (E b)) as [H'|H']; [left; auto|auto|]. specialize (A2 _ H'). specialize (A2' _ H). lia. }
    subst b. f_equal. apply IH; auto. intro x. split; intro H.
    + destruct (proj1 (E x)) as [Q|Q]; [right; auto| |auto]. subst. specialize (A2 _ H). lia.
    + destruct (proj2 (E x)) as [Q|Q]; [right; auto| |auto]. subst. specialize (A2' _ H). lia.
Qed.
Lemma inserts_in l : forall ks x, In x (fold_left key_insert l ks) <-> In x l \/ In x ks.
Proof. induction l as [|a l IH]; intros ks x; cbn [fold_left In]; [intuition|]. rewrite IH, key_insert_in. intuition. Qed.
Lemma inserts_sorted l : forall ks, sorted ks -> sorted (fold_left key_insert l ks).
Proof. induction l; cbn [fold_left]; auto using key_insert_sorted. Qed.
Lemma removes_in l : forall ks x, In x (fold_left key_remove l ks) <-> In x ks /\ ~ In x l.
Proof. induction l as [|a l IH]; intros ks x; cbn [fold_left In]; [intuition|]. rewrite IH, key_remove_in. intuition. Qed.
Lemma removes_sorted l : forall ks, sorted ks -> sorted (fold_left key_remove l ks).
Proof. induction l; cbn [fold_left]; auto using key_remove_sorted. Qed.

Lemma added_in g x : In x (added_keys g) <-> exists v, In (x, Added v) g.
Proof.
  unfold added_keys. rewrite in_flat_map. split.
  - intros ([k c] & H & Q). cbn [snd fst] in Q. destruct c; try contradiction. destruct Q as [<-|[]]. eauto.
  - intros (v & H). exists (x, Added v). cbn. auto.
Qed.
Lemma removed_in g x : In x (removed_keys g) <-> In (x, Removed) g.
Proof.
  unfold removed_keys. rewrite in_flat_map. split.
  - intros ([k c] & H & Q). cbn [snd fst] in Q. destruct c; try contradiction. destruct Q as [<-|[]]. auto.
  - intro H. exists (x, Removed). cbn. auto.
Qed.
Lemma apply_changes_sorted cs : forall ks, sorted ks -> sorted (apply_changes ks cs).
Proof. unfold apply_changes. induction cs; cbn [fold_left]; auto using removes_sorted, inserts_sorted. Qed.
(** With each key changed once, the keys accumulation leaves are those it adds, and those there were but for those it removes. *)
Lemma apply_changes_in cs : forall ks x, NoDup (map fst (concat cs)) ->
  (In x (apply_changes ks cs) <-> (exists v, In (x, Added v) (concat cs)) \/ (In x ks /\ ~ In (x, Removed) (concat cs))).
Proof.
  unfold apply_changes. induction cs as [|g cs IH]; intros ks x D; cbn [fold_left concat]; [cbn; firstorder|].
  cbn [concat] in D. rewrite map_app in D.
  assert (D2 : NoDup (map fst (concat cs))). { clear - D. induction (map fst g); cbn [app] in D; auto. apply NoDup_cons_iff in D. tauto. }
  assert (U : forall c c', In (x, c) g -> In (x, c') (concat cs) -> False).
  { intros c c' H1 H2. apply (in_map fst) in H1. apply (in_map fst) in H2. cbn [fst] in H1, H2. clear - D H1 H2.
    induction (map fst g) as [|a l IHl]; [contradiction|]. cbn [app] in D. apply NoDup_cons_iff in D. destruct H1 as [<-|H1]; [apply (proj1 D); apply in_or_app; auto|tauto]. }
  assert (W : forall v, In (x, Added v) g -> In (x, Removed) g -> False).
  { intros v H1 H2. clear - D H1 H2. induction g as [|[k c] g IHg]; [contradiction|]. cbn [map fst app] in D. apply NoDup_cons_iff in D. destruct D as [D0 D].
    destruct H1 as [H1|H1]; destruct H2 as [H2|H2]; [congruence| | |auto]; apply D0; apply in_or_app; left.
    - injection H1 as -> ->. apply (in_map fst) in H2. auto.
    - injection H2 as -> ->. apply (in_map fst) in H1. auto. }
  rewrite IH by auto. rewrite removes_in, inserts_in, added_in, removed_in. setoid_rewrite in_app_iff. split.
  - intros [(v & H)|[[[(v & H)|H] N1] N2]]; [left; eauto|left; eauto|]. right. tauto.
  - intros [(v & [H|H])|[H N1]]; [|left; eauto|right; tauto]. right. split; [split; [eauto|]|]; eauto.
Qed.
Lemma in_keys_get s x : In x (map fst s) <-> get s x <> None.
Proof. rewrite get_in. reflexivity. Qed.
(** The same keys, read off the state. *)
Lemma fits_get l : forall s x, NoDup (map fst l) -> changes_fit s l ->
  (get (after_changes s l) x <> None <-> (exists v, In (x, Added v) l) \/ (get s x <> None /\ ~ In (x, Removed) l)).
Proof.
  unfold after_changes. induction l as [|[k c] l IH]; intros s x D F; cbn [fold_left]; [cbn; firstorder|].
  cbn [changes_fit fst snd] in F. destruct F as [F0 F]. cbn [map fst] in D. apply NoDup_cons_iff in D. destruct D as [D0 D].
  rewrite IH by auto. rewrite write_get. cbn [fst snd].
  assert (K : forall c', In (k, c') l -> False) by (intros c' Hc; apply D0; apply (in_map fst) in Hc; auto).
  destruct (x =? k) eqn:E.
  - apply N.eqb_eq in E. subst x. unfold change_fits in F0. cbn [fst snd] in F0. split.
    + intros [(v & H)|[H1 H2]]; [destruct (K _ H)|]. destruct c; cbn [value_of] in H1; [left; exists v; left; auto| |congruence]. right. split; auto. intros [Q|Q]; [congruence|eauto].
    + intros [(v & [H|H])|[H1 H2]]; [|destruct (K _ H)|].
      * injection H as ->. right. cbn [value_of]. split; [congruence|]. intro Q. eauto.
      * right. destruct c; cbn [value_of]; [split; [congruence|]; intro Q; eauto|split; [congruence|]; intro Q; eauto|]. exfalso. apply H2. left; auto.
  - apply N.eqb_neq in E. cbn [In]. split.
    + intros [(v & H)|[H1 H2]]; [left; eauto|]. right. split; auto. intros [Q|Q]; [congruence|auto].
    + intros [(v & [H|H])|[H1 H2]]; [congruence|left; eauto|]. right. split; auto.
Qed.
Lemma rest_get l : forall s x, (forall e, In e l -> get s (fst e) <> None) ->
  (get (fold_left (fun s (e : N * bytes) => put s (fst e) (snd e)) l s) x <> None <-> get s x <> None).
Proof.
  induction l as [|e l IH]; intros s x F; cbn [fold_left]; [reflexivity|]. rewrite IH.
  - rewrite get_put. destruct (x =? fst e) eqn:E; [|reflexivity]. apply N.eqb_eq in E. subst. pose proof (F e (or_introl eq_refl)). intuition congruence.
  - intros e' He. rewrite get_put. destruct (fst e' =? fst e); [congruence|]. apply F. right; auto.
Qed.
Lemma updates_get l : forall s x, changes_fit s l -> (forall c, In c l -> exists v, snd c = Updated v) -> (get (after_changes s l) x <> None <-> get s x <> None).
Proof.
  unfold after_changes. induction l as [|c l IH]; intros s x F U; cbn [fold_left]; [reflexivity|]. cbn [changes_fit] in F. destruct F as [F0 F].
  rewrite IH; auto; [|intros c' Hc; apply U; right; auto]. rewrite write_get. cbn [fst snd]. destruct (x =? fst c) eqn:E; [|reflexivity]. apply N.eqb_eq in E. subst.
  destruct (U c (or_introl eq_refl)) as [v Hv]. unfold change_fits in F0. rewrite Hv in *. cbn [value_of]. intuition congruence.
Qed.
Lemma keeps_get l : forall s x, changes_fit s l -> (forall c, In c l -> snd c <> Removed) -> get s x <> None -> get (after_changes s l) x <> None.
Proof.
  unfold after_changes. induction l as [|c l IH]; intros s x F U G; cbn [fold_left]; auto. cbn [changes_fit] in F. destruct F as [F0 F].
  apply IH; auto; [intros c' Hc; apply U; right; auto|]. rewrite write_get. cbn [fst snd]. destruct (x =? fst c); auto.
  pose proof (U c (or_introl eq_refl)). destruct (snd c); cbn [value_of]; congruence.
Qed.
