From Coq Require Import Sorted.
From Verif Require Import Base Base_Proofs Import_Model Fuzz_Model Fuzz_Spec Fuzz_Proofs Fuzz2_Proofs.
Open Scope N_scope.

Section Runs.
  Context {R B : Type} (cap : nat) (root : state -> N).
  Notation fblock := (@fblock B).
  Context (exec : R -> option aset -> state -> fblock -> R * option outcome) (gen : R -> state -> fblock -> R * option (list (N * option bytes))).
  Context (default_hash : N) (ring0 : R) (full : Prop).
  Notation target := (@target R). Notation staged := (@staged R). Notation forest := (@forest R). Notation post := (@post R).
  Notation inv := (inv cap root full).

  Definition told (n : @node R) (d : delta) (k : N) : option bytes := match find_delta d k with Some o => o | None => get (n_state n) k end.
  Lemma collect_keys (n : @node R) d ks x : In x (map fst (collect_state n ks d)) -> In x ks.
  Proof.
    intro H. apply in_map_iff in H. destruct H as ([k v] & <- & H). cbn [fst]. unfold collect_state in H. apply in_flat_map in H. destruct H as (y & Hy & H).
    destruct (find_delta d y) as [[w|]|]; [| |destruct (get (n_state n) y)]; cbn [In] in H; destruct H as [[= <- <-]|[]] || contradiction; auto.
  Qed.
  Lemma collect_cons (n : @node R) d k ks : collect_state n (k :: ks) d = ((match told n d k with Some v => [(k, v)] | None => [] end) ++ collect_state n ks d)%list.
  Proof. unfold collect_state, told. cbn [flat_map]. destruct (find_delta d k) as [[v|]|]; auto. Qed.
  Lemma collect_ascending (n : @node R) d ks : sorted ks -> ascending (collect_state n ks d).
  Proof.
    unfold ascending. induction ks as [|k ks IH]; intro A; [constructor|]. apply StronglySorted_inv in A. destruct A as [A1 A2]. rewrite collect_cons.
    destruct (told n d k); cbn [app map fst]; auto. constructor; auto. rewrite Forall_forall in *. intros x Hx. apply A2. eapply collect_keys; eauto.
  Qed.
  Lemma collect_get (n : @node R) d ks x : sorted ks -> get (collect_state n ks d) x = if existsb (N.eqb x) ks then told n d x else None.
  Proof.
    induction ks as [|k ks IH]; intro A; [reflexivity|]. apply StronglySorted_inv in A. destruct A as [A1 A2]. specialize (IH A1). rewrite collect_cons. cbn [existsb].
    assert (NI : get (collect_state n ks d) k = None).
    { apply get_none. intro H. apply collect_keys in H. rewrite Forall_forall in A2. specialize (A2 _ H). lia. }
    destruct (x =? k) eqn:E; cbn [orb].
    - apply N.eqb_eq in E. subst x. destruct (told n d k); cbn [app get]; [rewrite N.eqb_refl; auto|auto].
    - destruct (told n d k); cbn [app get]; [rewrite E|]; auto.
  Qed.
  Lemma delta_keys_sorted d : forall ks, sorted ks -> sorted (delta_keys ks d).
  Proof. unfold delta_keys. induction d as [|[k [v|]] d IH]; intros ks A; cbn [fold_left fst snd]; auto using key_insert_sorted, key_remove_sorted. Qed.
  Lemma delta_keys_in d : forall ks x, NoDup (map fst d) ->
    (In x (delta_keys ks d) <-> match find_delta d x with Some (Some _) => True | Some None => False | None => In x ks end).
  Proof.
    unfold delta_keys. induction d as [|[k o] d IH]; intros ks x D; cbn [fold_left find_delta]; [reflexivity|].
    cbn [map fst] in D. apply NoDup_cons_iff in D. destruct D as [D0 D]. rewrite IH by auto. cbn [fst snd]. destruct (x =? k) eqn:E.
    - apply N.eqb_eq in E. subst x. apply find_none in D0. rewrite D0. destruct o; [rewrite key_insert_in; intuition|rewrite key_remove_in; intuition].
    - apply N.eqb_neq in E. destruct (find_delta d x) as [[w|]|]; try reflexivity. destruct o; [rewrite key_insert_in; intuition congruence|rewrite key_remove_in; intuition].
  Qed.
  Lemma in_existsb x ks : existsb (N.eqb x) ks = false <-> ~ In x ks.
  Proof. rewrite <- existsb_eq. destruct (existsb (N.eqb x) ks); intuition congruence. Qed.

  Lemma told_state (n : @node R) d k : NoDup (map fst d) -> told n d k = get (commit (n_state n) d) k.
  Proof. intro D. rewrite commit_get by auto. reflexivity. Qed.
  Lemma collect_part (n : @node R) d ks s : sorted ks -> NoDup (map fst d) -> commit (n_state n) d = s -> part_of (collect_state n ks d) s.
  Proof.
    intros A D <-. split; [apply collect_ascending; auto|]. intros k v H. apply get_In in H; [|apply collect_ascending; auto].
    rewrite collect_get in H by auto. destruct (existsb (N.eqb k) ks); [|discriminate]. rewrite told_state in H by auto. auto.
  Qed.
  Lemma collect_exact (n : @node R) d ks s : sorted ks -> NoDup (map fst d) -> commit (n_state n) d = s -> ascending s -> (forall k, get s k <> None -> In k ks) ->
    collect_state n ks d = s.
  Proof.
    intros A D <- As K. apply get_ext; [apply collect_ascending; auto|auto|]. intro k. rewrite collect_get by auto. rewrite told_state by auto.
    destruct (existsb (N.eqb k) ks) eqn:E; auto. apply in_existsb in E. destruct (get (commit (n_state n) d) k) eqn:G; auto. exfalso. apply E, K. congruence.
  Qed.

  Lemma state_told fk an (t : target) (f : forest) h q : inv fk an t f -> known f h -> posts f h = Some q ->
    part_of (state_for t h) (p_state q) /\ (full -> state_for t h = p_state q).
  Proof.
    intros V K P. pose proof V as ((q0 & Q1 & Q2 & Q3 & Q4 & Q5 & Q6 & Q7 & Q8) & Hh & Hf & Hs & Hk & Ha & Hse & Hd & Hst & Hnf). unfold state_for.
    destruct (t_hash t =? h) eqn:E.
    - apply N.eqb_eq in E. assert (q0 = q) by congruence. subst q0. split.
      + apply collect_part; auto; constructor.
      + intro F. apply collect_exact; auto; [constructor|]. intros k G. rewrite (Q8 F). apply get_in. auto.
    - apply N.eqb_neq in E. destruct K as [K|K]; [congruence|]. apply Hd in K. destruct (find_staged (t_staged t) h) as [b|] eqn:Fb; [|congruence].
      destruct (Hst h b Fb) as (q' & S1 & S2 & S3 & S4 & S5 & S6 & S7 & S8 & S9 & S10). assert (q' = q) by congruence. subst q'.
      set (d := match st_artifact b with Some d => d | None => [] end).
      assert (D : NoDup (map fst d)). { unfold d. destruct (st_artifact b); [auto|constructor]. }
      assert (C : commit (n_state (t_node t)) d = p_state q). { unfold d. unfold committed_with in S2. destruct (st_artifact b); auto. }
      split.
      + apply collect_part; auto. apply delta_keys_sorted; auto.
      + intro F. apply collect_exact; auto; [apply delta_keys_sorted; auto|]. intros k G. apply delta_keys_in; auto. rewrite <- C, commit_get in G by auto.
        destruct (find_delta d k) as [[w|]|]; auto. rewrite (Q8 F), <- Q2. apply get_in. auto.
  Qed.

  Definition fine (q : request) : Prop := match q with Import b => allowed exec full b | Get _ => True end.
  Lemma run_ok fk an l : forall t f, inv fk an t f -> Forall fine l ->
    imports_right cap root exec fk an f l (snd (messages cap root exec gen default_hash ring0 t (map message_of l))) /\
    states_are cap root exec part_of fk an f l (snd (messages cap root exec gen default_hash ring0 t (map message_of l))) /\
    (full -> states_are cap root exec exactly fk an f l (snd (messages cap root exec gen default_hash ring0 t (map message_of l)))) /\
    inv fk an (fst (messages cap root exec gen default_hash ring0 t (map message_of l))) (grown cap root exec fk an f l).
  Proof.
    induction l as [|q l IH]; intros t f V F; [cbn; auto|]. apply Forall_cons_iff in F. destruct F as [Fq F]. cbn [map messages]. destruct q as [b|h]; cbn [message_of process].
    - destruct (import_inv cap root exec gen full fk an t f b V Fq) as [V' E]. destruct (process_import cap root exec gen t b) as [t' r] eqn:P. cbn [fst snd] in V', E.
      specialize (IH t' (fst (grow cap root exec fk an f b)) V' F). destruct (messages cap root exec gen default_hash ring0 t' (map message_of l)) as [t'' rs].
      cbn [fst snd imports_right states_are grown] in *. destruct IH as (I1 & I2 & I3 & I4). subst r. do 3 (split; [solve [auto]|]). auto.
    - specialize (IH t f V F). destruct (messages cap root exec gen default_hash ring0 t (map message_of l)) as [t'' rs].
      cbn [fst snd imports_right states_are grown] in *. destruct IH as (I1 & I2 & I3 & I4). split; auto. split; [|split; auto].
      + split; auto. intros p K P. destruct (state_told fk an t f h p V K P). auto.
      + intro Fu. split; auto. intros p K P. destruct (state_told fk an t f h p V K P) as [_ X]. exact (X Fu).
  Qed.

  Lemma planted_inv an fk (t : target) h sl kvs anc : t_node t = new_node default_hash ring0 -> t_keys t = [] -> t_state_init t = false -> t_ancestors t = an -> t_forking t = fk ->
    inv fk an (fst (initialize cap root default_hash ring0 t h sl kvs anc)) (planted cap ring0 an h sl kvs anc) /\
    snd (initialize cap root default_hash ring0 t h sl kvs anc) = Root (root (fold_left (fun s e => put s (fst e) (snd e)) kvs [])).
  Proof.
    intros Hn Hk Hi Ha Hf. unfold initialize. rewrite Hi, Hn, Hk, Ha, Hf. cbn [new_node n_state n_ring n_roots n_anc]. split; [|reflexivity].
    assert (A : ascending (fold_left (fun s (e : N * bytes) => put s (fst e) (snd e)) kvs [])) by (apply puts_ascending; constructor).
    unfold Fuzz2_Proofs.inv, planted. cbn [fst t_node set_root_of n_state n_ring n_anc n_best n_roots t_hash t_final t_keys t_forking t_ancestors t_session t_staged tip kids posts].
    split; [|do 2 (split; [reflexivity|]); split; [apply inserts_sorted; constructor|]; do 3 (split; [reflexivity|]); split; [cbn; intuition|]; split; [discriminate|reflexivity]].
    rewrite N.eqb_refl. eexists. split; [reflexivity|]. cbn [p_state p_ring p_anc p_slot]. do 6 (split; [auto|]). intros _.
    apply sorted_ext; [apply inserts_sorted; constructor|exact A|]. intro x. rewrite inserts_in.
    rewrite (in_keys_get (fold_left (fun s (e : N * bytes) => put s (fst e) (snd e)) kvs [])).
    assert (G : forall l s, get (fold_left (fun s (e : N * bytes) => put s (fst e) (snd e)) l s) x <> None <-> In x (map fst l) \/ get s x <> None).
    { induction l as [|e l IHl]; intro s; cbn [fold_left map In]; [tauto|]. rewrite IHl, get_put. destruct (x =? fst e) eqn:E.
      - apply N.eqb_eq in E. intuition congruence.
      - apply N.eqb_neq in E. intuition congruence. }
    split; intro Y; [apply G; cbn [get In] in *; tauto|apply G in Y; cbn [get In] in *; tauto].
  Qed.
End Runs.
