(** Lemmas for Pool_Props.v. *)
From Verif Require Import Base Base_Proofs Pool_Model Pool_Spec.
From Coq Require Import Permutation.

(** ** One call after the other *)
Definition put (p : pool) (x : entry * N) : pool := mk_pool (map_set (p_map p) (e_hash (fst x)) (fst x)) (index_push (p_index p) (e_kind (fst x), snd x) (e_hash (fst x))).
Definition pool_of (acc : list (entry * N)) : pool := fold_left put acc empty_pool.
Lemma pool_snoc : forall acc x, pool_of (acc ++ [x]) = put (pool_of acc) x.
Proof. intros. unfold pool_of. rewrite fold_left_app. reflexivity. Qed.
Definition fine (acc : list (entry * N)) : Prop := forall x y, In x acc -> In y acc -> e_hash (fst x) = e_hash (fst y) -> fst x = fst y.
Lemma fine_snoc : forall acc x, fine (acc ++ [x]) -> fine acc.
Proof. intros acc x F a b A B. apply F; apply in_or_app; left; assumption. Qed.

Lemma get_set : forall m h e k, map_get (map_set m h e) k = if N.eqb h k then Some e else map_get m k.
Proof.
  induction m as [|[j x] m IH]; intros h e k; cbn [map_set map_get]; [reflexivity|]. destruct (N.eqb j h) eqn:J; cbn [map_get].
  - apply N.eqb_eq in J. subst j. destruct (N.eqb h k); reflexivity.
  - rewrite IH. destruct (N.eqb j k) eqn:K; [|reflexivity]. apply N.eqb_eq in K. subst j. destruct (N.eqb h k) eqn:Z; [|reflexivity]. apply N.eqb_eq in Z. subst k. rewrite N.eqb_refl in J. discriminate.
Qed.
Lemma set_keys : forall m h e, map fst (map_set m h e) = if existsb (N.eqb h) (map fst m) then map fst m else map fst m ++ [h].
Proof.
  induction m as [|[j x] m IH]; intros h e; cbn [map_set map existsb fst]; [reflexivity|]. rewrite (N.eqb_sym h j). destruct (N.eqb j h); cbn [map fst orb]; [reflexivity|].
  rewrite IH. destruct (existsb (N.eqb h) (map fst m)); reflexivity.
Qed.
Lemma same_key_refl : forall a, same_key a a = true.
Proof. intros [a b]. unfold same_key. rewrite !N.eqb_refl. reflexivity. Qed.
Lemma same_key_eq : forall a b, same_key a b = true -> a = b.
Proof. intros [a b] [c d] E. apply andb_true_iff in E. destruct E as [A B]. apply N.eqb_eq in A, B. cbn in A, B. subst. reflexivity. Qed.
Definition hashes (m : list ((N * N) * list N)) (k : N * N) : list N := match index_get m k with Some l => l | None => [] end.
Lemma get_push : forall m k h j, hashes (index_push m k h) j = if same_key k j then hashes m j ++ [h] else hashes m j.
Proof.
  unfold hashes. induction m as [|[i l] m IH]; intros k h j; cbn [index_push index_get]; [destruct (same_key k j); reflexivity|].
  destruct (same_key i k) eqn:I; cbn [index_get].
  - apply same_key_eq in I. subst i. destruct (same_key k j); reflexivity.
  - destruct (same_key i j) eqn:J; [|apply IH]. apply same_key_eq in J. subst i. destruct (same_key k j) eqn:K; [|reflexivity]. apply same_key_eq in K. subst k. rewrite same_key_refl in I. discriminate.
Qed.

Lemma pool_map : forall acc, fine acc -> forall x, In x acc -> map_get (p_map (pool_of acc)) (e_hash (fst x)) = Some (fst x).
Proof.
  induction acc as [|y acc IH] using rev_ind; intros F x I; [contradiction|]. rewrite pool_snoc. cbn [put p_map]. rewrite get_set. destruct (N.eqb _ _) eqn:Q.
  - apply N.eqb_eq in Q. f_equal. apply F; [apply in_or_app; right; left; reflexivity|exact I|exact Q].
  - apply in_app_or in I. destruct I as [I|[<-|[]]]; [apply IH; [apply (fine_snoc _ _ F)|exact I]|]. rewrite N.eqb_refl in Q. discriminate.
Qed.
Lemma pool_index : forall acc k s, hashes (p_index (pool_of acc)) (k, s) = map (fun x => e_hash (fst x)) (filter (fun x => N.eqb (e_kind (fst x)) k && N.eqb (snd x) s)%bool acc).
Proof.
  induction acc as [|y acc IH] using rev_ind; intros k s; [reflexivity|]. rewrite pool_snoc. cbn [put p_index]. rewrite get_push, IH, filter_app, map_app. cbn [filter]. unfold same_key at 1. cbn [fst snd].
  destruct (N.eqb (e_kind (fst y)) k && N.eqb (snd y) s)%bool; cbn [map]; [reflexivity|rewrite app_nil_r; reflexivity].
Qed.
Lemma found_in : forall acc l, fine acc -> incl l acc -> found (p_map (pool_of acc)) (map (fun x => e_hash (fst x)) l) = map fst l.
Proof.
  intros acc l F. induction l as [|x l IH]; intro I; [reflexivity|]. unfold found in *. cbn [map flat_map]. rewrite (pool_map acc F x (I x (or_introl eq_refl))). cbn [app]. f_equal. apply IH. intros y Y. apply I. right. exact Y.
Qed.
Lemma pool_get : forall acc k s, fine acc -> found (p_map (pool_of acc)) (hashes (p_index (pool_of acc)) (k, s)) = map fst (filter (fun x => N.eqb (e_kind (fst x)) k && N.eqb (snd x) s)%bool acc).
Proof. intros acc k s F. rewrite pool_index. apply found_in; [exact F|]. intros x I. apply filter_In in I. apply I. Qed.
Lemma pool_keys : forall acc, NoDup (map fst (p_map (pool_of acc))) /\ forall h, In h (map fst (p_map (pool_of acc))) <-> In h (map (fun x => e_hash (fst x)) acc).
Proof.
  induction acc as [|y acc IH] using rev_ind; [split; [constructor|intro h; split; intros []]|]. destruct IH as [Nd Iff]. rewrite pool_snoc. cbn [put p_map]. rewrite set_keys, map_app. cbn [map].
  destruct (existsb (N.eqb (e_hash (fst y))) (map fst (p_map (pool_of acc)))) eqn:Q.
  - apply existsb_exists in Q. destruct Q as [h [I E]]. apply N.eqb_eq in E. subst h. split; [exact Nd|]. intro h. rewrite Iff, in_app_iff. split; [intro Z; left; exact Z|]. intros [Z|[<-|[]]]; [exact Z|]. apply Iff. exact I.
  - split.
    + apply (Permutation_NoDup (l := e_hash (fst y) :: map fst (p_map (pool_of acc)))); [apply Permutation_cons_append|]. constructor; [|exact Nd]. intro I.
      assert (Z : existsb (N.eqb (e_hash (fst y))) (map fst (p_map (pool_of acc))) = true) by (apply existsb_exists; exists (e_hash (fst y)); split; [exact I|apply N.eqb_refl]). congruence.
    + intro h. rewrite !in_app_iff, Iff. reflexivity.
Qed.
Lemma pool_size : forall acc, length (p_map (pool_of acc)) = distinct acc.
Proof.
  intro acc. destruct (pool_keys acc) as [Nd Iff]. rewrite <- (map_length fst). unfold distinct. apply Permutation_length. apply NoDup_Permutation; [exact Nd|apply NoDup_nodup|]. intro h. rewrite nodup_In. apply Iff.
Qed.

(** ** Threads *)
Definition clash (t u : thread) : bool :=
  (writes_map t && writes_map u || writes_map t && reads_map u || reads_map t && writes_map u || writes_index t && reads_index u || reads_index t && writes_index u)%bool.
Definition apart (t : thread) (l : list thread) : Prop := Forall (fun u => clash t u = false) l.
Fixpoint calm (l : list thread) : Prop := match l with [] => True | t :: r => apart t r /\ calm r end.
Lemma clash_sym : forall t u, clash t u = clash u t.
Proof. intros t u. unfold clash. destruct (writes_map t), (writes_map u), (reads_map t), (reads_map u), (writes_index t), (writes_index u), (reads_index t), (reads_index u); reflexivity. Qed.
Lemma calm_mid : forall l t r, calm (l ++ t :: r) <-> calm (l ++ r) /\ apart t (l ++ r).
Proof.
  induction l as [|u l IH]; intros t r; cbn [app calm]; [unfold apart; split; intros [A B]; split; assumption|]. rewrite IH. unfold apart. rewrite !Forall_app. split.
  - intros [[A B] [C D]]. inversion B; subst. split; [split; [split; assumption|exact C]|]. constructor; [rewrite clash_sym; assumption|apply Forall_app; exact D].
  - intros [[[A B] C] D]. inversion D as [|? ? X Y]; subst. split; [|split; [exact C|apply Forall_app; exact Y]]. split; [exact A|]. constructor; [rewrite clash_sym; assumption|exact B].
Qed.
Lemma existsb_no : forall (A : Type) (f : A -> bool) l, existsb f l = false -> Forall (fun x => f x = false) l.
Proof. intros A f l. induction l as [|x l IH]; intro E; [constructor|]. cbn in E. apply orb_false_iff in E. constructor; [apply E|apply IH, E]. Qed.

Definition half (t : thread) : bool := match t with (Add _ _, Half _) => true | _ => false end.
Record good (max : nat) (cs : list call) (acc : list (entry * N)) (p : pool) (ts : list thread) : Prop := mk_good {
  g_calls : map fst ts = cs;
  g_from : forall x, In x acc -> In (Add (fst x) (snd x)) cs;
  g_calm : calm ts;
  g_whole : Forall (fun t => half t = false) ts -> p = pool_of acc;
  g_half : forall e s hs, In (Add e s, Half hs) ts -> p = mk_pool (map_set (p_map (pool_of acc)) (e_hash e) e) (p_index (pool_of acc)) /\ length (p_map (pool_of acc)) < max;
  g_read : forall k s hs, In (Get k s, Half hs) ts -> hs = hashes (p_index p) (k, s) }.

Lemma good_start : forall max cs, good max cs [] empty_pool (starting cs).
Proof.
  intros max cs. unfold starting. constructor.
  - rewrite map_map. cbn. apply map_id.
  - intros x [].
  - induction cs as [|c cs IH]; cbn [map calm]; [exact Logic.I|]. split; [|exact IH]. apply Forall_forall. intros t I. apply in_map_iff in I. destruct I as [d [<- _]]. destruct c, d; reflexivity.
  - intros _. reflexivity.
  - intros e s hs I. apply in_map_iff in I. destruct I as [c [Q _]]. discriminate.
  - intros k s hs I. apply in_map_iff in I. destruct I as [c [Q _]]. discriminate.
Qed.
Lemma no_half : forall t l, apart t l -> writes_map t = true \/ reads_map t = true -> Forall (fun u => half u = false) l.
Proof.
  intros t l A W. eapply Forall_impl; [|exact A]. intros [[e s|k s] [| | |hs|a]] C; try reflexivity. exfalso. unfold clash in C. cbn [writes_map reads_map writes_index reads_index] in C.
  destruct W as [W|W]; rewrite W in C; destruct (writes_map t), (reads_map t); discriminate.
Qed.
Lemma in_mid : forall (A : Type) (l r : list A) t x, In x (l ++ t :: r) <-> x = t \/ In x (l ++ r).
Proof. intros A l r t x. rewrite !in_app_iff. cbn [In]. intuition congruence. Qed.
Definition label (t : thread) : list (call * answer) := match t with (c, Back a) => [(c, a)] | _ => [] end.
Lemma whole_mid : forall max cs acc p l t r, good max cs acc p (l ++ t :: r) -> half t = false -> writes_map t = true \/ reads_map t = true -> p = pool_of acc.
Proof.
  intros max cs acc p l t r G Ht W. pose proof (g_calm _ _ _ _ _ G) as C. apply calm_mid in C. destruct C as [_ A]. apply (no_half t _ A) in W. apply (g_whole _ _ _ _ _ G).
  apply Forall_app in W. apply Forall_app. split; [apply W|]. constructor; [exact Ht|apply W].
Qed.
Lemma good_step : forall max cs acc p l t r p' t', no_collisions cs -> good max cs acc p (l ++ t :: r) -> advance max (l ++ r) p t = Some (p', t') ->
  exists acc', good max cs acc' p' (l ++ t' :: r) /\ match label t' with [] => acc' = acc | (c, a) :: _ => reply max acc c = (acc', a) end.
Proof.
  intros max cs acc p l t r p' t' NC G S.
  assert (FN : fine acc). { intros x y X Y E. apply (NC _ (snd x) _ (snd y)); [apply (g_from _ _ _ _ _ G), X|apply (g_from _ _ _ _ _ G), Y|exact E]. }
  pose proof (g_calm _ _ _ _ _ G) as C. apply calm_mid in C. destruct C as [C0 CA]. pose proof (g_calls _ _ _ _ _ G) as GC. rewrite map_app in GC. cbn [map] in GC.
  assert (CALLS : fst t' = fst t -> map fst (l ++ t' :: r) = cs) by (intro E; rewrite map_app; cbn [map]; rewrite E; exact GC).
  assert (SAME : half t = false -> half t' = false -> (forall k s hs, t' <> (Get k s, Half hs)) -> p' = p -> fst t' = fst t -> apart t' (l ++ r) -> good max cs acc p (l ++ t' :: r)).
  { intros H1 H2 H3 -> H4 H5. constructor.
    - apply CALLS, H4.
    - apply (g_from _ _ _ _ _ G).
    - apply calm_mid. split; assumption.
    - intro W. apply (g_whole _ _ _ _ _ G). apply Forall_app in W. destruct W as [W1 W2]. inversion W2; subst. apply Forall_app. split; [exact W1|]. constructor; assumption.
    - intros e s hs I. apply (g_half _ _ _ _ _ G e s hs). apply in_mid in I. apply in_mid. destruct I as [<-|I]; [discriminate|right; exact I].
    - intros k s hs I. apply (g_read _ _ _ _ _ G k s hs). apply in_mid in I. apply in_mid. destruct I as [I|I]; [exfalso; apply (H3 k s hs); symmetry; exact I|right; exact I]. }
  destruct t as [[e s|k s] [| | |hs|a]]; cbn [advance] in S.
  - destruct (existsb _ (l ++ r)) eqn:X; [discriminate|]. inversion S; subst; clear S. exists acc. split; [|reflexivity]. apply SAME; try reflexivity; try discriminate. apply existsb_no in X.
    eapply Forall_impl; [|exact X]. intros u U. apply orb_false_iff in U. destruct U as [U1 U2]. unfold clash. cbn [writes_map reads_map writes_index reads_index]. rewrite U1, U2. reflexivity.
  - destruct (existsb _ (l ++ r)) eqn:X; [discriminate|]. inversion S; subst; clear S. exists acc. split; [|reflexivity]. apply SAME; try reflexivity; try discriminate. apply existsb_no in X.
    apply Forall_forall. intros u U. rewrite Forall_forall in X. specialize (X u U). unfold apart in CA. rewrite Forall_forall in CA. specialize (CA u U).
    apply orb_false_iff in X. destruct X as [U1 U2]. unfold clash in CA |- *. cbn [writes_map reads_map writes_index reads_index] in CA |- *. rewrite U2. destruct (writes_map u), (reads_map u); try discriminate; reflexivity.
  - assert (W : p = pool_of acc) by (apply (whole_mid _ _ _ _ _ _ _ G); [reflexivity|left; reflexivity]). destruct (Nat.leb max (length (p_map p))) eqn:L.
    + inversion S; subst p' t'; clear S. exists acc. split.
      * apply SAME; try reflexivity; try discriminate. apply Forall_forall. intros u _. reflexivity.
      * cbn [label reply]. apply Nat.leb_le in L. subst p. rewrite pool_size in L. assert (Z : Nat.ltb (distinct acc) max = false) by (apply Nat.ltb_ge; exact L). rewrite Z. reflexivity.
    + inversion S; subst p' t'; clear S SAME. exists acc. split; [|reflexivity]. apply Nat.leb_gt in L. constructor.
      * apply CALLS. reflexivity.
      * apply (g_from _ _ _ _ _ G).
      * apply calm_mid. split; [exact C0|]. exact CA.
      * intro Z. apply Forall_app in Z. destruct Z as [_ Z]. inversion Z. discriminate.
      * intros e' s' hs' I. apply in_mid in I. destruct I as [I|I]; [inversion I; subst; split; [reflexivity|exact L]|]. exfalso. apply no_half in CA; [|left; reflexivity]. rewrite Forall_forall in CA. specialize (CA _ I). discriminate.
      * intros k' s' hs' I. apply in_mid in I. destruct I as [I|I]; [discriminate|]. exfalso. unfold apart in CA. rewrite Forall_forall in CA. specialize (CA _ I). discriminate.
  - inversion S; subst p' t'; clear S SAME. destruct (g_half _ _ _ _ _ G e s hs) as [-> L]; [apply in_mid; left; reflexivity|]. cbn [p_map p_index]. exists (acc ++ [(e, s)]). split.
    + pose proof (no_half _ _ CA (or_introl eq_refl)) as NH. constructor.
      * apply CALLS. reflexivity.
      * intros x I. apply in_app_or in I. destruct I as [I|[<-|[]]]; [apply (g_from _ _ _ _ _ G), I|]. cbn [fst snd]. rewrite <- GC. apply in_or_app. right. left. reflexivity.
      * apply calm_mid. split; [exact C0|]. apply Forall_forall. intros u _. reflexivity.
      * intros _. rewrite pool_snoc. reflexivity.
      * intros e' s' hs' I. apply in_mid in I. destruct I as [I|I]; [discriminate|]. rewrite Forall_forall in NH. specialize (NH _ I). discriminate.
      * intros k' s' hs' I. apply in_mid in I. destruct I as [I|I]; [discriminate|]. exfalso. unfold apart in CA. rewrite Forall_forall in CA. specialize (CA _ I). discriminate.
    + cbn [label reply]. rewrite pool_size in L. assert (Z : Nat.ltb (distinct acc) max = true) by (apply Nat.ltb_lt; exact L). rewrite Z. reflexivity.
  - discriminate.
  - destruct (existsb _ (l ++ r)) eqn:X; [discriminate|]. inversion S; subst; clear S. exists acc. split; [|reflexivity]. apply SAME; try reflexivity; try discriminate. apply existsb_no in X.
    eapply Forall_impl; [|exact X]. intros u U. unfold clash. cbn [writes_map reads_map writes_index reads_index]. rewrite U. reflexivity.
  - destruct (existsb _ (l ++ r)) eqn:X; [discriminate|]. inversion S; subst; clear S. exists acc. split; [|reflexivity]. apply SAME; try reflexivity; try discriminate. apply existsb_no in X.
    apply Forall_forall. intros u U. rewrite Forall_forall in X. specialize (X u U). unfold apart in CA. rewrite Forall_forall in CA. specialize (CA u U).
    unfold clash in CA |- *. cbn [writes_map reads_map writes_index reads_index] in CA |- *. rewrite X. cbn [andb orb] in CA |- *. exact CA.
  - inversion S; subst p' t'; clear S SAME. exists acc. split; [|reflexivity]. constructor.
    + apply CALLS. reflexivity.
    + apply (g_from _ _ _ _ _ G).
    + apply calm_mid. split; [exact C0|]. exact CA.
    + intro W. apply (g_whole _ _ _ _ _ G). apply Forall_app in W. destruct W as [W1 W2]. inversion W2; subst. apply Forall_app. split; [exact W1|]. constructor; [reflexivity|assumption].
    + intros e' s' hs' I. apply (g_half _ _ _ _ _ G e' s' hs'). apply in_mid in I. apply in_mid. destruct I as [I|I]; [discriminate|right; exact I].
    + intros k' s' hs' I. apply in_mid in I. destruct I as [I|I]; [inversion I; subst; reflexivity|]. apply (g_read _ _ _ _ _ G). apply in_mid. right. exact I.
  - inversion S; subst p' t'; clear S. exists acc. split.
    + apply SAME; try reflexivity; try discriminate. apply Forall_forall. intros u _. reflexivity.
    + cbn [label reply]. assert (W : p = pool_of acc) by (apply (whole_mid _ _ _ _ _ _ _ G); [reflexivity|right; reflexivity]).
      rewrite (g_read _ _ _ _ _ G k s hs) by (apply in_mid; left; reflexivity). subst p. rewrite (pool_get acc k s FN). reflexivity.
  - discriminate.
Qed.
Fixpoint after (max : nat) (acc : list (entry * N)) (cs : list call) : list (entry * N) := match cs with [] => acc | c :: r => after max (fst (reply max acc c)) r end.
Lemma after_app : forall max cs acc ds, after max acc (cs ++ ds) = after max (after max acc cs) ds.
Proof. induction cs as [|c cs IH]; intros acc ds; [reflexivity|]. cbn [app after]. apply IH. Qed.
Lemma replies_app : forall max cs acc ds, replies max acc (cs ++ ds) = replies max acc cs ++ replies max (after max acc cs) ds.
Proof. induction cs as [|c cs IH]; intros acc ds; [reflexivity|]. cbn [app after replies]. rewrite IH. reflexivity. Qed.
Lemma returned_mid : forall l t r, Permutation (returned (l ++ t :: r)) (label t ++ returned (l ++ r)).
Proof. intros l t r. unfold returned. rewrite !flat_map_app. cbn [flat_map]. fold (label t). rewrite !app_assoc. apply Permutation_app_tail. apply Permutation_app_comm. Qed.
Lemma advance_fresh : forall max o p t p' t', advance max o p t = Some (p', t') -> label t = [].
Proof. intros max o p [[e s|k s] [| | |hs|a]] p' t' S; try reflexivity; discriminate. Qed.
Lemma good_reach : forall max cs s log u, no_collisions cs -> reaches max s log u -> s = (empty_pool, starting cs) ->
  good max cs (after max [] (map fst log)) (fst u) (snd u) /\ replies max [] (map fst log) = map snd log /\ Permutation log (returned (snd u)).
Proof.
  intros max cs s log u NC Rc. induction Rc as [s|s log t log' u Rc IH M]; intros Es.
  - subst s. cbn [fst snd map after]. split; [apply good_start|]. split; [reflexivity|]. unfold starting, returned. clear. induction cs as [|c cs IH]; [constructor|exact IH].
  - destruct (IH Es) as [G [Q P]]. clear IH. inversion M as [p l t0 r p' t' S]; subst t log' u. cbn [fst snd] in *. destruct (good_step _ _ _ _ _ _ _ _ _ NC G S) as [acc' [G' L]]. change (match t' with (c, Back a) => [(c, a)] | _ => [] end) with (label t').
    assert (PL : Permutation (log ++ label t') (returned (l ++ t' :: r))).
    { rewrite returned_mid. rewrite returned_mid in P. rewrite (advance_fresh _ _ _ _ _ _ S) in P. cbn [app] in P. rewrite P. apply Permutation_app_comm. }
    assert (LL : label t' = [] \/ exists c a, label t' = [(c, a)]) by (destruct t' as [c [| | |hs|a]]; [left|left|left|left|right; exists c, a]; reflexivity).
    destruct LL as [E|[c [a E]]]; rewrite E in *.
    + subst acc'. rewrite app_nil_r in *. split; [exact G'|]. split; [exact Q|exact PL].
    + rewrite !map_app, after_app, replies_app. cbn [map fst snd after replies]. rewrite L. cbn [fst snd]. split; [exact G'|]. split; [rewrite Q; reflexivity|exact PL].
Qed.

(** ** Progress *)
Definition is_add (c : call) : bool := match c with Add _ _ => true | _ => false end.
Lemma all_adds_move : forall max p ts, Forall (fun t => is_add (fst t) = true) ts -> calm ts -> (exists t, In t ts /\ label t = []) -> exists log u, moves max (p, ts) log u.
Proof.
  intros max p ts A C [t0 [I0 L0]]. destruct (existsb writes_map ts) eqn:W.
  - apply existsb_exists in W. destruct W as [t [I W]]. apply in_split in I. destruct I as [l [r ->]].
    assert (S : exists p' t', advance max (l ++ r) p t = Some (p', t')).
    { destruct t as [[e s|k s] [| | |hs|a]]; try discriminate W; cbn [advance].
      - assert (X : existsb (fun o => writes_index o || reads_index o)%bool (l ++ r) = false).
        { apply Bool.not_true_iff_false; intro X. apply existsb_exists in X. destruct X as [u [U V]]. apply calm_mid in C. destruct C as [_ CA]. unfold apart in CA. rewrite Forall_forall in CA. specialize (CA u U).
          rewrite Forall_forall in A. assert (Au : is_add (fst u) = true) by (apply A; apply in_mid; right; exact U). destruct u as [[e' s'|k' s'] [| | |hs'|a']]; discriminate. }
        rewrite X. do 2 eexists. reflexivity.
      - destruct (Nat.leb _ _); do 2 eexists; reflexivity.
      - do 2 eexists. reflexivity. }
    destruct S as [p' [t' S]]. do 2 eexists. apply move. exact S.
  - apply in_split in I0. destruct I0 as [l [r ->]].
    assert (S : exists p' t', advance max (l ++ r) p t0 = Some (p', t')).
    { rewrite existsb_app in W. cbn [existsb] in W. apply orb_false_iff in W. destruct W as [W1 W2]. apply orb_false_iff in W2. destruct W2 as [W2 W3].
      rewrite Forall_forall in A. assert (At : is_add (fst t0) = true) by (apply A; apply in_mid; left; reflexivity). destruct t0 as [[e s|k s] [| | |hs|a]]; try discriminate. cbn [advance].
      assert (X : existsb (fun o => writes_map o || reads_map o)%bool (l ++ r) = false).
      { apply Bool.not_true_iff_false; intro X. apply existsb_exists in X. destruct X as [u [U V]]. assert (Au : is_add (fst u) = true) by (apply A; apply in_mid; right; exact U).
        assert (Wu : writes_map u = false). { apply in_app_or in U. destruct U as [U|U]; [apply existsb_no in W1; rewrite Forall_forall in W1; apply W1, U|apply existsb_no in W3; rewrite Forall_forall in W3; apply W3, U]. }
        destruct u as [[e' s'|k' s'] [| | |hs'|a']]; discriminate. }
      rewrite X. do 2 eexists. reflexivity. }
    destruct S as [p' [t' S]]. do 2 eexists. apply move. exact S.
Qed.
Lemma all_gets_move : forall max p ts, Forall (fun t => is_add (fst t) = false) ts -> (exists t, In t ts /\ label t = []) -> exists log u, moves max (p, ts) log u.
Proof.
  intros max p ts A [t0 [I0 L0]]. apply in_split in I0. destruct I0 as [l [r ->]].
  assert (NW : forall f, (forall k s q, f (Get k s, q) = false) -> existsb f (l ++ r) = false).
  { intros f F. apply Bool.not_true_iff_false; intro X. apply existsb_exists in X. destruct X as [[c q] [U V]]. rewrite Forall_forall in A.
    assert (Au : is_add c = false) by (apply (A (c, q)); apply in_mid; right; exact U). destruct c as [e s|k s]; [discriminate|]. rewrite F in V. discriminate. }
  assert (S : exists p' t', advance max (l ++ r) p t0 = Some (p', t')).
  { rewrite Forall_forall in A. assert (At : is_add (fst t0) = false) by (apply A; apply in_mid; left; reflexivity). destruct t0 as [[e s|k s] [| | |hs|a]]; try discriminate; cbn [advance].
    - rewrite NW by (intros ? ? [| | | |]; reflexivity). do 2 eexists. reflexivity.
    - rewrite NW by (intros ? ? [| | | |]; reflexivity). do 2 eexists. reflexivity.
    - do 2 eexists. reflexivity.
    - do 2 eexists. reflexivity. }
  destruct S as [p' [t' S]]. do 2 eexists. apply move. exact S.
Qed.

(** ** Calls made one after the other are one of the schedules *)
Definition backs (l : list (call * answer)) : list thread := map (fun x => (fst x, Back (snd x))) l.
Lemma quiet_backs : forall f l cs, (forall c a, f (c, Back a) = false) -> (forall c, f (c, Begin) = false) -> existsb f (backs l ++ starting cs) = false.
Proof.
  intros f l cs F B. apply Bool.not_true_iff_false; intro X. apply existsb_exists in X. destruct X as [t [U V]]. apply in_app_or in U. destruct U as [U|U]; apply in_map_iff in U; destruct U as [x [<- _]]; [rewrite F in V|rewrite B in V]; discriminate.
Qed.
Lemma one_by_one : forall max cs l p, exists log p', reaches max (p, backs l ++ starting cs) log (p', backs (l ++ log)) /\ map fst log = cs.
Proof.
  intros max cs. induction cs as [|c cs IH]; intros l p; [exists [], p; split; [unfold starting; cbn [map]; rewrite !app_nil_r; constructor|reflexivity]|].
  assert (S : exists a p', reaches max (p, backs l ++ (c, Begin) :: starting cs) [(c, a)] (p', backs l ++ (c, Back a) :: starting cs)).
  { assert (step : forall s log t log' u, reaches max s log t -> moves max t log' u -> forall x, x = log ++ log' -> reaches max s x u) by (intros; subst; eapply further; eassumption).
    assert (Q : forall f, (forall c a, f (c, Back a) = false) -> (forall c, f (c, Begin) = false) -> existsb f (backs l ++ starting cs) = false) by (intros; apply quiet_backs; assumption).
    destruct c as [e s|k s].
    - destruct (Nat.leb max (length (p_map p))) eqn:L.
      + exists (Added false), p.
        eapply step; [eapply step; [eapply step; [apply here| |reflexivity]| |reflexivity]| |].
        * apply (move max p (backs l) (Add e s, Begin) (starting cs) p (Add e s, One)). cbn [advance]. rewrite Q; [reflexivity| |]; intros []; reflexivity.
        * apply (move max p (backs l) (Add e s, One) (starting cs) p (Add e s, Two)). cbn [advance]. rewrite Q; [reflexivity| |]; intros []; reflexivity.
        * apply (move max p (backs l) (Add e s, Two) (starting cs) p (Add e s, Back (Added false))). cbn [advance]. rewrite L. reflexivity.
        * reflexivity.
      + exists (Added true). eexists.
        eapply step; [eapply step; [eapply step; [eapply step; [apply here| |reflexivity]| |reflexivity]| |reflexivity]| |].
        * apply (move max p (backs l) (Add e s, Begin) (starting cs) p (Add e s, One)). cbn [advance]. rewrite Q; [reflexivity| |]; intros []; reflexivity.
        * apply (move max p (backs l) (Add e s, One) (starting cs) p (Add e s, Two)). cbn [advance]. rewrite Q; [reflexivity| |]; intros []; reflexivity.
        * eapply (move max p (backs l) (Add e s, Two) (starting cs) _ (Add e s, Half [])). cbn [advance]. rewrite L. reflexivity.
        * eapply (move max _ (backs l) (Add e s, Half []) (starting cs) _ (Add e s, Back (Added true))). reflexivity.
        * reflexivity.
    - eexists (Got _), p.
      eapply step; [eapply step; [eapply step; [eapply step; [apply here| |reflexivity]| |reflexivity]| |reflexivity]| |].
      + apply (move max p (backs l) (Get k s, Begin) (starting cs) p (Get k s, One)). cbn [advance]. rewrite Q; [reflexivity| |]; intros []; reflexivity.
      + apply (move max p (backs l) (Get k s, One) (starting cs) p (Get k s, Two)). cbn [advance]. rewrite Q; [reflexivity| |]; intros []; reflexivity.
      + eapply (move max p (backs l) (Get k s, Two) (starting cs) p (Get k s, Half _)). reflexivity.
      + eapply (move max p (backs l) (Get k s, Half _) (starting cs) p (Get k s, Back (Got _))). reflexivity.
      + reflexivity. }
  destruct S as [a [p1 S]]. destruct (IH (l ++ [(c, a)]) p1) as [log [p2 [R2 E2]]]. exists ((c, a) :: log), p2. split; [|cbn [map fst]; rewrite E2; reflexivity].
  assert (trans : forall s l1 t l2 u, reaches max t l2 u -> reaches max s l1 t -> reaches max s (l1 ++ l2) u).
  { intros s l1 t l2 u T. induction T; intro S1; [rewrite app_nil_r; exact S1|]. rewrite app_assoc. eapply further; [apply IHT; exact S1|eassumption]. }
  change ((c, a) :: log) with ([(c, a)] ++ log). eapply trans; [|exact S]. unfold backs in *. rewrite !map_app in *. cbn [map fst snd] in *. rewrite <- !app_assoc in *. cbn [app] in *. exact R2.
Qed.

(** ** Running a schedule: the thread with each number advances in turn *)
Fixpoint go (max : nat) (p : pool) (ts : list thread) (log : list (call * answer)) (picks : list nat) : option (pool * list thread * list (call * answer)) :=
  match picks with
  | [] => Some (p, ts, log)
  | i :: r =>
      match nth_error ts i with
      | Some t => match advance max (firstn i ts ++ skipn (S i) ts) p t with
                  | Some (p', t') => go max p' (firstn i ts ++ t' :: skipn (S i) ts) (log ++ label t') r
                  | None => None
                  end
      | None => None
      end
  end.
Lemma go_reaches : forall max s picks p ts log p' ts' log', reaches max s log (p, ts) -> go max p ts log picks = Some (p', ts', log') -> reaches max s log' (p', ts').
Proof.
  intros max s picks. induction picks as [|i picks IH]; intros p ts log p' ts' log' R G; cbn [go] in G; [inversion G; subst; exact R|].
  destruct (nth_error ts i) as [t|] eqn:E; [|discriminate]. destruct (advance _ _ _ _) as [[p1 t1]|] eqn:A; [|discriminate]. apply IH in G; [exact G|]. eapply further; [exact R|].
  assert (Sp : ts = firstn i ts ++ t :: skipn (S i) ts).
  { clear - E. revert ts E. induction i as [|i IH]; intros [|x ts] E; try discriminate; cbn in E; [inversion E; reflexivity|]. cbn [firstn skipn app]. f_equal. apply IH. exact E. }
  rewrite Sp at 1. apply (move max p (firstn i ts) t (skipn (S i) ts) p1 t1 A).
Qed.
