(** Paths, prefixes, the canonical shape of a trie, and the ordered node database. *)
From Verif Require Import Base Trie_Model Trie_Spec.
From Coq Require Import Permutation.

Lemma path_eqb_spec : forall a b, reflect (a = b) (path_eqb a b).
Proof. intros a b. unfold path_eqb. destruct (list_eq_dec Bool.bool_dec a b); constructor; assumption. Qed.
Lemma path_eqb_refl : forall a, path_eqb a a = true.
Proof. intro a. destruct (path_eqb_spec a a); congruence. Qed.
Lemma path_eqb_neq : forall a b, a <> b -> path_eqb a b = false.
Proof. intros a b N. destruct (path_eqb_spec a b); congruence. Qed.

(** ** Prefixes *)
Lemma starts_with_firstn : forall p k, starts_with k p = true <-> firstn (length p) k = p.
Proof.
  induction p as [|x p IH]; intros k; [destruct k; simpl; tauto|].
  destruct k as [|y k]; simpl; [split; discriminate|].
  rewrite Bool.andb_true_iff, IH, Bool.eqb_true_iff. split; [intros [-> E]; rewrite E; reflexivity|intro E; inversion E; split; congruence].
Qed.
Lemma starts_with_nil : forall k, starts_with k [] = true. Proof. destruct k; reflexivity. Qed.
Lemma firstn_starts : forall j k, starts_with k (firstn j k) = true.
Proof. intros. apply starts_with_firstn. rewrite firstn_length. destruct (Nat.leb_spec j (length k)); [rewrite Nat.min_l by lia; reflexivity|]. rewrite Nat.min_r by lia. rewrite (firstn_all2 k (n:=j)) by lia. apply firstn_all. Qed.
Lemma starts_with_refl : forall k, starts_with k k = true.
Proof. intros. apply starts_with_firstn, firstn_all. Qed.
Lemma starts_with_length : forall k p, starts_with k p = true -> length p <= length k.
Proof. intros k p E. apply starts_with_firstn in E. rewrite <- E, firstn_length. lia. Qed.
Lemma starts_with_is_firstn : forall k p, starts_with k p = true -> exists j, j <= length k /\ length p = j /\ p = firstn j k.
Proof. intros k p E. exists (length p). pose proof (starts_with_length _ _ E). apply starts_with_firstn in E. auto. Qed.
Lemma starts_with_same : forall a k, length a = length k -> starts_with k a = true -> a = k.
Proof. intros a k L E. apply starts_with_firstn in E. rewrite L, firstn_all in E. congruence. Qed.
Lemma starts_with_trans : forall k p q, starts_with k p = true -> starts_with p q = true -> starts_with k q = true.
Proof.
  intros k p q A B. pose proof (starts_with_length _ _ B). apply starts_with_firstn in A, B. apply starts_with_firstn.
  rewrite <- B at 2. rewrite <- A. rewrite firstn_firstn. f_equal. lia.
Qed.
Lemma starts_with_snoc : forall k p b, starts_with k (p ++ [b]) = starts_with k p && (Nat.ltb (length p) (length k) && Bool.eqb b (nth (length p) k false)).
Proof.
  intros k p. revert k. induction p as [|x p IH]; intros k b; simpl.
  - destruct k as [|y k]; simpl; [reflexivity|]. rewrite starts_with_nil. destruct b, y; reflexivity.
  - destruct k as [|y k]; simpl; [reflexivity|]. rewrite IH. rewrite Bool.andb_assoc. f_equal.
Qed.
Lemma firstn_snoc : forall (k : path) j, j < length k -> firstn (S j) k = firstn j k ++ [nth j k false].
Proof. induction k as [|x k IH]; intros j Hj; simpl in Hj; [lia|]. destruct j; [destruct k; reflexivity|]. cbn [firstn app nth]. rewrite <- IH by lia. reflexivity. Qed.
Lemma removelast_firstn : forall (k : path) j, j < length k -> removelast (firstn (S j) k) = firstn j k.
Proof. intros. rewrite firstn_snoc by assumption. apply removelast_last. Qed.
Lemma firstn_len : forall (k : path) j, j <= length k -> length (firstn j k) = j.
Proof. intros. rewrite firstn_length. lia. Qed.
Lemma firstn_inj : forall (k : path) i j, i <= length k -> j <= length k -> firstn i k = firstn j k -> i = j.
Proof. intros k i j Hi Hj E. apply (f_equal (@length bool)) in E. rewrite !firstn_len in E by assumption. assumption. Qed.
Lemma path_snoc : forall p : path, p = [] \/ exists q b, p = q ++ [b].
Proof. intro p. destruct p as [|x p]; [left; reflexivity|]. right. exists (removelast (x :: p)), (last (x :: p) false). apply app_removelast_last. discriminate. Qed.

(** The place of a path relative to a key. *)
Lemma place : forall (k p : path),
  (exists j, j <= length k /\ p = firstn j k) \/
  (exists j b, j <= length k /\ p = firstn j k ++ [b] /\ starts_with k p = false) \/
  (exists q b, p = q ++ [b] /\ starts_with k q = false /\ starts_with k p = false).
Proof.
  intros k p. destruct (starts_with k p) eqn:E.
  - left. destruct (starts_with_is_firstn _ _ E) as [j [A [_ B]]]. eauto.
  - right. destruct (path_snoc p) as [->|[q [b ->]]]; [rewrite starts_with_nil in E; discriminate|].
    destruct (starts_with k q) eqn:Eq.
    + left. destruct (starts_with_is_firstn _ _ Eq) as [j [A [_ B]]]. exists j, b. subst q. auto.
    + right. exists q, b. auto.
Qed.
Lemma side_bit : forall k j b, j < length k -> starts_with k (firstn j k ++ [b]) = false -> b = negb (nth j k false).
Proof.
  intros k j b Hj E. rewrite starts_with_snoc, firstn_starts, firstn_len in E by lia.
  replace (Nat.ltb j (length k)) with true in E by (symmetry; apply Nat.ltb_lt; assumption).
  destruct b, (nth j k false); simpl in *; congruence.
Qed.

(** ** What lies under a path *)
Notation kv := (path * bytes)%type.
Definition U (d : list kv) (p : path) : list kv := filter (fun e : kv => starts_with (fst e) p) d.
Definition cnt (d : list kv) (p : path) : nat := length (U d p).
Definition keys_ok (d : list kv) : Prop := NoDup (map fst d) /\ Forall (fun e => length (fst e) = KEY_BITS) d.
Lemma U_nil : forall d, U d [] = d.
Proof. induction d as [|e d IH]; [reflexivity|]. unfold U. simpl. rewrite starts_with_nil. f_equal. apply IH. Qed.
Lemma U_In : forall d p e, In e (U d p) <-> In e d /\ starts_with (fst e) p = true.
Proof. intros. unfold U. apply filter_In. Qed.
Lemma filter_filter : forall A (f g : A -> bool) l, filter f (filter g l) = filter (fun x => g x && f x) l.
Proof. induction l as [|a l IH]; [reflexivity|]. simpl. destruct (g a); simpl; [destruct (f a)|]; rewrite IH; reflexivity. Qed.
Lemma filter_ext_in' : forall A (f g : A -> bool) l, (forall x, In x l -> f x = g x) -> filter f l = filter g l.
Proof. induction l as [|a l IH]; intros E; [reflexivity|]. simpl. rewrite (E a) by (left; reflexivity). rewrite IH by (intros; apply E; right; assumption). reflexivity. Qed.
Lemma U_U : forall d p q, starts_with q p = true -> U (U d p) q = U d q.
Proof.
  intros d p q E. unfold U. rewrite filter_filter. apply filter_ext_in'. intros x _.
  destruct (starts_with (fst x) q) eqn:Eq; [|apply Bool.andb_false_r]. rewrite (starts_with_trans _ _ _ Eq E). reflexivity.
Qed.
Lemma filter_length_le : forall A (f : A -> bool) l, length (filter f l) <= length l.
Proof. induction l as [|a l IH]; simpl; [lia|]. destruct (f a); simpl; lia. Qed.
Lemma cnt_mono : forall d p q, starts_with q p = true -> cnt d q <= cnt d p.
Proof. intros. unfold cnt. rewrite <- (U_U d p q) by assumption. apply filter_length_le. Qed.
Lemma cnt_firstn : forall d (k : path) i j, i <= j -> cnt d (firstn j k) <= cnt d (firstn i k).
Proof. intros. apply cnt_mono. replace (firstn i k) with (firstn i (firstn j k)). apply firstn_starts. rewrite firstn_firstn. f_equal. lia. Qed.
Lemma cnt_split : forall d p, keys_ok d -> length p < KEY_BITS -> cnt d p = cnt d (p ++ [false]) + cnt d (p ++ [true]).
Proof.
  intros d p [_ Hl] Hp. unfold cnt. induction Hl as [|e d He Hl IH]; [reflexivity|].
  unfold U in *. simpl. rewrite !starts_with_snoc, He. replace (Nat.ltb (length p) KEY_BITS) with true by (symmetry; apply Nat.ltb_lt; assumption).
  destruct (starts_with (fst e) p), (nth (length p) (fst e) false); simpl; lia.
Qed.
Lemma NoDup_filter' : forall A (f : A -> bool) l, NoDup l -> NoDup (filter f l).
Proof. induction 1; simpl; [constructor|]. destruct (f x); [constructor; [rewrite filter_In; tauto|assumption]|assumption]. Qed.
Lemma NoDup_map_filter : forall A B (g : A -> B) (f : A -> bool) l, NoDup (map g l) -> NoDup (map g (filter f l)).
Proof.
  induction l as [|a l IH]; simpl; intros N; [constructor|]. inversion N; subst. destruct (f a); simpl; [|auto].
  constructor; [|auto]. intro X. apply H1. apply in_map_iff in X. destruct X as [y [E Y]]. apply filter_In in Y. apply in_map_iff. exists y. tauto.
Qed.
Lemma U_full : forall d k, keys_ok d -> length k = KEY_BITS -> cnt d k <= 1.
Proof.
  intros d k [N L] Hk. unfold cnt.
  assert (A : forall e, In e (U d k) -> fst e = k).
  { intros e He. apply U_In in He. destruct He as [He Es]. rewrite Forall_forall in L. symmetry. apply starts_with_same; [rewrite L; auto|assumption]. }
  assert (Nu : NoDup (map fst (U d k))) by (apply NoDup_map_filter; assumption).
  destruct (U d k) as [|x [|y u]]; simpl; [lia|lia|]. exfalso. inversion Nu as [|? ? Nx]; subst. apply Nx. simpl. left.
  rewrite (A x), (A y) by (simpl; auto). reflexivity.
Qed.
Lemma cnt_two_short : forall d p, keys_ok d -> 2 <= cnt d p -> length p < KEY_BITS.
Proof.
  intros d p K C. destruct (Nat.ltb_spec (length p) KEY_BITS) as [L|L]; [assumption|]. exfalso.
  unfold cnt in C. destruct (U d p) as [|e u] eqn:E; [simpl in C; lia|].
  assert (In e (U d p)) as He by (rewrite E; left; reflexivity). apply U_In in He. destruct He as [He Es].
  pose proof (starts_with_length _ _ Es). destruct K as [N Lk]. assert (length (fst e) = KEY_BITS) by (rewrite Forall_forall in Lk; apply Lk; assumption).
  assert (length p = KEY_BITS) by lia. pose proof (U_full d p (conj N Lk) H1). unfold cnt in H2. rewrite E in H2. lia.
Qed.
Lemma keys_unique : forall d k v w, keys_ok d -> In (k, v) d -> In (k, w) d -> v = w.
Proof.
  intros d k v w [N _]. induction d as [|[a b] d IH]; intros A B; [destruct A|]. simpl in N. inversion N; subst.
  destruct A as [A|A], B as [B|B].
  - congruence.
  - inversion A; subst. exfalso. apply H1. apply in_map_iff. exists (k, w). auto.
  - inversion B; subst. exfalso. apply H1. apply in_map_iff. exists (k, v). auto.
  - auto.
Qed.
Lemma U_Permutation : forall d d' p, Permutation d d' -> Permutation (U d p) (U d' p).
Proof.
  intros d d' p P. induction P; unfold U in *; simpl.
  - constructor.
  - destruct (starts_with (fst x) p); [apply perm_skip|]; assumption.
  - destruct (starts_with (fst x) p), (starts_with (fst y) p); try reflexivity. apply perm_swap.
  - etransitivity; eassumption.
Qed.

(** ** The canonical shape *)
Inductive kind := KNone | KLeaf (l : leaf) | KBranch.
Definition kindv (o : option node) : kind := match o with None => KNone | Some (NLeaf l) => KLeaf l | Some (NBranch _) => KBranch end.
Definition opn (d : list kv) (p : path) : bool := match p with [] => true | _ => Nat.leb 2 (cnt d (removelast p)) end.

Section Shape.
  Context (H : bytes -> bytes).
  Definition the_leaf (e : kv) : leaf := fst (entry_leaf H (fst e) (snd e)).
  Definition kind_of (u : list kv) : kind := match u with [] => KNone | [e] => KLeaf (the_leaf e) | _ => KBranch end.
  Definition K (d : list kv) (p : path) : kind := if opn d p then kind_of (U d p) else KNone.
  Lemma the_leaf_key : forall e, lf_key (the_leaf e) = fst e.
  Proof. intros [k v]. unfold the_leaf, entry_leaf. cbn [fst snd]. destruct (Nat.ltb 32 (length v)); reflexivity. Qed.
  Lemma K_nil : forall d, K d [] = kind_of d.
  Proof. intros. unfold K. simpl. rewrite U_nil. reflexivity. Qed.
  Lemma K_snoc : forall d p b, K d (p ++ [b]) = if Nat.leb 2 (cnt d p) then kind_of (U d (p ++ [b])) else KNone.
  Proof.
    intros. unfold K. replace (opn d (p ++ [b])) with (Nat.leb 2 (cnt d p)); [reflexivity|].
    unfold opn. destruct (p ++ [b]) eqn:E; [destruct p; discriminate|]. rewrite <- E, removelast_last. reflexivity.
  Qed.
  Lemma kind_of_two : forall u, 2 <= length u -> kind_of u = KBranch.
  Proof. intros [|a [|b u]] L; simpl in *; [lia|lia|reflexivity]. Qed.
  Lemma kind_of_none : forall u, kind_of u = KNone -> u = [].
  Proof. intros [|a [|b u]] E; simpl in E; [reflexivity|discriminate|discriminate]. Qed.
  Lemma kind_of_leaf : forall u l, kind_of u = KLeaf l -> exists e, u = [e] /\ l = the_leaf e.
  Proof. intros [|a [|b u]] l E; simpl in E; try discriminate. inversion E. eauto. Qed.
  Lemma kind_of_branch : forall u, kind_of u = KBranch -> 2 <= length u.
  Proof. intros [|a [|b u]] E; simpl in *; try discriminate. lia. Qed.
  Lemma K_branch : forall d p, K d p = KBranch -> 2 <= cnt d p.
  Proof. intros d p. unfold K. destruct (opn d p); [apply kind_of_branch|discriminate]. Qed.
  Lemma K_leaf : forall d p l, K d p = KLeaf l -> opn d p = true /\ exists e, U d p = [e] /\ l = the_leaf e.
  Proof. intros d p l. unfold K. destruct (opn d p); [|discriminate]. intro E. split; [reflexivity|]. apply kind_of_leaf. assumption. Qed.
  Lemma opn_firstn : forall d (k : path) j, j <= length k -> opn d (firstn j k) = match j with O => true | S i => Nat.leb 2 (cnt d (firstn i k)) end.
  Proof.
    intros d k j Hj. destruct j as [|i]; [reflexivity|]. unfold opn.
    destruct (firstn (S i) k) eqn:E. { apply (f_equal (@length bool)) in E. rewrite firstn_len in E by assumption. discriminate. }
    rewrite <- E, removelast_firstn by lia. reflexivity.
  Qed.
  (** Two keys under a path: it holds a branch. *)
  Lemma opn_two : forall d p, 2 <= cnt d p -> opn d p = true.
  Proof.
    intros d p C. destruct (path_snoc p) as [->|[q [b ->]]]; [reflexivity|].
    unfold opn. destruct (q ++ [b]) eqn:E; [destruct q; discriminate|]. rewrite <- E, removelast_last. rewrite <- E in C.
    apply Nat.leb_le. etransitivity; [exact C|]. apply cnt_mono. apply starts_with_firstn. rewrite firstn_app, firstn_all, Nat.sub_diag. simpl. apply app_nil_r.
  Qed.
  Lemma K_two : forall d p, 2 <= cnt d p -> K d p = KBranch.
  Proof. intros d p C. unfold K. rewrite opn_two by assumption. apply kind_of_two. assumption. Qed.
  Lemma K_firstn_up : forall d (k : path) j i, j <= length k -> i < j -> K d (firstn j k) <> KNone -> K d (firstn i k) = KBranch.
  Proof.
    intros d k j i Hj Hi N. apply K_two. unfold K in N. destruct (opn d (firstn j k)) eqn:O; [|congruence].
    rewrite opn_firstn in O by assumption. destruct j as [|j]; [lia|]. apply Nat.leb_le in O.
    etransitivity; [exact O|]. apply cnt_firstn. lia.
  Qed.
  Lemma K_down : forall d p q, starts_with q p = true -> length p < length q -> cnt d p <= 1 -> K d q = KNone.
  Proof.
    intros d p q E L C. unfold K. replace (opn d q) with false; [reflexivity|].
    destruct (path_snoc q) as [->|[r [b ->]]]; [simpl in L; lia|].
    unfold opn. destruct (r ++ [b]) eqn:Eq; [destruct r; discriminate|]. rewrite <- Eq in *. rewrite removelast_last.
    symmetry. apply Nat.leb_gt. enough (cnt d r <= cnt d p) by lia. apply cnt_mono.
    rewrite app_length in L. simpl in L. apply starts_with_firstn in E. rewrite firstn_app in E.
    replace (length p - length r) with 0 in E by lia. simpl in E. rewrite app_nil_r in E. apply starts_with_firstn. assumption.
  Qed.
  Lemma K_Permutation : forall d d' p, Permutation d d' -> K d p = K d' p.
  Proof.
    intros d d' p P. unfold K.
    assert (C : forall q, cnt d q = cnt d' q) by (intro; apply Permutation_length, U_Permutation; assumption).
    assert (O : opn d p = opn d' p). { unfold opn. destruct p; [reflexivity|]. rewrite C. reflexivity. }
    rewrite O. destruct (opn d' p); [|reflexivity]. pose proof (U_Permutation d d' p P) as Pu.
    destruct (U d p) as [|a [|b u]] eqn:E.
    - apply Permutation_nil in Pu. rewrite Pu. reflexivity.
    - apply Permutation_length_1_inv in Pu. rewrite Pu. reflexivity.
    - apply Permutation_length in Pu. destruct (U d' p) as [|a' [|b' u']]; simpl in Pu; try discriminate. reflexivity.
  Qed.

  (** ** Changing one key *)
  Definition del (k : path) (d : list kv) : list kv := filter (fun e : kv => negb (path_eqb (fst e) k)) d.
  Lemma U_cons : forall e d p, U (e :: d) p = if starts_with (fst e) p then e :: U d p else U d p.
  Proof. intros. reflexivity. Qed.
  Lemma U_del : forall k d p, U (del k d) p = del k (U d p).
  Proof. intros. unfold U, del. rewrite !filter_filter. apply filter_ext_in'. intros x _. apply Bool.andb_comm. Qed.
  Lemma del_notin : forall k d, ~ In k (map fst d) -> del k d = d.
  Proof.
    induction d as [|e d IH]; intros N; [reflexivity|]. simpl in *. destruct (path_eqb_spec (fst e) k) as [E|E]; [tauto|]. simpl. f_equal. apply IH. tauto.
  Qed.
  Lemma U_del_other : forall k d p, starts_with k p = false -> U (del k d) p = U d p.
  Proof.
    intros k d p E. rewrite U_del. apply del_notin. intro X. apply in_map_iff in X. destruct X as [e [<- Y]]. apply U_In in Y. destruct Y. congruence.
  Qed.
  Lemma del_length : forall k (d : list kv), NoDup (map fst d) -> In k (map fst d) -> S (length (del k d)) = length d.
  Proof.
    induction d as [|e d IH]; simpl; intros N I; [destruct I|]. inversion N; subst.
    destruct (path_eqb_spec (fst e) k) as [E|E]; simpl.
    - fold (del k d). rewrite del_notin by congruence. reflexivity.
    - destruct I as [I|I]; [congruence|]. fold (del k d). rewrite IH by assumption. reflexivity.
  Qed.
  Lemma cnt_del : forall k d p, keys_ok d -> In k (map fst d) -> starts_with k p = true -> S (cnt (del k d) p) = cnt d p.
  Proof.
    intros k d p [N _] I E. unfold cnt. rewrite U_del. apply del_length.
    - apply NoDup_map_filter. assumption.
    - apply in_map_iff in I. destruct I as [e [<- Y]]. apply in_map. apply U_In. auto.
  Qed.
  Lemma cnt_del_other : forall k d p, starts_with k p = false -> cnt (del k d) p = cnt d p.
  Proof. intros. unfold cnt. rewrite U_del_other by assumption. reflexivity. Qed.
  Lemma keys_ok_del : forall k d, keys_ok d -> keys_ok (del k d).
  Proof.
    intros k d [N L]. split; [apply NoDup_map_filter; assumption|]. apply Forall_forall. intros e He. apply filter_In in He. rewrite Forall_forall in L. apply L. tauto.
  Qed.
  Lemma del_In : forall k d e, In e (del k d) <-> In e d /\ fst e <> k.
  Proof. intros. unfold del. rewrite filter_In. destruct (path_eqb_spec (fst e) k); simpl; intuition congruence. Qed.
  Lemma keys_ok_cons : forall k v d, keys_ok d -> length k = KEY_BITS -> ~ In k (map fst d) -> keys_ok ((k, v) :: d).
  Proof. intros k v d [N L] Lk I. split; [simpl; constructor; assumption|constructor; assumption]. Qed.
  Lemma K_other : forall d d' k p b, (forall q, starts_with k q = false -> U d' q = U d q) -> starts_with k p = false -> starts_with k (p ++ [b]) = false ->
    K d' (p ++ [b]) = K d (p ++ [b]).
  Proof. intros d d' k p b E A B. rewrite !K_snoc. unfold cnt. rewrite !E by assumption. reflexivity. Qed.
  Lemma K_side : forall d d' k j b, (forall q, starts_with k q = false -> U d' q = U d q) -> starts_with k (firstn j k ++ [b]) = false ->
    Nat.leb 2 (cnt d' (firstn j k)) = Nat.leb 2 (cnt d (firstn j k)) -> K d' (firstn j k ++ [b]) = K d (firstn j k ++ [b]).
  Proof. intros d d' k j b E A B. rewrite !K_snoc, B, E by assumption. reflexivity. Qed.
End Shape.

(** ** Paths to the root, children, siblings *)
Lemma paths_from_In : forall p n x, In x (paths_from n p) <-> exists j, j <= n /\ x = firstn j p.
Proof.
  induction n as [|n IH]; intros x; cbn [paths_from In].
  - split; [intros [<-|[]]; exists 0; auto|intros [j [L E]]; left; destruct j; [exact (eq_sym E)|lia]].
  - rewrite IH. split.
    + intros [<-|[j [L E]]]; [exists (S n); split; [lia|reflexivity]|exists j; split; [lia|assumption]].
    + intros [j [L E]]. destruct (Nat.eq_dec j (S n)) as [->|]; [left; congruence|right; exists j; split; [lia|assumption]].
Qed.
Lemma all_paths_In : forall p x, In x (all_paths_to_root p) <-> exists j, j <= length p /\ x = firstn j p.
Proof. intros. apply paths_from_In. Qed.
Lemma sibling_snoc : forall p b, sibling (p ++ [b]) = Some (p ++ [negb b]).
Proof. intros. unfold sibling. destruct (p ++ [b]) eqn:E; [destruct p; discriminate|]. rewrite <- E, removelast_last, last_last. reflexivity. Qed.

(** ** The order of database keys *)
Lemma bytes_ltb_irrefl : forall a, bytes_ltb a a = false.
Proof. induction a as [|x a IH]; [reflexivity|]. simpl. rewrite N.ltb_irrefl, N.eqb_refl, IH. reflexivity. Qed.
Lemma bytes_ltb_trans : forall a b c, bytes_ltb a b = true -> bytes_ltb b c = true -> bytes_ltb a c = true.
Proof.
  induction a as [|x a IH]; intros [|y b] [|z c]; simpl; try discriminate; try reflexivity.
  rewrite !Bool.orb_true_iff, !Bool.andb_true_iff, !N.ltb_lt, !N.eqb_eq. intros [A|[A A']] [B|[B B']]; subst; try (left; lia).
  right. split; [reflexivity|]. eapply IH; eassumption.
Qed.
Lemma bytes_ltb_total : forall a b, a <> b -> bytes_ltb a b = false -> bytes_ltb b a = true.
Proof.
  induction a as [|x a IH]; intros [|y b] N; simpl; try discriminate; try congruence.
  rewrite Bool.orb_false_iff, Bool.andb_false_iff, N.ltb_ge, N.eqb_neq. intros [A B].
  rewrite Bool.orb_true_iff, Bool.andb_true_iff, N.ltb_lt, N.eqb_eq. destruct (N.eq_dec x y) as [->|].
  - right. split; [reflexivity|]. apply IH; [congruence|]. destruct B; [congruence|assumption].
  - left. lia.
Qed.
Lemma db_key_inj : forall a b, db_key a = db_key b -> a = b.
Proof. induction a as [|x a IH]; intros [|y b] E; try discriminate; [reflexivity|]. simpl in E. inversion E. f_equal; [destruct x, y; congruence|auto]. Qed.
Definition plt (a b : path) : Prop := bytes_ltb (db_key a) (db_key b) = true.
Lemma plt_trans : forall a b c, plt a b -> plt b c -> plt a c. Proof. intros a b c. apply bytes_ltb_trans. Qed.
Lemma plt_total : forall a b, a <> b -> bytes_ltb (db_key a) (db_key b) = false -> plt b a.
Proof. intros a b N E. apply bytes_ltb_total; [|assumption]. intro X. apply N, db_key_inj, X. Qed.
Lemma plt_neq : forall a b, plt a b -> a <> b.
Proof. intros a b P ->. unfold plt in P. rewrite bytes_ltb_irrefl in P. discriminate. Qed.
Lemma plt_prefix : forall p t, t <> [] -> plt p (p ++ t).
Proof. unfold plt. induction p as [|x p IH]; intros t N; simpl; [destruct t; [congruence|reflexivity]|]. rewrite N.eqb_refl, IH by assumption. apply Bool.orb_true_r. Qed.
Lemma plt_firstn : forall (k : path) i j, j <= length k -> i < j -> plt (firstn i k) (firstn j k).
Proof.
  intros k i j Hj Hi. rewrite <- (firstn_skipn i (firstn j k)). rewrite firstn_firstn, Nat.min_l by lia. apply plt_prefix.
  intro E. apply (f_equal (@length bool)) in E. rewrite skipn_length, firstn_len in E by assumption. simpl in E. lia.
Qed.
Lemma prefix_not_gt : forall (k q : path), starts_with k q = true -> bytes_ltb (db_key k) (db_key q) = false.
Proof.
  intros k q E. destruct (starts_with_is_firstn _ _ E) as [j [A [_ ->]]]. destruct (bytes_ltb (db_key k) (db_key (firstn j k))) eqn:X; [|reflexivity]. exfalso.
  destruct (Nat.eq_dec j (length k)) as [->|]. { rewrite firstn_all, bytes_ltb_irrefl in X. discriminate. }
  pose proof (plt_firstn k j (length k) (le_n _) ltac:(lia)) as P. rewrite firstn_all in P. pose proof (plt_trans _ _ _ P X) as Y. apply plt_neq in Y. congruence.
Qed.

(** ** The ordered database *)
Inductive sorted : odb -> Prop :=
  | sorted_nil : sorted []
  | sorted_cons : forall p n d, Forall (fun e => plt p (fst e)) d -> sorted d -> sorted ((p, n) :: d).
Lemma oget_In : forall d p n, oget d p = Some n -> In (p, n) d.
Proof. induction d as [|[q x] d IH]; intros p n E; simpl in E; [discriminate|]. destruct (path_eqb_spec q p) as [->|]; [inversion E; left; reflexivity|right; auto]. Qed.
Lemma In_oget : forall d p n, In (p, n) d -> oget d p <> None.
Proof. induction d as [|[q x] d IH]; intros p n I; simpl; [destruct I|]. destruct (path_eqb_spec q p); [discriminate|]. destruct I as [I|I]; [congruence|eauto]. Qed.
Lemma oput_get : forall d p n x, oget (oput d p n) x = if path_eqb p x then Some n else oget d x.
Proof.
  induction d as [|[q y] d IH]; intros p n x; simpl; [reflexivity|].
  destruct (path_eqb_spec q p) as [->|Nqp]; simpl.
  - destruct (path_eqb_spec p x); reflexivity.
  - destruct (bytes_ltb (db_key p) (db_key q)); simpl; [reflexivity|].
    rewrite IH. destruct (path_eqb_spec q x) as [->|]; [|reflexivity]. rewrite (path_eqb_neq p x) by congruence. reflexivity.
Qed.
Lemma oput_fst : forall d p n e, In e (oput d p n) -> e = (p, n) \/ In e d.
Proof.
  induction d as [|[q y] d IH]; intros p n e I; simpl in I; [destruct I as [<-|[]]; auto|].
  destruct (path_eqb_spec q p); [destruct I as [<-|I]; [auto|right; right; assumption]|].
  destruct (bytes_ltb (db_key p) (db_key q)); [destruct I as [<-|I]; auto|].
  destruct I as [<-|I]; [right; left; reflexivity|]. apply IH in I. destruct I; [auto|right; right; assumption].
Qed.
Lemma oput_sorted : forall d p n, sorted d -> sorted (oput d p n).
Proof.
  intros d p n S. induction S as [|q y d F S IH]; simpl; [constructor; constructor|].
  destruct (path_eqb_spec q p) as [->|N]; [constructor; assumption|].
  destruct (bytes_ltb (db_key p) (db_key q)) eqn:E.
  - constructor; [|constructor; assumption]. constructor; [exact E|]. rewrite Forall_forall in *. intros e He. eapply plt_trans; [exact E|apply F, He].
  - constructor; [|assumption]. rewrite Forall_forall in *. intros e He. apply oput_fst in He. destruct He as [->|He]; [simpl; apply plt_total; auto|apply F, He].
Qed.
Lemma odel_get : forall d p x, oget (odel d p) x = if path_eqb p x then None else oget d x.
Proof.
  induction d as [|[q y] d IH]; intros p x; simpl; [destruct (path_eqb p x); reflexivity|].
  destruct (path_eqb_spec q p) as [->|]; simpl; rewrite IH; destruct (path_eqb_spec p x) as [->|]; try reflexivity.
  rewrite (path_eqb_neq q x) by congruence. reflexivity.
Qed.
Lemma odel_sorted : forall d p, sorted d -> sorted (odel d p).
Proof.
  intros d p S. induction S as [|q y d F S IH]; simpl; [constructor|]. destruct (path_eqb q p); simpl; [assumption|].
  constructor; [|assumption]. rewrite Forall_forall in *. intros e He. apply filter_In in He. apply F. tauto.
Qed.
Lemma write_nodes_sorted : forall ws d, sorted d -> sorted (write_nodes d ws).
Proof. induction ws as [|[p [n|]] ws IH]; intros d S; simpl; [assumption| |]; apply IH; [apply oput_sorted|apply odel_sorted]; assumption. Qed.
Lemma write_nodes_get : forall ws d x, NoDup (map fst ws) ->
  oget (write_nodes d ws) x = match find (fun e => path_eqb (fst e) x) ws with Some e => snd e | None => oget d x end.
Proof.
  induction ws as [|[p w] ws IH]; intros d x N; [reflexivity|]. simpl in N. inversion N; subst. simpl fold_left.
  change (write_nodes d ((p, w) :: ws)) with (write_nodes (match w with Some n => oput d p n | None => odel d p end) ws).
  rewrite IH by assumption. simpl find. destruct (path_eqb_spec p x) as [->|Np].
  - destruct (find (fun e => path_eqb (fst e) x) ws) as [e|] eqn:F.
    + apply find_some in F. destruct F as [I E]. destruct (path_eqb_spec (fst e) x); [|discriminate]. exfalso. apply H1. apply in_map_iff. eauto.
    + destruct w; [rewrite oput_get|rewrite odel_get]; rewrite path_eqb_refl; reflexivity.
  - destruct (find (fun e => path_eqb (fst e) x) ws); [reflexivity|]. destruct w; [rewrite oput_get|rewrite odel_get]; rewrite path_eqb_neq by assumption; reflexivity.
Qed.
Lemma sorted_filter : forall f d, sorted d -> sorted (filter f d).
Proof.
  intros f d S. induction S as [|p n d F S IH]; simpl; [constructor|]. destruct (f (p, n)); [|assumption].
  constructor; [|assumption]. rewrite Forall_forall in *. intros e He. apply filter_In in He. apply F. tauto.
Qed.
(** The scan finds the longest prefix among the entries. *)
Lemma scan_spec : forall d k best, sorted d ->
  (scan d k best = best \/ (starts_with k (scan d k best) = true /\ exists n, In (scan d k best, n) d)) /\
  (forall q n, In (q, n) d -> starts_with k q = true -> length q <= length (scan d k best)).
Proof.
  intros d k best S. revert best. induction S as [|p n d F S IH]; intros best; simpl.
  - split; [auto|intros q n []].
  - destruct (bytes_ltb (db_key k) (db_key p)) eqn:E.
    + split; [auto|]. intros q m I Q. exfalso. pose proof (prefix_not_gt _ _ Q) as X. destruct I as [I|I].
      * inversion I; subst. congruence.
      * rewrite Forall_forall in F. pose proof (F _ I) as P. simpl in P. assert (plt k q) by (eapply plt_trans; [exact E|exact P]). unfold plt in H. congruence.
    + destruct (IH (if starts_with k p then p else best)) as [A B]. destruct (starts_with k p) eqn:Sp.
      * split.
        -- right. destruct A as [->|[A1 [m A2]]]; [split; [assumption|exists n; left; reflexivity]|split; [assumption|exists m; right; assumption]].
        -- intros q m I Q. destruct I as [I|I]; [|eapply B; eassumption]. inversion I; subst.
           destruct A as [->|[A1 [m' A2]]]; [lia|]. rewrite Forall_forall in F. pose proof (F _ A2) as P. simpl in P.
           destruct (Nat.leb_spec (length q) (length (scan d k q))) as [L|L]; [assumption|exfalso].
           destruct (starts_with_is_firstn _ _ Q) as [j [J1 [J2 J3]]]. destruct (starts_with_is_firstn _ _ A1) as [i [I1 [I2 I3]]].
           assert (plt (scan d k q) q). { rewrite J3 at 2. rewrite I3. apply plt_firstn; lia. }
           pose proof (plt_trans _ _ _ P H) as X. apply plt_neq in X. congruence.
      * split.
        -- destruct A as [->|[A1 [m A2]]]; [auto|right; split; [assumption|exists m; right; assumption]].
        -- intros q m I Q. destruct I as [I|I]; [inversion I; subst; congruence|eapply B; eassumption].
Qed.
Lemma db_longest_prefix_spec : forall d k, sorted d -> let r := db_longest_prefix d k in
  starts_with k r = true /\ (r = [] \/ oget d r <> None) /\ forall q, starts_with k q = true -> oget d q <> None -> length q <= length r.
Proof.
  intros d k S r. unfold r, db_longest_prefix. set (f := filter _ d).
  assert (Sf : sorted f) by (apply sorted_filter; assumption).
  destruct (scan_spec f k [] Sf) as [A B].
  assert (I : forall p n, In (p, n) f -> In (p, n) d) by (intros p n X; apply filter_In in X; tauto).
  split; [|split].
  - destruct A as [->|[A _]]; [apply starts_with_nil|assumption].
  - destruct A as [->|[_ [n A]]]; [auto|right]. eapply In_oget. apply I. exact A.
  - intros q Q G. destruct (oget d q) as [n|] eqn:E; [|congruence]. apply oget_In in E.
    destruct q as [|x q']; [simpl; lia|]. apply (B (x :: q') n); [|assumption]. apply filter_In. split; [assumption|]. cbn [fst].
    assert (starts_with (x :: q') (firstn 1 k) = true). { destruct k as [|y k']; [reflexivity|]. simpl in Q. apply Bool.andb_true_iff in Q. destruct Q as [Q _]. simpl. destruct x, y; simpl in *; try discriminate; destruct q'; reflexivity. }
    rewrite (prefix_not_gt _ _ H). reflexivity.
Qed.
