(** The trie manager keeps the canonical shape, and its hashes are those of the specification. *)
From Verif Require Import Base Trie_Model Trie_Spec TrieCodec_Proofs TrieShape_Proofs.
From Coq Require Import Permutation.

(** ** Association lists *)
Lemma aget_cons : forall A (m : amap A) p w x, aget ((p, w) :: m) x = if path_eqb p x then Some w else aget m x.
Proof. intros. unfold aget. simpl. destruct (path_eqb p x); reflexivity. Qed.
Lemma aget_app : forall A (a b : amap A) x, aget (a ++ b) x = match aget a x with Some w => Some w | None => aget b x end.
Proof. induction a as [|[p w] a IH]; intros b x; [reflexivity|]. cbn [app]. rewrite !aget_cons, IH. destruct (path_eqb p x); reflexivity. Qed.
Lemma aget_In : forall A (a : amap A) x, aget a x <> None <-> In x (map fst a).
Proof.
  induction a as [|[p w] a IH]; intros x; [split; [unfold aget; simpl; congruence|intros []]|]. rewrite aget_cons. simpl. destruct (path_eqb_spec p x) as [->|N].
  - split; [auto|discriminate].
  - rewrite IH. intuition congruence.
Qed.

(** ** The longest prefix *)
Lemma longest_spec : forall cs cands acc,
  let r := fold_left (fun lcp c => if Nat.ltb (length lcp) (length c) then match aget cs c with Some None => lcp | _ => c end else lcp) cands acc in
  (r = acc \/ (In r cands /\ aget cs r <> Some (@None node))) /\ length acc <= length r /\ forall c, In c cands -> aget cs c <> Some None -> length c <= length r.
Proof.
  intros cs. induction cands as [|c cands IH]; intros acc; cbn [fold_left].
  - split; [auto|split; [lia|intros c []]].
  - set (acc' := if Nat.ltb _ _ then _ else _). destruct (IH acc') as [A [B C]].
    assert (E : (acc' = acc \/ (acc' = c /\ aget cs c <> Some None)) /\ length acc <= length acc' /\ (aget cs c <> Some None -> length c <= length acc')).
    { unfold acc'. destruct (Nat.ltb_spec (length acc) (length c)) as [L|L].
      - destruct (aget cs c) as [[n|]|].
        + split; [right; split; [reflexivity|discriminate]|]. split; [lia|intro; lia].
        + split; [auto|]. split; [lia|congruence].
        + split; [right; split; [reflexivity|discriminate]|]. split; [lia|intro; lia].
      - split; [auto|]. split; [lia|intro; lia]. }
    destruct E as [E1 [E2 E3]]. split; [|split].
    + destruct A as [A|[A1 A2]]; [|right; split; [right; assumption|assumption]]. rewrite A. destruct E1 as [->|[-> E]]; [auto|right; split; [left; reflexivity|assumption]].
    + lia.
    + intros x [<-|I] N; [apply E3 in N; lia|auto].
Qed.
(** The order of the candidates does not matter: they are prefixes of one key. *)
Lemma longest_order : forall cs k a b, Forall (fun p => starts_with k p = true) a -> (forall x, In x a <-> In x b) -> longest cs a = longest cs b.
Proof.
  intros cs k a b F E. unfold longest.
  destruct (longest_spec cs a []) as [A1 [A2 A3]]. destruct (longest_spec cs b []) as [B1 [B2 B3]].
  set (x := fold_left _ a []) in *. set (y := fold_left _ b []) in *. clearbody x y.
  assert (Sx : starts_with k x = true). { destruct A1 as [->|[I _]]; [apply starts_with_nil|]. rewrite Forall_forall in F. auto. }
  assert (Sy : starts_with k y = true). { destruct B1 as [->|[I _]]; [apply starts_with_nil|]. rewrite Forall_forall in F. apply F, E, I. }
  assert (L : length x = length y).
  { apply Nat.le_antisymm.
    - destruct A1 as [->|[I N]]; [simpl; lia|]. apply B3; [apply E; assumption|assumption].
    - destruct B1 as [->|[I N]]; [simpl; lia|]. apply A3; [apply E; assumption|assumption]. }
  apply starts_with_firstn in Sx, Sy. congruence.
Qed.

Section Trie.
  Context (H : bytes -> bytes).
  Notation hz := (hash_or_zero H).
  Definition linked (v : path -> option node) : Prop := forall p b, v p = Some (NBranch b) -> b = new_branch (hz (v (p ++ [false]))) (hz (v (p ++ [true]))).
  Definition cs (g : mgr) (p : path) : option (option node) := aget (g_nodes g) p.
  Definition db (g : mgr) (p : path) : option node := oget (d_nodes (g_db g)) p.
  (** The contents of a branch in the change set are right for the children that are not in the change set. *)
  Definition childok (g : mgr) (p : path) (b : branch) : Prop :=
    (cs g (p ++ [false]) = None -> br_left b = skipn 1 (bits (hz (db g (p ++ [false]))))) /\
    (cs g (p ++ [true]) = None -> br_right b = bits (hz (db g (p ++ [true])))).
  Record Inv (g : mgr) (d0 d : list kv) : Prop := mk_inv {
    i_d0 : keys_ok d0;
    i_d : keys_ok d;
    i_sorted : sorted (d_nodes (g_db g));
    i_db : forall p, kindv (db g p) = K H d0 p;
    i_link : linked (db g);
    i_view : forall p, kindv (get_node g p) = K H d p;
    i_lp : forall k, match get_leaf_path g k with Some p => exists l, get_node g p = Some (NLeaf l) /\ lf_key l = k | None => ~ In k (map fst d) end;
    i_aff : forall p, In p (g_aff g) -> cs g p <> None \/ exists b, get_node g p = Some (NBranch b);
    i_cs : forall p, cs g p <> None -> In p (g_aff g);
    i_up : forall p b, In (p ++ [b]) (g_aff g) -> In p (g_aff g);
    i_child : forall p b, cs g p = Some (Some (NBranch b)) -> childok g p b }.

  Lemma get_node_cs : forall g p, get_node g p = match cs g p with Some w => w | None => db g p end.
  Proof. reflexivity. Qed.
  Lemma kindv_branch : forall o, kindv o = KBranch -> exists b, o = Some (NBranch b).
  Proof. intros [[l|b]|] E; try discriminate. eauto. Qed.
  Lemma kindv_leaf : forall o l, kindv o = KLeaf l -> o = Some (NLeaf l).
  Proof. intros [[l'|b]|] l E; try discriminate. inversion E. reflexivity. Qed.
  Lemma kindv_none : forall o, kindv o = KNone -> o = None.
  Proof. intros [[l|b]|] E; try discriminate. reflexivity. Qed.

  (** ** One entry *)
  Lemma Inv_step : forall g g' d0 d d' ins lins extra,
    Inv g d0 d -> keys_ok d' ->
    g_db g' = g_db g -> g_nodes g' = ins ++ g_nodes g -> g_lpaths g' = lins ++ g_lpaths g -> g_aff g' = extra ++ g_aff g ->
    (forall x w, aget ins x = Some w -> kindv w = K H d' x) ->
    (forall x, aget ins x = None -> K H d' x = K H d x) ->
    (forall x, In x extra -> aget ins x <> None \/ K H d' x = KBranch) ->
    (forall x, aget ins x <> None -> In x extra) ->
    (forall p b, In (p ++ [b]) extra -> In p extra) ->
    (forall p b, aget ins p = Some (Some (NBranch b)) -> childok g' p b) ->
    (forall k, aget lins k = Some None -> ~ In k (map fst d')) ->
    (forall k p, aget lins k = Some (Some p) -> exists l, aget ins p = Some (Some (NLeaf l)) /\ lf_key l = k) ->
    (forall k, aget lins k = None -> (In k (map fst d') -> In k (map fst d)) /\
       (forall p l, K H d p = KLeaf l -> lf_key l = k -> aget ins p = None \/ exists l', aget ins p = Some (Some (NLeaf l')) /\ lf_key l' = k)) ->
    Inv g' d0 d'.
  Proof.
    intros g g' d0 d d' ins lins extra I Kd Edb En El Ea H1 H2 H3 H4 H5 H6 H7 H8 H9.
    assert (Ecs : forall x, cs g' x = match aget ins x with Some w => Some w | None => cs g x end) by (intro; unfold cs; rewrite En; apply aget_app).
    assert (Eget : forall x, get_node g' x = match aget ins x with Some w => w | None => get_node g x end).
    { intro x. rewrite !get_node_cs, Ecs. unfold db. rewrite Edb. destruct (aget ins x); reflexivity. }
    assert (Elp : forall k, get_leaf_path g' k = match aget lins k with Some w => w | None => get_leaf_path g k end).
    { intro k. unfold get_leaf_path. rewrite El, aget_app, Edb. destruct (aget lins k); reflexivity. }
    assert (Edb' : forall x, db g' x = db g x) by (intro; unfold db; rewrite Edb; reflexivity).
    constructor.
    - apply (i_d0 _ _ _ I).
    - assumption.
    - rewrite Edb. apply (i_sorted _ _ _ I).
    - intro p. rewrite Edb'. apply (i_db _ _ _ I).
    - intros p b E. rewrite !Edb' in *. apply (i_link _ _ _ I). assumption.
    - intro p. rewrite Eget. destruct (aget ins p) as [w|] eqn:E; [apply H1; assumption|]. rewrite H2 by assumption. apply (i_view _ _ _ I).
    - intro k. rewrite Elp. destruct (aget lins k) as [[p|]|] eqn:E.
      + destruct (H8 _ _ E) as [l [A B]]. exists l. rewrite Eget, A. auto.
      + apply H7. assumption.
      + destruct (H9 _ E) as [A B]. pose proof (i_lp _ _ _ I k) as L. destruct (get_leaf_path g k) as [p|].
        * destruct L as [l [L1 L2]]. pose proof (i_view _ _ _ I p) as V. rewrite L1 in V. symmetry in V. destruct (B p l V L2) as [N|[l' [N1 N2]]].
          -- exists l. rewrite Eget, N. auto.
          -- exists l'. rewrite Eget, N1. auto.
        * intro X. apply L, A, X.
    - intros p X. rewrite Ea in X. apply in_app_or in X. rewrite Ecs, Eget. destruct (aget ins p) as [w|] eqn:E; [left; discriminate|].
      destruct X as [X|X].
      + destruct (H3 _ X) as [Y|Y]; [congruence|]. right. apply kindv_branch. rewrite (i_view _ _ _ I). rewrite <- H2 by assumption. assumption.
      + apply (i_aff _ _ _ I). assumption.
    - intros p X. rewrite Ea. apply in_or_app. rewrite Ecs in X. destruct (aget ins p) eqn:E; [left; apply H4; congruence|right; apply (i_cs _ _ _ I); assumption].
    - intros p b X. rewrite Ea in *. apply in_or_app. apply in_app_or in X. destruct X as [X|X]; [left; eapply H5; eassumption|right; eapply (i_up _ _ _ I); eassumption].
    - intros p b X. rewrite Ecs in X. destruct (aget ins p) as [w|] eqn:E; [apply H6; congruence|].
      destruct (i_child _ _ _ I _ _ X) as [A B]. unfold childok. rewrite !Ecs, !Edb'. split; intro N.
      + destruct (aget ins (p ++ [false])); [discriminate|auto].
      + destruct (aget ins (p ++ [true])); [discriminate|auto].
  Qed.

  Lemma lcp_spec : forall g d0 d k, Inv g d0 d -> let r := find_longest_prefix g k in
    starts_with k r = true /\ (r = [] \/ get_node g r <> None) /\ forall q, starts_with k q = true -> get_node g q <> None -> length q <= length r.
  Proof.
    intros g d0 d k I r. unfold r, find_longest_prefix, longest.
    set (cands := _ ++ _). destruct (longest_spec (g_nodes g) cands []) as [A [_ B]]. set (x := fold_left _ cands []) in *. clearbody x.
    destruct (db_longest_prefix_spec (d_nodes (g_db g)) k (i_sorted _ _ _ I)) as [D1 [D2 D3]]. set (dl := db_longest_prefix _ _) in *.
    assert (C : forall c, In c cands -> starts_with k c = true).
    { intros c X. apply in_app_or in X. destruct X as [X|X]; [|apply filter_In in X; tauto].
      apply all_paths_In in X. destruct X as [j [L ->]]. eapply starts_with_trans; [exact D1|apply firstn_starts]. }
    split; [|split].
    - destruct A as [->|[A _]]; [apply starts_with_nil|auto].
    - destruct A as [->|[A N]]; [auto|]. rewrite get_node_cs. unfold cs. destruct (aget (g_nodes g) x) as [[n|]|] eqn:E; [right; discriminate|congruence|].
      apply in_app_or in A. destruct A as [A|A].
      + apply all_paths_In in A. destruct A as [j [L ->]]. destruct D2 as [D2|D2]; [rewrite D2; left; destruct j; reflexivity|]. right.
        destruct (Nat.eq_dec j (length dl)) as [->|Nj]. { unfold db. rewrite firstn_all. assumption. }
        intro X. pose proof (i_db _ _ _ I (firstn j dl)) as V. rewrite X in V. simpl in V.
        rewrite (K_firstn_up H d0 dl (length dl) j) in V; [discriminate|lia|lia|]. rewrite firstn_all. intro Y. rewrite <- (i_db _ _ _ I) in Y. apply D2. apply kindv_none in Y. assumption.
      + apply filter_In in A. destruct A as [A _]. apply aget_In in A. congruence.
    - intros q Q G. rewrite get_node_cs in G. unfold cs in G. destruct (aget (g_nodes g) q) as [w|] eqn:E.
      + apply B; [|congruence]. apply in_or_app. right. apply filter_In. split; [apply aget_In; congruence|assumption].
      + pose proof (D3 q Q G) as L. apply B; [|congruence]. apply in_or_app. left. apply all_paths_In. exists (length q). split; [assumption|].
        apply starts_with_firstn in Q. apply starts_with_firstn in D1. rewrite <- Q at 1. rewrite <- D1 at 1. rewrite firstn_firstn. f_equal. lia.
  Qed.

  (** What is known of a new key: the node at the longest prefix, and its branches above. *)
  Lemma get_none_K : forall g d0 d p, Inv g d0 d -> (get_node g p = None <-> K H d p = KNone).
  Proof. intros g d0 d p I. rewrite <- (i_view _ _ _ I p). split; [intros ->; reflexivity|apply kindv_none]. Qed.
  Lemma lcp_K : forall g d0 d k, Inv g d0 d -> let r := find_longest_prefix g k in exists n, n <= length k /\ r = firstn n k /\
    (r = [] \/ K H d r <> KNone) /\ forall j, n < j -> j <= length k -> K H d (firstn j k) = KNone.
  Proof.
    intros g d0 d k I r. destruct (lcp_spec g d0 d k I) as [A [B C]]. fold r in A, B, C.
    destruct (starts_with_is_firstn _ _ A) as [n [L [N E]]]. exists n. split; [assumption|]. split; [assumption|]. split.
    - destruct B as [B|B]; [auto|right]. intro X. apply B. apply (get_none_K g d0 d r I). assumption.
    - intros j Lj Hj. apply (get_none_K g d0 d _ I). destruct (get_node g (firstn j k)) eqn:G; [exfalso|reflexivity].
      assert (X : length (firstn j k) <= length r). { apply C; [apply firstn_starts|congruence]. } rewrite firstn_len in X by assumption. lia.
  Qed.
  Lemma starts_cons : forall k v d p, starts_with k p = false -> U ((k, v) :: d) p = U d p.
  Proof. intros. rewrite U_cons. cbn [fst]. rewrite H0. reflexivity. Qed.
  Lemma U_cons_firstn : forall (k : path) (v : bytes) d j, U ((k, v) :: d) (firstn j k) = (k, v) :: U d (firstn j k).
  Proof. intros. rewrite U_cons. cbn [fst]. rewrite firstn_starts. reflexivity. Qed.
  Lemma cnt_cons_firstn : forall (k : path) (v : bytes) d j, cnt ((k, v) :: d) (firstn j k) = S (cnt d (firstn j k)).
  Proof. intros. unfold cnt. rewrite U_cons_firstn. reflexivity. Qed.
  Lemma K_firstn : forall d (k : path) j, j <= length k ->
    K H d (firstn j k) = if match j with O => true | S i => Nat.leb 2 (cnt d (firstn i k)) end then kind_of H (U d (firstn j k)) else KNone.
  Proof. intros. unfold K. rewrite opn_firstn by assumption. reflexivity. Qed.
  Lemma keys_In : forall (d : list kv) k, In k (map fst d) <-> exists v, In (k, v) d.
  Proof. intros. rewrite in_map_iff. split; [intros [[a b] [E X]]; simpl in E; subst; eauto|intros [v X]; exists (k, v); auto]. Qed.
  Lemma side_neq : forall k j b i, i <= length k -> starts_with k (firstn j k ++ [b]) = false -> firstn j k ++ [b] <> firstn i k.
  Proof. intros k j b i Hi E X. rewrite X, firstn_starts in E. discriminate. Qed.

  Lemma opn_branch_two : forall d d' (k : path) v j i, j <= i -> 2 <= cnt d (firstn i k) -> d' = (k, v) :: d -> 2 <= cnt d (firstn j k) /\ 2 <= cnt d' (firstn j k).
  Proof. intros d d' k v j i L C ->. pose proof (cnt_firstn d k j i L). rewrite cnt_cons_firstn. lia. Qed.
  Lemma cnt_zero : forall d p, cnt d p = 0 <-> U d p = [].
  Proof. intros. unfold cnt. split; [apply length_zero_iff_nil|intros ->; reflexivity]. Qed.
  Lemma K_closed : forall d (k : path) i j, i < j -> j <= length k -> cnt d (firstn i k) <= 1 -> K H d (firstn j k) = KNone.
  Proof.
    intros d k i j L Hj C. apply (K_down H d (firstn i k) (firstn j k)); [|rewrite !firstn_len by lia; exact L|exact C].
    replace (firstn i k) with (firstn i (firstn j k)). apply firstn_starts. rewrite firstn_firstn. f_equal. lia.
  Qed.
  Lemma K_closed_side : forall d (k : path) i j b, i <= j -> j <= length k -> cnt d (firstn i k) <= 1 -> K H d (firstn j k ++ [b]) = KNone.
  Proof.
    intros d k i j b L Hj C. rewrite K_snoc. replace (Nat.leb 2 (cnt d (firstn j k))) with false; [reflexivity|].
    symmetry. apply Nat.leb_gt. pose proof (cnt_firstn d k i j L). lia.
  Qed.

  (** Adding below a branch. *)
  Lemma add_branch : forall d (k : path) v n, keys_ok d -> length k = KEY_BITS -> ~ In k (map fst d) -> n < KEY_BITS -> 2 <= cnt d (firstn n k) -> K H d (firstn (S n) k) = KNone ->
    K H ((k, v) :: d) (firstn (S n) k) = KLeaf (the_leaf H (k, v)) /\
    (forall x, x <> firstn (S n) k -> K H ((k, v) :: d) x = K H d x) /\ cnt d (firstn (S n) k) = 0.
  Proof.
    intros d k v n Kd Lk Nk Hn C2 N. set (d' := (k, v) :: d).
    assert (Z : cnt d (firstn (S n) k) = 0).
    { rewrite K_firstn in N by lia. replace (Nat.leb 2 (cnt d (firstn n k))) with true in N by (symmetry; apply Nat.leb_le; assumption).
      apply kind_of_none in N. apply cnt_zero. assumption. }
    split; [|split].
    - rewrite K_firstn by lia. unfold d' at 1. rewrite cnt_cons_firstn. replace (Nat.leb 2 (S (cnt d (firstn n k)))) with true by (symmetry; apply Nat.leb_le; lia).
      unfold d'. rewrite U_cons_firstn. apply cnt_zero in Z. rewrite Z. reflexivity.
    - intros x Nx. destruct (place k x) as [[j [Hj ->]]|[[j [b [Hj [-> Sd]]]]|[q [b [-> [S1 S2]]]]]].
      + destruct (Nat.leb_spec j n) as [L|L].
        * rewrite !K_two; [reflexivity| |].
          -- pose proof (cnt_firstn d k j n L). lia.
          -- unfold d'. rewrite cnt_cons_firstn. pose proof (cnt_firstn d k j n L). lia.
        * assert (S n < j) by (destruct (Nat.eq_dec j (S n)); [subst; congruence|lia]).
          rewrite !(K_closed _ k (S n) j); try lia; try reflexivity. unfold d'. rewrite cnt_cons_firstn. lia.
      + destruct (Nat.leb_spec j n) as [L|L].
        * apply K_side; [intros; apply starts_cons; assumption|assumption|]. pose proof (cnt_firstn d k j n L). unfold d'. rewrite cnt_cons_firstn.
          rewrite !(proj2 (Nat.leb_le _ _)); [reflexivity|lia|lia].
        * rewrite !(K_closed_side _ k (S n) j b); try lia; try reflexivity. unfold d'. rewrite cnt_cons_firstn. lia.
      + eapply K_other; [|exact S1|assumption]. intros q' Eq. apply starts_cons. assumption.
    - assumption.
  Qed.

  Lemma common_spec : forall a b : path, length a = length b -> a <> b ->
    let n := common a b in n < length a /\ firstn n a = firstn n b /\ nth n a false <> nth n b false.
  Proof.
    induction a as [|x a IH]; intros [|y b] L N; simpl in L; try discriminate; [congruence|]. cbn [common].
    destruct (Bool.eqb x y) eqn:E.
    - apply Bool.eqb_prop in E. subst y. destruct (IH b) as [A [B C]]; [lia|congruence|]. cbn. split; [lia|]. split; [rewrite B; reflexivity|assumption].
    - cbn. split; [lia|]. split; [reflexivity|]. intros ->. rewrite Bool.eqb_reflx in E. discriminate.
  Qed.
  (** Adding next to a leaf. *)
  Lemma add_leaf : forall d (k : path) v n s, keys_ok d -> length k = KEY_BITS -> ~ In k (map fst d) -> n <= length k -> K H d (firstn n k) = KLeaf (the_leaf H s) -> U d (firstn n k) = [s] ->
    let c := common (fst s) k in let d' := (k, v) :: d in
    c < KEY_BITS /\ n <= c /\ firstn c (fst s) = firstn c k /\ nth c (fst s) false <> nth c k false /\
    K H d' (firstn (S c) k) = KLeaf (the_leaf H (k, v)) /\
    K H d' (firstn (S c) (fst s)) = KLeaf (the_leaf H s) /\
    (forall j, n <= j -> j <= c -> K H d' (firstn j k) = KBranch) /\
    (forall x, x <> firstn (S c) k -> x <> firstn (S c) (fst s) -> (forall j, n <= j -> j <= c -> x <> firstn j k) -> K H d' x = K H d x) /\
    (forall j, j < n -> 2 <= cnt d (firstn j k)).
  Proof.
    intros d k v n s Kd Lk Nk Hn KL Us c d'.
    assert (Is : In s (U d (firstn n k))) by (rewrite Us; left; reflexivity). apply U_In in Is. destruct Is as [Is Ss].
    assert (Ls : length (fst s) = KEY_BITS). { destruct Kd as [_ L]. rewrite Forall_forall in L. apply L. assumption. }
    assert (Nsk : fst s <> k). { intros <-. apply Nk. apply in_map. assumption. }
    destruct (common_spec (fst s) k) as [C1 [C2 C3]]; [congruence|assumption|]. fold c in C1, C2, C3. rewrite Ls in C1.
    assert (Hnc : n <= c).
    { destruct (Nat.leb_spec n c) as [L|L]; [assumption|exfalso]. apply C3. apply starts_with_firstn in Ss. rewrite firstn_len in Ss by assumption.
      rewrite <- (firstn_skipn n (fst s)), <- (firstn_skipn n k). rewrite !app_nth1 by (rewrite firstn_len by lia; assumption). rewrite Ss. reflexivity. }
    assert (Op : opn d (firstn n k) = true) by (apply K_leaf in KL; apply KL).
    assert (Below : forall j, n <= j -> j <= c -> U d (firstn j k) = [s]).
    { intros j L1 L2. rewrite <- (U_U d (firstn n k)).
      - rewrite Us. unfold U. cbn [filter]. replace (starts_with (fst s) (firstn j k)) with true; [reflexivity|]. symmetry.
        replace (firstn j k) with (firstn j (fst s)); [apply firstn_starts|].
        replace (firstn j (fst s)) with (firstn j (firstn c (fst s))) by (rewrite firstn_firstn; f_equal; lia). rewrite C2, firstn_firstn. f_equal. lia.
      - replace (firstn n k) with (firstn n (firstn j k)) by (rewrite firstn_firstn; f_equal; lia). apply firstn_starts. }
    assert (Zk : U d (firstn (S c) k) = []).
    { rewrite <- (U_U d (firstn n k)).
      - rewrite Us. unfold U. cbn [filter]. replace (starts_with (fst s) (firstn (S c) k)) with false; [reflexivity|]. symmetry.
        rewrite firstn_snoc by lia. rewrite starts_with_snoc, firstn_len by lia. rewrite Bool.andb_assoc. apply Bool.andb_false_intro2.
        destruct (nth c k false), (nth c (fst s) false); simpl; congruence.
      - replace (firstn n k) with (firstn n (firstn (S c) k)) by (rewrite firstn_firstn; f_equal; lia). apply firstn_starts. }
    assert (Ssk : starts_with k (firstn (S c) (fst s)) = false).
    { rewrite firstn_snoc by lia. rewrite starts_with_snoc, firstn_len by lia. rewrite Bool.andb_assoc. apply Bool.andb_false_intro2.
      destruct (nth c k false), (nth c (fst s) false); simpl; congruence. }
    assert (Up : forall j, j < n -> 2 <= cnt d (firstn j k)).
    { intros j L. rewrite opn_firstn in Op by assumption. destruct n as [|n']; [lia|]. apply Nat.leb_le in Op. pose proof (cnt_firstn d k j n' ltac:(lia)). lia. }
    split; [assumption|]. split; [assumption|]. split; [assumption|]. split; [assumption|]. split; [|split; [|split; [|split]]].
    - rewrite K_firstn by lia. unfold d' at 1. rewrite cnt_cons_firstn. unfold cnt at 1. rewrite Below by lia. unfold d'. rewrite U_cons_firstn, Zk. reflexivity.
    - rewrite K_firstn by lia. rewrite C2. unfold d' at 1. rewrite cnt_cons_firstn. unfold cnt at 1. rewrite Below by lia. cbn [length Nat.leb].
      unfold d'. rewrite starts_cons by assumption.
      assert (E : U d (firstn (S c) (fst s)) = [s]).
      { rewrite <- (U_U d (firstn n k)).
        - rewrite Us. unfold U. cbn [filter]. rewrite firstn_starts. reflexivity.
        - replace (firstn n k) with (firstn n (firstn (S c) (fst s))); [apply firstn_starts|]. rewrite firstn_firstn, Nat.min_l by lia.
          replace (firstn n (fst s)) with (firstn n (firstn c (fst s))) by (rewrite firstn_firstn; f_equal; lia). rewrite C2, firstn_firstn. f_equal. lia. }
      rewrite E. reflexivity.
    - intros j L1 L2. apply K_two. unfold d'. rewrite cnt_cons_firstn. unfold cnt. rewrite Below by lia. simpl. lia.
    - intros x N1 N2 N3. destruct (place k x) as [[j [Hj ->]]|[[j [b [Hj [-> Sd]]]]|[q [b [-> [S1 S2]]]]]].
      + destruct (Nat.ltb_spec j n) as [L|L].
        * rewrite !K_two; [reflexivity|apply Up; assumption|]. unfold d'. rewrite cnt_cons_firstn. pose proof (Up j L). lia.
        * assert (S c < j). { destruct (Nat.leb_spec j c); [exfalso; apply (N3 j); auto|]. destruct (Nat.eq_dec j (S c)); [subst; congruence|lia]. }
          rewrite !(K_closed _ k (S c) j); try lia; try reflexivity; unfold d'; rewrite ?cnt_cons_firstn; unfold cnt; rewrite Zk; simpl; lia.
      + destruct (Nat.ltb_spec j n) as [L|L].
        * apply K_side; [intros; apply starts_cons; assumption|assumption|]. pose proof (Up j L). unfold d'. rewrite cnt_cons_firstn.
          rewrite !(proj2 (Nat.leb_le _ _)); [reflexivity|lia|lia].
        * destruct (Nat.leb_spec j c) as [Lc|Lc].
          -- assert (Zx : U d (firstn j k ++ [b]) = []).
             { rewrite <- (U_U d (firstn j k)).
               - rewrite Below by assumption. unfold U. cbn [filter]. replace (starts_with (fst s) (firstn j k ++ [b])) with false; [reflexivity|]. symmetry.
                 assert (Hb : b = negb (nth j k false)) by (apply side_bit; [lia|assumption]).
                 destruct (Nat.eq_dec j c) as [->|Njc].
                 + exfalso. apply N2. rewrite firstn_snoc by lia. rewrite C2, Hb. f_equal. f_equal. destruct (nth c k false), (nth c (fst s) false); simpl; congruence.
                 + rewrite starts_with_snoc, firstn_len by lia. rewrite Bool.andb_assoc. apply Bool.andb_false_intro2. rewrite Hb.
                   replace (nth j (fst s) false) with (nth j k false); [destruct (nth j k false); reflexivity|].
                   rewrite <- (firstn_skipn c (fst s)), <- (firstn_skipn c k). rewrite !app_nth1 by (rewrite firstn_len by lia; lia). rewrite C2. reflexivity.
               - apply starts_with_firstn. rewrite firstn_app, firstn_all, Nat.sub_diag. simpl. apply app_nil_r. }
             rewrite !K_snoc. unfold d' at 2. rewrite starts_cons by assumption. rewrite Zx. cbn [kind_of]. destruct (Nat.leb 2 (cnt d' (firstn j k))), (Nat.leb 2 (cnt d (firstn j k))); reflexivity.
          -- rewrite !(K_closed_side _ k (S c) j b); try lia; try reflexivity; unfold d'; rewrite ?cnt_cons_firstn; unfold cnt; rewrite Zk; simpl; lia.
      + eapply K_other; [|exact S1|assumption]. intros q' Eq. apply starts_cons. assumption.
    - assumption.
  Qed.

  (** ** Removing and updating *)
  Lemma leaf_at : forall d p k l, keys_ok d -> K H d p = KLeaf l -> lf_key l = k -> exists v n, n <= length k /\ p = firstn n k /\ In (k, v) d /\ U d p = [(k, v)] /\ l = the_leaf H (k, v) /\ length k = KEY_BITS.
  Proof.
    intros d p k l Kd E Ek. destruct (K_leaf _ _ _ _ E) as [_ [[k' v] [Eu El]]]. subst l. rewrite the_leaf_key in Ek. simpl in Ek. subst k'.
    assert (I : In (k, v) (U d p)) by (rewrite Eu; left; reflexivity). apply U_In in I. destruct I as [I S]. cbn [fst] in S.
    destruct (starts_with_is_firstn _ _ S) as [n [A [_ B]]]. exists v, n. repeat split; try assumption.
    destruct Kd as [_ L]. rewrite Forall_forall in L. apply (L _ I).
  Qed.
  Lemma leaf_unique : forall d p p' l l', keys_ok d -> K H d p = KLeaf l -> K H d p' = KLeaf l' -> lf_key l = lf_key l' -> p = p'.
  Proof.
    intros d p p' l l' Kd E E' Ek.
    destruct (leaf_at d p (lf_key l) l Kd E eq_refl) as [v [n [A [B [_ [C _]]]]]].
    destruct (leaf_at d p' (lf_key l) l' Kd E' (eq_sym Ek)) as [v' [n' [A' [B' [_ [C' _]]]]]].
    destruct (Nat.lt_trichotomy n n') as [L|[L|L]]; [exfalso|congruence|exfalso].
    - pose proof (K_closed d (lf_key l) n n' L A') as X. rewrite <- B, <- B' in X. rewrite X in E'; [discriminate|]. unfold cnt. rewrite C. simpl. lia.
    - pose proof (K_closed d (lf_key l) n' n L A) as X. rewrite <- B, <- B' in X. rewrite X in E; [discriminate|]. unfold cnt. rewrite C'. simpl. lia.
  Qed.
  Lemma update_K : forall d (k : path) v n, keys_ok d -> length k = KEY_BITS -> In k (map fst d) -> n <= length k -> opn d (firstn n k) = true -> map fst (U d (firstn n k)) = [k] ->
    let d' := (k, v) :: del k d in
    K H d' (firstn n k) = KLeaf (the_leaf H (k, v)) /\ (forall x, x <> firstn n k -> K H d' x = K H d x).
  Proof.
    intros d k v n Kd Lk Ik Hn Op Eu d'.
    assert (Cf : forall j, cnt d' (firstn j k) = cnt d (firstn j k)).
    { intro j. unfold d'. rewrite cnt_cons_firstn. apply cnt_del; [assumption|assumption|apply firstn_starts]. }
    assert (So : forall q, starts_with k q = false -> U d' q = U d q). { intros q E. unfold d'. rewrite starts_cons, U_del_other by assumption. reflexivity. }
    assert (C1 : cnt d (firstn n k) = 1). { unfold cnt. rewrite <- (map_length fst), Eu. reflexivity. }
    assert (Up : forall j, j < n -> 2 <= cnt d (firstn j k)).
    { intros j L. rewrite opn_firstn in Op by assumption. destruct n as [|n']; [lia|]. apply Nat.leb_le in Op. pose proof (cnt_firstn d k j n' ltac:(lia)). lia. }
    split.
    - unfold K. replace (opn d' (firstn n k)) with true.
      + unfold d'. rewrite U_cons_firstn, U_del. pose proof (cnt_del k d (firstn n k) Kd Ik (firstn_starts n k)) as X. rewrite C1 in X. unfold cnt in X. rewrite U_del in X.
        destruct (del k (U d (firstn n k))); [reflexivity|simpl in X; lia].
      + symmetry. rewrite opn_firstn in * by assumption. destruct n; [reflexivity|]. rewrite Cf. assumption.
    - intros x Nx. destruct (place k x) as [[j [Hj ->]]|[[j [b [Hj [-> Sd]]]]|[q [b [-> [S1 S2]]]]]].
      + destruct (Nat.ltb_spec j n) as [L|L].
        * rewrite !K_two; [reflexivity|apply Up; assumption|rewrite Cf; apply Up; assumption].
        * assert (n < j) by (destruct (Nat.eq_dec j n); [subst; congruence|lia]). rewrite !(K_closed _ k n j); try lia; try reflexivity; rewrite ?Cf; lia.
      + apply K_side; [assumption|assumption|]. rewrite Cf. reflexivity.
      + eapply K_other; [exact So|exact S1|assumption].
  Qed.
  (** Removing a leaf beside a branch. *)
  Lemma remove_branch : forall d (k : path) n, keys_ok d -> length k = KEY_BITS -> In k (map fst d) -> S n <= length k ->
    cnt d (firstn (S n) k) = 1 -> 3 <= cnt d (firstn n k) ->
    K H (del k d) (firstn (S n) k) = KNone /\ (forall x, x <> firstn (S n) k -> K H (del k d) x = K H d x).
  Proof.
    intros d k n Kd Lk Ik Hn C1 C3.
    assert (Cf : forall j, S (cnt (del k d) (firstn j k)) = cnt d (firstn j k)) by (intro; apply cnt_del; [assumption|assumption|apply firstn_starts]).
    assert (So : forall q, starts_with k q = false -> U (del k d) q = U d q) by (intros; apply U_del_other; assumption).
    assert (Up : forall j, j <= n -> 3 <= cnt d (firstn j k)) by (intros j L; pose proof (cnt_firstn d k j n L); lia).
    split.
    - rewrite K_firstn by assumption. assert (Z : U (del k d) (firstn (S n) k) = []) by (apply cnt_zero; pose proof (Cf (S n)); lia).
      rewrite Z. destruct (Nat.leb 2 _); reflexivity.
    - intros x Nx. destruct (place k x) as [[j [Hj ->]]|[[j [b [Hj [-> Sd]]]]|[q [b [-> [S1 S2]]]]]].
      + destruct (Nat.leb_spec j n) as [L|L].
        * rewrite !K_two; [reflexivity|pose proof (Up j L); lia|pose proof (Up j L); pose proof (Cf j); lia].
        * assert (S n < j) by (destruct (Nat.eq_dec j (S n)); [subst; congruence|lia]). pose proof (Cf (S n)). rewrite !(K_closed _ k (S n) j); try lia; reflexivity.
      + destruct (Nat.leb_spec j n) as [L|L].
        * apply K_side; [assumption|assumption|]. pose proof (Up j L). pose proof (Cf j). rewrite !(proj2 (Nat.leb_le _ _)); [reflexivity|lia|lia].
        * pose proof (Cf (S n)). rewrite !(K_closed_side _ k (S n) j b); try lia; reflexivity.
      + eapply K_other; [exact So|exact S1|assumption].
  Qed.
  (** Removing a leaf beside a leaf: the other leaf moves up to the last prefix that only the two keys share. *)
  Lemma remove_leaf : forall d (k : path) s n i, keys_ok d -> length k = KEY_BITS -> In k (map fst d) -> S n <= length k -> i <= n ->
    cnt d (firstn (S n) k) = 1 -> U d (firstn n k ++ [negb (nth n k false)]) = [s] -> cnt d (firstn i k) = 2 -> (forall j, j < i -> 3 <= cnt d (firstn j k)) -> cnt d (firstn n k) = 2 ->
    K H (del k d) (firstn i k) = KLeaf (the_leaf H s) /\
    K H (del k d) (firstn (S n) k) = KNone /\ K H (del k d) (firstn n k ++ [negb (nth n k false)]) = KNone /\
    (forall j, i < j -> j <= n -> K H (del k d) (firstn j k) = KNone) /\
    (forall x, x <> firstn (S n) k -> x <> firstn n k ++ [negb (nth n k false)] -> (forall j, i <= j -> j <= n -> x <> firstn j k) -> K H (del k d) x = K H d x).
  Proof.
    intros d k s n i Kd Lk Ik Hn Hi C1 Us C2 Up Cn.
    assert (Cf : forall j, S (cnt (del k d) (firstn j k)) = cnt d (firstn j k)) by (intro; apply cnt_del; [assumption|assumption|apply firstn_starts]).
    assert (So : forall q, starts_with k q = false -> U (del k d) q = U d q) by (intros; apply U_del_other; assumption).
    assert (Mid : forall j, i <= j -> j <= n -> cnt d (firstn j k) = 2).
    { intros j L1 L2. pose proof (cnt_firstn d k i j L1). pose proof (cnt_firstn d k j n L2). lia. }
    assert (Mid1 : forall j, i <= j -> j <= n -> cnt (del k d) (firstn j k) = 1) by (intros j L1 L2; pose proof (Cf j); rewrite (Mid j L1 L2) in *; lia).
    assert (Ss : starts_with k (firstn n k ++ [negb (nth n k false)]) = false).
    { rewrite starts_with_snoc, firstn_len by lia. rewrite Bool.andb_assoc. apply Bool.andb_false_intro2. destruct (nth n k false); reflexivity. }
    split; [|split; [|split; [|split]]].
    - unfold K. replace (opn (del k d) (firstn i k)) with true.
      + assert (E : U (del k d) (firstn i k) = [s]).
        { pose proof (Mid1 i (le_n _) Hi) as X. unfold cnt in X. destruct (U (del k d) (firstn i k)) as [|e [|e' u]] eqn:E; simpl in X; try lia.
          assert (Is : In s (U (del k d) (firstn i k))).
          { rewrite U_In. rewrite <- (So _ Ss) in Us. assert (Is : In s (U (del k d) (firstn n k ++ [negb (nth n k false)]))) by (rewrite Us; left; reflexivity).
            apply U_In in Is. destruct Is as [Is Sx]. split; [assumption|]. eapply starts_with_trans; [exact Sx|].
            eapply starts_with_trans with (p := firstn n k); [apply starts_with_firstn; rewrite firstn_app, firstn_all, Nat.sub_diag; simpl; apply app_nil_r|].
            replace (firstn i k) with (firstn i (firstn n k)); [apply firstn_starts|]. rewrite firstn_firstn. f_equal. lia. }
          rewrite E in Is. destruct Is as [<-|[]]. reflexivity. }
        rewrite E. reflexivity.
      + symmetry. rewrite opn_firstn by lia. destruct i as [|i']; [reflexivity|]. apply Nat.leb_le. pose proof (Up i' ltac:(lia)). pose proof (Cf i'). lia.
    - apply (K_closed _ k i); [lia|lia|]. rewrite (Mid1 i); lia.
    - apply (K_closed_side _ k i); [lia|lia|]. rewrite (Mid1 i); lia.
    - intros j L1 L2. apply (K_closed _ k i); [lia|lia|]. rewrite (Mid1 i); lia.
    - intros x N1 N2 N3. destruct (place k x) as [[j [Hj ->]]|[[j [b [Hj [-> Sd]]]]|[q [b [-> [S1 S2]]]]]].
      + destruct (Nat.ltb_spec j i) as [L|L].
        * rewrite !K_two; [reflexivity|pose proof (Up j L); lia|pose proof (Up j L); pose proof (Cf j); lia].
        * assert (S n < j). { destruct (Nat.leb_spec j n); [exfalso; apply (N3 j); auto|]. destruct (Nat.eq_dec j (S n)); [subst; congruence|lia]. }
          pose proof (Cf (S n)). rewrite !(K_closed _ k (S n) j); try lia; reflexivity.
      + destruct (Nat.ltb_spec j i) as [L|L].
        * apply K_side; [assumption|assumption|]. pose proof (Up j L). pose proof (Cf j). rewrite !(proj2 (Nat.leb_le _ _)); [reflexivity|lia|lia].
        * destruct (Nat.leb_spec j n) as [Ln|Ln].
          -- rewrite (K_closed_side (del k d) k j j b); [|lia|lia|rewrite (Mid1 j); lia].
             assert (Hb : b = negb (nth j k false)) by (apply side_bit; [lia|assumption]). destruct (Nat.eq_dec j n) as [->|Njn]; [exfalso; apply N2; rewrite Hb; reflexivity|].
             pose proof (cnt_split d (firstn j k) Kd ltac:(rewrite firstn_len by lia; unfold KEY_BITS in *; lia)) as X. rewrite (Mid j) in X by lia.
             pose proof (Mid (S j) ltac:(lia) ltac:(lia)) as Y. rewrite firstn_snoc in Y by lia.
             assert (Z : cnt d (firstn j k ++ [b]) = 0). { rewrite Hb. destruct (nth j k false); simpl; lia. }
             rewrite K_snoc. apply cnt_zero in Z. rewrite Z. destruct (Nat.leb 2 _); reflexivity.
          -- pose proof (Cf (S n)). rewrite !(K_closed_side _ k (S n) j b); try lia; reflexivity.
      + eapply K_other; [exact So|exact S1|assumption].
  Qed.
End Trie.
