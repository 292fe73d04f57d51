(** Recomputing the branches, committing, the root. *)
From Verif Require Import Base Trie_Model Trie_Spec TrieCodec_Proofs TrieShape_Proofs Trie_Proofs Trie2_Proofs Trie3_Proofs.
From Coq Require Import Permutation Sorted.

(** ** The order of the affected paths *)
Definition longer (a b : path) : Prop := length b <= length a.
Lemma before_true : forall a b, before a b = true -> longer a b.
Proof. intros a b. unfold before, longer. destruct (Nat.ltb_spec (length b) (length a)); [lia|]. destruct (Nat.eqb_spec (length a) (length b)); [lia|discriminate]. Qed.
Lemma before_false : forall a b, before a b = false -> longer b a.
Proof. intros a b. unfold before, longer. destruct (Nat.ltb_spec (length b) (length a)); [discriminate|lia]. Qed.
Lemma insert_sorted_perm : forall p l, Permutation (p :: l) (insert_sorted p l).
Proof. induction l as [|q l IH]; simpl; [reflexivity|]. destruct (before p q); [reflexivity|]. rewrite perm_swap. apply perm_skip. assumption. Qed.
Lemma insert_sorted_sorted : forall p l, StronglySorted longer l -> StronglySorted longer (insert_sorted p l).
Proof.
  intros p l S. induction S as [|q l S IH F]; simpl; [repeat constructor|]. destruct (before p q) eqn:E.
  - constructor; [constructor; assumption|]. apply before_true in E. constructor; [assumption|]. rewrite Forall_forall in *. intros x X. specialize (F x X). unfold longer in *. lia.
  - constructor; [assumption|]. apply before_false in E. rewrite Forall_forall in *. intros x X. apply (Permutation_in _ (Permutation_sym (insert_sorted_perm p l))) in X. destruct X as [<-|X]; [assumption|auto].
Qed.
Lemma sort_paths_spec : forall l, NoDup (sort_paths l) /\ StronglySorted longer (sort_paths l) /\ forall x, In x (sort_paths l) <-> In x l.
Proof.
  intro l. unfold sort_paths. set (n := nodup _ l). assert (N : NoDup n) by apply NoDup_nodup. assert (E : forall x, In x n <-> In x l) by (intro; apply nodup_In).
  assert (P : Permutation n (fold_right insert_sorted [] n)).
  { clear. induction n as [|p n IH]; simpl; [reflexivity|]. rewrite <- insert_sorted_perm. apply perm_skip. assumption. }
  split; [eapply Permutation_NoDup; eassumption|]. split.
  - clear. induction n as [|p n IH]; simpl; [constructor|]. apply insert_sorted_sorted. assumption.
  - intro x. rewrite <- E. split; intro X; [eapply Permutation_in; [apply Permutation_sym; eassumption|assumption]|eapply Permutation_in; eassumption].
Qed.

Section Trie.
  Context (H : bytes -> bytes).
  Notation hz := (hash_or_zero H).
  Notation Inv := (Inv H).
  Notation childok := (childok H).
  Notation linked := (linked H).

  (** ** Recomputing *)
  Definition linked_at (g : mgr) (p : path) : Prop := forall b, get_node g p = Some (NBranch b) -> b = new_branch (hz (get_node g (p ++ [false]))) (hz (get_node g (p ++ [true]))).
  Record RInv (g : mgr) (d : list kv) (A done : list path) : Prop := {
    r_link : linked (db g);
    r_view : forall p, kindv (get_node g p) = K H d p;
    r_aff : forall p, In p A -> cs g p <> None \/ exists b, get_node g p = Some (NBranch b);
    r_cs : forall p, cs g p <> None -> In p A;
    r_child : forall p b, cs g p = Some (Some (NBranch b)) -> childok g p b;
    r_done : forall p, In p done -> cs g p <> None /\ linked_at g p;
    r_writes : g_writes g = map (fun p => (p, get_node g p)) done }.

  Lemma get_insert : forall g p w x, get_node (insert_node g p w) x = if path_eqb p x then w else get_node g x.
  Proof. intros. unfold get_node. simpl. rewrite aget_cons. destruct (path_eqb p x); reflexivity. Qed.
  Lemma cs_insert : forall g p w x, cs (insert_node g p w) x = if path_eqb p x then Some w else cs g x.
  Proof. intros. unfold cs. simpl. apply aget_cons. Qed.
  Lemma snoc_neq : forall (p : path) b, p ++ [b] <> p.
  Proof. intros p b E. apply (f_equal (@length bool)) in E. rewrite app_length in E. simpl in E. lia. Qed.

  Lemma recompute_step : forall g d A done p, keys_ok d -> RInv g d A done -> In p A -> ~ In p done -> (forall x, In x done -> length p <= length x) ->
    exists g', recompute_at H g p = Ok g' /\ RInv g' d A (done ++ [p]) /\ g_db g' = g_db g /\ g_lpaths g' = g_lpaths g /\ g_state g' = g_state g /\ (forall x, In x done -> get_node g' x = get_node g x).
  Proof.
    intros g d A done p Kd R Ip Nd Lt.
    assert (Keep : cs g p <> None -> (forall b, get_node g p <> Some (NBranch b)) -> RInv (push_write g p (get_node g p)) d A (done ++ [p])).
    { intros Cn Nb. destruct R as [R1 R2 R3 R4 R5 R6 R7]. constructor; try assumption.
      - intros x X. apply in_app_or in X. destruct X as [X|[<-|[]]]; [apply R6; assumption|]. split; [assumption|]. intros b E. exfalso. apply (Nb b). exact E.
      - simpl. rewrite R7, map_app. reflexivity. }
    assert (Branch : (forall w, cs g p = Some w -> exists b, w = Some (NBranch b)) -> exists g',
      match get_node g p with
      | None => Err EAffectedPath
      | Some (NLeaf _) => Err ELeafNotFound
      | Some (NBranch b) => match child p false, child p true with
          | Some lp, Some rp => let n := Some (NBranch (refresh H g b lp rp)) in Ok (push_write (insert_node g p n) p n)
          | _, _ => Err EBranchStructure end
      end = Ok g' /\ RInv g' d A (done ++ [p]) /\ g_db g' = g_db g /\ g_lpaths g' = g_lpaths g /\ g_state g' = g_state g /\ (forall x, In x done -> get_node g' x = get_node g x)).
    { intro Hb. assert (Eb : exists b, get_node g p = Some (NBranch b)).
      { destruct (r_aff _ _ _ _ R p Ip) as [X|X]; [|assumption]. rewrite get_node_cs. destruct (cs g p) as [w|] eqn:E; [|congruence]. apply Hb. reflexivity. }
      destruct Eb as [b Eb]. rewrite Eb.
      assert (C2 : 2 <= cnt d p). { apply (K_branch H). rewrite <- (r_view _ _ _ _ R), Eb. reflexivity. }
      pose proof (cnt_two_short _ _ Kd C2) as Lp.
      assert (Hc : forall c, child p c = Some (p ++ [c])). { intro c. unfold child. replace (Nat.leb NODE_BITS (length p)) with false; [reflexivity|]. symmetry. apply Nat.leb_gt. unfold NODE_BITS, KEY_BITS in *. lia. }
      rewrite !Hc. cbv zeta. set (nb := refresh H g b (p ++ [false]) (p ++ [true])).
      assert (Old : childok g p b).
      { destruct (cs g p) as [w|] eqn:E.
        - apply (r_child _ _ _ _ R). rewrite E. rewrite get_node_cs, E in Eb. congruence.
        - rewrite get_node_cs, E in Eb. pose proof (r_link _ _ _ _ R p b Eb) as X. rewrite X. split; intros; reflexivity. }
      assert (Nb : nb = new_branch (hz (get_node g (p ++ [false]))) (hz (get_node g (p ++ [true])))).
      { unfold nb, refresh, new_branch. destruct Old as [O1 O2]. f_equal.
        - rewrite get_node_cs. fold (cs g (p ++ [false])). destruct (cs g (p ++ [false])) eqn:E; [reflexivity|]. apply O1. reflexivity.
        - rewrite get_node_cs. fold (cs g (p ++ [true])). destruct (cs g (p ++ [true])) eqn:E; [reflexivity|]. apply O2. reflexivity. }
      set (g1 := insert_node g p (Some (NBranch nb))). exists (push_write g1 p (Some (NBranch nb))). split; [reflexivity|].
      assert (G1 : forall x, get_node g1 x = if path_eqb p x then Some (NBranch nb) else get_node g x) by (intro; apply get_insert).
      assert (S1 : forall x, cs g1 x = if path_eqb p x then Some (Some (NBranch nb)) else cs g x) by (intro; apply cs_insert).
      assert (Gd : forall x, In x done -> get_node g1 x = get_node g x). { intros x X. rewrite G1, path_eqb_neq; [reflexivity|]. intros ->. contradiction. }
      split; [|repeat split; try reflexivity; exact Gd].
      destruct R as [R1 R2 R3 R4 R5 R6 R7]. constructor.
      - exact R1.
      - intro x. change (get_node (push_write g1 p (Some (NBranch nb))) x) with (get_node g1 x). rewrite G1. destruct (path_eqb_spec p x) as [Epx|]; [|apply R2]; rewrite <- Epx. rewrite <- R2, Eb. reflexivity.
      - intros x X. change (cs g1 x <> None \/ exists b0, get_node g1 x = Some (NBranch b0)). rewrite S1, G1. destruct (path_eqb p x); [left; discriminate|apply R3; assumption].
      - intros x X. change (cs g1 x <> None) in X. rewrite S1 in X. destruct (path_eqb_spec p x) as [Epx|]; [rewrite <- Epx; assumption|apply R4; assumption].
      - intros x b' X. change (cs g1 x = Some (Some (NBranch b'))) in X. change (childok g1 x b'). rewrite S1 in X.
        assert (Old' : childok g x b').
        { destruct (path_eqb_spec p x) as [Epx|]; [|apply R5; assumption]. rewrite <- Epx. inversion X; subst b'. rewrite Nb. split; intro N; rewrite !get_node_cs, N; reflexivity. }
        destruct Old' as [O1 O2]. split; intro N; rewrite S1 in N; match type of N with context [path_eqb p ?y] => destruct (path_eqb p y); [discriminate|] end; [apply O1|apply O2]; assumption.
      - intros x X. change (cs g1 x <> None /\ linked_at g1 x). apply in_app_or in X. destruct X as [X|[<-|[]]].
        + destruct (R6 x X) as [A1 A2]. split; [rewrite S1; destruct (path_eqb p x); [discriminate|assumption]|].
          intros b' E. rewrite Gd in E by assumption. rewrite !G1. pose proof (Lt x X) as Lx.
          rewrite !(path_eqb_neq p); [apply A2; assumption| |]; intros ->; rewrite app_length in Lx; simpl in Lx; lia.
        + split; [rewrite S1, path_eqb_refl; discriminate|]. intros b' E. rewrite G1, path_eqb_refl in E. inversion E; subst b'. rewrite !G1, !path_eqb_neq by (intro E'; symmetry in E'; revert E'; apply snoc_neq). exact Nb.
      - change (g_writes (push_write g1 p (Some (NBranch nb)))) with (g_writes g ++ [(p, Some (NBranch nb))]).
        rewrite R7, map_app. simpl. f_equal.
        + apply map_ext_in. intros x X. f_equal. symmetry. change (get_node (push_write g1 p (Some (NBranch nb))) x) with (get_node g1 x). apply Gd. assumption.
        + change (get_node (push_write g1 p (Some (NBranch nb))) p) with (get_node g1 p). rewrite G1, path_eqb_refl. reflexivity. }
    unfold recompute_at. fold (cs g p). destruct (cs g p) as [[[l|b]|]|] eqn:E.
    - exists (push_write g p (Some (NLeaf l))). split; [reflexivity|]. assert (X : get_node g p = Some (NLeaf l)) by (rewrite get_node_cs, E; reflexivity). rewrite <- X.
      split; [apply Keep; [discriminate|congruence]|]. repeat split; reflexivity.
    - apply Branch. intros w X. inversion X. eauto.
    - exists (push_write g p None). split; [reflexivity|]. assert (X : get_node g p = None) by (rewrite get_node_cs, E; reflexivity). rewrite <- X.
      split; [apply Keep; [discriminate|congruence]|]. repeat split; reflexivity.
    - apply Branch. intros w X. discriminate.
  Qed.
  Lemma recompute_ok : forall rest g d A done, keys_ok d -> RInv g d A done -> (forall x, In x rest -> In x A) -> NoDup (done ++ rest) -> StronglySorted longer rest ->
    (forall x y, In x done -> In y rest -> longer x y) ->
    exists g', recompute H g rest = (g', Ok tt) /\ RInv g' d A (done ++ rest) /\ g_db g' = g_db g /\ g_lpaths g' = g_lpaths g /\ g_state g' = g_state g.
  Proof.
    induction rest as [|p rest IH]; intros g d A done Kd R Sub Nd Ss Lt; cbn [recompute].
    - exists g. rewrite app_nil_r. split; [reflexivity|]. split; [exact R|]. repeat split; reflexivity.
    - destruct (recompute_step g d A done p Kd R) as [g1 [E1 [R1 [D1 [L1 [T1 _]]]]]].
      + apply Sub. left. reflexivity.
      + apply NoDup_remove_2 in Nd. intro X. apply Nd. apply in_or_app. auto.
      + intros x X. apply (Lt x p); [assumption|left; reflexivity].
      + rewrite E1. inversion Ss as [|? ? Ss' F]; subst. destruct (IH g1 d A (done ++ [p])) as [g2 [E2 [R2 [D2 [L2 T2]]]]]; try assumption.
        * intros x X. apply Sub. right. assumption.
        * rewrite <- app_assoc. exact Nd.
        * intros x y X Y. apply in_app_or in X. destruct X as [X|[<-|[]]]; [apply Lt; [assumption|right; assumption]|]. rewrite Forall_forall in F. apply F. assumption.
        * exists g2. rewrite <- app_assoc in R2. split; [exact E2|]. split; [exact R2|]. repeat split; congruence.
  Qed.

  (** ** Commits *)
  Record Good (g : mgr) (d : list kv) : Prop := {
    q_new : g = new_mgr (g_db g);
    q_inv : Inv g d d;
    q_root : d_root (g_db g) = hz (db g []) }.
  Lemma Inv_new : forall m d, keys_ok d -> sorted (d_nodes m) -> (forall p, kindv (oget (d_nodes m) p) = K H d p) -> linked (oget (d_nodes m)) ->
    (forall k, match db_leaf_path m k with Some p => exists l, oget (d_nodes m) p = Some (NLeaf l) /\ lf_key l = k | None => ~ In k (map fst d) end) -> Inv (new_mgr m) d d.
  Proof.
    intros m d Kd S V L P. constructor; try assumption.
    - intros p [].
    - intros p X. exfalso. apply X. reflexivity.
    - intros p b [].
    - intros p b X. discriminate.
  Qed.
  Lemma Good_empty : Good (new_mgr empty_mdb) [].
  Proof.
    constructor; [reflexivity| |reflexivity]. apply Inv_new.
    - split; constructor.
    - constructor.
    - intro p. simpl. unfold K. simpl. destruct (opn [] p); reflexivity.
    - intros p b X. discriminate.
    - intros k [].
  Qed.
  Lemma apply_list_nonempty : forall d e, fits_list d e -> d <> [] \/ e_status e <> SClean -> apply_list d e <> [].
  Proof.
    intros d e F X. unfold fits_list, apply_list in *. destruct (e_status e); try discriminate.
    - destruct F as [_ [k' [I N]]]. intro E. assert (Y : In k' (map fst (del (e_key e) d))) by (apply keys_del; auto). rewrite E in Y. destruct Y.
    - destruct X; congruence.
  Qed.
  Lemma batch_nonempty : forall es d, fits_batch d es -> d <> [] \/ some_write es -> fold_left apply_list es d <> [].
  Proof.
    induction es as [|e es IH]; intros d F X; cbn [fold_left].
    - destruct X as [X|[e [[] _]]]. assumption.
    - destruct F as [F1 F2]. apply IH; [assumption|]. destruct X as [X|[e' [[<-|X] N]]].
      + left. apply apply_list_nonempty; auto.
      + left. apply apply_list_nonempty; auto.
      + right. exists e'. auto.
  Qed.
  Lemma some_write_dec : forall es, some_write es \/ ~ some_write es.
  Proof.
    induction es as [|e es [IH|IH]]; [right; intros [e [[] _]]| |].
    - left. destruct IH as [e' [A B]]. exists e'. split; [right; assumption|assumption].
    - destruct (e_status e) eqn:E; [left; exists e; (split; [left; reflexivity|congruence])..|]. right. intros [e' [[<-|A] B]]; [congruence|]. apply IH. exists e'. auto.
  Qed.
  Lemma clean_batch : forall es d, ~ some_write es -> fold_left apply_list es d = d /\ flat_map (eswrite H) es = [].
  Proof.
    induction es as [|e es IH]; intros d N; [auto|]. cbn [fold_left flat_map].
    assert (E : e_status e = SClean). { destruct (e_status e) eqn:E; [exfalso; apply N; exists e; (split; [left; reflexivity|congruence])..|reflexivity]. }
    destruct (IH d) as [A B]. { intros [e' [X Y]]. apply N. exists e'. split; [right; assumption|assumption]. }
    unfold apply_list at 2, eswrite at 1. rewrite E, B, A. auto.
  Qed.
  Lemma up_closed_root : forall (A : list path), (forall p b, In (p ++ [b]) A -> In p A) -> A <> [] -> In [] A.
  Proof.
    intros A Up N. destruct A as [|p A'] eqn:E; [congruence|]. rewrite <- E in *. assert (X : In p A) by (rewrite E; left; reflexivity). clear E A' N.
    induction p as [|b p IH] using rev_ind; [assumption|]. apply IH. eapply Up. eassumption.
  Qed.

  Lemma commit0_ok : forall g d es, g = new_mgr (g_db g) -> Inv g d d -> fits_batch d es ->
    exists g', commit H g es = (g', Ok (flat_map (eswrite H) es)) /\ (some_write es -> Good g' (fold_left apply_list es d)) /\ (~ some_write es -> g' = g).
  Proof.
    intros g d es Qn Qi F. unfold commit, prepare_commit. destruct es as [|e0 es0] eqn:Ees.
    { exists g. simpl. split; [reflexivity|]. split; [intros [e [[] _]]|reflexivity]. }
    rewrite <- Ees in *. destruct (entries_ok H es g d d Qi F) as [g1 [E1 [I1 [D1 [W1 [T1 [Rt Rn]]]]]]]. rewrite E1.
    unfold prepare_node_writes. destruct (sort_paths_spec (g_aff g1)) as [Sn [Ss Si]].
    destruct (some_write_dec es) as [Sw|Sw].
    2: { (* nothing to write *)
      assert (Ea : g_aff g1 = []). { rewrite Rn by assumption. rewrite Qn. reflexivity. } rewrite Ea. simpl.
      destruct (clean_batch es d Sw) as [A B]. rewrite B. exists (new_mgr (g_db g1)). split; [reflexivity|]. split; [contradiction|]. intros _. rewrite D1. symmetry. exact Qn. }
    assert (Root : In [] (g_aff g1)) by (apply Rt; right; assumption).
    set (A := sort_paths (g_aff g1)) in *. assert (RootA : In [] A) by (apply Si; assumption).
    assert (R0 : RInv (take_affected g1) (fold_left apply_list es d) A []).
    { constructor.
      - exact (i_link _ _ _ _ I1).
      - exact (i_view _ _ _ _ I1).
      - intros p X. apply (i_aff _ _ _ _ I1). apply Si. assumption.
      - intros p X. apply Si. apply (i_cs _ _ _ _ I1). assumption.
      - exact (i_child _ _ _ _ I1).
      - intros p [].
      - simpl. rewrite W1, Qn. reflexivity. }
    destruct (recompute_ok A (take_affected g1) _ A [] (i_d _ _ _ _ I1) R0) as [g2 [E2 [R2 [D2 [L2 T2]]]]]; [auto|exact Sn|exact Ss|intros x y []|]. cbn [app] in R2.
    assert (EA : A <> []) by (intro X; rewrite X in RootA; destruct RootA).
    destruct A as [|a0 A0] eqn:EAA; [congruence|]. rewrite <- EAA in *. rewrite E2.
    set (d' := fold_left apply_list es d) in *.
    assert (Hroot : exists n, aget (g_nodes g2) [] = Some (Some n) /\ get_node g2 [] = Some n).
    { destruct (r_done _ _ _ _ R2 [] RootA) as [X _]. unfold cs in X. destruct (aget (g_nodes g2) []) as [[n|]|] eqn:Y; [exists n; split; [reflexivity|rewrite get_node_cs; unfold cs; rewrite Y; reflexivity]| |congruence].
      exfalso. pose proof (r_view _ _ _ _ R2 []) as V. rewrite get_node_cs in V. unfold cs in V. rewrite Y in V. rewrite K_nil in V. symmetry in V. apply kind_of_none in V.
      apply (batch_nonempty es d F); [right; assumption|assumption]. }
    destruct Hroot as [n [Y1 Y2]]. rewrite Y1. cbv beta iota zeta.
    assert (Es : g_state g2 = flat_map (eswrite H) es). { rewrite T2. simpl. rewrite T1, Qn. reflexivity. }
    eexists. split; [rewrite <- Es; reflexivity|]. split; [|contradiction]. intros _.
    assert (Edb : g_db g2 = g_db g) by (rewrite D2; simpl; assumption).
    unfold apply_commit, commit_lpaths, commit_nodes, new_mgr. cbn [g_db d_nodes d_lpaths w_nodes w_lpaths w_root d_root g_nodes g_lpaths g_aff g_state g_writes].
    set (db' := write_nodes (d_nodes (g_db g2)) (g_writes g2)).
    assert (Vw : forall x, oget db' x = get_node g2 x).
    { intro x. unfold db'. rewrite (r_writes _ _ _ _ R2). rewrite write_nodes_get by (rewrite map_map; simpl; rewrite map_id; exact Sn).
      destruct (find (fun e => path_eqb (fst e) x) (map (fun p => (p, get_node g2 p)) A)) as [e|] eqn:Fd.
      - apply find_some in Fd. destruct Fd as [X Ex]. apply in_map_iff in X. destruct X as [p [<- _]]. cbn [fst snd] in *. destruct (path_eqb_spec p x) as [Epx|]; [rewrite Epx; reflexivity|discriminate].
      - rewrite get_node_cs. destruct (cs g2 x) as [w|] eqn:Ec; [|reflexivity]. exfalso.
        pose proof (find_none _ _ Fd (x, get_node g2 x)) as X. cbn [fst] in X. rewrite path_eqb_refl in X. assert (true = false); [|discriminate]. apply X.
        apply in_map_iff. exists x. split; [reflexivity|]. apply (r_cs _ _ _ _ R2). congruence. }
    constructor.
    - reflexivity.
    - apply Inv_new; cbn [d_nodes].
      + exact (i_d _ _ _ _ I1).
      + apply write_nodes_sorted. rewrite Edb. apply (i_sorted _ _ _ _ Qi).
      + intro p. rewrite Vw. apply (r_view _ _ _ _ R2).
      + intros p b X. rewrite !Vw in *. destruct (in_dec (list_eq_dec Bool.bool_dec) p A) as [Ip|Np].
        * destruct (r_done _ _ _ _ R2 p Ip) as [_ L]. apply L. assumption.
        * assert (Nc : forall c, cs g2 (p ++ [c]) = None).
          { intro c. destruct (cs g2 (p ++ [c])) eqn:Ec; [exfalso|reflexivity]. apply Np. apply Si. eapply (i_up _ _ _ _ I1). apply Si. apply (r_cs _ _ _ _ R2). rewrite Ec. discriminate. }
          assert (Nc' : cs g2 p = None). { destruct (cs g2 p) eqn:Ec; [exfalso|reflexivity]. apply Np. apply (r_cs _ _ _ _ R2). congruence. }
          rewrite get_node_cs, Nc' in X. rewrite !get_node_cs, !Nc. apply (r_link _ _ _ _ R2). assumption.
      + intro k. pose proof (i_lp _ _ _ _ I1 k) as L. unfold db_leaf_path. cbn [d_lpaths]. rewrite aget_app.
        assert (E : match match aget (g_lpaths g2) k with Some w => Some w | None => aget (d_lpaths (g_db g2)) k end with Some o => o | None => None end = get_leaf_path g1 k).
        { unfold get_leaf_path, db_leaf_path. rewrite L2, Edb. cbn [take_affected g_lpaths]. rewrite D1. destruct (aget (g_lpaths g1) k); reflexivity. }
        rewrite E. destruct (get_leaf_path g1 k) as [p|]; [|exact L]. destruct L as [l [X Y]]. exists l. split; [|assumption]. rewrite Vw.
        pose proof (r_view _ _ _ _ R2 p) as V. rewrite <- (i_view _ _ _ _ I1 p), X in V. apply kindv_leaf in V. assumption.
    - cbn [d_root g_db d_nodes]. unfold db. cbn [g_db d_nodes]. rewrite Vw, Y2. reflexivity.
  Qed.

  Lemma commit_ok : forall g d es, Good g d -> fits_batch d es -> exists g', commit H g es = (g', Ok (flat_map (eswrite H) es)) /\ Good g' (fold_left apply_list es d).
  Proof.
    intros g d es G F. destruct (commit0_ok g d es (q_new _ _ G) (q_inv _ _ G) F) as [g' [E [A B]]]. exists g'. split; [exact E|].
    destruct (some_write_dec es) as [Sw|Sw]; [auto|]. rewrite (B Sw). destruct (clean_batch es d Sw) as [-> _]. exact G.
  Qed.

  (** ** The root *)
  Lemma U_children : forall d p b, keys_ok d -> length p < KEY_BITS -> U d (p ++ [b]) = filter (fun e => Bool.eqb b (nth (length p) (fst e) false)) (U d p).
  Proof.
    intros d p b [_ L] Hp. unfold U. rewrite filter_filter. apply filter_ext_in'. intros x X. rewrite Forall_forall in L. rewrite starts_with_snoc, (L x X).
    replace (Nat.ltb (length p) KEY_BITS) with true by (symmetry; apply Nat.ltb_lt; assumption). reflexivity.
  Qed.
  Lemma merkle_ok : forall d v, keys_ok d -> (forall p, kindv (v p) = K H d p) -> linked v ->
    forall fuel p, length p + fuel = KEY_BITS -> opn d p = true -> merkle H fuel (length p) (U d p) = hz (v p).
  Proof.
    intros d v Kd V L. induction fuel as [|f IH]; intros p Hl Op.
    - pose proof (V p) as Vp. unfold K in Vp. rewrite Op in Vp. pose proof (U_full d p Kd ltac:(lia)) as C. unfold cnt in C.
      destruct (U d p) as [|[k w] [|]] eqn:E; cbn [merkle kind_of] in *.
      + apply kindv_none in Vp. rewrite Vp. reflexivity.
      + apply kindv_leaf in Vp. rewrite Vp. cbn [hash_or_zero]. unfold node_hash, encode. cbn [node_bits]. unfold the_leaf. cbn [fst snd]. rewrite leaf_bits_spec; [reflexivity|].
        destruct Kd as [_ Lk]. rewrite Forall_forall in Lk. apply (Lk (k, w)). assert (X : In (k, w) (U d p)) by (rewrite E; left; reflexivity). apply U_In in X. apply X.
      + simpl in C. lia.
    - pose proof (V p) as Vp. unfold K in Vp. rewrite Op in Vp.
      destruct (U d p) as [|[k w] [|e u]] eqn:E; cbn [kind_of] in *.
      + apply kindv_none in Vp. rewrite Vp. reflexivity.
      + apply kindv_leaf in Vp. rewrite Vp. cbn [merkle hash_or_zero]. unfold node_hash, encode. cbn [node_bits]. unfold the_leaf. cbn [fst snd]. rewrite leaf_bits_spec; [reflexivity|].
        destruct Kd as [_ Lk]. rewrite Forall_forall in Lk. apply (Lk (k, w)). assert (X : In (k, w) (U d p)) by (rewrite E; left; reflexivity). apply U_In in X. apply X.
      + destruct (kindv_branch _ Vp) as [b Eb]. pose proof (L p b Eb) as Lb. rewrite Eb. cbn [hash_or_zero]. unfold node_hash, encode. cbn [node_bits]. rewrite Lb, branch_bits_spec.
        assert (C2 : 2 <= cnt d p) by (unfold cnt; rewrite E; simpl; lia).
        assert (Oc : forall c, opn d (p ++ [c]) = true). { intro c. unfold opn. destruct (p ++ [c]) eqn:Ec; [destruct p; discriminate|]. rewrite <- Ec, removelast_last. apply Nat.leb_le. assumption. }
        assert (IHc : forall c, merkle H f (S (length p)) (filter (fun x => Bool.eqb c (nth (length p) (fst x) false)) ((k, w) :: e :: u)) = hz (v (p ++ [c]))).
        { intro c. rewrite <- E, <- U_children by (assumption || lia). rewrite <- IH; [|rewrite app_length; simpl; lia|apply Oc]. f_equal. rewrite app_length. simpl. lia. }
        rewrite <- (IHc false), <- (IHc true).
        change (merkle H (S f) (length p) ((k, w) :: e :: u)) with (H (unbits (spec_branch (merkle H f (S (length p)) (filter (fun e0 => negb (nth (length p) (fst e0) false)) ((k, w) :: e :: u))) (merkle H f (S (length p)) (filter (fun e0 => nth (length p) (fst e0) false) ((k, w) :: e :: u)))))).
        f_equal. f_equal. f_equal; f_equal; apply filter_ext_in'; intros x _; destruct (nth (length p) (fst x) false); reflexivity.
  Qed.
  Lemma root_ok : forall g d d2, Good g d -> Permutation d d2 -> d_root (g_db g) = state_root H d2.
  Proof.
    intros g d d2 [Qn Qi Qr] P. rewrite Qr. unfold state_root. rewrite <- (U_nil d2) at 1.
    assert (Kd2 : keys_ok d2). { destruct (i_d _ _ _ _ Qi) as [N L]. split; [eapply Permutation_NoDup; [apply Permutation_map; eassumption|assumption]|]. rewrite Forall_forall in *. intros x X. apply L. eapply Permutation_in; [apply Permutation_sym; eassumption|assumption]. }
    symmetry. change 0 with (length (@nil bool)). apply (merkle_ok d2 (db g) Kd2); [|exact (i_link _ _ _ _ Qi)|reflexivity|reflexivity].
    intro p. rewrite (i_db _ _ _ _ Qi). apply K_Permutation. assumption.
  Qed.

  (** ** Histories *)
  Definition stored (P : bytes -> Prop) (s : list (bytes * bytes)) (d : list kv) : Prop :=
    (forall h v, In (h, v) s -> h = H v /\ P v) /\ (forall k v, In (k, v) d -> 32 < length v -> In (H v, v) s).
  Lemma batch_fits : forall es m d, batch_ok m es -> lists d m -> keys_ok d ->
    fits_batch d es /\ lists (fold_left apply_list es d) (apply_batch m es) /\ keys_ok (fold_left apply_list es d).
  Proof.
    induction es as [|e es IH]; intros m d [N [F Kp]] L Kd; cbn [fits_batch fold_left apply_batch]; [auto|].
    inversion N as [|? ? N1 N2]; subst. inversion F as [|? ? F1 F2]; subst.
    assert (Dom : forall k, In k (map fst d) <-> m k <> None).
    { intro k. rewrite keys_In. destruct L as [_ L]. split; [intros [v X]; apply L in X; congruence|]. intro X. destruct (m k) as [v|] eqn:E; [|congruence]. exists v. apply L. assumption. }
    assert (Fl : fits_list d e).
    { unfold fits_list, fits in *. destruct F1 as [Lk F1]. destruct (e_status e) eqn:Es; [split; [assumption|rewrite Dom; congruence]|apply Dom; assumption|split; [apply Dom; assumption|]|exact I].
      destruct Kp as [Kp|[k [K1 K2]]]; [exfalso; apply (Kp e); [left; reflexivity|assumption]|]. exists k. split; [apply Dom; assumption|]. intro X. apply (K2 e); [left; reflexivity|assumption|congruence]. }
    assert (Ll : lists (apply_list d e) (apply_entry m e) /\ keys_ok (apply_list d e)).
    { destruct L as [Ln L]. unfold fits_list, apply_list, apply_entry, fits in *. destruct F1 as [Lk F1]. destruct (e_status e) eqn:Es.
      - destruct Fl as [_ Nk]. split; [|apply keys_ok_cons; assumption]. split; [simpl; constructor; assumption|]. intros k v. simpl. unfold set. destruct (list_eq_dec Bool.bool_dec k (e_key e)) as [->|Ne].
        + split; [intros [X|X]; [congruence|exfalso; apply Nk; apply keys_In; eauto]|intro X; left; congruence].
        + rewrite L. split; [intros [X|X]; [congruence|assumption]|auto].
      - split; [|apply keys_ok_cons; [apply keys_ok_del; assumption|assumption|intro X; apply keys_del in X; tauto]]. split; [simpl; constructor; [intro X; apply keys_del in X; tauto|apply NoDup_map_filter; assumption]|].
        intros k v. simpl. rewrite (del_In (e_key e) d (k, v)). cbn [fst]. unfold set. destruct (list_eq_dec Bool.bool_dec k (e_key e)) as [->|Ne].
        + split; [intros [X|[_ X]]; [congruence|congruence]|intro X; left; congruence].
        + rewrite L. split; [intros [X|[X _]]; [congruence|assumption]|auto].
      - split; [|apply keys_ok_del; assumption]. split; [apply NoDup_map_filter; assumption|]. intros k v. rewrite del_In. cbn [fst]. unfold set. destruct (list_eq_dec Bool.bool_dec k (e_key e)) as [->|Ne].
        + split; [intros [_ X]; congruence|discriminate].
        + rewrite L. tauto.
      - split; [split; assumption|assumption]. }
    destruct Ll as [Ll Kl]. split; [split; [assumption|]|].
    1: apply (IH (apply_entry m e)); try assumption. 2: apply (IH (apply_entry m e)); try assumption.
    all: split; [assumption|]; split.
    1, 3: rewrite Forall_forall in *; intros x X; destruct (F2 x X) as [Lx Fx]; split; [assumption|]; assert (Ex : apply_entry m e (e_key x) = m (e_key x)) by
      (unfold apply_entry, set; assert (e_key x <> e_key e) by (intro Y; apply N1; rewrite <- Y; apply in_map; assumption); destruct (e_status e), (list_eq_dec Bool.bool_dec (e_key x) (e_key e)); congruence);
      rewrite Ex; assumption.
    all: destruct Kp as [Kp|[k [K1 K2]]]; [left; intros x X; apply Kp; right; assumption|right; exists k; split; [|intros x X; apply K2; right; assumption]].
    all: unfold apply_entry, set; destruct (e_status e) eqn:Es; try assumption; destruct (list_eq_dec Bool.bool_dec k (e_key e)) as [Ek|]; try assumption; try discriminate.
    all: exfalso; apply (K2 e); [left; reflexivity|assumption|congruence].
  Qed.
  Lemma eswrite_In : forall es h v, In (h, v) (flat_map (eswrite H) es) -> h = H v /\ 32 < length v /\ exists e, In e es /\ e_value e = v.
  Proof.
    intros es h v X. apply in_flat_map in X. destruct X as [e [Ie X]]. unfold eswrite, swrite in X.
    destruct (e_status e); try contradiction; destruct (Nat.ltb_spec 32 (length (e_value e))) as [L|L]; cbn [In] in X; try contradiction; destruct X as [X|[]]; inversion X; subst; eauto 6.
  Qed.
  Lemma fold_In : forall es d k v, In (k, v) (fold_left apply_list es d) -> In (k, v) d \/ exists e, In e es /\ (e_status e = SAdd \/ e_status e = SUpdate) /\ e_value e = v.
  Proof.
    induction es as [|e es IH]; intros d k v X; cbn [fold_left] in X; [auto|]. apply IH in X. destruct X as [X|[e' [A B]]]; [|right; exists e'; split; [right; assumption|assumption]].
    unfold apply_list in X. destruct (e_status e) eqn:Es.
    - destruct X as [X|X]; [right; exists e; split; [left; reflexivity|]; split; [auto|congruence]|auto].
    - destruct X as [X|X]; [right; exists e; split; [left; reflexivity|]; split; [auto|congruence]|]. apply del_In in X. tauto.
    - apply del_In in X. tauto.
    - auto.
  Qed.
  Definition rootok (g : mgr) : Prop := d_root (g_db g) = hz (db g []).
  Lemma history0_run : forall P bs s m d, s_mgr s = new_mgr (g_db (s_mgr s)) -> Inv (s_mgr s) d d -> lists d m -> stored P (s_db s) d -> history_ok m bs -> (forall es e, In es bs -> In e es -> 32 < length (e_value e) -> P (e_value e)) ->
    exists s' d', run_history H s bs = Some s' /\ s_mgr s' = new_mgr (g_db (s_mgr s')) /\ Inv (s_mgr s') d' d' /\ lists d' (fold_left apply_batch bs m) /\ stored P (s_db s') d' /\
      (rootok (s_mgr s) \/ (exists es, In es bs /\ some_write es) -> rootok (s_mgr s')).
  Proof.
    intro P. induction bs as [|es bs IH]; intros s m d Gn Gi L St Ho Hp; cbn [run_history fold_left].
    - exists s, d. split; [reflexivity|]. split; [assumption|]. split; [assumption|]. split; [assumption|]. split; [assumption|]. intros [X|[es [[] _]]]. exact X.
    - destruct Ho as [Bo Ho]. destruct (batch_fits es m d Bo L (i_d _ _ _ _ Gi)) as [F [L' K']].
      destruct (commit0_ok (s_mgr s) d es Gn Gi F) as [g' [E [Ga Gb]]]. unfold store_commit. rewrite E.
      assert (Gn' : g' = new_mgr (g_db g') /\ Inv g' (fold_left apply_list es d) (fold_left apply_list es d) /\ (rootok (s_mgr s) \/ some_write es -> rootok g')).
      { destruct (some_write_dec es) as [Sw|Sw].
        - destruct (Ga Sw) as [A B C]. split; [exact A|]. split; [exact B|]. intros _. exact C.
        - rewrite (Gb Sw). destruct (clean_batch es d Sw) as [-> _]. split; [exact Gn|]. split; [exact Gi|]. intros [X|X]; [exact X|contradiction]. }
      destruct Gn' as [Gn' [Gi' Gr']].
      destruct (IH (mk_store g' (rev (flat_map (eswrite H) es) ++ s_db s)) (apply_batch m es) (fold_left apply_list es d)) as [s' [d' [E' [A [B [C [D R]]]]]]]; try assumption.
      + cbn [s_db]. destruct St as [S1 S2]. split.
        * intros h v X. apply in_app_or in X. destruct X as [X|X]; [|apply S1; assumption]. apply in_rev in X. apply eswrite_In in X. destruct X as [X1 [X2 [e [X3 X4]]]]. split; [assumption|]. subst v. apply (Hp es e); [left; reflexivity|assumption|assumption].
        * intros k v X Lv. apply in_or_app. apply fold_In in X. destruct X as [X|[e [X1 [X2 X3]]]]; [right; eapply S2; eassumption|left]. apply in_rev. rewrite rev_involutive. apply in_flat_map. exists e. split; [assumption|].
          unfold eswrite, swrite. rewrite X3. replace (Nat.ltb 32 (length v)) with true by (symmetry; apply Nat.ltb_lt; assumption). destruct X2 as [X2|X2]; rewrite X2; left; reflexivity.
      + intros es' e I1 I2. apply (Hp es' e); [right; assumption|assumption].
      + exists s', d'. split; [exact E'|]. split; [exact A|]. split; [exact B|]. split; [exact C|]. split; [exact D|].
        intro X. apply R. cbn [s_mgr]. destruct X as [X|[es' [[<-|X] Y]]]; [left; auto|left; auto|right; eauto].
  Qed.
  Lemma history_ok_run : forall P bs s m d, Good (s_mgr s) d -> lists d m -> stored P (s_db s) d -> history_ok m bs -> (forall es e, In es bs -> In e es -> 32 < length (e_value e) -> P (e_value e)) ->
    exists s' d', run_history H s bs = Some s' /\ Good (s_mgr s') d' /\ lists d' (fold_left apply_batch bs m) /\ stored P (s_db s') d'.
  Proof.
    intros P bs s m d G L St Ho Hp. destruct (history0_run P bs s m d (q_new _ _ G) (q_inv _ _ G) L St Ho Hp) as [s' [d' [E [A [B [C [D R]]]]]]].
    exists s', d'. split; [exact E|]. split; [|auto]. constructor; [exact A|exact B|]. apply R. left. exact (q_root _ _ G).
  Qed.
  Lemma lists_perm : forall d d2 m, lists d m -> lists d2 m -> Permutation d d2.
  Proof.
    intros d d2 m [N1 L1] [N2 L2]. apply NoDup_Permutation; [eapply NoDup_map_inv; eassumption|eapply NoDup_map_inv; eassumption|]. intros [k v]. rewrite L1, L2. reflexivity.
  Qed.
  Lemma stored_empty : forall P, stored P [] [].
  Proof. intro P. split; [intros h v []|intros k v []]. Qed.
  Lemma lists_empty : lists [] no_state.
  Proof. split; [constructor|]. intros k v. unfold no_state. split; [intros []|discriminate]. Qed.
  Lemma root_exact : forall bs d, history_ok no_state bs -> lists d (history_map bs) -> exists s, run_history H empty_store bs = Some s /\ store_root s = state_root H d.
  Proof.
    intros bs d Ho L. destruct (history_ok_run (fun _ => True) bs empty_store no_state [] Good_empty lists_empty (stored_empty _) Ho) as [s [d' [E [G [L' _]]]]]; [auto|].
    exists s. split; [assumption|]. apply (root_ok _ d'); [assumption|]. eapply lists_perm; eassumption.
  Qed.
  Lemma history_listed : forall bs, history_ok no_state bs -> exists d, lists d (history_map bs).
  Proof.
    intros bs Ho. destruct (history_ok_run (fun _ => True) bs empty_store no_state [] Good_empty lists_empty (stored_empty _) Ho) as [s [d' [E [G [L' _]]]]]; [auto|]. exists d'. assumption.
  Qed.
  Lemma the_leaf_data : forall k v, lf_data (the_leaf H (k, v)) = if Nat.ltb 32 (length v) then Regular (H v) else Embedded v.
  Proof. intros. unfold the_leaf, entry_leaf. cbn [fst snd]. destruct (Nat.ltb 32 (length v)); reflexivity. Qed.
  Lemma read_ok : forall P s d m, s_mgr s = new_mgr (g_db (s_mgr s)) -> Inv (s_mgr s) d d -> lists d m -> stored P (s_db s) d -> no_collision H P -> forall k, store_read s k = Ok (m k).
  Proof.
    intros P0 s d m Gn Gi L [S1 S2] Nc k. unfold store_read, db_leaf.
    pose proof (i_lp _ _ _ _ Gi k) as P.
    assert (Elp : get_leaf_path (s_mgr s) k = db_leaf_path (g_db (s_mgr s)) k) by (unfold get_leaf_path; rewrite (f_equal g_lpaths Gn : g_lpaths (s_mgr s) = []); reflexivity). rewrite Elp in P.
    pose proof (i_view _ _ _ _ Gi) as V.
    destruct L as [Ln L]. destruct (db_leaf_path (g_db (s_mgr s)) k) as [p|].
    - destruct P as [l [P1 P2]]. pose proof (V p) as Vp. rewrite P1 in Vp. cbn in Vp. symmetry in Vp.
      assert (P1' : oget (d_nodes (g_db (s_mgr s))) p = Some (NLeaf l)). { unfold get_node in P1. rewrite (f_equal g_nodes Gn : g_nodes (s_mgr s) = []) in P1. exact P1. }
      rewrite P1'. destruct (leaf_at H d p k l (i_d _ _ _ _ Gi) Vp P2) as [v [n [_ [_ [Iv [_ [El _]]]]]]]. subst l. rewrite the_leaf_data.
      rewrite (proj1 (L k v) Iv). destruct (Nat.ltb_spec 32 (length v)) as [Lv|Lv]; [|reflexivity].
      unfold sget. pose proof (S2 k v Iv Lv) as Is. destruct (find (fun e => bytes_eqb (fst e) (H v)) (s_db s)) as [[h w]|] eqn:Fd.
      + apply find_some in Fd. destruct Fd as [Iw Ew]. cbn [fst] in Ew. unfold bytes_eqb in Ew. destruct (list_eq_dec N.eq_dec h (H v)) as [Eh|]; [|discriminate]. destruct (S1 h w Iw) as [Hw Pw]. destruct (S1 _ _ Is) as [_ Pv].
        cbn [option_map snd]. rewrite (Nc w v Pw Pv); [reflexivity|congruence].
      + exfalso. pose proof (find_none _ _ Fd _ Is) as X. cbn [fst] in X. unfold bytes_eqb in X. destruct (list_eq_dec N.eq_dec (H v) (H v)); congruence.
    - destruct (m k) as [v|] eqn:Em; [|reflexivity]. exfalso. apply P. apply keys_In. exists v. apply L. assumption.
  Qed.
  Lemma read_exact : forall bs, history_ok no_state bs -> no_collision H (hashed_values bs) ->
    exists s, run_history H empty_store bs = Some s /\ forall k, store_read s k = Ok (history_map bs k).
  Proof.
    intros bs Ho Nc. destruct (history_ok_run (hashed_values bs) bs empty_store no_state [] Good_empty lists_empty (stored_empty _) Ho) as [s [d [E [G [L St]]]]].
    { intros es e A B C. exists es, e. auto. }
    exists s. split; [assumption|]. apply (read_ok _ s d _ (q_new _ _ G) (q_inv _ _ G) L St Nc).
  Qed.
  (** ** Restarts *)
  Lemma history_ok_app : forall bs cs m, history_ok m (bs ++ cs) -> history_ok m bs /\ history_ok (fold_left apply_batch bs m) cs.
  Proof. induction bs as [|es bs IH]; intros cs m X; cbn in *; [auto|]. destruct X as [A B]. destruct (IH _ _ B). auto. Qed.
  Lemma Inv_reopen : forall g d, g = new_mgr (g_db g) -> Inv g d d -> Inv (reopen (g_db g)) d d.
  Proof.
    intros g d E I. apply Inv_new; cbn [d_nodes].
    - exact (i_d _ _ _ _ I).
    - exact (i_sorted _ _ _ _ I).
    - exact (i_db _ _ _ _ I).
    - exact (i_link _ _ _ _ I).
    - intro k. pose proof (i_lp _ _ _ _ I k) as L. unfold get_leaf_path in L. rewrite (f_equal g_lpaths E : g_lpaths g = []) in L. cbn [aget find option_map] in L. unfold db_leaf_path in *. cbn [d_lpaths].
      destruct (match aget (d_lpaths (g_db g)) k with Some o => o | None => None end) as [p|]; [|exact L]. destruct L as [l [X Y]]. exists l. split; [|exact Y]. unfold get_node in X. rewrite (f_equal g_nodes E : g_nodes g = []) in X. exact X.
  Qed.
  Lemma restart_exact : forall bs cs, history_ok no_state (bs ++ cs) ->
    exists s s' , run_history H empty_store bs = Some s /\ run_history H (restart s) cs = Some s' /\
      ((exists es, In es cs /\ some_write es) -> forall d, lists d (history_map (bs ++ cs)) -> store_root s' = state_root H d) /\
      (no_collision H (hashed_values (bs ++ cs)) -> forall k, store_read s' k = Ok (history_map (bs ++ cs) k)).
  Proof.
    intros bs cs Ho. destruct (history_ok_app _ _ _ Ho) as [H1 H2]. set (P := hashed_values (bs ++ cs)).
    assert (Hp : forall es e, In es (bs ++ cs) -> In e es -> 32 < length (e_value e) -> P (e_value e)) by (intros es e A B C; exists es, e; auto).
    destruct (history_ok_run P bs empty_store no_state [] Good_empty lists_empty (stored_empty _) H1) as [s [d [E [G [L St]]]]].
    { intros es e A. apply Hp. apply in_or_app. auto. }
    destruct (history0_run P cs (restart s) (fold_left apply_batch bs no_state) d) as [s' [d' [E' [Gn [Gi [L' [St' R]]]]]]]; try assumption.
    - reflexivity.
    - exact (Inv_reopen _ _ (q_new _ _ G) (q_inv _ _ G)).
    - intros es e A. apply Hp. apply in_or_app. auto.
    - rewrite <- fold_left_app in L'. exists s, s'. split; [exact E|]. split; [exact E'|]. split.
      + intros Sw d2 L2. apply (root_ok _ d'); [constructor; [exact Gn|exact Gi|apply R; right; exact Sw]|]. eapply lists_perm; eassumption.
      + intro Nc. apply (read_ok P s' d' _ Gn Gi L' St' Nc).
  Qed.
  (** Every node the database holds is one the codec restores. *)
  Lemma nodes_ok : forall g d, Good g d -> (forall x, length (H x) = 32 /\ Bytes (H x)) -> (forall k v, In (k, v) d -> Bytes v) -> forall p n, oget (d_nodes (g_db g)) p = Some n -> node_ok n.
  Proof.
    intros g d G Hh Hv p n E. pose proof (i_db _ _ _ _ (q_inv _ _ G) p) as V. unfold db in V. rewrite E in V. destruct n as [l|b].
    - cbn in V. symmetry in V. destruct (leaf_at H d p _ l (i_d _ _ _ _ (q_inv _ _ G)) V eq_refl) as [v [n [_ [_ [Iv [_ [El Lk]]]]]]]. split; [assumption|]. rewrite El, the_leaf_data.
      destruct (Nat.ltb_spec 32 (length v)) as [Lv|Lv]; [apply Hh|]. split; [assumption|]. eapply Hv. eassumption.
    - pose proof (i_link _ _ _ _ (q_inv _ _ G) p b E) as X. rewrite X.
      assert (Z : forall o, length (hz o) = 32) by (intros [x|]; [apply Hh|reflexivity]). apply new_branch_ok; apply Z.
  Qed.
  Lemma stored_decodes : forall bs, history_ok no_state bs -> (forall x, length (H x) = 32 /\ Bytes (H x)) -> (forall es e, In es bs -> In e es -> Bytes (e_value e)) ->
    exists s, run_history H empty_store bs = Some s /\ forall p n, oget (d_nodes (g_db (s_mgr s))) p = Some n -> length (encode n) = 64 /\ decode (encode n) = Ok n.
  Proof.
    intros bs Ho Hh Hv. destruct (history_ok_run (fun _ => True) bs empty_store no_state [] Good_empty lists_empty (stored_empty _) Ho) as [s [d [E [G [L _]]]]]; [auto|].
    exists s. split; [assumption|]. intros p n En.
    assert (Bv : forall k v, In (k, v) d -> Bytes v).
    { intros k v X. apply L in X. clear - Hv X. revert Hv X. unfold history_map. assert (B0 : forall k v, no_state k = Some v -> Bytes v) by discriminate. revert B0. generalize no_state as m.
      induction bs as [|es bs IH]; intros m Bm Hv X; cbn [fold_left] in X; [eauto|]. apply (IH (apply_batch m es)); [|intros es' e A B; apply (Hv es' e); [right; assumption|assumption]|exact X].
      assert (He : forall e, In e es -> Bytes (e_value e)) by (intros e A; apply (Hv es e); [left; reflexivity|assumption]). clear - Bm He. revert m Bm. induction es as [|e es IH]; intros m Bm; cbn [apply_batch fold_left]; [assumption|].
      apply IH; [intros e' A; apply He; right; assumption|]. intros k' v'. unfold apply_entry, set. pose proof (He e (or_introl eq_refl)).
      destruct (e_status e); try apply Bm; (destruct (list_eq_dec Bool.bool_dec k' (e_key e)); [|apply Bm]); intro Y; inversion Y; subst; assumption. }
    pose proof (nodes_ok _ d G Hh Bv p n En) as Ok. split; [apply encode_length; assumption|apply decode_encode; assumption].
  Qed.
  Lemma prepare_keeps_db : forall g es, g_db (fst (prepare_commit H g es)) = g_db g.
  Proof.
    assert (Hr : forall f m bp lo l r m', raise H f m bp lo l r = Ok m' -> g_db m' = g_db m).
    { induction f as [|f IH]; intros m bp lo l r m'; cbn [raise]; (destruct (Nat.ltb (length bp) lo); [intro X; inversion X; reflexivity|]); [intro X; inversion X; reflexivity|].
      destruct bp as [|b bp]; [intro X; inversion X; reflexivity|]. destruct (sibling (b :: bp)); [|discriminate]. destruct (last (b :: bp) false); cbn; intro X; apply IH in X; exact X. }
    assert (He : forall g e g', insert_entry H g e = Ok g' -> g_db g' = g_db g).
    { intros g e g'. unfold insert_entry, add_entry, update_entry, remove_entry. assert (Hw : forall m w, g_db (insert_state_write m w) = g_db m) by (intros m []; reflexivity). destruct (e_status e).
      - destruct (longest_common g (e_key e)) as [[n p]| |]; cbn [bind]; try discriminate. destruct (entry_leaf H (e_key e) (e_value e)) as [l w]. destruct n as [[s|b]|].
        + destruct (derive_final_leaf_paths (lf_key s) (e_key e)) as [[sp np]| |]; cbn [bind]; try discriminate. destruct np as [|b np]; [discriminate|]. destruct (last (b :: np) false);
          match goal with |- context [raise H ?f ?m ?bp ?lo ?l ?r] => destruct (raise H f m bp lo l r) eqn:Er end; cbn [bind]; try discriminate; intro X; inversion X; subst; rewrite Hw; apply Hr in Er; exact Er.
        + destruct (upto (e_key e) (length p + 1)); cbn [bind]; try discriminate. intro X; inversion X; subst. rewrite Hw. reflexivity.
        + intro X; inversion X; subst. rewrite Hw. reflexivity.
      - destruct (get_leaf_path g (e_key e)); [|discriminate]. destruct (entry_leaf H (e_key e) (e_value e)). intro X; inversion X; subst. rewrite Hw. reflexivity.
      - destruct (get_leaf_path g (e_key e)) as [lp|]; [|discriminate]. destruct (sibling lp) as [sp|]; [|discriminate]. destruct (get_node g sp) as [[s|b]|]; [| |discriminate].
        + destruct (promote (length sp) g (removelast sp) []) as [[pp co]| |]; cbn [bind]; try discriminate. intro X; inversion X; subst. cbn [insert_node g_db].
          match goal with |- g_db (fold_left _ co ?m) = _ => assert (Y : forall x, g_db (fold_left (fun x p => insert_node x p None) co x) = g_db x) end.
          { clear. induction co as [|c co IH]; intro x; cbn [fold_left]; [reflexivity|]. rewrite IH. reflexivity. }
          rewrite Y. reflexivity.
        + intro X; inversion X; subst. reflexivity.
      - intro X; inversion X; reflexivity. }
    assert (Hes : forall es g, g_db (fst (insert_entries H g es)) = g_db g).
    { induction es as [|e es IH]; intro g; cbn [insert_entries]; [reflexivity|]. destruct (insert_entry H g e) eqn:E; try reflexivity. rewrite IH. eapply He. eassumption. }
    assert (Hrc : forall l g, g_db (fst (recompute H g l)) = g_db g).
    { induction l as [|p l IH]; intro g; cbn [recompute]; [reflexivity|]. destruct (recompute_at H g p) eqn:E; try reflexivity. rewrite IH. unfold recompute_at in E.
      destruct (aget (g_nodes g) p) as [[[?|?]|]|]; try (inversion E; reflexivity); destruct (get_node g p) as [[?|?]|]; try discriminate; destruct (child p false), (child p true); try discriminate; inversion E; reflexivity. }
    intros g es. unfold prepare_commit. destruct es as [|e es]; [reflexivity|]. pose proof (Hes (e :: es) g) as A. destruct (insert_entries H g (e :: es)) as [m1 [u| |]]; cbn [fst] in A; try exact A.
    unfold prepare_node_writes. destruct (sort_paths (g_aff m1)) as [|p l]; [exact A|]. pose proof (Hrc (p :: l) (take_affected m1)) as B. destruct (recompute H (take_affected m1) (p :: l)) as [m2 [u2| |]]; cbn [fst] in B; cbn [fst snd]; try (rewrite <- A; exact B).
    destruct (aget (g_nodes m2) []) as [[n|]|]; cbn; rewrite <- A; exact B.
  Qed.
End Trie.
