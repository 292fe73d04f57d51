(** Updates, removals, batches. *)
From Verif Require Import Base Trie_Model Trie_Spec TrieCodec_Proofs TrieShape_Proofs Trie_Proofs Trie2_Proofs.
From Coq Require Import Permutation.

Section Trie.
  Context (H : bytes -> bytes).
  Notation hz := (hash_or_zero H).
  Notation Inv := (Inv H).
  Notation childok := (childok H).

  Lemma find_leaf : forall g d0 d k, Inv g d0 d -> In k (map fst d) -> exists lp n v, get_leaf_path g k = Some lp /\ n <= length k /\ lp = firstn n k /\
    K H d lp = KLeaf (the_leaf H (k, v)) /\ U d lp = [(k, v)] /\ opn d lp = true /\ length k = KEY_BITS.
  Proof.
    intros g d0 d k I Ik. pose proof (i_lp _ _ _ _ I k) as L. destruct (get_leaf_path g k) as [lp|]; [|contradiction].
    destruct L as [l [L1 L2]]. pose proof (i_view _ _ _ _ I lp) as V. rewrite L1 in V. symmetry in V. cbn in V.
    destruct (leaf_at H d lp k l (i_d _ _ _ _ I) V L2) as [v [n [A [B [C [D [E F]]]]]]]. exists lp, n, v. subst l. repeat split; try assumption.
    apply K_leaf in V. apply V.
  Qed.
  Lemma keys_del : forall k d x, In x (map fst (del k d)) <-> In x (map fst d) /\ x <> k.
  Proof.
    intros. rewrite !keys_In. split.
    - intros [v X]. apply del_In in X. simpl in X. split; [exists v; tauto|tauto].
    - intros [[v X] N]. exists v. apply del_In. auto.
  Qed.

  Lemma update_ok : forall g d0 d k v, Inv g d0 d -> In k (map fst d) ->
    exists g', update_entry H g k v = Ok g' /\ Inv g' d0 ((k, v) :: del k d) /\ step_ok g g' (swrite H k v).
  Proof.
    intros g d0 d k v I Ik. destruct (find_leaf g d0 d k I Ik) as [lp [n [v0 [Elp [Hn [Ep [Kl [Us [Op Lk]]]]]]]]].
    unfold update_entry. rewrite Elp. pose proof (swrite_spec H) as Sw.
    destruct (entry_leaf H k v) as [lf w] eqn:Elf. assert (El : lf = the_leaf H (k, v)) by (unfold the_leaf; cbn [fst snd]; rewrite Elf; reflexivity).
    assert (Ew : w = snd (entry_leaf H k v)) by (rewrite Elf; reflexivity). clear Elf. subst lf w.
    assert (Kd' : keys_ok ((k, v) :: del k d)). { apply keys_ok_cons; [apply keys_ok_del, (i_d _ _ _ _ I)|assumption|]. rewrite keys_del. tauto. }
    rewrite Ep in Us, Op. destruct (update_K H d k v n (i_d _ _ _ _ I) Lk Ik Hn Op) as [K1 K2]; [rewrite Us; reflexivity|]. set (d' := (k, v) :: del k d) in *.
    assert (Up : forall j, j < n -> 2 <= cnt d' (firstn j k)).
    { intros j L. unfold d'. rewrite cnt_cons_firstn, cnt_del; [|apply (i_d _ _ _ _ I)|assumption|apply firstn_starts].
      rewrite opn_firstn in Op by assumption. destruct n as [|n']; [lia|]. apply Nat.leb_le in Op. pose proof (cnt_firstn d k j n' ltac:(lia)). lia. }
    eexists. split; [reflexivity|]. rewrite Sw. split; [|split; [reflexivity|split; [reflexivity|split; [reflexivity|]]]].
    2: { simpl. apply in_or_app. left. rewrite Ep. apply all_paths_firstn; [assumption|]. exists 0. split; [lia|reflexivity]. }
    set (g' := mk_mgr _ _ _ _ _ _). rewrite <- Ep in *.
    apply (Inv_step H g g' d0 d d' [(lp, Some (NLeaf (the_leaf H (k, v))))] [] (all_paths_to_root lp)); try assumption; try reflexivity.
    - intros x w X. rewrite aget_cons in X. destruct (path_eqb_spec lp x) as [E|E]; [|discriminate]. inversion X. rewrite <- E, K1. reflexivity.
    - intros x X. rewrite aget_cons in X. destruct (path_eqb_spec lp x) as [|N]; [discriminate|]. apply K2. congruence.
    - intros x X. rewrite Ep in X. apply all_paths_firstn in X; [|lia]. destruct X as [j [J ->]]. destruct (Nat.eq_dec j n) as [->|].
      + left. rewrite <- Ep. rewrite aget_cons, path_eqb_refl. discriminate.
      + right. apply K_two. apply Up. lia.
    - intros x X. rewrite aget_cons in X. destruct (path_eqb_spec lp x) as [E|E]; [|exfalso; apply X; reflexivity]. rewrite <- E, Ep. apply all_paths_firstn; [lia|]. exists n. split; [lia|reflexivity].
    - intros p b' X. rewrite Ep in *. eapply all_paths_up; [|exact X]. lia.
    - intros p b' X. rewrite aget_cons in X. destruct (path_eqb lp p); discriminate.
    - intros k0 X. discriminate.
    - intros k0 p X. discriminate.
    - intros k0 _. split.
      + unfold d'. intros [<-|Y]; [assumption|]. apply keys_del in Y. apply Y.
      + intros p l Kp Ek. rewrite aget_cons. destruct (path_eqb_spec lp p) as [E|E]; [|left; reflexivity]. right. exists (the_leaf H (k, v)). split; [reflexivity|].
        rewrite the_leaf_key. subst p. rewrite Kl in Kp. inversion Kp. subst l. rewrite the_leaf_key in Ek. exact Ek.
  Qed.

  Lemma fold_insert : forall l m, fold_left (fun x p => insert_node x p None) l m = mk_mgr (g_db m) (map (fun p => (p, None)) (rev l) ++ g_nodes m) (g_lpaths m) (g_aff m) (g_state m) (g_writes m).
  Proof.
    induction l as [|p l IH]; intros m; [destruct m; reflexivity|]. cbn [fold_left rev]. rewrite IH. unfold insert_node. simpl. rewrite map_app, <- app_assoc. reflexivity.
  Qed.
  Lemma aget_nones : forall l x, aget (map (fun p : path => (p, @None node)) l) x = if in_dec (list_eq_dec Bool.bool_dec) x l then Some None else None.
  Proof.
    induction l as [|p l IH]; intros x; [reflexivity|]. cbn [map]. rewrite aget_cons, IH. destruct (path_eqb_spec p x) as [->|N].
    - destruct (in_dec _ x (x :: l)) as [|X]; [reflexivity|exfalso; apply X; left; reflexivity].
    - destruct (in_dec _ x l) as [I|I], (in_dec _ x (p :: l)) as [J|J]; try reflexivity; exfalso.
      + apply J. right. assumption.
      + destruct J as [J|J]; [congruence|contradiction].
  Qed.

  Lemma remove_ok : forall g d0 d k k', Inv g d0 d -> In k (map fst d) -> In k' (map fst d) -> k' <> k ->
    exists g', remove_entry g k = Ok g' /\ Inv g' d0 (del k d) /\ step_ok g g' [].
  Proof.
    intros g d0 d k k' I Ik Ik' Nk. destruct (find_leaf g d0 d k I Ik) as [lp [n [v0 [Elp [Hn [Ep [Kl [Us [Op Lk]]]]]]]]].
    pose proof (i_d _ _ _ _ I) as Kd. unfold remove_entry. rewrite Elp.
    destruct n as [|n].
    { exfalso. simpl in Ep. subst lp. rewrite U_nil in Us. rewrite Us in Ik'. destruct Ik' as [X|[]]. simpl in X. congruence. }
    assert (Esnoc : lp = firstn n k ++ [nth n k false]) by (rewrite Ep; apply firstn_snoc; lia).
    set (sp := firstn n k ++ [negb (nth n k false)]) in *.
    assert (Esib : sibling lp = Some sp) by (rewrite Esnoc; apply sibling_snoc). rewrite Esib.
    assert (C1 : cnt d (firstn (S n) k) = 1) by (rewrite <- Ep; unfold cnt; rewrite Us; reflexivity).
    assert (C2 : 2 <= cnt d (firstn n k)). { rewrite Ep, opn_firstn in Op by assumption. apply Nat.leb_le in Op. assumption. }
    assert (Csp : cnt d (firstn n k) = 1 + cnt d sp).
    { rewrite cnt_split by (assumption || (rewrite firstn_len by lia; unfold KEY_BITS in *; lia)). rewrite firstn_snoc in C1 by lia. unfold sp. destruct (nth n k false); simpl; lia. }
    pose proof (i_view _ _ _ _ I sp) as V. unfold sp in V. rewrite K_snoc in V. replace (Nat.leb 2 (cnt d (firstn n k))) with true in V by (symmetry; apply Nat.leb_le; assumption). fold sp in V.
    pose proof (keys_ok_del k d Kd) as Kd'.
    destruct (get_node g sp) as [[s|b]|] eqn:G; symmetry in V.
    - (* a leaf *)
      apply kind_of_leaf in V. destruct V as [s' [Us' Es]]. assert (C2' : cnt d (firstn n k) = 2) by (rewrite Csp; unfold cnt; rewrite Us'; reflexivity).
      assert (Rsp : removelast sp = firstn n k) by apply removelast_last. rewrite Rsp.
      assert (Lsp : length sp = S n) by (unfold sp; rewrite app_length, firstn_len by lia; simpl; lia).
      destruct (promote_ok H g d0 d k I Lk n (length sp) [] ltac:(lia) ltac:(lia) C2') as [i [coll [Epr [Hi [Ci [Up Co]]]]]]. rewrite Epr. cbn [bind app].
      destruct (remove_leaf H d k s' n i Kd Lk Ik Hn Hi C1 Us' Ci Up C2') as [K1 [K2 [K3 [K4 K5]]]]. fold sp in K3, K5. rewrite <- Ep in K2, K5.
      set (pp := firstn i k) in *.
      assert (Is : In s' d /\ starts_with (fst s') sp = true). { assert (X : In s' (U d sp)) by (rewrite Us'; left; reflexivity). apply U_In in X. assumption. }
      assert (Ns : fst s' <> k).
      { destruct Is as [_ X]. intros E. rewrite E in X. unfold sp in X. rewrite starts_with_snoc, firstn_len in X by lia. apply Bool.andb_true_iff in X. destruct X as [_ X]. apply Bool.andb_true_iff in X. destruct X as [_ X]. destruct (nth n k false); discriminate. }
      rewrite fold_insert. cbn [g_db g_nodes g_lpaths g_aff g_state g_writes insert_leaf_path insert_node insert_affected extend_affected].
      eexists. split; [reflexivity|]. split; [|split; [reflexivity|split; [reflexivity|split; [simpl; rewrite app_nil_r; reflexivity|]]]].
      2: { simpl. right. apply in_or_app. left. rewrite Ep. apply all_paths_firstn; [assumption|]. exists 0. split; [lia|reflexivity]. }
      unfold insert_node. cbn [g_db g_nodes g_lpaths g_aff g_state g_writes]. set (g' := mk_mgr _ _ _ _ _ _).
      set (ins := (pp, Some (NLeaf s)) :: map (fun p => (p, None)) (rev coll) ++ [(sp, None); (lp, None)]).
      assert (Ain : forall x, aget ins x = if path_eqb pp x then Some (Some (NLeaf s)) else if in_dec (list_eq_dec Bool.bool_dec) x (rev coll) then Some None else if path_eqb sp x then Some None else if path_eqb lp x then Some None else None).
      { intro x. unfold ins. rewrite aget_cons. destruct (path_eqb pp x); [reflexivity|]. rewrite aget_app, aget_nones. destruct (in_dec _ x (rev coll)); [reflexivity|]. rewrite !aget_cons. reflexivity. }
      assert (Cset : forall x, In x (rev coll) <-> exists t, i < t /\ t <= n /\ x = firstn t k) by (intro x; rewrite <- in_rev; apply Co).
      apply (Inv_step H g g' d0 d (del k d) ins [(fst s', Some pp); (k, None)] (sp :: all_paths_to_root lp)); try assumption; try reflexivity.
      + simpl. unfold ins. cbn [app]. rewrite <- app_assoc. reflexivity.
      + simpl. rewrite Es, the_leaf_key. reflexivity.
      + intros x w X. rewrite Ain in X. destruct (path_eqb_spec pp x) as [E|N1]; [inversion X; rewrite <- E, K1, Es; reflexivity|].
        destruct (in_dec _ x (rev coll)) as [J|J]. { apply Cset in J. destruct J as [t [T1 [T2 ->]]]. inversion X. rewrite K4 by assumption. reflexivity. }
        destruct (path_eqb_spec sp x) as [E|N2]; [inversion X; rewrite <- E, K3; reflexivity|]. destruct (path_eqb_spec lp x) as [E|N3]; [inversion X; rewrite <- E, K2; reflexivity|discriminate].
      + intros x X. rewrite Ain in X. destruct (path_eqb_spec pp x) as [|N1]; [discriminate|]. destruct (in_dec _ x (rev coll)) as [|J]; [discriminate|].
        destruct (path_eqb_spec sp x) as [|N2]; [discriminate|]. destruct (path_eqb_spec lp x) as [|N3]; [discriminate|].
        apply K5; [congruence|congruence|]. intros j J1 J2 E. destruct (Nat.eq_dec j i) as [->|]; [apply N1; symmetry; exact E|]. apply J. apply Cset. exists j. split; [lia|]. auto.
      + intros x X. rewrite Ain. destruct (path_eqb_spec pp x) as [|N1]; [left; discriminate|]. destruct (in_dec _ x (rev coll)) as [|J]; [left; discriminate|].
        destruct (path_eqb_spec sp x) as [|N2]; [left; discriminate|]. destruct (path_eqb_spec lp x) as [|N3]; [left; discriminate|]. right.
        destruct X as [X|X]; [congruence|]. rewrite Ep in X. apply all_paths_firstn in X; [|lia]. destruct X as [j [J1 ->]].
        assert (j < i).
        { destruct (Nat.ltb_spec j i) as [L|L]; [assumption|exfalso]. destruct (Nat.eq_dec j i) as [->|]; [apply N1; reflexivity|]. destruct (Nat.eq_dec j (S n)) as [->|]; [congruence|].
          apply J. apply Cset. exists j. split; [lia|]. split; [lia|reflexivity]. }
        apply K_two. pose proof (Up j H0). pose proof (cnt_del k d (firstn j k) Kd Ik (firstn_starts j k)). lia.
      + assert (Ap : forall j, j <= S n -> In (firstn j k) (all_paths_to_root lp)) by (intros j Hj; rewrite Ep; apply all_paths_firstn; [lia|]; exists j; auto).
        intros x X. rewrite Ain in X. destruct (path_eqb_spec pp x) as [E|N1]; [right; rewrite <- E; apply Ap; lia|].
        destruct (in_dec _ x (rev coll)) as [J|J]; [apply Cset in J; destruct J as [t [T1 [T2 ->]]]; right; apply Ap; lia|].
        destruct (path_eqb_spec sp x) as [E|N2]; [left; assumption|]. destruct (path_eqb_spec lp x) as [E|N3]; [|congruence]. right. rewrite <- E, Ep at 1. apply Ap. lia.
      + intros p b X. right. rewrite Ep in *. destruct X as [X|X]; [|eapply all_paths_up; [|exact X]; lia]. unfold sp in X. apply app_inj_tail in X. destruct X as [<- _]. apply all_paths_firstn; [lia|]. exists n. split; [lia|reflexivity].
      + intros p b X. rewrite Ain in X. destruct (path_eqb pp p); [discriminate|]. destruct (in_dec _ p (rev coll)); [discriminate|]. destruct (path_eqb sp p); [discriminate|]. destruct (path_eqb lp p); discriminate.
      + intros k0 X. rewrite !aget_cons in X. destruct (path_eqb (fst s') k0); [discriminate|]. destruct (path_eqb_spec k k0) as [E|]; [|discriminate]. intro Y. apply keys_del in Y. destruct Y as [_ Y]. congruence.
      + intros k0 p X. rewrite !aget_cons in X. destruct (path_eqb_spec (fst s') k0) as [E|].
        * inversion X; subst p. exists s. rewrite Ain, path_eqb_refl, Es, the_leaf_key. auto.
        * destruct (path_eqb k k0); discriminate.
      + intros k0 X. rewrite !aget_cons in X. destruct (path_eqb_spec (fst s') k0) as [|N1]; [discriminate|]. destruct (path_eqb_spec k k0) as [|N2]; [discriminate|]. split.
        * intro Y. apply keys_del in Y. apply Y.
        * intros p l Kp Ek. left. rewrite Ain.
          assert (Ncnt : cnt d p = 1). { destruct (leaf_at H d p k0 l Kd Kp Ek) as [v1 [n1 [_ [_ [_ [A _]]]]]]. unfold cnt. rewrite A. reflexivity. }
          assert (Mid : forall j, i <= j -> j <= n -> cnt d (firstn j k) = 2). { intros j L1 L2. pose proof (cnt_firstn d k i j L1). pose proof (cnt_firstn d k j n L2). fold pp in H0. lia. }
          rewrite (path_eqb_neq pp p) by (intros <-; unfold pp in Ncnt; rewrite (Mid i) in Ncnt; lia).
          destruct (in_dec _ p (rev coll)) as [J|J]. { exfalso. apply Cset in J. destruct J as [t [T1 [T2 ->]]]. rewrite (Mid t) in Ncnt; lia. }
          destruct (leaf_at H d p k0 l Kd Kp Ek) as [v1 [n1 [_ [_ [_ [A _]]]]]].
          rewrite (path_eqb_neq sp p). 2: { intros <-. rewrite Us' in A. inversion A as [B]. rewrite B in N1. simpl in N1. congruence. }
          rewrite (path_eqb_neq lp p). 2: { intros <-. rewrite Us in A. inversion A. congruence. }
          reflexivity.
    - (* a branch *)
      apply kind_of_branch in V. fold (cnt d sp) in V.
      destruct (remove_branch H d k n Kd Lk Ik Hn C1 ltac:(lia)) as [K1 K2]. rewrite <- Ep in K1, K2.
      eexists. split; [reflexivity|]. split; [|split; [reflexivity|split; [reflexivity|split; [simpl; rewrite app_nil_r; reflexivity|]]]].
      2: { simpl. apply in_or_app. left. rewrite Ep. apply all_paths_firstn; [assumption|]. exists 0. split; [lia|reflexivity]. }
      set (g' := insert_leaf_path _ _ _).
      apply (Inv_step H g g' d0 d (del k d) [(lp, None)] [(k, None)] (all_paths_to_root lp)); try assumption; try reflexivity.
      + intros x w X. rewrite aget_cons in X. destruct (path_eqb_spec lp x) as [E|E]; [|discriminate]. inversion X. rewrite <- E, K1. reflexivity.
      + intros x X. rewrite aget_cons in X. destruct (path_eqb_spec lp x) as [|N]; [discriminate|]. apply K2. congruence.
      + intros x X. rewrite Ep in X. apply all_paths_firstn in X; [|lia]. destruct X as [j [J ->]]. destruct (Nat.eq_dec j (S n)) as [->|].
        * left. rewrite <- Ep. rewrite aget_cons, path_eqb_refl. discriminate.
        * right. apply K_two. pose proof (cnt_firstn d k j n ltac:(lia)). pose proof (cnt_del k d (firstn j k) Kd Ik (firstn_starts j k)). lia.
      + intros x X. rewrite aget_cons in X. destruct (path_eqb_spec lp x) as [E|E]; [|exfalso; apply X; reflexivity]. rewrite <- E, Ep. apply all_paths_firstn; [lia|]. exists (S n). split; [lia|reflexivity].
      + intros p b' X. rewrite Ep in *. eapply all_paths_up; [|exact X]. lia.
      + intros p b' X. rewrite aget_cons in X. destruct (path_eqb lp p); discriminate.
      + intros k0 X. rewrite aget_cons in X. destruct (path_eqb_spec k k0) as [E|]; [|discriminate]. intro Y. apply keys_del in Y. destruct Y as [_ Y]. congruence.
      + intros k0 p X. rewrite aget_cons in X. destruct (path_eqb k k0); discriminate.
      + intros k0 X. rewrite aget_cons in X. destruct (path_eqb_spec k k0) as [|N]; [discriminate|]. split.
        * intro Y. apply keys_del in Y. apply Y.
        * intros p l Kp Ek. left. rewrite aget_cons, path_eqb_neq; [reflexivity|]. intros <-. rewrite Kl in Kp. inversion Kp. subst l. rewrite the_leaf_key in Ek. simpl in Ek. congruence.
    - exfalso. apply kind_of_none in V. apply cnt_zero in V. lia.
  Qed.

  (** ** A batch of entries *)
  Definition fits_list (d : list kv) (e : entry) : Prop :=
    match e_status e with
    | SAdd => length (e_key e) = KEY_BITS /\ ~ In (e_key e) (map fst d)
    | SUpdate => In (e_key e) (map fst d)
    | SRemove => In (e_key e) (map fst d) /\ exists k', In k' (map fst d) /\ k' <> e_key e
    | SClean => True
    end.
  Fixpoint fits_batch (d : list kv) (es : list entry) : Prop :=
    match es with [] => True | e :: r => fits_list d e /\ fits_batch (apply_list d e) r end.
  Definition some_write (es : list entry) : Prop := exists e, In e es /\ e_status e <> SClean.
  Lemma entry_ok : forall g d0 d e, Inv g d0 d -> fits_list d e ->
    exists g', insert_entry H g e = Ok g' /\ Inv g' d0 (apply_list d e) /\ g_db g' = g_db g /\ g_writes g' = g_writes g /\ g_state g' = g_state g ++ eswrite H e /\
      (e_status e <> SClean -> In [] (g_aff g')) /\ (In [] (g_aff g) -> In [] (g_aff g')).
  Proof.
    intros g d0 d e I F. unfold insert_entry, fits_list, apply_list, eswrite in *. destruct (e_status e).
    - destruct F as [L N]. destruct (add_ok H g d0 d (e_key e) (e_value e) I L N) as [g' [E [I' [A [B [C D]]]]]]. exists g'. split; [assumption|]. split; [assumption|]. auto.
    - destruct (update_ok g d0 d (e_key e) (e_value e) I F) as [g' [E [I' [A [B [C D]]]]]]. exists g'. split; [assumption|]. split; [assumption|]. auto.
    - destruct F as [L [k' [N1 N2]]]. destruct (remove_ok g d0 d (e_key e) k' I L N1 N2) as [g' [E [I' [A [B [C D]]]]]]. exists g'. split; [assumption|]. split; [assumption|]. auto.
    - exists g. rewrite app_nil_r. split; [reflexivity|]. split; [assumption|]. repeat split; auto. congruence.
  Qed.
  Lemma entries_ok : forall es g d0 d, Inv g d0 d -> fits_batch d es ->
    exists g', insert_entries H g es = (g', Ok tt) /\ Inv g' d0 (fold_left apply_list es d) /\ g_db g' = g_db g /\ g_writes g' = g_writes g /\ g_state g' = g_state g ++ flat_map (eswrite H) es /\
      (In [] (g_aff g) \/ some_write es -> In [] (g_aff g')) /\ (~ some_write es -> g_aff g' = g_aff g).
  Proof.
    induction es as [|e es IH]; intros g d0 d I F; cbn [insert_entries fold_left flat_map].
    - exists g. rewrite app_nil_r. split; [reflexivity|]. split; [assumption|]. repeat split; auto. intros [X|[e [[] _]]]; assumption.
    - destruct F as [F1 F2]. destruct (entry_ok g d0 d e I F1) as [g1 [E1 [I1 [A1 [B1 [C1 [D1 D2]]]]]]].
      destruct (IH g1 d0 _ I1 F2) as [g2 [E2 [I2 [A2 [B2 [C2 [D3 D4]]]]]]]. exists g2. rewrite E1, E2. split; [reflexivity|]. split; [assumption|].
      split; [congruence|]. split; [congruence|]. split; [rewrite C2, C1, app_assoc; reflexivity|]. split.
      + intros [X|[e' [[<-|X] N]]]; apply D3; [left; auto|left; auto|right; exists e'; auto].
      + intro N. rewrite D4. 2: { intros [e' [X Y]]. apply N. exists e'. split; [right; assumption|assumption]. }
        assert (Ec : e_status e = SClean). { destruct (e_status e) eqn:Es; [exfalso; apply N..|reflexivity]; exists e; (split; [left; reflexivity|congruence]). }
        unfold insert_entry in E1. rewrite Ec in E1. inversion E1. reflexivity.
  Qed.
End Trie.
