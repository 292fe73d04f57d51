(** Each entry of a batch keeps the trie canonical. *)
From Verif Require Import Base Trie_Model Trie_Spec TrieCodec_Proofs TrieShape_Proofs Trie_Proofs.
From Coq Require Import Permutation.

Lemma match_nonempty : forall A B (l : list A) (a b : B), l <> [] -> match l with [] => a | _ :: _ => b end = b.
Proof. intros A B [|x l] a b N; [congruence|reflexivity]. Qed.
Section Trie.
  Context (H : bytes -> bytes).
  Notation hz := (hash_or_zero H).
  Notation Inv := (Inv H).
  Notation childok := (childok H).

  Definition same_but (g g' : mgr) (ins : amap (option node)) : Prop :=
    g' = mk_mgr (g_db g) (ins ++ g_nodes g) (g_lpaths g) (g_aff g) (g_state g) (g_writes g).
  Lemma cs_same_but : forall g g' ins x, same_but g g' ins -> cs g' x = match aget ins x with Some w => Some w | None => cs g x end.
  Proof. intros g g' ins x ->. unfold cs. simpl. apply aget_app. Qed.

  Lemma raise_snoc : forall f m q c lo l r, lo <= S (length q) ->
    raise H (S f) m (q ++ [c]) lo l r =
    (let m1 := insert_node m (q ++ [c]) (Some (NBranch (new_branch l r))) in let sh := hz (get_node m1 (q ++ [negb c])) in
     raise H f m1 q lo (if c then sh else node_hash H (NBranch (new_branch l r))) (if c then node_hash H (NBranch (new_branch l r)) else sh)).
  Proof.
    intros. cbn [raise]. replace (Nat.ltb (length (q ++ [c])) lo) with false by (symmetry; apply Nat.ltb_ge; rewrite app_length; simpl; lia).
    rewrite sibling_snoc, last_last, removelast_last. destruct (q ++ [c]) eqn:E; [destruct q; discriminate|]. destruct c; reflexivity.
  Qed.
  Lemma raise_ok : forall fuel m bp lo l r, length bp < fuel ->
    (cs m (bp ++ [false]) = None -> skipn 1 (bits l) = skipn 1 (bits (hz (db m (bp ++ [false]))))) ->
    (cs m (bp ++ [true]) = None -> bits r = bits (hz (db m (bp ++ [true])))) ->
    exists ins m', raise H fuel m bp lo l r = Ok m' /\ same_but m m' ins /\
      (forall j, lo <= j -> j <= length bp -> exists b, aget ins (firstn j bp) = Some (Some (NBranch b))) /\
      (forall x, aget ins x <> None -> exists j, lo <= j /\ j <= length bp /\ x = firstn j bp) /\
      (forall x b, aget ins x = Some (Some (NBranch b)) -> childok m' x b).
  Proof.
    induction fuel as [|f IH]; intros m bp lo l r Hf Cl Cr; [lia|].
    destruct (Nat.ltb_spec (length bp) lo) as [L|L].
    { exists [], m. split; [cbn [raise]; replace (Nat.ltb (length bp) lo) with true by (symmetry; apply Nat.ltb_lt; assumption); reflexivity|].
      split; [destruct m; reflexivity|]. split; [intros; lia|]. split; [intros x X; exfalso; apply X; reflexivity|intros x b X; discriminate]. }
    set (b := NBranch (new_branch l r)). set (m1 := insert_node m bp (Some b)).
    destruct (path_snoc bp) as [Ebp|[q [c Ebp]]].
    - subst bp. exists [([], Some b)], m1. split; [simpl in L; replace lo with 0 by lia; reflexivity|]. split; [reflexivity|]. split; [|split].
      + intros j _ Hj. simpl in Hj. replace j with 0 by lia. exists (new_branch l r). reflexivity.
      + intros x X. apply aget_In in X. destruct X as [X|[]]. simpl in X. subst x. exists 0. simpl in *. split; [lia|split; [lia|reflexivity]].
      + intros x b' X. rewrite aget_cons in X. destruct (path_eqb_spec [] x) as [<-|]; [|discriminate]. inversion X; subst b'. unfold childok, cs, db, m1. simpl. split; intro N.
        * rewrite aget_cons in N. exact (Cl N).
        * rewrite aget_cons in N. exact (Cr N).
    - 
      assert (Hq : length bp = S (length q)) by (rewrite Ebp, app_length; simpl; lia).
      assert (Cbp : cs m1 (q ++ [c]) = Some (Some b)). { rewrite <- Ebp. unfold cs, m1. simpl. rewrite aget_cons, path_eqb_refl. reflexivity. }
      assert (Csib : cs m1 (q ++ [negb c]) = None -> hz (get_node m1 (q ++ [negb c])) = hz (db m1 (q ++ [negb c]))).
      { intro N. rewrite get_node_cs, N. reflexivity. }
      assert (IHc : forall l' r', (l' = (if c then hz (get_node m1 (q ++ [negb c])) else node_hash H b)) -> (r' = (if c then node_hash H b else hz (get_node m1 (q ++ [negb c])))) ->
        exists ins m', raise H f m1 q lo l' r' = Ok m' /\ same_but m1 m' ins /\
          (forall j, lo <= j -> j <= length q -> exists b, aget ins (firstn j q) = Some (Some (NBranch b))) /\
          (forall x, aget ins x <> None -> exists j, lo <= j /\ j <= length q /\ x = firstn j q) /\
          (forall x b, aget ins x = Some (Some (NBranch b)) -> childok m' x b)).
      { intros l' r' -> ->. apply IH; [lia| |]; intro N.
        - destruct c; simpl in *; [|congruence]. rewrite Csib by assumption. reflexivity.
        - destruct c; simpl in *; [congruence|]. rewrite Csib by assumption. reflexivity. }
      destruct (IHc _ _ eq_refl eq_refl) as [ins [m' [E [S [A [B C]]]]]].
      rewrite Ebp, raise_snoc by lia. rewrite <- Ebp. cbv zeta. fold b. fold m1.
      assert (Fq : forall j, j <= length q -> firstn j bp = firstn j q). { intros j Hj. rewrite Ebp, firstn_app. replace (j - length q) with 0 by lia. simpl. apply app_nil_r. }
      exists (ins ++ [(bp, Some b)]), m'. split; [exact E|]. split; [rewrite S; unfold same_but, m1, insert_node; simpl; rewrite <- app_assoc; reflexivity|]. split; [|split].
      + intros j Lj Hj. destruct (Nat.eq_dec j (length bp)) as [->|].
        * rewrite firstn_all, aget_app. destruct (aget ins bp) eqn:X.
          -- exfalso. destruct (B bp) as [t [_ [T1 T2]]]; [congruence|]. apply (f_equal (@length bool)) in T2. rewrite firstn_len in T2 by assumption. lia.
          -- exists (new_branch l r). rewrite aget_cons, path_eqb_refl. reflexivity.
        * destruct (A j Lj ltac:(lia)) as [b' X]. exists b'. rewrite Fq by lia. rewrite aget_app, X. reflexivity.
      + intros x X. rewrite aget_app in X. destruct (aget ins x) eqn:Y.
        * destruct (B x) as [j [J1 [J2 ->]]]; [congruence|]. exists j. split; [assumption|]. split; [lia|]. rewrite Fq by assumption. reflexivity.
        * apply aget_In in X. destruct X as [X|[]]. simpl in X. subst x. exists (length bp). split; [assumption|]. split; [lia|]. symmetry. apply firstn_all.
      + intros x b' X. rewrite aget_app in X. destruct (aget ins x) eqn:Y; [apply C; congruence|].
        rewrite aget_cons in X. destruct (path_eqb_spec bp x) as [<-|]; [|discriminate]. inversion X; subst b'.
        assert (Edb : forall z, db m' z = db m z) by (intro z; rewrite S; reflexivity).
        assert (Ecs : forall z, cs m' z = None -> cs m z = None).
        { intros z N. rewrite (cs_same_but _ _ _ _ S) in N. destruct (aget ins z); [discriminate|]. unfold cs, m1 in N. simpl in N. rewrite aget_cons in N. destruct (path_eqb bp z); [discriminate|exact N]. }
        unfold childok. rewrite !Edb. split; intro N; apply Ecs in N; [exact (Cl N)|exact (Cr N)].
  Qed.

  Lemma promote_ok : forall g d0 d (k : path), Inv g d0 d -> length k = KEY_BITS ->
    forall j fuel acc, j <= fuel -> j <= length k -> cnt d (firstn j k) = 2 ->
    exists i coll, promote fuel g (firstn j k) acc = Ok (firstn i k, acc ++ coll) /\ i <= j /\ cnt d (firstn i k) = 2 /\
      (forall t, t < i -> 3 <= cnt d (firstn t k)) /\ (forall x, In x coll <-> exists t, i < t /\ t <= j /\ x = firstn t k).
  Proof.
    intros g d0 d k I Lk. induction j as [|j IH]; intros fuel acc Hf Hj C.
    - exists 0, []. split; [destruct fuel; simpl; rewrite app_nil_r; reflexivity|]. split; [lia|]. split; [assumption|]. split; [intros; lia|].
      intro x. split; [intros []|intros [t [A [B _]]]; lia].
    - destruct fuel as [|f]; [lia|].
      assert (C' : 2 <= cnt d (firstn j k)) by (pose proof (cnt_firstn d k j (S j) ltac:(lia)); lia).
      assert (Eq : promote (S f) g (firstn (S j) k) acc = match get_node g (firstn j k) with
        | Some (NBranch _) => if xorb (match get_node g (firstn j k ++ [false]) with None => true | Some _ => false end) (match get_node g (firstn j k ++ [true]) with None => true | Some _ => false end)
            then promote f g (firstn j k) (acc ++ [firstn (S j) k]) else Ok (firstn (S j) k, acc)
        | _ => Err EBranchStructure end).
      { cbn [promote]. destruct (firstn (S j) k) eqn:E; [apply (f_equal (@length bool)) in E; rewrite firstn_len in E by assumption; discriminate|].
        rewrite <- E, removelast_firstn by lia. reflexivity. }
      rewrite Eq. clear Eq.
      pose proof (i_view _ _ _ _ I (firstn j k)) as V. rewrite K_two in V by assumption. destruct (kindv_branch _ V) as [b Eb]. rewrite Eb.
      pose proof (cnt_split d (firstn j k) (i_d _ _ _ _ I) ltac:(rewrite firstn_len by lia; unfold KEY_BITS in *; lia)) as Sp.
      assert (Ch : forall c, match get_node g (firstn j k ++ [c]) with None => true | Some _ => false end = Nat.eqb (cnt d (firstn j k ++ [c])) 0).
      { intro c. pose proof (i_view _ _ _ _ I (firstn j k ++ [c])) as Vc. rewrite K_snoc in Vc. replace (Nat.leb 2 (cnt d (firstn j k))) with true in Vc by (symmetry; apply Nat.leb_le; assumption).
        unfold cnt. destruct (get_node g (firstn j k ++ [c])) as [n|].
        - destruct (U d (firstn j k ++ [c])); [destruct n; discriminate|reflexivity].
        - symmetry in Vc. apply kind_of_none in Vc. rewrite Vc. reflexivity. }
      rewrite !Ch. rewrite firstn_snoc in C by lia.
      destruct (Nat.eq_dec (cnt d (firstn j k)) 2) as [E2|E2].
      + replace (xorb _ _) with true.
        * destruct (IH f (acc ++ [firstn (S j) k]) ltac:(lia) ltac:(lia) E2) as [i [coll [E [Hi [Ci [Up Co]]]]]].
          exists i, (firstn (S j) k :: coll). split; [rewrite E, <- app_assoc; reflexivity|]. split; [lia|]. split; [assumption|]. split; [assumption|].
          intro x. cbn [In]. rewrite Co. split.
          -- intros [<-|[t [A [B E']]]]; [exists (S j); split; [lia|split; [lia|reflexivity]]|exists t; split; [lia|split; [lia|assumption]]].
          -- intros [t [A [B E']]]. destruct (Nat.eq_dec t (S j)) as [->|]; [left; congruence|right; exists t; split; [lia|split; [lia|assumption]]].
        * destruct (nth j k false); rewrite C in Sp.
          -- replace (cnt d (firstn j k ++ [false])) with 0 by lia. rewrite C. reflexivity.
          -- replace (cnt d (firstn j k ++ [true])) with 0 by lia. rewrite C. reflexivity.
      + replace (xorb _ _) with false.
        * exists (S j), []. split; [rewrite app_nil_r; reflexivity|]. split; [lia|]. split; [rewrite firstn_snoc by lia; assumption|]. split.
          -- intros t Ht. pose proof (cnt_firstn d k t j ltac:(lia)). lia.
          -- intro x. split; [intros []|intros [t [A [B _]]]; lia].
        * destruct (nth j k false); rewrite C in Sp.
          -- destruct (cnt d (firstn j k ++ [false])) eqn:Z; [lia|]. rewrite C. reflexivity.
          -- destruct (cnt d (firstn j k ++ [true])) eqn:Z; [lia|]. rewrite C. reflexivity.
  Qed.

  (** ** The entries *)
  Definition swrite (k : path) (v : bytes) : list (bytes * bytes) := if Nat.ltb 32 (length v) then [(H v, v)] else [].
  Lemma swrite_spec : forall g k v, insert_state_write g (snd (entry_leaf H k v)) = mk_mgr (g_db g) (g_nodes g) (g_lpaths g) (g_aff g) (g_state g ++ swrite k v) (g_writes g).
  Proof. intros [] k v. unfold entry_leaf, swrite. destruct (Nat.ltb 32 (length v)); simpl; [reflexivity|]. rewrite app_nil_r. reflexivity. Qed.
  Lemma entry_leaf_fst : forall k v, fst (entry_leaf H k v) = the_leaf H (k, v). Proof. reflexivity. Qed.
  Lemma upto_ok : forall (k : path) n, n <= length k -> upto k n = Ok (firstn n k).
  Proof. intros. unfold upto. replace (Nat.leb n (length k)) with true by (symmetry; apply Nat.leb_le; assumption). reflexivity. Qed.
  Lemma all_paths_firstn : forall (k : path) n x, n <= length k -> In x (all_paths_to_root (firstn n k)) <-> exists j, j <= n /\ x = firstn j k.
  Proof.
    intros k n x Hn. rewrite all_paths_In, firstn_len by assumption. split; intros [j [A B]]; exists j; (split; [assumption|]).
    - rewrite B, firstn_firstn. f_equal. lia.
    - rewrite B, firstn_firstn. f_equal. lia.
  Qed.
  Lemma all_paths_up : forall (k : path) n p b, n <= length k -> In (p ++ [b]) (all_paths_to_root (firstn n k)) -> In p (all_paths_to_root (firstn n k)).
  Proof.
    intros k n p b Hn X. rewrite all_paths_firstn in * by assumption. destruct X as [j [A B]]. exists (length p). 
    assert (Lj : length (p ++ [b]) = j) by (rewrite B; apply firstn_len; lia). rewrite app_length in Lj. simpl in Lj. split; [lia|].
    apply (f_equal (@removelast bool)) in B. rewrite removelast_last in B. rewrite B at 1. replace j with (S (length p)) by lia. apply removelast_firstn. lia.
  Qed.
  Definition apply_list (d : list kv) (e : entry) : list kv :=
    match e_status e with SAdd => (e_key e, e_value e) :: d | SUpdate => (e_key e, e_value e) :: del (e_key e) d | SRemove => del (e_key e) d | SClean => d end.
  Definition eswrite (e : entry) : list (bytes * bytes) := match e_status e with SAdd | SUpdate => swrite (e_key e) (e_value e) | _ => [] end.
  Definition step_ok (g g' : mgr) (w : list (bytes * bytes)) : Prop :=
    g_db g' = g_db g /\ g_writes g' = g_writes g /\ g_state g' = g_state g ++ w /\ In [] (g_aff g').

  Lemma add_ok : forall g d0 d k v, Inv g d0 d -> length k = KEY_BITS -> ~ In k (map fst d) ->
    exists g', add_entry H g k v = Ok g' /\ Inv g' d0 ((k, v) :: d) /\ step_ok g g' (swrite k v).
  Proof.
    intros g d0 d k v I Lk Nk. pose proof (keys_ok_cons k v d (i_d _ _ _ _ I) Lk Nk) as Kd'. set (d' := (k, v) :: d) in *.
    destruct (lcp_K H g d0 d k I) as [n [Hn [Er [Ne Dn]]]]. unfold add_entry, longest_common. set (r := find_longest_prefix g k) in *.
    pose proof (i_view _ _ _ _ I r) as V. pose proof (swrite_spec) as Sw.
    destruct (entry_leaf H k v) as [lf w] eqn:Elf. assert (El : lf = the_leaf H (k, v)) by (unfold the_leaf; cbn [fst snd]; rewrite Elf; reflexivity).
    assert (Ew : w = snd (entry_leaf H k v)) by (rewrite Elf; reflexivity). clear Elf. subst lf w.
    destruct (get_node g r) as [[s|b]|] eqn:G.
    - (* beside a leaf *)
      cbn [bind]. symmetry in V. destruct (K_leaf _ _ _ _ V) as [_ [s' [Us Es]]]. cbn in V. rewrite Er in V, Us. rewrite Es in V.
      destruct (add_leaf H d k v n s' (i_d _ _ _ _ I) Lk Nk Hn V Us) as [C1 [C2 [C3 [C4 [K1 [K2 [K3 [K4 K5]]]]]]]].
      set (c := common (fst s') k) in *. fold d' in K1, K2, K3, K4.
      assert (Is : In s' d). { assert (X : In s' (U d (firstn n k))) by (rewrite Us; left; reflexivity). apply U_In in X. apply X. }
      assert (Ls : length (fst s') = KEY_BITS). { destruct (i_d _ _ _ _ I) as [_ L]. rewrite Forall_forall in L. apply L. assumption. }
      assert (Nsk : fst s' <> k). { intros <-. apply Nk. apply in_map. assumption. }
      unfold derive_final_leaf_paths. rewrite Es, the_leaf_key. fold c. rewrite Nat.add_1_r. rewrite !upto_ok by lia. cbn [bind].
      set (sp := firstn (S c) (fst s')) in *. set (np := firstn (S c) k) in *.
      set (m1 := insert_affected (extend_affected g np) sp). set (m2 := insert_node (insert_node m1 np (Some (NLeaf (the_leaf H (k, v))))) sp (Some (NLeaf (the_leaf H s')))).
      assert (Enp : np = firstn c k ++ [nth c k false]) by (apply firstn_snoc; lia).
      assert (Esp : sp = firstn c k ++ [nth c (fst s') false]). { unfold sp. rewrite firstn_snoc by lia. rewrite C3. reflexivity. }
      assert (Nsp : sp <> np). { rewrite Enp, Esp. intro X. apply app_inv_head in X. inversion X. congruence. }
      assert (Lnp : length np = S c) by (apply firstn_len; lia).
      assert (Rnp : removelast np = firstn c k) by (apply removelast_firstn; lia).
      set (lr := if last np false then _ else _). destruct lr as [lh rh].
      assert (Csm2 : cs m2 (firstn c k ++ [false]) <> None /\ cs m2 (firstn c k ++ [true]) <> None).
      { unfold cs, m2. simpl. rewrite !aget_cons. rewrite Esp, Enp.
        destruct (nth c (fst s') false), (nth c k false); try congruence.
        - split; [|rewrite path_eqb_refl; discriminate]. destruct (path_eqb _ _); [discriminate|]. rewrite path_eqb_refl. discriminate.
        - split; [rewrite path_eqb_refl; discriminate|]. destruct (path_eqb _ _); [discriminate|]. rewrite path_eqb_refl. discriminate. }
      destruct (raise_ok (length np) m2 (removelast np) (length r) lh rh) as [ins [m3 [E3 [S3 [R1 [R2 R3]]]]]].
      { rewrite Rnp, firstn_len by lia. lia. } { rewrite Rnp. tauto. } { rewrite Rnp. tauto. }
      rewrite E3. rewrite match_nonempty by (intro X; rewrite X in Lnp; discriminate). cbn [bind].
      rewrite Rnp in R1, R2. rewrite firstn_len in R1 by lia. rewrite firstn_len in R2 by lia.
      assert (Lr : length r = n) by (rewrite Er; apply firstn_len; assumption). rewrite Lr in R1, R2.
      assert (FF : forall j, j <= c -> firstn j (firstn c k) = firstn j k) by (intros; rewrite firstn_firstn; f_equal; lia).
      eexists. split; [reflexivity|]. rewrite Sw. rewrite S3. 
      set (g' := mk_mgr _ _ _ _ _ _).
      set (ins' := ins ++ [(sp, Some (NLeaf (the_leaf H s'))); (np, Some (NLeaf (the_leaf H (k, v))))]).
      assert (Insf : forall x, aget ins x <> None -> exists j, n <= j /\ j <= c /\ x = firstn j k).
      { intros x X. destruct (R2 x X) as [j [J1 [J2 J3]]]. exists j. rewrite FF in J3 by lia. auto. }
      assert (Kx : starts_with k sp = false).
      { rewrite Esp, starts_with_snoc, firstn_len by lia. rewrite Bool.andb_assoc. apply Bool.andb_false_intro2. destruct (nth c k false), (nth c (fst s') false); simpl; congruence. }
      assert (Ain : forall x, aget ins' x = match aget ins x with Some w => Some w | None => if path_eqb sp x then Some (Some (NLeaf (the_leaf H s'))) else if path_eqb np x then Some (Some (NLeaf (the_leaf H (k, v)))) else None end).
      { intro x. unfold ins'. rewrite aget_app. rewrite !aget_cons. reflexivity. }
      assert (Nins_np : aget ins np = None).
      { destruct (aget ins np) eqn:X; [exfalso|reflexivity]. destruct (Insf np) as [j [J1 [J2 J3]]]; [congruence|]. apply firstn_inj in J3; lia. }
      assert (Nins_sp : aget ins sp = None).
      { destruct (aget ins sp) eqn:X; [exfalso|reflexivity]. destruct (Insf sp) as [j [J1 [J2 J3]]]; [congruence|]. rewrite J3, firstn_starts in Kx. discriminate. }
      split; [|split; [reflexivity|split; [reflexivity|split; [reflexivity|]]]].
      2: { simpl. right. apply in_or_app. left. apply all_paths_firstn; [lia|]. exists 0. split; [lia|reflexivity]. }
      apply (Inv_step H g g' d0 d d' ins' [(fst s', Some sp); (k, Some np)] (sp :: all_paths_to_root np)); try assumption; try reflexivity.
      + simpl. unfold ins'. rewrite <- app_assoc. reflexivity.
      + intros x w X. rewrite Ain in X. destruct (aget ins x) as [w'|] eqn:Y.
        * destruct (Insf x) as [j [J1 [J2 J3]]]; [congruence|]. destruct (R1 j J1 J2) as [b Z]. rewrite FF in Z by assumption. rewrite <- J3, Y in Z. inversion X; subst w'. inversion Z. subst w. rewrite J3, K3 by assumption. reflexivity.
        * destruct (path_eqb_spec sp x) as [<-|]; [inversion X; rewrite K2; reflexivity|].
          destruct (path_eqb_spec np x) as [<-|]; [inversion X; rewrite K1; reflexivity|discriminate].
      + intros x X. rewrite Ain in X. destruct (aget ins x) eqn:Y; [discriminate|]. destruct (path_eqb_spec sp x) as [|N1]; [discriminate|]. destruct (path_eqb_spec np x) as [|N2]; [discriminate|].
        apply K4; [congruence|congruence|]. intros j J1 J2 ->. destruct (R1 j J1 J2) as [b Z]. rewrite FF in Z by assumption. congruence.
      + intros x X. destruct X as [<-|X]; [left; rewrite Ain, Nins_sp, path_eqb_refl; discriminate|].
        apply all_paths_firstn in X; [|lia]. destruct X as [j [J1 ->]].
        destruct (Nat.ltb_spec j n) as [L|L]; [right; apply K_two; unfold d'; rewrite cnt_cons_firstn; pose proof (K5 j L); lia|].
        destruct (Nat.leb_spec j c) as [L'|L']; [left|replace j with (S c) by lia; left].
        * destruct (R1 j L L') as [b Z]. rewrite FF in Z by assumption. rewrite Ain, Z. discriminate.
        * fold np. rewrite Ain, Nins_np. rewrite (path_eqb_neq sp np) by assumption. rewrite path_eqb_refl. discriminate.
      + intros x X. rewrite Ain in X. destruct (aget ins x) eqn:Y.
        * destruct (Insf x) as [j [J1 [J2 ->]]]; [congruence|]. right. apply all_paths_firstn; [lia|]. exists j. split; [lia|reflexivity].
        * destruct (path_eqb_spec sp x) as [<-|]; [left; reflexivity|]. destruct (path_eqb_spec np x) as [<-|]; [|congruence]. right. apply all_paths_firstn; [lia|]. exists (S c). split; [lia|reflexivity].
      + intros p b X. right. destruct X as [X|X]; [|eapply all_paths_up; [|exact X]; lia].
        rewrite Esp in X. apply app_inj_tail in X. destruct X as [<- _]. apply all_paths_firstn; [lia|]. exists c. split; [lia|reflexivity].
      + intros p b X. rewrite Ain in X. destruct (aget ins p) as [w|] eqn:Y; [|destruct (path_eqb sp p); [discriminate|destruct (path_eqb np p); discriminate]].
        inversion X; subst w. pose proof (R3 p b Y) as Z. unfold childok, cs, db in *. unfold g'. cbn [g_nodes g_db insert_leaf_path] in *. rewrite S3 in Z. exact Z.
      + intros k0 X. rewrite !aget_cons in X. destruct (path_eqb (fst s') k0); [discriminate|]. destruct (path_eqb k k0); discriminate.
      + intros k0 p X. rewrite !aget_cons in X. destruct (path_eqb_spec (fst s') k0) as [<-|].
        * inversion X; subst p. exists (the_leaf H s'). rewrite Ain, Nins_sp, path_eqb_refl, the_leaf_key. auto.
        * destruct (path_eqb_spec k k0) as [<-|]; [|discriminate]. inversion X; subst p. exists (the_leaf H (k, v)).
          rewrite Ain, Nins_np, (path_eqb_neq sp np), path_eqb_refl, the_leaf_key by assumption. auto.
      + intros k0 X. rewrite !aget_cons in X. destruct (path_eqb_spec (fst s') k0) as [|N1]; [discriminate|]. destruct (path_eqb_spec k k0) as [|N2]; [discriminate|]. split.
        * unfold d'. simpl. intros [Y|Y]; [congruence|assumption].
        * intros p l Kl Ek. left. rewrite Ain. destruct (leaf_at H d p k0 l (i_d _ _ _ _ I) Kl Ek) as [v0 [n0 [A1 [A2 [A3 [A4 [A5 A6]]]]]]].
          assert (NoP : forall j, n <= j -> j <= S c -> p <> firstn j k).
          { intros j J1 J2 ->. assert (X0 : In (k0, v0) (U d (firstn j k))) by (rewrite A4; left; reflexivity). rewrite <- (U_U d (firstn n k)) in X0.
            - rewrite Us in X0. apply U_In in X0. destruct X0 as [[X0|[]] _]. rewrite X0 in N1. simpl in N1. congruence.
            - replace (firstn n k) with (firstn n (firstn j k)) by (rewrite firstn_firstn; f_equal; lia). apply firstn_starts. }
          destruct (aget ins p) eqn:Y; [exfalso; destruct (Insf p) as [j [J1 [J2 J3]]]; [congruence|]; apply (NoP j); [assumption|lia|assumption]|].
          rewrite (path_eqb_neq np p) by (intros <-; apply (NoP (S c)); [lia|lia|reflexivity]).
          rewrite (path_eqb_neq sp p); [reflexivity|]. intros <-. assert (X0 : In (k0, v0) (U d sp)) by (rewrite A4; left; reflexivity). rewrite <- (U_U d (firstn n k)) in X0.
          -- rewrite Us in X0. apply U_In in X0. destruct X0 as [[X0|[]] _]. rewrite X0 in N1. simpl in N1. congruence.
          -- rewrite Esp. eapply starts_with_trans with (p := firstn c k); [apply starts_with_firstn; rewrite firstn_app, firstn_all, Nat.sub_diag; simpl; apply app_nil_r|].
             replace (firstn n k) with (firstn n (firstn c k)) by (rewrite firstn_firstn; f_equal; lia). apply firstn_starts.
    - (* below a branch *)
      cbn in V. cbn [bind]. symmetry in V. rewrite Er in V. pose proof (K_branch _ _ _ V) as C2. assert (Hn' : n < KEY_BITS). { pose proof (cnt_two_short _ _ (i_d _ _ _ _ I) C2). rewrite firstn_len in H0 by assumption. assumption. }
      destruct (add_branch H d k v n (i_d _ _ _ _ I) Lk Nk Hn' C2) as [K1 [K2 K3]]. { apply Dn; [lia|rewrite Lk; lia]. }
      replace (length r + 1) with (S n) by (rewrite Er, firstn_len by assumption; lia). rewrite upto_ok by lia. cbn [bind]. set (lp := firstn (S n) k) in *. fold d' in K1, K2.
      eexists. split; [reflexivity|]. rewrite Sw. split; [|split; [reflexivity|split; [reflexivity|split; [reflexivity|]]]].
      2: { simpl. apply in_or_app. left. apply all_paths_firstn; [lia|]. exists 0. split; [lia|reflexivity]. }
      set (g' := mk_mgr _ _ _ _ _ _).
      apply (Inv_step H g g' d0 d d' [(lp, Some (NLeaf (the_leaf H (k, v))))] [(k, Some lp)] (all_paths_to_root lp)); try assumption; try reflexivity.
      + intros x w X. rewrite aget_cons in X. destruct (path_eqb_spec lp x) as [<-|]; [|discriminate]. inversion X. rewrite K1. reflexivity.
      + intros x X. rewrite aget_cons in X. destruct (path_eqb_spec lp x) as [|N]; [discriminate|]. apply K2. congruence.
      + intros x X. apply all_paths_firstn in X; [|lia]. destruct X as [j [J ->]]. destruct (Nat.eq_dec j (S n)) as [->|].
        * left. fold lp. rewrite aget_cons, path_eqb_refl. discriminate.
        * right. apply K_two. unfold d'. rewrite cnt_cons_firstn. pose proof (cnt_firstn d k j n ltac:(lia)). lia.
      + intros x X. rewrite aget_cons in X. destruct (path_eqb_spec lp x) as [E|E]; [|exfalso; apply X; reflexivity]. rewrite <- E. apply all_paths_firstn; [lia|]. exists (S n). split; [lia|reflexivity].
      + intros p b' X. eapply all_paths_up; [|exact X]. lia.
      + intros p b' X. rewrite aget_cons in X. destruct (path_eqb lp p); discriminate.
      + intros k0 X. rewrite aget_cons in X. destruct (path_eqb k k0); discriminate.
      + intros k0 p X. rewrite aget_cons in X. destruct (path_eqb_spec k k0) as [<-|]; [|discriminate]. inversion X; subst p. exists (the_leaf H (k, v)). rewrite aget_cons, path_eqb_refl, the_leaf_key. auto.
      + intros k0 X. rewrite aget_cons in X. destruct (path_eqb_spec k k0) as [|N]; [discriminate|]. split.
        * unfold d'. simpl. intros [Y|Y]; [congruence|assumption].
        * intros p l Kl Ek. left. rewrite aget_cons, path_eqb_neq; [reflexivity|]. intros <-. unfold lp in Kl. rewrite Dn in Kl; [discriminate|lia|lia].
    - (* the first key *)
      assert (Rn : r = []). { destruct Ne as [->|Ne]; [reflexivity|]. exfalso. apply Ne. rewrite <- V. reflexivity. }
      cbn in V. rewrite Rn in *. cbn [bind]. assert (Dd : d = []). { symmetry in V. rewrite K_nil in V. apply kind_of_none in V. assumption. } 
      eexists. split; [reflexivity|]. rewrite Sw. split; [|split; [reflexivity|split; [reflexivity|split; [reflexivity|simpl; auto]]]].
      set (g' := mk_mgr _ _ _ _ _ _).
      assert (Kn : forall x, x <> [] -> K H d' x = KNone). { intros x N. apply (K_down H d' [] x); [apply starts_with_nil|destruct x; [congruence|simpl; lia]|]. unfold cnt. rewrite U_nil. unfold d'. rewrite Dd. simpl. lia. }
      assert (Kn' : forall x, K H d x = KNone). { intros x. unfold K. rewrite Dd. simpl. destruct (opn [] x); reflexivity. }
      apply (Inv_step H g g' d0 d d' [([], Some (NLeaf (the_leaf H (k, v))))] [(k, Some [])] (all_paths_to_root [])); try assumption; try reflexivity.
      + intros x w X. rewrite aget_cons in X. destruct (path_eqb_spec [] x) as [<-|]; [|discriminate]. inversion X. rewrite K_nil. unfold d'. rewrite Dd. reflexivity.
      + intros x X. rewrite aget_cons in X. destruct (path_eqb_spec [] x) as [|N]; [discriminate|]. rewrite Kn, Kn' by congruence. reflexivity.
      + intros x [<-|[]]. left. rewrite aget_cons, path_eqb_refl. discriminate.
      + intros x X. rewrite aget_cons in X. destruct (path_eqb_spec [] x) as [E|E]; [rewrite <- E; simpl; auto|exfalso; apply X; reflexivity].
      + intros p b' [X|[]]. destruct p; discriminate.
      + intros p b' X. rewrite aget_cons in X. destruct (path_eqb [] p); discriminate.
      + intros k0 X. rewrite aget_cons in X. destruct (path_eqb k k0); discriminate.
      + intros k0 p X. rewrite aget_cons in X. destruct (path_eqb_spec k k0) as [<-|]; [|discriminate]. inversion X; subst p. exists (the_leaf H (k, v)). rewrite aget_cons, path_eqb_refl, the_leaf_key. auto.
      + intros k0 X. rewrite aget_cons in X. destruct (path_eqb_spec k k0) as [|N]; [discriminate|]. split.
        * unfold d'. simpl. intros [Y|Y]; [congruence|assumption].
        * intros p l Kl Ek. rewrite Kn' in Kl. discriminate.
  Qed.
End Trie.
