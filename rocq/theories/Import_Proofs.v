From Verif Require Import Base Base_Proofs LVec_Model LVec_Proofs Merkle_Model Safrole_Model Import_Model Import_Spec.
From Coq Require Import Permutation Sorted.
Open Scope N_scope.

Lemma pkg_leb_spec : forall a b, pkg_leb a b = true <-> pkg_le a b.
Proof. intros [a a'] [b b']. unfold pkg_leb, pkg_le. cbn. rewrite orb_true_iff, andb_true_iff, N.ltb_lt, N.eqb_eq, N.leb_le. tauto. Qed.
Lemma pkg_le_total : forall a b, pkg_leb a b = false -> pkg_le b a.
Proof.
  intros [a a'] [b b']. unfold pkg_leb, pkg_le. cbn. intros Hf. apply orb_false_iff in Hf as [A B]. apply N.ltb_ge in A.
  destruct (N.eqb_spec a b) as [->|Ne]; cbn in B; [apply N.leb_gt in B; right; lia|left; lia].
Qed.
Lemma pkg_le_trans : forall a b c, pkg_le a b -> pkg_le b c -> pkg_le a c.
Proof. intros [a a'] [b b'] [c c']. unfold pkg_le. cbn. lia. Qed.
Lemma pkg_insert_perm : forall a l, Permutation (pkg_insert a l) (a :: l).
Proof. intros a. induction l as [|b l IH]; cbn; [auto|]. destruct (pkg_leb a b); [auto|]. rewrite IH. apply perm_swap. Qed.
Lemma pkg_insert_sorted : forall a l, StronglySorted pkg_le l -> StronglySorted pkg_le (pkg_insert a l).
Proof.
  intros a. induction l as [|b l IH]; intros Hs; cbn; [repeat constructor|]. inversion Hs as [|? ? Hl Hb]; subst. destruct (pkg_leb a b) eqn:E.
  - apply pkg_leb_spec in E. constructor; [assumption|]. constructor; [assumption|]. eapply Forall_impl; [|exact Hb]. intros c Hc. eapply pkg_le_trans; eauto.
  - constructor; [auto|]. apply pkg_le_total in E. rewrite pkg_insert_perm. constructor; assumption.
Qed.
Lemma pkg_sort_perm : forall l, Permutation (pkg_sort l) l.
Proof. induction l as [|a l IH]; cbn; [auto|]. rewrite pkg_insert_perm. auto. Qed.
Lemma pkg_sort_sorted : forall l, StronglySorted pkg_le (pkg_sort l).
Proof. induction l as [|a l IH]; cbn; [constructor|]. now apply pkg_insert_sorted. Qed.

Definition set_last {A} (f : A -> A) (l : list A) : list A := match rev l with [] => l | e :: b => rev b ++ [f e] end.
Lemma set_last_snoc : forall {A} (f : A -> A) l x, set_last f (l ++ [x]) = l ++ [f x].
Proof. intros. unfold set_last. rewrite rev_unit, rev_involutive. reflexivity. Qed.
Lemma set_last_length : forall {A} (f : A -> A) l, length (set_last f l) = length l.
Proof. intros A f l. destruct l as [|x l] using rev_ind; [reflexivity|]. rewrite set_last_snoc, !app_length. reflexivity. Qed.
Lemma set_parent_root_eq : forall h r, set_parent_root h r = mk_bh (set_last (set_root r) (bh_entries h)) (bh_belt h).
Proof. intros [l belt] r. unfold set_parent_root, set_last. cbn. destruct (rev l); reflexivity. Qed.
Lemma set_last_lastn : forall {A} (f : A -> A) n l, (0 < n)%nat -> set_last f (lastn n l) = lastn n (set_last f l).
Proof.
  intros A f n l Hn. destruct l as [|x l] using rev_ind; [reflexivity|]. rewrite set_last_snoc. unfold lastn. rewrite !app_length. cbn [length].
  destruct (Nat.le_gt_cases (length l + 1 - n) (length l)) as [L|L]; [|lia]. rewrite !skipn_app.
  replace (length l + 1 - n - length l)%nat with 0%nat by lia. cbn [skipn]. apply set_last_snoc.
Qed.
Lemma set_last_app : forall {A} (f : A -> A) a b, b <> [] -> set_last f (a ++ b) = a ++ set_last f b.
Proof. intros A f a b Hb. destruct b as [|x b] using rev_ind; [congruence|]. now rewrite app_assoc, !set_last_snoc, <- app_assoc. Qed.

(** ** Ancestor set *)
Lemma ent_eqb_eq : forall a b, ent_eqb a b = true <-> a = b.
Proof. intros [a a'] [b b']. unfold ent_eqb. cbn. rewrite andb_true_iff, !N.eqb_eq. split; [intros [-> ->]|intros [= -> ->]]; auto. Qed.
Lemma an_contains_In : forall a e, an_contains a e = true <-> In e (an_set a).
Proof.
  intros a e. unfold an_contains. rewrite existsb_exists. split; [intros (x & Hx & E)|intros Hx; exists e; split; [assumption|]]; [apply ent_eqb_eq in E; now subst|now apply ent_eqb_eq].
Qed.
Lemma ent_lt_le : forall a b, ent_lt a b <-> ~ pkg_le b a.
Proof. intros [a a'] [b b']. unfold ent_lt, pkg_le. cbn. lia. Qed.
Lemma ent_le_cases : forall a b, pkg_le a b -> a = b \/ ent_lt a b.
Proof. intros [a a'] [b b']. unfold ent_lt, pkg_le. cbn. intros [L|[-> L]]; [auto|]. destruct (N.eq_dec a' b'); [left; congruence|right; lia]. Qed.
Definition an_inv (cap : nat) (es : list (N * N)) (a : aset) : Prop :=
  StronglySorted pkg_le (an_heap a) /\ NoDup (an_heap a) /\ (forall x, In x (an_heap a) <-> In x (an_set a)) /\ (length (an_heap a) <= cap)%nat /\
  incl (an_heap a) es /\ (forall x, In x es -> ~ In x (an_heap a) -> length (an_heap a) = cap /\ forall y, In y (an_heap a) -> ent_lt x y).
Lemma an_add_inv : forall cap es a e, an_inv cap es a -> an_inv cap (es ++ [e]) (an_add cap a e).
Proof.
  intros cap es a e (A1 & A2 & A3 & A4 & A5 & A6). unfold an_add. destruct (an_contains a e) eqn:Ec.
  - apply an_contains_In in Ec. do 5 (split; [first [assumption|let z := fresh in intros z ?; apply in_or_app; left; auto]|]).
    intros x Hx Nx. apply in_app_or in Hx as [Hx|[<-|[]]]; [auto|]. exfalso. apply Nx. now apply A3.
  - assert (Ne : ~ In e (an_heap a)) by (intros Hin; apply A3, an_contains_In in Hin; congruence).
    destruct (Nat.eqb_spec (length (an_heap a)) cap) as [El|El]; cbn [negb].
    + destruct (an_heap a) as [|m h] eqn:Eh.
      * unfold an_inv. rewrite Eh. do 5 (split; [first [assumption|let z := fresh in intros z ?; apply in_or_app; left; auto]|]). intros x Hx _. split; [assumption|intros y []].
      * destruct (pkg_leb e m) eqn:Em.
        -- apply pkg_leb_spec in Em. unfold an_inv. rewrite Eh. do 5 (split; [first [assumption|let z := fresh in intros z ?; apply in_or_app; left; auto]|]).
           intros x Hx Nx. apply in_app_or in Hx as [Hx|[<-|[]]]; [auto|]. split; [assumption|]. intros y Hy. inversion A1 as [|? ? S1 S2]; subst.
           assert (Hle : pkg_le e y). { destruct Hy as [<-|Hy]; [assumption|]. rewrite Forall_forall in S2. eapply pkg_le_trans; [exact Em|]. auto. }
           apply ent_le_cases in Hle as [->|Hle]; [contradiction|assumption].
        -- apply pkg_le_total in Em. inversion A1 as [|? ? S1 S2]; subst. inversion A2 as [|? ? N1 N2]; subst. rewrite Forall_forall in S2.
           assert (P := pkg_insert_perm e h). unfold an_inv. cbn [an_heap an_set].
           split; [now apply pkg_insert_sorted|]. split; [eapply Permutation_NoDup; [symmetry; exact P|]; constructor; [intros Hin; apply Ne; now right|assumption]|]. split; [|split; [|split]].
           ++ intros x. transitivity (x = e \/ In x h); [split; [intros Hx; apply (Permutation_in _ P) in Hx; destruct Hx; auto|intros [->|Hx]; apply (Permutation_in _ (Permutation_sym P)); [now left|now right]]|].
              cbn [In]. rewrite filter_In, <- A3. cbn [In]. split.
              ** intros [->|Hx]; [now left|right]. split; [now right|]. apply negb_true_iff, not_true_iff_false. rewrite ent_eqb_eq. intros ->. contradiction.
              ** intros [<-|[[<-|Hx] Hn]]; [now left| |now right]. rewrite (proj2 (ent_eqb_eq m m) eq_refl) in Hn. discriminate.
           ++ rewrite (Permutation_length P). cbn in *. lia.
           ++ intros x Hx. apply (Permutation_in _ P) in Hx as [<-|Hx]; apply in_or_app; [right; now left|left; apply A5; now right].
           ++ intros x Hx Nx. split; [rewrite (Permutation_length P); reflexivity|]. assert (Nx' : x <> e /\ ~ In x h) by (split; [intros ->|intros Hin]; apply Nx, (Permutation_in _ (Permutation_sym P)); [now left|now right]).
              apply in_app_or in Hx as [Hx|[<-|[]]]; [|now destruct Nx']. assert (Hm : pkg_le x m).
              { destruct (pkg_leb x m) eqn:Exm; [now apply pkg_leb_spec|]. assert (~ In x (m :: h)). { intros [->|Hin]; [|now destruct Nx']. assert (pkg_leb x x = true) by (apply pkg_leb_spec; unfold pkg_le; lia). congruence. }
                destruct (A6 x Hx H) as [_ Q]. specialize (Q m (or_introl eq_refl)). apply pkg_le_total in Exm. apply ent_lt_le in Q. contradiction. }
              intros y Hy. apply (Permutation_in _ P) in Hy. apply ent_lt_le. intros Hyx. destruct Hy as [<-|Hy].
              ** destruct Nx' as [Nx1 _]. assert (pkg_le e m) by (eapply pkg_le_trans; eauto). assert (e = m) by (destruct e, m; unfold pkg_le in *; cbn in *; f_equal; lia). subst. apply Ne. now left.
              ** assert (pkg_le m y) by auto. assert (y = x) by (destruct x, y, m; unfold pkg_le in *; cbn in *; f_equal; lia). subst. now destruct Nx'.
    + assert (P := pkg_insert_perm e (an_heap a)). unfold an_inv. cbn [an_heap an_set]. split; [now apply pkg_insert_sorted|].
      split; [eapply Permutation_NoDup; [symmetry; exact P|]; now constructor|]. split; [|split; [|split]].
      * intros x. cbn [In]. rewrite <- A3. split; [intros Hx; apply (Permutation_in _ P) in Hx; destruct Hx; auto|intros [<-|Hx]; apply (Permutation_in _ (Permutation_sym P)); [now left|now right]].
      * rewrite (Permutation_length P). cbn. lia.
      * intros x Hx. apply (Permutation_in _ P) in Hx as [<-|Hx]; apply in_or_app; [right; now left|left; auto].
      * intros x Hx Nx. exfalso. apply in_app_or in Hx as [Hx|[<-|[]]]; [|apply Nx, (Permutation_in _ (Permutation_sym P)); now left].
        assert (~ In x (an_heap a)) by (intros Hin; apply Nx, (Permutation_in _ (Permutation_sym P)); now right). destruct (A6 x Hx H). contradiction.
Qed.
Lemma an_latest : forall cap es, let a := fold_left (an_add cap) es (mk_aset [] []) in
  (length (an_heap a) <= cap)%nat /\ (forall e, an_contains a e = true <-> among_latest cap es e).
Proof.
  intros cap es a. assert (I : an_inv cap es a).
  { unfold a. induction es as [|e es IH] using rev_ind; [|rewrite fold_left_app; now apply an_add_inv].
    unfold an_inv. cbn. repeat split; try tauto; try lia; [constructor|constructor|intros x []]. }
  destruct I as (A1 & A2 & A3 & A4 & A5 & A6). split; [assumption|]. intros e. rewrite an_contains_In, <- A3. unfold among_latest. split.
  - intros He. split; [auto|]. intros l Nl Hl. apply Nat.lt_le_trans with (length (an_heap a)); [|assumption].
    assert (Hi : incl (e :: l) (an_heap a)).
    { intros x [<-|Hx]; [assumption|]. destruct (Hl x Hx) as [Hxe Hlt]. destruct (in_dec (fun a b => match Bool.bool_dec (ent_eqb a b) true with left p => left (proj1 (ent_eqb_eq a b) p) | right n => right (fun q => n (proj2 (ent_eqb_eq a b) q)) end) x (an_heap a)) as [|Nx]; [assumption|].
      destruct (A6 x Hxe Nx) as [_ Q]. specialize (Q e He). exfalso. unfold ent_lt in *. lia. }
    apply (NoDup_incl_length (l := e :: l)) in Hi; [exact Hi|]. constructor; [|assumption]. intros Hin. destruct (Hl e Hin) as [_ Q]. unfold ent_lt in Q. lia.
  - intros [He Hl]. destruct (in_dec (fun a b => match Bool.bool_dec (ent_eqb a b) true with left p => left (proj1 (ent_eqb_eq a b) p) | right n => right (fun q => n (proj2 (ent_eqb_eq a b) q)) end) e (an_heap a)) as [|Ne]; [assumption|].
    destruct (A6 e He Ne) as [El Q]. exfalso. specialize (Hl (an_heap a) A2). rewrite El in Hl. apply (Nat.lt_irrefl cap), Hl. auto.
Qed.

Section P.
  Variable HL : nat.
  Variable K : bytes -> bytes.
  Variables (S0 Xt Mk : Type).
  Variable stf1 : S0 -> iblock Xt -> option (S0 * Mk).
  Variable header_ok : S0 -> iblock Xt -> Mk -> bool.
  Variable stf2 : S0 -> bhistory -> iblock Xt -> option (S0 * list (N * bytes)).
  Variable genesis : S0 -> iblock Xt -> option S0.
  Variable root : S0 -> bhistory -> N.
  Variable xt_hash : Xt -> N.
  Local Notation submit := (submit HL K S0 Xt Mk stf1 header_ok stf2 genesis root xt_hash).
  Local Notation imports := (imports HL K S0 Xt Mk stf1 header_ok stf2 genesis root xt_hash).
  Local Notation outputs := (outputs S0 Xt Mk stf1 stf2).

  Lemma reject_same : forall now n b n', submit now n b = (false, n') -> n' = n.
  Proof. intros now n b n'. unfold Import_Model.submit. destruct (import_block _ _ _ _ _ _ _ _ _ _ _ _ _); intros [= <-]; reflexivity. Qed.
  Lemma accept_inv : forall now n b n', ib_parent b <> 0 -> submit now n b = (true, n') -> forall outs, outputs n b outs ->
    (0 < HL)%nat -> (length (bh_entries (n_hist n)) <= HL)%nat ->
    n_best_slot n < ib_slot b /\ is_in_future now (ib_slot b) = false /\ ib_parent b = n_best n /\ n_roots n (ib_parent b) = Some (ib_root b) /\
    ib_xt_hash b = xt_hash (ib_xts b) /\
    n_best n' = ib_hash b /\ n_best_slot n' = ib_slot b /\ n_roots n' (ib_hash b) = Some (root (n_state n') (n_hist n')) /\
    bh_belt (n_hist n') = mmr_append K (bh_belt (n_hist n)) (accumulate_root K outs) /\
    bh_entries (n_hist n') = lastn HL (set_last (set_root (ib_root b)) (bh_entries (n_hist n)) ++
       [mk_be (ib_hash b) (super_peak K (bh_belt (n_hist n'))) 0 (pkg_sort (ib_reported b))]) /\
    (exists s1 m, stf1 (n_state n) b = Some (s1, m) /\ header_ok s1 b m = true /\
       exists outs', stf2 s1 (set_parent_root (n_hist n) (ib_root b)) b = Some (n_state n', outs')).
  Proof.
    intros now n b n' Hp Hs outs (s1 & m & s2 & E1 & E2) H0 Hl. unfold Import_Model.submit in Hs.
    destruct (import_block _ _ _ _ _ _ _ _ _ _ _ _ _) as [n1|e|] eqn:Ei; try discriminate. injection Hs as <-.
    unfold import_block in Ei. apply N.eqb_neq in Hp. rewrite Hp in Ei. unfold validate_header, run_stf in Ei. rewrite E1 in Ei. cbn [require] in Ei.
    unfold ensure, bind in Ei.
    destruct (N.ltb_spec (n_best_slot n) (ib_slot b)) as [Hslot|]; [|discriminate].
    destruct (is_in_future now (ib_slot b)) eqn:Hf; [discriminate|]. cbn [negb] in Ei.
    destruct (N.eqb_spec (ib_parent b) (n_best n)) as [Hpar|]; [|discriminate].
    destruct (n_roots n (ib_parent b)) as [r|] eqn:Hr; [|discriminate]. cbn [require] in Ei.
    destruct (N.eqb_spec r (ib_root b)) as [->|]; [|discriminate].
    destruct (N.eqb_spec (ib_xt_hash b) (xt_hash (ib_xts b))) as [Hx|]; [|discriminate].
    destruct (header_ok s1 b m) eqn:Hok; [|discriminate]. rewrite E2 in Ei. cbn [require] in Ei.
    unfold history_append in Ei. rewrite set_parent_root_eq in Ei. cbn [bh_entries bh_belt] in Ei.
    set (e := mk_be (ib_hash b) (super_peak K (mmr_append K (bh_belt (n_hist n)) (accumulate_root K outs))) 0 (pkg_sort (ib_reported b))) in *.
    destruct (shift_push_window HL (set_last (set_root (ib_root b)) (bh_entries (n_hist n))) e H0) as (o & v & Ev & Hv & _).
    { rewrite set_last_length. assumption. }
    rewrite Ev in Ei. cbn [bind snd] in Ei. injection Ei as <-. cbn. rewrite N.eqb_refl, Hpar. rewrite Hpar in Hr. repeat (split; [first [assumption|reflexivity]|]).
    exists s1, m. repeat split; auto. eauto.
  Qed.

  Lemma accept_outputs : forall now n b n', ib_parent b <> 0 -> submit now n b = (true, n') -> exists outs, outputs n b outs.
  Proof.
    intros now n b n' Hp Hs. unfold Import_Model.submit in Hs.
    destruct (import_block _ _ _ _ _ _ _ _ _ _ _ _ _) as [n1|e|] eqn:Ei; try discriminate.
    unfold import_block in Ei. apply N.eqb_neq in Hp. rewrite Hp in Ei. destruct (validate_header _ _ _ _ _ _) as [[]| |]; try discriminate. cbn [bind] in Ei.
    unfold run_stf in Ei. destruct (stf1 (n_state n) b) as [[s1 m]|] eqn:E1; [|discriminate]. cbn [require bind] in Ei.
    destruct (ensure (header_ok s1 b m) HeaderError) as [[]| |]; try discriminate. cbn [bind] in Ei.
    destruct (stf2 s1 (set_parent_root (n_hist n) (ib_root b)) b) as [[s2 outs]|] eqn:E2; [|discriminate]. exists outs, s1, m, s2. auto.
  Qed.
  Lemma accept_checked : (0 < HL)%nat -> forall now n b n', (length (bh_entries (n_hist n)) <= HL)%nat -> ib_parent b <> 0 -> submit now n b = (true, n') ->
    ib_parent b = n_best n /\ n_best_slot n < ib_slot b /\ is_in_future now (ib_slot b) = false /\ n_roots n (n_best n) = Some (ib_root b) /\
    ib_xt_hash b = xt_hash (ib_xts b) /\ (exists s1 m, stf1 (n_state n) b = Some (s1, m) /\ header_ok s1 b m = true) /\
    n_best n' = ib_hash b /\ n_best_slot n' = ib_slot b.
  Proof.
    intros H0 now n b n' Hl Hp Hs. destruct (accept_outputs now n b n' Hp Hs) as [outs Ho].
    destruct (accept_inv now n b n' Hp Hs outs Ho H0 Hl) as (A1 & A2 & A3 & A4 & A5 & A6 & A7 & A8 & A9 & A10 & s1 & m & E1 & E2 & _).
    rewrite <- A3. repeat (split; [first [assumption|reflexivity|exists s1, m; auto]|]). assumption.
  Qed.

  Section Run.
    Variable n0 : node_st S0.
    Hypothesis HL0 : (0 < HL)%nat.
    Hypothesis Hlen : (length (bh_entries (n_hist n0)) <= HL)%nat.
    Hypothesis Hroot : n_roots n0 (n_best n0) = Some (root (n_state n0) (n_hist n0)).

    Local Notation last_hash := (last_hash S0 Xt n0).
    Local Notation last_slot := (last_slot S0 Xt n0).
    Local Notation last_root := (last_root S0 Xt root n0).
    (** The entries of [news] as the spec wants them, except that the last state root is still open. *)
    Definition news_ok (log : list (accepted Xt)) (news : list bentry) : Prop :=
      length news = length log /\ forall i e, nth_error news i = Some e -> entry_for K Xt (bh_belt (n_hist n0)) log i e.
    Local Notation old_entries := (old_entries S0 Xt root n0).

    Lemma run_inv : forall log n, imports n0 log n ->
      n_best n = last_hash log /\ n_best_slot n = last_slot log /\ root (n_state n) (n_hist n) = last_root log /\
      n_roots n (n_best n) = Some (last_root log) /\ (length (bh_entries (n_hist n)) <= HL)%nat /\
      bh_belt (n_hist n) = belt_after K Xt (bh_belt (n_hist n0)) log /\
      exists news, news_ok log news /\ bh_entries (n_hist n) = lastn HL (old_entries log ++ news).
    Proof.
      intros log n R. induction R as [|log n now b n' R IH Hp Hs|log n now b n' outs R IH Hp Hs Ho].
      - unfold last_hash, last_slot, last_root, belt_after. cbn. repeat (split; [first [reflexivity|assumption]|]).
        exists []. split; [split; [reflexivity|intros [|i] e; discriminate]|]. unfold lastn. rewrite app_nil_r. replace (length _ - HL)%nat with 0%nat by lia. reflexivity.
      - apply reject_same in Hs. subst n'. exact IH.
      - destruct IH as (I1 & I2 & I3 & I4 & I5 & I6 & news & [Nl Nok] & I7).
        destruct (accept_inv now n b n' Hp Hs outs Ho HL0 I5) as (A1 & A2 & A3 & A4 & A5 & A6 & A7 & A8 & A9 & A10 & _).
        assert (Eroot : ib_root b = last_root log) by (rewrite A3, I4 in A4; congruence).
        unfold last_hash at 1, last_slot at 1, last_root at 1 2. rewrite !rev_unit. cbn [ac_block ac_root]. rewrite A6, A8.
        assert (Hbelt : bh_belt (n_hist n') = belt_after K Xt (bh_belt (n_hist n0)) (log ++ [mk_acc b outs (root (n_state n') (n_hist n'))])).
        { rewrite A9, I6. unfold belt_after. rewrite map_app, fold_left_app. reflexivity. }
        split; [reflexivity|]. split; [assumption|]. split; [reflexivity|]. split; [reflexivity|]. split.
        { rewrite A10. unfold lastn. rewrite skipn_length. lia. }
        split; [assumption|].
        set (a := mk_acc b outs (root (n_state n') (n_hist n'))) in *. set (e := mk_be _ _ 0 _) in A10.
        exists (set_last (set_root (ib_root b)) news ++ [e]). split.
        + split; [rewrite !app_length, set_last_length, Nl; reflexivity|]. intros i x Hx.
          destruct (Nat.lt_ge_cases i (length log)) as [Li|Li].
          * rewrite nth_error_app1 in Hx by (rewrite set_last_length; lia). unfold entry_for.
            destruct news as [|y news _] using rev_ind; [destruct i; discriminate|]. rewrite set_last_snoc in Hx. rewrite app_length in Nl. cbn [length] in Nl.
            assert (Hlast : (S i =? length (log ++ [a]))%nat = false) by (apply Nat.eqb_neq; rewrite app_length; cbn; lia).
            rewrite Hlast, nth_error_app1 by assumption. rewrite firstn_app. replace (S i - length log)%nat with 0%nat by lia. cbn [firstn]. rewrite app_nil_r.
            destruct (Nat.lt_ge_cases i (length news)) as [Ln|Ln].
            -- rewrite nth_error_app1 in Hx by assumption. destruct (Nok i x) as (c & Ec & B1 & B2 & B3 & B4 & B5); [rewrite nth_error_app1 by assumption; assumption|].
               exists c. assert (Hq : (S i =? length log)%nat = false) by (apply Nat.eqb_neq; lia). rewrite Hq in B3. auto 10.
            -- assert (i = length news) by lia. subst i. rewrite nth_error_app2, Nat.sub_diag in Hx by lia. injection Hx as <-.
               destruct (Nok (length news) y) as (c & Ec & B1 & B2 & B3 & B4 & B5); [rewrite nth_error_app2, Nat.sub_diag by lia; reflexivity|].
               exists c. cbn [be_hash be_beefy be_state be_reported set_root]. repeat (split; [assumption|]). split; [|auto].
               rewrite Eroot. unfold last_root. destruct log as [|z log _] using rev_ind; [cbn in Li; lia|]. rewrite rev_unit.
               rewrite app_length in Nl. cbn in Nl. rewrite nth_error_app2 in Ec by lia. replace (length news - length log)%nat with 0%nat in Ec by lia. cbn in Ec. congruence.
          * assert (i = length log). { apply nth_error_Some_lt in Hx || idtac. assert (i < length (set_last (set_root (ib_root b)) news ++ [e]))%nat by (apply nth_error_Some; congruence).
              rewrite app_length, set_last_length in H. cbn in H. lia. }
            subst i. rewrite nth_error_app2 in Hx by (rewrite set_last_length; lia). rewrite set_last_length, Nl, Nat.sub_diag in Hx. injection Hx as <-.
            exists a. rewrite nth_error_app2, Nat.sub_diag by lia. split; [reflexivity|]. cbn [be_hash be_beefy be_state be_reported e].
            rewrite firstn_all2 by (rewrite app_length; cbn; lia). rewrite <- Hbelt. split; [reflexivity|]. split; [reflexivity|]. split.
            -- rewrite app_length. replace (S (length log) =? length log + length [a])%nat with true by (symmetry; apply Nat.eqb_eq; cbn; lia). reflexivity.
            -- split; [apply pkg_sort_sorted|apply pkg_sort_perm].
        + rewrite A10, I7, set_last_lastn by assumption. rewrite lastn_step by assumption. f_equal. rewrite app_assoc. f_equal.
          assert (Eo : old_entries (log ++ [a]) = set_last (set_root (root (n_state n0) (n_hist n0))) (bh_entries (n_hist n0))) by (destruct log; reflexivity).
          rewrite Eo. destruct log as [|z log].
          * destruct news; [|discriminate]. rewrite !app_nil_r. cbn [old_entries]. rewrite Eroot. reflexivity.
          * rewrite set_last_app by (intros ->; discriminate). reflexivity.
    Qed.
    Lemma run_links : forall log n, imports n0 log n -> forall l1 a l2, log = l1 ++ a :: l2 ->
      ib_parent (ac_block a) = last_hash l1 /\ last_slot l1 < ib_slot (ac_block a) /\ ib_root (ac_block a) = last_root l1 /\
      ib_xt_hash (ac_block a) = xt_hash (ib_xts (ac_block a)).
    Proof.
      intros log n R. induction R as [|log n now b n' R IH Hp Hs|log n now b n' outs R IH Hp Hs Ho]; intros l1 a l2 E.
      - destruct l1; discriminate.
      - eauto.
      - destruct l2 as [|c l2 _] using rev_ind.
        + apply app_inj_tail in E as [-> <-]. cbn [ac_block]. destruct (run_inv _ _ R) as (I1 & I2 & I3 & I4 & I5 & _).
          destruct (accept_inv now n b n' Hp Hs outs Ho HL0 I5) as (A1 & A2 & A3 & A4 & A5 & _). rewrite <- I1, <- I2. repeat split; auto. rewrite A3, I4 in A4. congruence.
        + rewrite app_comm_cons, app_assoc in E. apply app_inj_tail in E as [-> _]. eauto.
    Qed.
  End Run.
End P.
