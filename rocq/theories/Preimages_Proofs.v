From Verif Require Import Base Base_Proofs Preimages_Model Preimages_Spec.
Open Scope N_scope.

(** Orders *)
Lemma bytes_eqb_eq : forall a b, bytes_eqb a b = true <-> a = b.
Proof.
  induction a as [|x a IH]; intros [|y b]; cbn; try (split; congruence). rewrite andb_true_iff, N.eqb_eq, IH. split; [intros [-> ->]|intros [= -> ->]]; auto.
Qed.
Lemma lex_lt_cons : forall x a y b, lex_lt (x :: a) (y :: b) <-> x < y \/ (x = y /\ lex_lt a b).
Proof.
  intros x a y b. unfold lex_lt. split.
  - intros [(z & s & [= -> ->])|(p & u & v & s & s' & E1 & E2 & L)]; [right; split; eauto|]. destruct p as [|q p]; cbn in *.
    + injection E1 as -> ->. injection E2 as -> ->. auto.
    + injection E1 as -> ->. injection E2 as -> ->. right. split; [reflexivity|]. right. exists p, u, v, s, s'. auto.
  - intros [L|[-> [(z & s & ->)|(p & u & v & s & s' & -> & -> & L)]]].
    + right. exists [], x, y, a, b. auto.
    + left. exists z, s. reflexivity.
    + right. exists (y :: p), u, v, s, s'. auto.
Qed.
Lemma lex_leb_spec : forall a b, lex_leb a b = true <-> a = b \/ lex_lt a b.
Proof.
  induction a as [|x a IH]; intros [|y b]; cbn [lex_leb].
  - split; auto.
  - split; [|reflexivity]. intros _. right. left. exists y, b. reflexivity.
  - split; [discriminate|]. intros [[=]|[(z & s & [=])|(p & u & v & s & s' & _ & E2 & _)]]. destruct p; discriminate.
  - rewrite lex_lt_cons. destruct (N.ltb_spec x y) as [L|L]; [intuition|]. destruct (N.ltb_spec y x) as [L'|L'].
    + split; [discriminate|]. intros [[= -> ->]|[Q|[-> _]]]; lia.
    + assert (x = y) by lia. subst y. rewrite IH. split; [intros [->|Q]; auto|]. intros [[= ->]|[Q|[_ Q]]]; auto. lia.
Qed.
Lemma lex_lt_irrefl : forall a, ~ lex_lt a a.
Proof. induction a as [|x a IH]; [intros [(y & s & Q)|(p & x & y & s & s' & Q & _)]; [discriminate|destruct p; discriminate]|]. rewrite lex_lt_cons. intros [L|[_ L]]; [lia|auto]. Qed.
Lemma lex_lt_trans : forall a b c, lex_lt a b -> lex_lt b c -> lex_lt a c.
Proof.
  induction a as [|x a IH]; intros b c Hab Hbc.
  - destruct b as [|y b]; [now apply lex_lt_irrefl in Hab|]. destruct c as [|z c].
    + destruct Hbc as [(u & s & Q)|(p & u & v & s & s' & _ & Q & _)]; [discriminate|destruct p; discriminate].
    + left. exists z, c. reflexivity.
  - destruct b as [|y b]; [destruct Hab as [(u & s & Q)|(p & u & v & s & s' & _ & Q & _)]; [discriminate|destruct p; discriminate]|].
    destruct c as [|z c]; [destruct Hbc as [(u & s & Q)|(p & u & v & s & s' & _ & Q & _)]; [discriminate|destruct p; discriminate]|].
    rewrite lex_lt_cons in *. destruct Hab as [L|[-> L]], Hbc as [L'|[-> L']]; [left; lia|left; lia|left; lia|right; eauto].
Qed.
Lemma entry_leb_spec : forall a b, entry_leb a b = true <-> a = b \/ entry_lt a b.
Proof.
  intros [s d] [s' d']. unfold entry_leb, entry_lt. cbn. destruct (N.ltb_spec s s') as [L|L]; [intuition|]. destruct (N.ltb_spec s' s) as [L'|L'].
  - split; [discriminate|]. intros [[= -> ->]|[Q|[-> _]]]; lia.
  - assert (s = s') by lia. subst s'. rewrite lex_leb_spec. split; [intros [->|Q]; auto|]. intros [[= ->]|[Q|[_ Q]]]; auto. lia.
Qed.
Lemma entry_lt_trans : forall a b c, entry_lt a b -> entry_lt b c -> entry_lt a c.
Proof. intros a b c [L|[E L]] [L'|[E' L']]; unfold entry_lt; [left; lia|left; lia|left; lia|right; split; [congruence|eapply lex_lt_trans; eauto]]. Qed.
Lemma entry_lt_irrefl : forall a, ~ entry_lt a a.
Proof. intros a [L|[_ L]]; [lia|now apply lex_lt_irrefl in L]. Qed.
Lemma entry_eqb_eq : forall a b, entry_eqb a b = true <-> a = b.
Proof. intros [s d] [s' d']. unfold entry_eqb. cbn. rewrite andb_true_iff, N.eqb_eq, bytes_eqb_eq. split; [intros [-> ->]|intros [= -> ->]]; auto. Qed.
Lemma strictly_cons : forall a x, strictly_ascending (a :: x) <-> (forall b, In b x -> entry_lt a b) /\ strictly_ascending x.
Proof.
  intros a x. split.
  - intros HS. assert (Hx : strictly_ascending x) by (intros l1 b c l2 ->; apply (HS (a :: l1) b c l2); reflexivity). split; [|assumption].
    revert a HS. induction x as [|c x IH]; intros a HS b Hb; [destruct Hb|]. assert (entry_lt a c) by (apply (HS [] a c x); reflexivity).
    destruct Hb as [<-|Hb]; [assumption|]. apply entry_lt_trans with c; [assumption|]. apply IH; auto. intros l1 u v l2 ->. apply (Hx (c :: l1) u v l2). reflexivity.
  - intros [Ha Hx] l1 u v l2 E. destruct l1 as [|w l1]; cbn in E; injection E as -> E.
    + subst x. apply Ha. now left.
    + apply (Hx l1 u v l2 E).
Qed.
Lemma strictly_NoDup : forall x, strictly_ascending x -> NoDup x.
Proof.
  induction x as [|a x IH]; intros HS; constructor; apply strictly_cons in HS as [Ha Hx]; auto. intros Hin. apply Ha in Hin. now apply entry_lt_irrefl in Hin.
Qed.
Lemma sorted_distinct : forall x, entries_sorted x = true /\ entries_distinct x = true <-> strictly_ascending x.
Proof.
  induction x as [|a x IH].
  - cbn. split; [|auto]. intros _ l1 u v l2 E. destruct l1; discriminate.
  - rewrite strictly_cons, <- IH. cbn [entries_distinct]. rewrite andb_true_iff, negb_true_iff. split.
    + intros [S [N E]]. assert (Sx : entries_sorted x = true) by (destruct x as [|b x]; [reflexivity|]; cbn [entries_sorted] in S; now apply andb_true_iff in S as [_ S]).
      split; [|split; assumption]. destruct (proj1 IH (conj Sx E)) as []|| idtac. intros b Hb.
      assert (SS := proj1 IH (conj Sx E)). destruct x as [|c x]; [destruct Hb|]. cbn [entries_sorted] in S. apply andb_true_iff in S as [S _]. apply entry_leb_spec in S.
      assert (a <> c). { intros ->. cbn in N. rewrite (proj2 (entry_eqb_eq c c) eq_refl) in N. discriminate. }
      assert (entry_lt a c) by intuition. destruct Hb as [<-|Hb]; [assumption|]. apply entry_lt_trans with c; [assumption|]. apply strictly_cons in SS as [SS _]. auto.
    + intros [Ha [Sx E]]. split; [|split; [|assumption]].
      * destruct x as [|c x]; [reflexivity|]. cbn [entries_sorted]. rewrite (proj2 (entry_leb_spec a c)) by (right; apply Ha; now left). exact Sx.
      * apply not_true_iff_false. intros Q. apply existsb_exists in Q as (b & Hb & Q). apply entry_eqb_eq in Q. subst b. apply Ha in Hb. now apply entry_lt_irrefl in Hb.
Qed.

Section P.
  Variable H : bytes -> N.
  Variable D : N.

  Lemma validate_preimages_ok : forall st x, validate_preimages H st x = Ok tt <-> acceptable_preimages H st x.
  Proof.
    intros st x. unfold acceptable_preimages. rewrite <- sorted_distinct.
    assert (E : validate_each H st x = Ok tt <-> forall e, In e x -> wanted H st e).
    { assert (K : forall e, validate_preimage H st e = Ok tt <-> wanted H st e).
      { intros e. unfold validate_preimage, wanted. cbv zeta. destruct (pre st _ _); [split; [discriminate|intros [? _]; discriminate]|].
        destruct (look st _ _ _) as [[|]|]; split; try discriminate; auto; intros [_ ?]; discriminate. }
      induction x as [|e x IH]; cbn [validate_each]; [split; [intros _ ? []|reflexivity]|]. destruct (validate_preimage H st e) as [[]|er|] eqn:V; cbn [bind].
      - rewrite IH. apply K in V. split; [intros Q e' [<-|He]; auto|auto with datatypes].
      - split; [discriminate|]. intros Q. assert (W := Q e ltac:(now left)). apply K in W. congruence.
      - split; [discriminate|]. intros Q. assert (W := Q e ltac:(now left)). apply K in W. congruence. }
    destruct x as [|e x]; [cbn; intuition|]. rewrite <- E. unfold validate_preimages.
    destruct (entries_sorted (e :: x)), (entries_distinct (e :: x)); cbn [negb]; intuition discriminate.
  Qed.

  Lemma set_look_same : forall st s h n v, look (set_look st s h n v) s h n = v.
  Proof. intros. cbn. now rewrite !N.eqb_refl. Qed.
  Lemma set_look_other : forall st s h n v s' h' n', (s', h', n') <> (s, h, n) -> look (set_look st s h n v) s' h' n' = look st s' h' n'.
  Proof.
    intros st s h n v s' h' n' Ne. cbn. destruct (N.eqb_spec s' s) as [->|]; [|reflexivity]. destruct (N.eqb_spec h' h) as [->|]; [|reflexivity].
    destruct (N.eqb_spec n' n) as [->|]; [congruence|reflexivity].
  Qed.
  Lemma set_pre_same : forall st s h v, pre (set_pre st s h v) s h = v.
  Proof. intros. cbn. now rewrite !N.eqb_refl. Qed.
  Lemma set_pre_other : forall st s h v s' h', (s', h') <> (s, h) -> pre (set_pre st s h v) s' h' = pre st s' h'.
  Proof. intros st s h v s' h' Ne. cbn. destruct (N.eqb_spec s' s) as [->|]; [|reflexivity]. destruct (N.eqb_spec h' h) as [->|]; [congruence|reflexivity]. Qed.

  (** Integration *)
  Lemma wanted_dec : forall st e, {wanted H st e} + {~ wanted H st e}.
  Proof.
    intros st e. unfold wanted. destruct (pre st _ _); [right; intros [? _]; discriminate|]. destruct (look st _ _ _) as [[|]|]; [left; auto|right; intros [_ ?]; discriminate..].
  Qed.
  Lemma integrate_wanted : forall t st e, wanted H st e ->
    integrate_one H t st e = set_pre (set_look st (pe_service e) (H (pe_data e)) (dlen (pe_data e)) (Some [t])) (pe_service e) (H (pe_data e)) (Some (pe_data e)).
  Proof. intros t st e [Q1 Q2]. unfold integrate_one. cbv zeta. now rewrite Q1, Q2. Qed.
  Lemma integrate_unwanted : forall t st e, ~ wanted H st e -> integrate_one H t st e = st.
  Proof.
    intros t st e N. unfold integrate_one, wanted in *. cbv zeta. destruct (pre st _ _); [reflexivity|]. destruct (look st _ _ _) as [[|]|]; try reflexivity. exfalso. auto.
  Qed.
  Lemma integrate_all : forall t x st, NoDup x -> (forall e e', In e x -> In e' x -> pe_service e = pe_service e' -> H (pe_data e) = H (pe_data e') -> e = e') ->
    let st' := fold_left (integrate_one H t) x st in
    (forall e, In e x -> wanted H st e ->
       pre st' (pe_service e) (H (pe_data e)) = Some (pe_data e) /\ look st' (pe_service e) (H (pe_data e)) (dlen (pe_data e)) = Some [t]) /\
    (forall s h, (forall e, In e x -> wanted H st e -> (pe_service e, H (pe_data e)) <> (s, h)) -> pre st' s h = pre st s h) /\
    (forall s h n, (forall e, In e x -> wanted H st e -> (pe_service e, H (pe_data e), dlen (pe_data e)) <> (s, h, n)) -> look st' s h n = look st s h n).
  Proof.
    intros t. induction x as [|e x IH]; intros st Nd Inj; cbn [fold_left].
    - cbv zeta. split; [intros e []|]. split; auto.
    - inversion Nd as [|? ? N1 N2]; subst.
      assert (W : forall e', In e' x -> (wanted H (integrate_one H t st e) e' <-> wanted H st e')).
      { intros e' He'. destruct (wanted_dec st e) as [We|We]; [|rewrite integrate_unwanted by assumption; reflexivity]. rewrite integrate_wanted by assumption. unfold wanted.
        assert (Ne : (pe_service e', H (pe_data e')) <> (pe_service e, H (pe_data e))).
        { intros [= Q1 Q2]. assert (e' = e) by (apply Inj; auto with datatypes). subst. contradiction. }
        rewrite set_pre_other by assumption. cbn [pre look set_pre]. cbn [pre set_look]. change (look (set_look st (pe_service e) (H (pe_data e)) (dlen (pe_data e)) (Some [t])) (pe_service e') (H (pe_data e')) (dlen (pe_data e')) ) with (look (set_look st (pe_service e) (H (pe_data e)) (dlen (pe_data e)) (Some [t])) (pe_service e') (H (pe_data e')) (dlen (pe_data e'))).
        rewrite set_look_other by congruence. reflexivity. }
      specialize (IH (integrate_one H t st e) N2). destruct IH as (A & B & Cc); [intros; apply Inj; auto with datatypes|]. cbv zeta in *. split; [|split].
      + intros e' [<-|He'] We; [|apply A; [assumption|now apply W]].
        assert (Ne : forall e', In e' x -> (pe_service e', H (pe_data e')) <> (pe_service e, H (pe_data e))).
        { intros e' He' [= Q1 Q2]. assert (e' = e) by (apply Inj; auto with datatypes). subst. contradiction. }
        rewrite B by (intros e' He' _; auto). rewrite Cc by (intros e' He' _ [= Q1 Q2 _]; apply (Ne e' He'); congruence).
        rewrite integrate_wanted by assumption. rewrite set_pre_same. split; [reflexivity|]. exact (set_look_same st _ _ _ _).
      + intros s h Hn. rewrite B by (intros e' He' We'; apply Hn; [now right|now apply W]).
        destruct (wanted_dec st e) as [We|We]; [|now rewrite integrate_unwanted]. rewrite integrate_wanted by assumption. rewrite set_pre_other; [reflexivity|]. intros Q. apply (Hn e); [now left|assumption|congruence].
      + intros s h n Hn. rewrite Cc by (intros e' He' We'; apply Hn; [now right|now apply W]).
        destruct (wanted_dec st e) as [We|We]; [|now rewrite integrate_unwanted]. rewrite integrate_wanted by assumption.
        apply set_look_other. intros Q. apply (Hn e); [now left|assumption|congruence].
  Qed.

  (** Records *)
  Lemma record_valid_odd : forall l t, (length l <= 3)%nat -> nondecreasing l -> record_valid l t = Nat.odd (changes_by t l).
  Proof.
    intros l t Hl Hs. unfold changes_by. destruct l as [|x [|y [|z [|w l]]]]; cbn [length] in Hl; try lia; cbn [nondecreasing] in Hs; cbn [record_valid filter].
    - reflexivity.
    - destruct (N.leb_spec x t); reflexivity.
    - destruct (N.leb_spec x t), (N.leb_spec y t), (N.ltb_spec t y); cbn; try lia; reflexivity.
    - destruct (N.leb_spec x t), (N.leb_spec y t), (N.leb_spec z t), (N.ltb_spec t y); cbn; try lia; reflexivity.
  Qed.

  (** Histories *)
  Section Inv.
    Variable P : bytes -> Prop.
    Hypothesis HP : forall d d', P d -> P d' -> H d = H d' -> d = d'.
    Definition inv (now : N) (st : pstate) : Prop :=
      (forall s h n l, look st s h n = Some l -> (length l <= 3)%nat /\ nondecreasing l /\ (forall x, In x l -> x <= now) /\
         (l <> [] -> exists d, pre st s h = Some d /\ dlen d = n)) /\
      (forall s h d, pre st s h = Some d -> H d = h /\ P d /\ exists x l, look st s h (dlen d) = Some (x :: l)).
    Definition pop_ok (o : pop) : Prop := match o with Provide _ d => P d | Integrate _ d => P d | _ => True end.
    Lemma inv_empty : forall now, inv now pempty.
    Proof. intros now. split; cbn; discriminate. Qed.

    Lemma expired_spec : forall y t, y <= t -> t + D < 2 ^ 32 -> expired D y t = (y + D <? t).
    Proof. intros y t Hy Ht. unfold expired. rewrite N.mod_small by lia. reflexivity. Qed.

    (** Effects of an operation on one key: the record at (s,h,n) and the data at (s,h) before and after. *)
    Lemma inv_put : forall now t st s d, inv now st -> now <= t -> P d -> look st s (H d) (dlen d) = Some [] ->
      pre st s (H d) = None /\ inv t (set_pre (set_look st s (H d) (dlen d) (Some [t])) s (H d) (Some d)).
    Proof.
      intros now t st s d [I1 I2] Ht Pd El.
      assert (Ep : pre st s (H d) = None).
      { destruct (pre st s (H d)) as [d'|] eqn:E; [|reflexivity]. destruct (I2 _ _ _ E) as (Eh & Pd' & x & l & El'). assert (d' = d) by (apply HP; auto). subst d'. congruence. }
      split; [assumption|]. split.
      - intros s' h' n' l Hl. change (look (set_look st s (H d) (dlen d) (Some [t])) s' h' n' = Some l) in Hl.
        cbn in Hl. destruct ((s' =? s) && (h' =? H d) && (n' =? dlen d))%bool eqn:C.
        + apply andb_true_iff in C as [C Cn]. apply andb_true_iff in C as [Cs Ch]. apply N.eqb_eq in Cs, Ch, Cn. subst. injection Hl as <-. cbn. repeat split; [lia|intros x [<-|[]]; lia|].
          intros _. exists d. now rewrite !N.eqb_refl.
        + destruct (I1 _ _ _ _ Hl) as (L1 & L2 & L3 & L4). repeat split; auto; [intros x Hx; specialize (L3 x Hx); lia|].
          intros Nl. destruct (L4 Nl) as (d' & E' & Ed'). exists d'. split; [|assumption]. rewrite set_pre_other; [exact E'|]. intros [= -> ->]. congruence.
      - intros s' h' d' E'. cbn [pre set_pre] in E'. cbn [pre set_look] in E'. destruct ((s' =? s) && (h' =? H d))%bool eqn:C.
        + apply andb_true_iff in C as [Cs Ch]. apply N.eqb_eq in Cs, Ch. subst. injection E' as <-. repeat split; auto. exists t, []. exact (set_look_same st s (H d) (dlen d) (Some [t])).
        + destruct (I2 _ _ _ E') as (Eh & Pd' & x & l & El'). repeat split; auto. exists x, l.
          change (look (set_look st s (H d) (dlen d) (Some [t])) s' h' (dlen d') = Some (x :: l)). rewrite set_look_other; [assumption|]. intros [= -> -> _]. rewrite !N.eqb_refl in C. discriminate.
    Qed.
    (** Replacing a record by another that is empty exactly when it was. *)
    Lemma inv_record : forall now t st s h n l l', inv now st -> now <= t -> look st s h n = Some l -> (l = [] <-> l' = []) ->
      (length l' <= 3)%nat -> nondecreasing l' -> (forall x, In x l' -> x <= t) -> inv t (set_look st s h n (Some l')).
    Proof.
      intros now t st s h n l l' [I1 I2] Ht El En L1 L2 L3. split.
      - intros s' h' n' m Hm. cbn in Hm. destruct ((s' =? s) && (h' =? h) && (n' =? n))%bool eqn:C.
        + apply andb_true_iff in C as [C Cn]. apply andb_true_iff in C as [Cs Ch]. apply N.eqb_eq in Cs, Ch, Cn. subst. injection Hm as <-. repeat split; auto.
          intros Nl. destruct (I1 _ _ _ _ El) as (_ & _ & _ & K). apply K. intros Q. apply Nl. now apply En.
        + destruct (I1 _ _ _ _ Hm) as (M1 & M2 & M3 & M4). repeat split; auto. intros x Hx. specialize (M3 x Hx). lia.
      - intros s' h' d' E'. destruct (I2 _ _ _ E') as (Eh & Pd' & x & m & Em). repeat split; auto. cbn. destruct ((s' =? s) && (h' =? h) && (dlen d' =? n))%bool eqn:C.
        + apply andb_true_iff in C as [C Cn]. apply andb_true_iff in C as [Cs Ch]. apply N.eqb_eq in Cs, Ch, Cn. subst s' n. rewrite Ch in Em. rewrite El in Em. injection Em as ->. destruct l' as [|y l']; [exfalso; destruct En as [_ En]; discriminate (En eq_refl)|eauto].
        + eauto.
    Qed.
    (** A fresh request. *)
    Lemma inv_request : forall now t st s h n, inv now st -> now <= t -> look st s h n = None -> inv t (set_look st s h n (Some [])).
    Proof.
      intros now t st s h n [I1 I2] Ht El. split.
      - intros s' h' n' m Hm. cbn in Hm. destruct ((s' =? s) && (h' =? h) && (n' =? n))%bool eqn:C.
        + injection Hm as <-. cbn. repeat split; [lia|intros x []|congruence].
        + destruct (I1 _ _ _ _ Hm) as (M1 & M2 & M3 & M4). repeat split; auto. intros x Hx. specialize (M3 x Hx). lia.
      - intros s' h' d' E'. destruct (I2 _ _ _ E') as (Eh & Pd' & x & m & Em). repeat split; auto. exists x, m. rewrite set_look_other; [assumption|]. intros [= -> -> <-]. congruence.
    Qed.
    (** Dropping a request together with the data. *)
    Lemma inv_drop : forall now t st s h n, inv now st -> now <= t -> (forall d, pre st s h = Some d -> dlen d = n) ->
      inv t (set_look (set_pre st s h None) s h n None).
    Proof.
      intros now t st s h n [I1 I2] Ht Hr. split.
      - intros s' h' n' m Hm. cbn in Hm. destruct ((s' =? s) && (h' =? h) && (n' =? n))%bool eqn:C; [discriminate|].
        destruct (I1 _ _ _ _ Hm) as (M1 & M2 & M3 & M4). repeat split; auto; [intros x Hx; specialize (M3 x Hx); lia|]. intros Nm. destruct (M4 Nm) as (d & Ed & En). exists d. split; [|assumption].
        cbn. destruct ((s' =? s) && (h' =? h))%bool eqn:C2; [|assumption]. apply andb_true_iff in C2 as [Cs Ch]. apply N.eqb_eq in Cs, Ch. subst s' h'. cbn in C.
        rewrite <- (Hr d Ed), <- En, N.eqb_refl in C. discriminate.
      - intros s' h' d' E'. cbn in E'. destruct ((s' =? s) && (h' =? h))%bool eqn:C; [discriminate|]. destruct (I2 _ _ _ E') as (Eh & Pd' & x & m & Em). repeat split; auto. exists x, m.
        cbn. rewrite C. cbn. assumption.
    Qed.
    Lemma inv_later : forall now t st, inv now st -> now <= t -> inv t st.
    Proof. intros now t st [I1 I2] Ht. split; [|assumption]. intros s h n l Hl. destruct (I1 _ _ _ _ Hl) as (L1 & L2 & L3 & L4). repeat split; auto. intros x Hx. specialize (L3 x Hx). lia. Qed.

    (** Lookup before and after, for a slot strictly before [t]. *)
    Definition same_at (tau : N) (st st' : pstate) : Prop := forall s h, historical_lookup st' s tau h = historical_lookup st s tau h.
    Lemma same_record : forall now st s h n l l' tau, inv now st -> look st s h n = Some l -> record_valid l' tau = record_valid l tau ->
      same_at tau st (set_look st s h n (Some l')).
    Proof.
      intros now st s h n l l' tau [I1 I2] El Ev s' h'. unfold historical_lookup. cbn [pre set_look]. destruct (pre st s' h') as [d|]; [|reflexivity].
      cbn. destruct ((s' =? s) && (h' =? h) && (dlen d =? n))%bool eqn:C; [|reflexivity].
      apply andb_true_iff in C as [C Cn]. apply andb_true_iff in C as [Cs Ch]. apply N.eqb_eq in Cs, Ch, Cn. subst. now rewrite El, Ev.
    Qed.
    Lemma same_request : forall now st s h n tau, inv now st -> look st s h n = None -> same_at tau st (set_look st s h n (Some [])).
    Proof.
      intros now st s h n tau [I1 I2] El s' h'. unfold historical_lookup. cbn [pre set_look]. destruct (pre st s' h') as [d|]; [|reflexivity].
      cbn. destruct ((s' =? s) && (h' =? h) && (dlen d =? n))%bool eqn:C; [|reflexivity].
      apply andb_true_iff in C as [C Cn]. apply andb_true_iff in C as [Cs Ch]. apply N.eqb_eq in Cs, Ch, Cn. subst. now rewrite El.
    Qed.
    Lemma same_put : forall st s d t tau, tau < t -> pre st s (H d) = None ->
      same_at tau st (set_pre (set_look st s (H d) (dlen d) (Some [t])) s (H d) (Some d)).
    Proof.
      intros st s d t tau Ht Ep s' h'. unfold historical_lookup. cbn [pre set_pre]. cbn [pre set_look]. destruct ((s' =? s) && (h' =? H d))%bool eqn:C.
      - apply andb_true_iff in C as [Cs Ch]. apply N.eqb_eq in Cs, Ch. subst. rewrite Ep. cbn. rewrite !N.eqb_refl. cbn. destruct (N.leb_spec t tau); [lia|reflexivity].
      - destruct (pre st s' h') as [d'|]; [|reflexivity]. cbn. rewrite C. reflexivity.
    Qed.
    Lemma same_drop : forall now st s h n l tau, inv now st -> (forall d, pre st s h = Some d -> dlen d = n) -> look st s h n = Some l ->
      record_valid l tau = false -> same_at tau st (set_look (set_pre st s h None) s h n None).
    Proof.
      intros now st s h n l tau [I1 I2] Hr El Ev s' h'. unfold historical_lookup. cbn [pre set_look]. cbn [pre set_pre]. destruct ((s' =? s) && (h' =? h))%bool eqn:C.
      - apply andb_true_iff in C as [Cs Ch]. apply N.eqb_eq in Cs, Ch. subst. destruct (pre st s h) as [d|] eqn:Ep; [|reflexivity]. rewrite (Hr d eq_refl), El, Ev. reflexivity.
      - destruct (pre st s' h') as [d'|]; [|reflexivity]. cbn. rewrite C. reflexivity.
    Qed.

    Local Ltac rec := first [split; discriminate | cbn; lia | cbn [nondecreasing] in *; intuition lia | cbn; intuition lia].
    Lemma step : forall now t st o, inv now st -> now <= t -> t + D < 2 ^ 32 -> pop_ok o -> right_length st o ->
      inv t (papply H D st t o) /\ forall tau, tau < t -> t <= tau + D -> same_at tau st (papply H D st t o).
    Proof.
      intros now t st o I Ht HD Po Rl. assert (It := inv_later _ _ _ I Ht). destruct o as [a s h n|s h n|s d|s d]; cbn [papply pop_ok right_length] in *.
      - unfold host_solicit. destruct (look st s h n) as [[|x [|y [|z l]]]|] eqn:El; cbn [fst]; try (split; [assumption|intros ? ? ? ? ?; reflexivity]).
        + destruct (proj1 I _ _ _ _ El) as (L1 & L2 & L3 & L4). assert (x <= now) by (apply L3; cbn; auto). assert (y <= now) by (apply L3; cbn; auto). split.
          * apply (inv_record now t st s h n [x; y]); auto; rec.
          * intros tau T1 T2. apply (same_record now st s h n [x; y]); auto. cbn. destruct (N.leb_spec t tau); [lia|]. now rewrite orb_false_r.
        + destruct a; cbn [fst]; [|split; [assumption|intros ? ? ? ? ?; reflexivity]]. split; [apply (inv_request now); auto|]. intros tau T1 T2. apply (same_request now); auto.
      - unfold host_forget. destruct (look st s h n) as [[|x [|y [|z [|w l]]]]|] eqn:El; cbn [fst]; try (split; [assumption|intros ? ? ? ? ?; reflexivity]);
          destruct (proj1 I _ _ _ _ El) as (L1 & L2 & L3 & L4).
        + split; [apply (inv_drop now); auto|]. intros tau T1 T2. apply (same_drop now st s h n []); auto.
        + assert (x <= now) by (apply L3; cbn; auto). split.
          * apply (inv_record now t st s h n [x]); auto; rec.
          * intros tau T1 T2. apply (same_record now st s h n [x]); auto. cbn. destruct (N.ltb_spec tau t); [|lia]. now rewrite andb_true_r.
        + assert (y <= now) by (apply L3; cbn; auto). rewrite expired_spec by lia. destruct (N.ltb_spec (y + D) t) as [Ex|Ex]; cbn [fst]; [|split; [assumption|intros ? ? ? ? ?; reflexivity]].
          split; [apply (inv_drop now); auto|]. intros tau T1 T2. apply (same_drop now st s h n [x; y]); auto. cbn. destruct (N.ltb_spec tau y); [lia|]. now rewrite andb_false_r.
        + assert (y <= now) by (apply L3; cbn; auto). assert (z <= now) by (apply L3; cbn; auto). rewrite expired_spec by lia. destruct (N.ltb_spec (y + D) t) as [Ex|Ex]; cbn [fst]; [|split; [assumption|intros ? ? ? ? ?; reflexivity]]. split.
          * apply (inv_record now t st s h n [x; y; z]); auto; rec.
          * intros tau T1 T2. apply (same_record now st s h n [x; y; z]); auto. cbn. destruct (N.ltb_spec tau t); [|lia]. destruct (N.ltb_spec tau y); [lia|]. now rewrite andb_true_r, andb_false_r.
      - unfold add_provided. cbv zeta. destruct (look st s (H d) (dlen d)) as [[|]|] eqn:El; try (split; [assumption|intros ? ? ? ? ?; reflexivity]).
        destruct (inv_put now t st s d I Ht Po El) as [Ep I']. split; [exact I'|]. intros tau T1 T2. exact (same_put st s d t tau T1 Ep).
      - unfold integrate_one. cbn [pe_service pe_data]. cbv zeta. destruct (pre st s (H d)) eqn:Ep0; [split; [assumption|intros ? ? ? ? ?; reflexivity]|].
        destruct (look st s (H d) (dlen d)) as [[|]|] eqn:El; try (split; [assumption|intros ? ? ? ? ?; reflexivity]).
        destruct (inv_put now t st s d I Ht Po El) as [Ep I']. split; [exact I'|]. intros tau T1 T2. exact (same_put st s d t tau T1 Ep).
    Qed.
  End Inv.

  Lemma prun_snoc : forall st ops t o, prun H D st (ops ++ [(t, o)]) = papply H D (prun H D st ops) t o.
  Proof. intros. unfold prun. now rewrite fold_left_app. Qed.
  Lemma nondecreasing_app : forall a x l, nondecreasing (a ++ x :: l) -> (forall y, In y a -> y <= x) /\ nondecreasing a.
  Proof.
    induction a as [|y a IH]; intros x l Hn; [cbn; intuition|]. destruct a as [|z a].
    - cbn in *. intuition (subst; lia).
    - cbn [app nondecreasing] in *. destruct Hn as [Hyz Hn]. destruct (IH x l Hn) as [A B]. split; [|split; assumption].
      intros w [<-|Hw]; [|auto]. specialize (A z ltac:(now left)). lia.
  Qed.
  Lemma history_inv : forall ops0 ops, no_collision H ops0 -> incl (data_of ops) (data_of ops0) -> timely D ops -> right_lengths H D ops ->
    forall now, (forall t o, In (t, o) ops -> t <= now) -> inv (fun d => In d (data_of ops0)) now (prun H D pempty ops).
  Proof.
    intros ops0 ops Nc. induction ops as [|[t o] ops IH] using rev_ind; intros Hd [Ts Tb] Rl now Hn; [apply inv_empty|]. rewrite prun_snoc.
    assert (Hd' : incl (data_of ops) (data_of ops0)) by (intros d Hin; apply Hd; unfold data_of; rewrite flat_map_app; apply in_or_app; now left).
    rewrite map_app in Ts. cbn in Ts. destruct (nondecreasing_app _ _ _ Ts) as [Ta Tn].
    assert (It : inv (fun d => In d (data_of ops0)) t (prun H D pempty ops)).
    { apply IH; auto.
      - split; [assumption|]. intros t' o' Hin. apply (Tb t' o'). apply in_or_app. now left.
      - intros l1 t' o' l2 ->. apply (Rl l1 t' o' (l2 ++ [(t, o)])). rewrite <- app_assoc. reflexivity.
      - intros t' o' Hin. apply Ta. apply in_map_iff. exists (t', o'). auto. }
    assert (Hto : In (t, o) (ops ++ [(t, o)])) by (apply in_or_app; right; now left).
    apply (inv_later _ Nc t); [|exact (Hn t o Hto)]. apply (step _ Nc t); [assumption|lia|exact (Tb t o Hto)| |].
    - destruct o; cbn; auto; apply Hd; unfold data_of; rewrite flat_map_app; apply in_or_app; right; cbn; auto.
    - apply (Rl ops t o []). reflexivity.
  Qed.
  Lemma history_stable : forall ops later, no_collision H (ops ++ later) -> timely D (ops ++ later) -> right_lengths H D (ops ++ later) ->
    forall tau, (forall t o, In (t, o) later -> tau < t <= tau + D) ->
    forall s h, historical_lookup (prun H D pempty (ops ++ later)) s tau h = historical_lookup (prun H D pempty ops) s tau h.
  Proof.
    intros ops later Nc T Rl tau Hl s h. set (ops0 := ops ++ later) in *. assert (G : forall l1 l2, later = l1 ++ l2 ->
       historical_lookup (prun H D pempty (ops ++ l1)) s tau h = historical_lookup (prun H D pempty ops) s tau h).
    { induction l1 as [|[t o] l1 IH] using rev_ind; intros l2 E; [now rewrite app_nil_r|]. rewrite <- (IH ((t, o) :: l2)) by (rewrite E, <- app_assoc; reflexivity).
      rewrite app_assoc, prun_snoc. assert (E0 : ops0 = (ops ++ l1) ++ (t, o) :: l2) by (unfold ops0; rewrite E, <- !app_assoc; reflexivity).
      assert (Hin : In (t, o) ops0) by (rewrite E0; apply in_or_app; right; now left). destruct T as [Ts Tb].
      assert (Ts' := Ts). rewrite E0, map_app in Ts'. cbn in Ts'. destruct (nondecreasing_app _ _ _ Ts') as [Ta Tn].
      assert (It : inv (fun d => In d (data_of ops0)) t (prun H D pempty (ops ++ l1))).
      { apply history_inv; auto.
        - intros d Hd. rewrite E0. unfold data_of in *. rewrite (flat_map_app _ (ops ++ l1)). apply in_or_app. now left.
        - split; [assumption|]. intros t' o' Hi. apply (Tb t' o'). rewrite E0. apply in_or_app. now left.
        - intros a t' o' b Eab. apply (Rl a t' o' (b ++ (t, o) :: l2)). rewrite E0, Eab, <- app_assoc. reflexivity.
        - intros t' o' Hi. apply Ta. apply in_map_iff. exists (t', o'). auto. }
      assert (Hl' : tau < t <= tau + D) by (apply (Hl t o); rewrite E; apply in_or_app; left; apply in_or_app; right; now left).
      apply (step _ Nc t t); [assumption|lia|exact (Tb t o Hin)| |exact (Rl _ _ _ _ E0)|lia|lia].
      destruct o; cbn; auto; rewrite E0; unfold data_of; rewrite (flat_map_app _ (ops ++ l1)); apply in_or_app; right; cbn; auto. }
    apply (G later []). now rewrite app_nil_r.
  Qed.
End P.
