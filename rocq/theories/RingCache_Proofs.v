From Verif Require Import Base Safrole_Model RingCache_Model.

Definition nul (p : list N) (k : vkey) : vkey := if existsb (N.eqb (ked k)) p then null_key else k.
Lemma existsb_in : forall x p, existsb (N.eqb x) p = true <-> In x p.
Proof.
  intros. rewrite existsb_exists. split.
  - intros (y & Hy & E). apply N.eqb_eq in E. now subst.
  - intros Hx. exists x. split; [assumption|apply N.eqb_refl].
Qed.
Lemma existsb_app' : forall x p q, existsb (N.eqb x) (p ++ q) = (existsb (N.eqb x) p || existsb (N.eqb x) q)%bool.
Proof. intros. apply existsb_app. Qed.
Lemma nullify_compose : forall p o ks, nullify_punished o (nullify_punished p ks) = nullify_punished (p ++ o) ks.
Proof.
  intros p o ks. unfold nullify_punished. rewrite map_map. apply map_ext. intros k. rewrite existsb_app'.
  destruct (existsb (N.eqb (ked k)) p) eqn:E1; cbn [orb].
  - destruct (existsb (N.eqb (ked null_key)) o); reflexivity.
  - reflexivity.
Qed.
Lemma nullify_sandwich : forall p0 p1 p2 ks, incl p0 p1 -> incl p1 p2 ->
  nullify_punished p0 ks = nullify_punished p2 ks -> nullify_punished p0 ks = nullify_punished p1 ks.
Proof.
  intros p0 p1 p2 ks I1 I2 E. induction ks as [|k ks IH]; [reflexivity|]. cbn [nullify_punished map] in *.
  injection E as E1 E2. f_equal; [|now apply IH]. clear IH E2.
  destruct (existsb (N.eqb (ked k)) p1) eqn:X1.
  - assert (X2 : existsb (N.eqb (ked k)) p2 = true) by (apply existsb_in, I2, existsb_in; assumption).
    rewrite X2 in E1. exact E1.
  - destruct (existsb (N.eqb (ked k)) p0) eqn:X0; [|reflexivity].
    apply existsb_in, I1, existsb_in in X0. congruence.
Qed.
Lemma remove_nth_in : forall (A : Type) i (l : list A) x, In x (remove_nth i l) -> In x l.
Proof. induction i as [|i IH]; intros [|a l] x Hx; cbn in *; auto. destruct Hx; auto. Qed.

Lemma update_staging_cases : forall o new c, update_staging o new = Some c -> o = Some c \/ c = new.
Proof.
  intros o new c Ec. unfold update_staging in Ec. destruct o as [c0|]; [destruct (c_at new <=? c_at c0)%N|]; injection Ec as ->; auto.
Qed.

Section Inv.
  Variable H : list vkey -> bytes.
  Hypothesis H_inj : forall a b, H a = H b -> a = b.

  Definition eff (s : rc) : list vkey := nullify_punished (r_punish s) (r_staging_set s).
  Definition from_iota (s : rc) (ks : list vkey) : Prop := exists p0, incl p0 (r_punish s) /\ ks = nullify_punished p0 (r_staging_set s).

  (** slots a block's own entries may carry *)
  Definition opened (p : pc) : Prop := match p with SafroleDone b | TicketsDone b => rb_opens b = true | _ => False end.
  Definition inblock (p : pc) : Prop := p <> Idle.
  Definition pc_block (p : pc) : option rblock :=
    match p with Idle => None | Nullified b | Rotated b | Disputed b | SafroleDone b | TicketsDone b => Some b end.

  Record inv (s : rc) : Prop := {
    i_slot : forall b, pc_block (r_pc s) = Some b -> r_slot s = rb_slot b;
    i_designate : forall b, pc_block (r_pc s) = Some b -> rb_opens b = true -> rb_designate b = None;
    i_lslot : (r_lslot s <= r_slot s)%N;
    i_lslot_in : inblock (r_pc s) -> (r_lslot s < r_slot s)%N;
    i_lhash : match r_pc s with Nullified _ | Rotated _ => True | _ => r_lhash s = H (eff s) \/ r_pc s = Idle end;
    i_st_at : forall c, r_staging s = Some c -> (c_at c <= r_slot s)%N /\ (inblock (r_pc s) -> c_at c = r_slot s -> opened (r_pc s));
    i_st_lt : forall c, r_staging s = Some c -> (r_lslot s < c_at c)%N -> c_set c = eff s;
    i_st_eq : forall c, r_staging s = Some c -> r_lslot s = c_at c -> from_iota s (c_set c);
    i_cu_at : forall c, r_curr s = Some c -> (c_at c <= r_slot s)%N /\
        (inblock (r_pc s) -> c_at c = r_slot s -> c_set c = r_pending s);
    i_cu_lt : forall c, r_curr s = Some c -> (r_lslot s < c_at c)%N -> c_set c = r_pending s;
    i_cu_eq : forall c, r_curr s = Some c -> r_lslot s = c_at c -> c_set c = r_pending s \/
      exists p0 p1, incl p0 p1 /\ incl p1 (r_punish s) /\ c_set c = nullify_punished p0 (r_staging_set s) /\
        r_pending s = nullify_punished p1 (r_staging_set s);
    i_tasks : forall t ks h, In (t, ks, h) (r_tasks s) -> h = H ks /\ (t <= r_lslot s)%N /\ (t = r_lslot s -> from_iota s ks);
    i_armed : forall t ks, In (t, ks) (r_armed s) -> (t <= r_lslot s)%N /\ (t = r_lslot s -> from_iota s ks);
    i_obs : forall o, In o (r_obs s) -> match o with UsedForRoot u r | UsedForTickets u r => u = r end }.

  Definition no_reject (e : ev) : Prop :=
    match e with Reject _ _ _ _ => False | Begin b => rb_opens b = true -> rb_designate b = None | _ => True end.

  Lemma from_iota_mono : forall s s' ks, r_staging_set s' = r_staging_set s -> incl (r_punish s) (r_punish s') -> from_iota s ks -> from_iota s' ks.
  Proof. intros s s' ks E I (p0 & I0 & ->). exists p0. split; [eapply incl_tran; eauto|]. now rewrite E. Qed.

  Lemma incl_app_l : forall (p o : list N), incl p (p ++ o).
  Proof. intros p o x Hx. apply in_or_app. now left. Qed.

  Ltac fin := cbn [r_slot r_staging_set r_punish r_pending r_curr r_staging r_lslot r_lhash r_tasks r_armed r_pc r_obs pc_block opened] in *.

  Lemma inv_step : forall s e s', inv s -> no_reject e -> exec H s e = Some s' -> inv s'.
  Proof.
    intros s e s' I NR Ex. destruct I. unfold exec in Ex.
    destruct e as [b| | | | | |i|i|i|sl st pu pe]; cbn [no_reject] in NR; try contradiction.
    - (* Begin *)
      destruct (r_pc s) eqn:Epc; try discriminate. destruct (N.ltb_spec (r_slot s) (rb_slot b)) as [Hlt|]; [|discriminate].
      match type of Ex with (let '(_, _) := ?m in _) = _ => destruct m as [st' lh'] eqn:Estl end.
      inversion Ex; subst s'; clear Ex.
      assert (Hst : forall c, st' = Some c -> exists c0, r_staging s = Some c0 /\ c_at c = c_at c0 /\ c_set c = nullify_punished (rb_offenders b) (c_set c0)).
      { intros c Ec. destruct (r_staging s) as [c0|]; injection Estl as E1 E2; rewrite <- E1 in Ec; [|discriminate].
        injection Ec as Ec. subst c. exists c0. auto. }
      constructor; fin; auto; try lia.
      + intros b0 [= <-]. reflexivity.
      + intros b0 [= <-]. assumption.
      + intros c Ec. destruct (Hst c Ec) as (c0 & E0 & -> & _). destruct (i_st_at0 c0 E0). split; [lia|]. intros _ Heq. lia.
      + intros c Ec Hl. destruct (Hst c Ec) as (c0 & E0 & Ea & ->). rewrite Ea in Hl. rewrite (i_st_lt0 c0 E0 Hl). unfold eff. fin.
        apply nullify_compose.
      + intros c Ec Hl. destruct (Hst c Ec) as (c0 & E0 & Ea & ->). rewrite Ea in Hl.
        destruct (i_st_eq0 c0 E0 Hl) as (p0 & I0 & ->). exists (p0 ++ rb_offenders b). fin. split.
        { intros x Hx. apply in_app_or in Hx. apply in_or_app. destruct Hx; auto. } { apply nullify_compose. }
      + intros c Ec. destruct (i_cu_at0 c Ec). split; [lia|]. intros _ Heq. lia.
      + intros c Ec Hl. destruct (i_cu_eq0 c Ec Hl) as [|(p0 & p1 & I0 & I1 & E0 & E1)]; [now left|]. right. exists p0, p1.
        repeat split; auto. eapply incl_tran; [exact I1|apply incl_app_l].
      + intros t ks h Hin. destruct (i_tasks0 _ _ _ Hin) as (A & B & C). repeat split; auto. intros Ht.
        eapply from_iota_mono; [| |apply C, Ht]; fin; auto. apply incl_app_l.
      + intros t ks Hin. destruct (i_armed0 _ _ Hin) as (B & C). split; auto. intros Ht.
        eapply from_iota_mono; [| |apply C, Ht]; fin; auto. apply incl_app_l.
    - (* Rotate *)
      destruct (r_pc s) as [|b|b|b|b|b] eqn:Epc; try discriminate. inversion Ex; subst s'; clear Ex.
      assert (NI : inblock (Nullified b)) by discriminate. specialize (i_lslot_in0 NI).
      constructor; fin; auto; try lia.
      + intros c Ec. destruct (i_st_at0 c Ec) as [A B]. split; [assumption|]. intros _ Heq. exact (B NI Heq).
      + intros c Ec. destruct (rb_opens b).
        * destruct (i_st_at0 c Ec) as [A B]. split; [assumption|]. intros _ Heq. destruct (B NI Heq).
        * destruct (i_cu_at0 c Ec) as [A B]. split; auto.
      + intros c Ec Hl. destruct (rb_opens b); [|now apply i_cu_lt0]. now apply i_st_lt0.
      + intros c Ec Hl. destruct (rb_opens b); [|now apply i_cu_eq0]. destruct (i_st_eq0 c Ec Hl) as (p0 & I0 & ->).
        right. exists p0, (r_punish s). repeat split; auto. intros x; auto.
    - (* Disputes *)
      destruct (r_pc s) as [|b|b|b|b|b] eqn:Epc; try discriminate. inversion Ex; subst s'; clear Ex.
      assert (NI : inblock (Rotated b)) by discriminate. specialize (i_lslot_in0 NI).
      constructor; fin; auto; try lia.
      + intros c Ec. destruct (i_st_at0 c Ec) as [A B]. split; [assumption|]. intros _ Heq. exact (B NI Heq).
      + intros c Ec. destruct (i_cu_at0 c Ec) as [A B]. split; auto.
    - (* Safrole *)
      destruct (r_pc s) as [|b|b|b|b|b] eqn:Epc; try discriminate.
      assert (NI : inblock (Disputed b)) by discriminate. specialize (i_lslot_in0 NI).
      assert (Hh : r_lhash s = H (eff s)) by (destruct i_lhash0 as [X|X]; [exact X|discriminate]).
      pose proof (i_slot0 b eq_refl) as Hsl.
      assert (Old : forall c, r_staging s = Some c -> (c_at c < r_slot s)%N).
      { intros c Ec. destruct (i_st_at0 c Ec) as [A B]. destruct (N.eq_dec (c_at c) (r_slot s)) as [Eq|]; [|lia].
        destruct (B NI Eq). }
      destruct (rb_opens b) eqn:Eo.
      + destruct (get_staging H s (rb_slot b) (nullify_punished (r_punish s) (r_staging_set s))) as [used st'] eqn:Eg.
        inversion Ex; subst s'; clear Ex.
        assert (G : used = eff s /\ (forall c, st' = Some c -> (r_staging s = Some c) \/ c = mk_ctx (rb_slot b) (eff s))).
        { unfold get_staging in Eg. fold (eff s) in Eg. destruct (r_staging s) as [c0|] eqn:Es.
          - destruct (r_lslot s <=? c_at c0)%N; cbn [andb] in Eg.
            + destruct (list_eq_dec N.eq_dec (r_lhash s) (H (c_set c0))) as [Eq|Ne]; injection Eg as <- <-.
              * split; [apply H_inj; congruence|auto].
              * split; [reflexivity|]. intros c Ec. exact (update_staging_cases (Some c0) (mk_ctx (rb_slot b) (eff s)) c Ec).
            + injection Eg as <- <-. split; [reflexivity|]. intros c Ec. exact (update_staging_cases (Some c0) (mk_ctx (rb_slot b) (eff s)) c Ec).
          - injection Eg as <- <-. split; [reflexivity|]. intros c Ec. exact (update_staging_cases None (mk_ctx (rb_slot b) (eff s)) c Ec). }
        destruct G as [-> Gst].
        constructor; fin; auto; try lia.
        * intros c Ec. split; [|intros _ _; exact Eo]. destruct (Gst c Ec) as [Es| ->]; [specialize (Old c Es); lia|cbn [c_at]; lia].
        * intros c Ec Hl. destruct (Gst c Ec) as [Es| ->]; [apply (i_st_lt0 c Es Hl)|reflexivity].
        * intros c Ec Hl. destruct (Gst c Ec) as [Es| ->]; [apply (i_st_eq0 c Es Hl)|cbn [c_at] in Hl; lia].
        * intros c Ec. destruct (i_cu_at0 c Ec) as [A B]. split; auto.
        * intros o Ho. apply in_app_or in Ho. destruct Ho as [Ho|[<-|[]]]; [now apply i_obs0|reflexivity].
      + inversion Ex; subst s'; clear Ex.
        constructor; fin; auto; try lia.
        * intros c Ec. specialize (Old c Ec). split; [lia|]. intros _ Heq. lia.
        * intros c Ec. destruct (i_cu_at0 c Ec) as [A B]. split; auto.
    - (* TicketsXt *)
      destruct (r_pc s) as [|b|b|b|b|b] eqn:Epc; try discriminate.
      assert (NI : inblock (SafroleDone b)) by discriminate. specialize (i_lslot_in0 NI).
      assert (Hh : r_lhash s = H (eff s)) by (destruct i_lhash0 as [X|X]; [exact X|discriminate]).
      pose proof (i_slot0 b eq_refl) as Hsl.
      destruct (rb_tickets b).
      + destruct (get_curr H s (rb_slot b) (r_pending s)) as [used cu'] eqn:Eg. inversion Ex; subst s'; clear Ex.
        assert (G : used = r_pending s /\ (forall c, cu' = Some c -> (r_curr s = Some c) \/ c = mk_ctx (rb_slot b) (r_pending s))).
        { unfold get_curr in Eg. destruct (r_curr s) as [c0|] eqn:Es.
          - destruct (N.ltb_spec (r_lslot s) (c_at c0)) as [Hl|Hl].
            + inversion Eg; subst. split; [now apply i_cu_lt0|]. intros c [= <-]. auto.
            + destruct (N.eqb_spec (r_lslot s) (c_at c0)) as [He|He]; cbn [andb] in Eg.
              * destruct (list_eq_dec N.eq_dec (r_lhash s) (H (c_set c0))) as [Eq|Ne]; inversion Eg; subst.
                { split; [|intros c [= <-]; auto]. destruct (i_cu_eq0 c0 eq_refl He) as [|(p0 & p1 & I0 & I1 & E0 & E1)]; [assumption|].
                  rewrite E1, E0. apply (nullify_sandwich p0 p1 (r_punish s)); auto. rewrite <- E0. apply H_inj.
                  rewrite <- Eq, Hh. reflexivity. }
                { split; [reflexivity|]. intros c [= <-]. auto. }
              * inversion Eg; subst. split; [reflexivity|]. intros c [= <-]. auto.
          - inversion Eg; subst. split; [reflexivity|]. intros c [= <-]. auto. }
        destruct G as [-> Gcu].
        constructor; fin; auto; try lia.
        * intros c Ec. destruct (i_st_at0 c Ec) as [A B]. split; [assumption|]. intros _ Heq. exact (B NI Heq).
        * intros c Ec. destruct (Gcu c Ec) as [Es| ->]; [|cbn [c_at c_set]; split; [lia|reflexivity]].
          destruct (i_cu_at0 c Es) as [A B]. split; auto.
        * intros c Ec Hl. destruct (Gcu c Ec) as [Es| ->]; [apply (i_cu_lt0 c Es Hl)|reflexivity].
        * intros c Ec Hl. destruct (Gcu c Ec) as [Es| ->]; [apply (i_cu_eq0 c Es Hl)|left; reflexivity].
        * intros o Ho. apply in_app_or in Ho. destruct Ho as [Ho|[<-|[]]]; [now apply i_obs0|reflexivity].
      + inversion Ex; subst s'; clear Ex.
        constructor; fin; auto; try lia.
        * intros c Ec. destruct (i_st_at0 c Ec) as [A B]. split; [assumption|]. intros _ Heq. exact (B NI Heq).
        * intros c Ec. destruct (i_cu_at0 c Ec) as [A B]. split; auto.
    - (* Designate *)
      destruct (r_pc s) as [|b|b|b|b|b] eqn:Epc; try discriminate.
      assert (NI : inblock (TicketsDone b)) by discriminate. specialize (i_lslot_in0 NI).
      assert (Hh : r_lhash s = H (eff s)) by (destruct i_lhash0 as [X|X]; [exact X|discriminate]).
      pose proof (i_slot0 b eq_refl) as Hsl. pose proof (i_designate0 b eq_refl) as Hd.
      destruct (rb_designate b) as [ks|] eqn:Ed; inversion Ex; subst s'; clear Ex.
      + assert (No : rb_opens b = false) by (destruct (rb_opens b); [discriminate (Hd eq_refl)|reflexivity]).
        assert (Old : forall c, r_staging s = Some c -> (c_at c < r_slot s)%N).
        { intros c Ec. destruct (i_st_at0 c Ec) as [A B]. destruct (N.eq_dec (c_at c) (r_slot s)) as [Eq|]; [|lia].
          specialize (B NI Eq). cbn in B. congruence. }
        constructor; fin; auto; try lia.
        * intros; discriminate.
        * intros; discriminate.
        * intros X. destruct (X eq_refl).
        * intros c Ec. destruct (i_st_at0 c Ec). split; [assumption|]. intros X. destruct (X eq_refl).
        * intros c Ec Hl. specialize (Old c Ec). lia.
        * intros c Ec Hl. specialize (Old c Ec). lia.
        * intros c Ec. destruct (i_cu_at0 c Ec). split; [assumption|]. intros X. destruct (X eq_refl).
        * intros c Ec Hl. destruct (i_cu_at0 c Ec). lia.
        * intros c Ec Hl. left. destruct (i_cu_at0 c Ec) as [A B]. apply B; [assumption|lia].
        * intros t ks0 h Hin. apply in_app_or in Hin. destruct Hin as [Hin|[[= <- <- <-]|[]]].
          { destruct (i_tasks0 _ _ _ Hin) as (A & B & _). repeat split; [assumption|lia|]. intros ->. exfalso. lia. }
          { repeat split; [lia|]. intros _. exists (r_punish s). fin. split; [intros x; auto|reflexivity]. }
        * intros t ks0 Hin. destruct (i_armed0 _ _ Hin) as (B & _). split; [lia|]. intros ->. exfalso. lia.
      + constructor; fin; auto; try lia.
        * intros; discriminate.
        * intros; discriminate.
        * intros c Ec. destruct (i_st_at0 c Ec). split; [assumption|]. intros X. destruct (X eq_refl).
        * intros c Ec. destruct (i_cu_at0 c Ec). split; [assumption|]. intros X. destruct (X eq_refl).
    - (* TaskCheck *)
      destruct (nth_error (r_tasks s) i) as [[[t ks] h]|] eqn:En; [|destruct (r_pc s); discriminate].
      assert (Ex' : Some (mk_rc (r_slot s) (r_staging_set s) (r_punish s) (r_pending s) (r_curr s) (r_staging s) (r_lslot s) (r_lhash s)
                    (remove_nth i (r_tasks s)) (if ((r_lslot s =? t)%N && (if list_eq_dec N.eq_dec (r_lhash s) h then true else false))%bool
                      then r_armed s ++ [(t, ks)] else r_armed s) (r_pc s) (r_obs s)) = Some s') by (destruct (r_pc s); exact Ex).
      clear Ex. inversion Ex'; subst s'; clear Ex'.
      constructor; fin; auto.
      + intros t0 ks0 h0 Hin. apply remove_nth_in in Hin. now apply i_tasks0 in Hin.
      + intros t0 ks0 Hin. apply nth_error_In in En. destruct (i_tasks0 _ _ _ En) as (_ & A & B).
        destruct (_ && _)%bool; [|now apply i_armed0]. apply in_app_or in Hin. destruct Hin as [Hin|[[= <- <-]|[]]]; [now apply i_armed0|].
        auto.
    - (* TaskWrite *)
      destruct (nth_error (r_armed s) i) as [[t ks]|] eqn:En; [|destruct (r_pc s); discriminate].
      assert (Ex' : Some (mk_rc (r_slot s) (r_staging_set s) (r_punish s) (r_pending s) (r_curr s)
                    (update_staging (r_staging s) (mk_ctx t ks)) (r_lslot s) (r_lhash s)
                    (r_tasks s) (remove_nth i (r_armed s)) (r_pc s) (r_obs s)) = Some s') by (destruct (r_pc s); exact Ex).
      clear Ex. inversion Ex'; subst s'; clear Ex'. apply nth_error_In in En. destruct (i_armed0 _ _ En) as (A & B).
      assert (G : forall c, update_staging (r_staging s) (mk_ctx t ks) = Some c -> r_staging s = Some c \/ c = mk_ctx t ks).
      { intros c Ec. now apply update_staging_cases in Ec. }
      constructor; fin; auto.
      + intros c Ec. destruct (G c Ec) as [Es| ->]; [now apply i_st_at0|]. cbn [c_at]. split; [lia|]. intros X Heq. specialize (i_lslot_in0 X). lia.
      + intros c Ec Hl. destruct (G c Ec) as [Es| ->]; [now apply (i_st_lt0 c Es)|]. cbn [c_at] in Hl. lia.
      + intros c Ec Hl. destruct (G c Ec) as [Es| ->]; [now apply (i_st_eq0 c Es)|]. cbn [c_at c_set] in *. apply B. auto.
      + intros t0 ks0 Hin. apply remove_nth_in in Hin. now apply i_armed0 in Hin.
    - (* TaskFail *)
      assert (Ex' : Some (mk_rc (r_slot s) (r_staging_set s) (r_punish s) (r_pending s) (r_curr s) (r_staging s) (r_lslot s) (r_lhash s)
                (remove_nth i (r_tasks s)) (r_armed s) (r_pc s) (r_obs s)) = Some s') by (destruct (r_pc s); exact Ex).
      clear Ex. inversion Ex'; subst s'; clear Ex'. constructor; fin; auto.
      intros t0 ks0 h0 Hin. apply remove_nth_in in Hin. now apply i_tasks0 in Hin.
  Qed.

  Lemma inv_run : forall es s s', inv s -> Forall no_reject es -> run H s es = Some s' -> inv s'.
  Proof.
    induction es as [|e es IH]; intros s s' I F R; cbn [run] in R; [now inversion R; subst|].
    inversion F; subst. destruct (exec H s e) as [s1|] eqn:Ex; [|discriminate]. apply (IH s1 s'); auto. apply (inv_step s e s1); auto.
  Qed.
  Lemma inv_fresh : forall slot st pu pe lh, inv (fresh slot st pu pe lh).
  Proof.
    intros. constructor; cbn; intros; try discriminate; try contradiction; auto; try lia.
  Qed.
  Lemma ring_ok : forall slot st pu pe lh es s', Forall no_reject es -> run H (fresh slot st pu pe lh) es = Some s' ->
    forall o, In o (r_obs s') -> match o with UsedForRoot u r | UsedForTickets u r => u = r end.
  Proof. intros slot st pu pe lh es s' F R. exact (i_obs _ (inv_run _ _ _ (inv_fresh slot st pu pe lh) F R)). Qed.
End Inv.

(** The ring used at an epoch change: needs only that the last-transition hash is refreshed by the disputes step. *)
Section Root.
  Variable H : list vkey -> bytes.
  Definition root_inv (s : rc) : Prop :=
    (forall b, r_pc s = Disputed b -> r_lhash s = H (nullify_punished (r_punish s) (r_staging_set s))) /\
    (forall u r, In (UsedForRoot u r) (r_obs s) -> H u = H r).
  Lemma root_step : forall s e s', root_inv s -> exec H s e = Some s' -> root_inv s'.
  Proof.
    intros s e s' [I1 I2] Ex. unfold exec in Ex.
    destruct e as [b| | | | | |i|i|i|sl st pu pe];
      try (destruct (r_pc s) eqn:Epc; try discriminate);
      repeat match type of Ex with
             | (if ?c then _ else _) = _ => destruct c eqn:?
             | (let '(_, _) := ?m in _) = _ => destruct m eqn:?
             | match ?m with _ => _ end = _ => destruct m eqn:?
             end; try discriminate; injection Ex as <-; unfold root_inv; cbn; (split; [now (auto || (intros ? [=]; subst; eauto)) |]); auto;
      intros u r Hin; try (now apply I2).
    - apply in_app_or in Hin. destruct Hin as [Hin|[[= <- <-]|[]]]; [now apply I2|].
      unfold get_staging in Heqp. destruct (r_staging s) as [c0|]; [|now injection Heqp as <- <-].
      destruct (r_lslot s <=? c_at c0)%N; cbn [andb] in Heqp; [|now injection Heqp as <- <-].
      destruct (list_eq_dec N.eq_dec (r_lhash s) (H (c_set c0))) as [Eq|]; injection Heqp as <- <-; [|reflexivity].
      rewrite <- Eq. now eapply I1.
    - apply in_app_or in Hin. destruct Hin as [Hin|[[=]|[]]]. now apply I2.
  Qed.
  Lemma root_run : forall es s s', root_inv s -> run H s es = Some s' -> root_inv s'.
  Proof.
    induction es as [|e es IH]; intros s s' I R; cbn [run] in R; [now inversion R; subst|].
    destruct (exec H s e) as [s1|] eqn:Ex; [|discriminate]. apply (IH s1 s'); auto. apply (root_step s e s1); auto.
  Qed.
  Lemma root_fresh : forall slot st pu pe lh, root_inv (fresh slot st pu pe lh).
  Proof. intros. split; cbn; [intros; discriminate|intros; contradiction]. Qed.
End Root.

(** A concrete injective commitment, for the examples. *)
Definition ex_hash (ks : list vkey) : bytes := concat (map (fun k => [kband k; ked k; krest k]) ks).
Lemma ex_hash_inj : forall a b, ex_hash a = ex_hash b -> a = b.
Proof.
  unfold ex_hash. induction a as [|[x1 x2 x3] a IH]; intros [|[y1 y2 y3] b] E; cbn in E; try discriminate; [reflexivity|].
  injection E as -> -> -> E. f_equal. now apply IH.
Qed.
