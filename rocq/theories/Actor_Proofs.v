From Verif Require Import Base Base_Proofs Trie_Model Trie_Spec Trie4_Proofs Actor_Model Actor_Spec.

Section Actor.
  Context {St Cmd Rep : Type} (exec : St -> Cmd -> option (St * Rep)).
  Notation sys := (sys (St := St) (Cmd := Cmd) (Rep := Rep)).
  Notation act_step := (act_step exec).
  Notation acts := (acts exec).
  Notation hist := (list (nat * Cmd * Rep)).
  Lemma put_call_nth : forall (l : list (call Cmd Rep)) i j x, nth_error (put_call l i x) j = if Nat.eqb i j then (match nth_error l j with Some _ => Some x | None => None end) else nth_error l j.
  Proof.
    induction l as [|y l IH]; intros i j x; [destruct i, j; cbn; try reflexivity; destruct (Nat.eqb i j); reflexivity|].
    destruct i as [|i], j as [|j]; cbn [put_call nth_error Nat.eqb]; try reflexivity. apply IH.
  Qed.
  Lemma put_call_length : forall (l : list (call Cmd Rep)) i x, length (put_call l i x) = length l.
  Proof. induction l as [|y l IH]; intros [|i] x; cbn; auto. Qed.
  Lemma sequential_app : forall l1 l2 s s', sequential exec s (l1 ++ l2) s' <-> exists s1, sequential exec s l1 s1 /\ sequential exec s1 l2 s'.
  Proof.
    induction l1 as [|[[i c] r] l1 IH]; intros l2 s s'; cbn [app sequential]; [split; [eauto|intros [s1 [-> ?]]; assumption]|].
    split.
    - intros [s1 [A B]]. apply IH in B. destruct B as [s2 [B C]]. eauto 6.
    - intros [s2 [[s1 [A B]] C]]. exists s1. split; [exact A|]. apply IH. eauto.
  Qed.
  Definition queue (s : sys) : list (nat * Cmd) := match y_cur s with Some x => x :: y_box s | None => y_box s end.
  Definition hid (e : nat * Cmd * Rep) : nat := fst (fst e).
  Record Inv (s0 : St) (h : hist) (s : sys) : Prop := mk_Inv {
    v_seq : sequential exec s0 h (y_st s);
    v_nodup : NoDup (map hid h ++ map fst (queue s));
    v_queue : forall i c, In (i, c) (queue s) -> nth_error (y_calls s) i = Some (Waiting c) \/ nth_error (y_calls s) i = Some (GivenUp c);
    v_hist : forall i c r, In (i, c, r) h -> exists x, nth_error (y_calls s) i = Some x /\ (x = Replied c r \/ x = Returned c r \/ x = GivenUp c);
    v_reply : forall i c r, nth_error (y_calls s) i = Some (Returned c r) \/ nth_error (y_calls s) i = Some (Replied c r) -> In (i, c, r) h;
    v_wait : forall i c, nth_error (y_calls s) i = Some (Waiting c) -> In (i, c) (queue s) \/ y_alive s = false;
    v_dead : y_alive s = false -> queue s = [] }.
  Lemma Inv_explains : forall s0 h s, Inv s0 h s -> sequential exec s0 h (y_st s) /\ explains h (y_calls s).
  Proof.
    intros s0 h s [A B C D E F G]. split; [exact A|]. split; [|split; assumption].
    clear - B. revert B. generalize (map fst (queue s)) as q. intros q B. unfold hid in B. induction h as [|e h IH]; [constructor|]. cbn [map app] in B. inversion B as [|? ? N1 N2]; subst.
    cbn [map]. constructor; [intro I; apply N1, in_or_app; auto|apply IH, N2].
  Qed.
  Lemma Inv_start : forall s0, Inv s0 [] (spawn s0).
  Proof.
    intro s0. constructor; cbn; try tauto; try reflexivity.
    - constructor.
    - intros i c r [X|X]; destruct i; discriminate.
    - intros i c X. destruct i; discriminate.
  Qed.
  Lemma calls_app : forall (l : list (call Cmd Rep)) x i y, nth_error (l ++ [x]) i = Some y -> nth_error l i = Some y \/ y = x.
  Proof.
    intros l x i y E. destruct (Nat.lt_ge_cases i (length l)) as [L|L]; [rewrite nth_error_app1 in E by exact L; auto|].
    rewrite nth_error_app2 in E by exact L. destruct (i - length l) as [|n]; cbn in E; [inversion E; auto|destruct n; discriminate].
  Qed.
  Lemma calls_app_l : forall (l : list (call Cmd Rep)) x i y, nth_error l i = Some y -> nth_error (l ++ [x]) i = Some y.
  Proof. intros l x i y E. rewrite nth_error_app1; [exact E|]. apply nth_error_Some. congruence. Qed.
  (** A call that changes without touching history or queue. *)
  Lemma Inv_put : forall s0 h s i old x, Inv s0 h s -> nth_error (y_calls s) i = Some old ->
    (forall c, old = Waiting c -> (In (i, c) (queue s) -> x = GivenUp c)) ->
    (forall c r, In (i, c, r) h -> x = Replied c r \/ x = Returned c r \/ x = GivenUp c) ->
    (forall c r, x = Returned c r \/ x = Replied c r -> In (i, c, r) h) -> (forall c, x <> Waiting c) ->
    (forall c, old = GivenUp c -> False) ->
    Inv s0 h (mk_sys (y_st s) (y_box s) (y_cur s) (y_alive s) (put_call (y_calls s) i x)).
  Proof.
    intros s0 h s i old x [A B C D E F G] O W Hx Rx Nw Ng. constructor; cbn [y_st y_calls y_alive]; try assumption.
    - intros j c I. change (In (j, c) (queue s)) in I. rewrite put_call_nth. destruct (Nat.eqb_spec i j) as [<-|N]; [|apply C, I]. rewrite O. destruct (C _ _ I) as [Q|Q]; rewrite O in Q; inversion Q; subst.
      + right. rewrite (W c eq_refl I). reflexivity.
      + exfalso. eapply Ng. reflexivity.
    - intros j c r I. rewrite put_call_nth. destruct (Nat.eqb_spec i j) as [<-|N]; [|apply D, I]. rewrite O. exists x. split; [reflexivity|]. apply Hx, I.
    - intros j c r X. rewrite put_call_nth in X. destruct (Nat.eqb_spec i j) as [<-|N]; [|apply E, X]. rewrite O in X. apply Rx. destruct X as [X|X]; inversion X; auto.
    - intros j c X. change (In (j, c) (queue s) \/ y_alive s = false). rewrite put_call_nth in X. destruct (Nat.eqb_spec i j) as [<-|N]; [|apply F, X]. rewrite O in X. inversion X as [Q]. exfalso. exact (Nw _ Q).
  Qed.
  Lemma queue_unique : forall s0 h s i c c', Inv s0 h s -> In (i, c) (queue s) -> In (i, c') (queue s) -> c = c'.
  Proof. intros s0 h s i c c' V A B. destruct (v_queue _ _ _ V _ _ A) as [X|X], (v_queue _ _ _ V _ _ B) as [Y|Y]; congruence. Qed.
  Lemma Inv_step : forall s0 h s a s', Inv s0 h s -> act_step s a = Some s' -> exists h', Inv s0 (h ++ h') s' /\ (h' = [] \/ y_cur s <> None).
  Proof.
    intros s0 h s a s' V E. destruct a as [c|i|i| | |i|i|i]; cbn [act_step Actor_Model.act_step] in E.
    - injection E as <-. exists []. rewrite app_nil_r. split; [|auto]. destruct V as [A B C D E F G]. constructor; cbn [y_st y_calls y_alive]; try assumption.
      + intros i c' I. destruct (C i c' I) as [X|X]; [left|right]; apply calls_app_l, X.
      + intros i c' r I. destruct (D i c' r I) as [x [X Y]]. exists x. split; [apply calls_app_l, X|exact Y].
      + intros i c' r [X|X]; apply calls_app in X; (destruct X as [X|X]; [apply E; auto|discriminate]).
      + intros i c' X. apply calls_app in X. destruct X as [X|X]; [apply F, X|discriminate].
    - destruct (nth_error (y_calls s) i) as [[c|c|c r|c r|c|c]|] eqn:O; try discriminate. destruct (y_alive s) eqn:Al; [|discriminate]. cbn [andb] in E. destruct (Nat.ltb_spec (length (y_box s)) CHANNEL_SIZE) as [Lb|]; [|discriminate].
      injection E as <-. exists []. rewrite app_nil_r. split; [|auto]. destruct V as [A B C D E F G].
      assert (Q : queue (mk_sys (y_st s) (y_box s ++ [(i, c)]) (y_cur s) true (put_call (y_calls s) i (Waiting c))) = queue s ++ [(i, c)]) by (unfold queue; cbn; destruct (y_cur s); reflexivity).
      assert (Ni : ~ In i (map hid h ++ map fst (queue s))).
      { intro I. apply in_app_iff in I. destruct I as [I|I]; apply in_map_iff in I.
        - destruct I as [[[j c'] r] [<- I]]. cbn [hid fst] in O. destruct (D _ _ _ I) as [x [X [Y|[Y|Y]]]]; congruence.
        - destruct I as [[j c'] [<- I]]. cbn [fst] in O. destruct (C _ _ I) as [X|X]; congruence. }
      constructor; rewrite ?Q; cbn [y_st y_calls y_alive]; try assumption.
      + rewrite map_app, app_assoc. cbn [map fst]. eapply Permutation.Permutation_NoDup; [apply Permutation.Permutation_cons_append|constructor; assumption].
      + intros j c' I. rewrite put_call_nth. apply in_app_iff in I. destruct I as [I|[I|[]]].
        * destruct (Nat.eqb_spec i j) as [<-|N]; [|apply C, I]. exfalso. apply Ni, in_or_app. right. apply in_map_iff. exists (i, c'). auto.
        * inversion I; subst. rewrite Nat.eqb_refl, O. auto.
      + intros j c' r I. rewrite put_call_nth. destruct (Nat.eqb_spec i j) as [<-|N]; [|apply D, I]. exfalso. apply Ni, in_or_app. left. apply in_map_iff. exists (i, c', r). auto.
      + intros j c' r X. rewrite put_call_nth in X. destruct (Nat.eqb_spec i j) as [<-|N]; [|apply E, X]. rewrite O in X. destruct X; discriminate.
      + intros j c' X. rewrite put_call_nth in X. left. apply in_or_app. destruct (Nat.eqb_spec i j) as [<-|N]; [rewrite O in X; inversion X; right; left; reflexivity|]. destruct (F _ _ X) as [Y|Y]; [auto|congruence].
      + discriminate.
    - destruct (nth_error (y_calls s) i) as [[c|c|c r|c r|c|c]|] eqn:O; try discriminate. destruct (y_alive s) eqn:Al; [discriminate|]. injection E as <-. exists []. rewrite app_nil_r. split; [|auto]. rewrite <- Al.
      eapply Inv_put; [exact V|exact O|..]; try discriminate.
      + intros c' r I. destruct (v_hist _ _ _ V _ _ _ I) as [x [X [Y|[Y|Y]]]]; congruence.
      + intros c' r [X|X]; discriminate.
    - destruct (y_cur s) as [x|] eqn:Cu; [discriminate|]. destruct (y_box s) as [|x b] eqn:Bo; [discriminate|]. injection E as <-. exists []. rewrite app_nil_r. split; [|auto].
      assert (Q : forall cs, queue (mk_sys (y_st s) b (Some x) (y_alive s) cs) = queue s) by (intro cs; unfold queue; cbn; rewrite Cu, Bo; reflexivity).
      destruct V as [A B C D E F G]. constructor; rewrite ?Q; cbn [y_st y_calls y_alive]; assumption.
    - destruct (y_cur s) as [[i c]|] eqn:Cu; [|discriminate]. destruct (exec (y_st s) c) as [[st r]|] eqn:Ex; injection E as <-.
      + exists [(i, c, r)]. split; [|right; discriminate]. assert (Qs : queue s = (i, c) :: y_box s) by (unfold queue; rewrite Cu; reflexivity).
        assert (Qn : forall cs, queue (mk_sys st (y_box s) None (y_alive s) cs) = y_box s) by reflexivity.
        destruct V as [A B C D E F G]. rewrite Qs in B, C, F, G. cbn [map fst] in B.
        assert (Bd : NoDup (i :: map hid h ++ map fst (y_box s))) by (eapply Permutation.Permutation_NoDup; [symmetry; apply Permutation.Permutation_middle|exact B]).
        assert (Ni : ~ In i (map fst (y_box s))) by (inversion Bd as [|? ? N1 N2]; intro I; apply N1, in_or_app; auto).
        assert (Nh : ~ In i (map hid h)) by (inversion Bd as [|? ? N1 N2]; intro I; apply N1, in_or_app; auto).
        assert (Dl : forall j, nth_error (deliver (y_calls s) i r) j = if Nat.eqb i j then (match nth_error (y_calls s) j with Some (Waiting c') => Some (Replied c' r) | o => o end) else nth_error (y_calls s) j).
        { intro j. unfold deliver. destruct (Nat.eqb_spec i j) as [<-|N].
          - destruct (nth_error (y_calls s) i) as [[c'|c'|c' r'|c' r'|c'|c']|] eqn:O; try exact O. rewrite put_call_nth, Nat.eqb_refl, O. reflexivity.
          - destruct (nth_error (y_calls s) i) as [[c'|c'|c' r'|c' r'|c'|c']|] eqn:O; try reflexivity. rewrite put_call_nth. destruct (Nat.eqb_spec i j); [congruence|reflexivity]. }
        pose proof (C i c (or_introl eq_refl)) as Ci.
        constructor; rewrite ?Qn; cbn [y_st y_calls y_alive].
        * apply sequential_app. exists (y_st s). split; [exact A|]. cbn. eauto.
        * rewrite map_app. cbn [map hid fst]. rewrite <- app_assoc. exact B.
        * intros j c' I. rewrite Dl. destruct (Nat.eqb_spec i j) as [<-|N]; [exfalso; apply Ni, in_map_iff; exists (i, c'); auto|]. apply C. right. exact I.
        * intros j c' r' I. rewrite Dl. apply in_app_iff in I. destruct I as [I|[I|[]]].
          -- destruct (Nat.eqb_spec i j) as [<-|N]; [exfalso; apply Nh, in_map_iff; exists (i, c', r'); auto|]. apply D, I.
          -- inversion I; subst. rewrite Nat.eqb_refl. destruct Ci as [X|X]; rewrite X; eauto 6.
        * intros j c' r' X. rewrite Dl in X. apply in_or_app. destruct (Nat.eqb_spec i j) as [<-|N]; [|left; apply E, X]. right. left. destruct Ci as [Y|Y]; rewrite Y in X; destruct X as [X|X]; inversion X; subst; reflexivity.
        * intros j c' X. rewrite Dl in X. destruct (Nat.eqb_spec i j) as [<-|N]; [destruct Ci as [Y|Y]; rewrite Y in X; discriminate|]. destruct (F _ _ X) as [[Y|Y]|Y]; [congruence|auto|auto].
        * intro X. specialize (G X). discriminate.
      + exists []. rewrite app_nil_r. split; [|auto]. destruct V as [A B C D E F G]. constructor; cbn; try assumption; try tauto.
        rewrite app_nil_r. clear - B. revert B. generalize (map fst (queue s)) as q. intros q. generalize (map hid h) as l. induction l as [|x l IH]; intro N; [constructor|]. cbn in N. inversion N as [|? ? N1 N2]; subst. constructor; [intro I; apply N1, in_or_app; auto|apply IH, N2].
    - destruct (nth_error (y_calls s) i) as [[c|c|c r|c r|c|c]|] eqn:O; try discriminate. injection E as <-. exists []. rewrite app_nil_r. split; [|auto]. eapply Inv_put; [exact V|exact O|..]; try discriminate.
      + intros c' r' I. destruct (v_hist _ _ _ V _ _ _ I) as [x [X [Y|[Y|Y]]]]; subst x; rewrite O in X; inversion X; subst; auto.
      + intros c' r' [X|X]; inversion X; subst. apply (v_reply _ _ _ V). auto.
    - destruct (nth_error (y_calls s) i) as [[c|c|c r|c r|c|c]|] eqn:O; try discriminate. destruct (y_alive s) eqn:Al; [discriminate|]. injection E as <-. exists []. rewrite app_nil_r. split; [|auto]. rewrite <- Al.
      eapply Inv_put; [exact V|exact O|..]; try discriminate.
      + intros c' _ I. rewrite (v_dead _ _ _ V Al) in I. contradiction.
      + intros c' r I. destruct (v_hist _ _ _ V _ _ _ I) as [x [X [Y|[Y|Y]]]]; congruence.
      + intros c' r [X|X]; discriminate.
    - exists []. rewrite app_nil_r. split; [|auto]. destruct (nth_error (y_calls s) i) as [[c|c|c r|c r|c|c]|] eqn:O; try discriminate; injection E as <-; (eapply Inv_put; [exact V|exact O|..]; try discriminate; try (intros ? ? [X|X]; discriminate)).
      + intros c' r I. destruct (v_hist _ _ _ V _ _ _ I) as [x [X [Y|[Y|Y]]]]; congruence.
      + intros c' X _. inversion X. reflexivity.
      + intros c' r I. destruct (v_hist _ _ _ V _ _ _ I) as [x [X [Y|[Y|Y]]]]; congruence.
      + intros c' r' I. destruct (v_hist _ _ _ V _ _ _ I) as [x [X [Y|[Y|Y]]]]; subst x; rewrite O in X; inversion X; subst; auto.
  Qed.
  Lemma Inv_acts : forall l s0 h s s', Inv s0 h s -> acts s l = Some s' -> exists h', Inv s0 (h ++ h') s'.
  Proof.
    induction l as [|a l IH]; intros s0 h s s' V E; cbn [Actor_Model.acts] in E; [injection E as <-; exists []; rewrite app_nil_r; exact V|].
    destruct (act_step s a) as [s1|] eqn:E1; [|discriminate]. destruct (Inv_step _ _ _ _ _ V E1) as [h1 [V1 _]]. destruct (IH _ _ _ _ V1 E) as [h2 V2]. exists (h1 ++ h2). rewrite app_assoc. exact V2.
  Qed.
  Lemma linear : forall s0 l1 l2 s1 s2, acts (spawn s0) l1 = Some s1 -> acts s1 l2 = Some s2 ->
    exists h1 h2, sequential exec s0 h1 (y_st s1) /\ explains h1 (y_calls s1) /\ sequential exec s0 (h1 ++ h2) (y_st s2) /\ explains (h1 ++ h2) (y_calls s2).
  Proof.
    intros s0 l1 l2 s1 s2 E1 E2. destruct (Inv_acts _ _ _ _ _ (Inv_start s0) E1) as [h1 V1]. destruct (Inv_acts _ _ _ _ _ V1 E2) as [h2 V2]. exists h1, h2.
    destruct (Inv_explains _ _ _ V1). destruct (Inv_explains _ _ _ V2). auto.
  Qed.
  (** *** Progress *)
  Definition weight (x : call Cmd Rep) : nat := match x with Sending _ => 8 | Waiting _ => 4 | Replied _ _ => 1 | _ => 0 end.
  Definition weights (l : list (call Cmd Rep)) : nat := list_sum (map weight l).
  Definition measure (s : sys) : nat := weights (y_calls s) + 2 * length (y_box s) + match y_cur s with Some _ => 1 | None => 0 end.
  Lemma weights_put : forall l i x y, nth_error l i = Some y -> weights (put_call l i x) + weight y = weights l + weight x.
  Proof.
    induction l as [|z l IH]; intros [|i] x y E; try discriminate; cbn [nth_error] in E; unfold weights in *; cbn [put_call map list_sum fold_right].
    - inversion E; subst. lia.
    - specialize (IH i x y E). unfold list_sum in *. lia.
  Qed.
  Lemma step_less : forall s a s', (forall c, a <> Invoke c) -> act_step s a = Some s' -> measure s' < measure s.
  Proof.
    intros s a s' N E. destruct a as [c|i|i| | |i|i|i]; cbn [Actor_Model.act_step] in E; [exfalso; eapply N; reflexivity|..]; unfold measure.
    - destruct (nth_error (y_calls s) i) as [[c|c|c r|c r|c|c]|] eqn:O; try discriminate. destruct (y_alive s && _); [|discriminate]. injection E as <-. cbn [y_calls y_box y_cur].
      pose proof (weights_put _ _ (Waiting c) _ O) as W. cbn [weight] in W. rewrite app_length. cbn [length]. lia.
    - destruct (nth_error (y_calls s) i) as [[c|c|c r|c r|c|c]|] eqn:O; try discriminate. destruct (y_alive s); [discriminate|]. injection E as <-. cbn [y_calls y_box y_cur].
      pose proof (weights_put _ _ (Closed c) _ O) as W. cbn [weight] in W. lia.
    - destruct (y_cur s); [discriminate|]. destruct (y_box s); [discriminate|]. injection E as <-. cbn [y_calls y_box y_cur length]. lia.
    - destruct (y_cur s) as [[i c]|]; [|discriminate]. destruct (exec (y_st s) c) as [[st r]|]; injection E as <-; cbn [y_calls y_box y_cur length]; [|lia].
      unfold deliver. destruct (nth_error (y_calls s) i) as [[c'|c'|c' r'|c' r'|c'|c']|] eqn:O; try lia. pose proof (weights_put _ _ (Replied c' r) _ O) as W. cbn [weight] in W. lia.
    - destruct (nth_error (y_calls s) i) as [[c|c|c r|c r|c|c]|] eqn:O; try discriminate. injection E as <-. cbn [y_calls y_box y_cur]. pose proof (weights_put _ _ (Returned c r) _ O) as W. cbn [weight] in W. lia.
    - destruct (nth_error (y_calls s) i) as [[c|c|c r|c r|c|c]|] eqn:O; try discriminate. destruct (y_alive s); [discriminate|]. injection E as <-. cbn [y_calls y_box y_cur].
      pose proof (weights_put _ _ (Closed c) _ O) as W. cbn [weight] in W. lia.
    - destruct (nth_error (y_calls s) i) as [[c|c|c r|c r|c|c]|] eqn:O; try discriminate; injection E as <-; cbn [y_calls y_box y_cur]; pose proof (weights_put _ _ (GivenUp c) _ O) as W; cbn [weight] in W; lia.
  Qed.
  Lemma acts_bounded : forall l s s', (forall c, ~ In (Invoke c) l) -> acts s l = Some s' -> length l + measure s' <= measure s.
  Proof.
    induction l as [|a l IH]; intros s s' N E; cbn [Actor_Model.acts] in E; [injection E as <-; cbn; lia|]. destruct (act_step s a) as [s1|] eqn:E1; [|discriminate].
    pose proof (IH _ _ (fun c I => N c (or_intror I)) E). assert (measure s1 < measure s) by (eapply step_less; [|exact E1]; intros c ->; apply (N c); left; reflexivity). cbn [length]. lia.
  Qed.
  Lemma calls_bound : forall l s s', acts s l = Some s' -> length (y_calls s') <= length (y_calls s) + length l.
  Proof.
    induction l as [|a l IH]; intros s s' E; cbn [Actor_Model.acts] in E; [injection E as <-; lia|]. destruct (act_step s a) as [s1|] eqn:E1; [|discriminate]. specialize (IH _ _ E). cbn [length].
    assert (length (y_calls s1) <= length (y_calls s) + 1); [|lia].
    destruct a; cbn [Actor_Model.act_step] in E1;
      repeat match type of E1 with context [match ?x with _ => _ end] => destruct x eqn:?; try discriminate end; injection E1 as <-; cbn [y_calls]; rewrite ?app_length, ?put_call_length; cbn [length]; try lia.
    unfold deliver. match goal with |- context [nth_error ?l ?i] => destruct (nth_error l i) as [[]|] end; rewrite ?put_call_length; lia.
  Qed.
  Lemma enabled : forall s0 l s i x, acts (spawn s0) l = Some s -> nth_error (y_calls s) i = Some x -> ~ settled x -> exists a s', (forall c, a <> Invoke c) /\ (forall j, a <> GiveUp j) /\ act_step s a = Some s'.
  Proof.
    intros s0 l s i x E O U. destruct (Inv_acts _ _ _ _ _ (Inv_start s0) E) as [h V].
    assert (Busy : queue s <> [] -> exists a s', (forall c, a <> Invoke c) /\ (forall j, a <> GiveUp j) /\ act_step s a = Some s').
    { intro Q. destruct (y_cur s) as [[j c]|] eqn:Cu.
      - exists Finish. cbn [Actor_Model.act_step]. rewrite Cu. destruct (exec (y_st s) c) as [[st r]|]; eexists; repeat split; discriminate.
      - exists Take. cbn [Actor_Model.act_step]. rewrite Cu. unfold queue in Q. rewrite Cu in Q. destruct (y_box s) as [|y b]; [congruence|]. eexists. repeat split; discriminate. }
    destruct (queue s) as [|q0 q] eqn:Q; [|apply Busy; congruence].
    assert (Bx : y_box s = []) by (unfold queue in Q; destruct (y_cur s); [discriminate|exact Q]).
    destruct x as [c|c|c r|c r|c|c]; cbn [settled] in U; try tauto.
    - destruct (y_alive s) eqn:Al.
      + exists (Enqueue i). cbn [Actor_Model.act_step]. rewrite O, Al, Bx. cbn [andb length Nat.ltb]. eexists. repeat split; try discriminate.
      + exists (SendFails i). cbn [Actor_Model.act_step]. rewrite O, Al. eexists. repeat split; discriminate.
    - destruct (v_wait _ _ _ V _ _ O) as [I|Al]; [rewrite Q in I; contradiction|]. exists (RecvFails i). cbn [Actor_Model.act_step]. rewrite O, Al. eexists. repeat split; discriminate.
    - exists (Return i). cbn [Actor_Model.act_step]. rewrite O. eexists. repeat split; discriminate.
  Qed.
  (** *** After a panic *)
  Lemma dead_step : forall s0 h s a s', Inv s0 h s -> y_alive s = false -> act_step s a = Some s' -> Inv s0 h s' /\ y_alive s' = false /\ y_st s' = y_st s.
  Proof.
    intros s0 h s a s' V Al E. pose proof (v_dead _ _ _ V Al) as Q. assert (Cu : y_cur s = None) by (unfold queue in Q; destruct (y_cur s); [discriminate|reflexivity]).
    assert (Bx : y_box s = []) by (unfold queue in Q; rewrite Cu in Q; exact Q).
    destruct (Inv_step _ _ _ _ _ V E) as [h' [V' [->|X]]]; [|congruence]. rewrite app_nil_r in V'. split; [exact V'|].
    destruct a; cbn [Actor_Model.act_step] in E; rewrite ?Cu, ?Bx, ?Al in E; cbn [andb] in E; repeat match type of E with context [match ?x with _ => _ end] => destruct x eqn:?; try discriminate end; try discriminate E; injection E as <-; auto.
  Qed.
  Lemma dead_acts : forall l s0 h s s', Inv s0 h s -> y_alive s = false -> acts s l = Some s' -> Inv s0 h s' /\ y_alive s' = false /\ y_st s' = y_st s.
  Proof.
    induction l as [|a l IH]; intros s0 h s s' V Al E; cbn [Actor_Model.acts] in E; [injection E as <-; auto|]. destruct (act_step s a) as [s1|] eqn:E1; [|discriminate].
    destruct (dead_step _ _ _ _ _ V Al E1) as [V1 [A1 S1]]. destruct (IH _ _ _ _ V1 A1 E) as [V2 [A2 S2]]. split; [exact V2|]. split; congruence.
  Qed.
  Lemma dead : forall s0 l1 l2 s1 s2, acts (spawn s0) l1 = Some s1 -> y_alive s1 = false -> acts s1 l2 = Some s2 ->
    y_st s2 = y_st s1 /\ forall i c r, nth_error (y_calls s2) i = Some (Returned c r) -> nth_error (y_calls s1) i = Some (Returned c r) \/ nth_error (y_calls s1) i = Some (Replied c r).
  Proof.
    intros s0 l1 l2 s1 s2 E1 Al E2. destruct (Inv_acts _ _ _ _ _ (Inv_start s0) E1) as [h V1]. destruct (dead_acts _ _ _ _ _ V1 Al E2) as [V2 [_ S]]. split; [exact S|].
    intros i c r X. pose proof (v_reply _ _ _ V2 _ _ _ (or_introl X)) as I. destruct (v_hist _ _ _ V1 _ _ _ I) as [x [Y [Z|[Z|Z]]]]; subst x; auto.
    exfalso. assert (G : forall l s s', acts s l = Some s' -> nth_error (y_calls s) i = Some (GivenUp c) -> nth_error (y_calls s') i = Some (GivenUp c)); [|pose proof (G _ _ _ E2 Y); congruence].
    induction l as [|a l IH]; intros s s' E O; cbn [Actor_Model.acts] in E; [injection E as <-; exact O|]. destruct (act_step s a) as [t|] eqn:Et; [|discriminate]. apply (IH _ _ E). clear - Et O.
    assert (P : forall j y z, nth_error (y_calls s) j = Some y -> y <> GivenUp c -> nth_error (put_call (y_calls s) j z) i = Some (GivenUp c)).
    { intros j y z A B. rewrite put_call_nth. destruct (Nat.eqb_spec j i) as [->|]; [congruence|exact O]. }
    destruct a; cbn [Actor_Model.act_step] in Et; repeat match type of Et with context [match ?x with _ => _ end] => destruct x eqn:?; try discriminate end; injection Et as <-; cbn [y_calls]; try exact O; try (eapply P; [eassumption|discriminate]).
    - apply calls_app_l, O.
    - unfold deliver. match goal with |- context [match nth_error ?l ?i with _ => _ end] => destruct (nth_error l i) as [[]|] eqn:? end; try exact O. eapply P; [eassumption|discriminate].
  Qed.
End Actor.

Section Halves.
  Context (H : bytes -> bytes).
  Definition same_db (st : store) (s : shared) : Prop := s_mgr st = h_mgr s /\ forall e, In e (s_db st) <-> In e (h_db s) \/ exists w, In w (h_pending s) /\ In e w.
  Lemma drop_at_in : forall A (l : list A) i w, nth_error l i = Some w -> forall x, In x l <-> x = w \/ In x (drop_at l i).
  Proof.
    induction l as [|y l IH]; intros [|i] w E x; try discriminate; cbn [nth_error] in E; cbn [drop_at In].
    - inversion E; subst. split; intros [X|X]; auto.
    - rewrite (IH _ _ E x). tauto.
  Qed.
  Lemma halves_seq : forall l s s' st, halves H s l = Some s' -> same_db st s -> exists st', run_history H st (batches l) = Some st' /\ same_db st' s' /\ (forall e, In e (s_db st) -> In e (s_db st')).
  Proof.
    induction l as [|a l IH]; intros s s' st E [M D]; cbn [halves] in E; [injection E as <-; exists st; repeat split; auto; apply D|].
    destruct (half_step H s a) as [s1|] eqn:E1; [|discriminate]. destruct a as [es|i]; cbn [half_step] in E1.
    - destruct (commit H (h_mgr s) es) as [m [w| |]] eqn:Ec; try discriminate. injection E1 as <-. change (batches (TrieWrite es :: l)) with (es :: batches l). cbn [run_history]. unfold store_commit. rewrite M, Ec.
      destruct (IH _ _ (mk_store m (rev w ++ s_db st)) E) as [st' [A [B C]]].
      { split; [reflexivity|]. intro e. cbn [s_db h_db h_pending]. rewrite in_app_iff, <- in_rev, D. split.
        - intros [X|[X|[w' [Y Z]]]]; [right; exists w; split; [apply in_or_app; right; left; reflexivity|exact X]|auto|right; exists w'; split; [apply in_or_app; auto|exact Z]].
        - intros [X|[w' [Y Z]]]; [auto|]. apply in_app_iff in Y. destruct Y as [Y|[<-|[]]]; [right; right; eauto|auto]. }
      exists st'. split; [exact A|]. split; [exact B|]. intros e I. apply C. cbn [s_db]. apply in_or_app. auto.
    - destruct (nth_error (h_pending s) i) as [w|] eqn:N; [|discriminate]. injection E1 as <-. change (batches (StateWrite i :: l)) with (batches l). apply (IH _ _ st E). split; [exact M|].
      intro e. cbn [h_db h_pending]. rewrite D, in_app_iff, <- in_rev. split.
      + intros [X|[w' [Y Z]]]; [auto|]. apply (drop_at_in _ _ _ _ N) in Y. destruct Y as [->|Y]; [auto|eauto].
      + intros [[X|X]|[w' [Y Z]]]; [|auto|]; right; eexists; (split; [apply (drop_at_in _ _ _ _ N)|]); eauto.
  Qed.
  Lemma split_read_ok : forall l1 l2 s1 s2, history_ok no_state (batches (l1 ++ l2)) -> no_collision H (hashed_values (batches (l1 ++ l2))) -> halves H shared_start l1 = Some s1 -> halves H s1 l2 = Some s2 ->
    forall k, (split_read s1 s2 k = Ok (history_map (batches l1) k) \/ split_read s1 s2 k = Err tt) /\
      (h_pending s1 = [] \/ h_pending s2 = [] \/ (forall v, history_map (batches l1) k = Some v -> length v <= 32) -> split_read s1 s2 k = Ok (history_map (batches l1) k)).
  Proof.
    intros l1 l2 s1 s2 Ho Nc E1 E2 k. set (P := hashed_values (batches (l1 ++ l2))) in *.
    assert (B : batches (l1 ++ l2) = batches l1 ++ batches l2) by (unfold batches; rewrite flat_map_app; reflexivity). rewrite B in Ho. destruct (history_ok_app _ _ _ Ho) as [H1 H2].
    assert (Hp : forall es e, In es (batches l1 ++ batches l2) -> In e es -> 32 < length (e_value e) -> P (e_value e)) by (intros es e A C D; exists es, e; unfold P; rewrite B; auto).
    destruct (history_ok_run H P (batches l1) empty_store no_state [] (Good_empty H) lists_empty (stored_empty H _) H1) as [t1 [d1 [R1 [G1 [L1 S1]]]]]; [intros es e A; apply Hp, in_or_app; auto|].
    destruct (history_ok_run H P (batches l2) t1 _ d1 G1 L1 S1 H2) as [t2 [d2 [R2 [G2 [L2 S2]]]]]; [intros es e A; apply Hp, in_or_app; auto|].
    destruct (halves_seq l1 shared_start s1 empty_store E1) as [u1 [Q1 [[M1 D1] _]]]; [split; [reflexivity|intro e; cbn; firstorder]|]. assert (u1 = t1) by congruence. subst u1.
    destruct (halves_seq l2 s1 s2 t1 E2 (conj M1 D1)) as [u2 [Q2 [[M2 D2] Sub]]]. assert (u2 = t2) by congruence. subst u2.
    assert (Sub' : forall e, In e (h_db s1) -> In e (h_db s2)).
    { clear - E2. revert s1 s2 E2. induction l2 as [|a l IH]; intros s1 s2 E2 e I; cbn [halves] in E2; [injection E2 as <-; exact I|]. destruct (half_step H s1 a) as [s|] eqn:Es; [|discriminate]. apply (IH _ _ E2). clear - Es I.
      destruct a as [es|i]; cbn [half_step] in Es; [destruct (commit H (h_mgr s1) es) as [m [w| |]]; try discriminate; injection Es as <-; exact I|]. destruct (nth_error (h_pending s1) i); [|discriminate]. injection Es as <-. cbn [h_db]. apply in_or_app. auto. }
    pose proof (read_ok H P t1 d1 _ (q_new _ _ _ G1) (q_inv _ _ _ G1) L1 S1 Nc k) as R. change (fold_left apply_batch (batches l1) no_state) with (history_map (batches l1)) in R.
    unfold split_read, store_read in *. cbn [s_mgr s_db]. rewrite M1 in R. destruct (db_leaf (g_db (h_mgr s1)) k) as [lf|]; [|split; [auto|intros _; exact R]].
    destruct (lf_data lf) as [v|h]; [split; [auto|intros _; exact R]|]. destruct (sget (s_db t1) h) as [v|] eqn:G; [|discriminate R]. injection R as R.
    assert (I1 : In (h, v) (s_db t1)). { unfold sget in G. destruct (find _ (s_db t1)) as [[h' v']|] eqn:Fd; [|discriminate]. apply find_some in Fd. destruct Fd as [I X]. cbn in X. unfold bytes_eqb in X. destruct (list_eq_dec N.eq_dec h' h); [|discriminate]. cbn in G. inversion G; subst. exact I. }
    destruct (proj1 S1 _ _ I1) as [Hv Pv].
    assert (Un : forall w, sget (h_db s2) h = Some w -> w = v).
    { intros w X. unfold sget in X. destruct (find _ (h_db s2)) as [[h' v']|] eqn:Fd; [|discriminate]. apply find_some in Fd. destruct Fd as [I Y]. cbn in Y. unfold bytes_eqb in Y. destruct (list_eq_dec N.eq_dec h' h); [|discriminate]. cbn in X. inversion X; subst.
      destruct (proj1 S2 _ _ (proj2 (D2 _) (or_introl I))) as [Hw Pw]. apply Nc; [exact Pw|exact Pv|congruence]. }
    assert (In2 : In (h, v) (h_db s2) -> sget (h_db s2) h = Some v).
    { intro I. destruct (sget (h_db s2) h) as [w|] eqn:X; [rewrite (Un w eq_refl); reflexivity|]. unfold sget in X. destruct (find _ (h_db s2)) eqn:Fd; [discriminate|]. pose proof (find_none _ _ Fd _ I) as Y. cbn in Y. unfold bytes_eqb in Y. destruct (list_eq_dec N.eq_dec h h); congruence. }
    rewrite <- R. split.
    - destruct (sget (h_db s2) h) as [w|] eqn:X; [rewrite (Un w eq_refl); auto|auto].
    - intros [Z|[Z|Z]].
      + rewrite In2; [reflexivity|]. apply Sub'. apply D1 in I1. rewrite Z in I1. destruct I1 as [I|[w [[] _]]]. exact I.
      + rewrite In2; [reflexivity|]. apply Sub in I1. apply D2 in I1. rewrite Z in I1. destruct I1 as [I|[w [[] _]]]. exact I.
      + exfalso. assert (Lv : length v <= 32) by (apply Z; reflexivity). destruct Pv as [es [e [_ [_ [_ X]]]]]. lia.
  Qed.
End Halves.
