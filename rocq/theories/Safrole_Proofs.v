From Verif Require Import Base Base_Proofs Safrole_Model Safrole_Spec.
From Coq Require Import Permutation Sorted.
Ltac Zify.zify_post_hook ::= Z.div_mod_to_equations.

Definition le_id (x y : ticket) : Prop := (tid x <= tid y)%N.

(** ** The accumulator *)
Lemma heap_add_best : forall E ts h t h', best E ts h -> heap_add E h t h' -> best E (ts ++ [t]) h'.
Proof.
  intros E ts h t h' (d & P & L & Hd) A. pose proof (Permutation_length P) as PL. rewrite app_length in PL.
  unfold best. rewrite app_length. cbn [length].
  destruct A as [h t h' Hlt Ph | h t m rest h' Hge Pm Hm Hlt Ph | h t m rest Hge Pm Hm Hle | t E0].
  - assert (Hd0 : d = []) by (apply length_zero_iff_nil; lia). subst d. rewrite app_nil_r in P.
    exists []. split; [|split].
    + rewrite app_nil_r, P, Ph. apply Permutation_sym, Permutation_cons_append.
    + rewrite (Permutation_length Ph). cbn [length]. lia.
    + intros ? ? ? [].
  - exists (m :: d). split; [|split].
    + rewrite P, Pm, Ph. rewrite <- Permutation_cons_append. constructor. cbn [app]. apply Permutation_middle.
    + pose proof (Permutation_length Pm) as L2. rewrite (Permutation_length Ph). cbn [length] in *. lia.
    + intros x y Hx [<-|Hy].
      * apply (Permutation_in _ Ph) in Hx. destruct Hx as [<-|Hx]; [lia|]. apply Hm. exact Hx.
      * apply (Permutation_in _ Ph) in Hx. assert (HM : (tid m <= tid y)%N).
        { apply Hd; [|exact Hy]. apply (Permutation_in _ (Permutation_sym Pm)). now left. }
        destruct Hx as [<-|Hx]; [lia|]. apply Hd; [|exact Hy]. apply (Permutation_in _ (Permutation_sym Pm)). now right.
  - exists (t :: d). split; [|split].
    + rewrite P. rewrite <- app_assoc. apply Permutation_app_head. apply Permutation_sym, Permutation_cons_append.
    + pose proof (Permutation_length Pm) as L2. cbn [length] in *. lia.
    + intros x y Hx [<-|Hy]; [|now apply Hd].
      apply (Permutation_in _ Pm) in Hx. destruct Hx as [<-|Hx]; [lia|]. specialize (Hm x Hx). lia.
  - exists (t :: d). cbn [app length] in *. split; [|split].
    + rewrite P. apply Permutation_sym, Permutation_cons_append.
    + lia.
    + intros ? ? [].
Qed.

Lemma heap_adds_best_gen : forall E h ts h', heap_adds E h ts h' -> forall ts0, best E ts0 h -> best E (ts0 ++ ts) h'.
Proof.
  induction 1 as [h|h t ts h1 h2 A _ IH]; intros ts0 B.
  - now rewrite app_nil_r.
  - change (t :: ts) with ([t] ++ ts). rewrite app_assoc. apply IH. eapply heap_add_best; eauto.
Qed.
Lemma best_nil : forall E, best E [] [].
Proof. intros. exists []. repeat split; [constructor|cbn; lia|intros ? ? []]. Qed.
Lemma heap_adds_best : forall E ts h, heap_adds E [] ts h -> best E ts h.
Proof. intros E ts h A. apply (heap_adds_best_gen E [] ts h A []), best_nil. Qed.

(** sorted lists of numbers *)
Fixpoint nins (x : N) (l : list N) : list N := match l with [] => [x] | y :: r => if (x <=? y)%N then x :: l else y :: nins x r end.
Fixpoint nsort (l : list N) : list N := match l with [] => [] | x :: r => nins x (nsort r) end.
Lemma nins_perm : forall x l, Permutation (nins x l) (x :: l).
Proof.
  induction l as [|y r IH]; cbn [nins]; [constructor; constructor|]. destruct (x <=? y)%N; [reflexivity|].
  rewrite IH. constructor.
Qed.
Lemma nsort_perm : forall l, Permutation (nsort l) l.
Proof. induction l as [|x l IH]; cbn [nsort]; [constructor|]. rewrite nins_perm. now constructor. Qed.
Lemma nins_sorted : forall x l, StronglySorted N.le l -> StronglySorted N.le (nins x l).
Proof.
  induction l as [|y r IH]; intros S; cbn [nins].
  - constructor; constructor.
  - destruct (N.leb_spec x y) as [Hxy|Hxy].
    + constructor; [assumption|]. inversion S; subst. constructor; [assumption|].
      eapply Forall_impl; [|eassumption]. intros; lia.
    + inversion S; subst. constructor; [auto|]. eapply Permutation_Forall; [apply Permutation_sym, nins_perm|].
      constructor; [lia|assumption].
Qed.
Lemma nsort_sorted : forall l, StronglySorted N.le (nsort l).
Proof. induction l; cbn [nsort]; [constructor|]. now apply nins_sorted. Qed.
Lemma sorted_unique : forall l m, StronglySorted N.le l -> StronglySorted N.le m -> Permutation l m -> l = m.
Proof.
  induction l as [|x l IH]; intros m S1 S2 P.
  - now apply Permutation_nil in P.
  - destruct m as [|y m]; [apply Permutation_sym, Permutation_nil in P; discriminate|].
    inversion S1 as [|? ? S1' F1]; subst. inversion S2 as [|? ? S2' F2]; subst.
    assert (x = y).
    { assert (Hx : In x (y :: m)) by (eapply Permutation_in; [exact P|now left]).
      assert (Hy : In y (x :: l)) by (eapply Permutation_in; [apply Permutation_sym, P|now left]).
      destruct Hx as [->|Hx]; [reflexivity|]. destruct Hy as [->|Hy]; [reflexivity|].
      rewrite Forall_forall in F1, F2. specialize (F1 _ Hy). specialize (F2 _ Hx). lia. }
    subst. f_equal. apply IH; auto. eapply Permutation_cons_inv. exact P.
Qed.
Lemma sorted_app : forall l m, StronglySorted N.le l -> StronglySorted N.le m -> (forall x y, In x l -> In y m -> (x <= y)%N) ->
  StronglySorted N.le (l ++ m).
Proof.
  induction l as [|x l IH]; intros m S1 S2 Hc; [exact S2|]. inversion S1; subst. cbn [app]. constructor.
  - apply IH; auto. intros a b Ha Hb. apply Hc; [now right|assumption].
  - apply Forall_app. split; [assumption|]. apply Forall_forall. intros y Hy. apply Hc; [now left|assumption].
Qed.

Lemma best_ids_unique : forall E ts1 ts2 h1 h2, best E ts1 h1 -> best E ts2 h2 ->
  Permutation (map tid ts1) (map tid ts2) -> Permutation (map tid h1) (map tid h2).
Proof.
  intros E ts1 ts2 h1 h2 (d1 & P1 & L1 & H1) (d2 & P2 & L2 & H2) P.
  assert (PP : nsort (map tid h1) ++ nsort (map tid d1) = nsort (map tid h2) ++ nsort (map tid d2)).
  { apply sorted_unique.
    - apply sorted_app; try apply nsort_sorted. intros x y Hx Hy.
      apply (Permutation_in _ (nsort_perm _)) in Hx, Hy. apply in_map_iff in Hx, Hy.
      destruct Hx as (a & <- & Ha), Hy as (b & <- & Hb). now apply H1.
    - apply sorted_app; try apply nsort_sorted. intros x y Hx Hy.
      apply (Permutation_in _ (nsort_perm _)) in Hx, Hy. apply in_map_iff in Hx, Hy.
      destruct Hx as (a & <- & Ha), Hy as (b & <- & Hb). now apply H2.
    - rewrite !nsort_perm, <- !map_app. rewrite <- P1, <- P2. exact P. }
  assert (Hl : length (nsort (map tid h1)) = length (nsort (map tid h2))).
  { rewrite !(Permutation_length (nsort_perm _)), !map_length. apply Permutation_length in P. rewrite !map_length in P. lia. }
  assert (Heq : nsort (map tid h1) = nsort (map tid h2)).
  { apply (f_equal (firstn (length (nsort (map tid h1))))) in PP. rewrite firstn_app, Nat.sub_diag, firstn_O, app_nil_r, firstn_all in PP.
    rewrite Hl, firstn_app, Nat.sub_diag, firstn_O, app_nil_r, firstn_all in PP. exact PP. }
  rewrite <- (nsort_perm (map tid h1)), Heq. apply nsort_perm.
Qed.

Lemma NoDup_map_perm : forall (ts h1 h2 : list ticket), NoDup (map tid ts) -> incl h1 ts -> incl h2 ts ->
  NoDup h1 -> NoDup h2 -> Permutation (map tid h1) (map tid h2) -> Permutation h1 h2.
Proof.
  intros ts h1 h2 ND I1 I2 N1 N2 P.
  assert (Inj : forall a b, In a ts -> In b ts -> tid a = tid b -> a = b).
  { clear - ND. induction ts as [|x ts IH]; intros a b Ha Hb E; [inversion Ha|]. cbn in ND. inversion ND; subst.
    destruct Ha as [->|Ha], Hb as [->|Hb]; auto.
    - exfalso. apply H1. rewrite E. now apply in_map.
    - exfalso. apply H1. rewrite <- E. now apply in_map. }
  apply NoDup_Permutation; auto. intros x. split; intros Hx.
  - assert (Hm : In (tid x) (map tid h2)) by (eapply Permutation_in; [exact P|now apply in_map]).
    apply in_map_iff in Hm. destruct Hm as (y & E & Hy). rewrite (Inj x y); auto.
  - assert (Hm : In (tid x) (map tid h1)) by (eapply Permutation_in; [apply Permutation_sym, P|now apply in_map]).
    apply in_map_iff in Hm. destruct Hm as (y & E & Hy). rewrite (Inj x y); auto.
Qed.

Lemma best_incl : forall E ts h, best E ts h -> incl h ts.
Proof.
  intros E ts h (d & P & _) x Hx. eapply Permutation_in; [apply Permutation_sym, P|]. apply in_or_app. now left.
Qed.
Lemma best_NoDup : forall E ts h, best E ts h -> NoDup ts -> NoDup h.
Proof.
  intros E ts h (d & P & _) ND. apply (Permutation_NoDup P) in ND. clear P. induction h as [|x h IH]; [constructor|].
  cbn [app] in ND. inversion ND; subst. constructor; [|auto]. intros Hx. apply H1. apply in_or_app. now left.
Qed.
Lemma NoDup_map_inv' : forall ts, NoDup (map tid ts) -> NoDup ts.
Proof. intros ts. apply NoDup_map_inv. Qed.

Lemma best_unique : forall E ts1 ts2 h1 h2, NoDup (map tid ts1) -> Permutation ts1 ts2 ->
  best E ts1 h1 -> best E ts2 h2 -> Permutation h1 h2.
Proof.
  intros E ts1 ts2 h1 h2 ND P B1 B2. apply (NoDup_map_perm ts1); auto.
  - now apply best_incl in B1.
  - intros x Hx. apply (best_incl _ _ _ B2) in Hx. eapply Permutation_in; [apply Permutation_sym, P|exact Hx].
  - eapply best_NoDup; eauto. now apply NoDup_map_inv'.
  - eapply best_NoDup; eauto. eapply Permutation_NoDup; [exact P|]. now apply NoDup_map_inv'.
  - eapply best_ids_unique; eauto. now apply Permutation_map.
Qed.

(** ** The deterministic model is one of the heap's behaviours *)
Lemma insert_perm : forall t l, Permutation (insert_ticket t l) (t :: l).
Proof.
  induction l as [|x l IH]; cbn [insert_ticket]; [reflexivity|]. destruct (tid t <? tid x)%N; [reflexivity|].
  rewrite IH. constructor.
Qed.
Lemma insert_sorted : forall t l, StronglySorted le_id l -> StronglySorted le_id (insert_ticket t l).
Proof.
  induction l as [|x l IH]; intros S; cbn [insert_ticket].
  - constructor; constructor.
  - inversion S as [|? ? S' F]; subst. destruct (N.ltb_spec (tid t) (tid x)) as [Hl|Hl].
    + constructor; [assumption|]. constructor; [unfold le_id; lia|]. eapply Forall_impl; [|exact F]. unfold le_id. intros; lia.
    + constructor; [auto|]. eapply Permutation_Forall; [apply Permutation_sym, insert_perm|]. constructor; [exact Hl|assumption].
Qed.
Lemma sorted_last : forall l m, StronglySorted le_id (l ++ [m]) -> StronglySorted le_id l /\ (forall x, In x l -> (tid x <= tid m)%N).
Proof.
  induction l as [|x l IH]; intros m S; cbn [app] in S.
  - split; [constructor|]. intros ? [].
  - inversion S as [|? ? S' F]; subst. destruct (IH m S') as [S1 H1]. apply Forall_app in F. destruct F as [F1 F2]. split.
    + constructor; assumption.
    + intros y [<-|Hy]; [|now apply H1]. inversion F2; subst. assumption.
Qed.
Lemma acc_add_refines : forall E h t, StronglySorted le_id h ->
  StronglySorted le_id (acc_add E h t) /\ heap_add E h t (acc_add E h t).
Proof.
  intros E h t S. unfold acc_add. destruct (N.ltb_spec (N.of_nat (length h)) E) as [Hlt|Hge].
  - split; [now apply insert_sorted|]. constructor; [assumption|apply insert_perm].
  - destruct (rev h) as [|m rest] eqn:Er.
    + apply (f_equal (@rev ticket)) in Er. rewrite rev_involutive in Er. cbn in Er. subst h.
      split; [constructor|]. apply ha_empty. cbn in Hge. lia.
    + apply (f_equal (@rev ticket)) in Er. rewrite rev_involutive in Er. cbn in Er. subst h.
      destruct (sorted_last _ _ S) as [S1 Hm]. rewrite removelast_last.
      destruct (N.ltb_spec (tid t) (tid m)) as [Hl|Hl].
      * split; [now apply insert_sorted|].
        eapply ha_replace with (m := m) (rest := rev rest); auto.
        { apply Permutation_sym, Permutation_cons_append. } { apply insert_perm. }
      * split; [assumption|]. eapply ha_reject with (m := m) (rest := rev rest); auto.
        apply Permutation_sym, Permutation_cons_append.
Qed.
Lemma acc_add_multiple_refines : forall E ts h, StronglySorted le_id h ->
  StronglySorted le_id (acc_add_multiple E h ts) /\ heap_adds E h ts (acc_add_multiple E h ts).
Proof.
  intros E ts. unfold acc_add_multiple. induction ts as [|t ts IH]; intros h S; cbn [fold_left].
  - split; [assumption|constructor].
  - destruct (acc_add_refines E h t S) as [S1 A1]. destruct (IH _ S1) as [S2 A2]. split; [assumption|]. econstructor; eauto.
Qed.
Lemma heap_add_length : forall E h t h', heap_add E h t h' -> (N.of_nat (length h) <= E)%N -> (N.of_nat (length h') <= E)%N.
Proof.
  intros E h t h' A L. destruct A as [h t h' Hlt Ph | h t m rest h' Hge Pm Hm Hlt Ph | h t m rest Hge Pm Hm Hle | t E0]; auto.
  - rewrite (Permutation_length Ph). cbn [length]. lia.
  - apply Permutation_length in Pm. rewrite (Permutation_length Ph). cbn [length] in *. lia.
Qed.
Lemma heap_adds_length : forall E h ts h', heap_adds E h ts h' -> (N.of_nat (length h) <= E)%N -> (N.of_nat (length h') <= E)%N.
Proof. induction 1; auto. intros. apply IHheap_adds. eapply heap_add_length; eauto. Qed.

(** ** Ticket validation *)
Lemma windows_sorted_ok : forall l, windows_sorted l = true -> StronglySorted le_id l.
Proof.
  induction l as [|a l IH]; intros W; [constructor|]. destruct l as [|b l]; [constructor; constructor|].
  cbn [windows_sorted] in W. apply andb_true_iff in W. destruct W as [W1 W2]. apply negb_true_iff, N.ltb_ge in W1.
  specialize (IH W2). constructor; [assumption|]. inversion IH as [|? ? S F]; subst.
  constructor; [exact W1|]. eapply Forall_impl; [|exact F]. unfold le_id. intros; lia.
Qed.

Lemma filter_perm : forall (f : ticket -> bool) l m, Permutation l m -> Permutation (filter f l) (filter f m).
Proof.
  induction 1; cbn [filter].
  - constructor.
  - destruct (f x); [now constructor|assumption].
  - destruct (f x), (f y); try reflexivity. constructor.
  - etransitivity; eauto.
Qed.
Lemma filter_none : forall (f : ticket -> bool) l, (forall x, In x l -> f x = false) -> filter f l = [].
Proof. induction l as [|a l IH]; intros Hf; [reflexivity|]. cbn [filter]. rewrite Hf by now left. apply IH. intros x Hx. apply Hf. now right. Qed.
Lemma filter_all : forall (f : ticket -> bool) l, (forall x, In x l -> f x = true) -> filter f l = l.
Proof. induction l as [|a l IH]; intros Hf; [reflexivity|]. cbn [filter]. rewrite Hf by now left. f_equal. apply IH. intros x Hx. apply Hf. now right. Qed.
Lemma filter_length_le : forall (f : ticket -> bool) l, length (filter f l) <= length l.
Proof. induction l as [|a l IH]; cbn; [lia|]. destruct (f a); cbn; lia. Qed.
Lemma filter_length_lt : forall (f : ticket -> bool) l x, In x l -> f x = false -> length (filter f l) < length l.
Proof.
  induction l as [|a l IH]; intros x Hx Hf; [inversion Hx|]. cbn. destruct Hx as [->|Hx].
  - rewrite Hf. pose proof (filter_length_le f l). lia.
  - specialize (IH x Hx Hf). destruct (f a); cbn; lia.
Qed.
Lemma sorted_nth_le : forall l i j a b, StronglySorted le_id l -> nth_error l i = Some a -> nth_error l j = Some b -> i <= j -> (tid a <= tid b)%N.
Proof.
  induction l as [|x l IH]; intros i j a b S Ha Hb Hij; [destruct i; discriminate|].
  inversion S as [|? ? S' F]; subst. destruct i as [|i], j as [|j]; cbn in *; try lia.
  - inversion Ha; inversion Hb; subst. lia.
  - inversion Ha; subst. rewrite Forall_forall in F. apply F. eapply nth_error_In; eauto.
  - eapply IH; eauto. lia.
Qed.
Lemma sorted_split_nth : forall l i th, StronglySorted le_id l -> nth_error l i = Some th ->
  exists a b, l = a ++ th :: b /\ length a = i /\ (forall x, In x a -> (tid x <= tid th)%N) /\ (forall x, In x b -> (tid th <= tid x)%N).
Proof.
  intros l i th Sl Hn. destruct (nth_error_split _ _ Hn) as (a & b & -> & La). exists a, b. repeat split; auto.
  - intros x Hx. apply In_nth_error in Hx. destruct Hx as (j & Hj).
    assert (j < length a) by (apply nth_error_Some; congruence).
    eapply (sorted_nth_le (a ++ th :: b) j i); eauto; [rewrite nth_error_app1 by assumption; exact Hj|lia].
  - intros x Hx. apply In_nth_error in Hx. destruct Hx as (j & Hj).
    eapply (sorted_nth_le (a ++ th :: b) i (i + S j)); eauto; [|lia].
    rewrite nth_error_app2 by lia. replace (i + S j - length a) with (S j) by lia. exact Hj.
Qed.
Lemma rev_cons_last : forall (l : list ticket) m r, rev l = m :: r -> l = rev r ++ [m].
Proof. intros l m r E. apply (f_equal (@rev ticket)) in E. rewrite rev_involutive in E. exact E. Qed.

Lemma not_useless_kept : forall E acc news h, StronglySorted le_id acc -> StronglySorted le_id news ->
  (N.of_nat (length acc) <= E)%N -> (N.of_nat (length news) <= E)%N -> useless E acc news = false ->
  best E (acc ++ news) h -> incl news h.
Proof.
  intros E acc news h Sa Sn La Ln Hu (d & P & L & Hd) t Ht. pose proof (Permutation_length P) as PL. rewrite !app_length in PL.
  rewrite app_length in L.
  assert (Hin : In t (h ++ d)) by (eapply Permutation_in; [exact P|]; apply in_or_app; now right).
  apply in_app_or in Hin. destruct Hin as [|Hin]; [assumption|]. exfalso.
  unfold useless in Hu. destruct (Nat.ltb_spec (N.to_nat E) (length acc + length news)) as [Hov|Hno].
  2:{ assert (d = []) by (apply length_zero_iff_nil; lia). subst. inversion Hin. }
  set (ov := length acc + length news - N.to_nat E) in *.
  destruct (Nat.leb_spec ov (length acc)) as [Hle|]; [|lia].
  assert (Hi : length acc - ov < length acc) by lia.
  destruct (nth_error acc (length acc - ov)) as [th|] eqn:Eth; [|apply nth_error_None in Eth; lia].
  destruct (rev news) as [|largest r] eqn:Er.
  { apply (f_equal (@rev ticket)) in Er. rewrite rev_involutive in Er. cbn in Er. subst news. inversion Ht. }
  apply negb_false_iff, N.ltb_lt in Hu.
  apply rev_cons_last in Er.
  assert (Htl : (tid t <= tid largest)%N).
  { subst news. destruct (sorted_last _ _ Sn) as [_ Hm]. apply in_app_or in Ht. destruct Ht as [Ht|[<-|[]]]; [now apply Hm|lia]. }
  destruct (sorted_split_nth acc _ th Sa Eth) as (a & b & Eacc & Lna & Ha & Hb).
  set (f := fun x => (tid t <? tid x)%N).
  pose proof (Permutation_length (filter_perm f _ _ P)) as PF. rewrite !filter_app, !app_length in PF.
  rewrite (filter_none f h) in PF.
  2:{ intros x Hx. apply N.ltb_ge. now apply Hd. }
  assert (Hlt : length (filter f d) < length d).
  { apply filter_length_lt with (x := t); [assumption|]. apply N.ltb_irrefl. }
  assert (Hfa : ov <= length (filter f acc)).
  { rewrite Eacc, filter_app, app_length. rewrite (filter_all f (th :: b)).
    - assert (length acc = length a + S (length b)) by (rewrite Eacc, app_length; reflexivity). cbn [length]. lia.
    - intros x [<-|Hx]; apply N.ltb_lt; [lia|]. specialize (Hb x Hx). lia. }
  cbn [length] in PF. assert (length d = ov) by lia. lia.
Qed.

Lemma useless_dropped : forall E acc news h, StronglySorted le_id acc -> StronglySorted le_id news ->
  (N.of_nat (length acc) <= E)%N -> NoDup (map tid (acc ++ news)) -> useless E acc news = true ->
  best E (acc ++ news) h -> exists t, In t news /\ ~ In t h.
Proof.
  intros E acc news h Sa Sn La ND Hu (d & P & L & Hd). pose proof (Permutation_length P) as PL. rewrite !app_length in PL.
  rewrite app_length in L.
  unfold useless in Hu. destruct (Nat.ltb_spec (N.to_nat E) (length acc + length news)) as [Hov|Hno]; [|discriminate].
  set (ov := length acc + length news - N.to_nat E) in *.
  destruct (Nat.leb_spec ov (length acc)) as [Hle|]; [|discriminate].
  destruct (nth_error acc (length acc - ov)) as [th|] eqn:Eth; [|discriminate].
  destruct (rev news) as [|largest r] eqn:Er; [discriminate|].
  apply negb_true_iff, N.ltb_ge in Hu. apply rev_cons_last in Er.
  exists largest. split; [rewrite Er; apply in_or_app; right; now left|]. intros Hin.
  destruct (sorted_split_nth acc _ th Sa Eth) as (a & b & Eacc & Lna & Ha & Hb).
  set (f := fun x => (tid x <=? tid largest)%N).
  assert (Hm : forall x, In x news -> (tid x <= tid largest)%N).
  { subst news. destruct (sorted_last _ _ Sn) as [_ Hm]. intros x Hx. apply in_app_or in Hx. destruct Hx as [Hx|[<-|[]]]; [now apply Hm|lia]. }
  pose proof (Permutation_length (filter_perm f _ _ P)) as PF. rewrite !filter_app, !app_length in PF.
  rewrite (filter_all f news) in PF by (intros x Hx; apply N.leb_le; now apply Hm).
  assert (NDp : NoDup (map tid (h ++ d))) by (eapply Permutation_NoDup; [apply Permutation_map, P|exact ND]).
  rewrite (filter_none f d) in PF.
  2:{ intros x Hx. apply N.leb_gt. specialize (Hd largest x Hin Hx).
      assert (tid largest <> tid x); [|lia]. intros Eq. rewrite map_app in NDp.
      destruct (in_split _ _ (in_map tid _ _ Hin)) as (u & v & Euv). rewrite Euv in NDp. rewrite <- app_assoc in NDp. cbn [app] in NDp.
      apply NoDup_remove_2 in NDp. apply NDp. apply in_or_app. right. apply in_or_app. right. rewrite Eq. now apply in_map. }
  pose proof (filter_length_le f h).
  assert (Hfa : length a + 1 <= length (filter f acc)).
  { rewrite Eacc, filter_app, app_length. rewrite (filter_all f a).
    - cbn [filter]. assert (f th = true) as -> by (apply N.leb_le; assumption). cbn [length]. lia.
    - intros x Hx. apply N.leb_le. specialize (Ha x Hx). lia. }
  cbn [length] in PF. lia.
Qed.

Lemma inj_map_NoDup : forall (A B : Type) (f : A -> B) l, (forall x y, In x l -> In y l -> f x = f y -> x = y) -> NoDup l -> NoDup (map f l).
Proof.
  induction l as [|a l IH]; intros Hi ND; cbn [map]; [constructor|]. inversion ND; subst. constructor.
  - intros Hin. apply in_map_iff in Hin. destruct Hin as (y & E & Hy). apply H1. rewrite <- (Hi y a); auto; [now right|now left].
  - apply IH; auto. intros x y Hx Hy. apply Hi; now right.
Qed.

(** ** Outside-in *)
Section OI.
  Context {T : Type}.
  Lemma nth_error_nth0 : forall (v : list T) d i, i < length v -> nth_error v i = Some (nth i v d).
  Proof. intros. now apply nth_error_nth'. Qed.
  Lemma oi_loop : forall fuel (v : list T) d left, 0 < length v -> 2 * left <= length v -> length v - 2 * left < fuel ->
    outside_in_loop fuel v left (length v - 1 - left) (map (fun i => nth (outside_in_index (length v) i) v d) (seq 0 (2 * left))) =
    map (fun i => nth (outside_in_index (length v) i) v d) (seq 0 (length v)).
  Proof.
    induction fuel as [|fuel IH]; intros v d left Hv Hl Hf; [lia|]. cbn [outside_in_loop].
    set (g := fun i => nth (outside_in_index (length v) i) v d).
    assert (Ge : g (2 * left) = nth left v d).
    { unfold g, outside_in_index. rewrite Nat.even_mul. cbn [Nat.even orb]. f_equal. lia. }
    destruct (Nat.leb_spec left (length v - 1 - left)) as [Hle|Hgt].
    - rewrite (nth_error_nth0 v d left) by lia.
      destruct (Nat.eqb_spec left (length v - 1 - left)) as [He|Hne].
      + assert (Hn : length v = 2 * left + 1) by lia.
        destruct fuel as [|fuel]; [lia|]. cbn [outside_in_loop].
        destruct (Nat.leb_spec (left + 1) (length v - 1 - left - 1)); [lia|].
        rewrite Hn. rewrite seq_app, map_app. cbn [seq map]. rewrite Nat.add_0_l. fold g. now rewrite Ge.
      + rewrite (nth_error_nth0 v d (length v - 1 - left)) by lia.
        replace (length v - 1 - left - 1) with (length v - 1 - (left + 1)) by lia.
        specialize (IH v d (left + 1)). fold g in IH. rewrite <- IH by lia. f_equal.
        replace (2 * (left + 1)) with (2 * left + 2) by lia. rewrite seq_app, map_app. cbn [seq map]. rewrite Nat.add_0_l.
        rewrite <- app_assoc. cbn [app]. fold g. rewrite Ge. do 3 f_equal.
        unfold g, outside_in_index. replace (Nat.even (S (2 * left))) with false.
        * f_equal. lia.
        * symmetry. rewrite Nat.even_succ, <- Nat.negb_even, Nat.even_mul. reflexivity.
    - assert (Hn : length v = 2 * left) by lia. now rewrite Hn.
  Qed.
  Lemma outside_in_ok : forall (v : list T) d, v <> [] ->
    outside_in_vec v = Ok (map (fun i => nth (outside_in_index (length v) i) v d) (seq 0 (length v))).
  Proof.
    intros v d Hv. destruct v as [|x v]; [congruence|]. unfold outside_in_vec. f_equal.
    pose proof (oi_loop (S (length (x :: v))) (x :: v) d 0) as O. rewrite !Nat.sub_0_r in O. apply O; cbn [length]; lia.
  Qed.
  Lemma outside_in_perm : forall (v w : list T), outside_in_vec v = Ok w -> Permutation w v.
  Proof.
    intros v w O. destruct v as [|d v0] eqn:Ev; [discriminate|]. rewrite <- Ev in *.
    rewrite (outside_in_ok v d) in O by congruence. inversion O; subst w. set (n := length v).
    rewrite <- (map_map (outside_in_index n) (fun j => nth j v d)).
    assert (P : Permutation (map (outside_in_index n) (seq 0 n)) (seq 0 n)).
    { apply NoDup_Permutation_bis.
      - apply inj_map_NoDup.
        + intros i j Hi Hj Eq. apply in_seq in Hi, Hj. unfold outside_in_index in Eq.
          pose proof (Nat.div_mod_eq i 2). pose proof (Nat.div_mod_eq j 2).
          clearbody n. destruct (Nat.even i) eqn:Ei, (Nat.even j) eqn:Ej;
            repeat match goal with
            | X : Nat.even _ = true |- _ => apply Nat.even_spec in X; destruct X as [? X]
            | X : Nat.even _ = false |- _ => rewrite <- Nat.negb_odd in X; apply negb_false_iff, Nat.odd_spec in X; destruct X as [? X]
            end; lia.
        + apply seq_NoDup.
      - rewrite map_length. lia.
      - intros j Hj. apply in_map_iff in Hj. destruct Hj as (i & <- & Hi). apply in_seq in Hi. apply in_seq.
        unfold outside_in_index. destruct (Nat.even i); lia. }
    rewrite P. unfold n. clear.
    assert (G : forall (u : list T), map (fun j => nth j u d) (seq 0 (length u)) = u).
    { intros u. apply nth_ext with (d := d) (d' := d); [now rewrite map_length, seq_length|].
      intros k Hk. rewrite map_length, seq_length in Hk.
      rewrite (nth_indep _ d (nth 0 u d)) by (rewrite map_length, seq_length; lia).
      rewrite (map_nth (fun j => nth j u d)). now rewrite seq_nth by lia. }
    now rewrite G.
  Qed.
End OI.

Lemma outside_in_full : forall E h, (0 < E)%N -> is_full E h = true -> exists v, outside_in_vec h = Ok v.
Proof.
  intros E h HE Hf. destruct h as [|t h]; [unfold is_full in Hf; apply N.eqb_eq in Hf; cbn in Hf; lia|].
  eexists. apply (outside_in_ok (t :: h) t). discriminate.
Qed.

(** ** The block step *)
Section Step.
  Variables (E D : N) (H : bytes -> bytes) (ring_of : list vkey -> bytes) (V : nat).
  Notation step := (step E D H ring_of V).
  Notation phase1 := (phase1 E D H ring_of V).
  Notation epoch := (epoch E).
  Notation phase := (phase E).

  Lemma bind_ok : forall (A B : Type) (r : result unit A) (f : A -> result unit B) v,
    bind r f = Ok v -> exists a, r = Ok a /\ f a = Ok v.
  Proof. intros A B r f v Hb. destruct r; cbn in Hb; try discriminate. eauto. Qed.

  Lemma validate_slot_ok : forall now p c u, validate_timeslot now p c = Ok u ->
    (p = 0 /\ c = 0)%N \/ (p < c /\ slot_beginning c <= now)%N.
  Proof.
    intros now p c u Hv. unfold validate_timeslot in Hv.
    destruct ((p =? 0)%N && (c =? 0)%N)%bool eqn:E0; [left; lia|].
    destruct (N.leb_spec c p); [discriminate|]. unfold is_in_future in Hv.
    destruct (N.ltb_spec now (slot_beginning c)); [discriminate|]. right. lia.
  Qed.

  (** What an accepted block does to every component. *)
  Record step_facts (now : N) (s : sstate) (b : sblock) (s' : sstate) (m : markers) : Prop := {
    sf_slot : s_slot s' = b_slot b;
    sf_time : (s_slot s = 0 /\ b_slot b = 0)%N \/ (s_slot s < b_slot b /\ slot_beginning (b_slot b) <= now)%N;
    sf_e0 : s_e0 s' = H (s_e0 s ++ b_vrf b);
    sf_punish : s_punish s' = b_punish b;
    sf_staging : s_staging s' = match b_staging b with Some x => x | None => s_staging s end;
    sf_tickets_open : b_tickets b <> [] -> (phase (b_slot b) < D)%N;
    sf_same : epoch_progressed E (s_slot s) (b_slot b) = false ->
      s_e1 s' = s_e1 s /\ s_e2 s' = s_e2 s /\ s_e3 s' = s_e3 s /\ s_active s' = s_active s /\ s_past s' = s_past s /\
      s_pending s' = s_pending s /\ s_ring s' = s_ring s /\ s_sealers s' = s_sealers s /\
      s_acc s' = acc_add_multiple E (s_acc s) (b_tickets b) /\ m_epoch m = None;
    sf_new : epoch_progressed E (s_slot s) (b_slot b) = true ->
      s_e1 s' = s_e0 s /\ s_e2 s' = s_e1 s /\ s_e3 s' = s_e2 s /\ s_active s' = s_pending s /\ s_past s' = s_active s /\
      s_pending s' = nullify_punished (b_punish b) (s_staging s) /\ s_ring s' = ring_of (s_pending s') /\
      compute_next_slot_sealers E D H V s (b_slot b) (s_pending s) (s_e1 s) = Ok (s_sealers s') /\
      s_acc s' = acc_add_multiple E [] (b_tickets b) /\
      m_epoch m = Some (mk_em (s_e0 s) (s_e1 s) (map (fun k => (kband k, ked k)) (s_pending s')));
    sf_win : forall l, m_winning m = Some l <->
      (epoch_progressed E (s_slot s) (b_slot b) = false /\ phase (s_slot s) < D /\ D <= phase (b_slot b))%N /\
      is_full E (s_acc s) = true /\ outside_in_vec (s_acc s) = Ok l }.

  Lemma step_inv : forall now s b s' m, step now s b = Ok (s', m) -> step_facts now s b s' m.
  Proof.
    intros now s b s' m Hs. unfold Safrole_Model.step in Hs. apply bind_ok in Hs. destruct Hs as ([s1 m1] & Hp & Hs).
    inversion Hs; subst s' m; clear Hs. cbn [fst snd] in *.
    unfold Safrole_Model.phase1 in Hp. apply bind_ok in Hp. destruct Hp as (u & Hv & Hp). cbn zeta in Hp.
    apply bind_ok in Hp. destruct Hp as ([[[pend ring] seal] acc0] & Hsaf & Hp).
    apply bind_ok in Hp. destruct Hp as (acc1 & Hacc & Hp).
    apply bind_ok in Hp. destruct Hp as (ms & Hm & Hp). inversion Hp; subst s1 m1; clear Hp.
    assert (Htick : (b_tickets b <> [] -> (phase (b_slot b) < D)%N) /\ acc1 = acc_add_multiple E acc0 (b_tickets b)).
    { destruct (b_tickets b) as [|t ts]; [inversion Hacc; split; [congruence|reflexivity]|].
      destruct (N.leb_spec D (phase (b_slot b))); [discriminate|]. inversion Hacc. split; auto. }
    destruct Htick as [Hopen ->].
    assert (Hmm : (m_epoch ms = if epoch_progressed E (s_slot s) (b_slot b) then Some (mk_em (s_e0 s) (s_e1 s) (map (fun k => (kband k, ked k)) pend)) else None) /\
      forall l, m_winning ms = Some l <->
      (epoch_progressed E (s_slot s) (b_slot b) = false /\ phase (s_slot s) < D /\ D <= phase (b_slot b))%N /\
      is_full E (s_acc s) = true /\ outside_in_vec (s_acc s) = Ok l).
    { unfold mark_header in Hm. cbn zeta in Hm.
      destruct (negb (epoch_progressed E (s_slot s) (b_slot b)) && (phase (s_slot s) <? D)%N && (D <=? phase (b_slot b))%N && is_full E (s_acc s))%bool eqn:En.
      - apply bind_ok in Hm. destruct Hm as (v & Ho & Hm). inversion Hm; subst ms. cbn [m_epoch m_winning]. split; [reflexivity|].
        rewrite !andb_true_iff, negb_true_iff, N.ltb_lt, N.leb_le in En. intros l. rewrite Ho. split.
        + intros [= ->]. tauto.
        + intros (_ & _ & [= ->]). reflexivity.
      - inversion Hm; subst ms. cbn [m_epoch m_winning]. split; [reflexivity|]. intros l. split; [discriminate|].
        intros ((A & B & C) & F & _). exfalso. rewrite A, F in En. cbn [negb andb] in En.
        rewrite (proj2 (N.ltb_lt _ _) B), (proj2 (N.leb_le _ _) C) in En. discriminate. }
    destruct Hmm as [Hme Hmw].
    constructor; cbn [phase2 s_slot s_e0 s_e1 s_e2 s_e3 s_staging s_active s_past s_pending s_ring s_sealers s_acc s_punish]; auto.
    - eapply validate_slot_ok; eauto.
    - intros Ep. rewrite Ep in *. inversion Hsaf; subst. repeat split; auto.
    - intros Ep. rewrite Ep in *. apply bind_ok in Hsaf. destruct Hsaf as (sl & Hsl & Hsaf). inversion Hsaf; subst.
      repeat split; auto.
  Qed.

  Lemma step_predict : forall now s b s' m, step now s b = Ok (s', m) ->
    predict_slot_sealer E D H V s (b_slot b) = get_slot_sealer E (s_sealers s') (b_slot b) /\
    predict_entropy_3 E s (b_slot b) = s_e3 s' /\
    predict_active_set E s (b_slot b) = s_active s' /\
    predict_past_set E s (b_slot b) = s_past s'.
  Proof.
    intros now s b s' m Hs. destruct (step_inv _ _ _ _ _ Hs).
    unfold predict_slot_sealer, predict_entropy_3, predict_active_set, predict_past_set.
    destruct (epoch_progressed E (s_slot s) (b_slot b)) eqn:Ep.
    - destruct (sf_new0 eq_refl) as (_ & _ & -> & -> & -> & _ & _ & Hc & _). rewrite Hc. cbn [bind]. auto.
    - destruct (sf_same0 eq_refl) as (_ & _ & -> & -> & -> & _ & _ & -> & _). auto.
  Qed.

  (** *** Histories *)
  Notation chain := (chain E D H ring_of V).

  Lemma epoch_mono : forall a b, (a <= b)%N -> (epoch a <= epoch b)%N.
  Proof.
    intros a b Hab. unfold Safrole_Model.epoch. destruct (N.eq_dec E 0) as [->|HE]; [destruct a, b; cbn; lia|].
    apply N.div_le_mono; lia.
  Qed.
  Lemma progressed_spec : forall a b, epoch_progressed E a b = true <-> (epoch a < epoch b)%N.
  Proof. intros. unfold epoch_progressed. apply N.ltb_lt. Qed.
  Lemma progressed_false : forall a b, (a <= b)%N -> (epoch_progressed E a b = false <-> epoch a = epoch b).
  Proof. intros a b Hab. unfold epoch_progressed. rewrite N.ltb_ge. pose proof (epoch_mono a b Hab). lia. Qed.
  Lemma phase_mono : forall a b, (0 < E)%N -> (a <= b)%N -> epoch a = epoch b -> (phase a <= phase b)%N.
  Proof.
    intros a b HE Hab He. unfold Safrole_Model.epoch, Safrole_Model.phase in *.
    pose proof (N.div_mod a E ltac:(lia)). pose proof (N.div_mod b E ltac:(lia)). rewrite He in *. lia.
  Qed.

  Record winv (s : sstate) (log : list (N * markers)) : Prop := {
    wi_len : (N.of_nat (length (s_acc s)) <= E)%N;
    wi_sorted : StronglySorted le_id (s_acc s);
    wi_epochs : forall a m, In (a, m) log -> (epoch a <= epoch (s_slot s))%N;
    wi_before : (phase (s_slot s) < D)%N -> forall a m, In (a, m) log -> epoch a = epoch (s_slot s) -> m_winning m = None;
    wi_after : (D <= phase (s_slot s))%N -> forall l,
      (is_full E (s_acc s) = true /\ outside_in_vec (s_acc s) = Ok l) <->
      (exists a m, In (a, m) log /\ epoch a = epoch (s_slot s) /\ m_winning m = Some l);
    wi_once : forall l1 l2 l3 a m b m', log = l1 ++ (a, m) :: l2 ++ (b, m') :: l3 ->
      m_winning m <> None -> m_winning m' <> None -> epoch a <> epoch b }.

  Lemma winv_step : (0 < E)%N -> forall now s b s' m log, winv s log -> step now s b = Ok (s', m) -> winv s' (log ++ [(b_slot b, m)]).
  Proof.
    intros HE now s b s' m log I Hs. destruct (step_inv _ _ _ _ _ Hs). destruct I.
    assert (Hslot : (s_slot s <= b_slot b)%N) by (destruct sf_time0; lia).
    pose proof (epoch_mono _ _ Hslot) as Hep.
    assert (Acc : s_acc s' = acc_add_multiple E (if epoch_progressed E (s_slot s) (b_slot b) then [] else s_acc s) (b_tickets b)).
    { destruct (epoch_progressed E (s_slot s) (b_slot b)).
      - destruct (sf_new0 eq_refl) as (_ & _ & _ & _ & _ & _ & _ & _ & X & _). exact X.
      - destruct (sf_same0 eq_refl) as (_ & _ & _ & _ & _ & _ & _ & _ & X & _). exact X. }
    assert (S0 : StronglySorted le_id (if epoch_progressed E (s_slot s) (b_slot b) then [] else s_acc s)).
    { destruct (epoch_progressed _ _ _); [constructor|assumption]. }
    destruct (acc_add_multiple_refines E (b_tickets b) _ S0) as [S1 A1].
    assert (Bt : (D <= phase (b_slot b))%N -> b_tickets b = []).
    { intros HD. destruct (b_tickets b) eqn:Eb; [reflexivity|]. exfalso. assert (phase (b_slot b) < D)%N by (apply sf_tickets_open0; congruence). lia. }
    constructor; rewrite ?sf_slot0.
    - rewrite Acc. eapply heap_adds_length; [exact A1|]. destruct (epoch_progressed _ _ _); [cbn; lia|assumption].
    - rewrite Acc. exact S1.
    - intros a m' Hin. apply in_app_or in Hin. destruct Hin as [Hin|[[= <- <-]|[]]]; [|lia]. apply wi_epochs0 in Hin. lia.
    - intros Hph a m' Hin Ha. apply in_app_or in Hin. destruct Hin as [Hin|[[= <- <-]|[]]].
      + pose proof (wi_epochs0 _ _ Hin). eapply wi_before0; eauto; [|lia].
        assert (phase (s_slot s) <= phase (b_slot b))%N; [|lia]. apply phase_mono; auto. lia.
      + destruct (m_winning m) as [l|] eqn:Ew; [|reflexivity]. pose proof (proj1 (sf_win0 l) eq_refl). lia.
    - intros Hph l. rewrite Acc, (Bt Hph). unfold acc_add_multiple. cbn [fold_left].
      destruct (epoch_progressed E (s_slot s) (b_slot b)) eqn:Ep.
      + apply progressed_spec in Ep. split.
        * intros [Hf _]. unfold is_full in Hf. apply N.eqb_eq in Hf. cbn in Hf. lia.
        * intros (a & m' & Hin & Ha & Hw). exfalso. apply in_app_or in Hin. destruct Hin as [Hin|[[= <- <-]|[]]].
          { apply wi_epochs0 in Hin. lia. } { apply sf_win0 in Hw. destruct Hw as ((X & _) & _). discriminate. }
      + apply (progressed_false _ _ Hslot) in Ep.
        destruct (N.lt_ge_cases (phase (s_slot s)) D) as [Hlt|Hge].
        * split.
          { intros [Hf Ho]. exists (b_slot b), m. split; [apply in_or_app; right; now left|]. split; [reflexivity|].
            apply sf_win0. split; [|tauto]. split; auto. }
          { intros (a & m' & Hin & Ha & Hw). apply in_app_or in Hin. destruct Hin as [Hin|[[= <- <-]|[]]].
            - rewrite (wi_before0 Hlt a m' Hin) in Hw; [discriminate|lia].
            - apply sf_win0 in Hw. tauto. }
        * rewrite (wi_after0 Hge l). split.
          { intros (a & m' & Hin & Ha & Hw). exists a, m'. split; [apply in_or_app; now left|]. split; [lia|assumption]. }
          { intros (a & m' & Hin & Ha & Hw). apply in_app_or in Hin. destruct Hin as [Hin|[[= <- <-]|[]]].
            - exists a, m'. repeat split; auto. lia.
            - apply sf_win0 in Hw. lia. }
    - intros l1 l2 l3 a m1 b0 m2 El Hm1 Hm2 Eab.
      destruct l3 as [|z l3] using rev_ind.
      + replace (l1 ++ (a, m1) :: l2 ++ [(b0, m2)]) with ((l1 ++ (a, m1) :: l2) ++ [(b0, m2)]) in El by (rewrite <- app_assoc; reflexivity).
        apply app_inj_tail in El. destruct El as [-> [= <- <-]].
        destruct (m_winning m) as [l|] eqn:Ew; [|congruence]. destruct (proj1 (sf_win0 l) eq_refl) as ((Ep & Hlt & _) & _).
        apply Hm1. apply (wi_before0 Hlt a); [apply in_or_app; right; now left|].
        apply (progressed_false _ _ Hslot) in Ep. lia.
      + clear IHl3. replace (l1 ++ (a, m1) :: l2 ++ (b0, m2) :: l3 ++ [z]) with ((l1 ++ (a, m1) :: l2 ++ (b0, m2) :: l3) ++ [z]) in El
          by (rewrite <- !app_assoc; cbn; now rewrite <- app_assoc).
        apply app_inj_tail in El. destruct El as [-> _]. eapply wi_once0; eauto.
  Qed.

  Lemma winv_chain : (0 < E)%N -> forall s0 bs s log, start_ok E D s0 -> chain s0 bs s log -> winv s log.
  Proof.
    intros HE s0 bs s log (Hp & Hl & Hsrt) C. induction C as [|bs s log now b s' m C IH Hs].
    - constructor; auto; try contradiction.
      + intros. lia.
      + intros l1 l2 l3 a m b m' El. destruct l1; discriminate.
    - eapply winv_step; eauto.
  Qed.

  Lemma winning_matches : (0 < E)%N -> forall s0 bs s log, start_ok E D s0 -> chain s0 bs s log ->
    forall now b s' m, step now s b = Ok (s', m) -> (epoch (s_slot s) < epoch (b_slot b))%N ->
    forall l, s_sealers s' = Tickets l <->
      (epoch (b_slot b) = epoch (s_slot s) + 1)%N /\
      exists a m', In (a, m') log /\ epoch a = epoch (s_slot s) /\ m_winning m' = Some l.
  Proof.
    intros HE s0 bs s log Hok C now b s' m Hs Hep l.
    pose proof (winv_chain HE _ _ _ _ Hok C) as I. destruct I. destruct (step_inv _ _ _ _ _ Hs).
    apply progressed_spec in Hep. destruct (sf_new0 Hep) as (_ & _ & _ & _ & _ & _ & _ & Hc & _).
    apply progressed_spec in Hep.
    unfold compute_next_slot_sealers in Hc. unfold is_fallback in Hc.
    destruct (N.ltb_spec (epoch (s_slot s) + 1) (epoch (b_slot b))) as [A|A]; cbn [orb] in Hc.
    { apply bind_ok in Hc. destruct Hc as (ks & _ & Hc). inversion Hc as [X]. split; [discriminate|]. lia. }
    destruct (N.ltb_spec (phase (s_slot s)) D) as [B|B]; cbn [orb] in Hc.
    { apply bind_ok in Hc. destruct Hc as (ks & _ & Hc). inversion Hc as [X]. split; [discriminate|].
      intros (_ & a & m' & Hin & Ha & Hw). rewrite (wi_before0 B a m' Hin Ha) in Hw. discriminate. }
    destruct (is_full E (s_acc s)) eqn:Ef; cbn [negb] in Hc.
    - apply bind_ok in Hc. destruct Hc as (v & Ho & Hc). inversion Hc as [X].
      split.
      + intros [= ->]. split; [lia|]. apply (wi_after0 B). auto.
      + intros (_ & Hex). apply (wi_after0 B) in Hex. destruct Hex as [_ Hex]. congruence.
    - apply bind_ok in Hc. destruct Hc as (ks & _ & Hc). inversion Hc as [X]. split; [discriminate|].
      intros (_ & Hex). apply (wi_after0 B) in Hex. destruct Hex as [Hex _]. congruence.
  Qed.

  (** Entropy, over histories: split at the last epoch boundary. *)
  Lemma chain_slots_le : forall s0 bs s log, chain s0 bs s log -> (s_slot s0 <= s_slot s)%N.
  Proof.
    induction 1 as [|bs s log now b s' m C IH Hs]; [lia|]. destruct (step_inv _ _ _ _ _ Hs). rewrite sf_slot0. destruct sf_time0; lia.
  Qed.
  Lemma chain_app : forall s0 bs1 s1 log1 bs2 s2 log2, chain s0 bs1 s1 log1 -> chain s1 bs2 s2 log2 -> chain s0 (bs1 ++ bs2) s2 (log1 ++ log2).
  Proof.
    intros s0 bs1 s1 log1 bs2 s2 log2 C1 C2. induction C2 as [|bs s log now b s' m C2 IH Hs].
    - now rewrite !app_nil_r.
    - rewrite !app_assoc. econstructor; eauto.
  Qed.

  Lemma entropy_fold : forall s0 bs s log, chain s0 bs s log -> s_e0 s = fold_left (fun e b => H (e ++ b_vrf b)) bs (s_e0 s0).
  Proof.
    induction 1 as [|bs s log now b s' m C IH Hs]; [reflexivity|]. rewrite fold_left_app. cbn [fold_left].
    rewrite (sf_e0 _ _ _ _ _ (step_inv _ _ _ _ _ Hs)). now rewrite IH.
  Qed.

  Lemma within_epoch : forall s0 bs s log, chain s0 bs s log -> epoch (s_slot s) = epoch (s_slot s0) ->
    s_e1 s = s_e1 s0 /\ s_e2 s = s_e2 s0 /\ s_e3 s = s_e3 s0 /\ s_active s = s_active s0 /\ s_past s = s_past s0 /\
    s_pending s = s_pending s0 /\ s_ring s = s_ring s0 /\ s_sealers s = s_sealers s0 /\
    (forall a m, In (a, m) log -> m_epoch m = None).
  Proof.
    induction 1 as [|bs s log now b s' m C IH Hs]; intros He.
    - repeat split; auto. intros ? ? [].
    - pose proof (chain_slots_le _ _ _ _ C) as L0. pose proof (step_inv _ _ _ _ _ Hs) as F.
      assert (L1 : (s_slot s <= b_slot b)%N) by (destruct (sf_time _ _ _ _ _ F); lia).
      rewrite (sf_slot _ _ _ _ _ F) in He. pose proof (epoch_mono _ _ L0). pose proof (epoch_mono _ _ L1).
      destruct (IH ltac:(lia)) as (<- & <- & <- & <- & <- & <- & <- & <- & Hl).
      destruct (sf_same _ _ _ _ _ F) as (-> & -> & -> & -> & -> & -> & -> & -> & _ & Hm).
      { apply progressed_false; [assumption|lia]. }
      repeat split; auto. intros a m' Hin. apply in_app_or in Hin. destruct Hin as [Hin|[[= <- <-]|[]]]; eauto.
  Qed.

  Lemma across_epoch : forall s1 now b s2 m bs s3 log, step now s1 b = Ok (s2, m) -> (epoch (s_slot s1) < epoch (b_slot b))%N ->
    chain s2 bs s3 log -> epoch (s_slot s3) = epoch (b_slot b) ->
    s_e1 s3 = s_e0 s1 /\ s_e2 s3 = s_e1 s1 /\ s_e3 s3 = s_e2 s1 /\ s_active s3 = s_pending s1 /\ s_past s3 = s_active s1 /\
    s_pending s3 = nullify_punished (b_punish b) (s_staging s1).
  Proof.
    intros s1 now b s2 m bs s3 log Hs He C He3. pose proof (step_inv _ _ _ _ _ Hs) as F.
    destruct (within_epoch _ _ _ _ C) as (-> & -> & -> & -> & -> & -> & _).
    { rewrite (sf_slot _ _ _ _ _ F). assumption. }
    apply progressed_spec in He. destruct (sf_new _ _ _ _ _ F He) as (-> & -> & -> & -> & -> & -> & _). repeat split.
  Qed.

  Lemma slots_increase : forall s0 bs s log, chain s0 bs s log ->
    (forall a m, In (a, m) log -> (a <= s_slot s)%N /\ (a = s_slot s -> a = 0 \/ exists l1, log = l1 ++ [(a, m)])%N) /\
    (forall l1 l2 l3 a m b m', log = l1 ++ (a, m) :: l2 ++ (b, m') :: l3 -> (a < b \/ a = 0 /\ b = 0)%N).
  Proof.
    induction 1 as [|bs s log now b s' m C [IH1 IH2] Hs].
    - split; [intros ? ? []|]. intros l1 l2 l3 a m b m' El. destruct l1; discriminate.
    - pose proof (step_inv _ _ _ _ _ Hs) as F. rewrite (sf_slot _ _ _ _ _ F). pose proof (sf_time _ _ _ _ _ F) as T. split.
      + intros a m' Hin. apply in_app_or in Hin. destruct Hin as [Hin|[[= <- <-]|[]]].
        * destruct (IH1 _ _ Hin) as [A _]. split; [lia|]. intros ->. left. lia.
        * split; [lia|]. intros _. right. eauto.
      + intros l1 l2 l3 a m1 c m2 El. destruct l3 as [|z l3] using rev_ind.
        * replace (l1 ++ (a, m1) :: l2 ++ [(c, m2)]) with ((l1 ++ (a, m1) :: l2) ++ [(c, m2)]) in El by (rewrite <- app_assoc; reflexivity).
          apply app_inj_tail in El. destruct El as [-> [= <- <-]].
          destruct (IH1 a m1) as [A _]; [apply in_or_app; right; now left|]. lia.
        * clear IHl3. replace (l1 ++ (a, m1) :: l2 ++ (c, m2) :: l3 ++ [z]) with ((l1 ++ (a, m1) :: l2 ++ (c, m2) :: l3) ++ [z]) in El
            by (rewrite <- !app_assoc; cbn; now rewrite <- app_assoc).
          apply app_inj_tail in El. destruct El as [-> _]. eapply IH2; eauto.
  Qed.
End Step.

Lemma validate_slot_iff : forall now p c, validate_timeslot now p c = Ok tt <->
  (p = 0 /\ c = 0)%N \/ (p < c /\ slot_beginning c <= now)%N.
Proof.
  intros now p c. split; [apply validate_slot_ok|]. intros Hv. unfold validate_timeslot, is_in_future.
  destruct ((p =? 0)%N && (c =? 0)%N)%bool eqn:E0; [reflexivity|].
  destruct (N.leb_spec c p); [exfalso; lia|]. destruct (N.ltb_spec now (slot_beginning c)); [exfalso; lia|reflexivity].
Qed.
Lemma nullify_spec : forall punish ks k, In k (nullify_punished punish ks) -> In (ked k) punish -> k = null_key.
Proof.
  intros punish ks k Hin Hp. unfold nullify_punished in Hin. apply in_map_iff in Hin. destruct Hin as (x & E & _).
  destruct (existsb (N.eqb (ked x)) punish) eqn:Ex; [congruence|]. subst x. exfalso.
  assert (existsb (N.eqb (ked k)) punish = true); [|congruence]. apply existsb_exists. exists (ked k). split; [assumption|apply N.eqb_refl].
Qed.
