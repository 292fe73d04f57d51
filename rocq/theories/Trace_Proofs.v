From Verif Require Import Base Base_Proofs Trace_Model Trace_Spec.
Require Import Permutation Sorted Lia.

Lemma name_refl : forall a, name_leb a a = true.
Proof. induction a as [|x a IH]; [reflexivity|]. cbn. rewrite N.ltb_irrefl. exact IH. Qed.
Lemma name_total : forall a b, name_leb a b = true \/ name_leb b a = true.
Proof.
  induction a as [|x a IH]; intros [|y b]; cbn; auto. destruct (N.ltb_spec x y); [auto|]. destruct (N.ltb_spec y x); [auto|]. apply IH.
Qed.
Lemma name_antisym : forall a b, name_leb a b = true -> name_leb b a = true -> a = b.
Proof.
  induction a as [|x a IH]; intros [|y b]; cbn; try discriminate; auto.
  destruct (N.ltb_spec x y), (N.ltb_spec y x); try discriminate; try lia. intros A B. assert (x = y) by lia. subst. f_equal. apply IH; assumption.
Qed.
Lemma name_trans : forall a b c, name_leb a b = true -> name_leb b c = true -> name_leb a c = true.
Proof.
  induction a as [|x a IH]; intros [|y b] [|z c]; cbn; try discriminate; auto.
  destruct (N.ltb_spec x y), (N.ltb_spec y x), (N.ltb_spec y z), (N.ltb_spec z y), (N.ltb_spec x z), (N.ltb_spec z x); try discriminate; try lia; auto. apply IH.
Qed.
(** The comparison decides the order. *)
Lemma lex_iff : forall a b, name_lt a b <-> name_leb a b = true /\ a <> b.
Proof.
  induction a as [|x a IH]; intros [|y b].
  - split; [intros (p & x & b' & E & _); destruct p; discriminate|intros [_ A]; congruence].
  - split; [intros _; split; [reflexivity|discriminate]|]. intros _. exists [], y, b. split; [reflexivity|left; reflexivity].
  - split; [intros (p & z & b' & E & _); destruct p; discriminate|intros [A _]; discriminate].
  - cbn [name_leb]. split.
    + intros (p & z & b' & E & [F|(u & a' & F & L)]).
      * destruct p as [|q p]; [discriminate|]. cbn in E. injection E as -> E. injection F as -> F. rewrite N.ltb_irrefl.
        destruct (proj1 (IH b)) as [G1 G2]; [exists p, z, b'; split; [exact E|left; exact F]|]. split; [exact G1|congruence].
      * destruct p as [|q p]; cbn in E, F.
        -- injection E as -> E. injection F as -> F. destruct (N.ltb_spec u z); [|lia]. split; [reflexivity|]. intros Q. injection Q as Q1 Q2. lia.
        -- injection E as -> E. injection F as -> F. rewrite N.ltb_irrefl. destruct (proj1 (IH b)) as [G1 G2]; [exists p, z, b'; split; [exact E|right; exists u, a'; split; [exact F|exact L]]|]. split; [exact G1|congruence].
    + intros [A D]. destruct (N.ltb_spec x y).
      * exists [], y, b. split; [reflexivity|]. right. exists x, a. split; [reflexivity|assumption].
      * destruct (N.ltb_spec y x); [discriminate|]. assert (x = y) by lia. subst y. destruct (proj2 (IH b)) as (p & z & b' & E & F); [split; [exact A|congruence]|].
        exists (x :: p), z, b'. split; [rewrite E; reflexivity|]. destruct F as [->|(u & a' & -> & L)]; [left; reflexivity|right; exists u, a'; split; [reflexivity|exact L]].
Qed.
Lemma bin_iff : forall n, is_bin n = true <-> bin_name n.
Proof.
  intros n. unfold is_bin, bin_name, dot_bin. destruct (list_eq_dec N.eq_dec (skipn (length n - 4) n) [46; 98; 105; 110]%N) as [E|E].
  - rewrite Nat.ltb_lt. split.
    + intros L. exists (firstn (length n - 4) n). split; [intros Q; apply (f_equal (@length N)) in Q; rewrite firstn_length in Q; cbn in Q; lia|]. rewrite <- E. symmetry. apply firstn_skipn.
    + intros [stem [S ->]]. rewrite app_length. destruct stem; [congruence|]. cbn. lia.
  - split; [discriminate|]. intros [stem [S ->]]. exfalso. apply E. rewrite app_length. cbn [length]. replace (length stem + 4 - 4)%nat with (length stem) by lia.
    rewrite skipn_app, Nat.sub_diag, skipn_all. reflexivity.
Qed.
Lemma genesis_same : genesis_name = genesis_bin. Proof. reflexivity. Qed.
Lemma lt_trans : forall a b c, name_lt a b -> name_lt b c -> name_lt a c.
Proof.
  intros a b c A0 B0. apply lex_iff in A0, B0. destruct A0 as [A A'], B0 as [B B']. apply lex_iff. split; [exact (name_trans _ _ _ A B)|]. intros ->. apply A'. exact (name_antisym _ _ A B).
Qed.
Lemma lt_irrefl : forall a, ~ name_lt a a.
Proof. intros a A. apply lex_iff in A. destruct A as [_ A]. apply A. reflexivity. Qed.

(** Two strictly sorted lists with the same elements are equal. *)
Section Uniq.
  Context {A : Type} (R : A -> A -> Prop) (Rt : forall a b c, R a b -> R b c -> R a c) (Ri : forall a, ~ R a a).
  Lemma sorted_unique : forall l l', StronglySorted R l -> StronglySorted R l' -> (forall x, In x l <-> In x l') -> l = l'.
  Proof.
    induction l as [|a l IH]; intros [|b l'] S S' E.
    - reflexivity.
    - exfalso. apply (proj2 (E b)). left. reflexivity.
    - exfalso. apply (proj1 (E a)). left. reflexivity.
    - apply StronglySorted_inv in S. apply StronglySorted_inv in S'. destruct S as [S F], S' as [S' F']. rewrite Forall_forall in F, F'.
      assert (X : a = b).
      { destruct (proj1 (E a) (or_introl eq_refl)) as [X|X]; [symmetry; exact X|]. destruct (proj2 (E b) (or_introl eq_refl)) as [Y|Y]; [exact Y|].
        exfalso. apply (Ri a). exact (Rt _ _ _ (F b Y) (F' a X)). }
      subst b. f_equal. apply IH; [exact S|exact S'|]. intros x. split; intros H.
      + destruct (proj1 (E x) (or_intror H)) as [<-|X]; [exfalso; exact (Ri _ (F a H))|exact X].
      + destruct (proj2 (E x) (or_intror H)) as [<-|X]; [exfalso; exact (Ri _ (F' a H))|exact X].
  Qed.
End Uniq.

Definition flt {X} (a b : bytes * X) : Prop := name_lt (fst a) (fst b).
Lemma insert_perm : forall f l, Permutation (f :: l) (file_insert f l).
Proof.
  intros f l. induction l as [|g l IH]; cbn; [apply Permutation_refl|]. destruct (name_leb (fst f) (fst g)); [apply Permutation_refl|].
  eapply perm_trans; [apply perm_swap|]. apply perm_skip. exact IH.
Qed.
Lemma sort_perm : forall l, Permutation l (file_sort l).
Proof. induction l as [|f l IH]; cbn; [constructor|]. eapply perm_trans; [apply perm_skip; exact IH|apply insert_perm]. Qed.
Lemma insert_sorted : forall f l, (forall g, In g l -> fst g <> fst f) -> StronglySorted flt l -> StronglySorted flt (file_insert f l).
Proof.
  intros f l. induction l as [|g l IH]; intros D S; cbn; [constructor; constructor|].
  apply StronglySorted_inv in S as S'. destruct S' as [S1 F1]. destruct (name_leb (fst f) (fst g)) eqn:E.
  - assert (L : name_lt (fst f) (fst g)). { apply lex_iff. split; [exact E|]. intros X. apply (D g); [left; reflexivity|auto]. }
    constructor; [exact S|]. constructor; [exact L|]. rewrite Forall_forall in *. intros x X. exact (lt_trans _ _ _ L (F1 x X)).
  - constructor; [apply IH; [intros x X; apply D; right; exact X|exact S1]|].
    apply Forall_forall. intros x X. apply (Permutation_in _ (Permutation_sym (insert_perm f l))) in X. destruct X as [<-|X].
    + apply lex_iff. split; [destruct (name_total (fst f) (fst g)); congruence|]. apply D. left. reflexivity.
    + rewrite Forall_forall in F1. apply F1. exact X.
Qed.
Lemma sort_sorted : forall l, NoDup (map fst l) -> StronglySorted flt (file_sort l).
Proof.
  induction l as [|f l IH]; intros D; cbn; [constructor|]. cbn in D. inversion D as [|? ? D1 D2]; subst. apply insert_sorted; [|apply IH; exact D2].
  intros g G E. apply D1. rewrite <- E. apply in_map. apply (Permutation_in _ (Permutation_sym (sort_perm l))). exact G.
Qed.
Lemma flt_trans : forall X (a b c : bytes * X), flt a b -> flt b c -> flt a c. Proof. intros X a b c. apply lt_trans. Qed.
Lemma flt_irrefl : forall X (a : bytes * X), ~ flt a a. Proof. intros X a. apply lt_irrefl. Qed.
Lemma nodup_filter_names : forall X (f : bytes * X -> bool) l, NoDup (map fst l) -> NoDup (map fst (filter f l)).
Proof.
  intros X f. induction l as [|a l IH]; intros D; cbn; [constructor|]. cbn in D. inversion D as [|? ? D1 D2]; subst. destruct (f a); [|apply IH; exact D2].
  cbn. constructor; [|apply IH; exact D2]. intros C. apply D1. apply in_map_iff in C. destruct C as [y [E Y]]. rewrite <- E. apply in_map. apply filter_In in Y. tauto.
Qed.

Lemma one_content : forall X (l : list (bytes * X)) n a b, NoDup (map fst l) -> In (n, a) l -> In (n, b) l -> a = b.
Proof.
  intros X. induction l as [|[n' o'] l IH]; intros n a b D F C; [destruct F|]. cbn in D. inversion D as [|? ? D1 D2]; subst.
  destruct F as [F|F], C as [C|C]; [congruence| | |exact (IH n a b D2 F C)].
  - injection F as -> ->. exfalso. apply D1. apply in_map_iff. exists (n, b). split; [reflexivity|exact C].
  - injection C as -> ->. exfalso. apply D1. apply in_map_iff. exists (n, a). split; [reflexivity|exact F].
Qed.
Section Run.
  Context {Hdr Blk St Root T : Type} (root_eqb : Root -> Root -> bool) (root_ok : forall a b, root_eqb a b = true <-> a = b) (hdr : Blk -> Hdr)
    (dg : bytes -> option (@gcase Hdr St Root)) (dc : bytes -> option (@tcase Blk St Root)) (tgt : T -> @tmsg Hdr Blk St -> T * @trep Root).
  Notation bins dir := (file_sort (filter (fun f : file => is_bin (fst f)) dir)).
  Lemma bins_in : forall dir f, In f (bins dir) <-> In f dir /\ bin_name (fst f).
  Proof. intros dir f. rewrite <- bin_iff. transitivity (In f (filter (fun f : file => is_bin (fst f)) dir)); [|apply filter_In]. split; apply Permutation_in; [apply Permutation_sym|]; apply sort_perm. Qed.
  Lemma bins_sorted : forall dir, NoDup (map fst dir) -> StronglySorted flt (bins dir).
  Proof. intros dir D. apply sort_sorted. apply nodup_filter_names. exact D. Qed.
  Lemma bins_same : forall dir dir', NoDup (map fst dir) -> Permutation dir dir' -> bins dir = bins dir'.
  Proof.
    intros dir dir' D P. apply (sorted_unique flt (flt_trans _) (flt_irrefl _)); [apply bins_sorted; exact D|apply bins_sorted; eapply Permutation_NoDup; [apply Permutation_map; exact P|exact D]|].
    intros f. rewrite !bins_in. split; intros [A B]; (split; [|exact B]); eapply Permutation_in; [exact P|exact A|apply Permutation_sym; exact P|exact A].
  Qed.
  Lemma run_same : forall dir dir' t, NoDup (map fst dir) -> Permutation dir dir' -> run_trace root_eqb hdr dg dc tgt dir t = run_trace root_eqb hdr dg dc tgt dir' t.
  Proof. intros dir dir' t D P. unfold run_trace, load_trace_suite. rewrite (bins_same dir dir' D P). reflexivity. Qed.

  (** Loading: the files read one by one. *)
  Definition loads (l : list file) (cs : list (bytes * @tcase Blk St Root)) : Prop :=
    Forall2 (fun f c => fst f = fst c /\ exists b, snd f = Some b /\ dc b = Some (snd c)) (filter (fun f : file => if list_eq_dec N.eq_dec (fst f) genesis_name then false else true) l) cs.
  Lemma load_ok : forall l g cs g' cs', load_files dg dc l g cs = Ok (g', cs') ->
    exists new, cs' = cs ++ new /\ loads l new /\
      (forall f, In f l -> fst f = genesis_name -> exists b x, snd f = Some b /\ dg b = Some x) /\
      ((g' = g /\ (forall f, In f l -> fst f <> genesis_name)) \/ exists b x, In (genesis_name, Some b) l /\ dg b = Some x /\ g' = Some (genesis_name, x)).
  Proof.
    induction l as [|[n c] l IH]; intros g cs g' cs' E; cbn [load_files] in E.
    - injection E as <- <-. exists []. rewrite app_nil_r. split; [reflexivity|]. split; [constructor|]. split; [intros f []|]. left. split; [reflexivity|intros f []].
    - unfold loads. cbn [filter fst]. destruct (list_eq_dec N.eq_dec n genesis_name) as [->|Nq].
      + destruct c as [b|]; [|discriminate]. destruct (dg b) as [x|] eqn:X; [|discriminate]. destruct (IH _ _ _ _ E) as [new [A [B [C D]]]].
        exists new. split; [exact A|]. split; [exact B|]. split.
        * intros f [<-|F] G; [exists b, x; split; [reflexivity|exact X]|exact (C f F G)].
        * right. destruct D as [[-> D]|[b' [x' [D1 [D2 D3]]]]]; [exists b, x; split; [left; reflexivity|split; [exact X|reflexivity]]|exists b', x'; split; [right; exact D1|split; assumption]].
      + destruct c as [b|]; [|discriminate]. destruct (dc b) as [x|] eqn:X; [|discriminate]. destruct (IH _ _ _ _ E) as [new [A [B [C D]]]].
        exists ((n, x) :: new). split; [rewrite A, <- app_assoc; reflexivity|]. split; [constructor; [split; [reflexivity|exists b; split; [reflexivity|exact X]]|exact B]|].
        split; [intros f [<-|F] G; [contradiction|exact (C f F G)]|].
        destruct D as [[-> D]|[b' [x' [D1 [D2 D3]]]]]; [left; split; [reflexivity|intros f [<-|F]; [exact Nq|exact (D f F)]]|right; exists b', x'; split; [right; exact D1|split; assumption]].
  Qed.
  Lemma load_total : forall l g cs, (forall f, In f l -> if list_eq_dec N.eq_dec (fst f) genesis_name then exists b x, snd f = Some b /\ dg b = Some x else exists b x, snd f = Some b /\ dc b = Some x) ->
    exists g' cs', load_files dg dc l g cs = Ok (g', cs').
  Proof.
    induction l as [|[n c] l IH]; intros g cs A; [exists g, cs; reflexivity|]. cbn [load_files]. pose proof (A (n, c) (or_introl eq_refl)) as A0. cbn [fst snd] in A0.
    destruct (list_eq_dec N.eq_dec n genesis_name); destruct A0 as [b [x [-> B]]]; rewrite B; apply IH; intros f F; apply A; right; exact F.
  Qed.
  Lemma loads_sorted : forall l cs, StronglySorted flt l -> loads l cs -> StronglySorted flt cs.
  Proof.
    intros l cs S F. unfold loads in F.
    assert (S' : StronglySorted flt (filter (fun f : file => if list_eq_dec N.eq_dec (fst f) genesis_name then false else true) l)).
    { clear F. induction S as [|a l S IH F]; cbn; [constructor|]. destruct (list_eq_dec N.eq_dec (fst a) genesis_name); [exact IH|]. constructor; [exact IH|].
      rewrite Forall_forall in *. intros x X. apply F. apply filter_In in X. tauto. }
    revert S' F. generalize (filter (fun f : file => if list_eq_dec N.eq_dec (fst f) genesis_name then false else true) l). intros fl S' F. revert S'. induction F as [|f c fs cs [E _] F IH]; intros S'; [constructor|]. apply StronglySorted_inv in S'. destruct S' as [S1 F1]. constructor; [apply IH; exact S1|].
    clear IH S1. induction F as [|f' c' fs cs [E' _] F IH]; [constructor|]. inversion F1 as [|? ? G1 G2]; subst. constructor; [unfold flt in *; rewrite <- E, <- E'; exact G1|apply IH; exact G2].
  Qed.
  Lemma loads_in : forall l cs n c, loads l cs -> In (n, c) cs -> n <> genesis_name /\ exists b, In (n, Some b) l /\ dc b = Some c.
  Proof.
    intros l cs n c F I. unfold loads in F.
    assert (X : exists f, In f (filter (fun f : file => if list_eq_dec N.eq_dec (fst f) genesis_name then false else true) l) /\ fst f = n /\ exists b, snd f = Some b /\ dc b = Some c).
    { revert F. generalize (filter (fun f : file => if list_eq_dec N.eq_dec (fst f) genesis_name then false else true) l). intros fl F. induction F as [|f c' fs cs [E H] F IH]; [destruct I|]. destruct I as [->|I]; [exists f; split; [left; reflexivity|split; [exact E|exact H]]|].
      destruct (IH I) as [f' [A B]]. exists f'. split; [right; exact A|exact B]. }
    destruct X as [[n' o] [A [B [b [C D]]]]]. cbn in B, C. subst. apply filter_In in A. destruct A as [A A']. cbn [fst] in A'.
    destruct (list_eq_dec N.eq_dec n genesis_name); [discriminate|]. split; [assumption|]. exists b. split; assumption.
  Qed.
  Lemma loads_all : forall l cs n o, loads l cs -> In (n, o) l -> n <> genesis_name -> exists c b, In (n, c) cs /\ o = Some b /\ dc b = Some c.
  Proof.
    intros l cs n o F I Nq. unfold loads in F.
    assert (A : In (n, o) (filter (fun f : file => if list_eq_dec N.eq_dec (fst f) genesis_name then false else true) l)).
    { apply filter_In. split; [exact I|]. cbn [fst]. destruct (list_eq_dec N.eq_dec n genesis_name); [contradiction|reflexivity]. }
    revert F A. generalize (filter (fun f : file => if list_eq_dec N.eq_dec (fst f) genesis_name then false else true) l). intros fl F A. induction F as [|f [n' c'] fs cs [E [b [H1 H2]]] F IH]; [destruct A|]. destruct A as [->|A]; [cbn in E, H1; subst; exists c', b; split; [left; reflexivity|split; [reflexivity|exact H2]]|].
    destruct (IH A) as [c [b' [B C]]]. exists c, b'. split; [right; exact B|exact C].
  Qed.
  (** The loaded suite is the one of the specification. *)
  Lemma load_suite : forall dir g cs, NoDup (map fst dir) -> load_trace_suite dg dc dir = Ok (g, cs) ->
    cases_of dc dir cs /\ ((g = None /\ forall o, ~ In (genesis_name, o) dir) \/ exists b x, In (genesis_name, Some b) dir /\ dg b = Some x /\ g = Some (genesis_name, x)).
  Proof.
    intros dir g cs D E. unfold load_trace_suite in E. destruct (load_ok _ _ _ _ _ E) as [new [A [B [C F]]]]. cbn in A. subst new. split; [split; [|split]|].
    - exact (loads_sorted _ _ (bins_sorted dir D) B).
    - intros n c. split.
      + intros I. destruct (loads_in _ _ _ _ B I) as [N0 [b [X Y]]]. apply bins_in in X. cbn in X. split; [exact N0|]. split; [tauto|]. exists b. tauto.
      + intros [N0 [Z [b [X Y]]]]. destruct (loads_all _ _ n (Some b) B) as [c' [b' [I [Eb Dc]]]]; [apply bins_in; split; [exact X|exact Z]|exact N0|].
        injection Eb as <-. congruence.
    - intros n o I Z N0. destruct (loads_all _ _ n o B) as [c [b [X _]]]; [apply bins_in; split; [exact I|exact Z]|exact N0|]. exists c. exact X.
    - destruct F as [[-> F]|[b [x [X [Y Z]]]]].
      + left. split; [reflexivity|]. intros o I. apply (F (genesis_name, o)); [apply bins_in; split; [exact I|apply bin_iff; reflexivity]|reflexivity].
      + right. exists b, x. apply bins_in in X. tauto.
  Qed.
  Lemma cases_unique : forall dir cs cs', cases_of dc dir cs -> cases_of dc dir cs' -> cs = cs'.
  Proof.
    intros dir cs cs' [A [B _]] [A' [B' _]]. apply (sorted_unique flt (flt_trans _) (flt_irrefl _)); [exact A|exact A'|]. intros [n c]. rewrite B, B'. tauto.
  Qed.
  (** A directory whose files all decode loads. *)
  Lemma suite_loads : forall dir cs, NoDup (map fst dir) -> cases_of dc dir cs ->
    (forall o, In (genesis_name, o) dir -> exists b x, o = Some b /\ dg b = Some x) -> exists g, load_trace_suite dg dc dir = Ok (g, cs).
  Proof.
    intros dir cs D A G. unfold load_trace_suite. destruct (load_total (bins dir) None []) as [g [cs' E]].
    { intros [n o] F. apply bins_in in F. destruct F as [F Z]. cbn [fst snd] in *. destruct (list_eq_dec N.eq_dec n genesis_name) as [->|N0].
      - destruct (G o F) as [b [x [-> X]]]. exists b, x. split; [reflexivity|exact X].
      - destruct A as [_ [A1 A2]]. destruct (A2 n o F Z N0) as [c C]. apply A1 in C. destruct C as [_ [_ [b [C1 C2]]]].
        assert (X : o = Some b).
        { exact (one_content _ dir n o (Some b) D F C1). }
        exists b, c. split; assumption. }
    exists g. rewrite E. f_equal. f_equal. apply (cases_unique dir); [|exact A]. exact (proj1 (load_suite dir g cs' D E)).
  Qed.

  Lemma import_ok : forall cs t log t' log', import_cases root_eqb tgt t cs log = (t', Ok log') <->
    exists al, replies tgt t cs al t' /\ Forall2 agrees (map snd cs) al /\ log' = log ++ map fst cs.
  Proof.
    induction cs as [|[n c] cs IH]; intros t log t' log'; cbn [import_cases map fst snd].
    - split; [intros E; injection E as <- <-; exists []; split; [constructor|split; [constructor|symmetry; apply app_nil_r]]|].
      intros [al [R [F E]]]. inversion R; subst. rewrite app_nil_r. reflexivity.
    - destruct (tgt t (SendBlock (tc_block c))) as [t1 a] eqn:Et. split.
      + intros E. assert (X : agrees c a /\ import_cases root_eqb tgt t1 cs (log ++ [n]) = (t', Ok log')).
        { destruct a as [|x| |e|]; try discriminate.
          - destruct (root_eqb x (tc_post_root c)) eqn:Q; [|discriminate]. split; [apply root_ok; exact Q|exact E].
          - destruct (root_eqb (tc_pre_root c) (tc_post_root c)) eqn:Q; [|discriminate]. split; [apply root_ok; exact Q|exact E]. }
        destruct X as [X Y]. apply IH in Y. destruct Y as [al [R [F ->]]]. exists (a :: al). split; [econstructor; [exact Et|exact R]|]. split; [constructor; assumption|].
        rewrite <- app_assoc. reflexivity.
      + intros [al [R [F ->]]]. inversion R as [|n0 c0 cs0 a0 al0 t2 t3 E1 R1]; subst. rewrite Et in E1. injection E1 as <- <-. inversion F as [|? ? ? ? G1 G2]; subst.
        assert (Y : import_cases root_eqb tgt t1 cs (log ++ [n]) = (t', Ok (log ++ n :: map fst cs))).
        { apply IH. exists al0. split; [exact R1|]. split; [exact G2|]. rewrite <- app_assoc. reflexivity. }
        destruct a as [|x| |e|]; try (destruct G1; fail); cbn in G1.
        * rewrite (proj2 (root_ok _ _) G1). exact Y.
        * rewrite (proj2 (root_ok _ _) G1). exact Y.
  Qed.
  Lemma import_err : forall cs t log t' e, import_cases root_eqb tgt t cs log = (t', Err e) ->
    exists before n c after al t1 t2 a, cs = before ++ (n, c) :: after /\ replies tgt t before al t1 /\ Forall2 agrees (map snd before) al /\
      tgt t1 (SendBlock (tc_block c)) = (t2, a) /\ ~ agrees c a /\ (e = RootDiffers n \/ e = Rejected n \/ e = BadReply n) /\
      (t' = t2 \/ t' = fst (tgt t2 (SendGetState (tc_block c)))).
  Proof.
    induction cs as [|[n c] cs IH]; intros t log t' e E; cbn [import_cases] in E; [discriminate|].
    destruct (tgt t (SendBlock (tc_block c))) as [t1 a] eqn:Et.
    assert (X : (agrees c a /\ import_cases root_eqb tgt t1 cs (log ++ [n]) = (t', Err e)) \/
                (~ agrees c a /\ (e = RootDiffers n \/ e = Rejected n \/ e = BadReply n) /\ (t' = t1 \/ t' = fst (tgt t1 (SendGetState (tc_block c)))))).
    { destruct a as [|x| |er|].
      - right. injection E as <- <-. split; [intros []|auto].
      - destruct (root_eqb x (tc_post_root c)) eqn:Q; [left; split; [apply root_ok; exact Q|exact E]|]. right. injection E as <- <-. split; [|auto].
        intros A. apply root_ok in A. congruence.
      - right. injection E as <- <-. split; [intros []|auto].
      - destruct (root_eqb (tc_pre_root c) (tc_post_root c)) eqn:Q; [left; split; [apply root_ok; exact Q|exact E]|]. right. injection E as <- <-. split; [|auto].
        intros A. apply root_ok in A. congruence.
      - right. injection E as <- <-. split; [intros []|auto]. }
    destruct X as [[A X]|[A [B C]]].
    - destruct (IH _ _ _ _ X) as (before & n' & c' & after & al & t2 & t3 & a' & -> & R & F & G). exists ((n, c) :: before), n', c', after, (a :: al), t2, t3, a'.
      split; [reflexivity|]. split; [econstructor; [exact Et|exact R]|]. split; [constructor; assumption|exact G].
    - exists [], n, c, cs, [], t, t1, a. split; [reflexivity|]. split; [constructor|]. split; [constructor|]. split; [exact Et|]. split; [exact A|]. split; [exact B|exact C].
  Qed.
  Lemma import_no_panic : forall cs t log, snd (import_cases root_eqb tgt t cs log) <> Panic.
  Proof.
    induction cs as [|[n c] cs IH]; intros t log; cbn [import_cases]; [discriminate|]. destruct (tgt t (SendBlock (tc_block c))) as [t1 [|x| |e|]]; try discriminate.
    - destruct (root_eqb x (tc_post_root c)); [apply IH|discriminate].
    - destruct (root_eqb (tc_pre_root c) (tc_post_root c)); [apply IH|discriminate].
  Qed.
  (** What follows loading. *)
  Definition session (t : T) (h : Hdr) (s : St) (r : Root) (cs : list (bytes * @tcase Blk St Root)) : T * result trerr (list bytes) :=
    match tgt t SendPeerInfo with
    | (t1, GotPeerInfo) => match tgt t1 (SendInit h s) with (t2, GotRoot x) => if root_eqb x r then import_cases root_eqb tgt t2 cs [] else (t2, Err InitRootDiffers) | (t2, _) => (t2, Err BadInit) end
    | (t1, _) => (t1, Err BadHandshake)
    end.
  Lemma run_session : forall dir t, NoDup (map fst dir) ->
    (exists h s r cs, suite hdr dg dc dir h s r cs /\ run_trace root_eqb hdr dg dc tgt dir t = session t h s r cs) \/
    ((forall h s r cs, ~ suite hdr dg dc dir h s r cs) /\ exists e, run_trace root_eqb hdr dg dc tgt dir t = (t, Err e) /\ (e = TooFewCases \/ exists n, e = BadFile n)).
  Proof.
    intros dir t D. unfold run_trace. destruct (load_trace_suite dg dc dir) as [[g cs]|e|] eqn:E.
    - destruct (load_suite dir g cs D E) as [A B]. cbn [fst snd]. destruct B as [[-> B]|[b [x [B1 [B2 ->]]]]].
      + destruct cs as [|[n c] [|c2 cs]].
        * right. split; [|exists TooFewCases; split; [reflexivity|left; reflexivity]]. intros h s r cs [(b & g & X & _)|[_ (n & c & X & _)]]; [exact (B _ X)|].
          pose proof (cases_unique _ _ _ A X). discriminate.
        * right. split; [|exists TooFewCases; split; [reflexivity|left; reflexivity]]. intros h s r cs [(b & g & X & _)|[_ (n' & c' & X & _ & _ & _ & Y)]]; [exact (B _ X)|].
          pose proof (cases_unique _ _ _ A X) as Q. injection Q as _ _ Q. congruence.
        * left. exists (hdr (tc_block c)), (tc_post c), (tc_post_root c), (c2 :: cs). split; [|reflexivity]. right. split; [exact B|]. exists n, c. split; [exact A|]. split; [reflexivity|]. split; [reflexivity|]. split; [reflexivity|]. discriminate.
      + destruct cs as [|c cs].
        * right. split; [|exists TooFewCases; split; [reflexivity|left; reflexivity]]. intros h s r cs [(b' & g & _ & _ & _ & _ & _ & X & Y)|[X _]]; [|exact (X _ B1)].
          pose proof (cases_unique _ _ _ A X). congruence.
        * left. exists (gc_header x), (gc_state x), (gc_root x), (c :: cs). split; [|reflexivity]. left. exists b, x. split; [exact B1|]. split; [exact B2|]. split; [reflexivity|]. split; [reflexivity|]. split; [reflexivity|]. split; [exact A|]. discriminate.
    - right. split.
      + intros h s r cs S.
        assert (X : exists cs', cases_of dc dir cs' /\ forall o, In (genesis_name, o) dir -> exists b x, o = Some b /\ dg b = Some x).
        { destruct S as [(b & g & X1 & X2 & _ & _ & _ & X & _)|[X1 (n & c & X & _)]].
          - exists cs. split; [exact X|]. intros o O. exists b, g. split; [|exact X2].
            exact (one_content _ dir genesis_name o (Some b) D O X1).
          - exists ((n, c) :: cs). split; [exact X|]. intros o O. destruct (X1 o O). }
        destruct X as [cs' [X Y]]. destruct (suite_loads dir cs' D X Y) as [g Z]. congruence.
      + exists e. split; [reflexivity|]. right. unfold load_trace_suite in E. clear - E. revert E. generalize (@None (bytes * @gcase Hdr St Root)) as g, (@nil (bytes * @tcase Blk St Root)) as cs.
        induction (bins dir) as [|[n c] l IH]; intros g cs E; cbn [load_files] in E; [discriminate|].
        destruct (list_eq_dec N.eq_dec n genesis_name), c as [b|]; try (injection E as <-; eexists; reflexivity).
        * destruct (dg b); [exact (IH _ _ E)|injection E as <-; eexists; reflexivity].
        * destruct (dc b); [exact (IH _ _ E)|injection E as <-; eexists; reflexivity].
    - exfalso. unfold load_trace_suite in E. clear - E. revert E. generalize (@None (bytes * @gcase Hdr St Root)) as g, (@nil (bytes * @tcase Blk St Root)) as cs.
      induction (bins dir) as [|[n c] l IH]; intros g cs E; cbn [load_files] in E; [discriminate|].
      destruct (list_eq_dec N.eq_dec n genesis_name), c as [b|]; try discriminate; [destruct (dg b)|destruct (dc b)]; try discriminate; exact (IH _ _ E).
  Qed.
  Lemma suite_unique : forall dir h s r cs h' s' r' cs', NoDup (map fst dir) -> suite hdr dg dc dir h s r cs -> suite hdr dg dc dir h' s' r' cs' -> h = h' /\ s = s' /\ r = r' /\ cs = cs'.
  Proof.
    intros dir h s r cs h' s' r' cs' D [(b & g & A1 & A2 & -> & -> & -> & A & _)|[A1 (n & c & A & -> & -> & -> & _)]] [(b' & g' & B1 & B2 & -> & -> & -> & B & _)|[B1 (n' & c' & B & -> & -> & -> & _)]].
    - assert (b = b').
      { pose proof (one_content _ dir genesis_name _ _ D A1 B1). congruence. }
      subst b'. rewrite A2 in B2. injection B2 as <-. repeat split; try reflexivity. exact (cases_unique _ _ _ A B).
    - destruct (B1 _ A1).
    - destruct (A1 _ B1).
    - pose proof (cases_unique _ _ _ A B) as Q. injection Q as -> -> ->. repeat split; reflexivity.
  Qed.
End Run.
