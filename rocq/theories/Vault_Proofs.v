From Verif Require Import Base Base_Proofs StateKeys_Model StateKeys_Spec StateKeys_Proofs Trie_Model Trie_Spec TrieCodec_Proofs StateCache_Model StateCache_Spec StateCache_Proofs Block_Model Comp_Model Comp_Spec Comp_Proofs Comp2_Proofs Vault_Model Vault_Spec.
From Coq Require Import Lia Permutation.

Section V.
  Variable H : bytes -> bytes.
  Hypothesis H32 : forall x, length (H x) = 32%nat /\ Bytes (H x).
  Variable P : params.
  Variable Z : msizes.
  Variable POOL HISTORY QUEUE : nat.
  Variable L : list item.
  Hypothesis L_ok : forall i, In i L -> item_ok i /\ plain i.
  Hypothesis L_sep : forall i j, In i L -> In j L -> ~ StateKeys_Spec.clash H i j.
  Notation V := (entry P).
  Notation place := (place H).
  Notation enc := (octets_of P Z POOL HISTORY QUEUE).
  Notation belongs := (belongs P Z POOL HISTORY QUEUE).

  Lemma H_len : forall x, length (H x) = 32%nat. Proof. intro x. apply H32. Qed.
  Lemma key_same : forall i, key_at H i = key_of H i. Proof. destruct i; reflexivity. Qed.
  Lemma nth_byte : forall l n, Bytes l -> is_byte (nth n l 0).
  Proof. intros l n B. destruct (nth_in_or_default n l 0) as [I| ->]; [apply (proj1 (Forall_forall _ _) B); exact I|reflexivity]. Qed.
  Lemma key_octets : forall i, item_ok i -> Bytes (key_at H i) /\ length (key_at H i) = 31%nat.
  Proof.
    intros i O. split; [|rewrite key_same; apply (keys_exact H H_len i O)].
    assert (KI : forall s x, Bytes (item_key H s x)).
    { intros s x. rewrite (item_eq H). repeat (apply Forall_cons; [first [apply nth_byte; apply le_bytes_Bytes | apply nth_byte; apply H32]|]). apply Forall_firstn, Forall_skipn, H32. }
    destruct i; cbn [key_at]; try apply KI.
    - cbn in O. rewrite chapter_cases by exact O. apply Forall_cons; [unfold is_byte; lia|]. apply Forall_forall. intros y Y. apply repeat_spec in Y. subst y. reflexivity.
    - rewrite metadata_eq. repeat (apply Forall_cons; [first [reflexivity | apply nth_byte; apply le_bytes_Bytes]|]). apply Forall_nil.
  Qed.
  Lemma place_len : forall i, In i L -> a_key (place i).
  Proof. intros i I. unfold a_key, Vault_Model.place. rewrite bits_length. destruct (key_octets i (proj1 (L_ok i I))) as (_ & ->). reflexivity. Qed.
  Lemma place_inj : forall i j, In i L -> In j L -> place i = place j -> i = j.
  Proof.
    intros i j I J E. apply (f_equal unbits) in E. unfold Vault_Model.place in E. destruct (L_ok i I) as (Oi & Pi). destruct (L_ok j J) as (Oj & Pj).
    rewrite !unbits_bits in E by (apply key_octets; assumption). rewrite !key_same in E. destruct (keys_distinct H H_len i j Oi Oj Pi Pj E) as [X|X]; auto. destruct (L_sep i j I J X).
  Qed.

  Lemma kinds : forall i, item_ok i -> sort_at i = kind i.
  Proof.
    intros i O. destruct i; try reflexivity. cbn in O. assert (X : exists n, (1 <= n <= 16)%nat /\ i = N.of_nat n) by (exists (N.to_nat i); lia). destruct X as (n & Hn & ->). clear O.
    do 17 (destruct n as [|n]; [first [reflexivity|lia]|]). lia.
  Qed.
  Lemma belongs_enc : forall i e, item_ok i -> belongs i e -> exists o, enc e = o /\ write_entry P Z POOL HISTORY QUEUE e = Ok o /\ gp_entry e o /\ read_at P Z POOL HISTORY QUEUE i o = Some e.
  Proof.
    intros i e O (He & S). destruct (read_back_all P Z POOL HISTORY QUEUE e He) as (o & W & _ & R). exists o. unfold octets_of, read_at. rewrite W. split; auto. split; auto.
    split; [apply (entry_writes P Z POOL HISTORY QUEUE); auto|]. rewrite (kinds i O), <- S, R. reflexivity.
  Qed.

  Definition dec (k : path) (b : bytes) : option V :=
    match find (fun i => path_eqb (place i) k) L with Some i => read_at P Z POOL HISTORY QUEUE i b | None => None end.
  Lemma peqb : forall a b, path_eqb a b = true <-> a = b.
  Proof. intros a b. unfold path_eqb. destruct (list_eq_dec Bool.bool_dec a b); split; congruence. Qed.
  Lemma dec_at : forall i b, In i L -> dec (place i) b = read_at P Z POOL HISTORY QUEUE i b.
  Proof.
    intros i b I. unfold dec. destruct (find (fun i0 => path_eqb (place i0) (place i)) L) as [j|] eqn:F.
    - apply find_some in F. destruct F as (J & E). apply peqb in E. apply place_inj in E; auto. subst j. reflexivity.
    - apply (find_none _ _ F) in I. cbv beta in I. assert (X : path_eqb (place i) (place i) = true) by (apply peqb; reflexivity). congruence.
  Qed.
  Lemma ok_at : forall i e, In i L -> belongs i e -> ok enc dec (place i) e.
  Proof. intros i e I B. unfold ok. destruct (belongs_enc i e (proj1 (L_ok i I)) B) as (o & -> & _ & _ & R). rewrite dec_at by exact I. exact R. Qed.

  (** ** One call is one operation *)
  Definition item_in (c : call P) : Prop := forall i, item_of P c = Some i -> In i L.
  Lemma get_ext : forall d1 d2 s k, (forall b, d1 k b = d2 k b) -> get (V := V) d1 s k = get d2 s k.
  Proof.
    intros d1 d2 s k E. assert (X : lookup (V := V) d1 s k = lookup d2 s k).
    { unfold lookup. destruct (cget (m_cache s) k) as [e|]; [destruct (c_status e); auto; destruct (c_value e); auto; rewrite E; reflexivity|].
      destruct (retrieve s k) as [[b|]| |]; auto. rewrite E. reflexivity. }
    unfold get. rewrite X. reflexivity.
  Qed.
  Lemma step_ext : forall w c, item_in c -> step H enc (decoder P Z POOL HISTORY QUEUE c) w (lower H P c) = step H enc dec w (lower H P c).
  Proof.
    intros w c I. assert (E : forall i, item_of P c = Some i -> forall b, decoder P Z POOL HISTORY QUEUE c (place i) b = dec (place i) b).
    { intros i X b. unfold decoder. rewrite X. symmetry. apply dec_at. apply I. exact X. }
    destruct c; cbn [lower step] in *; try reflexivity; specialize (E i eq_refl).
    - rewrite (get_ext _ dec _ _ E). reflexivity.
    - unfold get_clean. destruct (match cget (m_cache (x_sm w)) (place i) with Some e => match c_clean e with Typed v => Some v | Raw _ => None end | None => None end); auto.
      destruct (retrieve (x_sm w) (place i)) as [[b|]| |]; auto. rewrite E. reflexivity.
    - unfold add. rewrite (get_ext _ dec _ _ E). reflexivity.
    - unfold with_mut. rewrite (get_ext _ dec _ _ E). reflexivity.
    - unfold with_mut. rewrite (get_ext _ dec _ _ E). reflexivity.
  Qed.
  Fixpoint relabel (l : list (call P)) (a : list (answer (V := V))) : list (answer (V := V)) :=
    match l, a with c :: l', x :: a' => typed P c x :: relabel l' a' | _, _ => [] end.
  Lemma calls_run : forall l w, Forall item_in l -> calls H P Z POOL HISTORY QUEUE w l = relabel l (snd (run H enc dec w (map (lower H P) l))).
  Proof.
    induction l as [|c l IH]; intros w F; [reflexivity|]. apply Forall_cons_iff in F. destruct F as (F1 & F2). cbn [calls map run]. unfold do_call. rewrite step_ext by exact F1.
    destruct (step H enc dec w (lower H P c)) as [w1 a]. rewrite (IH w1 F2). destruct (run H enc dec w1 (map (lower H P) l)) as [w2 r]. reflexivity.
  Qed.

  (** ** The map of items and the map of keys *)
  Definition rel (m : imap P) (f : path -> option V) : Prop :=
    (forall i, In i L -> f (place i) = m i) /\ (forall i, ~ In i L -> m i = None) /\ (forall k, (forall i, In i L -> k <> place i) -> f k = None) /\ forall i e, m i = Some e -> belongs i e.
  Lemma rel_some : forall m f k x, rel m f -> f k = Some x -> exists i, In i L /\ k = place i /\ m i = Some x.
  Proof.
    intros m f k x (A & _ & C & _) E. destruct (in_dec (list_eq_dec Bool.bool_dec) k (map place L)) as [I|NI].
    - apply in_map_iff in I. destruct I as (i & <- & I). exists i. rewrite A in E by exact I. auto.
    - rewrite C in E; [discriminate|]. intros i I ->. apply NI. apply in_map. exact I.
  Qed.
  Lemma rel_in : forall m f i x, rel m f -> m i = Some x -> In i L.
  Proof. intros m f i x (_ & B & _) E. destruct (in_dec item_eq_dec i L) as [I|I]; auto. rewrite B in E by exact I. discriminate. Qed.
  Lemma rel_put : forall m f i o, rel m f -> In i L -> (forall e, o = Some e -> belongs i e) -> rel (with_item P m i o) (put f (place i) o).
  Proof.
    intros m f i o (A & B & C & D) I O. unfold with_item, put. split; [|split; [|split]].
    - intros j J. destruct (list_eq_dec Bool.bool_dec (place j) (place i)) as [E|E]; destruct (item_eq_dec j i) as [E'|E']; auto.
      + destruct E'. apply place_inj; auto.
      + subst j. destruct E. reflexivity.
    - intros j J. destruct (item_eq_dec j i) as [->|]; [destruct (J I)|auto].
    - intros k K. destruct (list_eq_dec Bool.bool_dec k (place i)) as [->|]; [destruct (K i I); reflexivity|auto].
    - intros j e. destruct (item_eq_dec j i) as [->|]; auto.
  Qed.
  Lemma rel_nothing : rel (fun _ => None) (fun _ => None).
  Proof. repeat split; auto. discriminate. discriminate. Qed.
  Definition sim (b : book P) (v : view (V := V)) : Prop :=
    rel (b_kept P b) (committed v) /\ rel (b_now P b) (working v) /\
    match b_staged P b, staged v with Some m, Some f => rel m f | None, None => True | _, _ => False end /\
    touched v = map place (b_touched P b) /\ (forall i, In i (b_touched P b) -> In i L) /\ raws v = [] /\ reads v = [].
  Lemma sim_start : sim (blank P) fresh.
  Proof. repeat split; auto; try discriminate. intros i []. Qed.
  Lemma sim_change : forall b v i o, sim b v -> In i L -> (forall e, o = Some e -> belongs i e) -> sim (Vault_Spec.change P b i o) (StateCache_Spec.change v (place i) o).
  Proof.
    intros b v i o (K & N & S & T & TI & R & RD) I O. unfold Vault_Spec.change, StateCache_Spec.change, sim. cbn. split; [exact K|]. split; [apply rel_put; auto|]. split; [exact S|].
    split; [rewrite T; reflexivity|]. split; [intros j [<-|J]; auto|]. auto.
  Qed.
  Lemma sim_after : forall b v c, sim b v -> item_in c -> proper P Z POOL HISTORY QUEUE b c -> sim (after P b c) (next dec v (lower H P c)).
  Proof.
    intros b v c SM II PR. pose proof SM as (K & N & S & T & TI & R & RD). destruct c; cbn [after next lower]; auto.
    - pose proof (II i eq_refl) as I. rewrite (proj1 N i I). destruct (b_now P b i) eqn:E; auto. apply sim_change; auto. intros x X. injection X as <-. apply PR.
    - pose proof (II i eq_refl) as I. rewrite (proj1 N i I). destruct (b_now P b i) as [x|] eqn:E; auto. destruct (f x) as [y|] eqn:F; auto. apply sim_change; auto. intros z X. injection X as <-. apply (PR x y); auto.
    - pose proof (II i eq_refl) as I. rewrite (proj1 N i I). destruct (b_now P b i) as [x|] eqn:E; auto. apply sim_change; auto. intros z X. discriminate.
    - unfold sim. cbn. split; [exact N|]. split; [exact N|]. split; [exact S|]. split; [reflexivity|]. split; [intros i []|]. auto.
    - unfold sim. cbn. split; [exact K|]. split; [exact K|]. split; [exact S|]. split; [reflexivity|]. split; [intros i []|]. auto.
    - unfold sim. cbn. split; [exact K|]. split; [exact K|]. split; [|split; [reflexivity|]; split; [intros i []|]; auto].
      rewrite T. destruct (b_touched P b); cbn; [exact I|exact N].
    - destruct (b_staged P b) as [m|] eqn:E; destruct (staged v) as [f|] eqn:E'; try contradiction; auto.
      unfold sim. cbn. split; [exact S|]. split; [exact S|]. split; [exact I|]. split; [reflexivity|]. split; [intros i []|]. auto.
  Qed.
  Lemma sim_tidy : forall b v c, sim b v -> item_in c -> proper P Z POOL HISTORY QUEUE b c -> tidy enc dec v (lower H P c).
  Proof.
    intros b v c SM II PR. pose proof SM as (K & N & S & T & TI & R & RD).
    assert (KP : some_stay P b -> keeps v).
    { intros [A|(i & A & B)].
      - left. intros k C. destruct (committed v k) as [x|] eqn:E; [|congruence]. destruct (rel_some _ _ _ _ K E) as (i & I & -> & X). rewrite (proj1 N i I). apply A. congruence.
      - right. exists (place i). destruct (b_kept P b i) as [x|] eqn:E; [|congruence]. pose proof (rel_in _ _ _ _ K E) as I. rewrite (proj1 N i I), (proj1 K i I). split; [congruence|exact B]. }
    destruct c; cbn [lower tidy proper] in *; try exact I; rewrite ?R; try (pose proof (II i eq_refl) as HI; rewrite ?(proj1 N i HI), ?(proj1 K i HI)).
    - intros [].
    - split; [intros []|exact PR].
    - split; [intros []|]. split; [apply place_len; exact HI|]. split; [apply ok_at; [exact HI|apply PR]|apply PR].
    - split; [intros []|]. split; [apply place_len; exact HI|]. intros x y X Y. apply ok_at; [exact HI|]. apply (PR x y); auto.
    - split; [intros []|]. split; [apply place_len; exact HI|exact PR].
    - rewrite T. intro X. apply in_map_iff in X. destruct X as (j & E & J). apply PR. apply place_inj in E; auto. subst j. exact J.
    - destruct PR as (A & B & C). split; [exact A|]. split; [auto|]. rewrite T. intro X. destruct (b_touched P b) as [|t r] eqn:E; [destruct X; reflexivity|].
      specialize (C ltac:(discriminate)). rewrite C in S. destruct (staged v); [contradiction|reflexivity].
    - destruct PR as (A & B). auto.
    - rewrite T, PR. reflexivity.
  Qed.
  Lemma choose2 : forall (A B : Type) (R : A -> B -> Prop) d, (forall y, In y d -> exists x, R x y) -> exists xs, Forall2 R xs d.
  Proof.
    induction d as [|y d IH]; intro F; [exists []; constructor|]. destruct (F y (or_introl eq_refl)) as (x & X). destruct IH as (xs & Y); [intros z Z0; apply F; right; exact Z0|]. exists (x :: xs). constructor; auto.
  Qed.
  Lemma forall2_in : forall (A B : Type) (R : A -> B -> Prop) xs d, Forall2 R xs d -> (forall x, In x xs -> exists y, In y d /\ R x y) /\ (forall y, In y d -> exists x, In x xs /\ R x y).
  Proof.
    intros A B R xs d F. induction F as [|x y xs d X F (I1 & I2)]; [split; intros ? []|]. split.
    - intros z [<-|Z0]; [exists y; split; [left|]; auto|]. destruct (I1 z Z0) as (q & Q & Q'). exists q. split; [right|]; auto.
    - intros z [<-|Z0]; [exists x; split; [left|]; auto|]. destruct (I2 z Z0) as (q & Q & Q'). exists q. split; [right|]; auto.
  Qed.
  Lemma root_items : forall m f r, rel m f -> root_of H enc f r -> root_of_items H P m r.
  Proof.
    intros m f r RL (d & (ND & D) & ->).
    destruct (choose2 (item * V) (path * bytes) (fun x y => In (fst x) L /\ m (fst x) = Some (snd x) /\ fst y = place (fst x) /\ snd y = enc (snd x)) d) as (xs & F).
    { intros (k, o) Y. apply D in Y. unfold encoded in Y. destruct (f k) as [e|] eqn:E; [|discriminate]. cbn in Y. injection Y as <-.
      destruct (rel_some _ _ _ _ RL E) as (i & I & -> & M). exists (i, e). cbn. auto. }
    exists xs, d. pose proof (forall2_in _ _ _ _ _ F) as (F1 & F2). split; [|split; [|split; [|reflexivity]]].
    - assert (X : map fst d = map place (map fst xs)). { clear -F. induction F as [|x y xs d X F IH]; [reflexivity|]. cbn. rewrite IH. f_equal. apply X. }
      rewrite X in ND. apply NoDup_map_inv in ND. exact ND.
    - intros i e. split.
      + intro X. destruct (F1 _ X) as (y & _ & _ & M & _). exact M.
      + intro M. pose proof (rel_in _ _ _ _ RL M) as I. assert (Y : In (place i, enc e) d). { apply D. unfold encoded. rewrite (proj1 RL i I), M. reflexivity. }
        destruct (F2 _ Y) as ((j, e') & X & J & M' & E & _). cbn in J, M', E. apply place_inj in E; auto. subst j. rewrite M in M'. injection M' as <-. exact X.
    - assert (B : forall i e, m i = Some e -> belongs i e) by apply RL. clear -F B L_ok H32. induction F as [|x y xs d (I & M & E1 & E2) F IH]; constructor; auto. split.
      + exists (key_at H (fst x)). split; [rewrite key_same; apply keys_exact; [exact H_len|apply L_ok; exact I]|exact E1].
      + destruct (belongs_enc _ _ (proj1 (L_ok _ I)) (B _ _ M)) as (o & W & _ & G & _). rewrite E2, W. exact G.
  Qed.
  Lemma sim_answer : forall b v c a, sim b v -> item_in c -> expects H enc v (lower H P c) a -> answered H P b c (typed P c a).
  Proof.
    intros b v c a SM II E. pose proof SM as (K & N & S & T & TI & R & RD).
    assert (SH : forall i m f, In i L -> rel m f -> forall c, c = Look P i \/ c = LookClean P i -> typed P c (Value (f (place i))) = shown P i (m i)).
    { intros i m f I RL c0 C. rewrite (proj1 RL i I). destruct (m i) as [e|] eqn:X; [|destruct C as [->| ->]; destruct i; reflexivity].
      assert (Y : sort_of P e = sort_at i) by (apply RL in X; rewrite (kinds i (proj1 (L_ok i I))); apply X).
      destruct C as [->| ->]; destruct i; cbn [typed shown]; (destruct (sort_eq_dec _ _) as [Q|Q]; [reflexivity|destruct (Q Y)]). }
    destruct c; cbn [lower expects answered] in *; try (pose proof (II i eq_refl) as HI; rewrite ?(proj1 N i HI) in E).
    - subst a. rewrite <- (proj1 N i HI) at 1. apply (SH i _ _ HI N); auto.
    - subst a. apply (SH i _ _ HI K); auto.
    - subst a. cbn [typed]. reflexivity.
    - subst a. cbn [typed]. reflexivity.
    - subst a. reflexivity.
    - subst a. reflexivity.
    - subst a. reflexivity.
    - subst a. reflexivity.
    - rewrite T in E. destruct (b_touched P b); cbn in E; [subst a; reflexivity|]. destruct E as (r & -> & X). exists r. split; [reflexivity|]. apply (root_items _ _ _ N X).
    - subst a. cbn [typed]. destruct (b_staged P b), (staged v); try contradiction; reflexivity.
    - destruct E as (r & -> & X). exists r. split; [reflexivity|]. apply (root_items _ _ _ K X).
  Qed.
  Lemma conforms_faithful : forall l b v a, sim b v -> Forall item_in l -> all_proper P Z POOL HISTORY QUEUE b l -> conforms H enc dec v (map (lower H P) l) a -> faithful H P b l (relabel l a).
  Proof.
    induction l as [|c l IH]; intros b v a SM F PR C; [exact I|]. destruct a as [|x a]; [destruct C|]. apply Forall_cons_iff in F. destruct F as (F1 & F2). cbn in PR, C. destruct PR as (P1 & P2). destruct C as (C1 & C2).
    cbn. split; [apply (sim_answer b v); auto|]. apply (IH _ (next dec v (lower H P c))); auto. apply sim_after; auto.
  Qed.
  Lemma proper_tidy : forall l b v, sim b v -> Forall item_in l -> all_proper P Z POOL HISTORY QUEUE b l -> tidy_run enc dec v (map (lower H P) l).
  Proof.
    induction l as [|c l IH]; intros b v SM F PR; [exact I|]. apply Forall_cons_iff in F. destruct F as (F1 & F2). cbn in PR. destruct PR as (P1 & P2). cbn. split; [apply (sim_tidy b); auto|]. apply (IH (after P b c)); auto. apply sim_after; auto.
  Qed.
  Lemma views_books : forall l b v, sim b v -> Forall item_in l -> all_proper P Z POOL HISTORY QUEUE b l -> forall v', In v' (views dec v (map (lower H P) l)) -> exists b', In b' (books P b l) /\ sim b' v'.
  Proof.
    induction l as [|c l IH]; intros b v SM F PR v' V'; cbn in V'; destruct V' as [<-|V'].
    - exists b. split; [left; reflexivity|exact SM].
    - destruct V'.
    - exists b. split; [left; reflexivity|exact SM].
    - apply Forall_cons_iff in F. destruct F as (F1 & F2). cbn in PR. destruct PR as (P1 & P2). destruct (IH (after P b c) _ (sim_after _ _ _ SM F1 P1) F2 P2 v' V') as (b' & B & S'). exists b'. split; [right; exact B|exact S'].
  Qed.
  Lemma vault_ok : forall l, Forall item_in l -> all_proper P Z POOL HISTORY QUEUE (blank P) l -> no_collision H (long_octets P l) -> faithful H P (blank P) l (calls H P Z POOL HISTORY QUEUE start l).
  Proof.
    intros l F PR NC. rewrite calls_run by exact F. apply (conforms_faithful l _ fresh); auto using sim_start. apply state_cache_ok.
    - apply (proper_tidy l (blank P)); auto using sim_start.
    - assert (X : forall o, long_values enc dec (map (lower H P) l) o -> long_octets P l o).
      { intros o (v & k & x & V' & W & -> & LN). destruct (views_books l _ _ sim_start F PR v V') as (b & B & SM). destruct SM as (_ & N & _). destruct (rel_some _ _ _ _ N W) as (i & I & -> & M).
        exists b, i, x. split; [exact B|]. split; [exact M|]. split; [|exact LN]. destruct (belongs_enc i x (proj1 (L_ok i I))) as (o & E & _ & G & _); [apply N; exact M|]. rewrite E. exact G. }
      intros a b A B. apply NC; auto.
  Qed.
End V.

Definition items_in (P : params) (l : list (call P)) : list item := flat_map (fun c => match item_of P c with Some i => [i] | None => [] end) l.
Lemma items_named : forall P l i, In i (items_in P l) <-> named P l i.
Proof.
  intros P l i. unfold items_in, named. rewrite in_flat_map. split; intros (c & C & E); exists c; split; auto; destruct (item_of P c); cbn in *; try contradiction; try discriminate.
  - destruct E as [->|[]]. reflexivity.
  - injection E as ->. left. reflexivity.
Qed.
