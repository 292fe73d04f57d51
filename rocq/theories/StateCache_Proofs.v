(** The state manager against its specification. *)
From Verif Require Import Base Trie_Model Trie_Spec TrieCodec_Proofs TrieShape_Proofs Trie_Proofs Trie2_Proofs Trie3_Proofs Trie4_Proofs StateCache_Model StateCache_Spec.
From Coq Require Import Permutation.

Section StoreInv.
  Context (H : bytes -> bytes).
  Definition SI (P : bytes -> Prop) (s : store) (m : smap) : Prop := exists d, Good H (s_mgr s) d /\ lists d m /\ stored H P (s_db s) d.
  Lemma SI_ext : forall P s m m', SI P s m -> (forall k, m k = m' k) -> SI P s m'.
  Proof. intros P s m m' [d [G [[N L] S]]] E. exists d. split; [exact G|]. split; [|exact S]. split; [exact N|]. intros k v. rewrite L, E. reflexivity. Qed.
  Lemma SI_empty : forall P, SI P empty_store no_state.
  Proof. intro P. exists []. split; [apply Good_empty|]. split; [apply lists_empty|apply stored_empty]. Qed.
  Lemma SI_read : forall P s m k, SI P s m -> no_collision H P -> store_read s k = Ok (m k).
  Proof. intros P s m k [d [G [L S]]] Nc. exact (read_ok H P s d m (q_new _ _ _ G) (q_inv _ _ _ G) L S Nc k). Qed.
  Lemma SI_root : forall P s m, SI P s m -> exists d, lists d m /\ store_root s = state_root H d.
  Proof. intros P s m [d [G [L S]]]. exists d. split; [exact L|]. exact (root_ok H (s_mgr s) d d G (Permutation_refl d)). Qed.
  Lemma prepare_new : forall g es g' w, prepare_commit H g es = (g', Ok (Some w)) -> g' = new_mgr (g_db g').
  Proof.
    intros g es g' w. unfold prepare_commit. destruct es as [|e es]; [discriminate|]. destruct (insert_entries H g (e :: es)) as [m1 [u|x|]]; try discriminate.
    destruct (prepare_node_writes H m1) as [m2 [[r|]|x|]]; try discriminate. intro X. inversion X. reflexivity.
  Qed.
  Lemma prepare_none : forall g es g', prepare_commit H g es = (g', Ok None) -> es = [] \/ exists m1, insert_entries H g es = (m1, Ok tt) /\ sort_paths (g_aff m1) = [].
  Proof.
    intros g es g'. unfold prepare_commit. destruct es as [|e es]; [auto|]. destruct (insert_entries H g (e :: es)) as [m1 [u|x|]] eqn:E; try discriminate. intro X. right. exists m1. destruct u. split; [reflexivity|].
    unfold prepare_node_writes in X. destruct (sort_paths (g_aff m1)) as [|p l]; [reflexivity|]. destruct (recompute H (take_affected m1) (p :: l)) as [m2 [u2|x2|]]; try discriminate.
    destruct (aget (g_nodes m2) []) as [[n|]|]; discriminate.
  Qed.
  Lemma SI_commit : forall P s m es, SI P s m -> batch_ok m es -> some_write es -> (forall e, In e es -> 32 < length (e_value e) -> P (e_value e)) ->
    exists w, prepare_commit H (s_mgr s) es = (s_mgr s, Ok (Some w)) /\
      let s' := mk_store (apply_commit (s_mgr s) w) (rev (w_state w) ++ s_db s) in
      store_commit H s es = (s', Ok tt) /\ SI P s' (apply_batch m es) /\ exists d, lists d (apply_batch m es) /\ w_root w = state_root H d.
  Proof.
    intros P s m es [d [G [L S]]] Bo Sw Hp.
    destruct (history_ok_run H P [es] s m d G L S) as [s' [d' [E [G' [L' S']]]]]; [split; [exact Bo|exact I]|intros es' e [<-|[]]; apply Hp|].
    cbn [run_history fold_left] in E, L'. destruct (batch_fits H es m d Bo L (i_d _ _ _ _ (q_inv _ _ _ G))) as [F _].
    destruct (store_commit H s es) as [s1 [[]|x|]] eqn:Ec; try discriminate. inversion E; subst s1. clear E.
    unfold store_commit, commit in Ec. destruct (prepare_commit H (s_mgr s) es) as [g1 [[w|]|x|]] eqn:Ep; try discriminate.
    - assert (Eg : g1 = s_mgr s). { rewrite (prepare_new _ _ _ _ Ep). pose proof (prepare_keeps_db H (s_mgr s) es) as X. rewrite Ep in X. cbn [fst] in X. rewrite X. symmetry. exact (q_new _ _ _ G). }
      subst g1. exists w. split; [reflexivity|]. cbv zeta. inversion Ec; subst s'. split; [reflexivity|].
      split; [exists d'; auto|]. exists d'. split; [exact L'|]. pose proof (root_ok H _ d' d' G' (Permutation_refl d')) as R. exact R.
    - exfalso. destruct (prepare_none _ _ _ Ep) as [->|[m1 [E1 E2]]]; [destruct Sw as [e [[] _]]|].
      destruct (entries_ok H es (s_mgr s) d d (q_inv _ _ _ G) F) as [g2 [E3 [_ [_ [_ [_ [Rt _]]]]]]]. rewrite E3 in E1. inversion E1; subst g2.
      destruct (sort_paths_spec (g_aff m1)) as [_ [_ Si]]. assert (X : In [] (g_aff m1)) by (apply Rt; right; exact Sw). apply Si in X. rewrite E2 in X. destruct X.
  Qed.
  Lemma apply_batch_out : forall es m k, ~ In k (map e_key es) -> apply_batch m es k = m k.
  Proof.
    unfold apply_batch. induction es as [|e es IH]; intros m k X; cbn [fold_left map In] in *; [reflexivity|]. rewrite IH by tauto. unfold apply_entry, set.
    destruct (e_status e), (list_eq_dec Bool.bool_dec k (e_key e)); try reflexivity; exfalso; subst; tauto.
  Qed.
  Lemma apply_batch_in : forall es m e, NoDup (map e_key es) -> In e es ->
    apply_batch m es (e_key e) = match e_status e with SAdd | SUpdate => Some (e_value e) | SRemove => None | SClean => m (e_key e) end.
  Proof.
    induction es as [|x es IH]; intros m e N X; [destruct X|]. cbn [map] in N. inversion N as [|? ? N1 N2]; subst. change (apply_batch m (x :: es)) with (apply_batch (apply_entry m x) es). destruct X as [->|X].
    - rewrite apply_batch_out by exact N1. unfold apply_entry, set. destruct (e_status e), (list_eq_dec Bool.bool_dec (e_key e) (e_key e)); congruence.
    - rewrite IH by assumption. assert (e_key e <> e_key x) by (intro Y; apply N1; rewrite <- Y; apply in_map; exact X). unfold apply_entry, set. destruct (e_status e); try reflexivity.
      destruct (e_status x), (list_eq_dec Bool.bool_dec (e_key e) (e_key x)); congruence.
  Qed.
End StoreInv.

Section Cache.
  Context (H : bytes -> bytes) {V : Type} (enc : V -> bytes) (dec : path -> bytes -> option V).
  Notation centry := (@centry V). Notation cache := (@cache V). Notation view := (@view V). Notation world := (@world V).
  Implicit Types (c : cache) (e : centry) (k : path) (v : view) (w : world) (s : @sm V).

  (** ** The cache as a map *)
  Lemma cget_put : forall c k e x, cget (cput c k e) x = if path_eqb k x then Some e else cget c x.
  Proof.
    intros c k e x. unfold cget, cput, cdel. cbn [find fst]. destruct (path_eqb_spec k x) as [->|N]; [reflexivity|].
    induction c as [|[q f] c IH]; [reflexivity|]. cbn [filter fst find]. destruct (path_eqb_spec q k) as [->|Nq]; cbn [negb].
    - rewrite IH. destruct (path_eqb_spec k x); [congruence|reflexivity].
    - cbn [find fst]. destruct (path_eqb_spec q x); [reflexivity|exact IH].
  Qed.
  Lemma cget_del : forall c k x, cget (cdel c k) x = if path_eqb k x then None else cget c x.
  Proof.
    intros c k x. unfold cget, cdel. induction c as [|[q f] c IH]; [destruct (path_eqb k x); reflexivity|]. cbn [filter fst find]. destruct (path_eqb_spec q k) as [->|Nq]; cbn [negb].
    - rewrite IH. destruct (path_eqb_spec k x); reflexivity.
    - cbn [find fst]. destruct (path_eqb_spec q x) as [->|]; [|exact IH]. destruct (path_eqb_spec k x); [congruence|reflexivity].
  Qed.
  Lemma mark_In : forall l k x, In x (mark l k) <-> x = k \/ In x l.
  Proof. intros l k x. unfold mark. destruct (in_dec _ k l) as [I|N]; cbn [In]; [split; [auto|intros [->|]; assumption]|split; intros [X|X]; auto]. Qed.
  Lemma mark_NoDup : forall l k, NoDup l -> NoDup (mark l k).
  Proof. intros l k N. unfold mark. destruct (in_dec _ k l); [exact N|constructor; assumption]. Qed.
  (** A fold whose steps each touch one key. *)
  Lemma fold_local : forall A (key : A -> path) (F : cache -> A -> cache) (G : A -> option centry -> option centry),
    (forall c a k, cget (F c a) k = if path_eqb (key a) k then G a (cget c k) else cget c k) ->
    forall l c, NoDup (map key l) -> (forall a, In a l -> cget (fold_left F l c) (key a) = G a (cget c (key a))) /\ (forall k, ~ In k (map key l) -> cget (fold_left F l c) k = cget c k).
  Proof.
    intros A key F G HF. induction l as [|a l IH]; intros c N; cbn [fold_left map In] in *; [split; [tauto|reflexivity]|]. inversion N as [|? ? N1 N2]; subst. destruct (IH (F c a) N2) as [I1 I2]. split.
    - intros x [->|X].
      + rewrite I2 by exact N1. rewrite HF, path_eqb_refl. reflexivity.
      + rewrite I1 by exact X. rewrite HF. destruct (path_eqb_spec (key a) (key x)) as [E|]; [|reflexivity]. exfalso. apply N1. rewrite E. apply in_map. exact X.
    - intros k X. rewrite I2 by tauto. rewrite HF. destruct (path_eqb_spec (key a) k); [exfalso; tauto|reflexivity].
  Qed.

  (** ** The invariant *)
  Definition rep (k : path) (x : @cval V) (v : V) : Prop := match x with Typed y => y = v | Raw b => dec k b = Some v /\ enc v = b end.
  Definition typed (x : @cval V) : Prop := match x with Typed _ => True | Raw _ => False end.
  Definition long_ok (P : bytes -> Prop) (b : bytes) : Prop := 32 < length b -> P b.
  Definition pend (v : view) k e : Prop := (In k (raws v) -> ~ typed (c_value e)) /\ (~ In k (raws v) -> typed (c_value e) /\ typed (c_clean e)).
  Definition ent_ok (P : bytes -> Prop) (v : view) k e : Prop :=
    match c_status e with
    | SClean => ~ In k (touched v) /\ working v k = committed v k /\ c_clean e = c_value e /\ exists x, committed v k = Some x /\ rep k (c_value e) x
    | SAdd => In k (touched v) /\ pend v k e /\ committed v k = None /\ exists x, working v k = Some x /\ rep k (c_value e) x
    | SUpdate => In k (touched v) /\ pend v k e /\ exists x y, committed v k = Some x /\ working v k = Some y /\ rep k (c_clean e) x /\ rep k (c_value e) y
    | SRemove => In k (touched v) /\ pend v k e /\ working v k = None /\ (exists x, committed v k = Some x /\ rep k (c_clean e) x) /\ long_ok P (cenc enc (c_value e))
    end.
  Definition cell_ok (P : bytes -> Prop) (v : view) k (o : option centry) : Prop :=
    match o with None => ~ In k (touched v) /\ working v k = committed v k | Some e => ent_ok P v k e end.
  Definition art_ok (P : bytes -> Prop) (st : store) (v : view) (a : @artifact V) (m : path -> option V) : Prop :=
    SI H P (mk_store (apply_commit (s_mgr st) (a_ws a)) (rev (w_state (a_ws a)) ++ s_db st)) (encoded enc m) /\
    NoDup (map fst (a_entries a)) /\
    (forall x, In x (a_entries a) -> match c_status (snd x) with
       | SAdd | SUpdate => exists y, m (fst x) = Some y /\ rep (fst x) (c_value (snd x)) y
       | SRemove => m (fst x) = None
       | SClean => False end) /\
    (forall k, ~ In k (map fst (a_entries a)) -> m k = committed v k) /\ (forall k x, m k = Some x -> ok enc dec k x).
  Record CI (P : bytes -> Prop) w v : Prop := {
    ci_store : SI H P (m_store (x_sm w)) (encoded enc (committed v));
    ci_nodup : NoDup (m_dirty (x_sm w));
    ci_dirty : forall k, In k (m_dirty (x_sm w)) <-> In k (touched v);
    ci_len : forall k, In k (touched v) -> length k = KEY_BITS;
    ci_cell : forall k, cell_ok P v k (cget (m_cache (x_sm w)) k);
    ci_okc : forall k x, committed v k = Some x -> ok enc dec k x;
    ci_okw : forall k x, working v k = Some x -> ok enc dec k x;
    ci_reads : forall k, option_map fst (rget (x_reads w) k) = read_of (reads v) k;
    ci_art : match x_art w, staged v with None, None => True | Some a, Some m => art_ok P (m_store (x_sm w)) v a m | _, _ => False end }.

  Lemma cell_ext : forall P v v' k o, (In k (touched v) <-> In k (touched v')) -> (In k (raws v) <-> In k (raws v')) -> working v k = working v' k -> committed v k = committed v' k -> cell_ok P v k o -> cell_ok P v' k o.
  Proof.
    intros P v v' k o T R W C. unfold cell_ok, ent_ok, pend. rewrite <- W, <- C. destruct o as [e|]; [destruct (c_status e)|]; rewrite <- ?T, <- ?R; auto.
  Qed.
  Lemma art_ext : forall P st v v' a m, (forall k, committed v k = committed v' k) -> art_ok P st v a m -> art_ok P st v' a m.
  Proof. intros P st v v' a m E [A [B [C [D F]]]]. split; [exact A|]. split; [exact B|]. split; [exact C|]. split; [|exact F]. intros k X. rewrite <- E. apply D. exact X. Qed.
  Lemma CI_cache : forall P w v c', CI P w v -> (forall k, cell_ok P v k (cget c' k)) -> CI P (mk_w (mk_sm c' (m_dirty (x_sm w)) (m_store (x_sm w))) (x_art w) (x_reads w)) v.
  Proof. intros P w v c' [] X. constructor; assumption. Qed.
  Lemma ret_CI : forall P w s' v, CI P (mk_w s' (x_art w) (x_reads w)) v -> forall a, CI P (fst (ret w s' a)) v.
  Proof. intros. assumption. Qed.
  Lemma insert_clean_CI : forall P w v k x, CI P w v -> ~ In k (touched v) -> working v k = Some x -> CI P (mk_w (insert_clean (x_sm w) k x) (x_art w) (x_reads w)) v.
  Proof.
    intros P w v k x C T W. unfold insert_clean, insert_entry_c. cbn [is_dirty c_status]. apply CI_cache; [exact C|]. intro y. rewrite cget_put. destruct (path_eqb_spec k y) as [<-|N]; [|apply (ci_cell _ _ _ C)].
    assert (E : working v k = committed v k). { pose proof (ci_cell _ _ _ C k) as X. unfold cell_ok, ent_ok in X. destruct (cget (m_cache (x_sm w)) k) as [e|]; [destruct (c_status e)|]; tauto. }
    unfold cell_ok, ent_ok. cbn [c_status c_clean c_value]. split; [exact T|]. split; [exact E|]. split; [reflexivity|]. exists x. rewrite <- E. split; [assumption|reflexivity].
  Qed.
  Lemma retrieve_ok : forall P w v k, CI P w v -> no_collision H P -> retrieve (x_sm w) k = Ok (encoded enc (committed v) k).
  Proof. intros P w v k C N. unfold retrieve. rewrite (SI_read H P _ _ k (ci_store _ _ _ C) N). reflexivity. Qed.
  Lemma untouched : forall P w v k, CI P w v -> ~ In k (touched v) -> working v k = committed v k.
  Proof. intros P w v k C T. pose proof (ci_cell _ _ _ C k) as X. unfold cell_ok, ent_ok in X. destruct (cget (m_cache (x_sm w)) k) as [e|]; [destruct (c_status e)|]; tauto. Qed.
  Lemma lookup_ok : forall P w v k, CI P w v -> no_collision H P -> ~ In k (raws v) -> exists b, lookup dec (x_sm w) k = Ok (working v k, b) /\ (b = true -> ~ In k (touched v)).
  Proof.
    intros P w v k C N R. unfold lookup. pose proof (ci_cell _ _ _ C k) as X. destruct (cget (m_cache (x_sm w)) k) as [e|]; cbn [cell_ok] in X; [unfold ent_ok in X|].
    - destruct (c_status e).
      + destruct X as [T [[_ Pd] [_ [x [W Rp]]]]]. destruct (Pd R) as [Ty _]. destruct (c_value e); [|destruct Ty]. cbn in Rp. subst. rewrite W. exists false. split; [reflexivity|discriminate].
      + destruct X as [T [[_ Pd] [x [y [_ [W [_ Rp]]]]]]]. destruct (Pd R) as [Ty _]. destruct (c_value e); [|destruct Ty]. cbn in Rp. subst. rewrite W. exists false. split; [reflexivity|discriminate].
      + destruct X as [T [_ [W _]]]. rewrite W. exists false. split; [reflexivity|discriminate].
      + destruct X as [T [W [_ [x [Cx Rp]]]]]. rewrite W, Cx. destruct (c_value e); cbn in Rp; [subst; exists false; split; [reflexivity|discriminate]|]. destruct Rp as [D _]. rewrite D. exists true. auto.
    - destruct X as [T W]. rewrite (retrieve_ok P w v k C N). unfold encoded. rewrite W. destruct (committed v k) as [x|] eqn:Cx; cbn [option_map].
      + rewrite (ci_okc _ _ _ C k x Cx). exists true. auto.
      + exists false. split; [reflexivity|discriminate].
  Qed.
  Lemma finish_CI : forall P w v k b, CI P w v -> (b = true -> ~ In k (touched v)) -> CI P (mk_w (finish (x_sm w) k (working v k, b)) (x_art w) (x_reads w)) v.
  Proof. intros P w v k b C T. unfold finish. destruct (working v k) as [x|] eqn:W, b; try (destruct w; exact C). apply insert_clean_CI; auto. Qed.
  Lemma get_ok : forall P w v k, CI P w v -> no_collision H P -> ~ In k (raws v) -> exists s', get dec (x_sm w) k = (s', Ok (working v k)) /\ CI P (mk_w s' (x_art w) (x_reads w)) v.
  Proof. intros P w v k C N R. destruct (lookup_ok P w v k C N R) as [b [E T]]. unfold get. rewrite E. eexists. split; [reflexivity|]. apply finish_CI; assumption. Qed.
  (** What is in the cache after a read that found something. *)
  Lemma get_typed : forall P w v k s' x, CI P w v -> no_collision H P -> ~ In k (raws v) -> get dec (x_sm w) k = (s', Ok (Some x)) ->
    exists e, cget (m_cache s') k = Some e /\ typed (c_clean e) /\ c_value e = Typed x /\ ent_ok P v k e.
  Proof.
    intros P w v k s' x C N R E. destruct (get_ok P w v k C N R) as [s2 [E2 C2]]. rewrite E in E2. inversion E2 as [[E3 W]]. subst s2. symmetry in W.
    pose proof (ci_cell _ _ _ C2 k) as X. cbn [x_sm] in X. unfold get in E. destruct (lookup_ok P w v k C N R) as [b [El T]]. rewrite El in E. assert (F1 : finish (x_sm w) k (working v k, b) = s') by congruence. clear E E2. rewrite W in F1. cbn [finish] in F1. destruct b.
    - subst s'. unfold insert_clean, insert_entry_c in *. cbn [m_cache is_dirty c_status] in *. rewrite cget_put, path_eqb_refl in *. eexists. split; [reflexivity|]. split; [exact I|]. split; [reflexivity|exact X].
    - subst s'. unfold lookup in El. pose proof (ci_cell _ _ _ C k) as Y. destruct (cget (m_cache (x_sm w)) k) as [e|] eqn:Ec.
      + exists e. split; [reflexivity|]. cbn [cell_ok] in Y. unfold ent_ok in Y. destruct (c_status e) eqn:Es.
        * destruct Y as [_ [[_ Pd] [_ [z [_ Rp]]]]]. destruct (Pd R) as [T1 T2]. destruct (c_value e); [|destruct T1]. split; [exact T2|]. split; [congruence|exact X].
        * destruct Y as [_ [[_ Pd] _]]. destruct (Pd R) as [T1 T2]. destruct (c_value e); [|destruct T1]. split; [exact T2|]. split; [congruence|exact X].
        * congruence.
        * destruct (c_value e) eqn:Ev; [|destruct (dec k b); congruence]. assert (v0 = x) by congruence. subst v0.
          destruct Y as [_ [_ [Ecl _]]]. rewrite Ecl. split; [exact I|]. split; [reflexivity|exact X].
      + rewrite (retrieve_ok P w v k C N) in El. unfold encoded in El. destruct (committed v k) as [z|] eqn:Cz; cbn [option_map] in El; [destruct (dec k (enc z)); congruence|congruence].
  Qed.

  Lemma CI_change : forall P s art rd v k o rs' e, CI P (mk_w s art rd) v -> length k = KEY_BITS -> (forall x, o = Some x -> ok enc dec k x) ->
    (forall y, y <> k -> (In y (raws v) <-> In y rs')) ->
    let v' := mk_view (committed v) (put (working v) k o) (staged v) (k :: touched v) rs' (reads v) in
    ent_ok P v' k e -> CI P (mk_w (mk_sm (cput (m_cache s) k e) (mark (m_dirty s) k) (m_store s)) art rd) v'.
  Proof.
    intros P s art rd v k o rs' e C Lk Ok Rs v' E. pose proof C as C0. destruct C. cbn [x_sm x_art x_reads m_cache m_dirty m_store] in *. constructor; cbn [x_sm x_art x_reads m_cache m_dirty m_store v' committed working staged touched raws reads].
    - assumption.
    - apply mark_NoDup. assumption.
    - intro y. rewrite mark_In, ci_dirty0. cbn [In]. split; intros [X|X]; auto.
    - intros y [<-|X]; auto.
    - intro y. rewrite cget_put. destruct (path_eqb_spec k y) as [<-|Ne]; [exact E|]. apply (cell_ext P v v'); unfold v'; cbn [committed working touched raws].
      + cbn [In]. split; [auto|]. intros [X|X]; [congruence|exact X].
      + apply Rs. congruence.
      + unfold put. destruct (list_eq_dec Bool.bool_dec y k); [congruence|reflexivity].
      + reflexivity.
      + apply ci_cell0.
    - assumption.
    - intros y x. unfold put. destruct (list_eq_dec Bool.bool_dec y k) as [->|]; [apply Ok|apply ci_okw0].
    - assumption.
    - destruct art, (staged v); assumption.
  Qed.
  Lemma put_same : forall (m : path -> option V) k o, put m k o k = o.
  Proof. intros. unfold put. destruct (list_eq_dec Bool.bool_dec k k); congruence. Qed.
  Lemma dirty_entry : forall P w v k, CI P w v -> In k (touched v) -> exists e, cget (m_cache (x_sm w)) k = Some e /\ c_status e <> SClean.
  Proof. intros P w v k C T. pose proof (ci_cell _ _ _ C k) as X. destruct (cget (m_cache (x_sm w)) k) as [e|]; cbn [cell_ok] in X; [|tauto]. exists e. split; [reflexivity|]. intro E. unfold ent_ok in X. rewrite E in X. tauto. Qed.

  (** ** Collecting the dirty entries *)
  Section Collect.
    Context (P : bytes -> Prop) (w : world) (v : view) (ord : list path -> list path) (C : CI P w v) (Pm : forall l : list path, Permutation l (ord l)).
    Notation es := (collect_dirty (x_sm w) ord).
    Lemma collect_In : forall x, In x es <-> In (fst x) (touched v) /\ cget (m_cache (x_sm w)) (fst x) = Some (snd x).
    Proof.
      intros [k e]. unfold collect_dirty. rewrite in_flat_map. cbn [fst snd]. split.
      - intros [y [A B]]. destruct (cget (m_cache (x_sm w)) y) as [e'|] eqn:E; [|destruct B]. destruct B as [B|[]]. inversion B; subst. split; [|exact E]. apply (ci_dirty _ _ _ C). eapply Permutation_in; [apply Permutation_sym, Pm|exact A].
      - intros [A B]. exists k. split; [eapply Permutation_in; [apply Pm|]; apply (ci_dirty _ _ _ C); exact A|]. rewrite B. left. reflexivity.
    Qed.
    Lemma collect_keys : map fst es = ord (m_dirty (x_sm w)).
    Proof.
      unfold collect_dirty. assert (X : forall k, In k (ord (m_dirty (x_sm w))) -> exists e, cget (m_cache (x_sm w)) k = Some e).
      { intros k I. destruct (dirty_entry P w v k C) as [e [E _]]; [apply (ci_dirty _ _ _ C); eapply Permutation_in; [apply Permutation_sym, Pm|exact I]|eauto]. }
      revert X. generalize (ord (m_dirty (x_sm w))) as l. induction l as [|k l IH]; intro X; [reflexivity|]. cbn [flat_map]. destruct (X k (or_introl eq_refl)) as [e E]. rewrite E. cbn [app map fst]. f_equal. apply IH. intros y Y. apply X. right. exact Y.
    Qed.
    Lemma collect_NoDup : NoDup (map fst es).
    Proof. rewrite collect_keys. eapply Permutation_NoDup; [apply Pm|apply (ci_nodup _ _ _ C)]. Qed.
    Lemma collect_keys_In : forall k, In k (map fst es) <-> In k (touched v).
    Proof. intro k. rewrite collect_keys, <- (ci_dirty _ _ _ C). split; apply Permutation_in; [apply Permutation_sym|]; apply Pm. Qed.
    Lemma collect_nil : es = [] <-> touched v = [].
    Proof.
      split; intro E.
      - destruct (touched v) as [|k t] eqn:T; [reflexivity|]. exfalso. assert (X : In k (map fst es)) by (apply collect_keys_In; rewrite T; left; reflexivity). rewrite E in X. destruct X.
      - destruct es as [|x l] eqn:X; [reflexivity|]. exfalso. assert (Y : In (fst x) (touched v)) by (apply collect_keys_In; rewrite X; left; reflexivity). rewrite E in Y. destruct Y.
    Qed.
    Lemma keys_eq : map e_key (map (to_entry enc) es) = map fst es.
    Proof. rewrite map_map. reflexivity. Qed.
    Lemma batch_map : forall k, apply_batch (encoded enc (committed v)) (map (to_entry enc) es) k = encoded enc (working v) k.
    Proof.
      intro k. destruct (in_dec (list_eq_dec Bool.bool_dec) k (map fst es)) as [I|N].
      - apply in_map_iff in I. destruct I as [x [<- I]]. change (fst x) with (e_key (to_entry enc x)) at 1. rewrite apply_batch_in; [|rewrite keys_eq; apply collect_NoDup|apply in_map; exact I]. cbn [to_entry e_status e_value e_key].
        apply collect_In in I. destruct I as [T E]. pose proof (ci_cell _ _ _ C (fst x)) as X. rewrite E in X. cbn [cell_ok] in X. unfold ent_ok in X. unfold encoded. destruct (c_status (snd x)).
        + destruct X as [_ [_ [_ [y [W R]]]]]. rewrite W. cbn [option_map]. destruct (c_value (snd x)); cbn in *; [congruence|]. destruct R; congruence.
        + destruct X as [_ [_ [a [y [_ [W [_ R]]]]]]]. rewrite W. cbn [option_map]. destruct (c_value (snd x)); cbn in *; [congruence|]. destruct R; congruence.
        + destruct X as [_ [_ [W _]]]. rewrite W. reflexivity.
        + tauto.
      - rewrite apply_batch_out by (rewrite keys_eq; exact N). unfold encoded. rewrite (untouched P w v k C); [reflexivity|]. rewrite <- collect_keys_In. exact N.
    Qed.
    Lemma batch_fine : keeps v -> batch_ok (encoded enc (committed v)) (map (to_entry enc) es).
    Proof.
      intro Kp. split; [rewrite keys_eq; apply collect_NoDup|]. split.
      - apply Forall_forall. intros e I. apply in_map_iff in I. destruct I as [x [<- I]]. apply collect_In in I. destruct I as [T E]. split; [apply (ci_len _ _ _ C); exact T|]. cbn [to_entry e_status e_key].
        pose proof (ci_cell _ _ _ C (fst x)) as X. rewrite E in X. cbn [cell_ok] in X. unfold ent_ok in X. unfold encoded. destruct (c_status (snd x)).
        + destruct X as [_ [_ [-> _]]]. reflexivity.
        + destruct X as [_ [_ [a [y [-> _]]]]]. discriminate.
        + destruct X as [_ [_ [_ [[a [-> _]] _]]]]. discriminate.
        + exact I.
      - assert (Rm : forall e : entry, In e (map (to_entry enc) es) -> e_status e = SRemove -> working v (e_key e) = None /\ committed v (e_key e) <> None).
        { intros e I S. apply in_map_iff in I. destruct I as [x [<- I]]. apply collect_In in I. destruct I as [T E]. cbn [to_entry e_status e_key] in *. pose proof (ci_cell _ _ _ C (fst x)) as X. rewrite E in X. cbn [cell_ok] in X. unfold ent_ok in X. rewrite S in X.
          destruct X as [_ [_ [W [[a [Ca _]] _]]]]. split; [exact W|congruence]. }
        destruct Kp as [K|[k [K1 K2]]].
        + left. intros e I S. destruct (Rm e I S) as [A B]. apply (K _ B A).
        + right. exists k. split; [unfold encoded; destruct (committed v k); [discriminate|congruence]|]. intros e I S X. subst k. destruct (Rm e I S) as [A _]. contradiction.
    Qed.
    Lemma batch_writes : touched v <> [] -> some_write (map (to_entry enc) es).
    Proof.
      intro T. destruct es as [|x l] eqn:E; [exfalso; apply T, collect_nil; exact E|]. rewrite <- E. exists (to_entry enc x). assert (I : In x es) by (rewrite E; left; reflexivity). split; [apply in_map; exact I|]. cbn.
      apply collect_In in I. destruct I as [I X]. destruct (dirty_entry P w v _ C I) as [e [E1 E2]]. congruence.
    Qed.
    Lemma batch_long : (forall k x, working v k = Some x -> long_ok P (enc x)) -> forall e : entry, In e (map (to_entry enc) es) -> 32 < length (e_value e) -> P (e_value e).
    Proof.
      intros L e I. apply in_map_iff in I. destruct I as [x [<- I]]. apply collect_In in I. destruct I as [T E]. cbn [to_entry e_value]. pose proof (ci_cell _ _ _ C (fst x)) as X. rewrite E in X. cbn [cell_ok] in X. unfold ent_ok in X.
      assert (Rp : forall y, working v (fst x) = Some y -> rep (fst x) (c_value (snd x)) y -> long_ok P (cenc enc (c_value (snd x)))).
      { intros y W R. destruct (c_value (snd x)); cbn in *; [subst; eapply L; eassumption|]. destruct R as [_ <-]. eapply L; eassumption. }
      destruct (c_status (snd x)); [|..|tauto].
      - destruct X as [_ [_ [_ [y [W R]]]]]. exact (Rp y W R).
      - destruct X as [_ [_ [a [y [_ [W [_ R]]]]]]]. exact (Rp y W R).
      - destruct X as [_ [_ [_ [_ R]]]]. exact R.
    Qed.
  End Collect.

  (** ** Folding over the collected entries *)
  Lemma direct_get : forall c x k, cget (direct_one c x) k = if path_eqb (fst x) k then match c_status (snd x) with SRemove => None | _ => option_map snapshot (cget c k) end else cget c k.
  Proof.
    intros c x k. unfold direct_one. assert (G : forall y, cget (match cget c (fst x) with Some e => cput c (fst x) (snapshot e) | None => c end) y = if path_eqb (fst x) y then option_map snapshot (cget c y) else cget c y).
    { intro y. destruct (cget c (fst x)) eqn:E; [rewrite cget_put|]; (destruct (path_eqb_spec (fst x) y) as [<-|]; [rewrite E; reflexivity|reflexivity]). }
    destruct (c_status (snd x)); try apply G. apply cget_del.
  Qed.
  Lemma deferred_get : forall c x k, cget (deferred_one c x) k = if path_eqb (fst x) k then match c_status (snd x) with SRemove => None | SAdd | SUpdate => Some (snapshot (snd x)) | SClean => Some (snd x) end else cget c k.
  Proof. intros c x k. unfold deferred_one. destruct (c_status (snd x)); rewrite ?cget_put, ?cget_del; reflexivity. Qed.
  Lemma rollback_get : forall c x k, cget (rollback_one c x) k = if path_eqb x k then match cget c k with
    | Some e => match c_status e with SAdd => None | SUpdate | SRemove => Some (mk_ce (c_clean e) (c_clean e) SClean) | SClean => Some e end | None => None end else cget c k.
  Proof.
    intros c x k. unfold rollback_one. destruct (cget c x) as [e|] eqn:E; [destruct (c_status e) eqn:S|]; rewrite ?cget_put, ?cget_del; destruct (path_eqb_spec x k) as [<-|]; try reflexivity; rewrite ?E, ?S; reflexivity.
  Qed.

  (** ** Rollback, commit, preparation, application *)
  Lemma rollback_cell : forall P w v k, CI P w v -> cell_ok P (mk_view (committed v) (committed v) (staged v) [] [] (reads v)) k (cget (m_cache (rollback (x_sm w))) k).
  Proof.
    intros P w v k C. unfold rollback. cbn [m_cache].
    destruct (fold_local path (fun x => x) rollback_one (fun _ o => match o with Some e => match c_status e with SAdd => None | SUpdate | SRemove => Some (mk_ce (c_clean e) (c_clean e) SClean) | SClean => Some e end | None => None end) rollback_get (m_dirty (x_sm w)) (m_cache (x_sm w))) as [In1 Out]; [rewrite map_id; apply (ci_nodup _ _ _ C)|]. rewrite map_id in Out.
    pose proof (ci_cell _ _ _ C k) as X. destruct (in_dec (list_eq_dec Bool.bool_dec) k (m_dirty (x_sm w))) as [I|N].
    - rewrite (In1 k I). apply (ci_dirty _ _ _ C) in I. destruct (cget (m_cache (x_sm w)) k) as [e|]; cbn [cell_ok] in X; [|tauto]. unfold ent_ok in X. destruct (c_status e) eqn:S.
      + cbn. auto.
      + destruct X as [_ [_ [x [y [Cx [_ [R _]]]]]]]. cbn. split; [auto|]. split; [reflexivity|]. split; [reflexivity|]. eauto.
      + destruct X as [_ [_ [_ [[x [Cx R]] _]]]]. cbn. split; [auto|]. split; [reflexivity|]. split; [reflexivity|]. eauto.
      + tauto.
    - rewrite (Out k N). assert (T : ~ In k (touched v)) by (rewrite <- (ci_dirty _ _ _ C); exact N). destruct (cget (m_cache (x_sm w)) k) as [e|]; cbn [cell_ok] in *; [unfold ent_ok in *|].
      + destruct (c_status e); cbn; tauto.
      + cbn. auto.
  Qed.
  Lemma rollback_CI : forall P w v art' staged' st', CI P w v -> SI H P st' (encoded enc (committed v)) ->
    match art', staged' with None, None => True | Some a, Some m => art_ok P st' v a m | _, _ => False end ->
    CI P (mk_w (mk_sm (m_cache (rollback (x_sm w))) [] st') art' (x_reads w)) (mk_view (committed v) (committed v) staged' [] [] (reads v)).
  Proof.
    intros P w v art' staged' st' C St A. constructor; cbn [x_sm x_art x_reads m_cache m_dirty m_store committed working staged touched raws reads].
    - exact St.
    - constructor.
    - reflexivity.
    - intros k [].
    - intro k. eapply cell_ext; [..|apply rollback_cell; exact C]; reflexivity.
    - apply (ci_okc _ _ _ C).
    - apply (ci_okc _ _ _ C).
    - apply (ci_reads _ _ _ C).
    - destruct art', staged'; assumption.
  Qed.
  Lemma commit_ok : forall P w v ord, CI P w v -> (forall l, Permutation l (ord l)) -> keeps v -> (touched v <> [] -> staged v = None) -> (forall k x, working v k = Some x -> long_ok P (enc x)) ->
    exists s', commit_cache H enc (x_sm w) ord = (s', Ok tt) /\ CI P (mk_w s' (x_art w) (x_reads w)) (mk_view (working v) (working v) (staged v) [] [] (reads v)).
  Proof.
    intros P w v ord C Pm Kp Sg Lg. unfold commit_cache. destruct (collect_dirty (x_sm w) ord) as [|x0 l0] eqn:Ees.
    - exists (x_sm w). split; [reflexivity|]. assert (T : touched v = []) by (apply (collect_nil P w v ord C Pm); exact Ees). assert (WC : forall k, working v k = committed v k) by (intro k; apply (untouched P w v k C); rewrite T; intros []).
      constructor; cbn [x_sm x_art x_reads committed working staged touched raws reads].
      + eapply SI_ext; [apply (ci_store _ _ _ C)|]. intro k. unfold encoded. rewrite WC. reflexivity.
      + apply (ci_nodup _ _ _ C).
      + intro k. rewrite (ci_dirty _ _ _ C), T. reflexivity.
      + intros k [].
      + intro k. pose proof (ci_cell _ _ _ C k) as X. unfold cell_ok, ent_ok in *. cbn [committed working touched raws]. rewrite T in X. destruct (cget (m_cache (x_sm w)) k) as [e|]; [|tauto]. destruct (c_status e); cbn [In] in *; try tauto. rewrite WC. tauto.
      + apply (ci_okw _ _ _ C).
      + apply (ci_okw _ _ _ C).
      + apply (ci_reads _ _ _ C).
      + pose proof (ci_art _ _ _ C) as A. destruct (x_art w), (staged v); try assumption. eapply art_ext; [|exact A]. intro k. symmetry. apply WC.
    - rewrite <- Ees. set (es := collect_dirty (x_sm w) ord) in *. assert (T : touched v <> []). { intro X. apply (collect_nil P w v ord C Pm) in X. fold es in X. congruence. }
      destruct (SI_commit H P _ _ (map (to_entry enc) es) (ci_store _ _ _ C) (batch_fine P w v ord C Pm Kp) (batch_writes P w v ord C Pm T) (batch_long P w v ord C Pm Lg)) as [ws [_ [E [Si _]]]]. rewrite E.
      eexists. split; [reflexivity|]. pose proof (ci_art _ _ _ C) as A. rewrite (Sg T) in *. destruct (x_art w); [destruct A|].
      constructor; cbn [x_sm x_art x_reads m_cache m_dirty m_store committed working staged touched raws reads].
      + eapply SI_ext; [exact Si|]. apply (batch_map P w v ord C Pm).
      + constructor.
      + reflexivity.
      + intros k [].
      + intro k. destruct (fold_local (path * centry) fst direct_one (fun x o => match c_status (snd x) with SRemove => None | _ => option_map snapshot o end) direct_get es (m_cache (x_sm w)) (collect_NoDup P w v ord C Pm)) as [In1 Out].
        pose proof (ci_cell _ _ _ C k) as X. destruct (in_dec (list_eq_dec Bool.bool_dec) k (map fst es)) as [I|N].
        * apply in_map_iff in I. destruct I as [x [<- I]]. rewrite (In1 x I). apply (collect_In P w v ord C Pm) in I. destruct I as [Tx E2]. rewrite E2 in *. cbn [option_map]. cbn [cell_ok] in X. unfold ent_ok in X. destruct (c_status (snd x)) eqn:S.
          -- destruct X as [_ [_ [_ [y [W R]]]]]. cbn. split; [auto|]. split; [reflexivity|]. split; [reflexivity|]. eauto.
          -- destruct X as [_ [_ [a [y [_ [W [_ R]]]]]]]. cbn. split; [auto|]. split; [reflexivity|]. split; [reflexivity|]. eauto.
          -- destruct X as [_ [_ [W _]]]. cbn. auto.
          -- tauto.
        * rewrite (Out k N). unfold es in N. rewrite (collect_keys_In P w v ord C Pm) in N. destruct (cget (m_cache (x_sm w)) k) as [e|]; cbn [cell_ok] in *; [unfold ent_ok in *|cbn; auto].
          destruct (c_status e); try tauto. destruct X as [_ [W X]]. cbn. rewrite W. auto.
      + apply (ci_okw _ _ _ C).
      + apply (ci_okw _ _ _ C).
      + apply (ci_reads _ _ _ C).
      + exact I.
  Qed.
  Lemma prepare_ok : forall P w v ord, CI P w v -> (forall l, Permutation l (ord l)) -> keeps v -> (forall k x, working v k = Some x -> long_ok P (enc x)) ->
    exists s' a, prepare H enc (x_sm w) ord = (s', Ok a) /\ CI P (mk_w s' a (x_reads w)) (next dec v (Prepare ord)) /\
      match touched v with [] => a = None | _ => exists b, a = Some b /\ root_of H enc (working v) (w_root (a_ws b)) end.
  Proof.
    intros P w v ord C Pm Kp Lg. unfold prepare. cbn [next]. destruct (collect_dirty (x_sm w) ord) as [|x0 l0] eqn:Ees.
    - assert (T : touched v = []) by (apply (collect_nil P w v ord C Pm); exact Ees). rewrite T. exists (x_sm w), None. split; [reflexivity|]. split; [|reflexivity].
      pose proof (rollback_CI P w v None None (m_store (x_sm w)) C (ci_store _ _ _ C) I) as X. unfold rollback in X. assert (D : m_dirty (x_sm w) = []). { destruct (m_dirty (x_sm w)) as [|k l] eqn:D; [reflexivity|exfalso]. assert (Y : In k (touched v)) by (apply (ci_dirty _ _ _ C); rewrite D; left; reflexivity). rewrite T in Y. destruct Y. }
      rewrite D in X. cbn in X. destruct (x_sm w) as [c0 d0 s0]. cbn [m_dirty m_cache m_store] in *. subst d0. exact X.
    - rewrite <- Ees. set (es := collect_dirty (x_sm w) ord) in *. assert (T : touched v <> []). { intro X. apply (collect_nil P w v ord C Pm) in X. fold es in X. congruence. }
      destruct (SI_commit H P _ _ (map (to_entry enc) es) (ci_store _ _ _ C) (batch_fine P w v ord C Pm Kp) (batch_writes P w v ord C Pm T) (batch_long P w v ord C Pm Lg)) as [ws [Ep [_ [Si [d [Ld Rd]]]]]]. rewrite Ep.
      eexists. eexists. split; [reflexivity|]. replace (mk_store (s_mgr (m_store (x_sm w))) (s_db (m_store (x_sm w)))) with (m_store (x_sm w)) by (destruct (m_store (x_sm w)); reflexivity).
      replace (mk_sm (m_cache (x_sm w)) (m_dirty (x_sm w)) (m_store (x_sm w))) with (x_sm w) by (destruct (x_sm w); reflexivity).
      assert (M : match touched v with [] => None | _ => Some (working v) end = Some (working v)) by (destruct (touched v); [congruence|reflexivity]).
      split.
      + rewrite M. apply (rollback_CI P w v _ _ (m_store (x_sm w)) C (ci_store _ _ _ C)). split; [eapply SI_ext; [exact Si|]; apply (batch_map P w v ord C Pm)|]. cbn [a_entries]. split; [apply (collect_NoDup P w v ord C Pm)|]. split; [|split; [|apply (ci_okw _ _ _ C)]].
        * intros x I. apply (collect_In P w v ord C Pm) in I. destruct I as [Tx E2]. pose proof (ci_cell _ _ _ C (fst x)) as X. rewrite E2 in X. cbn [cell_ok] in X. unfold ent_ok in X. destruct (c_status (snd x)).
          -- destruct X as [_ [_ [_ X]]]. exact X.
          -- destruct X as [_ [_ [a [y [_ [W [_ R]]]]]]]. eauto.
          -- tauto.
          -- tauto.
        * intros k N. unfold es in N. rewrite (collect_keys_In P w v ord C Pm) in N. apply (untouched P w v k C N).
      + destruct (touched v); [congruence|]. eexists. split; [reflexivity|]. cbn [a_ws]. exists d. split; [|exact Rd]. destruct Ld as [N L]. split; [exact N|]. intros k y. rewrite L, (batch_map P w v ord C Pm). reflexivity.
  Qed.
  Lemma apply_ok : forall P w v a m, CI P w v -> touched v = [] -> x_art w = Some a -> staged v = Some m ->
    CI P (mk_w (apply_artifact (x_sm w) a) None (x_reads w)) (mk_view m m None [] [] (reads v)).
  Proof.
    intros P w v a m C T Ea Em. pose proof (ci_art _ _ _ C) as A. rewrite Ea, Em in A. destruct A as [Si [Nd [En [Out Okm]]]].
    constructor; cbn [x_sm x_art x_reads m_cache m_dirty m_store committed working staged touched raws reads apply_artifact].
    - exact Si.
    - apply (ci_nodup _ _ _ C).
    - intro k. rewrite (ci_dirty _ _ _ C), T. reflexivity.
    - intros k [].
    - intro k. destruct (fold_local (path * centry) fst deferred_one (fun x _ => match c_status (snd x) with SRemove => None | SAdd | SUpdate => Some (snapshot (snd x)) | SClean => Some (snd x) end) deferred_get (a_entries a) (m_cache (x_sm w)) Nd) as [I1 I2].
      destruct (in_dec (list_eq_dec Bool.bool_dec) k (map fst (a_entries a))) as [I|N].
      + apply in_map_iff in I. destruct I as [x [<- I]]. rewrite (I1 x I). pose proof (En x I) as X. destruct (c_status (snd x)).
        * cbn. destruct X as [y [M R]]. split; [auto|]. split; [reflexivity|]. split; [reflexivity|]. eauto.
        * cbn. destruct X as [y [M R]]. split; [auto|]. split; [reflexivity|]. split; [reflexivity|]. eauto.
        * cbn. auto.
        * destruct X.
      + rewrite (I2 k N). pose proof (ci_cell _ _ _ C k) as X. unfold cell_ok, ent_ok in *. rewrite T in X. cbn [committed working touched raws]. rewrite (Out k N). destruct (cget (m_cache (x_sm w)) k) as [e|]; [|cbn; auto]. destruct (c_status e); cbn [In] in *; tauto.
    - exact Okm.
    - exact Okm.
    - apply (ci_reads _ _ _ C).
    - exact I.
  Qed.

  (** ** One operation *)
  Lemma rget_cons : forall l k x y, rget ((k, x) :: rdel l k) y = if path_eqb k y then Some x else rget (V := V) l y.
  Proof.
    intros l k x y. unfold rget, rdel. cbn [find fst]. destruct (path_eqb_spec k y) as [->|N]; [reflexivity|]. f_equal. induction l as [|[q z] l IH]; [reflexivity|]. cbn [filter fst find]. destruct (path_eqb_spec q k) as [->|Nq]; cbn [negb find fst].
    - rewrite IH. destruct (path_eqb_spec k y); [congruence|reflexivity].
    - destruct (path_eqb q y); [reflexivity|exact IH].
  Qed.
  Lemma rget_del : forall l k y, rget (rdel l k) y = if path_eqb k y then None else rget (V := V) l y.
  Proof.
    intros l k y. unfold rget, rdel. induction l as [|[q z] l IH]; [destruct (path_eqb k y); reflexivity|]. cbn [filter fst find]. destruct (path_eqb_spec q k) as [->|Nq]; cbn [negb find fst].
    - rewrite IH. destruct (path_eqb_spec k y); reflexivity.
    - destruct (path_eqb_spec q y) as [->|]; [|exact IH]. destruct (path_eqb_spec k y); [congruence|reflexivity].
  Qed.
  Lemma read_cons : forall l k x y, read_of ((k, x) :: unread l k) y = if path_eqb k y then Some x else read_of (V := V) l y.
  Proof.
    intros l k x y. unfold read_of, unread. cbn [find fst]. destruct (path_eqb_spec k y) as [->|N]; [reflexivity|]. f_equal. induction l as [|[q z] l IH]; [reflexivity|]. cbn [filter fst find]. destruct (path_eqb_spec q k) as [->|Nq]; cbn [negb find fst].
    - rewrite IH. destruct (path_eqb_spec k y); [congruence|reflexivity].
    - destruct (path_eqb q y); [reflexivity|exact IH].
  Qed.
  Lemma read_del : forall l k y, read_of (unread l k) y = if path_eqb k y then None else read_of (V := V) l y.
  Proof.
    intros l k y. unfold read_of, unread. induction l as [|[q z] l IH]; [destruct (path_eqb k y); reflexivity|]. cbn [filter fst find]. destruct (path_eqb_spec q k) as [->|Nq]; cbn [negb find fst].
    - rewrite IH. destruct (path_eqb_spec k y); reflexivity.
    - destruct (path_eqb_spec q y) as [->|]; [|exact IH]. destruct (path_eqb_spec k y); [congruence|reflexivity].
  Qed.
  Lemma CI_reads_change : forall P s art rd v rd', CI P (mk_w s art rd) v -> (forall k, option_map fst (rget rd k) = read_of rd' k) -> CI P (mk_w s art rd) (mk_view (committed v) (working v) (staged v) (touched v) (raws v) rd').
  Proof. intros P s art rd v rd' [] X. constructor; assumption. Qed.
  Lemma CI_swap_reads : forall P s art rd rd' v vr, CI P (mk_w s art rd) v -> (forall k, option_map fst (rget rd' k) = read_of vr k) -> CI P (mk_w s art rd') (mk_view (committed v) (working v) (staged v) (touched v) (raws v) vr).
  Proof. intros P s art rd rd' v vr [] X. constructor; assumption. Qed.
  Lemma world_eta : forall w, mk_w (x_sm w) (x_art w) (x_reads w) = w.
  Proof. intros []. reflexivity. Qed.

  Lemma mut_ok : forall P w v k st f x, CI P w v -> no_collision H P -> ~ In k (raws v) -> length k = KEY_BITS -> working v k = Some x -> (st = SUpdate \/ st = SRemove /\ f = Some /\ committed v k <> None) ->
    (forall y, f x = Some y -> ok enc dec k y) -> long_ok P (enc x) ->
    exists s', match f x with
      | None => with_mut dec (x_sm w) k st f = (s', Err EClosure) /\ CI P (mk_w s' (x_art w) (x_reads w)) v
      | Some y => with_mut dec (x_sm w) k st f = (s', Ok tt) /\ CI P (mk_w s' (x_art w) (x_reads w)) (change v k (match st with SRemove => None | _ => Some y end))
      end.
  Proof.
    intros P w v k st f x C N R Lk W St Ok Lx. unfold with_mut. destruct (get_ok P w v k C N R) as [s1 [E C1]]. rewrite E, W. rewrite W in E. destruct (get_typed P w v k s1 x C N R E) as [e [Ec [Tc [Ev Eo]]]].
    unfold with_mut_entry. rewrite Ec, Ev. destruct (f x) as [y|] eqn:Fx; [|exists s1; auto].
    assert (Wk : forall o, put (working v) k o k = o) by (intro; apply put_same).
    destruct St as [->|[-> [-> Cn]]].
    - assert (Pd : forall v' e', raws v' = raws v -> c_clean e' = c_clean e -> c_value e' = Typed y -> pend v' k e').
      { intros v' e' R1 R2 R3. unfold pend. rewrite R1, R2, R3. split; [tauto|]. intros _. split; [exact I|exact Tc]. }
      destruct (c_status e) eqn:S.
      + eexists. split; [reflexivity|]. unfold ent_ok in Eo. rewrite S in Eo. destruct Eo as [T [_ [Cn _]]].
        assert (D : In k (m_dirty s1)). { apply (ci_dirty _ _ _ C1). exact T. }
        pose proof (CI_change P s1 (x_art w) (x_reads w) v k (Some y) (raws v) (mk_ce (c_clean e) (Typed y) SAdd) C1 Lk) as X. unfold mark in X. destruct (in_dec _ k (m_dirty s1)) as [_|Nd]; [|contradiction].
        apply X; [intros z Ez; inversion Ez; subst; auto|tauto|]. unfold ent_ok. cbn [c_status c_value]. split; [left; reflexivity|]. split; [apply Pd; reflexivity|]. split; [exact Cn|]. exists y. split; [apply Wk|reflexivity].
      + eexists. split; [reflexivity|]. unfold ent_ok in Eo. rewrite S in Eo. destruct Eo as [T [_ [a [b [Ca [_ [Ra _]]]]]]].
        apply (CI_change P s1 (x_art w) (x_reads w) v k (Some y) (raws v)); [exact C1|exact Lk|intros z Ez; inversion Ez; subst; auto|tauto|]. unfold ent_ok. cbn [c_status c_value c_clean]. split; [left; reflexivity|]. split; [apply Pd; reflexivity|]. exists a, y. split; [exact Ca|]. split; [apply Wk|]. split; [exact Ra|reflexivity].
      + unfold ent_ok in Eo. rewrite S in Eo. destruct Eo as [_ [_ [W0 _]]]. congruence.
      + eexists. split; [reflexivity|]. unfold ent_ok in Eo. rewrite S in Eo. destruct Eo as [T [_ [Ecv [a [Ca Ra]]]]].
        apply (CI_change P s1 (x_art w) (x_reads w) v k (Some y) (raws v)); [exact C1|exact Lk|intros z Ez; inversion Ez; subst; auto|tauto|]. unfold ent_ok. cbn [c_status c_value c_clean]. split; [left; reflexivity|]. split; [apply Pd; reflexivity|]. exists a, y. split; [exact Ca|]. split; [apply Wk|]. split; [rewrite Ecv; exact Ra|reflexivity].
    - inversion Fx; subst y. exists (mk_sm (cput (m_cache s1) k (mk_ce (c_clean e) (Typed x) SRemove)) (mark (m_dirty s1) k) (m_store s1)). split; [destruct (c_status e); reflexivity|].
      apply (CI_change P s1 (x_art w) (x_reads w) v k None (raws v)); [exact C1|exact Lk|discriminate|tauto|]. unfold ent_ok. cbn [c_status c_value c_clean cenc]. split; [left; reflexivity|].
      split; [split; [intro X; contradiction|intros _; split; [exact I|exact Tc]]|]. split; [apply Wk|]. split; [|exact Lx].
      unfold ent_ok in Eo. destruct (c_status e) eqn:S; [destruct Eo as [_ [_ [X _]]]; contradiction|..].
      + destruct Eo as [_ [_ [a [b [Ca [_ [Ra _]]]]]]]. eauto.
      + destruct Eo as [_ [_ [_ [[a [Ca Ra]] _]]]]. eauto.
      + destruct Eo as [_ [_ [Ecv [a [Ca Ra]]]]]. exists a. split; [exact Ca|rewrite Ecv; exact Ra].
  Qed.
  Lemma step_ok : forall P w v o, CI P w v -> no_collision H P -> tidy enc dec v o -> (forall k x, working v k = Some x -> long_ok P (enc x)) ->
    CI P (fst (step H enc dec w o)) (next dec v o) /\ expects H enc v o (snd (step H enc dec w o)).
  Proof.
    intros P w v o C N T Lg. destruct o as [k|k|k x|k f|k|k|k b|k b|k|ord| |ord| | |k|k|k]; cbn [tidy step next expects] in *.
    - destruct (get_ok P w v k C N T) as [s' [E C']]. rewrite E. cbn. split; [exact C'|reflexivity].
    - destruct T as [R Cn]. unfold get_clean. pose proof (ci_cell _ _ _ C k) as X.
      assert (Db : (match cget (m_cache (x_sm w)) k with Some e => ~ typed (c_clean e) | None => True end) -> ~ In k (touched v) -> let (s', r) := match retrieve (x_sm w) k with Ok None => (x_sm w, Ok None) | Ok (Some b) => match dec k b with Some v => (insert_clean (x_sm w) k v, Ok (Some v)) | None => (x_sm w, Err EDecode) end | Err x => (x_sm w, Err x) | Panic => (x_sm w, Panic) end in
        CI P (fst (ret w s' (val r))) v /\ snd (ret w s' (val r)) = Value (committed v k)).
      { intros _ Tn. rewrite (retrieve_ok P w v k C N). unfold encoded. destruct (committed v k) as [x|] eqn:Cx; cbn [option_map].
        - rewrite (ci_okc _ _ _ C k x Cx). cbn. split; [|reflexivity]. apply insert_clean_CI; [exact C|exact Tn|]. rewrite (untouched P w v k C Tn). exact Cx.
        - cbn. rewrite world_eta. auto. }
      destruct (cget (m_cache (x_sm w)) k) as [e|]; cbn [cell_ok] in X.
      + destruct (c_clean e) as [y|b] eqn:Ec.
        * cbn. rewrite world_eta. split; [exact C|]. f_equal. unfold ent_ok in X. destruct (c_status e).
          -- destruct X as [_ [_ [Cz [z [Wz _]]]]]. rewrite (Cn Cz) in Wz. discriminate.
          -- destruct X as [_ [_ [a [z [Ca [_ [Ra _]]]]]]]. rewrite Ec in Ra. cbn in Ra. congruence.
          -- destruct X as [_ [_ [_ [[a [Ca Ra]] _]]]]. rewrite Ec in Ra. cbn in Ra. congruence.
          -- destruct X as [_ [_ [Ecv [a [Ca Ra]]]]]. rewrite <- Ecv, Ec in Ra. cbn in Ra. congruence.
        * assert (Tn : ~ In k (touched v)).
          { unfold ent_ok in X. destruct (c_status e); [| | |tauto]; (destruct X as [_ [[_ Pd] _]]; destruct (Pd R) as [_ Ty]; rewrite Ec in Ty; destruct Ty). }
          destruct (retrieve (x_sm w) k) as [[b'|]|x|]; try (destruct (dec k b')); apply Db; auto.
      + destruct X as [Tn _]. destruct (retrieve (x_sm w) k) as [[b'|]|x|]; try (destruct (dec k b')); apply Db; auto.
    - destruct T as [R [Lk [Okx Cn]]]. unfold add. destruct (get_ok P w v k C N R) as [s' [E C']]. rewrite E. destruct (working v k) as [y|] eqn:W; cbn; [auto|]. split; [|reflexivity].
      assert (Ck : committed v k = None) by (destruct (committed v k); [exfalso; apply Cn; [discriminate|reflexivity]|reflexivity]).
      apply (CI_change P s' (x_art w) (x_reads w) v k (Some x) (raws v)); [exact C'|exact Lk|intros z Ez; inversion Ez; subst; exact Okx|tauto|]. unfold ent_ok. cbn [c_status c_value]. split; [left; reflexivity|]. split; [split; [intro X; contradiction|intros _; split; exact I]|]. split; [exact Ck|]. exists x. split; [apply put_same|reflexivity].
    - destruct T as [R [Lk Okf]]. destruct (working v k) as [x|] eqn:W.
      + destruct (mut_ok P w v k SUpdate f x C N R Lk W (or_introl eq_refl) (fun y => Okf x y eq_refl) (Lg k x W)) as [s' X]. destruct (f x) as [y|]; destruct X as [E C']; rewrite E; cbn; auto.
      + unfold with_mut. destruct (get_ok P w v k C N R) as [s' [E C']]. rewrite E, W. cbn. auto.
    - destruct T as [R [Lk Cn]]. destruct (working v k) as [x|] eqn:W.
      + destruct (mut_ok P w v k SRemove Some x C N R Lk W) as [s' X]; [right; split; [reflexivity|]; split; [reflexivity|]; intro Y; specialize (Cn Y); congruence|intros y Ey; inversion Ey; subst; apply (ci_okw _ _ _ C); exact W|apply (Lg k x W)|].
        cbn in X. destruct X as [E C']. rewrite E. cbn. auto.
      + unfold with_mut. destruct (get_ok P w v k C N R) as [s' [E C']]. rewrite E, W. cbn. auto.
    - cbn. rewrite world_eta. split; [exact C|]. unfold get_raw. pose proof (ci_cell _ _ _ C k) as X. destruct (in_dec (list_eq_dec Bool.bool_dec) k (touched v)) as [I|Nt].
      + destruct (T I) as [R Wn]. destruct (cget (m_cache (x_sm w)) k) as [[cl va st]|]; cbn [cell_ok] in X; [|tauto]. unfold ent_ok in X. cbn [c_status c_value c_clean] in X. unfold encoded. destruct st; [| |tauto|tauto].
        * destruct X as [_ [[Pd _] [_ [y [W Rp]]]]]. destruct va as [z|b]; [exfalso; apply (Pd R); exact Logic.I|]. destruct Rp as [_ Rp]. rewrite W. cbn. congruence.
        * destruct X as [_ [[Pd _] [a [y [_ [W [_ Rp]]]]]]]. destruct va as [z|b]; [exfalso; apply (Pd R); exact Logic.I|]. destruct Rp as [_ Rp]. rewrite W. cbn. congruence.
      + assert (Eq : encoded enc (working v) k = encoded enc (committed v) k) by (unfold encoded; rewrite (untouched P w v k C Nt); reflexivity).
        destruct (cget (m_cache (x_sm w)) k) as [[cl va st]|]; cbn [cell_ok] in X; [|rewrite (retrieve_ok P w v k C N), Eq; reflexivity].
        destruct va as [z|b]; [rewrite (retrieve_ok P w v k C N), Eq; reflexivity|]. unfold ent_ok in X. cbn [c_status c_value c_clean] in X. destruct st; try tauto. destruct X as [_ [W [_ [y [Cy [_ Rp]]]]]]. unfold encoded. rewrite W, Cy. cbn. congruence.
    - destruct T as [Lk [Wc [x [Dx Ex]]]]. unfold add_raw. rewrite (retrieve_ok P w v k C N). unfold encoded. destruct (working v k) as [y|] eqn:W.
      + destruct (committed v k) as [z|]; [|exfalso; destruct Wc as [_ X]; specialize (X eq_refl); discriminate]. cbn. rewrite world_eta. auto.
      + rewrite (proj1 Wc eq_refl). cbn. split; [|reflexivity]. rewrite Dx. apply (CI_change P (x_sm w) (x_art w) (x_reads w) v k (Some x) (k :: raws v)); [rewrite world_eta; exact C|exact Lk|intros z Ez; inversion Ez; subst; unfold ok; congruence|intros z Nz; cbn [In]; split; [auto|intros [X|X]; [congruence|exact X]]|].
        unfold ent_ok. cbn [c_status c_value]. split; [left; reflexivity|]. split; [split; [intros _ Y; exact Y|intro Y; exfalso; apply Y; left; reflexivity]|]. split; [apply Wc; reflexivity|]. exists x. split; [apply put_same|]. split; assumption.
    - destruct T as [Lk [Wc [x [Dx Ex]]]]. unfold update_raw. rewrite (retrieve_ok P w v k C N). unfold encoded. destruct (working v k) as [y|] eqn:W.
      + destruct (committed v k) as [z|] eqn:Cz; [|exfalso; destruct Wc as [_ X]; specialize (X eq_refl); discriminate]. cbn. split; [|reflexivity]. rewrite Dx.
        apply (CI_change P (x_sm w) (x_art w) (x_reads w) v k (Some x) (k :: raws v)); [rewrite world_eta; exact C|exact Lk|intros q Ez; inversion Ez; subst; unfold ok; congruence|intros q Nz; cbn [In]; split; [auto|intros [X|X]; [congruence|exact X]]|].
        unfold ent_ok. cbn [c_status c_value c_clean]. split; [left; reflexivity|]. split; [split; [intros _ Y; exact Y|intro Y; exfalso; apply Y; left; reflexivity]|]. exists z, x. split; [exact Cz|]. split; [apply put_same|]. split; [split; [apply (ci_okc _ _ _ C); exact Cz|reflexivity]|split; assumption].
      + rewrite (proj1 Wc eq_refl). cbn. rewrite world_eta. auto.
    - destruct T as [Lk Wc]. unfold remove_raw. rewrite (retrieve_ok P w v k C N). unfold encoded. destruct (working v k) as [y|] eqn:W.
      + destruct (committed v k) as [z|] eqn:Cz; [|exfalso; destruct Wc as [_ X]; specialize (X eq_refl); discriminate]. cbn. split; [|reflexivity].
        apply (CI_change P (x_sm w) (x_art w) (x_reads w) v k None (k :: raws v)); [rewrite world_eta; exact C|exact Lk|discriminate|intros q Nz; cbn [In]; split; [auto|intros [X|X]; [congruence|exact X]]|].
        unfold ent_ok. cbn [c_status c_value c_clean cenc]. split; [left; reflexivity|]. split; [split; [intros _ Y; exact Y|intro Y; exfalso; apply Y; left; reflexivity]|]. split; [apply put_same|]. split; [exists z; split; [exact Cz|]; split; [apply (ci_okc _ _ _ C); exact Cz|reflexivity]|]. intro Y. cbn in Y. lia.
      + rewrite (proj1 Wc eq_refl). cbn. rewrite world_eta. auto.
    - destruct T as [Pm [Kp Sg]]. destruct (commit_ok P w v ord C Pm Kp Sg Lg) as [s' [E C']]. rewrite E. cbn. auto.
    - cbn. split; [|reflexivity]. apply (rollback_CI P w v (x_art w) (staged v) (m_store (x_sm w)) C (ci_store _ _ _ C)). pose proof (ci_art _ _ _ C) as A. destruct (x_art w), (staged v); assumption.
    - destruct T as [Pm Kp]. destruct (prepare_ok P w v ord C Pm Kp Lg) as [s' [a [E [C' X]]]]. rewrite E. cbn [fst snd]. split; [exact C'|]. destruct (touched v); [subst a; reflexivity|]. destruct X as [b [-> X]]. cbn. eauto.
    - pose proof (ci_art _ _ _ C) as A. destruct (x_art w) as [a|] eqn:Ea, (staged v) as [m|] eqn:Em; try (destruct A; fail); cbn [fst snd]; [|auto]. split; [|reflexivity]. apply (apply_ok P w v a m); assumption.
    - cbn. rewrite world_eta. split; [exact C|]. destruct (SI_root H P _ _ (ci_store _ _ _ C)) as [d [L R]]. eexists. split; [reflexivity|]. exists d. auto.
    - cbn. split; [|reflexivity]. apply CI_cache; [exact C|]. intro y. rewrite cget_del. destruct (path_eqb_spec k y) as [<-|]; [|apply (ci_cell _ _ _ C)]. cbn. split; [exact T|apply (untouched P w v k C T)].
    - destruct (lookup_ok P w v k C N T) as [b [E Tb]]. rewrite E. cbn [fst snd]. split; [|reflexivity]. eapply CI_swap_reads; [rewrite world_eta; exact C|]. intro y. rewrite rget_cons, read_cons. destruct (path_eqb k y); [reflexivity|apply (ci_reads _ _ _ C)].
    - pose proof (ci_reads _ _ _ C k) as Er. destruct (rget (x_reads w) k) as [[o b]|] eqn:Eg; cbn [option_map fst] in Er; rewrite <- Er in *; cbn [fst snd].
      + split; [|reflexivity]. destruct T as [Tn Wk]. subst o. eapply CI_swap_reads; [apply finish_CI; [exact C|auto]|]. intro y. rewrite rget_del, read_del. destruct (path_eqb k y); [reflexivity|apply (ci_reads _ _ _ C)].
      + split; [|reflexivity]. rewrite <- (world_eta w). eapply CI_swap_reads; [rewrite world_eta; exact C|]. intro y. rewrite read_del. destruct (path_eqb_spec k y) as [<-|]; [rewrite Eg; reflexivity|apply (ci_reads _ _ _ C)].
  Qed.
  Lemma run_ok : forall P l w v, CI P w v -> no_collision H P -> tidy_run enc dec v l -> (forall v' k x, In v' (views dec v l) -> working v' k = Some x -> long_ok P (enc x)) ->
    conforms H enc dec v l (snd (run H enc dec w l)).
  Proof.
    intro P. induction l as [|o l IH]; intros w v C N T Lg; cbn [run tidy_run] in *; [exact I|]. destruct T as [To Tl].
    destruct (step_ok P w v o C N To) as [C1 E1]; [intros k x; apply Lg; left; reflexivity|]. destruct (step H enc dec w o) as [w1 a]. cbn [fst snd] in *.
    specialize (IH w1 (next dec v o) C1 N Tl). destruct (run H enc dec w1 l) as [w2 r]. cbn [snd] in *. split; [exact E1|]. apply IH. intros v' k x I. apply Lg. right. exact I.
  Qed.
  Lemma start_CI : forall P, CI P start fresh.
  Proof.
    intro P. constructor; cbn; try (intros; reflexivity || discriminate || contradiction).
    - eapply SI_ext; [apply SI_empty|]. reflexivity.
    - constructor.
    - auto.
  Qed.
  Lemma state_cache_ok : forall l, tidy_run enc dec fresh l -> no_collision H (long_values enc dec l) -> conforms H enc dec fresh l (snd (run H enc dec start l)).
  Proof.
    intros l T N. apply (run_ok (long_values enc dec l)); [apply start_CI|exact N|exact T|]. intros v' k x I W L. exists v', k, x. auto.
  Qed.
End Cache.
