From Verif Require Import Base Base_Proofs Trie_Model Trie_Spec Trie4_Proofs StateCache_Model StateCache_Spec StateCache_Proofs StateKeys_Model Boot_Model Boot_Spec.
From Verif Require Net_Model Net_Proofs.
From Coq Require Import Permutation.

Lemma chapter_component : forall i, component i -> chapter i = component_key i.
Proof.
  intros i [A B]. assert (C : In i chapters).
  { assert (i = 1 \/ i = 2 \/ i = 3 \/ i = 4 \/ i = 5 \/ i = 6 \/ i = 7 \/ i = 8 \/ i = 9 \/ i = 10 \/ i = 11 \/ i = 12 \/ i = 13 \/ i = 14 \/ i = 15 \/ i = 16)%N by lia.
    unfold chapters. cbn [In]. intuition congruence. }
  unfold chapters in C. cbn [In] in C. repeat (destruct C as [<-|C]; [reflexivity|]). contradiction.
Qed.
Lemma in_chapters : forall i, In i chapters <-> component i.
Proof.
  intro i. split.
  - unfold chapters. cbn [In]. intro C. unfold component. repeat (destruct C as [<-|C]; [lia|]). contradiction.
  - intros [A B]. assert (i = 1 \/ i = 2 \/ i = 3 \/ i = 4 \/ i = 5 \/ i = 6 \/ i = 7 \/ i = 8 \/ i = 9 \/ i = 10 \/ i = 11 \/ i = 12 \/ i = 13 \/ i = 14 \/ i = 15 \/ i = 16)%N by lia.
    unfold chapters. cbn [In]. intuition congruence.
Qed.
Fixpoint distinctb (l : list path) : bool := match l with [] => true | x :: l' => negb (existsb (path_eqb x) l') && distinctb l' end.
Lemma path_eqb_refl : forall p, path_eqb p p = true.
Proof. intro p. unfold path_eqb. destruct (list_eq_dec Bool.bool_dec p p); congruence. Qed.
Lemma distinctb_ok : forall l, distinctb l = true -> NoDup l.
Proof.
  induction l as [|x l IH]; intro D; [constructor|]. cbn [distinctb] in D. apply andb_prop in D. destruct D as [D1 D2]. constructor; [|apply IH, D2].
  intro I. apply Bool.negb_true_iff in D1. assert (existsb (path_eqb x) l = true); [|congruence]. apply existsb_exists. exists x. split; [exact I|apply path_eqb_refl].
Qed.
Lemma chapters_distinct : NoDup (map chapter chapters).
Proof. apply distinctb_ok. vm_compute. reflexivity. Qed.
Lemma chapters_keys : forall k, In k (map chapter chapters) -> length k = KEY_BITS.
Proof.
  intros k I. assert (F : forallb (fun k => Nat.eqb (length k) KEY_BITS) (map chapter chapters) = true) by (vm_compute; reflexivity).
  rewrite forallb_forall in F. apply Nat.eqb_eq. apply F. exact I.
Qed.

(** *** The index and the peers *)
Lemma index_ok : forall l k, first_place l k (get_validator_index l k).
Proof.
  induction l as [|v l IH]; intro k; cbn [get_validator_index]; [intros v []|].
  destruct (N.eqb_spec (vk_band v) k) as [E|E].
  - split; [cbn; congruence|intros; lia].
  - specialize (IH k). destruct (get_validator_index l k) as [i|]; cbn [option_map first_place] in *.
    + destruct IH as [A B]. split; [exact A|]. intros [|j] L; [cbn; congruence|apply B; lia].
    + intros w [<-|I]; auto.
Qed.
Lemma peers_ok : forall past active staging local, dials past active staging local (Net_Model.load_peers local (map vk_peer past) (map vk_peer active) (map vk_peer staging)).
Proof. intros past active staging local p. rewrite Net_Proofs.loaded_iff, !map_app. reflexivity. Qed.

(** *** Adding the components *)
Section Add.
  Context (H : bytes -> bytes) {V : Type} (enc : V -> bytes) (dec : path -> bytes -> option V).
  Definition adds (l : list (path * V)) : list (op (V := V)) := map (fun e => Add (fst e) (snd e)) l.
  Definition put_all (m : path -> option V) (l : list (path * V)) : path -> option V := fold_left (fun m e => put m (fst e) (Some (snd e))) l m.
  Definition nexts (v : view (V := V)) (l : list (op (V := V))) : view := fold_left (next dec) l v.
  Lemma tidy_run_app : forall l1 v l2, tidy_run enc dec v (l1 ++ l2) <-> tidy_run enc dec v l1 /\ tidy_run enc dec (nexts v l1) l2.
  Proof. induction l1 as [|o l1 IH]; intros v l2; cbn [app tidy_run nexts fold_left]; [tauto|]. rewrite IH. unfold nexts. tauto. Qed.
  Lemma run_app : forall l1 w l2, run H enc dec w (l1 ++ l2) = let (w1, a1) := run H enc dec w l1 in let (w2, a2) := run H enc dec w1 l2 in (w2, a1 ++ a2).
  Proof.
    induction l1 as [|o l1 IH]; intros w l2; cbn [app run]; [destruct (run H enc dec w l2); reflexivity|].
    destruct (step H enc dec w o) as [w1 a]. rewrite IH. destruct (run H enc dec w1 l1) as [w2 a1]. destruct (run H enc dec w2 l2). reflexivity.
  Qed.
  Lemma run_length : forall l w, length (snd (run H enc dec w l)) = length l.
  Proof. induction l as [|o l IH]; intro w; cbn [run]; [reflexivity|]. destruct (step H enc dec w o) as [w1 a]. specialize (IH w1). destruct (run H enc dec w1 l). cbn in *. lia. Qed.
  Lemma conforms_app : forall l1 v l2 a1 a2, length a1 = length l1 -> (conforms H enc dec v (l1 ++ l2) (a1 ++ a2) <-> conforms H enc dec v l1 a1 /\ conforms H enc dec (nexts v l1) l2 a2).
  Proof.
    induction l1 as [|o l1 IH]; intros v l2 [|a a1] a2 L; try discriminate; cbn [app conforms nexts fold_left]; [tauto|].
    rewrite IH by (cbn in L; lia). unfold nexts. tauto.
  Qed.
  Lemma adds_view : forall l v, NoDup (map fst l) -> (forall e, In e l -> working v (fst e) = None) -> committed v = (fun _ => None) -> raws v = [] ->
    (forall e, In e l -> length (fst e) = KEY_BITS /\ dec (fst e) (enc (snd e)) = Some (snd e)) ->
    tidy_run enc dec v (adds l) /\ nexts v (adds l) = mk_view (committed v) (put_all (working v) l) (staged v) (rev (map fst l) ++ touched v) (raws v) (reads v).
  Proof.
    induction l as [|[k x] l IH]; intros v N W C R K; [split; [exact Logic.I|destruct v; reflexivity]|].
    cbn [map fst] in N. inversion N as [|? ? N1 N2]; subst. pose proof (W _ (or_introl eq_refl)) as Wk. cbn [fst] in Wk. destruct (K _ (or_introl eq_refl)) as [K1 K2]. cbn [fst snd] in K1, K2.
    cbn [adds map fst snd tidy_run nexts fold_left]. assert (Nx : next dec v (Add k x) = change v k (Some x)) by (cbn [next]; rewrite Wk; reflexivity). rewrite Nx.
    destruct (IH (change v k (Some x))) as [A B]; try assumption.
    - intros e I. unfold change, put. cbn [working]. destruct (list_eq_dec Bool.bool_dec (fst e) k) as [E|_]; [|apply W; right; exact I].
      exfalso. apply N1. rewrite <- E. apply in_map, I.
    - intros e I. apply K. right. exact I.
    - split.
      + split; [|exact A]. cbn [tidy]. split; [rewrite R; intros []|]. split; [exact K1|]. split; [exact K2|]. rewrite C. congruence.
      + fold (adds l). unfold nexts in B. rewrite B. unfold change. cbn [committed working staged touched raws reads]. cbn [map fst rev put_all fold_left snd]. rewrite <- app_assoc. reflexivity.
  Qed.
  (** When every addition is answered with success, the whole succeeds. *)
  Lemma add_all_run : forall l w, (forall a, In a (snd (run H enc dec w (adds l))) -> a = Done) -> add_all dec (x_sm w) l = (x_sm (fst (run H enc dec w (adds l))), Ok tt) /\
    x_art (fst (run H enc dec w (adds l))) = x_art w /\ x_reads (fst (run H enc dec w (adds l))) = x_reads w.
  Proof.
    induction l as [|[k x] l IH]; intros w D; [auto|]. cbn [adds map fst snd run] in *. fold (adds l) in *. cbn [step add_all] in *.
    destruct (add dec (x_sm w) k x) as [s1 r]. unfold ret in *. destruct (run H enc dec (mk_w s1 (x_art w) (x_reads w)) (adds l)) as [w2 a2] eqn:E2. cbn [fst snd] in *.
    assert (R : r = Ok tt). { specialize (D _ (or_introl eq_refl)). destruct r as [[]| |]; [reflexivity|discriminate D|discriminate D]. } subst r.
    destruct (IH (mk_w s1 (x_art w) (x_reads w))) as [A [B C]]; rewrite E2 in *; cbn [fst snd x_sm x_art x_reads] in *; [intros a I; apply D; right; exact I|]. auto.
  Qed.
  Lemma get_store : forall s k, m_store (fst (get dec s k)) = m_store s.
  Proof.
    intros s k. unfold get. destruct (lookup dec s k) as [[o b]| |]; [|reflexivity|reflexivity]. cbn [fst finish]. destruct o as [x|]; [|reflexivity]. destruct b; reflexivity.
  Qed.
  Lemma get_clean_store : forall s k, m_store (fst (get_clean dec s k)) = m_store s.
  Proof.
    intros s k. unfold get_clean. destruct (match cget (m_cache s) k with Some e => match c_clean e with Typed v => Some v | Raw _ => None end | None => None end); [reflexivity|].
    destruct (retrieve s k) as [[b|]| |]; try reflexivity. destruct (dec k b); reflexivity.
  Qed.
  Lemma add_store : forall s k x, m_store (fst (add dec s k x)) = m_store s.
  Proof. intros s k x. unfold add. pose proof (get_store s k) as G. destruct (get dec s k) as [s1 [[?|]| |]]; cbn [fst] in *; exact G. Qed.
  Lemma add_all_store : forall l s, m_store (fst (add_all dec s l)) = m_store s.
  Proof.
    induction l as [|[k x] l IH]; intro s; [reflexivity|]. cbn [add_all]. pose proof (add_store s k x) as A. destruct (add dec s k x) as [s1 [[]| |]]; cbn [fst] in *; [rewrite IH; exact A|exact A|exact A].
  Qed.
  (** A key that is not plainly absent cannot be added. *)
  Lemma add_all_refused : forall l s k x, m_cache s = [] -> store_read (m_store s) k <> Ok None -> exists e, snd (add_all dec s ((k, x) :: l)) = Err e.
  Proof.
    intros l s k x C R. cbn [add_all]. unfold add, get, lookup, retrieve. rewrite C. cbn [cget find option_map].
    destruct (store_read (m_store s) k) as [[b|]|e|]; [|congruence| |]; [|eexists; reflexivity|eexists; reflexivity].
    destruct (dec k b) as [v|]; [|eexists; reflexivity]. eexists. reflexivity.
  Qed.
  (** The histories of coming up hold only the added values. *)
  Definition reads_only (o : op (V := V)) : Prop := match o with Get _ | GetClean _ | GetRaw _ | ReadRoot | Evict _ => True | _ => False end.
  Definition within (l : list (path * V)) (m : path -> option V) : Prop := forall k x, m k = Some x -> In (k, x) l.
  Lemma views_within : forall es l v, within es (committed v) -> within es (working v) -> Forall (fun o => reads_only o \/ (exists k x, o = Add k x /\ In (k, x) es) \/ exists ord, o = Commit ord) l ->
    forall v', In v' (views dec v l) -> within es (working v').
  Proof.
    intro es. induction l as [|o l IH]; intros v C W F v' I; cbn [views] in I; [destruct I as [<-|[]]; exact W|].
    destruct I as [<-|I]; [exact W|]. inversion F as [|? ? F1 F2]; subst. apply (IH (next dec v o)); try assumption.
    - destruct F1 as [R|[[k [x [-> J]]]|[ord ->]]]; [destruct o; try contradiction; exact C| |exact W]. cbn [next]. destruct (working v k); exact C.
    - destruct F1 as [R|[[k [x [-> J]]]|[ord ->]]]; [destruct o; try contradiction; exact W| |exact W]. cbn [next]. destruct (working v k); [exact W|].
      unfold change. cbn [working]. intros k' x'. unfold put. destruct (list_eq_dec Bool.bool_dec k' k) as [->|]; [intro E; inversion E; subst; exact J|apply W].
  Qed.
  Lemma put_all_spec : forall l m k, NoDup (map fst l) -> (forall x, In (k, x) l -> put_all m l k = Some x) /\ (~ In k (map fst l) -> put_all m l k = m k).
  Proof.
    induction l as [|[k0 x0] l IH]; intros m k N; [split; [intros ? []|reflexivity]|]. cbn [map fst] in N. inversion N as [|? ? N1 N2]; subst. cbn [put_all fold_left fst snd]. fold (put_all (put m k0 (Some x0)) l).
    destruct (IH (put m k0 (Some x0)) k N2) as [A B]. split.
    - intros x [E|I]; [inversion E; subst|apply A, I]. rewrite B by exact N1. unfold put. destruct (list_eq_dec Bool.bool_dec k k); congruence.
    - cbn [map fst In]. intro D. rewrite B by tauto. unfold put. destruct (list_eq_dec Bool.bool_dec k k0) as [->|]; [exfalso; apply D; auto|reflexivity].
  Qed.

  Context (es : list (path * V)) (ord : list path -> list path).
  Context (Nes : NoDup (map fst es)) (Kes : forall e, In e es -> length (fst e) = KEY_BITS /\ dec (fst e) (enc (snd e)) = Some (snd e)) (Pord : forall l, Permutation l (ord l))
    (Ce : no_collision H (fun b => exists e, In e es /\ b = enc (snd e) /\ 32 < length b)).
  Let m : path -> option V := put_all (fun _ => None) es.
  Let w1 := fst (run H enc dec start (adds es)).
  Let v1 := nexts fresh (adds es).
  Lemma v1_eq : v1 = mk_view (fun _ => None) m None (rev (map fst es) ++ []) [] [].
  Proof. destruct (adds_view es (fresh (V := V)) Nes) as [_ B]; try reflexivity; [exact Kes|]. exact B. Qed.
  Lemma history_conforms : forall tl, Forall reads_only tl -> (forall a, In a (snd (run H enc dec start (adds es))) -> a = Done) /\
    conforms H enc dec v1 (Commit ord :: tl) (snd (run H enc dec w1 (Commit ord :: tl))).
  Proof.
    intros tl F. assert (T : tidy_run enc dec fresh (adds es ++ Commit ord :: tl)).
    { apply tidy_run_app. destruct (adds_view es (fresh (V := V)) Nes) as [A _]; try reflexivity; [exact Kes|]. split; [exact A|]. fold v1. rewrite v1_eq. cbn [tidy_run]. split.
      - cbn [tidy]. split; [exact Pord|]. split; [left; intros k C; exfalso; apply C; reflexivity|reflexivity].
      - cbn [next committed working staged touched raws reads]. 
        assert (G : forall tl, Forall reads_only tl -> tidy_run enc dec (mk_view m m None [] [] []) tl).
        { induction tl0 as [|o tl0 IH]; intro F0; [exact Logic.I|]. inversion F0 as [|? ? F1 F2]; subst. cbn [tidy_run].
          destruct o; cbn [reads_only] in F1; try contradiction; cbn [next tidy committed working raws touched]; (split; [|apply IH, F2]).
          - intros [].
          - split; [intros []|auto].
          - intros [].
          - exact Logic.I.
          - intros []. }
        apply G, F. }
    assert (NC : no_collision H (long_values enc dec (adds es ++ Commit ord :: tl))).
    { assert (U : forall b, long_values enc dec (adds es ++ Commit ord :: tl) b -> exists e, In e es /\ b = enc (snd e) /\ 32 < length b).
      { intros b [v [k [x [I [W [E L]]]]]]. exists (k, x). split; [|auto]. revert W. apply (views_within es (adds es ++ Commit ord :: tl) fresh); try (intros ? ? ?; discriminate); [|exact I].
        apply Forall_app. split; [|constructor; [right; right; eexists; reflexivity|]].
        - apply Forall_forall. intros o J. apply in_map_iff in J. destruct J as [[k' x'] [<- J]]. right. left. cbn [fst snd]. eauto.
        - eapply Forall_impl; [|exact F]. intros; auto. }
      intros a b A B. apply Ce; apply U; assumption. }
    pose proof (state_cache_ok H enc dec _ T NC) as C. rewrite run_app in C.
    unfold w1. destruct (run H enc dec start (adds es)) as [w a1] eqn:E1. cbn [fst]. destruct (run H enc dec w (Commit ord :: tl)) as [w2 a2] eqn:E2. cbn [snd] in *.
    assert (L1 : length a1 = length (adds es)). { pose proof (run_length (adds es) start) as L. rewrite E1 in L. exact L. }
    apply conforms_app in C; [|exact L1]. destruct C as [C1 C2]. split; [|exact C2].
    clear -C1 Nes. revert C1. assert (G : forall (l : list (path * V)) v a1, NoDup (map fst l) -> (forall e, In e l -> working v (fst e) = None) -> conforms H enc dec v (adds l) a1 -> forall a, In a a1 -> a = Done).
    { induction l as [|[k x] l IH]; intros v [|a a1'] N W C a' I; try contradiction. cbn [adds map fst snd conforms] in C. destruct C as [C1 C2]. cbn [map fst] in N. inversion N as [|? ? N1 N2]; subst.
      pose proof (W _ (or_introl eq_refl)) as Wk. cbn [fst] in Wk. cbn [expects] in C1. rewrite Wk in C1. cbn in C1. destruct I as [<-|I]; [exact C1|].
      refine (IH _ _ N2 _ C2 _ I). intros e J. cbn [next]. rewrite Wk. unfold change, put. cbn [working]. destruct (list_eq_dec Bool.bool_dec (fst e) k) as [E|_]; [exfalso; apply N1; rewrite <- E; apply in_map, J|apply W; right; exact J]. }
    intro C1. eapply G; [exact Nes| |exact C1]. reflexivity.
  Qed.
  (** The state manager after adding and committing: every read, the stored map, and the root. *)
  Lemma add_commit : exists s1 s2, add_all dec (mk_sm [] [] empty_store) es = (s1, Ok tt) /\ m_store s1 = empty_store /\ commit_cache H enc s1 ord = (s2, Ok tt) /\
    root_of H enc m (store_root (m_store s2)) /\ (forall k, store_read (m_store s2) k = Ok (option_map enc (m k))) /\
    forall l, Forall reads_only l -> conforms H enc dec (mk_view m m None [] [] []) l (snd (run H enc dec (mk_w s2 None []) l)).
  Proof.
    destruct (history_conforms [] (Forall_nil _)) as [D C0]. destruct (add_all_run es start D) as [A [B1 B2]]. cbn [start x_sm x_art x_reads] in A, B1, B2. fold w1 in A, B1, B2.
    cbn [run conforms] in C0. cbn [step] in C0. destruct (commit_cache H enc (x_sm w1) ord) as [s2 r] eqn:E. cbn [ret snd conforms expects] in C0. destruct C0 as [C0 _].
    assert (R : r = Ok tt) by (destruct r as [[]| |]; [reflexivity|discriminate C0|discriminate C0]). subst r.
    exists (x_sm w1), s2. split; [exact A|]. split; [pose proof (add_all_store es (mk_sm [] [] empty_store)) as S; rewrite A in S; exact S|]. split; [exact E|].
    assert (G : forall l, Forall reads_only l -> conforms H enc dec (mk_view m m None [] [] []) l (snd (run H enc dec (mk_w s2 None []) l))).
    { intros l F. destruct (history_conforms l F) as [_ C]. cbn [run step] in C. rewrite E in C. unfold ret in C. rewrite B1, B2 in C.
      destruct (run H enc dec (mk_w s2 None []) l) as [w2 a2]. cbn [snd conforms] in *. destruct C as [_ C]. rewrite v1_eq in C. exact C. }
    split; [|split; [|exact G]].
    - specialize (G [ReadRoot] ltac:(repeat constructor)). cbn in G. destruct G as [[r [Q1 Q2]] _]. inversion Q1; subst. exact Q2.
    - intro k. specialize (G [Evict k; GetRaw k] ltac:(repeat constructor)). cbn [run step ret snd conforms expects next working x_sm x_art x_reads] in G. destruct G as [_ [G _]].
      unfold get_raw, encoded in G. cbn [m_cache] in G.
      assert (D0 : cget (cdel (m_cache s2) k) k = None).
      { unfold cget, cdel. destruct (find _ _) as [e|] eqn:Fd; [|reflexivity]. apply find_some in Fd. destruct Fd as [I Q]. apply filter_In in I. rewrite Q in I. destruct I. discriminate. }
      rewrite D0 in G. unfold retrieve in G. cbn [m_store] in G. destruct (store_read (m_store s2) k) as [o| |]; [|discriminate G|discriminate G]. inversion G. reflexivity.
  Qed.
End Add.

Section Boot.
  Context (H : bytes -> bytes) {V : Type} (enc : V -> bytes) (dec : path -> bytes -> option V).
  Context {Hd X : Type} (header_hash : Hd -> bytes) (xt_hash : Hd -> bytes) (set_of : V -> list vkv).
  Context (g : genesis (V := V) (Hd := Hd) (X := X)).
  Notation entries := (genesis_entries g).
  Lemma entries_keys : map fst entries = map chapter chapters.
  Proof. unfold genesis_entries. rewrite map_map. reflexivity. Qed.
  Lemma entries_in : forall e, In e entries <-> exists i, component i /\ e = (component_key i, g_vals g i).
  Proof.
    intro e. unfold genesis_entries. rewrite in_map_iff. split; intros [i [A B]].
    - exists i. apply in_chapters in B. rewrite <- (chapter_component i B). auto.
    - exists i. rewrite in_chapters, (chapter_component i A). auto.
  Qed.
  Lemma entries_nodup : NoDup (map fst entries).
  Proof. rewrite entries_keys. exact chapters_distinct. Qed.
  Lemma genesis_map : is_genesis g (put_all (fun _ => None) entries).
  Proof.
    split.
    - intros i C. apply (put_all_spec H enc dec entries (fun _ => None) (component_key i) entries_nodup). apply entries_in. eauto.
    - intros k x E. destruct (in_dec (list_eq_dec Bool.bool_dec) k (map fst entries)) as [I|I].
      + rewrite entries_keys in I. apply in_map_iff in I. destruct I as [i [<- J]]. apply in_chapters in J. exists i. split; [exact J|apply chapter_component, J].
      + destruct (put_all_spec H enc dec entries (fun _ => None) k entries_nodup) as [_ B]. rewrite (B I) in E. discriminate.
  Qed.
  Context (ord : list path -> list path) (Pord : forall l, Permutation l (ord l)) (Dg : decodable enc dec g) (Cg : no_collision H (long_components enc g)).
  Lemma genesis_commit : exists s1 s2, add_all dec (mk_sm [] [] empty_store) entries = (s1, Ok tt) /\ m_store s1 = empty_store /\ commit_cache H enc s1 ord = (s2, Ok tt) /\
    root_of H enc (put_all (fun _ => None) entries) (store_root (m_store s2)) /\ (forall k, store_read (m_store s2) k = Ok (option_map enc (put_all (fun _ => None) entries k))) /\
    forall l, Forall reads_only l -> conforms H enc dec (mk_view (put_all (fun _ => None) entries) (put_all (fun _ => None) entries) None [] [] []) l (snd (run H enc dec (mk_w s2 None []) l)).
  Proof.
    apply add_commit; [exact entries_nodup| |exact Pord|].
    - intros e I. split; [apply chapters_keys; rewrite <- entries_keys; apply in_map, I|]. apply entries_in in I. destruct I as [i [C ->]]. apply Dg, C.
    - assert (U : forall b, (exists e, In e entries /\ b = enc (snd e) /\ 32 < length b) -> long_components enc g b).
      { intros b [e [I [-> L]]]. apply entries_in in I. destruct I as [i [C ->]]. exists i. auto. }
      intros a b A B. apply Cg; apply U; assumption.
  Qed.
  Lemma read_restart : forall (s : store) k, store_read (restart s) k = store_read s k.
  Proof. intros [m db] k. reflexivity. Qed.
  Lemma boot_up : forall me local d, k_store d = empty_store -> exists d' n, init_node H enc dec header_hash set_of g ord me local d = (d', Ok n) /\ up H enc dec header_hash xt_hash set_of g me local d' n.
  Proof.
    intros me local d E. destruct genesis_commit as [s1 [s2 [A [B [C [R [S G]]]]]]]. set (m := put_all (fun _ => None) entries) in *. pose proof genesis_map as M. fold m in M.
    unfold init_node. replace (open_state d) with (mk_sm [] [] empty_store : sm (V := V)) by (unfold open_state; rewrite E; reflexivity). rewrite A, C.
    unfold finish_boot. destruct M as [M1 M2].
    assert (K : forall i, component i -> m (chapter i) = Some (g_vals g i)) by (intros i Ci; rewrite (chapter_component i Ci); apply M1, Ci).
    assert (G4 : forall l, Forall reads_only l -> conforms H enc dec (mk_view m m None [] [] []) ([GetClean (chapter 8); Get (chapter 9); Get (chapter 8); Get (chapter 7)] ++ l)
      (snd (run H enc dec (mk_w s2 None []) ([GetClean (chapter 8); Get (chapter 9); Get (chapter 8); Get (chapter 7)] ++ l)))).
    { intros l F. apply G. repeat (constructor; [exact Logic.I|]). exact F. }
    clear G. assert (K7 : m (chapter 7) = Some (g_vals g 7)) by (apply K; unfold component; lia). assert (K8 : m (chapter 8) = Some (g_vals g 8)) by (apply K; unfold component; lia).
    assert (K9 : m (chapter 9) = Some (g_vals g 9)) by (apply K; unfold component; lia).
    cbn [app] in G4. cbn [run step x_sm x_art x_reads] in G4.
    destruct (get_clean dec s2 (chapter 8)) as [s3 r3] eqn:E3. cbn [ret run step x_sm x_art x_reads] in G4.
    destruct (get dec s3 (chapter 9)) as [s4 r4] eqn:E4. cbn [ret run step x_sm x_art x_reads] in G4.
    destruct (get dec s4 (chapter 8)) as [s5 r5] eqn:E5. cbn [ret run step x_sm x_art x_reads] in G4.
    destruct (get dec s5 (chapter 7)) as [s6 r6] eqn:E6. cbn [ret run step x_sm x_art x_reads] in G4.
    assert (St : m_store s6 = m_store s2).
    { pose proof (get_store dec s3 (chapter 9)) as Q4. rewrite E4 in Q4. pose proof (get_store dec s4 (chapter 8)) as Q5. rewrite E5 in Q5. pose proof (get_store dec s5 (chapter 7)) as Q6. rewrite E6 in Q6.
      pose proof (get_clean_store dec s2 (chapter 8)) as Q3. rewrite E3 in Q3. cbn [fst] in *. congruence. }
    assert (Q : forall l, Forall reads_only l -> r3 = Ok (Some (g_vals g 8)) /\ r4 = Ok (Some (g_vals g 9)) /\ r5 = Ok (Some (g_vals g 8)) /\ r6 = Ok (Some (g_vals g 7)) /\
      conforms H enc dec (mk_view m m None [] [] []) l (snd (run H enc dec (mk_w s6 None []) l))).
    { intros l F. specialize (G4 l F). destruct (run H enc dec (mk_w s6 None []) l) as [w9 a9]. cbn [snd conforms expects next committed working] in G4. rewrite K7, K8, K9 in G4. destruct G4 as [G1 [G2 [G3 [G5 G6]]]].
      assert (V1 : forall (r : result merr (option V)) x, val r = Value (Some x) -> r = Ok (Some x)) by (intros [o| |] x Y; cbn [val] in Y; [inversion Y; reflexivity|discriminate|discriminate]).
      repeat split; try (apply V1; assumption). exact G6. }
    destruct (Q [] (Forall_nil _)) as [-> [-> [-> [-> _]]]]. cbn [read_set]. do 2 eexists. split; [rewrite E4; cbn [read_set]; rewrite E5; cbn [read_set]; rewrite E6; cbn [read_set]; reflexivity|].
    unfold up. cbn [n_disk n_best n_sm n_index n_peers].
    split; [reflexivity|]. split; [reflexivity|]. unfold after_root, with_store, after_xts, after_header. cbn [k_headers k_xts k_roots k_store].
    assert (CG : forall (A : Type) (c : list (bytes * A)) h x, Net_Model.col_get ((h, x) :: c) h = Some x).
    { intros T c h x. cbn [Net_Model.col_get]. unfold Net_Model.same. destruct (list_eq_dec N.eq_dec h h); congruence. }
    split; [apply CG|]. split; [intro Z; unfold get_block; cbn [k_headers k_xts]; rewrite CG, Z, CG; reflexivity|].
    split; [|split; [apply index_ok|apply peers_ok]].
    exists m. split; [split; assumption|]. split; [|split].
    - intro k. destruct (Q [Get k]) as [_ [_ [_ [_ Y]]]]; [repeat constructor|]. cbn [run step x_sm] in Y. destruct (get dec s6 k) as [s7 r7]. cbn [ret run snd conforms expects working] in Y. destruct Y as [Y _].
      destruct r7 as [o| |]; [inversion Y; reflexivity|discriminate Y|discriminate Y].
    - intro k. rewrite read_restart. apply S.
    - exists (store_root (m_store s2)). split; [apply CG|]. split; [rewrite St; reflexivity|exact R].
  Qed.
  (** *** A disk with state on it *)
  Definition has_state (d : disk (Hd := Hd) (X := X)) : Prop := store_read (k_store d) (component_key 1) <> Ok None.
  Lemma entries_first : exists l, entries = (component_key 1, g_vals g 1) :: l.
  Proof. eexists. unfold genesis_entries, chapters. cbn [map]. rewrite (chapter_component 1) by (unfold component; lia). reflexivity. Qed.
  Lemma add_refused : forall d, has_state d -> exists s e, add_all dec (open_state d) entries = (s, Err e).
  Proof.
    intros d S. destruct entries_first as [l ->]. destruct (add_all_refused dec l (open_state d) (component_key 1) (g_vals g 1)) as [e E]; [reflexivity|unfold open_state; cbn [m_store]; rewrite read_restart; exact S|].
    destruct (add_all dec (open_state d) ((component_key 1, g_vals g 1) :: l)) as [s r]. cbn [snd] in E. subst r. eauto.
  Qed.
  Lemma boot_refused : forall d me local, has_state d -> exists e, init_node H enc dec header_hash set_of g ord me local d = (after_xts header_hash g d, Err e).
  Proof. intros d me local S. destruct (add_refused d S) as [s [e E]]. exists (BState e). unfold init_node. rewrite E. reflexivity. Qed.
  Lemma crash_has_state : forall d i d', has_state d -> nth_error (crash_points H enc dec header_hash g ord d) i = Some d' -> k_store d' = k_store d.
  Proof.
    intros d i d' S E. unfold crash_points in E. destruct (add_refused d S) as [s [e A]]. rewrite A in E. destruct i as [|[|[|i]]]; cbn in E; [| | |destruct i; discriminate]; inversion E; reflexivity.
  Qed.
  Lemma crash_early : forall d i d', i < 3 -> nth_error (crash_points H enc dec header_hash g ord d) i = Some d' -> k_store d' = k_store d.
  Proof. intros d i d' L E. unfold crash_points in E. destruct i as [|[|[|i]]]; cbn in E; [| | |lia]; inversion E; reflexivity. Qed.
  Lemma leaf_present : forall s k l, db_leaf (g_db (s_mgr s)) k = Some l -> store_read s k <> Ok None.
  Proof. intros s k l E. unfold store_read. rewrite E. destruct (lf_data l) as [v|h]; [discriminate|]. destruct (sget (s_db s) h); discriminate. Qed.
  Lemma read_leaf : forall s k b, store_read s k = Ok (Some b) -> exists l, db_leaf (g_db (s_mgr s)) k = Some l.
  Proof. intros s k b. unfold store_read. destruct (db_leaf (g_db (s_mgr s)) k) as [l|]; [eauto|discriminate]. Qed.
  Lemma crash_late : forall d i d', k_store d = empty_store -> 4 <= i -> nth_error (crash_points H enc dec header_hash g ord d) i = Some d' -> has_state d'.
  Proof.
    intros d i d' E L N. destruct genesis_commit as [s1 [s2 [A [B [C [_ [S _]]]]]]]. unfold crash_points in N.
    replace (open_state d) with (mk_sm [] [] empty_store : sm (V := V)) in N by (unfold open_state; rewrite E; reflexivity). rewrite A, C in N. cbv zeta in N.
    assert (R : store_read (m_store s2) (component_key 1) = Ok (Some (enc (g_vals g 1)))).
    { rewrite S. destruct genesis_map as [M _]. rewrite M by (unfold component; lia). reflexivity. }
    destruct i as [|[|[|[|i]]]]; try lia. cbn [app nth_error] in N. destruct i as [|[|[|i]]]; cbn [nth_error] in N; try (destruct i; discriminate N); injection N as <-; unfold has_state, after_root, with_store; cbn [k_store].
    - unfold commit_cache in C. destruct (collect_dirty s1 ord) as [|x es]; [inversion C; subst s2; rewrite B in R; vm_compute in R; discriminate|].
      unfold store_commit in C. unfold crash_before_state. destruct (commit H (s_mgr (m_store s1)) (map (to_entry enc) (x :: es))) as [mg [ws| |]]; try discriminate C.
      injection C as <-. cbn [m_store] in R. destruct (read_leaf _ _ _ R) as [l Lf]. cbn [s_mgr] in Lf. apply leaf_present with (l := l). exact Lf.
    - rewrite R. discriminate.
    - rewrite R. discriminate.
  Qed.
End Boot.
Section Lives.
  Context (H : bytes -> bytes) {V : Type} (enc : V -> bytes) (dec : path -> bytes -> option V).
  Context {Hd X : Type} (header_hash : Hd -> bytes).
  Context (g : genesis (V := V) (Hd := Hd) (X := X)) (Dg : decodable enc dec g) (Cg : no_collision H (long_components enc g)).
  Lemma lives_early : forall d d', lives H enc dec header_hash g (fun i => i < 3) d d' -> k_store d' = k_store d.
  Proof. intros d d' L. induction L as [|d d1 d2 ord i L IH P N I]; [reflexivity|]. rewrite <- IH. eapply crash_early; [exact I|exact N]. Qed.
  Lemma lives_state : forall p d d', has_state d -> lives H enc dec header_hash g p d d' -> has_state d'.
  Proof. intros p d d' S L. induction L as [|d d1 d2 ord i L IH P N I]; [exact S|]. specialize (IH S). unfold has_state in *. rewrite (crash_has_state H enc dec header_hash g ord d1 i d2 IH N). exact IH. Qed.
End Lives.
