(** Properties of the state manager's cache (C32). *)
From Verif Require Import Base Base_Proofs Trie_Model Trie_Spec Trie_Props StateCache_Model StateCache_Spec StateCache_Proofs.
From Coq Require Import Permutation.

(** Every answer, over every tidy history of the manager: reads give the working or the committed map, changes succeed exactly when the key is there (or not),
    a commit makes the working map the committed one whatever the order of the dirty keys, a rollback drops the changes, a prepared block changes nothing until it is
    applied and then exactly its map is committed, and the roots are the roots of those maps; evictions never show.
    Missing: the histories [tidy] excludes; the theorems below show what happens in them. *)
Theorem state_cache_partial : forall (H : bytes -> bytes) (V : Type) (enc : V -> bytes) (dec : path -> bytes -> option V) l,
  tidy_run enc dec fresh l -> no_collision H (long_values enc dec l) -> conforms H enc dec fresh l (snd (run H enc dec start l)).
Proof. exact (fun H V enc dec => state_cache_ok H enc dec). Qed.

(** A history with two commits, a rollback, a prepared and applied block, an eviction, a two-step read and raw entries. *)
Definition plain_dec (k : path) (b : bytes) : option bytes := Some b.
Definition same (b : bytes) : bytes := b.
Definition to (b : bytes) : bytes -> option bytes := fun _ => Some b.
Definition cache_history : list (op (V := bytes)) :=
  [ Add (key 1 0) [1%N]; Add (key 1 1) long; Get (key 1 1); Commit (fun l => l); Update (key 1 0) (to [1%N; 1%N]); Get (key 1 0); GetClean (key 1 0); Rollback; Get (key 1 0);
    Update (key 1 0) (to [1%N; 1%N]); Remove (key 1 1); AddRaw (key 7 0) [9%N]; GetRaw (key 7 0); Prepare (@rev path); Get (key 1 1); ReadRoot; Apply; Get (key 1 1); Get (key 7 0);
    Evict (key 1 0); Fetch (key 1 0); Update (key 7 0) (to [1%N; 9%N]); Fill (key 1 0); Commit (@rev path); GetClean (key 7 0); Add (key 7 0) []; Apply; ReadRoot ].
Ltac not_in := let X := fresh in intro X; vm_compute in X; repeat (destruct X as [X|X]; [discriminate X|]); exact X.
Ltac tidy_part := lazymatch goal with
  | |- ~ In _ _ => not_in
  | |- a_key _ => reflexivity
  | |- ok _ _ _ _ => reflexivity
  | |- forall l, Permutation l _ => intro; first [apply Permutation_refl|apply Permutation_rev]
  | |- keeps _ => first [left; intros k X; exfalso; apply X; reflexivity|right; exists (key 1 0); split; vm_compute; discriminate]
  | |- forall x y, _ -> _ -> ok _ _ _ _ => intros; reflexivity
  | |- exists x, _ => eexists; split; reflexivity
  | |- In _ _ -> _ /\ _ => intros _; split; [vm_compute; tauto|vm_compute; discriminate]
  | |- _ = None -> _ = None => vm_compute; solve [discriminate|reflexivity]
  | |- _ = None <-> _ = None => vm_compute; split; solve [discriminate|reflexivity]
  | |- _ <> None -> _ <> None => vm_compute; solve [intros _; discriminate|intros X; exfalso; apply X; reflexivity]
  | |- _ <> [] -> _ = None => intros _; reflexivity
  | |- True => exact I
  | |- _ = [] => reflexivity
  end.
Ltac tidy_step := cbn [tidy]; repeat lazymatch goal with |- ?a <-> ?b => fail | |- _ /\ _ => split end; tidy_part.
Example cache_history_tidy : tidy_run same plain_dec fresh cache_history.
Proof.
  unfold cache_history.
  repeat (split; [solve [tidy_step | cbn [tidy read_of]; vm_compute; split; [intro X; repeat (destruct X as [X|X]; [discriminate X|]); exact X|reflexivity]]|]). exact I.
Qed.
(** The values of a history are those it writes. *)
Definition writes (Q : bytes -> Prop) (o : op (V := bytes)) : Prop :=
  match o with Add _ x | AddRaw _ x | UpdateRaw _ x => Q x | Update _ f => forall x y, f x = Some y -> Q y | _ => True end.
Definition all_of (Q : bytes -> Prop) (m : path -> option bytes) : Prop := forall k x, m k = Some x -> Q x.
Definition holds (Q : bytes -> Prop) (u : view (V := bytes)) : Prop := all_of Q (committed u) /\ all_of Q (working u) /\ forall m, staged u = Some m -> all_of Q m.
Lemma put_all : forall Q m k o, all_of Q m -> (forall x, o = Some x -> Q x) -> all_of Q (put m k o).
Proof. intros Q m k o A B k' x. unfold put. destruct (list_eq_dec Bool.bool_dec k' k); eauto. Qed.
Lemma writes_next : forall Q u o, writes Q o -> holds Q u -> holds Q (next plain_dec u o).
Proof.
  intros Q u o Wo [C [W S]]. assert (Same : holds Q u) by (repeat split; assumption).
  assert (Ch : forall k x t r, (forall y, x = Some y -> Q y) -> holds Q (mk_view (committed u) (put (working u) k x) (staged u) t r (reads u))).
  { intros k x t r X. split; [exact C|]. split; [apply put_all; assumption|exact S]. }
  destruct o as [k|k|k x|k f|k|k|k b|k b|k|ord| |ord| | |k|k|k]; cbn [next writes] in *; try exact Same; try (split; [assumption|split; assumption]); try (destruct (working u k) as [z|] eqn:Wk); try exact Same; unfold change, change_raw.
  - apply Ch. intros y Y. inversion Y; subst. exact Wo.
  - destruct (f z) as [y|] eqn:Fz; [|exact Same]. apply Ch. intros y' Y. inversion Y; subst. eauto.
  - apply Ch. discriminate.
  - apply Ch. intros y Y. inversion Y; subst. exact Wo.
  - apply Ch. intros y Y. inversion Y; subst. exact Wo.
  - apply Ch. discriminate.
  - split; [exact C|]. split; [exact C|]. intros m. cbn [staged]. destruct (touched u); [discriminate|]. intro E. inversion E; subst. exact W.
  - destruct (staged u) as [m|] eqn:E; [|exact Same]. pose proof (S m eq_refl). split; [assumption|]. split; [assumption|discriminate].
Qed.
Lemma writes_views : forall Q l u, Forall (writes Q) l -> holds Q u -> forall u' k x, In u' (views plain_dec u l) -> working u' k = Some x -> Q x.
Proof.
  intro Q. induction l as [|o l IH]; intros u F Hu u' k x I W; cbn [views] in I.
  - destruct I as [<-|[]]. destruct Hu as [_ [A _]]. eapply A. exact W.
  - destruct I as [<-|I]; [destruct Hu as [_ [A _]]; eapply A; exact W|]. inversion F; subst. eapply (IH (next plain_dec u o)); [assumption|apply writes_next; assumption|exact I|exact W].
Qed.
Example cache_history_runs : let a := snd (run toy same plain_dec start cache_history) in conforms toy same plain_dec fresh cache_history a /\
  nth 16 a Failed = Done /\ nth 17 a Failed = Value None /\ nth 24 a Failed = Value (Some [1%N; 9%N]).
Proof.
  cbv zeta. split; [|vm_compute; auto]. apply state_cache_partial; [exact cache_history_tidy|].
  assert (U : forall x, long_values same plain_dec cache_history x -> x = long); [|intros a b A B _; rewrite (U a A), (U b B); reflexivity].
  intros x [v [k [y [I [W [-> L]]]]]]. unfold same in *. assert (Q : y = long \/ length y <= 32); [|destruct Q; [assumption|lia]].
  apply (writes_views (fun y => y = long \/ length y <= 32) cache_history fresh) with (u' := v) (k := k); try assumption.
  - unfold cache_history. repeat (constructor; [cbn [writes]; try exact Logic.I; try (left; reflexivity); try (right; cbn; lia); try (intros ? ? E; inversion E; right; cbn; lia)|]). constructor.
  - split; [discriminate|]. split; [discriminate|]. intros m E. discriminate.
Qed.

(** ** What the excluded histories do *)
Definition k1 := key 1 0.
Definition k2 := key 1 1.
Definition id_order (l : list path) : list path := l.
Notation answers l := (snd (run toy same plain_dec start l)).
Ltac refute := let C := fresh "C" in intro C; cbn [conforms] in C; vm_compute in C; decompose [and] C; discriminate.
(** A clean read of an added, uncommitted entry gives the added value. *)
Theorem clean_read_refuted : exists l, l = [Add k1 [7%N]; GetClean k1] /\ answers l = [Done; Value (Some [7%N])] /\ ~ conforms toy same plain_dec fresh l (answers l).
Proof. eexists. split; [reflexivity|]. split; [vm_compute; reflexivity|]. refute. Qed.
(** Removing and re-adding a committed key between commits makes the commit fail. *)
Theorem remove_add_refuted : exists l, l = [Add k1 [7%N]; Add k2 [8%N]; Commit id_order; Remove k1; Add k1 [9%N]; Get k1; Commit id_order] /\
  answers l = [Done; Done; Done; Done; Done; Value (Some [9%N]); Failed] /\ ~ conforms toy same plain_dec fresh l (answers l).
Proof. eexists. split; [reflexivity|]. split; [vm_compute; reflexivity|]. refute. Qed.
(** Adding and removing a key before it was ever committed: the commit fails, and a rollback brings the removed value into the cache, where reads find it although it was never stored. *)
Theorem add_remove_refuted : exists l, l = [Add k2 [8%N]; Commit id_order; Add k1 [7%N]; Remove k1; Get k1; Rollback; Get k1; GetRaw k1] /\
  answers l = [Done; Done; Done; Done; Value None; Done; Value (Some [7%N]); Octets None] /\ ~ conforms toy same plain_dec fresh l (answers l).
Proof. eexists. split; [reflexivity|]. split; [vm_compute; reflexivity|]. refute. Qed.
Theorem add_remove_commit_refuted : exists l, l = [Add k2 [8%N]; Commit id_order; Add k1 [7%N]; Remove k1; Commit id_order] /\
  answers l = [Done; Done; Done; Done; Failed] /\ ~ conforms toy same plain_dec fresh l (answers l).
Proof. eexists. split; [reflexivity|]. split; [vm_compute; reflexivity|]. refute. Qed.
(** A typed read of a pending raw entry marks it clean: the next commit does not write it. *)
Theorem raw_read_refuted : exists l, l = [AddRaw k1 [7%N]; Get k1; Commit id_order; Evict k1; Get k1] /\
  answers l = [Done; Value (Some [7%N]); Done; Done; Value None] /\ ~ conforms toy same plain_dec fresh l (answers l).
Proof. eexists. split; [reflexivity|]. split; [vm_compute; reflexivity|]. refute. Qed.
(** A read that missed the cache and overlaps a change of the same key puts the old value back over the change, which is lost. *)
Theorem overlap_refuted : exists l, l = [Add k1 [7%N]; Commit id_order; Evict k1; Fetch k1; Update k1 (to [8%N]); Fill k1; Get k1; Commit id_order; Get k1] /\
  answers l = [Done; Done; Done; Done; Done; Value (Some [7%N]); Value (Some [7%N]); Done; Value (Some [7%N])] /\ ~ conforms toy same plain_dec fresh l (answers l).
Proof. eexists. split; [reflexivity|]. split; [vm_compute; reflexivity|]. refute. Qed.
(** If the cache library drops a pending entry, the change is lost and no error is given. *)
Theorem dirty_evict_refuted : exists l, l = [Add k1 [7%N]; Commit id_order; Update k1 (to [8%N]); Evict k1; Commit id_order; Get k1] /\
  answers l = [Done; Done; Done; Done; Done; Value (Some [7%N])] /\ ~ conforms toy same plain_dec fresh l (answers l).
Proof. eexists. split; [reflexivity|]. split; [vm_compute; reflexivity|]. refute. Qed.
