(** The services' statistics of a block, and the statistics of a history of blocks. *)
From Verif Require Import Base Base_Proofs Stats_Model Stats_Spec Stats_Proofs Stats2_Proofs Stats3_Proofs.
From Coq Require Import Sorted Lia.
Open Scope N_scope.

(** ** Maps, key by key *)
Definition keys_sorted {A : Type} (m : list (N * A)) : Prop := StronglySorted N.lt (map fst m).
Lemma upsert_keys : forall (A : Type) (z : A) k f m x, In x (map fst (upsert z k f m)) <-> x = k \/ In x (map fst m).
Proof.
  induction m as [|[k' y] m IH]; simpl; intros x; [intuition|]. destruct (k <? k') eqn:E; simpl; [intuition|].
  destruct (k =? k') eqn:E2; simpl; [apply N.eqb_eq in E2; subst; intuition|]. rewrite IH. intuition.
Qed.
Lemma upsert_sorted : forall (A : Type) (z : A) k f m, keys_sorted m -> keys_sorted (upsert z k f m).
Proof.
  unfold keys_sorted. induction m as [|[k' y] m IH]; simpl; intros S; [repeat constructor|].
  inversion S; subst. destruct (k <? k') eqn:E; simpl.
  - apply N.ltb_lt in E. constructor; auto. constructor; auto. eapply Forall_impl; [|exact H2]. simpl. intros. lia.
  - apply N.ltb_ge in E. destruct (k =? k') eqn:E2; simpl; [apply N.eqb_eq in E2; subst; auto|].
    apply N.eqb_neq in E2. constructor; auto. apply Forall_forall. intros x Hx. apply upsert_keys in Hx.
    rewrite Forall_forall in H2. destruct Hx as [->|Hx]; [lia|auto].
Qed.
Definition get {A : Type} (z : A) (o : option A) : A := match o with Some x => x | None => z end.
Lemma lookup_none : forall (A : Type) k (m : list (N * A)), ~ In k (map fst m) -> lookup k m = None.
Proof. induction m as [|[k' y] m IH]; simpl; intros H; auto. destruct (k =? k') eqn:E; [apply N.eqb_eq in E; subst; intuition|]. apply IH. auto. Qed.
Lemma upsert_lookup : forall (A : Type) (z : A) k f m s, keys_sorted m ->
  lookup s (upsert z k f m) = if s =? k then Some (f (get z (lookup k m))) else lookup s m.
Proof.
  unfold keys_sorted. induction m as [|[k' y] m IH]; simpl; intros s S; [destruct (s =? k); auto|].
  inversion S; subst. destruct (k <? k') eqn:E; simpl.
  - apply N.ltb_lt in E. destruct (s =? k) eqn:E2; auto. apply N.eqb_eq in E2. subst.
    assert (E3 : k =? k' = false) by (apply N.eqb_neq; lia). rewrite E3. rewrite lookup_none; auto.
    intro Hk. rewrite Forall_forall in H2. specialize (H2 _ Hk). lia.
  - destruct (k =? k') eqn:E2; simpl.
    + apply N.eqb_eq in E2. subst. destruct (s =? k'); auto.
    + rewrite IH by auto. destruct (s =? k) eqn:E3; auto. apply N.eqb_eq in E3. subst. rewrite E2. auto.
Qed.
Lemma lookup_in : forall (A : Type) (m : list (N * A)) s x, keys_sorted m -> (In (s, x) m <-> lookup s m = Some x).
Proof.
  unfold keys_sorted. induction m as [|[k y] m IH]; simpl; intros s x S; [split; [intros []|discriminate]|].
  inversion S; subst. destruct (s =? k) eqn:E.
  - apply N.eqb_eq in E. subst. split; intro H; [|left; congruence]. destruct H as [H|H]; [congruence|].
    exfalso. rewrite Forall_forall in H2. assert (In k (map fst m)) by (apply in_map_iff; exists (k, x); auto). specialize (H2 _ H0). lia.
  - apply N.eqb_neq in E. rewrite <- IH by auto. split; auto. intros [H|H]; auto. congruence.
Qed.
Definition events_of {D : Type} (s : N) (evs : list (N * D)) : list D := map snd (filter (fun e => fst e =? s) evs).
Lemma fold_upsert : forall (R D : Type) (add : R -> D -> R) z evs m, keys_sorted m ->
  keys_sorted (fold_left (fun m d => upsert z (fst d) (fun x => add x (snd d)) m) evs m) /\
  forall s, lookup s (fold_left (fun m d => upsert z (fst d) (fun x => add x (snd d)) m) evs m) =
    match events_of s evs with [] => lookup s m | ds => Some (fold_left add ds (get z (lookup s m))) end.
Proof.
  induction evs as [|[k d] evs IH]; simpl; intros m S; auto.
  destruct (IH (upsert z k (fun x => add x d) m) (upsert_sorted _ _ _ _ _ S)) as [IH1 IH2]. split; auto.
  intros s. rewrite IH2, upsert_lookup by auto. unfold events_of. simpl. rewrite (N.eqb_sym k s). destruct (s =? k) eqn:E; auto.
  simpl. apply N.eqb_eq in E. subst. destruct (map snd (filter _ evs)); auto.
Qed.

(** ** Per-service sums *)
Definition sums (m : list (N * N)) (d : N * N) : list (N * N) := upsert 0 (fst d) (fun x => x + snd d) m.
Lemma sums_ok : forall chk (evs : list (N * N)), sum snd evs < 2 ^ 64 ->
  exists m, each (fun m p => entry 0 (fst p) (fun c => plus chk 64 c (snd p)) m) [] evs = Ok m /\
    forall s, get 0 (lookup s m) = sum snd (for_service s evs).
Proof.
  intros chk evs B.
  pose proof (loop_algebra (map_algebra (n_algebra 64) 0 I eq_refl)) as A.
  destruct (fold_upsert N N N.add 0 evs [] ltac:(constructor)) as [S L].
  assert (G : forall s, get 0 (lookup s (fold_left (fun m d => upsert 0 (fst d) (fun x => x + snd d) m) evs [])) = sum snd (for_service s evs)).
  { intro s. rewrite L. unfold events_of, for_service. rewrite <- (sum_map _ _ snd (fun y => y)).
    destruct (map snd (filter (fun e => fst e =? s) evs)) as [|d ds]; auto. change (lookup s (@nil (N * N))) with (@None N). cbn [get]. rewrite fold_add. apply N.add_0_l. }
  eexists. split.
  - apply (a_exact _ _ _ _ _ _ A chk [] evs).
    + constructor.
    + apply Forall_forall. auto.
    + apply Forall_forall. intros [s x] Hx. cbn [snd]. apply lookup_in in Hx; auto.
      pose proof (G s) as Gs. rewrite Hx in Gs. cbn [get] in Gs. rewrite Gs. eapply N.le_lt_trans; [apply sum_filter|]. auto.
  - exact G.
Qed.
Lemma each_entry_map : forall (A : Type) chk (g : A -> N) l m,
  each (fun m d => entry 0 (g d) (fun c => plus chk 64 c 1) m) m l = each (fun m p => entry 0 (fst p) (fun c => plus chk 64 c (snd p)) m) m (map (fun d => (g d, 1)) l).
Proof. intros. rewrite each_map. auto. Qed.
Definition acc_entry (b : sblock) (s : N) : list (N * (N * N)) :=
  let g := sum snd (for_service s (b_gas b)) in
  let n := N.of_nat (length (of_service s (digests (b_accumulated b)))) in
  if (0 <? g) || (0 <? n) then [(s, (g, n))] else [].
Lemma accumulate_stats_ok : forall V C chk b, good V C b ->
  accumulate_stats chk (b_accumulated b) (b_gas b) (b_order b) = Ok (flat_map (acc_entry b) (b_order b)).
Proof.
  intros V C chk b (_ & _ & _ & _ & _ & _ & _ & _ & _ & G1 & G2 & _). unfold accumulate_stats.
  rewrite each_entry_map. fold (digests (b_accumulated b)).
  destruct (sums_ok chk (map (fun d => (d_service d, 1)) (digests (b_accumulated b)))) as (ds & E1 & L1).
  { rewrite sum_map. cbn [snd]. rewrite sum_one. eapply N.lt_trans; [exact G1|reflexivity]. }
  destruct (sums_ok chk (b_gas b) G2) as (gs & E2 & L2).
  rewrite E1. cbn [bind]. rewrite E2. cbn [bind]. f_equal. apply flat_map_ext. intro s. unfold acc_entry.
  fold (get 0 (lookup s gs)). fold (get 0 (lookup s ds)). rewrite L1, L2.
  assert (E : sum snd (for_service s (map (fun d => (d_service d, 1)) (digests (b_accumulated b)))) = N.of_nat (length (of_service s (digests (b_accumulated b))))).
  { unfold for_service, of_service. clear. induction (digests (b_accumulated b)) as [|d l IH]; auto. cbn [map filter fst]. destruct (d_service d =? s); auto.
    rewrite sum_cons. cbn [snd]. rewrite IH. cbn [length]. lia. }
  rewrite E, cast_small; auto. eapply N.le_lt_trans; [|exact G1]. apply count_le.
Qed.

(** ** Services *)
Definition sevents (b : sblock) : list (N * sevent) :=
  map (fun d => (d_service d, ERefine (d_stats d))) (digests (b_guarantees b)) ++
  map (fun p => (fst p, EPreimage (snd p))) (b_preimages b) ++
  map (fun e => (fst e, EAcc (fst (snd e)) (snd (snd e)))) (flat_map (acc_entry b) (b_order b)).
Lemma service_stats_each : forall V C chk b, good V C b -> service_stats chk b =
  each (fun m d => entry no_s (fst d) (fun x => sstep chk x (snd d)) m) [] (sevents b).
Proof.
  intros V C chk b G. unfold service_stats. rewrite (accumulate_stats_ok V C) by auto. cbn [bind]. unfold sevents.
  rewrite !each_app. rewrite each_map. cbn [fst snd sstep]. fold (digests (b_guarantees b)).
  destruct (each _ [] (digests (b_guarantees b))); cbn [bind]; auto. rewrite each_app, each_map. cbn [fst snd sstep].
  destruct (each _ _ (b_preimages b)); cbn [bind]; auto. rewrite each_map. auto.
Qed.
Definition service_map (b : sblock) : list (N * sstat) := fold_left (fun m d => upsert no_s (fst d) (fun x => sadd x (snd d)) m) (sevents b) [].
Definition service_algebra := loop_algebra (map_algebra s_algebra no_s I ltac:(repeat split; reflexivity)).
Lemma sevents_ok : forall V C b, good V C b -> Forall (fun d => sok (snd d)) (sevents b).
Proof.
  intros V C b (_ & _ & _ & _ & G & _). unfold sevents. rewrite !Forall_app. repeat split; apply Forall_forall; intros e He; apply in_map_iff in He;
    destruct He as (p & <- & Hp); cbn; auto.
  eapply N.le_lt_trans; [|exact G]. apply (sum_in _ snd _ _ Hp).
Qed.
Lemma service_release : forall V C b, good V C b -> service_stats false b = Ok (map (on_snd kept_s) (service_map b)).
Proof.
  intros V C b G. rewrite (service_stats_each V C) by auto.
  apply (a_release _ _ _ _ _ _ service_algebra [] (sevents b)); [constructor|constructor|eapply sevents_ok; eauto].
Qed.
Lemma service_exact : forall V C chk b, good V C b -> Forall (fun p => fits_s (snd p)) (service_map b) -> service_stats chk b = Ok (service_map b).
Proof.
  intros V C chk b G F. rewrite (service_stats_each V C) by auto.
  apply (a_exact _ _ _ _ _ _ service_algebra chk [] (sevents b)); [constructor|eapply sevents_ok; eauto|exact F].
Qed.
Lemma service_debug : forall V C b m, good V C b -> service_stats true b = Ok m -> Forall (fun p => fits_s (snd p)) (service_map b).
Proof.
  intros V C b m G H. rewrite (service_stats_each V C) in H by auto.
  eapply (a_debug _ _ _ _ _ _ service_algebra [] (sevents b)); [constructor|constructor|eapply sevents_ok; eauto|exact H].
Qed.

(** What the map holds. *)
Definition splus (x y : sstat) : sstat := mk_sstat (s_preimages x + s_preimages y) (s_blobs x + s_blobs y) (s_digests x + s_digests y) (s_gas x + s_gas y)
  (s_imports x + s_imports y) (s_xts x + s_xts y) (s_octets x + s_octets y) (s_exports x + s_exports y) (s_acc_digests x + s_acc_digests y) (s_acc_gas x + s_acc_gas y).
Definition refined (ds : list digest) : sstat := mk_sstat 0 0 (N.of_nat (length ds)) (sum (fun d => u_gas (d_stats d)) ds) (sum (fun d => u_imports (d_stats d)) ds)
  (sum (fun d => u_xts (d_stats d)) ds) (sum (fun d => u_octets (d_stats d)) ds) (sum (fun d => u_exports (d_stats d)) ds) 0 0.
Definition provided (ps : list (N * N)) : sstat := mk_sstat (N.of_nat (length ps)) (sum snd ps) 0 0 0 0 0 0 0 0.
Lemma fold_refined : forall s ds x,
  fold_left sadd (events_of s (map (fun d => (d_service d, ERefine (d_stats d))) ds)) x = splus x (refined (of_service s ds)).
Proof.
  unfold events_of, of_service. intros s. induction ds as [|d ds IH]; intros x; cbn [map filter fst fold_left].
  - destruct x. unfold splus, refined, sum. sproj. cbn. rewrite !N.add_0_r. auto.
  - destruct (d_service d =? s); auto. cbn [map fold_left snd]. rewrite IH. unfold splus, refined, sadd. sproj. rewrite !sum_cons. cbn [length]. f_equal; lia.
Qed.
Lemma fold_provided : forall s ps x,
  fold_left sadd (events_of s (map (fun p => (fst p, EPreimage (snd p))) ps)) x = splus x (provided (for_service s ps)).
Proof.
  unfold events_of, for_service. intros s. induction ps as [|p ps IH]; intros x; cbn [map filter fst fold_left].
  - destruct x. unfold splus, provided, sum. sproj. cbn. rewrite !N.add_0_r. auto.
  - destruct (fst p =? s); auto. cbn [map fold_left snd]. rewrite IH. unfold splus, provided, sadd. sproj. rewrite !sum_cons. cbn [length]. f_equal; lia.
Qed.
Lemma filter_accs : forall b s order, NoDup order ->
  filter (fun e : N * (N * N) => fst e =? s) (flat_map (acc_entry b) order) = if in_dec N.eq_dec s order then acc_entry b s else [].
Proof.
  intros b s. assert (Z : forall k, filter (fun e : N * (N * N) => fst e =? s) (acc_entry b k) = if k =? s then acc_entry b k else []).
  { intro k. unfold acc_entry. destruct (_ || _); [|destruct (k =? s); auto]. cbn [filter fst]. destruct (k =? s); auto. }
  induction order as [|k order IH]; intros ND; auto. inversion ND; subst. cbn [flat_map]. rewrite filter_app, Z, IH by auto.
  destruct (k =? s) eqn:E.
  - apply N.eqb_eq in E. subst. destruct (in_dec N.eq_dec s order); [contradiction|]. rewrite app_nil_r.
    destruct (in_dec N.eq_dec s (s :: order)) as [|n0]; auto. exfalso. apply n0. left. auto.
  - apply N.eqb_neq in E. simpl. destruct (N.eq_dec k s); [contradiction|]. destruct (in_dec N.eq_dec s order); auto.
Qed.
Lemma of_service_none : forall s ds, ~ In s (map d_service ds) -> of_service s ds = [].
Proof.
  unfold of_service. induction ds as [|d ds IH]; simpl; intros H; auto. destruct (d_service d =? s) eqn:E; [apply N.eqb_eq in E; intuition|]. auto.
Qed.
Lemma for_service_none : forall s ps, ~ In s (map fst ps) -> for_service s ps = [].
Proof.
  unfold for_service. induction ps as [|d ds IH]; simpl; intros H; auto. destruct (fst d =? s) eqn:E; [apply N.eqb_eq in E; intuition|]. auto.
Qed.
Lemma events_accs : forall V C b s, good V C b ->
  events_of s (map (fun e : N * (N * N) => (fst e, EAcc (fst (snd e)) (snd (snd e)))) (flat_map (acc_entry b) (b_order b))) =
  map (fun e => EAcc (fst (snd e)) (snd (snd e))) (acc_entry b s).
Proof.
  intros V C b s (_ & _ & _ & _ & _ & _ & _ & _ & _ & _ & _ & G1 & G2). unfold events_of.
  assert (F : forall l, filter (fun e : N * sevent => fst e =? s) (map (fun e : N * (N * N) => (fst e, EAcc (fst (snd e)) (snd (snd e)))) l) =
    map (fun e : N * (N * N) => (fst e, EAcc (fst (snd e)) (snd (snd e)))) (filter (fun e => fst e =? s) l)).
  { induction l as [|e l IH]; auto. cbn [map filter fst]. destruct (fst e =? s); cbn [map]; rewrite IH; auto. }
  rewrite F, filter_accs by auto. destruct (in_dec N.eq_dec s (b_order b)) as [i|n].
  - rewrite map_map. auto.
  - rewrite G2 in n. unfold acc_entry. rewrite of_service_none, for_service_none by intuition. auto.
Qed.
Lemma acc_entry_iff : forall b s, acc_entry b s <> [] <-> accumulated s b.
Proof.
  intros. unfold acc_entry, accumulated. destruct (0 <? sum snd (for_service s (b_gas b))) eqn:E1; cbn [orb].
  - apply N.ltb_lt in E1. split; auto. discriminate.
  - apply N.ltb_ge in E1. destruct (of_service s _) as [|d l]; cbn [length].
    + cbn. split; [congruence|]. intros [H|H]; [congruence|lia].
    + assert (E : (0 <? N.of_nat (S (length l))) = true) by (apply N.ltb_lt; lia). rewrite E. split; [left|]; discriminate.
Qed.
Lemma app_nil_iff : forall (A : Type) (l1 l2 : list A), l1 ++ l2 <> [] <-> l1 <> [] \/ l2 <> [].
Proof.
  intros A l1 l2. destruct l1 as [|a l1]; simpl.
  - split; auto. intros [H|H]; auto; congruence.
  - split; [intros _; left|intros _]; discriminate.
Qed.
Lemma map_nil_iff : forall (A B : Type) (f : A -> B) l, map f l <> [] <-> l <> [].
Proof. intros A B f [|a l]; simpl; split; congruence. Qed.
Lemma service_map_ok : forall V C b, good V C b -> keys_sorted (service_map b) /\
  forall s, (lookup s (service_map b) = if match events_of s (sevents b) with [] => true | _ => false end then None else Some (service_activity s b)) /\
            (events_of s (sevents b) <> [] <-> active s b).
Proof.
  intros V C b G. destruct (fold_upsert _ _ sadd no_s (sevents b) [] ltac:(constructor)) as [S L]. split; [exact S|]. intro s.
  assert (EV : events_of s (sevents b) = events_of s (map (fun d => (d_service d, ERefine (d_stats d))) (digests (b_guarantees b))) ++
    events_of s (map (fun p => (fst p, EPreimage (snd p))) (b_preimages b)) ++ map (fun e => EAcc (fst (snd e)) (snd (snd e))) (acc_entry b s)).
  { rewrite <- (events_accs V C) by auto. unfold sevents, events_of. rewrite !filter_app, !map_app. auto. }
  split.
  - unfold service_map. rewrite L. change (lookup s (@nil (N * sstat))) with (@None sstat). cbn [get].
    assert (T : fold_left sadd (events_of s (sevents b)) no_s = service_activity s b).
    { rewrite EV, !fold_left_app, fold_refined, fold_provided. unfold acc_entry, service_activity, splus, refined, provided, no_s. sproj.
      destruct (_ || _) eqn:E; cbn [map fold_left fst snd]; unfold sadd; sproj; f_equal; try lia. }
    destruct (events_of s (sevents b)); auto. f_equal. exact T.
  - rewrite EV, !app_nil_iff, map_nil_iff, acc_entry_iff. unfold active, events_of. rewrite !map_nil_iff.
    assert (F1 : forall l, filter (fun e : N * sevent => fst e =? s) (map (fun d => (d_service d, ERefine (d_stats d))) l) = map (fun d => (d_service d, ERefine (d_stats d))) (of_service s l)).
    { unfold of_service. induction l as [|e l IH]; auto. cbn [map filter fst]. destruct (d_service e =? s); cbn [map]; rewrite IH; auto. }
    assert (F2 : forall l : list (N * N), filter (fun e : N * sevent => fst e =? s) (map (fun p => (fst p, EPreimage (snd p))) l) = map (fun p => (fst p, EPreimage (snd p))) (for_service s l)).
    { unfold for_service. induction l as [|e l IH]; auto. cbn [map filter fst]. destruct (fst e =? s); cbn [map]; rewrite IH; auto. }
    rewrite F1, F2, !map_nil_iff. tauto.
Qed.
Lemma service_map_in : forall V C b s x, good V C b -> (In (s, x) (service_map b) <-> active s b /\ x = service_activity s b).
Proof.
  intros V C b s x G. destruct (service_map_ok V C b G) as [S L]. rewrite lookup_in by auto. destruct (L s) as [L1 L2]. rewrite L1, <- L2.
  destruct (events_of s (sevents b)); split; try discriminate; try (intros [H _]; congruence).
  - intro H. inversion H. split; [discriminate|auto].
  - intros [_ ->]. auto.
Qed.
Lemma service_entries_exact : forall V C b, good V C b -> service_entries (fun x => x) b (service_map b).
Proof.
  intros V C b G. split; [apply (service_map_ok V C b G)|]. intros. eapply service_map_in; eauto.
Qed.
Lemma service_entries_kept : forall V C b, good V C b -> service_entries kept_s b (map (on_snd kept_s) (service_map b)).
Proof.
  intros V C b G. split.
  - rewrite map_map. cbn [on_snd fst]. apply (service_map_ok V C b G).
  - intros s x. rewrite in_map_iff. split.
    + intros ([k y] & E & H). unfold on_snd in E. cbn in E. inversion E; subst. apply (service_map_in V C) in H; auto. destruct H as [H ->]. auto.
    + intros [H ->]. exists (s, service_activity s b). split; auto. apply (service_map_in V C); auto.
Qed.
