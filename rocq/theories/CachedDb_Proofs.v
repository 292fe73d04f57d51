From Coq Require Import Lia.
From Verif Require Import Base Trie_Model CachedDb_Model CachedDb_Spec.

Section P.
  Context {K V : Type} (eqK : forall a b : K, {a = b} + {a <> b}) (key : K -> bytes) (enc : V -> bytes) (dec : bytes -> option V).
  Context (key_inj : forall a b, key a = key b -> a = b) (ok : V -> Prop) (dec_enc : forall v, ok v -> dec (enc v) = Some v).
  Notation eff := (@effect K V eqK). Notation cg := (@cget K V eqK). Notation rw := (rwrite key enc).

  Definition lastw (ws : list (K * option V)) (k : K) : option (option V) :=
    fold_left (fun a w => if eqK (fst w) k then Some (snd w) else a) ws None.
  Lemma lastw_snoc : forall ws w k, lastw (ws ++ [w]) k = if eqK (fst w) k then Some (snd w) else lastw ws k.
  Proof. intros. unfold lastw. now rewrite fold_left_app. Qed.
  Lemma lastw_in : forall ws k, lastw ws k <> None <-> In k (map fst ws).
  Proof.
    induction ws as [|w ws IH] using rev_ind; intros k; [cbn; tauto|]. rewrite lastw_snoc, map_app, in_app_iff. cbn [map In].
    destruct (eqK (fst w) k) as [E|E]; [split; [auto|congruence]|]. rewrite IH. tauto.
  Qed.
  Lemma write_fold : forall ws (m : K -> option V) k, fold_left (write eqK) ws m k = match lastw ws k with Some w => w | None => m k end.
  Proof.
    induction ws as [|w ws IH] using rev_ind; intros m k; [reflexivity|]. rewrite fold_left_app, lastw_snoc. cbn [fold_left]. unfold write at 1.
    destruct (eqK (fst w) k); [reflexivity|apply IH].
  Qed.
  Lemma eff_lastw : forall m o k, eff m o k = match lastw (writes_of o) k with Some w => w | None => m k end.
  Proof. intros m [] ?; cbn [effect writes_of]; rewrite ?write_fold; try reflexivity; unfold lastw, write; cbn [fold_left fst snd]; now destruct (eqK _ _). Qed.
  Lemma touches_writes : forall (o : op K V) k, ~ is_read o -> touches o k <-> In k (map fst (writes_of o)).
  Proof. intros [] ? H; cbn in *; try tauto; intuition congruence. Qed.
  Lemma eff_miss : forall m o k, ~ touches o k -> eff m o k = m k.
  Proof.
    intros m o k H. rewrite eff_lastw. destruct (lastw (writes_of o) k) eqn:E; [|reflexivity]. exfalso.
    assert (I : In k (map fst (writes_of o))) by (apply lastw_in; congruence). destruct o; cbn in *; intuition congruence.
  Qed.
  Lemma eff_hit : forall m m' o k, ~ is_read o -> touches o k -> eff m o k = eff m' o k.
  Proof. intros m m' o k R H. rewrite !eff_lastw. apply touches_writes in H; [|assumption]. apply lastw_in in H. now destruct (lastw (writes_of o) k). Qed.
  Lemma bytes_eqb_iff : forall a b, bytes_eqb a b = true <-> a = b.
  Proof. intros. unfold bytes_eqb. destruct (list_eq_dec N.eq_dec a b); intuition congruence. Qed.
  Lemma rget_rput : forall d a o b, rget (rput d a o) b = if list_eq_dec N.eq_dec a b then o else rget d b.
  Proof. intros. unfold rget, rput. cbn [find fst]. unfold bytes_eqb at 1. now destruct (list_eq_dec N.eq_dec a b). Qed.
  Lemma rget_rwrite : forall ws d k, rget (rw d ws) (key k) = match lastw ws k with Some w => option_map enc w | None => rget d (key k) end.
  Proof using key_inj eqK.
    induction ws as [|w ws IH] using rev_ind; intros d k; [reflexivity|]. unfold rwrite. rewrite fold_left_app, lastw_snoc. cbn [fold_left].
    rewrite rget_rput. destruct (list_eq_dec N.eq_dec (key (fst w)) (key k)) as [E|E].
    - apply key_inj in E. now destruct (eqK (fst w) k).
    - destruct (eqK (fst w) k); [congruence|]. apply IH.
  Qed.
  Lemma rget_eff : forall d m o k, ~ is_read o -> touches o k -> rget (rw d (writes_of o)) (key k) = option_map enc (eff m o k).
  Proof using key_inj eqK. intros d m o k R T. rewrite rget_rwrite, eff_lastw. apply touches_writes in T; [|assumption]. apply lastw_in in T. now destruct (lastw (writes_of o) k). Qed.
  Lemma rget_miss : forall d o k, ~ is_read o -> ~ touches o k -> rget (rw d (writes_of o)) (key k) = rget d (key k).
  Proof using key_inj eqK.
    intros d o k R T. rewrite rget_rwrite. destruct (lastw (writes_of o) k) eqn:E; [|reflexivity]. exfalso. apply T, touches_writes; [assumption|].
    apply lastw_in. congruence.
  Qed.
  Lemma cget_cset : forall c a o b, cg (cset c a o) b = if eqK a b then o else cg c b.
  Proof. intros. unfold cget, cset. cbn [find fst]. now destruct (eqK a b). Qed.
  Lemma touches_dec : forall (o : op K V) k, touches o k \/ ~ touches o k.
  Proof. intros [q|q v|q|ws] k; cbn; try (destruct (eqK k q); tauto). destruct (in_dec eqK k (map fst ws)); tauto. Qed.
  Lemma read_dec : forall o : op K V, is_read o \/ ~ is_read o.
  Proof. intros []; cbn; tauto. Qed.

  (** The trace conditions, event by event. *)
  Fixpoint calm (l : list (nat * op K V)) (tr : list (event K V)) : Prop :=
    match tr with
    | [] => True
    | Call i o :: tr' => (forall j o' k, In (j, o') l -> touches o k -> touches o' k -> is_read o /\ is_read o') /\ calm ((i, o) :: l) tr'
    | Ret i _ _ :: tr' => calm (filter (fun x => negb (Nat.eqb (fst x) i)) l) tr'
    | Crash :: tr' => calm [] tr'
    end.
  Fixpoint good (ap : nat -> bool) (l : list (nat * op K V)) (m : K -> option V) (tr : list (event K V)) : Prop :=
    match tr with
    | [] => True
    | Call i o :: tr' => good ap ((i, o) :: l) m tr'
    | Ret i o r :: tr' => (forall k, o = Get k -> r = Value (m k)) /\
        good ap (filter (fun x => negb (Nat.eqb (fst x) i)) l) (match r with Done => eff m o | _ => m end) tr'
    | Crash :: tr' => good ap [] (fold_left (fun m x => if ap (fst x) then eff m (snd x) else m) l m) tr'
    end.
  Lemma calm_of : forall tr l,
    (forall tr1 i o tr2 j o' k, tr = tr1 ++ Call i o :: tr2 -> In (j, o') (open_from l tr1) -> touches o k -> touches o' k -> is_read o /\ is_read o') -> calm l tr.
  Proof.
    induction tr as [|e tr IH]; intros l H; [exact I|]. destruct e as [i o|i o r|]; cbn [calm].
    - split; [intros; now apply (H [] i o tr j o' k)|]. apply IH. intros tr1 i' o0 tr2 j o' k ->. apply (H (Call i o :: tr1) i' o0 tr2); reflexivity.
    - apply IH. intros tr1 i' o0 tr2 j o' k ->. apply (H (Ret i o r :: tr1) i' o0 tr2); reflexivity.
    - apply IH. intros tr1 i' o0 tr2 j o' k ->. apply (H (Crash :: tr1) i' o0 tr2); reflexivity.
  Qed.
  Lemma good_reads : forall ap tr l m, good ap l m tr -> forall tr1 i k r tr2, tr = tr1 ++ Ret i (Get k) r :: tr2 -> r = Value (after_from eqK ap l m tr1 k).
  Proof.
    induction tr as [|e tr IH]; intros l m G tr1 i k r tr2 E; [destruct tr1; discriminate|]. destruct tr1 as [|e1 tr1]; cbn [app] in E; injection E as -> E.
    - cbn in G. destruct G as [G _]. now apply G.
    - destruct e1 as [a b|a b c|]; cbn [good after_from] in *.
      + now apply (IH _ _ G _ i k r tr2).
      + destruct G as [_ G]. now apply (IH _ _ G _ i k r tr2).
      + now apply (IH _ _ G _ i k r tr2).
  Qed.
  Fixpoint ids (tr : list (event K V)) : list nat := match tr with [] => [] | Call i _ :: tr' => i :: ids tr' | _ :: tr' => ids tr' end.
  Lemma good_agree : forall ap ap' tr l m, (forall i, In i (map fst l) \/ In i (ids tr) -> ap i = ap' i) -> good ap l m tr -> good ap' l m tr.
  Proof.
    intros ap ap'. induction tr as [|e tr IH]; intros l m A G; [exact I|]. destruct e as [i o|i o r|]; cbn [good ids] in *.
    - apply IH; [|exact G]. intros j J. apply A. cbn in *. tauto.
    - destruct G as [G1 G2]. split; [exact G1|]. apply IH; [|exact G2]. intros j J. apply A. destruct J as [J|J]; [left|now right].
      apply in_map_iff in J as (x & <- & J). apply filter_In in J as [J _]. now apply in_map.
    - assert (E : forall m, fold_left (fun m x => if ap (fst x) then eff m (snd x) else m) l m = fold_left (fun m x => if ap' (fst x) then eff m (snd x) else m) l m).
      { clear -A. assert (A' : forall x, In x l -> ap (fst x) = ap' (fst x)) by (intros x X; apply A; left; now apply in_map).
        clear A. induction l as [|x l IHl]; intros m; [reflexivity|]. cbn [fold_left]. rewrite (A' x) by now left. apply IHl. intros y Y. apply A'. now right. }
      rewrite <- E. apply IH; [|exact G]. intros j [[]|J]. apply A. now right.
  Qed.

  Notation cdb := (@cdb K V). Notation job := (@job K V). Notation jobs_open := (map (fun j : job => (j_id j, j_op j))).
  Definition settled (s : cdb) (k : K) : Prop := forall j rest, In j (c_jobs s) -> j_at j = Written rest -> ~ touches (j_op j) k.
  Record inv (s : cdb) (m : K -> option V) : Prop := {
    i_nodup : NoDup (map j_id (c_jobs s));
    i_next : forall j, In j (c_jobs s) -> j_id j < c_next s;
    i_apart : forall j j' k, In j (c_jobs s) -> In j' (c_jobs s) -> j_id j <> j_id j' -> touches (j_op j) k -> touches (j_op j') k -> is_read (j_op j) /\ is_read (j_op j');
    i_fetched : forall j o, In j (c_jobs s) -> j_at j = Fetched o -> exists k, j_op j = Get k /\ o = m k;
    i_written : forall j rest, In j (c_jobs s) -> j_at j = Written rest -> ~ is_read (j_op j) /\ exists d, writes_of (j_op j) = d ++ rest;
    i_settled : forall k, settled s k -> rget (c_db s) (key k) = option_map enc (m k) /\ forall v, cg (c_cache s) k = Some v -> m k = Some v;
    i_pending : forall j rest k, In j (c_jobs s) -> j_at j = Written rest -> touches (j_op j) k ->
      rget (c_db s) (key k) = option_map enc (eff m (j_op j) k) /\ (~ In k (map fst rest) -> forall v, cg (c_cache s) k = Some v -> eff m (j_op j) k = Some v)
  }.
  Lemma inv_fresh : inv fresh empty.
  Proof. split; cbn; try (intros; tauto); first [constructor; fail|intros k _; split; [reflexivity|discriminate]]. Qed.

  Lemma find_job_in : forall (s : cdb) i j, find_job s i = Some j -> In j (c_jobs s) /\ j_id j = i.
  Proof. intros s i j H. apply find_some in H as [H E]. now apply Nat.eqb_eq in E. Qed.
  Lemma same_job : forall (s : cdb) m (j j' : job), inv s m -> In j (c_jobs s) -> In j' (c_jobs s) -> j_id j = j_id j' -> j = j'.
  Proof.
    intros s m j j' HI A B E. pose proof (i_nodup s m HI) as ND. revert A B ND. generalize (c_jobs s). induction l as [|x l IH]; cbn; [tauto|].
    intros A B ND. inversion ND as [|? ? N1 N2]; subst. destruct A as [->|A], B as [->|B]; auto; exfalso; apply N1; [rewrite E|rewrite <- E]; now apply in_map.
  Qed.
  Lemma move_ids : forall (s : cdb) i p, map j_id (move_job s i p) = map j_id (c_jobs s).
  Proof. intros. unfold move_job. rewrite map_map. apply map_ext. intros j. destruct (Nat.eqb_spec (j_id j) i); cbn; congruence. Qed.
  Lemma move_open : forall (s : cdb) i p, jobs_open (move_job s i p) = jobs_open (c_jobs s).
  Proof. intros. unfold move_job. rewrite map_map. apply map_ext. intros j. destruct (Nat.eqb_spec (j_id j) i); cbn; congruence. Qed.
  Lemma drop_open : forall (s : cdb) i, jobs_open (drop_job s i) = filter (fun x => negb (Nat.eqb (fst x) i)) (jobs_open (c_jobs s)).
  Proof. intros s i. unfold drop_job. induction (c_jobs s) as [|j l IH]; [reflexivity|]. cbn. destruct (Nat.eqb (j_id j) i); cbn; now rewrite ?IH. Qed.
  Lemma in_move : forall (s : cdb) m j p j', inv s m -> In j (c_jobs s) -> In j' (move_job s (j_id j) p) -> j' = mk_job (j_id j) (j_op j) p \/ In j' (c_jobs s) /\ j_id j' <> j_id j.
  Proof.
    intros s m j p j' HI A B. apply in_map_iff in B as (x & E & X). destruct (Nat.eqb_spec (j_id x) (j_id j)) as [Q|Q].
    - rewrite (same_job s m x j HI X A Q) in E. now left.
    - subst. now right.
  Qed.
  Lemma in_drop : forall (s : cdb) i (j' : job), In j' (drop_job s i) <-> In j' (c_jobs s) /\ j_id j' <> i.
  Proof. intros. unfold drop_job. rewrite filter_In. destruct (Nat.eqb_spec (j_id j') i); cbn; intuition congruence. Qed.
  Lemma in_moved : forall (s : cdb) j p, In j (c_jobs s) -> In (mk_job (j_id j) (j_op j) p) (move_job s (j_id j) p).
  Proof. intros s j p H. apply in_map_iff. exists j. now rewrite Nat.eqb_refl. Qed.
  Lemma in_kept : forall (s : cdb) i p j', In j' (c_jobs s) -> j_id j' <> i -> In j' (move_job s i p).
  Proof. intros s i p j' H E. apply in_map_iff. exists j'. destruct (Nat.eqb_spec (j_id j') i); [congruence|auto]. Qed.
  Lemma nodup_drop : forall (s : cdb) i, NoDup (map j_id (c_jobs s)) -> NoDup (map j_id (drop_job s i)).
  Proof.
    intros s i. unfold drop_job. induction (c_jobs s) as [|j l IH]; cbn; [auto|]. intros H. inversion H as [|? ? A B]; subst.
    destruct (Nat.eqb (j_id j) i); cbn [negb]; [auto|]. cbn. constructor; [|auto]. intros X. apply A. apply in_map_iff in X as (y & Ey & X). apply filter_In in X as [X _].
    rewrite <- Ey. now apply in_map.
  Qed.

  (** Removing a call that has not written. *)
  Lemma inv_finish_quiet : forall (s : cdb) m j, inv s m -> In j (c_jobs s) -> (forall rest, j_at j <> Written rest) -> inv (set_jobs s (drop_job s (j_id j))) m.
  Proof using key_inj eqK.
    intros s m j HI J NW.
    assert (ST : forall k, settled (set_jobs s (drop_job s (j_id j))) k -> settled s k).
    { intros k S0 x rest X E. destruct (Nat.eq_dec (j_id x) (j_id j)) as [Q|Q].
      - rewrite (same_job s m x j HI X J Q) in E. now apply NW in E.
      - apply (S0 x rest); [cbn; now apply in_drop|exact E]. }
    destruct HI as [A1 A2 A3 A4 A5 A6 A7]. split; cbn [set_jobs c_jobs c_next c_db c_cache].
    - now apply nodup_drop.
    - intros x X. apply in_drop in X as [X _]. auto.
    - intros x y k X Y. apply in_drop in X as [X _]. apply in_drop in Y as [Y _]. eauto.
    - intros x o X. apply in_drop in X as [X _]. eauto.
    - intros x o X. apply in_drop in X as [X _]. eauto.
    - intros k S0. apply A6. now apply ST.
    - intros x rest k X. apply in_drop in X as [X _]. eauto.
  Qed.
  (** Moving a call that has not written and does not write now. *)
  Lemma inv_fetch : forall (s : cdb) m j k, inv s m -> In j (c_jobs s) -> j_op j = Get k -> inv (set_jobs s (move_job s (j_id j) (Fetched (m k)))) m.
  Proof using key_inj eqK.
    intros s m j k HI J O. pose proof (in_move s m j (Fetched (m k))) as IM.
    assert (NW : forall rest, j_at j <> Written rest). { intros rest E. destruct (i_written s m HI j rest J E) as [R _]. rewrite O in R. now apply R. }
    assert (ST : forall q, settled (set_jobs s (move_job s (j_id j) (Fetched (m k)))) q -> settled s q).
    { intros q S0 x rest X E. destruct (Nat.eq_dec (j_id x) (j_id j)) as [Q|Q].
      - rewrite (same_job s m x j HI X J Q) in E. now apply NW in E.
      - apply (S0 x rest); [cbn; now apply in_kept|exact E]. }
    assert (HI' := HI). destruct HI as [A1 A2 A3 A4 A5 A6 A7]. split; cbn [set_jobs c_jobs c_next c_db c_cache].
    - now rewrite move_ids.
    - intros x X. destruct (IM x HI' J X) as [->|[X' _]]; [cbn|]; auto.
    - intros x y q X Y. destruct (IM x HI' J X) as [->|[X' Xn]], (IM y HI' J Y) as [->|[Y' Yn]]; cbn [j_id j_op]; [tauto|apply A3; auto|apply A3; auto|apply A3; auto].
    - intros x o X. destruct (IM x HI' J X) as [->|[X' _]]; [cbn|apply A4; auto]. intros E. injection E as <-. exists k. auto.
    - intros x o X. destruct (IM x HI' J X) as [->|[X' _]]; [discriminate|apply A5; auto].
    - intros q S0. apply A6. now apply ST.
    - intros x rest q X. destruct (IM x HI' J X) as [->|[X' _]]; [discriminate|apply A7; auto].
  Qed.
  (** The database write of a call. *)
  Lemma inv_write : forall (s : cdb) m j, inv s m -> In j (c_jobs s) -> ~ is_read (j_op j) -> j_at j = Begun ->
    inv (mk_cdb (rw (c_db s) (writes_of (j_op j))) (c_cache s) (move_job s (j_id j) (Written (writes_of (j_op j)))) (c_next s)) m.
  Proof using key_inj eqK.
    intros s m j HI J R B. pose proof (in_move s m j (Written (writes_of (j_op j)))) as IM.
    assert (HS : forall k, touches (j_op j) k -> settled s k).
    { intros k T x rest X E T'. destruct (Nat.eq_dec (j_id x) (j_id j)) as [Q|Q].
      - rewrite (same_job s m x j HI X J Q) in E. congruence.
      - destruct (i_apart s m HI x j k X J Q T' T) as [_ C]. now apply R. }
    assert (HI' := HI). destruct HI as [A1 A2 A3 A4 A5 A6 A7]. split; cbn [c_jobs c_next c_db c_cache].
    - now rewrite move_ids.
    - intros x X. destruct (IM x HI' J X) as [->|[X' _]]; [cbn|]; auto.
    - intros x y q X Y. destruct (IM x HI' J X) as [->|[X' Xn]], (IM y HI' J Y) as [->|[Y' Yn]]; cbn [j_id j_op]; [tauto|apply A3; auto|apply A3; auto|apply A3; auto].
    - intros x o X. destruct (IM x HI' J X) as [->|[X' _]]; [discriminate|apply A4; auto].
    - intros x rest X. destruct (IM x HI' J X) as [->|[X' _]]; [cbn|apply A5; auto]. intros E. injection E as <-. split; [exact R|]. now exists [].
    - intros k S0. assert (NT : ~ touches (j_op j) k). { apply (S0 (mk_job (j_id j) (j_op j) (Written (writes_of (j_op j)))) (writes_of (j_op j))); [now apply in_moved|reflexivity]. }
      rewrite rget_miss by assumption. apply A6. intros x rest X E. destruct (Nat.eq_dec (j_id x) (j_id j)) as [Q|Q].
      + now rewrite (same_job s m x j HI' X J Q).
      + apply (S0 x rest); [cbn; now apply in_kept|exact E].
    - intros x rest k X. destruct (IM x HI' J X) as [->|[X' Xn]]; cbn [j_op j_at].
      + intros E T. injection E as <-. split; [now apply rget_eff|]. intros N. exfalso. apply N. now apply touches_writes.
      + intros E T. assert (NT : ~ touches (j_op j) k).
        { intros T'. destruct (A3 x j k X' J Xn T T') as [_ C]. now apply R. }
        rewrite rget_miss by assumption. apply (A7 x rest k X' E T).
  Qed.
  (** One update of the cache after a write. *)
  Lemma lastw_mid : forall d k w rest, ~ In k (map fst rest) -> lastw (d ++ (k, w) :: rest) k = Some w.
  Proof.
    intros d k w rest. induction rest as [|x rest IH] using rev_ind; intros N.
    - rewrite lastw_snoc. cbn. now destruct (eqK k k).
    - change (d ++ (k, w) :: rest ++ [x]) with (d ++ ((k, w) :: rest) ++ [x]). rewrite app_assoc, lastw_snoc. rewrite map_app, in_app_iff in N. cbn in N.
      destruct (eqK (fst x) k); [tauto|]. apply IH. tauto.
  Qed.
  Lemma inv_sync : forall (s : cdb) m j k w rest, inv s m -> In j (c_jobs s) -> j_at j = Written ((k, w) :: rest) ->
    inv (mk_cdb (c_db s) (cset (c_cache s) k w) (move_job s (j_id j) (Written rest)) (c_next s)) m.
  Proof using key_inj eqK.
    intros s m j k w rest HI J B. pose proof (in_move s m j (Written rest)) as IM.
    destruct (i_written s m HI j _ J B) as [R (d & D)].
    assert (TK : touches (j_op j) k). { apply touches_writes; [exact R|]. rewrite D, map_app, in_app_iff. right. now left. }
    assert (HI' := HI). destruct HI as [A1 A2 A3 A4 A5 A6 A7]. split; cbn [c_jobs c_next c_db c_cache].
    - now rewrite move_ids.
    - intros x X. destruct (IM x HI' J X) as [->|[X' _]]; [cbn|]; auto.
    - intros x y q X Y. destruct (IM x HI' J X) as [->|[X' Xn]], (IM y HI' J Y) as [->|[Y' Yn]]; cbn [j_id j_op]; [tauto|apply A3; auto|apply A3; auto|apply A3; auto].
    - intros x o X. destruct (IM x HI' J X) as [->|[X' _]]; [discriminate|apply A4; auto].
    - intros x q X. destruct (IM x HI' J X) as [->|[X' _]]; [cbn|apply A5; auto]. intros E. injection E as <-. split; [exact R|]. exists (d ++ [(k, w)]). now rewrite D, <- app_assoc.
    - intros q S0. assert (NT : ~ touches (j_op j) q). { apply (S0 (mk_job (j_id j) (j_op j) (Written rest)) rest); [now apply in_moved|reflexivity]. }
      destruct (A6 q) as [P1 P2].
      { intros x r X E. destruct (Nat.eq_dec (j_id x) (j_id j)) as [Q|Q].
        - now rewrite (same_job s m x j HI' X J Q).
        - apply (S0 x r); [cbn; now apply in_kept|exact E]. }
      split; [exact P1|]. intros v. rewrite cget_cset. destruct (eqK k q) as [->|]; [contradiction|apply P2].
    - intros x r q X. destruct (IM x HI' J X) as [->|[X' Xn]]; cbn [j_op j_at].
      + intros E T. injection E as <-. destruct (A7 j _ q J B T) as [P1 P2]. split; [exact P1|]. intros N v. rewrite cget_cset. destruct (eqK k q) as [->|NE].
        * intros ->. rewrite eff_lastw, D, lastw_mid by assumption. reflexivity.
        * apply P2. cbn. tauto.
      + intros E T. assert (NE : k <> q). { intros ->. destruct (A3 x j q X' J Xn T TK) as [_ C]. now apply R. }
        destruct (A7 x r q X' E T) as [P1 P2]. split; [exact P1|]. intros N v. rewrite cget_cset. destruct (eqK k q); [contradiction|]. now apply P2.
  Qed.
  (** A write returns. *)
  Lemma inv_done : forall (s : cdb) m j, inv s m -> In j (c_jobs s) -> j_at j = Written [] -> inv (set_jobs s (drop_job s (j_id j))) (eff m (j_op j)).
  Proof using key_inj eqK.
    intros s m j HI J B. destruct (i_written s m HI j _ J B) as [R _].
    assert (NT : forall x k, In x (c_jobs s) -> j_id x <> j_id j -> touches (j_op x) k -> ~ touches (j_op j) k).
    { intros x k X Q T T'. destruct (i_apart s m HI x j k X J Q T T') as [_ C]. now apply R. }
    assert (HI' := HI). destruct HI as [A1 A2 A3 A4 A5 A6 A7]. split; cbn [set_jobs c_jobs c_next c_db c_cache].
    - now apply nodup_drop.
    - intros x X. apply in_drop in X as [X _]. auto.
    - intros x y k X Y. apply in_drop in X as [X _]. apply in_drop in Y as [Y _]. eauto.
    - intros x o X E. apply in_drop in X as [X Q]. destruct (A4 x o X E) as (k & K1 & K2). exists k. split; [exact K1|]. rewrite eff_miss; [exact K2|].
      apply (NT x k X Q). rewrite K1. reflexivity.
    - intros x o X. apply in_drop in X as [X _]. eauto.
    - intros k S0. destruct (touches_dec (j_op j) k) as [T|T].
      + destruct (A7 j [] k J B T) as [P1 P2]. split; [exact P1|]. apply P2. intros [].
      + rewrite eff_miss by exact T. apply A6. intros x rest X E. destruct (Nat.eq_dec (j_id x) (j_id j)) as [Q|Q].
        * now rewrite (same_job s m x j HI' X J Q).
        * apply (S0 x rest); [cbn; now apply in_drop|exact E].
    - intros x rest k X E T. apply in_drop in X as [X Q]. destruct (A5 x rest X E) as [Rx _]. rewrite (eff_hit (eff m (j_op j)) m) by assumption. apply (A7 x rest k X E T).
  Qed.
  Lemma inv_cache_read : forall (s : cdb) m j k v, inv s m -> In j (c_jobs s) -> j_op j = Get k -> m k = Some v ->
    inv (mk_cdb (c_db s) (cset (c_cache s) k (Some v)) (c_jobs s) (c_next s)) m.
  Proof using key_inj eqK.
    intros s m j k v HI J O E. assert (NW : forall x rest, In x (c_jobs s) -> j_at x = Written rest -> ~ touches (j_op x) k).
    { intros x rest X A T. destruct (i_written s m HI x rest X A) as [R _]. destruct (Nat.eq_dec (j_id x) (j_id j)) as [Q|Q].
      - rewrite (same_job s m x j HI X J Q), O in R. now apply R.
      - destruct (i_apart s m HI x j k X J Q T) as [C _]; [now rewrite O|]. now apply R. }
    destruct HI as [A1 A2 A3 A4 A5 A6 A7]. split; cbn [c_jobs c_next c_db c_cache]; auto.
    - intros q S0. destruct (A6 q S0) as [P1 P2]. split; [exact P1|]. intros u. rewrite cget_cset. destruct (eqK k q) as [<-|]; [congruence|apply P2].
    - intros x rest q X B T. destruct (A7 x rest q X B T) as [P1 P2]. split; [exact P1|]. intros N u. rewrite cget_cset. destruct (eqK k q) as [<-|]; [|now apply P2].
      now apply (NW x rest) in T.
  Qed.
  Lemma inv_evict : forall (s : cdb) m k, inv s m -> inv (mk_cdb (c_db s) (cset (c_cache s) k None) (c_jobs s) (c_next s)) m.
  Proof using key_inj eqK.
    intros s m k [A1 A2 A3 A4 A5 A6 A7]. split; cbn [c_jobs c_next c_db c_cache]; auto.
    - intros q S0. destruct (A6 q S0) as [P1 P2]. split; [exact P1|]. intros u. rewrite cget_cset. destruct (eqK k q); [discriminate|apply P2].
    - intros x rest q X B T. destruct (A7 x rest q X B T) as [P1 P2]. split; [exact P1|]. intros N u. rewrite cget_cset. destruct (eqK k q); [discriminate|now apply P2].
  Qed.
  Lemma inv_begin : forall (s : cdb) m o, inv s m -> (forall j o' k, In (j, o') (jobs_open (c_jobs s)) -> touches o k -> touches o' k -> is_read o /\ is_read o') ->
    inv (mk_cdb (c_db s) (c_cache s) (mk_job (c_next s) o Begun :: c_jobs s) (S (c_next s))) m.
  Proof using key_inj eqK.
    intros s m o HI C.
    assert (C' : forall j k, In j (c_jobs s) -> touches o k -> touches (j_op j) k -> is_read o /\ is_read (j_op j)).
    { intros j k J. apply (C (j_id j)). apply in_map_iff. exists j. auto. }
    destruct HI as [A1 A2 A3 A4 A5 A6 A7]. split; cbn [c_jobs c_next c_db c_cache].
    - cbn. constructor; [|exact A1]. intros X. apply in_map_iff in X as (x & E & X). apply A2 in X. lia.
    - intros x [<-|X]; cbn; [lia|]. apply A2 in X. lia.
    - intros x y k [<-|X] [<-|Y]; cbn [j_id j_op]; [tauto| | |apply A3; auto].
      + intros _ T T'. now apply (C' y k).
      + intros _ T T'. destruct (C' x k X T' T). auto.
    - intros x q [<-|X]; [discriminate|apply A4; auto].
    - intros x q [<-|X]; [discriminate|apply A5; auto].
    - intros k S0. apply A6. intros x rest X. apply (S0 x rest). now right.
    - intros x q k [<-|X]; [discriminate|apply A7; auto].
  Qed.
  Definition is_written (j : job) : bool := match j_at j with Written _ => true | _ => false end.
  (** A crash: exactly the calls that have written count. *)
  Lemma fold_miss : forall (ap : nat -> bool) k l m, (forall x, In x l -> ap (fst x) = true -> ~ touches (snd x) k) ->
    fold_left (fun m x => if ap (fst x) then eff m (snd x) else m) l m k = m k.
  Proof.
    induction l as [|x l IH]; intros m H; [reflexivity|]. cbn [fold_left]. rewrite IH by (intros y Y; apply H; now right).
    destruct (ap (fst x)) eqn:E; [|reflexivity]. apply eff_miss, H; [now left|exact E].
  Qed.
  Lemma fold_hit : forall (ap : nat -> bool) k l m x, NoDup (map fst l) -> In x l -> ap (fst x) = true -> ~ is_read (snd x) -> touches (snd x) k ->
    (forall y, In y l -> fst y <> fst x -> ap (fst y) = true -> ~ touches (snd y) k) ->
    fold_left (fun m x => if ap (fst x) then eff m (snd x) else m) l m k = eff m (snd x) k.
  Proof.
    induction l as [|y l IH]; intros m x ND X A R T H; [destruct X|]. cbn [fold_left map] in *. inversion ND as [|? ? N1 N2]; subst. destruct X as [->|X].
    - rewrite A. rewrite fold_miss; [reflexivity|]. intros z Z E. apply H; [now right| |exact E]. intros Q. apply N1. rewrite <- Q. now apply in_map.
    - rewrite (IH _ x); auto.
      + apply eff_hit; assumption.
      + intros z Z. apply H. now right.
  Qed.
  Lemma inv_crash : forall (s : cdb) m ap, inv s m -> (forall j, In j (c_jobs s) -> ap (j_id j) = is_written j) ->
    inv (mk_cdb (c_db s) [] [] (c_next s)) (fold_left (fun m x => if ap (fst x) then eff m (snd x) else m) (jobs_open (c_jobs s)) m).
  Proof using key_inj eqK.
    intros s m ap HI AP. split; cbn [c_jobs c_next c_db c_cache]; cbn; try (intros; tauto); try (constructor; fail). intros k _. split; [|discriminate].
    assert (D : (exists j, In j (c_jobs s) /\ is_written j = true /\ touches (j_op j) k) \/ settled s k).
    { assert (G : forall l, (exists j, In j l /\ is_written j = true /\ touches (j_op j) k) \/ forall j rest, In j l -> j_at j = Written rest -> ~ touches (j_op j) k); [|apply G].
      induction l as [|x l IH]; [right; intros ? ? []|]. destruct IH as [(j & X1 & X2)|IH]; [left; exists j; split; [now right|exact X2]|].
      destruct (touches_dec (j_op x) k) as [T|T]; [|right; intros j rest [<-|X] E; [exact T|eauto]].
      destruct (is_written x) eqn:W; [left; exists x; cbn; auto|]. right. intros j rest [<-|X] E; [unfold is_written in W; rewrite E in W; discriminate|eauto]. }
    destruct D as [(j & J & W & T)|S0].
    - unfold is_written in W. destruct (j_at j) as [| |rest] eqn:A; try discriminate. destruct (i_written s m HI j rest J A) as [R _].
      destruct (i_pending s m HI j rest k J A T) as [P _]. rewrite P. f_equal. symmetry.
      apply (fold_hit ap k (jobs_open (c_jobs s)) m (j_id j, j_op j)); cbn [fst snd]; auto.
      + rewrite map_map. cbn. apply (i_nodup s m HI).
      + apply in_map_iff. now exists j.
      + rewrite AP by exact J. unfold is_written. now rewrite A.
      + intros y Y Q _ T'. apply in_map_iff in Y as (x & <- & X). cbn in *. destruct (i_apart s m HI x j k X J Q T' T) as [_ C]. now apply R.
    - destruct (i_settled s m HI k S0) as [P _]. rewrite P. f_equal. symmetry. apply fold_miss. intros x X A. apply in_map_iff in X as (j & <- & X). cbn in *.
      rewrite AP in A by exact X. unfold is_written in A. destruct (j_at j) eqn:E; try discriminate. now apply (S0 j rest).
  Qed.

  Notation Exec := (exec eqK key enc dec). Notation Act := (act eqK key enc dec).
  Lemma finish_ids : forall (s : cdb) j r s' e, finish s j r = (s', e) -> ids e = [] /\ c_next s' = c_next s.
  Proof. intros s j r s' e E. injection E as <- <-. split; reflexivity. Qed.
  Lemma act_ids : forall (s : cdb) a s' e, Act s a = (s', e) -> (forall i, In i (ids e) -> c_next s <= i) /\ c_next s <= c_next s'.
  Proof.
    intros s a s' e E. assert (F : forall s0 j r, c_next s0 = c_next s -> finish s0 j r = (s', e) -> (forall i, In i (ids e) -> c_next s <= i) /\ c_next s <= c_next s').
    { intros s0 j r E0 Q. apply finish_ids in Q as [-> Q]. split; [intros i []|lia]. }
    assert (B : forall s0, c_next s0 = c_next s -> (s0, []) = (s', e) -> (forall i, In i (ids e) -> c_next s <= i) /\ c_next s <= c_next s').
    { intros s0 E0 Q. injection Q as <- <-. split; [intros i []|lia]. }
    destruct a as [o|i|i|i|k|]; cbn [act] in E.
    - unfold start in E. assert (N : forall s0 e0, c_next s0 = S (c_next s) -> (forall i, In i (ids e0) -> c_next s <= i) -> (s0, e0) = (s', e) -> (forall i, In i (ids e) -> c_next s <= i) /\ c_next s <= c_next s').
      { intros s0 e0 E0 L Q. injection Q as <- <-. split; [exact L|lia]. }
      destruct o as [k| | |]; [destruct (cg (c_cache s) k)| | |]; (eapply N; [| |exact E]; [reflexivity|cbn; intros i [<-|[]]; lia]).
    - destruct (find_job s i) as [j|]; [|now apply (B s)]. unfold run_job in E.
      destruct (j_at j) as [|[v|]|[|[k w] rest]], (j_op j) as [k'|k' v'|k'|ws]; cbn [writes_of] in E;
      try (eapply B; [|exact E]; reflexivity); try (eapply F; [|exact E]; reflexivity).
      destruct (rget (c_db s) (key k')) as [bs|]; [destruct (dec bs)|]; try (eapply B; [|exact E]; reflexivity); try (eapply F; [|exact E]; reflexivity).
    - destruct (find_job s i) as [j|]; [|now apply (B s)].
      destruct (j_at j), (j_op j); try (eapply B; [|exact E]; reflexivity); try (eapply F; [|exact E]; reflexivity).
    - destruct (find_job s i) as [j|]; [|now apply (B s)].
      destruct (j_at j), (j_op j); try (eapply B; [|exact E]; reflexivity); try (eapply F; [|exact E]; reflexivity).
    - eapply B; [|exact E]; reflexivity.
    - injection E as <- <-. cbn. split; [intros i []|lia].
  Qed.
  Lemma exec_ids : forall l s s' tr, Exec s l = (s', tr) -> forall i, In i (ids tr) -> c_next s <= i.
  Proof.
    induction l as [|a l IH]; intros s s' tr E i I; cbn [exec] in E; [injection E as <- <-; destruct I|].
    destruct (Act s a) as [s1 e1] eqn:E1. destruct (Exec s1 l) as [s2 e2] eqn:E2. injection E as <- <-. destruct (act_ids _ _ _ _ E1) as [A B].
    assert (IA : forall x y : list (event K V), ids (x ++ y) = ids x ++ ids y). { induction x as [|[] x IHx]; intros y; cbn; rewrite ?IHx; reflexivity. }
    rewrite IA in I. apply in_app_or in I as [I|I]; [auto|]. specialize (IH _ _ _ E2 i I). lia.
  Qed.

  Notation op_ok := (sound_op ok).
  Definition okinv (l : list (nat * op K V)) (m : K -> option V) : Prop := (forall k v, m k = Some v -> ok v) /\ forall x, In x l -> op_ok (snd x).
  Lemma eff_ok : forall m o, (forall k v, m k = Some v -> ok v) -> op_ok o -> forall k v, eff m o k = Some v -> ok v.
  Proof.
    assert (F : forall ws m, (forall k v, m k = Some v -> ok v) -> (forall k v, In (k, Some v) ws -> ok v) -> forall k v, fold_left (write eqK) ws m k = Some v -> ok v).
    { induction ws as [|w ws IH]; intros m M W k v E; [now apply (M k)|]. cbn [fold_left] in E. apply IH in E; [exact E| |intros; apply (W k0); now right].
      intros k' v' E'. unfold write in E'. destruct (eqK (fst w) k'); [|now apply (M k')]. apply (W (fst w)). left. destruct w. cbn in *. now subst. }
    intros m [q|q v|q|ws] M O k u E; cbn [effect sound_op] in *; [now apply (M k)| | |now apply (F ws m M O k)]; unfold write in E; cbn [fst snd] in E;
    (destruct (eqK q k); [|now apply (M k)]); [injection E as <-; exact O|discriminate].
  Qed.
  Lemma fold_ok : forall (ap : nat -> bool) l m, okinv l m -> okinv [] (fold_left (fun m x => if ap (fst x) then eff m (snd x) else m) l m).
  Proof.
    induction l as [|x l IH]; intros m [M L]; [now split|]. cbn [fold_left]. apply IH. split; [|intros y Y; apply L; now right].
    destruct (ap (fst x)); [|exact M]. intros k v. apply eff_ok; [exact M|apply L; now left].
  Qed.
  (** A step without events, or with one return. *)
  Lemma exec_good : forall l s m s' tr, inv s m -> okinv (jobs_open (c_jobs s)) m -> sound ok l -> (forall i, ~ In (FailRead i) l) -> Exec s l = (s', tr) -> calm (jobs_open (c_jobs s)) tr ->
    exists ap, good ap (jobs_open (c_jobs s)) m tr.
  Proof using key_inj dec_enc eqK.
    induction l as [|a l IH]; intros s m s' tr HI HK SO NF E C; cbn [exec] in E; [injection E as <- <-; now exists (fun _ => false)|].
    assert (SO' : sound ok l) by (intros o Q; apply SO; now right). assert (SA : forall o, a = Start o -> op_ok o) by (intros o Q; apply SO; left; exact Q).
    destruct (Act s a) as [s1 e1] eqn:E1. destruct (Exec s1 l) as [s2 e2] eqn:E2. injection E as <- <-.
    assert (NF' : forall i, ~ In (FailRead i) l) by (intros i Q; apply (NF i); now right).
    assert (NA : forall i, a <> FailRead i) by (intros i Q; apply (NF i); now left).
    assert (QUIET : forall t, inv t m -> jobs_open (c_jobs t) = jobs_open (c_jobs s) -> (t, []) = (s1, e1) -> exists ap, good ap (jobs_open (c_jobs s)) m (e1 ++ e2)).
    { intros t HT O Q. injection Q as <- <-. cbn [app] in *. rewrite <- O in *. now apply (IH t m s2 e2). }
    destruct HK as [K1 K2].
    assert (RETURN : forall t j r, In j (c_jobs s) -> c_jobs t = c_jobs s -> (forall k, j_op j = Get k -> r = Value (m k)) ->
       inv (set_jobs t (drop_job t (j_id j))) (match r with Done => eff m (j_op j) | _ => m end) ->
       finish t j r = (s1, e1) -> exists ap, good ap (jobs_open (c_jobs s)) m (e1 ++ e2)).
    { intros t j r JI O G HT Q. injection Q as <- <-. cbn [app calm good] in *. assert (OPJ : match r with Done => op_ok (j_op j) | _ => True end).
      { destruct r; try exact I. apply (K2 (j_id j, j_op j)). apply in_map_iff. exists j. now split. }
      destruct (IH _ _ s2 e2 HT) as [ap GG]; [|exact SO'|exact NF'|exact E2| |].
      - cbn [set_jobs c_jobs]. rewrite drop_open, O. split.
        + destruct r; try exact K1. intros k v. now apply eff_ok.
        + intros x X. apply filter_In in X as [X _]. now apply K2.
      - cbn [set_jobs c_jobs]. rewrite drop_open, O. exact C.
      - exists ap. split; [exact G|]. cbn [set_jobs c_jobs] in GG. rewrite drop_open, O in GG. exact GG. }
    destruct a as [o|i|i|i|k|]; cbn [act] in E1.
    - assert (MISS : (mk_cdb (c_db s) (c_cache s) (mk_job (c_next s) o Begun :: c_jobs s) (S (c_next s)), [Call (c_next s) o]) = (s1, e1) ->
        exists ap, good ap (jobs_open (c_jobs s)) m (e1 ++ e2)).
      { intros Q. injection Q as <- <-. cbn [app calm good] in *. destruct C as [C1 C2]. apply (IH _ m s2 e2 (inv_begin s m o HI C1)); [|exact SO'|exact NF'|exact E2|exact C2].
        split; [exact K1|]. cbn [c_jobs map j_id j_op]. intros x [<-|X]; [now apply SA|now apply K2]. }
      destruct o as [k| | |]; cbn [start] in E1; [|now apply MISS|now apply MISS|now apply MISS].
      destruct (cg (c_cache s) k) as [v|] eqn:Ec; [|now apply MISS]. injection E1 as <- <-. cbn [app calm good] in *. destruct C as [C1 C2].
      assert (MV : m k = Some v).
      { apply (i_settled s m HI k); [|exact Ec]. intros j rest J A T. destruct (i_written s m HI j rest J A) as [R _].
        destruct (C1 (j_id j) (j_op j) k) as [_ Q]; [apply in_map_iff; now exists j|reflexivity|exact T|now apply R]. }
      assert (FL : filter (fun x : nat * op K V => negb (Nat.eqb (fst x) (c_next s))) ((c_next s, Get k) :: jobs_open (c_jobs s)) = jobs_open (c_jobs s)).
      { cbn [filter fst]. rewrite Nat.eqb_refl. cbn [negb]. pose proof (i_next s m HI) as NX. clear -NX. induction (c_jobs s) as [|x q IHq]; [reflexivity|]. cbn.
        destruct (Nat.eqb_spec (j_id x) (c_next s)) as [Q|]; [specialize (NX x (or_introl eq_refl)); lia|]. cbn. f_equal. apply IHq. intros y Y. apply NX. now right. }
      rewrite FL in *. destruct (IH (mk_cdb (c_db s) (c_cache s) (c_jobs s) (S (c_next s))) m s2 e2) as [ap G]; [|now split|exact SO'|exact NF'|exact E2|exact C2|].
      + destruct HI as [A1 A2 A3 A4 A5 A6 A7]. split; cbn [c_jobs c_next c_db c_cache]; auto. intros x X. apply A2 in X. lia.
      + exists ap. split; [|exact G]. intros k' Q. injection Q as <-. now rewrite MV.
    - destruct (find_job s i) as [j|] eqn:F; [|now apply (QUIET s)]. apply find_job_in in F as [J Ji]. unfold run_job in E1.
      destruct (j_at j) as [|[v|]|[|[k w] rest]] eqn:A.
      + destruct (j_op j) as [k|k v|k|ws] eqn:O.
        * assert (RD : rget (c_db s) (key k) = option_map enc (m k)).
          { apply (i_settled s m HI k). intros x rest X A' T. destruct (i_written s m HI x rest X A') as [R _].
            destruct (Nat.eq_dec (j_id x) (j_id j)) as [Q|Q]; [rewrite (same_job s m x j HI X J Q) in A'; congruence|].
            destruct (i_apart s m HI x j k X J Q T) as [R' _]; [now rewrite O|now apply R]. }
          rewrite RD in E1. destruct (m k) as [v|] eqn:M; cbn [option_map] in E1.
          -- rewrite dec_enc, <- M in E1 by now apply (K1 k). refine (QUIET _ _ _ E1); [now apply inv_fetch|]. cbn. apply move_open.
          -- rewrite <- M in E1. refine (QUIET _ _ _ E1); [now apply inv_fetch|]. cbn. apply move_open.
        * refine (QUIET _ _ _ E1); [|cbn; apply move_open]. rewrite <- O. apply inv_write; auto. now rewrite O.
        * refine (QUIET _ _ _ E1); [|cbn; apply move_open]. rewrite <- O. apply inv_write; auto. now rewrite O.
        * refine (QUIET _ _ _ E1); [|cbn; apply move_open]. rewrite <- O. apply inv_write; auto. now rewrite O.
      + destruct (i_fetched s m HI j _ J A) as (k & O & M). rewrite O in E1. refine (RETURN _ j _ J _ _ _ E1); [reflexivity|intros k'; rewrite O; intros Q; injection Q as <-; now rewrite <- M|].
        apply (inv_finish_quiet (mk_cdb (c_db s) (cset (c_cache s) k (Some v)) (c_jobs s) (c_next s)) m j); [|exact J|intros r; congruence].
        now apply (inv_cache_read s m j).
      + destruct (i_fetched s m HI j _ J A) as (k & O & M). refine (RETURN s j _ J _ _ _ E1); [reflexivity|intros k'; rewrite O; intros Q; injection Q as <-; now rewrite <- M|].
        apply inv_finish_quiet; [exact HI|exact J|intros r; congruence].
      + refine (RETURN s j _ J _ _ _ E1); [reflexivity| |now apply inv_done]. intros k Q. destruct (i_written s m HI j _ J A) as [R _]. rewrite Q in R. exfalso. now apply R.
      + refine (QUIET _ _ _ E1); [|cbn; apply move_open]. now apply inv_sync.
    - destruct (find_job s i) as [j|] eqn:F; [|now apply (QUIET s)]. apply find_job_in in F as [J Ji]. destruct (j_at j) eqn:A; try now apply (QUIET s).
      destruct (j_op j) eqn:O; try now apply (QUIET s).
      1-3: refine (RETURN s j _ J _ _ _ E1); [reflexivity|rewrite O; discriminate|apply inv_finish_quiet; [exact HI|exact J|intros r; congruence]].
    - now apply NA in E1 || (exfalso; now apply (NA i)).
    - refine (QUIET _ _ _ E1); [now apply inv_evict|reflexivity].
    - injection E1 as <- <-. cbn [app calm good] in *.
      set (w := fun i => existsb (fun j => Nat.eqb (j_id j) i && is_written j) (c_jobs s)).
      assert (W : forall j, In j (c_jobs s) -> w (j_id j) = is_written j).
      { intros j J. unfold w. destruct (is_written j) eqn:Q.
        - apply existsb_exists. exists j. now rewrite Nat.eqb_refl, Q.
        - destruct (existsb _ (c_jobs s)) eqn:X; [|reflexivity]. apply existsb_exists in X as (x & X & Y). apply andb_prop in Y as [Y1 Y2]. apply Nat.eqb_eq in Y1.
          rewrite (same_job s m x j HI X J Y1) in Y2. congruence. }
      pose proof (inv_crash s m w HI W) as HC. destruct (IH _ _ s2 e2 HC) as [ap G]; [now apply fold_ok|exact SO'|exact NF'|exact E2|exact C|].
      exists (fun i => if Nat.ltb i (c_next s) then w i else ap i).
      assert (EF : fold_left (fun m x => if (if Nat.ltb (fst x) (c_next s) then w (fst x) else ap (fst x)) then eff m (snd x) else m) (jobs_open (c_jobs s)) m =
        fold_left (fun m x => if w (fst x) then eff m (snd x) else m) (jobs_open (c_jobs s)) m).
      { pose proof (i_next s m HI) as NX. clearbody w. clear -NX. revert m. induction (c_jobs s) as [|x q IHq]; intros m; [reflexivity|]. cbn [map fold_left fst snd].
        destruct (Nat.ltb_spec (j_id x) (c_next s)) as [|L]; [|specialize (NX x (or_introl eq_refl)); lia]. apply IHq. intros y Y. apply NX. now right. }
      rewrite EF. refine (good_agree ap _ e2 [] _ _ G). intros i [[]|I]. apply (exec_ids _ _ _ _ E2) in I. cbn in I. destruct (Nat.ltb_spec i (c_next s)); [lia|reflexivity].
  Qed.
  Lemma exec_exact : forall l s tr, Exec fresh l = (s, tr) -> sound ok l -> reads_work l -> no_overlap tr -> exists ap, reads_agree eqK ap tr.
  Proof using key_inj dec_enc eqK.
    intros l s tr E SO W N. destruct (exec_good l fresh empty s tr inv_fresh) as [ap G]; [split; [discriminate|intros x []]|exact SO|exact W|exact E| |].
    - apply calm_of. exact N.
    - exists ap. intros tr1 i k r tr2 Q. now apply (good_reads ap tr [] empty G tr1 i k r tr2).
  Qed.
End P.

Section Live.
  Context {K V : Type} (eqK : forall a b : K, {a = b} + {a <> b}) (key : K -> bytes) (enc : V -> bytes) (dec : bytes -> option V).
  Notation Exec := (exec eqK key enc dec).
  Lemma sync_returns : forall rest s i o js, c_jobs s = mk_job i o (Written rest) :: js ->
    exists n s' tr, Exec s (repeat (Step i) n) = (s', tr) /\ In (Ret i o Done) tr.
  Proof.
    induction rest as [|[k w] rest IH]; intros s i o js E.
    - exists 1. cbn [repeat exec]. unfold act, find_job. rewrite E. cbn [find j_id]. rewrite Nat.eqb_refl. unfold run_job, finish. cbn [j_at j_op j_id]. do 2 eexists. split; [reflexivity|]. now left.
    - destruct (IH (mk_cdb (c_db s) (cset (c_cache s) k w) (move_job s i (Written rest)) (c_next s)) i o (tl (move_job s i (Written rest)))) as (n & s' & tr & X & Y).
      { cbn [c_jobs]. unfold move_job. rewrite E. cbn [map j_id j_op tl]. now rewrite Nat.eqb_refl. }
      exists (S n), s', tr. split; [|exact Y]. cbn [repeat exec]. unfold act, find_job. rewrite E. cbn [find j_id]. rewrite Nat.eqb_refl. unfold run_job. cbn [j_at j_op j_id]. now rewrite X.
  Qed.
  Lemma start_returns : forall s o, exists n s' tr r, Exec s (Start o :: repeat (Step (c_next s)) n) = (s', tr) /\ In (Ret (c_next s) o r) tr /\ r <> Failed.
  Proof.
    intros s o. assert (W : (forall k, o <> Get k) -> exists n s' tr, Exec (mk_cdb (c_db s) (c_cache s) (mk_job (c_next s) o Begun :: c_jobs s) (S (c_next s))) (repeat (Step (c_next s)) n) = (s', tr) /\ In (Ret (c_next s) o Done) tr).
    { intros NG. set (s0 := mk_cdb (c_db s) (c_cache s) (mk_job (c_next s) o Begun :: c_jobs s) (S (c_next s))).
      destruct (sync_returns (writes_of o) (mk_cdb (rwrite key enc (c_db s) (writes_of o)) (c_cache s) (move_job s0 (c_next s) (Written (writes_of o))) (S (c_next s))) (c_next s) o (tl (move_job s0 (c_next s) (Written (writes_of o))))) as (n & s' & tr & X & Y).
      { cbn [c_jobs]. unfold move_job, s0. cbn [c_jobs map j_id j_op tl]. now rewrite Nat.eqb_refl. }
      exists (S n), s', tr. split; [|exact Y]. cbn [repeat exec]. unfold act, find_job. cbn [s0 c_jobs find j_id]. rewrite Nat.eqb_refl. unfold run_job. cbn [j_at j_op j_id].
      destruct o as [k| | |]; [now destruct (NG k)| | |]; unfold s0 in X |- *; cbn [c_db c_cache c_next] in *; now rewrite X. }
    destruct o as [k|k v|k|ws].
    - destruct (cget eqK (c_cache s) k) as [v|] eqn:Ec.
      + exists 0. cbn [repeat exec act start]. rewrite Ec. do 3 eexists. split; [reflexivity|]. split; [right; now left|discriminate].
      + set (s0 := mk_cdb (c_db s) (c_cache s) (mk_job (c_next s) (Get k) Begun :: c_jobs s) (S (c_next s))).
        assert (F : forall x, exists s' tr r, Exec (set_jobs s0 (move_job s0 (c_next s) (Fetched x))) [Step (c_next s)] = (s', tr) /\ In (Ret (c_next s) (Get k) r) tr /\ r <> Failed).
        { intros x. cbn [exec]. unfold act, find_job, set_jobs, move_job, s0. cbn [c_jobs map j_id j_op find]. rewrite Nat.eqb_refl. cbn [find j_id]. rewrite Nat.eqb_refl.
          destruct x as [v|]; unfold run_job, finish; cbn [j_at j_op j_id]; do 3 eexists; (split; [reflexivity|]); (split; [now left|discriminate]). }
        assert (E0 : forall l, Exec s (Start (Get k) :: l) = let '(s2, e2) := Exec s0 l in (s2, Call (c_next s) (Get k) :: e2)).
        { intros l. cbn [exec act start]. rewrite Ec. fold s0. now destruct (Exec s0 l). }
        assert (E1 : forall l, Exec s0 (Step (c_next s) :: l) = let '(s1, e1) := run_job key enc dec s0 (mk_job (c_next s) (Get k) Begun) in let '(s2, e2) := Exec s1 l in (s2, e1 ++ e2)).
        { intros l. cbn [exec]. unfold act, find_job. cbn [s0 c_jobs find j_id]. now rewrite Nat.eqb_refl. }
        unfold run_job in E1. cbn [j_at j_op j_id] in E1. destruct (rget (c_db s0) (key k)) as [bs|]; [destruct (dec bs) as [v|]|].
        * destruct (F (Some v)) as (s' & tr & r & X & Y). exists 2. cbn [repeat]. rewrite E0, E1. rewrite X. do 3 eexists. split; [reflexivity|]. split; [right; apply Y|apply Y].
        * exists 1. cbn [repeat]. rewrite E0, E1. cbn [finish exec]. do 3 eexists. split; [reflexivity|]. split; [right; now left|discriminate].
        * destruct (F None) as (s' & tr & r & X & Y). exists 2. cbn [repeat]. rewrite E0, E1. rewrite X. do 3 eexists. split; [reflexivity|]. split; [right; apply Y|apply Y].
    - destruct W as (n & s' & tr & X & Y); [discriminate|]. exists n, s', (Call (c_next s) (Put k v) :: tr), Done. split; [|split; [now right|discriminate]]. cbn [exec act start]. now rewrite X.
    - destruct W as (n & s' & tr & X & Y); [discriminate|]. exists n, s', (Call (c_next s) (Delete k) :: tr), Done. split; [|split; [now right|discriminate]]. cbn [exec act start]. now rewrite X.
    - destruct W as (n & s' & tr & X & Y); [discriminate|]. exists n, s', (Call (c_next s) (Batch ws) :: tr), Done. split; [|split; [now right|discriminate]]. cbn [exec act start]. now rewrite X.
  Qed.
End Live.

Lemma path_dec_only : forall b p, path_dec b = Some p -> b = path_key p.
Proof.
  induction b as [|x b IH]; intros p H; cbn [path_dec] in H; [injection H as <-; reflexivity|]. destruct (path_dec b) as [p0|]; [|destruct (x =? 49)%N; [discriminate|]; destruct (x =? 48)%N; discriminate].
  unfold path_key, db_key in *. destruct (N.eqb_spec x 49) as [->|]; [injection H as <-; cbn [map]; f_equal; apply IH; reflexivity|]. destruct (N.eqb_spec x 48) as [->|]; [|discriminate]. injection H as <-; cbn [map]; f_equal; apply IH; reflexivity.
Qed.
Lemma path_dec_key : forall p, path_dec (path_key p) = Some p.
Proof. induction p as [|[] p IH]; [reflexivity| |]; cbn [path_key db_key map path_dec] in *; unfold path_key, db_key in IH; rewrite IH; reflexivity. Qed.
Lemma path_key_inj : forall p q, path_key p = path_key q -> p = q.
Proof. intros p q E. apply (f_equal path_dec) in E. rewrite !path_dec_key in E. now injection E. Qed.
