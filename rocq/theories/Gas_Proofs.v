From Verif Require Import Base Base_Proofs Queue_Model Queue_Proofs Gas_Model Gas_Spec.
From Coq Require Import Permutation Sorted.
Open Scope N_scope.

Lemma total_app : forall a b, total (a ++ b) = total a + total b.
Proof. unfold total. induction a as [|x a IH]; intros b; cbn; [lia|]. rewrite IH. lia. Qed.
Lemma checked_add_spec : forall a b, checked_add a b = if a + b <=? u64_max then Some (a + b) else None.
Proof. reflexivity. Qed.
Lemma checked_add_ok : forall a b c, checked_add a b = Some c <-> c = a + b /\ a + b <= u64_max.
Proof.
  intros a b c. unfold checked_add. destruct (N.leb_spec (a + b) u64_max); split; intros Q.
  - injection Q as <-. auto.
  - destruct Q as [-> _]. reflexivity.
  - discriminate.
  - lia.
Qed.
Lemma checked_sum_ok : forall l a c, a <= u64_max -> (checked_sum a l = Some c <-> c = a + total l /\ a + total l <= u64_max).
Proof.
  induction l as [|x l IH]; intros a c Ha; cbn [checked_sum total fold_right].
  - split; [intros Q; injection Q as <-; lia|intros [-> _]; f_equal; lia].
  - fold (total l). destruct (checked_add a x) eqn:E.
    + apply checked_add_ok in E as [-> E]. rewrite IH by assumption. rewrite <- N.add_assoc. reflexivity.
    + split; [discriminate|]. unfold checked_add in E. destruct (N.leb_spec (a + x) u64_max); [discriminate|]. lia.
Qed.
Lemma checked_sum_none : forall l a, a <= u64_max -> checked_sum a l = None -> u64_max < a + total l.
Proof.
  intros l a Ha E. destruct (N.lt_ge_cases u64_max (a + total l)) as [?|G]; [assumption|].
  destruct (checked_sum_ok l a (a + total l) Ha) as [_ K]. rewrite K in E by auto. discriminate.
Qed.

(** C23 *)
Lemma declared_cons : forall r rs, declared (r :: rs) = total (map d_gas r) + declared rs.
Proof. intros. unfold declared. cbn [concat]. now rewrite map_app, total_app. Qed.
Lemma max_from_spec : forall reports limit c n, limit <= u64_max -> c <= limit ->
  exists k, max_processable_from c n reports limit = (n + k)%nat /\ (k <= length reports)%nat /\
    c + declared (firstn k reports) <= limit /\
    forall k', (k' <= length reports)%nat -> c + declared (firstn k' reports) <= limit -> (k' <= k)%nat.
Proof.
  induction reports as [|r rs IH]; intros limit c n Hl Hc; cbn [max_processable_from].
  - exists 0%nat. split; [lia|]. cbn. repeat split; try lia; unfold declared; cbn; lia.
  - assert (STOP : limit < c + total (map d_gas r) ->
      forall k', (k' <= length (r :: rs))%nat -> c + declared (firstn k' (r :: rs)) <= limit -> (k' <= 0)%nat).
    { intros Q [|k'] _ Hd; [lia|]. cbn [firstn] in Hd. rewrite declared_cons in Hd. lia. }
    assert (Z : c + declared (firstn 0 (r :: rs)) <= limit) by (unfold declared; cbn; lia).
    destruct (checked_sum 0 (map d_gas r)) as [g|] eqn:E1.
    + apply checked_sum_ok in E1 as [-> E1]; [|unfold u64_max; lia].
      destruct (checked_add c (0 + total (map d_gas r))) as [c'|] eqn:E2.
      * apply checked_add_ok in E2 as [-> E2]. destruct (N.ltb_spec limit (c + (0 + total (map d_gas r)))) as [L|L].
        -- exists 0%nat. split; [lia|]. split; [lia|]. split; [assumption|]. apply STOP. lia.
        -- destruct (IH limit (c + (0 + total (map d_gas r))) (S n) Hl L) as (k & E & Hk & Hd & Hm). exists (S k).
           split; [rewrite E; lia|]. split; [cbn; lia|]. cbn [firstn]. rewrite declared_cons. split; [lia|].
           intros [|k'] Hk' Hd'; [lia|]. cbn [firstn] in Hd'. rewrite declared_cons in Hd'. cbn in Hk'.
           specialize (Hm k'). lia.
      * exists 0%nat. split; [lia|]. split; [lia|]. split; [assumption|]. apply STOP. unfold checked_add in E2.
        destruct (N.leb_spec (c + (0 + total (map d_gas r))) u64_max); [discriminate|]. lia.
    + apply checked_sum_none in E1; [|unfold u64_max; lia].
      exists 0%nat. split; [lia|]. split; [lia|]. split; [assumption|]. apply STOP. lia.
Qed.
Lemma max_processable_spec : forall reports limit, limit < 2 ^ 64 ->
  (max_processable_reports reports limit <= length reports)%nat /\
  declared (firstn (max_processable_reports reports limit) reports) <= limit /\
  forall k, (k <= length reports)%nat -> declared (firstn k reports) <= limit -> (k <= max_processable_reports reports limit)%nat.
Proof.
  intros reports limit H. destruct (max_from_spec reports limit 0 0) as (k & E & A & B & C); [unfold u64_max; lia|lia|].
  unfold max_processable_reports. rewrite E. cbn [plus]. repeat split; auto.
Qed.

(** Partition of sums by service. *)
Lemma total_perm : forall a b, Permutation a b -> total a = total b.
Proof. induction 1; unfold total in *; cbn in *; lia. Qed.
Lemma partition_total : forall A (key : A -> N) (g : A -> N) ss l, NoDup ss -> (forall x, In x l -> In (key x) ss) ->
  total (map (fun s => total (map g (filter (fun x => N.eqb (key x) s) l))) ss) = total (map g l).
Proof.
  intros A key g. intros ss l Hn. induction l as [|x l IH]; intros Hin.
  - clear. cbn [filter map total fold_right]. induction ss as [|s ss IHs]; [reflexivity|]. cbn. exact IHs.
  - cbn [map total fold_right]. fold (total (map g l)). rewrite <- IH by (intros; apply Hin; now right).
    assert (Hx : In (key x) ss) by (apply Hin; now left). clear IH Hin.
    induction ss as [|s ss IHs]; [contradiction|]. inversion Hn as [|? ? Hnin Hn']; subst. cbn [map total fold_right].
    fold (total (map (fun s => total (map g (filter (fun y => key y =? s) (x :: l)))) ss)).
    fold (total (map (fun s => total (map g (filter (fun y => key y =? s) l))) ss)).
    cbn [filter]. destruct (N.eqb_spec (key x) s) as [Es|Ne].
    + cbn [map total fold_right]. fold (total (map g (filter (fun y => key y =? s) l))).
      assert (EQ : map (fun s0 => total (map g (filter (fun y => key y =? s0) (x :: l)))) ss =
                   map (fun s0 => total (map g (filter (fun y => key y =? s0) l))) ss).
      { apply map_ext_in. intros t Ht. cbn [filter]. destruct (N.eqb_spec (key x) t) as [E|]; [|reflexivity].
        exfalso. apply Hnin. assert (s = t) by congruence. now subst. }
      cbn [filter] in EQ. rewrite EQ. lia.
    + destruct Hx as [E|Hx]; [congruence|]. cbn [filter] in IHs. rewrite IHs by assumption. lia.
Qed.
Lemma always_gas_share : forall always s, NoDup (map fst always) ->
  always_gas always s = total (map snd (filter (fun p => N.eqb (fst p) s) always)).
Proof.
  unfold always_gas. induction always as [|[k v] al IH]; intros s Hn; [reflexivity|]. inversion Hn as [|? ? Hni Hn']; subst. cbn [find filter fst].
  destruct (N.eqb_spec k s) as [->|Ne].
  - cbn. enough (filter (fun p => fst p =? s) al = []) as -> by (cbn; lia).
    cbn in Hni. clear -Hni. induction al as [|[k v'] al IH]; [reflexivity|]. cbn in *. destruct (N.eqb_spec k s) as [->|]; [exfalso; auto|]. apply IH. auto.
  - apply IH. assumption.
Qed.

Lemma metered_In : forall always reports ts s, In s (metered always reports ts) <->
  In s (map d_service (concat reports)) \/ In s (map x_to ts) \/ In s (map fst always).
Proof. intros. unfold metered. rewrite !bset_extend_In, bset_of_In. intuition. Qed.
Lemma bset_extend_sorted : forall xs l, StronglySorted N.lt l -> StronglySorted N.lt (bset_extend l xs).
Proof. unfold bset_extend. induction xs as [|x xs IH]; intros l H; cbn; auto using bset_insert_NoDup. Qed.
Lemma metered_sorted : forall always reports ts, StronglySorted N.lt (metered always reports ts).
Proof. intros. unfold metered. repeat apply bset_extend_sorted. constructor. Qed.
Lemma metered_NoDup : forall always reports ts, NoDup (metered always reports ts).
Proof. intros. apply sorted_NoDup, metered_sorted. Qed.

Lemma total_map_add : forall A (f g : A -> N) l, total (map (fun x => f x + g x) l) = total (map f l) + total (map g l).
Proof. induction l as [|x l IH]; cbn; [reflexivity|]. unfold total in IH. rewrite IH. lia. Qed.
Lemma share_partition : forall always reports ts,
  total (map (share always reports ts) (metered always reports ts)) = total (map snd always) + declared reports + carried ts.
Proof.
  intros. unfold share. rewrite !total_map_add. unfold declared, carried.
  assert (Hn := metered_NoDup always reports ts).
  rewrite !(partition_total _ _ _ (metered always reports ts)); auto.
  - intros x Hx. apply metered_In. right. left. now apply in_map.
  - intros x Hx. apply metered_In. left. now apply in_map.
  - intros x Hx. apply metered_In. right. right. now apply in_map.
Qed.
Lemma total_mono_in : forall A (f : A -> N) l x, In x l -> f x <= total (map f l).
Proof. induction l as [|y l IH]; intros x []; cbn; [subst; lia|]. specialize (IH x H). unfold total in IH. lia. Qed.

Lemma service_limit_spec : forall always reports ts s, NoDup (map fst always) ->
  always_gas always s <= u64_max ->
  service_gas_limit always reports ts s = if share always reports ts s <=? u64_max then Some (share always reports ts s) else None.
Proof.
  intros always reports ts s Hn Ha. unfold service_gas_limit, share. rewrite <- always_gas_share by assumption.
  fold (digest_gas reports s). fold (transfer_gas ts s).
  assert (Z : 0 <= u64_max) by (unfold u64_max; lia).
  set (a := always_gas always s) in *. set (d := digest_gas reports s). set (t := transfer_gas ts s). clearbody a d t.
  destruct (checked_sum 0 d) as [x|] eqn:E1.
  - apply checked_sum_ok in E1 as [-> E1]; [|assumption]. destruct (checked_add a (0 + total d)) as [b|] eqn:E2.
    + apply checked_add_ok in E2 as [-> E2]. destruct (checked_sum 0 t) as [c|] eqn:E3.
      * apply checked_sum_ok in E3 as [-> E3]; [|assumption]. unfold checked_add. rewrite !N.add_0_l. reflexivity.
      * apply checked_sum_none in E3; [|assumption]. destruct (N.leb_spec (a + total d + total t) u64_max); [lia|reflexivity].
    + unfold checked_add in E2. destruct (N.leb_spec (a + (0 + total d)) u64_max); [discriminate|].
      destruct (N.leb_spec (a + total d + total t) u64_max); [lia|reflexivity].
  - apply checked_sum_none in E1; [|assumption]. destruct (N.leb_spec (a + total d + total t) u64_max); [lia|reflexivity].
Qed.

Lemma run_services_spec : forall o round limits ss ps ts, run_services o round limits ss = Some (ps, ts) ->
  (forall s, In s ss -> exists g, limits s = Some g) /\
  ps = flat_map (fun s => match limits s with Some g => match o round s g with Some (u, _) => [(s, u)] | None => [] end | None => [] end) ss /\
  ts = flat_map (fun s => match limits s with Some g => match o round s g with Some (_, x) => x | None => [] end | None => [] end) ss.
Proof.
  induction ss as [|s ss IH]; intros ps ts H; cbn [run_services] in H.
  - injection H as <- <-. split; [intros ? []|auto].
  - destruct (limits s) as [g|] eqn:E; [|discriminate]. destruct (run_services o round limits ss) as [[ps' ts']|] eqn:R; [|discriminate].
    destruct (IH _ _ eq_refl) as (L & -> & ->). split.
    { intros t [<-|Ht]; eauto. }
    cbn [flat_map]. rewrite E. destruct (o round s g) as [[u x]|]; injection H as <- <-; auto.
Qed.
Lemma run_services_total : forall o round limits ss, (forall s, In s ss -> exists g, limits s = Some g) ->
  exists r, run_services o round limits ss = Some r.
Proof.
  induction ss as [|s ss IH]; intros H; cbn; [eauto|]. destruct (H s (or_introl eq_refl)) as [g ->].
  destruct IH as [[ps ts] ->]; [auto with datatypes|]. destruct (o round s g) as [[u x]|]; eauto.
Qed.

Definition pays (t : transfer) : N := x_gas t + 1.
Lemma run_services_bounds : forall o round limits f ss ps ts, metered_oracle o -> run_services o round limits ss = Some (ps, ts) ->
  (forall s g, limits s = Some g -> g = f s) ->
  total (map snd ps) <= total (map f ss) /\ total (map pays ts) <= total (map snd ps).
Proof.
  intros o round limits f. induction ss as [|s ss IH]; intros ps ts Ho H Hf; cbn [run_services] in H.
  - injection H as <- <-. cbn. lia.
  - destruct (limits s) as [g|] eqn:E; [|discriminate]. destruct (run_services o round limits ss) as [[ps' ts']|] eqn:R; [|discriminate].
    destruct (IH _ _ Ho eq_refl Hf) as [A B]. rewrite (Hf _ _ E) in H. unfold total in A |- *. cbn [map fold_right].
    destruct (o round s (f s)) as [[u x]|] eqn:Q; injection H as <- <-.
    + apply Ho in Q as [Q1 Q2]. cbn [map fold_right snd]. fold (total (map snd ps')) in *. fold (total (map f ss)) in *.
      split; [lia|]. rewrite map_app. fold (total (map pays x ++ map pays ts')). rewrite total_app.
      change (fun t => x_gas t + 1) with pays in Q2. lia.
    + fold (total (map snd ps')) in *. fold (total (map f ss)) in *. fold (total (map pays ts')). lia.
Qed.
Lemma pays_carried : forall ts, total (map pays ts) = carried ts + N.of_nat (length ts).
Proof. unfold carried, pays, total. induction ts as [|t ts IH]; cbn [map fold_right length]; [reflexivity|]. rewrite IH. lia. Qed.

(** The round log. *)
Lemma received_app : forall a b, received (a ++ b) = received a + received b.
Proof. intros. unfold received. now rewrite map_app, total_app. Qed.
Lemma spent_app : forall a b, spent (a ++ b) = spent a + spent b.
Proof. intros. unfold spent. now rewrite map_app, total_app. Qed.

Lemma sent_before_app : forall b r, sent_before (b ++ [r]) = l_sent r.
Proof. intros. unfold sent_before. now rewrite rev_app_distr. Qed.

Definition round_good (o : oracle) (limit : N) (always : list (N * N)) (before : list round_log) (r : round_log) : Prop :=
  l_remaining r + spent before = limit + received before /\
  declared (l_reports r) <= l_remaining r /\
  l_transfers r = sent_before before /\
  l_always r = match before with [] => always | _ => [] end /\
  (forall s u, In (s, u) (l_pairs r) -> exists sent,
     o (length before) s (share (l_always r) (l_reports r) (l_transfers r) s) = Some (u, sent)) /\
  (forall s, In s (map fst (l_pairs r)) -> In s (map d_service (concat (l_reports r))) \/ In s (map x_to (l_transfers r)) \/ In s (map fst (l_always r))) /\
  (forall x, In x (l_sent r) -> exists s u sent, In (s, u) (l_pairs r) /\
     o (length before) s (share (l_always r) (l_reports r) (l_transfers r) s) = Some (u, sent) /\ In x sent).

Definition log_good o limit always (all : list greport) (log : list round_log) : Prop :=
  (forall before r after, log = before ++ r :: after -> round_good o limit always before r) /\
  spent log <= limit + received log.

Lemma log_good_snoc : forall o limit always all log r, log_good o limit always all log -> round_good o limit always log r ->
  spent (log ++ [r]) <= limit + received (log ++ [r]) -> log_good o limit always all (log ++ [r]).
Proof.
  intros o limit always all log r [A B] G S1. split; [|assumption].
  intros before x after E. destruct (app_split_left _ _ _ _ _ _ E) as [(a' & ->)|(b' & -> & E')].
  - eapply A. reflexivity.
  - destruct b' as [|y b']; cbn in E'.
    + injection E' as <- <-. rewrite app_nil_r. assumption.
    + injection E' as <- E'. destruct b'; discriminate.
Qed.

Lemma outer_step : forall o always_all aas reports remaining ts log k pairs sent used,
  NoDup (map fst aas) -> (forall p, In p aas -> snd p <= u64_max) -> remaining <= u64_max ->
  True -> k = max_processable_reports reports remaining ->
  accumulate_parallel o (length log) aas (firstn k reports) ts = Some (pairs, sent) ->
  forall limit, aas = match log with [] => always_all | _ => [] end -> ts = sent_before log ->
  remaining + spent log = limit + received log -> used = total (map snd pairs) ->
  round_good o limit always_all log (mk_round remaining (firstn k reports) ts aas pairs sent).
Proof.
  intros o always_all aas reports remaining ts log k pairs sent used Hn Hb Hr _ Ek EP limit Ea Et Erem Eu.
  unfold accumulate_parallel in EP.
  destruct (run_services_spec _ _ _ _ _ _ EP) as (LIM & EPS & ETS).
  assert (AG : forall s, always_gas aas s <= u64_max).
  { intros s. unfold always_gas. destruct (find _ aas) as [p|] eqn:F; [|unfold u64_max; lia]. apply find_some in F as [F _]. auto. }
  assert (LS : forall s g, service_gas_limit aas (firstn k reports) ts s = Some g -> g = share aas (firstn k reports) ts s).
  { intros s g Eg. rewrite service_limit_spec in Eg by auto. destruct (_ <=? _); [|discriminate]. now injection Eg. }
  unfold round_good. cbn [l_remaining l_reports l_transfers l_always l_pairs l_sent].
  split; [assumption|]. split.
  { subst k. destruct (max_processable_spec reports remaining) as (_ & D & _); [unfold u64_max in Hr; lia|assumption]. }
  split; [assumption|]. split; [assumption|].
  assert (PAIR : forall s u, In (s, u) pairs -> In s (metered aas (firstn k reports) ts) /\
     exists x, o (length log) s (share aas (firstn k reports) ts s) = Some (u, x)).
  { intros s u Hin. rewrite EPS in Hin. apply in_flat_map in Hin as (s' & Hs' & Hin). destruct (LIM _ Hs') as [g Eg]. rewrite Eg in Hin.
    destruct (o (length log) s' g) as [[u' x]|] eqn:Q; [|destruct Hin]. destruct Hin as [Hin|[]]. injection Hin as -> ->.
    split; [assumption|]. exists x. rewrite <- (LS _ _ Eg). assumption. }
  split; [intros s u Hin; apply PAIR in Hin as [_ H]; exact H|].
  split.
  { intros s Hs. apply in_map_iff in Hs as ([s' u] & <- & Hin). apply PAIR in Hin as [Hin _]. now apply metered_In in Hin. }
  intros x Hx. rewrite ETS in Hx. apply in_flat_map in Hx as (s & Hs & Hx). destruct (LIM _ Hs) as [g Eg]. rewrite Eg in Hx.
  destruct (o (length log) s g) as [[u y]|] eqn:Q; [|destruct Hx]. exists s, u, y. split; [|rewrite <- (LS _ _ Eg); auto].
  rewrite EPS. apply in_flat_map. exists s. split; [assumption|]. rewrite Eg, Q. now left.
Qed.

(** One unfolding of the loop. *)
Lemma outer_unfold : forall fuel o round al reports remaining ts count log,
  outer (S fuel) o round al reports remaining ts count log =
  let aas := match al with Some l => l | None => [] end in
  let k := max_processable_reports reports remaining in
  if (match al with None => true | Some [] => true | _ => false end && match ts with [] => true | _ => false end && (k =? 0)%nat)%bool
  then Some (Finished count log)
  else match accumulate_parallel o round aas (firstn k reports) ts with
       | None => Some GasOverflow
       | Some (pairs, sent) =>
           match checked_sum 0 (map snd pairs), checked_sum 0 (map x_gas ts) with
           | Some used, Some tg =>
               match checked_add remaining tg with
               | Some r => if r <? used then Some GasOverflow
                           else outer fuel o (S round) None (skipn k reports) (r - used) sent (count + k)
                                  (log ++ [mk_round remaining (firstn k reports) ts aas pairs sent])
               | None => Some GasOverflow
               end
           | _, _ => Some GasOverflow
           end
       end.
Proof.
  intros. cbn [outer]. cbv zeta. destruct reports as [|r rs].
  - destruct ts as [|t ts]; [destruct al as [[|a l]|]|]; try reflexivity.
    destruct al as [[|a l]|]; reflexivity.
  - set (k := max_processable_reports (r :: rs) remaining). clearbody k.
    destruct ts as [|t ts]; destruct al as [[|a l]|]; destruct k; reflexivity.
Qed.

Lemma outer_sound : forall fuel o limit always all, NoDup (map fst always) -> (forall p, In p always -> snd p <= u64_max) ->
  forall al reports remaining ts count log count' log',
  outer fuel o (length log) al reports remaining ts count log = Some (Finished count' log') ->
  remaining <= u64_max -> al = match log with [] => Some always | _ => None end -> ts = sent_before log ->
  remaining + spent log = limit + received log ->
  concat (map l_reports log) ++ reports = all -> count = length (concat (map l_reports log)) ->
  log_good o limit always all log ->
  log_good o limit always all log' /\ (count' <= length all)%nat /\ concat (map l_reports log') = firstn count' all /\
  sent_before log' = [] /\
  (log' = [] -> always = []) /\
  (forall next, nth_error all count' = Some next -> limit + received log' < spent log' + total (map d_gas next)).
Proof.
  induction fuel as [|fuel IH]; intros o limit always all Hn Hb al reports remaining ts count log count' log' H Hr Hal Hts Hrem Hall Hcount G;
    [discriminate|].
  rewrite outer_unfold in H. cbv zeta in H.
  set (aas := match al with Some l => l | None => [] end) in *. set (k := max_processable_reports reports remaining) in *.
  destruct (max_processable_spec reports remaining) as (K1 & K2 & K3); [unfold u64_max in Hr; lia|]. fold k in K1, K2, K3.
  destruct (match al with None => true | Some [] => true | _ => false end && match ts with [] => true | _ => false end && (k =? 0)%nat)%bool eqn:C.
  - injection H as <- <-. apply andb_prop in C as [C C3]. apply andb_prop in C as [C1 C2]. apply Nat.eqb_eq in C3.
    split; [assumption|]. subst all. rewrite Hcount. split; [rewrite app_length; lia|]. split.
    { rewrite firstn_app, firstn_all, Nat.sub_diag. cbn. now rewrite app_nil_r. }
    split; [destruct ts; [congruence|discriminate]|]. split.
    { intros ->. subst al. destruct always; [reflexivity|discriminate]. }
    intros next Hnext. rewrite nth_error_app2 in Hnext by lia. rewrite Nat.sub_diag in Hnext. destruct reports as [|r rs]; [discriminate|].
    injection Hnext as ->. assert (Q := K3 1%nat). rewrite C3 in Q. cbn [firstn length] in Q.
    rewrite declared_cons in Q. assert (declared [] = 0) by reflexivity.
    destruct (N.lt_ge_cases remaining (total (map d_gas next))) as [L|L]; [lia|]. exfalso. assert (1 <= 0)%nat by (apply Q; lia). lia.
  - assert (Haas : aas = match log with [] => always | _ => [] end) by (unfold aas; rewrite Hal; destruct log; reflexivity).
    assert (Hn' : NoDup (map fst aas)) by (rewrite Haas; destruct log; [assumption|constructor]).
    assert (Hb' : forall p, In p aas -> snd p <= u64_max) by (rewrite Haas; destruct log; [assumption|intros ? []]).
    destruct (accumulate_parallel o (length log) aas (firstn k reports) ts) as [[pairs sent]|] eqn:EP; [|discriminate].
    destruct (checked_sum 0 (map snd pairs)) as [used|] eqn:E1; [|discriminate].
    destruct (checked_sum 0 (map x_gas ts)) as [tg|] eqn:E2; [|discriminate].
    destruct (checked_add remaining tg) as [r|] eqn:E3; [|discriminate].
    destruct (N.ltb_spec r used) as [?|LE]; [discriminate|].
    apply checked_sum_ok in E1 as [E1 _]; [|unfold u64_max; lia]. apply checked_sum_ok in E2 as [E2 _]; [|unfold u64_max; lia].
    apply checked_add_ok in E3 as [E3 E3']. rewrite N.add_0_l in E1, E2. change (total (map x_gas ts)) with (carried ts) in E2.
    assert (RG := outer_step o always aas reports remaining ts log k pairs sent used Hn' Hb' Hr I eq_refl EP limit Haas Hts Hrem E1).
    set (entry := mk_round remaining (firstn k reports) ts aas pairs sent) in *.
    assert (SP : spent (log ++ [entry]) = spent log + used) by (rewrite spent_app; unfold spent; cbn [map total fold_right entry l_pairs]; rewrite E1; unfold total; lia).
    assert (RC : received (log ++ [entry]) = received log + tg) by (rewrite received_app; unfold received; cbn [map total fold_right entry l_transfers]; rewrite E2; unfold total; lia).
    replace (S (length log)) with (length (log ++ [entry])) in H by (rewrite app_length; cbn; lia).
    eapply (IH o limit always all Hn Hb) in H; [exact H|..].
    + lia.
    + destruct log; reflexivity.
    + now rewrite sent_before_app.
    + rewrite SP, RC. lia.
    + rewrite map_app, concat_app. cbn [map concat l_reports entry]. rewrite app_nil_r, <- app_assoc, firstn_skipn. assumption.
    + rewrite map_app, concat_app, app_length. cbn [map concat l_reports entry]. rewrite app_nil_r, firstn_length. lia.
    + apply log_good_snoc; [assumption|assumption|]. rewrite SP, RC. lia.
Qed.

(** No failure when the always-accumulate gas fits beside the first round's reports. *)
Lemma parallel_ok : forall o round aas reports ts, metered_oracle o -> NoDup (map fst aas) ->
  total (map snd aas) + declared reports + carried ts <= u64_max ->
  exists pairs sent, accumulate_parallel o round aas reports ts = Some (pairs, sent) /\
    total (map snd pairs) <= total (map snd aas) + declared reports + carried ts /\
    total (map pays sent) <= total (map snd pairs).
Proof.
  intros o round aas reports ts Ho Hn Hs.
  assert (AG : forall s, always_gas aas s <= u64_max).
  { intros s. unfold always_gas. destruct (find _ aas) as [p|] eqn:F; [|unfold u64_max; lia]. apply find_some in F as [F _].
    apply (total_mono_in _ snd) in F. lia. }
  assert (LS : forall s, In s (metered aas reports ts) -> service_gas_limit aas reports ts s = Some (share aas reports ts s)).
  { intros s Hs'. rewrite service_limit_spec by auto. apply (total_mono_in _ (share aas reports ts)) in Hs'. rewrite share_partition in Hs'.
    destruct (N.leb_spec (share aas reports ts s) u64_max); [reflexivity|lia]. }
  destruct (run_services_total o round (service_gas_limit aas reports ts) (metered aas reports ts)) as [[pairs sent] E]; [eauto|].
  exists pairs, sent. split; [exact E|]. rewrite <- share_partition. eapply run_services_bounds; eauto.
  intros s g Eg. rewrite service_limit_spec in Eg by auto. destruct (_ <=? _); [|discriminate]. now injection Eg.
Qed.
Lemma parallel_bounds : forall o round aas reports ts pairs sent, metered_oracle o -> NoDup (map fst aas) -> (forall p, In p aas -> snd p <= u64_max) ->
  accumulate_parallel o round aas reports ts = Some (pairs, sent) ->
    total (map snd pairs) <= total (map snd aas) + declared reports + carried ts /\
    total (map pays sent) <= total (map snd pairs).
Proof.
  intros o round aas reports ts pairs sent Ho Hn Hb E.
  assert (AG : forall s, always_gas aas s <= u64_max).
  { intros s. unfold always_gas. destruct (find _ aas) as [p|] eqn:F; [|unfold u64_max; lia]. apply find_some in F as [F _]. auto. }
  rewrite <- share_partition. eapply run_services_bounds; eauto.
  intros s g Eg. rewrite service_limit_spec in Eg by auto. destruct (_ <=? _); [|discriminate]. now injection Eg.
Qed.

Lemma outer_no_overflow : forall fuel o al reports remaining ts count log round, metered_oracle o ->
  (match al with Some l => NoDup (map fst l) /\ total (map snd l) + declared (firstn (max_processable_reports reports remaining) reports) <= remaining | None => True end) ->
  remaining + carried ts <= u64_max ->
  outer fuel o round al reports remaining ts count log <> Some GasOverflow.
Proof.
  induction fuel as [|fuel IH]; intros o al reports remaining ts count log round Ho Hal Hr; [discriminate|].
  rewrite outer_unfold. cbv zeta.
  set (aas := match al with Some l => l | None => [] end) in *. set (k := max_processable_reports reports remaining) in *.
  destruct (_ && _ && _)%bool eqn:C; [discriminate|].
  destruct (max_processable_spec reports remaining) as (K1 & K2 & K3); [unfold u64_max in Hr; lia|]. fold k in K1, K2, K3.
  assert (A : NoDup (map fst aas) /\ total (map snd aas) + declared (firstn k reports) <= remaining).
  { unfold aas. destruct al as [l|]; [exact Hal|]. split; [constructor|]. cbn. lia. }
  destruct A as [A1 A2].
  destruct (parallel_ok o round aas (firstn k reports) ts Ho A1) as (pairs & sent & E & U1 & U2); [lia|]. rewrite E.
  rewrite pays_carried in U2. assert (Z : 0 <= u64_max) by (unfold u64_max; lia).
  rewrite (proj2 (checked_sum_ok (map snd pairs) 0 (total (map snd pairs)) Z)) by (split; lia).
  fold (carried ts) in *. unfold carried in Hr, U1. rewrite (proj2 (checked_sum_ok (map x_gas ts) 0 (carried ts) Z)) by (unfold carried; split; lia).
  fold (carried ts) in *. rewrite (proj2 (checked_add_ok remaining (carried ts) (remaining + carried ts))) by auto.
  destruct (N.ltb_spec (remaining + carried ts) (total (map snd pairs))); [lia|]. apply IH; auto. lia.
Qed.

(** Termination. *)
Lemma outer_terminates_none : forall n m o, metered_oracle o -> forall reports remaining ts count log round,
  (length reports <= n)%nat -> (total (map pays ts) <= N.of_nat m) -> remaining <= u64_max ->
  exists fuel r, forall fuel', (fuel <= fuel')%nat -> outer fuel' o round None reports remaining ts count log = Some r.
Proof.
  induction n as [n IHn] using lt_wf_ind. induction m as [m IHm] using lt_wf_ind. intros o Ho reports remaining ts count log round Hn Hm Hr.
  set (k := max_processable_reports reports remaining).
  destruct (max_processable_spec reports remaining) as (K1 & K2 & K3); [unfold u64_max in Hr; lia|]. fold k in K1, K2, K3.
  assert (STOP : forall r, (forall fuel', outer (S fuel') o round None reports remaining ts count log = Some r) ->
    exists fuel r, forall fuel', (fuel <= fuel')%nat -> outer fuel' o round None reports remaining ts count log = Some r).
  { intros r Hs. exists 1%nat, r. intros [|f] Hf; [lia|]. apply Hs. }
  destruct ((match ts with [] => true | _ => false end && (k =? 0)%nat)%bool) eqn:C.
  { eapply STOP. intros f. rewrite outer_unfold. cbv zeta. fold k. cbn [andb]. rewrite C. reflexivity. }
  destruct (accumulate_parallel o round [] (firstn k reports) ts) as [[pairs sent]|] eqn:EP.
  2:{ eapply STOP. intros f. rewrite outer_unfold. cbv zeta. fold k. cbn [andb]. rewrite C, EP. reflexivity. }
  destruct (checked_sum 0 (map snd pairs)) as [used|] eqn:E1.
  2:{ eapply STOP. intros f. rewrite outer_unfold. cbv zeta. fold k. cbn [andb]. rewrite C, EP, E1. reflexivity. }
  destruct (checked_sum 0 (map x_gas ts)) as [tg|] eqn:E2.
  2:{ eapply STOP. intros f. rewrite outer_unfold. cbv zeta. fold k. cbn [andb]. rewrite C, EP, E1, E2. reflexivity. }
  destruct (checked_add remaining tg) as [r|] eqn:E3.
  2:{ eapply STOP. intros f. rewrite outer_unfold. cbv zeta. fold k. cbn [andb]. rewrite C, EP, E1, E2, E3. reflexivity. }
  destruct (r <? used) eqn:E4.
  { eapply STOP. intros f. rewrite outer_unfold. cbv zeta. fold k. cbn [andb]. rewrite C, EP, E1, E2, E3, E4. reflexivity. }
  assert (R' : r - used <= u64_max) by (apply checked_add_ok in E3 as [-> E3]; lia).
  assert (NEXT : exists fuel res, forall fuel', (fuel <= fuel')%nat ->
     outer fuel' o (S round) None (skipn k reports) (r - used) sent (count + k) (log ++ [mk_round remaining (firstn k reports) ts [] pairs sent]) = Some res).
  { destruct k as [|k'] eqn:Ek.
    - destruct ts as [|t ts]; [discriminate|].
      destruct (parallel_bounds _ _ _ _ _ _ _ Ho (NoDup_nil _ : NoDup (map fst (@nil (N*N)))) (fun p (H : In p []) => match H with end) EP) as [B1 B2].
      cbn [map total fold_right firstn] in B1. assert (D0 : declared [] = 0) by reflexivity. rewrite D0 in B1.
      assert (P := pays_carried (t :: ts)). cbn [length] in P.
      apply (IHm (N.to_nat (total (map pays sent)))); auto; try lia; cbn [skipn]; try lia.
    - apply (IHn (length (skipn (S k') reports)) ltac:(rewrite skipn_length; lia) (N.to_nat (total (map pays sent)))); auto; lia. }
  destruct NEXT as (fuel & res & NEXT). exists (S fuel), res. intros [|f] Hf; [lia|].
  rewrite outer_unfold. cbv zeta. fold k. cbn [andb]. rewrite C, EP, E1, E2, E3, E4. apply NEXT. lia.
Qed.
Lemma outer_terminates : forall o limit reports always, metered_oracle o -> limit <= u64_max ->
  exists fuel r, forall fuel', (fuel <= fuel')%nat -> accumulate_outer fuel' o limit reports always = Some r.
Proof.
  intros o limit reports always Ho Hr. unfold accumulate_outer.
  set (k := max_processable_reports reports limit).
  assert (STOP : forall r, (forall fuel', outer (S fuel') o 0 (Some always) reports limit [] 0 [] = Some r) ->
    exists fuel r, forall fuel', (fuel <= fuel')%nat -> outer fuel' o 0 (Some always) reports limit [] 0 [] = Some r).
  { intros r Hs. exists 1%nat, r. intros [|f] Hf; [lia|]. apply Hs. }
  destruct (match always with [] => true | _ => false end && true && (k =? 0)%nat)%bool eqn:C.
  { eapply STOP. intros f. rewrite outer_unfold. cbv zeta. fold k. rewrite C. reflexivity. }
  destruct (accumulate_parallel o 0 always (firstn k reports) []) as [[pairs sent]|] eqn:EP.
  2:{ eapply STOP. intros f. rewrite outer_unfold. cbv zeta. fold k. rewrite C, EP. reflexivity. }
  destruct (checked_sum 0 (map snd pairs)) as [used|] eqn:E1.
  2:{ eapply STOP. intros f. rewrite outer_unfold. cbv zeta. fold k. rewrite C, EP, E1. reflexivity. }
  destruct (checked_add limit 0) as [r|] eqn:E3.
  2:{ eapply STOP. intros f. rewrite outer_unfold. cbv zeta. fold k. rewrite C, EP, E1. cbn [map checked_sum]. rewrite E3. reflexivity. }
  destruct (r <? used) eqn:E4.
  { eapply STOP. intros f. rewrite outer_unfold. cbv zeta. fold k. rewrite C, EP, E1. cbn [map checked_sum]. rewrite E3, E4. reflexivity. }
  assert (R' : r - used <= u64_max) by (apply checked_add_ok in E3 as [-> E3]; lia).
  destruct (outer_terminates_none (length (skipn k reports)) (N.to_nat (total (map pays sent))) o Ho (skipn k reports) (r - used) sent (0 + k)
     ([] ++ [mk_round limit (firstn k reports) [] always pairs sent]) 1) as (fuel & res & NEXT); auto; try lia.
  exists (S fuel), res. intros [|f] Hf; [lia|].
  rewrite outer_unfold. cbv zeta. fold k. rewrite C, EP, E1. cbn [map checked_sum]. rewrite E3, E4. apply NEXT. lia.
Qed.
