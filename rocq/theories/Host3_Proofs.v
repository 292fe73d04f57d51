From Verif Require Import Base Base_Proofs PvmMem_Model PvmProg_Model PvmStep_Model Sandbox_Model Sandbox_Spec Sandbox_Proofs Host_Model Host_Spec Host_Proofs Host2_Proofs.
From Coq Require Import Permutation.
Set Implicit Arguments.
Open Scope N_scope.

(** ** Each call on the accounts is its table *)
Definition is_outcome (o : outcome) (x : world) (h : hchange) (x' : world) : Prop :=
  let '(h0, (w0, r0)) := o in
  h = h0 /\ fst x' = w0 /\
  if negb (is_some (g_meta (fst x) (r_next (snd x)))) && is_some (g_meta w0 (r_next (snd x)))
  then exists j, first_free w0 (cyc (r_next (snd x)) 42) j /\ snd x' = set_next r0 j
  else snd x' = r0.
Definition post (o : outcome) (x : world) (w' : gstate) (a : result verr (hchange * rest)) : Prop :=
  exists h x', a = Ok (h, snd x') /\ is_outcome o x h x' /\ same w' (fst x').
Lemma post_same : forall w r h w' r', g_meta w (r_next r) = None -> same w' w -> post (h, (w, r')) (w, r) w' (Ok (h, r')).
Proof. intros w r h w' r' N S. exists h, (w, r'). split; [reflexivity|]. split; [|exact S]. simpl. rewrite N. simpl. auto. Qed.
Lemma post_plain : forall w r h w0 r0 w', g_meta w0 (r_next r) = None -> same w' w0 -> post (h, (w0, r0)) (w, r) w' (Ok (h, r0)).
Proof. intros w r h w0 r0 w' N S. exists h, (w0, r0). split; [reflexivity|]. split; [|exact S]. simpl. rewrite N, andb_false_r. auto. Qed.

Ltac samer := split; intros; cbn [g_meta g_ent with_meta with_ent without replace];
  repeat (match goal with |- context [N.eqb ?a ?b] => destruct (N.eqb_spec a b); subst | |- context [ekey_eq ?a ?b] => destruct (ekey_eq a b); subst end); try congruence; try reflexivity.

Lemma wp_foot : forall G ch w t m d (Q : gstate -> bool -> Prop), g_meta w t = Some m -> In t ch -> fits m ->
  (forall w', same w' (with_meta w t (Some (add_foot m d))) -> Q w' true) -> wp G ch (update_footprints t d) w Q.
Proof.
  intros G ch w t m d Q M I F H. unfold update_footprints. apply wp_bind, wp_meta. rewrite M. destruct (zero_delta d) eqn:Z.
  - simpl. apply H. rewrite add_foot_zero by assumption. samer.
  - eapply wp_change; try eassumption; [reflexivity|]. apply H. apply same_refl.
Qed.
Lemma code_eq : forall a b : bytes, (if list_eq_dec N.eq_dec a b then true else false) = true <-> a = b.
Proof. intros a b. destruct (list_eq_dec N.eq_dec a b); split; intros; try discriminate; auto; contradiction. Qed.

Section Calls.
  Variables (G : gstate) (ch : list N) (e : env) (w : gstate) (r : rest) (m : meta) (s : vm).
  Hypothesis (Eo : e_now e + e_expiry e < 2 ^ 32).
  Hypothesis (T : tidy e (w, r)).
  Hypothesis (M : g_meta w (r_host r) = Some m).
  Hypothesis (I : In (r_host r) ch).
  Hypothesis (Ml : m_len (v_mem s) <= 2 ^ 32).
  Hypothesis (Gs : (v_gas s < 2 ^ 63 - 1)%Z).
  Hypothesis (Fit : forall t m, g_meta w t = Some m -> fits m).
  Hypothesis (Sol : least m <= m_balance m).
  Notation x := (w, r).
  Let Nx : g_meta w (r_next r) = None := proj2 (td_next _ _ T).
  Let Nc : in_cycle (r_next r) := proj1 (td_next _ _ T).
  Lemma next_not_host : r_next r <> r_host r. Proof. intros E. rewrite <- E in M. congruence. Qed.
  Lemma post_id : forall h, post (h, x) x w (Ok (h, r)). Proof. intros h. apply post_same; [exact Nx | apply same_refl]. Qed.
  Hint Resolve post_id : core.
  Ltac stay := apply post_id.

  Lemma copy_ok : forall data a o n, wp G ch (copy_out s r data a o n) w (post (gives s x data a o n) x).
  Proof.
    intros data a o n. unfold copy_out, gives, as_u32.
    set (size := N.of_nat (length data)). set (o' := N.min o size). set (n' := N.min n (size - o')).
    assert (L : N.of_nat (length (firstn (N.to_nat n') (skipn (N.to_nat o') data))) = n').
    { rewrite firstn_length, skipn_length. subst n' o' size. lia. }
    rewrite L. destruct (a <? 2 ^ 32); simpl; [|stay]. destruct (is_address_range_writable (v_mem s) a n'); simpl; stay.
  Qed.
  Lemma fetch_ok : wp G ch (host_fetch e s r) w (post (gp_fetch e s x) x).
  Proof. unfold host_fetch, gp_fetch. destruct (if existsb _ _ then _ else _); [apply copy_ok | simpl; stay]. Qed.
  Lemma lookup_ok : wp G ch (host_lookup s r) w (post (gp_lookup s x) x).
  Proof.
    unfold host_lookup, gp_lookup. cbn [fst snd]. destruct (rd s (reg s 8) 32) as [h|]; [|simpl; stay]. destruct (named s r) as [t|]; [|simpl; stay].
    apply wp_bind, wp_entry. destruct (g_ent w t (KPreimage h)); [apply copy_ok | simpl; stay].
  Qed.
  Lemma read_ok : wp G ch (host_read s r) w (post (gp_read s x) x).
  Proof.
    unfold host_read, gp_read. cbn [fst snd]. destruct (rd s (reg s 8) (reg s 9)) as [k|]; [|simpl; stay]. destruct (named s r) as [t|]; [|simpl; stay].
    apply wp_bind, wp_entry. destruct (g_ent w t (KStorage k)); [apply copy_ok | simpl; stay].
  Qed.
  Lemma info_ok : wp G ch (host_info s r) w (post (gp_info s x) x).
  Proof.
    unfold host_info, gp_info. cbn [fst snd]. destruct (named s r) as [t|]; [|simpl; stay].
    apply wp_bind, wp_meta. destruct (g_meta w t) as [d|] eqn:D; [|simpl; stay]. destruct (Fit _ D) as [F1 [F2 F3]].
    unfold info_bytes. rewrite threshold_least by lia. apply copy_ok.
  Qed.
  Lemma least_after : forall k old new, fits m -> (forall v, old = Some v -> items_of k <= m_items m /\ octets_of k v <= m_octets m) ->
    (forall v, new = Some v -> octets_of k v <= 2 ^ 33 + 34) -> threshold (recount m k old new) = least (recount m k old new).
  Proof.
    intros k old new [F1 [F2 F3]] O Nw. apply threshold_least; unfold recount; cbn [m_items m_octets set_usage].
    - assert (items_of k <= 2) by (destruct k; simpl; lia). destruct old as [o|]; [destruct (O o eq_refl)|]; destruct new; lia.
    - destruct old as [o|]; [destruct (O o eq_refl)|]; (destruct new as [v|]; [pose proof (Nw v eq_refl)|]);
        change (2 ^ 34) with 17179869184 in *; change (2 ^ 33) with 8589934592 in *; change (2 ^ 63) with 9223372036854775808 in *; lia.
  Qed.
  Lemma has_host : has w (r_host r). Proof. red. congruence. Qed.
  Lemma write_body : forall k new, N.of_nat (length k) <= 2 ^ 32 -> (forall v, new = Some v -> N.of_nat (length v) <= 2 ^ 32) ->
    wp G ch (let* old := entry_of (r_host r) (KStorage k) in
      let d := usage_delta (option_map (storage_octets k) old) (option_map (storage_octets k) new) in
      let* m := (if zero_delta d then Ret (Some true)
                 else let* m := meta_of (r_host r) in
                      Ret (match m with None => None | Some m => Some (threshold (add_foot m (storage_foot d)) <=? m_balance m) end)) in
      match m with
      | None => fail
      | Some false => ret (code FULL) r
      | Some true =>
          let* ok := (match new with Some v => try (Put (r_host r) (KStorage k) v) | None => try (Del (r_host r) (KStorage k)) end) in
          let* ok' := update_footprints (r_host r) (storage_foot d) in
          if ok && ok' then ret (code (match old with Some o => N.of_nat (length o) | None => NONE end)) r else fail
      end) w (post (let old := g_ent w (r_host r) (KStorage k) in
        if m_balance m <? least (recount m (KStorage k) old new) then says FULL x
        else says (match old with Some o => N.of_nat (length o) | None => NONE end) (replace w (r_host r) m (KStorage k) new, r)) x).
  Proof.
    intros k new K V. apply wp_bind, wp_entry. cbn zeta. set (old := g_ent w (r_host r) (KStorage k)).
    assert (O : forall o, old = Some o -> 1 <= m_items m /\ octets_of (KStorage k) o <= m_octets m).
    { intros o H. pose proof (counted_le (KStorage k) (td_counted _ _ T _ _ M) H) as X. exact X. }
    pose proof (Fit _ M) as F. pose proof (@foot_storage m k old new F K V O) as FS.
    assert (LA : threshold (recount m (KStorage k) old new) = least (recount m (KStorage k) old new)).
    { apply least_after; [assumption | intros v H; apply O; assumption|]. intros v H. apply V in H. cbn [octets_of]. change (2 ^ 33) with 8589934592. change (2 ^ 32) with 4294967296 in *. lia. }
    set (d := usage_delta _ _) in *.
    assert (Go : m_balance m <? least (recount m (KStorage k) old new) = false -> 
      wp G ch (let* ok := (match new with Some v => try (Put (r_host r) (KStorage k) v) | None => try (Del (r_host r) (KStorage k)) end) in
               let* ok' := update_footprints (r_host r) (storage_foot d) in
               if ok && ok' then ret (code (match old with Some o => N.of_nat (length o) | None => NONE end)) r else fail) w
        (post (says (match old with Some o => N.of_nat (length o) | None => NONE end) (replace w (r_host r) m (KStorage k) new, r)) x)).
    { intros _. apply wp_bind.
      assert (X : forall w1, w1 = with_ent w (r_host r) (KStorage k) new ->
        wp G ch (let* ok' := update_footprints (r_host r) (storage_foot d) in
               if true && ok' then ret (code (match old with Some o => N.of_nat (length o) | None => NONE end)) r else fail) w1
        (post (says (match old with Some o => N.of_nat (length o) | None => NONE end) (replace w (r_host r) m (KStorage k) new, r)) x)).
      { intros w1 ->. apply wp_bind. eapply wp_foot; try eassumption. intros w' S. simpl. apply post_plain.
        - simpl. destruct (N.eqb_spec (r_next r) (r_host r)) as [Q|Q]; [exfalso; apply (next_not_host Q) | exact Nx].
        - eapply same_trans; [exact S|]. rewrite FS. unfold replace. apply same_refl. }
      destruct new as [v|]; [apply wp_put; [apply has_host|] | apply wp_del]; apply X; reflexivity. }
    destruct (zero_delta d) eqn:Z.
    - assert (Q : recount m (KStorage k) old new = m) by (apply usage_zero; assumption). simpl. 
      assert (NL : m_balance m <? least (recount m (KStorage k) old new) = false) by (rewrite Q; lia). rewrite NL. apply Go. assumption.
    - apply wp_bind, wp_bind, wp_meta. rewrite M. cbn [wp]. rewrite FS, LA.
      destruct (N.leb_spec (least (recount m (KStorage k) old new)) (m_balance m)) as [L|L].
      + assert (NL : m_balance m <? least (recount m (KStorage k) old new) = false) by lia. rewrite NL. apply Go. assumption.
      + assert (NL : m_balance m <? least (recount m (KStorage k) old new) = true) by lia. rewrite NL. simpl. stay.
  Qed.
  Lemma write_ok : wp G ch (host_write s r) w (post (gp_write m s x) x).
  Proof.
    unfold host_write, gp_write. destruct (rd s (reg s 7) (reg s 8)) as [k|] eqn:K; [|simpl; stay].
    destruct (@rd_len _ _ _ _ K Ml) as [K1 K2]. unfold as_u32. destruct (N.eqb_spec (reg s 10) 0) as [Z|Z].
    - destruct (reg s 9 <? 2 ^ 32); [|simpl; stay]. apply (@write_body k None); [lia | discriminate].
    - destruct (rd s (reg s 9) (reg s 10)) as [v|] eqn:V; [|destruct (reg s 9 <? 2 ^ 32); simpl; stay].
      rewrite (@rd_addr _ _ _ _ V). destruct (@rd_len _ _ _ _ V Ml) as [V1 V2]. apply (@write_body k (Some v)); [lia | intros v' E; inversion E; subst; lia].
  Qed.
  Lemma bless_ok : wp G ch (host_bless e s r) w (post (gp_bless e s x) x).
  Proof.
    unfold host_bless, gp_bless, as_u32. destruct (rd s (reg s 8) (4 * e_cores e)) as [a|]; [|simpl; stay].
    destruct (reg s 11 <? 2 ^ 32); [|simpl; stay]. 
    replace (2 ^ 64 <=? reg s 12 * 12) with (negb (reg s 12 * 12 <? 2 ^ 64)) by lia. destruct (reg s 12 * 12 <? 2 ^ 64); simpl negb; [|simpl; stay].
    destruct (rd s (reg s 11) (reg s 12 * 12)) as [z|]; [|simpl; stay].
    destruct (reg s 7 <? 2 ^ 32); [|simpl; stay]. destruct (reg s 9 <? 2 ^ 32); [|simpl; stay]. destruct (reg s 10 <? 2 ^ 32); [|simpl; stay].
    cbn [wp ret andb fst snd says]. apply post_plain; [exact Nx | apply same_refl].
  Qed.
  Lemma assign_ok : wp G ch (host_assign e s r) w (post (gp_assign e s x) x).
  Proof.
    unfold host_assign, gp_assign, as_u32. change (80 * 32) with 2560. destruct (rd s (reg s 8) 2560) as [q|]; [|simpl; stay].
    destruct (e_cores e <=? reg s 7); [simpl; stay|]. rewrite (N.eqb_sym (r_host r)). destruct (assigner (r_priv r) (reg s 7) =? r_host r); cbn [negb]; [|simpl; stay].
    replace (2 ^ 32 <=? reg s 9) with (negb (reg s 9 <? 2 ^ 32)) by lia. destruct (reg s 9 <? 2 ^ 32); cbn [negb]; [|simpl; stay].
    cbn [wp ret says]. apply (@post_plain w r _ w (set_priv r (with_queue _ _ _ _)) w); [exact Nx | apply same_refl].
  Qed.
  Lemma designate_ok : wp G ch (host_designate e s r) w (post (gp_designate e s x) x).
  Proof.
    unfold host_designate, gp_designate. destruct (rd s (reg s 7) (336 * e_vals e)) as [q|]; [|simpl; stay].
    rewrite (N.eqb_sym (r_host r)). destruct (holder (p_designate (r_priv r)) =? r_host r); cbn [negb]; [|simpl; stay].
    cbn [wp ret says]. apply (@post_plain w r _ w (set_priv r (with_staging _ _)) w); [exact Nx | apply same_refl].
  Qed.
  Lemma upgrade_ok : wp G ch (host_upgrade s r) w (post (gp_upgrade m s x) x).
  Proof.
    unfold host_upgrade, gp_upgrade. destruct (rd s (reg s 7) 32) as [h|]; [|simpl; stay]. apply wp_bind. eapply wp_change; [exact I | exact M | reflexivity|].
    simpl. apply post_plain; [|apply same_refl]. simpl. destruct (N.eqb_spec (r_next r) (r_host r)) as [Q|Q]; [exfalso; apply (next_not_host Q) | exact Nx].
  Qed.
  Lemma yield_ok : wp G ch (host_yield s r) w (post (gp_yield s x) x).
  Proof. unfold host_yield, gp_yield. destruct (rd s (reg s 7) 32) as [h|]; simpl; [apply post_plain; [exact Nx | apply same_refl] | stay]. Qed.
  Lemma transfer_ok : wp G ch (host_transfer s r) w (post (gp_transfer m s x) x).
  Proof.
    unfold host_transfer, gp_transfer, as_u32. destruct (rd s (reg s 10) 128) as [memo|]; [|simpl; stay].
    destruct (reg s 7 <? 2 ^ 32); [|simpl; stay]. apply wp_bind, wp_meta. destruct (g_meta w (reg s 7)) as [d|]; [|simpl; stay].
    apply wp_bind, wp_meta. rewrite M. cbn zeta. destruct (reg s 9 <? m_gas_xfer d); [simpl; stay|]. destruct (Fit _ M) as [F1 [F2 F3]].
    rewrite threshold_least by lia. destruct (N.ltb_spec (m_balance m) (least m + reg s 8)) as [L|L].
    - destruct (N.ltb_spec (m_balance m) (reg s 8)) as [L1|L1]; [simpl; stay|]. destruct (N.ltb_spec (m_balance m - reg s 8) (least m)) as [L2|L2]; [simpl; stay | lia].
    - destruct (N.ltb_spec (m_balance m) (reg s 8)) as [L1|L1]; [lia|]. destruct (N.ltb_spec (m_balance m - reg s 8) (least m)) as [L2|L2]; [lia|].
      assert (CE : sat_add 64 10 (reg s 9) = N.min (10 + reg s 9) (2 ^ 64 - 1)) by (unfold sat_add; lia). rewrite CE. set (g := N.min _ _).
      replace (v_gas s <? Z.min (Z.of_N g) (2 ^ 63 - 1))%Z with (v_gas s <? Z.of_N g)%Z by lia.
      destruct (v_gas s <? Z.of_N g)%Z; [simpl; stay|]. apply wp_bind. eapply wp_change; [exact I | exact M | |].
      + destruct (N.leb_spec (reg s 8) (m_balance m)); [reflexivity | lia].
      + simpl. apply post_plain; [|apply same_refl]. simpl. destruct (N.eqb_spec (r_next r) (r_host r)) as [Q|Q]; [exfalso; apply (next_not_host Q) | exact Nx].
  Qed.
  Lemma slots : forall t h len l, g_ent w t (KLookup h len) = Some l -> (length l <= 3)%nat /\ Forall (fun t => t <= e_now e) l /\ len < 2 ^ 32.
  Proof. intros t h len l H. destruct (td_slotted _ _ T t h len l H) as [A B]. repeat split; try assumption. apply (td_short _ _ T t h len). simpl. congruence. Qed.
  Lemma u32_slot : forall y, y <= e_now e -> u32 (y + e_expiry e) = y + e_expiry e.
  Proof. intros y H. unfold u32. apply N.mod_small. lia. Qed.
  Lemma query_ok : wp G ch (host_query s r) w (post (gp_query s x) x).
  Proof.
    unfold host_query, gp_query, as_u32. cbn [fst snd]. destruct (rd s (reg s 7) 32) as [h|]; [|simpl; stay].
    destruct (N.ltb_spec (reg s 8) (2 ^ 32)) as [L|L].
    - apply wp_bind, wp_entry. destruct (g_ent w (r_host r) (KLookup h (reg s 8))) as [l|] eqn:E; [|simpl; stay].
      destruct (slots _ _ _ E) as [S1 [S2 S3]].
      assert (U : forall c y, c <= 3 -> y <= e_now e -> u64 (c + y * 2 ^ 32) = c + 2 ^ 32 * y).
      { intros c y C Y. unfold u64. change (2 ^ 64) with (2 ^ 32 * 2 ^ 32). rewrite N.mod_small; [lia|]. change (2 ^ 32) with 4294967296 in *. lia. }
      assert (U2 : forall y z, y <= e_now e -> z <= e_now e -> u64 (y + z * 2 ^ 32) = y + 2 ^ 32 * z).
      { intros y z Y Z. unfold u64. change (2 ^ 64) with (2 ^ 32 * 2 ^ 32). rewrite N.mod_small; [lia|]. change (2 ^ 32) with 4294967296 in *. lia. }
      assert (U1 : forall y, y <= e_now e -> u64 y = y).
      { intros y Y. unfold u64. apply N.mod_small. change (2 ^ 64) with 18446744073709551616. change (2 ^ 32) with 4294967296 in *. lia. }
      destruct l as [|a [|b [|c [|? ?]]]]; cbn [wp ret];
        repeat match goal with H : Forall _ (_ :: _) |- _ => apply Forall_inv in H as ?; apply Forall_inv_tail in H end.
      + change (u64 0) with 0. stay.
      + rewrite U by lia. change (u64 0) with 0. stay.
      + rewrite U, U1 by lia. stay.
      + rewrite U, U2 by lia. stay.
      + simpl in S1. lia.
    - assert (E : g_ent w (r_host r) (KLookup h (reg s 8)) = None).
      { destruct (g_ent w (r_host r) (KLookup h (reg s 8))) eqn:E; [|reflexivity]. destruct (slots _ _ _ E) as [_ [_ X]]. lia. }
      rewrite E. simpl. stay.
  Qed.
  Lemma put_stays : forall w1 k v h, same w1 (with_ent w (r_host r) k v) -> post (h, (with_ent w (r_host r) k v, r)) x w1 (Ok (h, r)).
  Proof. intros w1 k v h S. apply post_plain; [exact Nx | assumption]. Qed.
  Lemma next_replace : forall k v, g_meta (replace w (r_host r) m k v) (r_next r) = None.
  Proof. intros k v. simpl. destruct (N.eqb_spec (r_next r) (r_host r)) as [Q|Q]; [exfalso; apply (next_not_host Q) | exact Nx]. Qed.
  Lemma solicit_ok : wp G ch (host_solicit e s r) w (post (gp_solicit e m s x) x).
  Proof.
    unfold host_solicit, gp_solicit, as_u32. destruct (rd s (reg s 7) 32) as [h|]; [|simpl; stay].
    destruct (N.ltb_spec (reg s 8) (2 ^ 32)) as [L|L].
    - apply wp_bind, wp_entry. destruct (g_ent w (r_host r) (KLookup h (reg s 8))) as [l|] eqn:E.
      + destruct l as [|a [|b [|c l]]]; try (simpl; stay). apply wp_bind, wp_put; [apply has_host|]. cbn [wp ret says]. apply put_stays, same_refl.
      + apply wp_bind, wp_meta. rewrite M. pose proof (Fit _ M) as F. rewrite (foot_solicit h F L).
        assert (LA : threshold (recount m (KLookup h (reg s 8)) None (Some [])) = least (recount m (KLookup h (reg s 8)) None (Some []))).
        { apply least_after; [assumption | discriminate|]. intros v H. cbn [octets_of]. change (2 ^ 33) with 8589934592. change (2 ^ 32) with 4294967296 in *. lia. }
        rewrite LA. replace (2 ^ 32 <=? reg s 8) with false by lia. cbn [orb]. destruct (m_balance m <? least (recount m (KLookup h (reg s 8)) None (Some []))); [simpl; stay|].
        apply wp_bind, wp_put; [apply has_host|]. apply wp_bind. eapply wp_foot; try eassumption. intros w' S. cbn [andb wp ret says].
        apply post_plain; [apply next_replace|]. eapply same_trans; [exact S|]. rewrite (foot_solicit h F L). unfold replace. rewrite E. apply same_refl.
    - assert (E : g_ent w (r_host r) (KLookup h (reg s 8)) = None).
      { destruct (g_ent w (r_host r) (KLookup h (reg s 8))) eqn:E; [|reflexivity]. destruct (slots _ _ _ E) as [_ [_ X]]. lia. }
      rewrite E. replace (2 ^ 32 <=? reg s 8) with true by lia. simpl. stay.
  Qed.
  Lemma forget_ok : wp G ch (host_forget e s r) w (post (gp_forget e m s x) x).
  Proof.
    unfold host_forget, gp_forget, as_u32. destruct (rd s (reg s 7) 32) as [h|]; [|simpl; stay].
    destruct (N.ltb_spec (reg s 8) (2 ^ 32)) as [L|L].
    - cbn zeta. apply wp_bind, wp_entry. destruct (g_ent w (r_host r) (KLookup h (reg s 8))) as [l|] eqn:E; [|simpl; stay].
      destruct (slots _ _ _ E) as [S1 [S2 S3]]. pose proof (Fit _ M) as F.
      destruct (counted_le _ (td_counted _ _ T _ _ M) E) as [C1 C2]. simpl in C1, C2.
      assert (Dr : wp G ch (let* ok := try (Del (r_host r) (KPreimage h)) in
            let* ok' := try (Del (r_host r) (KLookup h (reg s 8))) in
            let* ok'' := update_footprints (r_host r) (lookup_foot (usage_delta (Some (reg s 8)) None)) in
            if ok && ok' && ok'' then ret (code OK) r else fail) w
          (post (says OK (with_ent (replace w (r_host r) m (KLookup h (reg s 8)) None) (r_host r) (KPreimage h) None, r)) x)).
      { apply wp_bind, wp_del. apply wp_bind, wp_del. apply wp_bind. eapply wp_foot; [exact M | exact I | assumption|]. intros w' S. cbn [andb wp ret].
        apply post_plain; [apply next_replace|]. eapply same_trans; [exact S|]. rewrite (@foot_forget m h (reg s 8) l F L C1 C2). unfold replace. rewrite E. samer. }
      destruct l as [|a [|b [|c [|? ?]]]]; repeat match goal with H : Forall _ (_ :: _) |- _ => apply Forall_inv in H as ?; apply Forall_inv_tail in H end.
      + exact Dr.
      + apply wp_bind. eapply wp_push; [exact E | simpl; lia|]. cbn [wp ret says app]. apply put_stays, same_refl.
      + rewrite u32_slot by assumption. destruct (b + e_expiry e <? e_now e); [exact Dr | simpl; stay].
      + rewrite u32_slot by assumption. destruct (b + e_expiry e <? e_now e); [|simpl; stay].
        apply wp_bind. eapply wp_drain; [exact E|]. apply wp_bind. eapply wp_push.
        * cbn [with_ent g_ent]. rewrite N.eqb_refl. destruct (ekey_eq (KLookup h (reg s 8)) (KLookup h (reg s 8))); [reflexivity | congruence].
        * simpl. lia.
        * cbn [andb wp ret says app]. apply put_stays. samer.
      + simpl in S1. lia.
    - assert (E : g_ent w (r_host r) (KLookup h (reg s 8)) = None).
      { destruct (g_ent w (r_host r) (KLookup h (reg s 8))) eqn:E; [|reflexivity]. destruct (slots _ _ _ E) as [_ [_ X]]. lia. }
      rewrite E. simpl. stay.
  Qed.
  Lemma provide_ok : wp G ch (host_provide e s r) w (post (gp_provide e s x) x).
  Proof.
    unfold host_provide, gp_provide. destruct (rd s (reg s 8) (reg s 9)) as [data|] eqn:D; [|simpl; stay].
    destruct (@rd_len _ _ _ _ D Ml) as [D1 D2]. destruct (named s r) as [t|]; [|simpl; stay]. apply wp_bind, wp_meta.
    destruct (g_meta w t) as [d|]; cbn [is_some]; [|simpl; stay]. apply wp_bind, wp_entry.
    rewrite D1. unfold u32. rewrite N.mod_small by assumption.
    destruct (g_ent w t (KLookup (e_hash e data) (reg s 9))) as [[|? ?]|]; [|simpl; stay|simpl; stay].
    destruct (in_dec _ (t, data) (r_prov r)) as [Y|Y].
    - replace (existsb _ _) with true; [simpl; stay|]. symmetry. apply existsb_exists. exists (t, data). split; [assumption|]. simpl. rewrite N.eqb_refl.
      apply code_eq. reflexivity.
    - replace (existsb _ _) with false; [cbn [wp ret says]; apply post_plain; [exact Nx | apply same_refl]|]. symmetry. apply Bool.not_true_iff_false. intros X.
      apply existsb_exists in X. destruct X as [[t' d'] [X1 X2]]. simpl in X2. apply andb_prop in X2. destruct X2 as [X2 X3]. apply code_eq in X3.
      apply N.eqb_eq in X2. subst. contradiction.
  Qed.
  Lemma eject_ok : (reg s 7 <> r_host r -> has G (reg s 7) -> has w (reg s 7) -> ~ In (reg s 7) ch) ->
    (forall t d, t <> r_host r -> g_meta w t = Some d -> m_balance d + m_balance m < 2 ^ 64) ->
    wp G ch (host_eject e s r) w (post (gp_eject e m s x) x).
  Proof.
    intros Ej Bal. unfold host_eject, gp_eject, as_u32. destruct (rd s (reg s 8) 32) as [h|]; [|simpl; stay]. cbn zeta.
    destruct (reg s 7 <? 2 ^ 32); [|simpl; stay]. cbn [andb]. destruct (N.eqb_spec (reg s 7) (r_host r)) as [Q|Q]; [simpl; stay|]. cbn [negb].
    apply wp_bind, wp_meta. destruct (g_meta w (reg s 7)) as [d|] eqn:D; [|simpl; stay]. fold (given_to (r_host r)).
    destruct (list_eq_dec N.eq_dec (m_code d) (given_to (r_host r))) as [C|C]; cbn [negb]; [|simpl; stay].
    replace (N.max 81 (m_octets d) - 81) with (m_octets d - 81) by lia. destruct (N.ltb_spec (m_octets d - 81) (2 ^ 32)) as [L|L].
    - destruct (N.eqb_spec (m_items d) 2) as [I2|I2]; cbn [negb andb].
      + apply wp_bind, wp_entry. destruct (g_ent w (reg s 7) (KLookup h (m_octets d - 81))) as [l|] eqn:E; [|simpl; stay].
        destruct l as [|a [|y [|? ?]]]; try (simpl; stay). destruct (slots _ _ _ E) as [S1 [S2 S3]]. apply Forall_inv_tail in S2. apply Forall_inv in S2.
        rewrite u32_slot by assumption. destruct (N.leb_spec (e_now e) (y + e_expiry e)) as [Y|Y].
        * replace (y + e_expiry e <? e_now e) with false by lia. simpl; stay.
        * replace (y + e_expiry e <? e_now e) with true by lia. apply wp_bind. pose proof (Bal _ _ Q D). eapply wp_change; [exact I | exact M | |].
          { destruct (N.ltb_spec (m_balance m + m_balance d) (2 ^ 64)); [reflexivity | lia]. }
          apply wp_bind. apply wp_eject.
          { red. cbn [with_meta g_meta]. destruct (N.eqb_spec (reg s 7) (r_host r)); congruence. }
          { intros k K1 K2. cbn [with_meta g_ent]. eapply (@two_only e x); try eassumption. cbn [fst]. congruence. }
          { intros HG. apply Ej; [assumption | assumption | red; congruence]. }
          cbn [wp ret says]. apply post_plain; [|apply same_refl]. cbn [without with_meta g_meta].
          destruct (N.eqb_spec (r_next r) (reg s 7)); [reflexivity|]. destruct (N.eqb_spec (r_next r) (r_host r)) as [Q'|Q']; [exfalso; apply (next_not_host Q') | exact Nx].
      + destruct (g_ent w (reg s 7) (KLookup h (m_octets d - 81))) as [[|a [|y [|? ?]]]|]; simpl; stay.
    - assert (E : g_ent w (reg s 7) (KLookup h (m_octets d - 81)) = None).
      { destruct (g_ent w (reg s 7) (KLookup h (m_octets d - 81))) eqn:E; [|reflexivity]. destruct (slots _ _ _ E) as [_ [_ X]]. lia. }
      rewrite E. simpl. stay.
  Qed.
  Lemma new_ok : (forall i, i = reg s 12 \/ i = r_next r -> ~ has w i -> ~ has G i) -> (exists i, in_cycle i /\ i <> r_next r /\ g_meta w i = None) ->
    wp G ch (host_new e s r) w (post (gp_new e m s x) x).
  Proof.
    intros Fr Lf. unfold host_new, gp_new, as_u32. destruct (rd s (reg s 7) 32) as [h|]; [|simpl; stay]. cbn zeta.
    replace (2 ^ 32 <=? reg s 8) with (negb (reg s 8 <? 2 ^ 32)) by lia. destruct (reg s 8 <? 2 ^ 32); cbn [negb]; [|simpl; stay].
    rewrite (N.eqb_sym (r_host r) (p_manager _)). destruct (negb (reg s 11 =? 0) && negb (p_manager (r_priv r) =? r_host r)); [simpl; stay|].
    apply wp_bind, wp_meta. rewrite M. destruct (Fit _ M) as [F1 [F2 F3]]. rewrite threshold_least by lia.
    set (cost := least (mk_meta _ _ _ _ _ _ _ _ _ _)). assert (IC : initial_threshold (reg s 8) (reg s 11) = cost) by (subst cost; unfold initial_threshold, least; cbn [m_items m_octets m_gratis]; lia).
    rewrite IC. clearbody cost. replace (m_balance m - least m <? cost) with (m_balance m <? least m + cost) by lia.
    destruct (N.ltb_spec (m_balance m) (least m + cost)) as [L|L]; [simpl; stay|].
    set (small := match (if reg s 12 <? 2 ^ 32 then _ else _) with Some i => i | None => _ end).
    assert (SM : small = reg s 12 /\ reg s 12 < 2 ^ 32 \/ small = 2 ^ 32 - 1 /\ 2 ^ 32 <= reg s 12).
    { subst small. destruct (N.ltb_spec (reg s 12) (2 ^ 32)); [left | right]; auto. }
    assert (SS : (small <? S_MIN) = (reg s 12 <? 65536)) by (unfold S_MIN; destruct SM as [[-> ?]|[-> ?]]; lia). rewrite SS.
    rewrite (N.eqb_sym (r_host r) (holder _)). set (special := (reg s 12 <? 65536) && _).
    assert (SE : special = true -> small = reg s 12). { intros X. subst special. apply andb_prop in X. destruct X as [X _]. lia. }
    apply wp_bind, wp_active. set (id := if special then reg s 12 else r_next r).
    replace (special && is_some (g_meta w small)) with (special && is_some (g_meta w id)).
    2:{ subst id. destruct special; [rewrite SE by reflexivity|]; reflexivity. }
    destruct (special && is_some (g_meta w id)) eqn:TK; [simpl; stay|].
    assert (IE : (if special then small else r_next r) = id). { subst id. destruct special; [apply SE; reflexivity | reflexivity]. }
    assert (NI : g_meta w id = None). { subst id. destruct special; [destruct (g_meta w (reg s 12)); [discriminate | reflexivity] | exact Nx]. }
    assert (IH : id <> r_host r) by congruence.
    apply wp_bind. eapply wp_change; [exact I | exact M | destruct (N.leb_spec cost (m_balance m)); [reflexivity | lia]|].
    apply wp_bind. rewrite IE. apply wp_new.
    { apply Fr; [|unfold has; congruence]. subst id. destruct special; auto. }
    cbn [andb]. set (new := mk_meta h cost _ _ _ _ _ _ _ _). set (m' := set_balance m _). set (w1 := with_ent (with_meta (without _ id) id (Some new)) id _ _).
    set (w0 := with_ent (with_meta (with_meta w (r_host r) (Some m')) id (Some new)) id _ _).
    assert (SW : same w1 w0).
    { subst w1 w0. pose proof (td_proper _ _ T id NI) as P. cbn [fst] in P. samer. }
    assert (M0 : forall i, g_meta w0 i = if i =? id then Some new else if i =? r_host r then Some m' else g_meta w i) by (intros i; reflexivity).
    destruct special eqn:SP.
    - cbn [wp ret says]. rewrite SE by reflexivity. apply post_plain; [|exact SW]. rewrite M0. destruct (N.eqb_spec (r_next r) id) as [Q|Q].
      + exfalso. subst id special. destruct Nc. lia.
      + destruct (N.eqb_spec (r_next r) (r_host r)) as [Q'|Q']; [exfalso; apply (next_not_host Q') | exact Nx].
    - apply wp_bind. destruct Lf as [j [J1 [J2 J3]]]. eapply wp_mono.
      + apply check_ok; [rewrite advance_cyc; apply cyc_in|]. exists j. split; [assumption|]. destruct SW as [SW _]. rewrite SW, M0.
        subst id. destruct (N.eqb_spec j (r_next r)); [contradiction|]. destruct (N.eqb_spec j (r_host r)); [congruence | assumption].
      + intros w' a [-> [i [-> FF]]]. cbn [wp ret]. exists (code id), (w0, set_next r i). split; [reflexivity|]. split; [|exact SW].
        cbn [says is_outcome fst snd]. split; [reflexivity|]. split; [reflexivity|]. rewrite M0. subst id. rewrite N.eqb_refl, Nx. cbn [is_some negb andb].
        exists i. split; [|reflexivity]. rewrite advance_cyc in FF. destruct FF as [k [K1 [K2 K3]]]. exists k. destruct SW as [SW _].
        split; [assumption|]. rewrite <- SW. split; [assumption|]. intros l Hl. rewrite <- SW. apply K3. assumption.
  Qed.
  Lemma call_ok : forall n, n <> 17 -> permitted G ch x n s -> wp G ch (call e n s r) w (post (gp e n s m x) x).
  Proof.
    intros n N17 [_ [_ [_ [P1 [P2 [P3 P4]]]]]]. cbn [fst snd] in *. unfold call, gp.
    destruct (N.eqb_spec n 100) as [->|N100]; [simpl; rewrite andb_false_r; cbn; stay|]. cbn [negb]. rewrite andb_true_r.
    destruct (Z.ltb_spec (v_gas s) 10) as [Lo|Lo]; [simpl; stay|].
    destruct n as [|n].
    - cbn [wp ret host_gas]. replace (Z.to_N (v_gas s) - 10) with (Z.to_N (v_gas s - 10)) by lia. stay.
    - assert (W : wp G ch (ret what_result r) w (post (what_result, x) x)) by (simpl; stay).
      destruct n as [n|n|]; [destruct n as [n|n|] .. |]; try (destruct n as [n|n|]); try (destruct n as [n|n|]); try (destruct n as [n|n|]);
        try exact W; try contradiction;
        first [exact fetch_ok | exact lookup_ok | exact read_ok | exact write_ok | exact info_ok | exact bless_ok | exact assign_ok | exact designate_ok | exact upgrade_ok
              | exact transfer_ok | exact query_ok | exact solicit_ok | exact forget_ok | exact yield_ok | exact provide_ok
              | (apply new_ok; [apply P3; reflexivity | apply P4; reflexivity])
              | (apply eject_ok; [apply P1; reflexivity | intros t d A B; eapply P2; try eassumption; reflexivity]) ].
  Qed.
End Calls.
