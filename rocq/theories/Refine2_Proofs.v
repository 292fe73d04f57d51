(** Histories of host calls of a refinement. *)
From Verif Require Import Base Base_Proofs PvmMem_Model PvmMem_Spec PvmMem_Proofs PvmProg_Model PvmStep_Model PvmRun_Spec PvmRun_Proofs PvmInit_Model Codec_Model Host_Model Acc_Model Refine_Model Refine_Spec Refine_Proofs.
Open Scope N_scope.

(** ** The memory of an inner machine has no pages, ever *)
Definition blank (m : mem) : Prop := m_len m = 0 /\ m_pages m = 0.
Lemma set_pages_blank x : forall l m m', set_pages m l x = Ok m' -> m_len m' = m_len m /\ m_pages m' = m_pages m.
Proof.
  induction l as [|i l IH]; intros m m' H; cbn [set_pages] in H; [injection H as <-; auto|]. unfold set_page_access in H at 1.
  destruct (m_pages m <=? i); cbn [bind] in H; [discriminate|]. apply IH in H. exact H.
Qed.
Lemma sbrk_blank m n m' b : sbrk m n = Ok (m', b) -> m_len m' = m_len m /\ m_pages m' = m_pages m.
Proof.
  unfold sbrk. generalize (get_break m n). intros g. unfold expand_heap. destruct (_ && _); cbn [bind]; [discriminate|].
  unfold set_address_range_access. destruct (_ <=? g); cbn [bind].
  - intros H. injection H as <- _. auto.
  - destruct (m_psz m =? 0); cbn [bind]; [discriminate|]. destruct (set_page_range_access _ _ _ _) as [m1| |] eqn:E; cbn [bind]; try discriminate.
    intros H. injection H as <- _. cbn. eapply set_pages_blank; exact E.
Qed.
Lemma exec_blank p s i m x c : PvmStep_Model.exec p s i = Ok (m, x, c) -> m_len m = m_len (v_mem s) /\ m_pages m = m_pages (v_mem s).
Proof.
  intros E. destruct (i_op i) eqn:O; try (apply exec_mem in E; [subst; auto|rewrite O; discriminate]).
  unfold PvmStep_Model.exec in E. rewrite O in E. destruct (get_reg s (rs1 i)) as [size| |]; cbn [bind] in E; try discriminate.
  destruct (sbrk (v_mem s) size) as [[m' b]|e|] eqn:S; cbn [lift bind] in E; try discriminate. destruct (PvmStep_Model.rd i) as [d| |]; cbn [bind] in E; try discriminate.
  injection E as <- _ _. eapply sbrk_blank; exact S.
Qed.
Lemma write_blank m a d m' : write_bytes m a d = Ok m' -> m_len m' = m_len m /\ m_pages m' = m_pages m.
Proof. unfold write_bytes. destruct d; [intros H; injection H as <-; auto|]. destruct (validate _ _ _ _) as [[]| |]; cbn [bind]; try discriminate. intros H. injection H as <-. auto. Qed.
Lemma step_blank p s o : step p s = Ok o ->
  m_len (v_mem (match o with Cont t => t | Stop _ t => t end)) = m_len (v_mem s) /\ m_pages (v_mem (match o with Cont t => t | Stop _ t => t end)) = m_pages (v_mem s).
Proof.
  unfold step. destruct (instruction_at p (v_pc s)) as [i|]; [|intros E; injection E as <-; auto].
  destruct (PvmStep_Model.exec p s i) as [[[m x] c]| |] eqn:Ee; cbn [bind]; try discriminate. apply exec_blank in Ee.
  destruct (charge (set_mem s m) 1) as [s1| |] eqn:Ec; cbn [bind]; try discriminate.
  assert (L1 : m_len (v_mem s1) = m_len (v_mem s) /\ m_pages (v_mem s1) = m_pages (v_mem s)).
  { unfold charge in Ec. destruct (2 ^ 63 <=? 1); [discriminate|]. destruct (_ <? _)%Z; [discriminate|]. injection Ec as <-. exact Ee. }
  destruct (v_gas s1 <? 0)%Z; [intros E; injection E as <-; exact L1|].
  assert (F : forall s2, m_len (v_mem s2) = m_len (v_mem s) /\ m_pages (v_mem s2) = m_pages (v_mem s) -> forall o',
    (let s3 := set_pc s2 (c_pc c) in let! s4 := (match c_reg c with Some (r, v) => if 13 <=? r then Err EInvalidRegIndex else Ok (set_reg s3 r v) | None => Ok s3 end) in
     Ok (match x with Continue => Cont s4 | _ => Stop x s4 end)) = Ok o' ->
     m_len (v_mem (match o' with Cont t => t | Stop _ t => t end)) = m_len (v_mem s) /\ m_pages (v_mem (match o' with Cont t => t | Stop _ t => t end)) = m_pages (v_mem s)).
  { intros s2 L2 o' E. cbn zeta in E. destruct (c_reg c) as [[r v]|].
    - destruct (13 <=? r); cbn [bind] in E; [discriminate|]. injection E as <-. destruct x; exact L2.
    - cbn [bind] in E. injection E as <-. destruct x; exact L2. }
  destruct x; try (intros E; injection E as <-; exact L1).
  all: destruct (c_mem c) as [[a bs]|]; [|intros E; eapply F; [exact L1|exact E]].
  all: destruct (a <? INIT_ZONE_SIZE); [intros E; injection E as <-; exact L1|].
  all: destruct (write_bytes (v_mem s1) a bs) as [m'|[]|] eqn:W; try discriminate; intros E.
  all: try (eapply F; [|exact E]; apply write_blank in W; cbn [set_mem v_mem]; destruct W as [-> ->]; exact L1).
  all: injection E as <-; exact L1.
Qed.
Lemma invoke_blank p : forall f s x t, invoke_general f p s = Some (Ok (x, t)) -> m_len (v_mem t) = m_len (v_mem s) /\ m_pages (v_mem t) = m_pages (v_mem s).
Proof.
  induction f as [|f IH]; intros s x t H; cbn in H; [discriminate|]. destruct (step p s) as [[s'|y s']| |] eqn:E; try discriminate; apply step_blank in E.
  - apply IH in H. destruct H as [-> ->]. exact E.
  - injection H as _ <-. exact E.
Qed.

(** ** What every context reached looks like *)
Definition inv (a : rargs) (c : rctx) : Prop :=
  in_order c /\ (forall i v, has c i v -> blank (in_mem v)) /\ Forall (fun b => N.of_nat (length b) = 4104) (rx_exports c) /\
  (rx_exports c = [] \/ ra_offset a + N.of_nat (length (rx_exports c)) <= 3072).
Lemma inv_new a : inv a new_rctx.
Proof. split; [split; [constructor|intros i v []]|]. split; [intros i v []|]. split; [constructor|auto]. Qed.
Lemma has_order_get c i v : in_order c -> get_vm c i = Some v -> has c i v. Proof. intros O. now apply get_has. Qed.
Lemma inv_put a c i v w : inv a c -> get_vm c i = Some w -> blank (in_mem v) -> inv a (put_vm c i v).
Proof.
  intros (O & B & E & F) G Bv. split; [now apply put_order|]. split; [|split; [exact E|exact F]]. intros j u H. unfold has, put_vm in H; cbn [rx_vms] in H.
  apply put_has in H as [[_ H]|(_ & -> & _)]; [eapply B; exact H|exact Bv].
Qed.
Lemma pad_len (d : bytes) : (length d <= N.to_nat 4104)%nat -> N.of_nat (length (pad_segment d)) = 4104.
Proof. intros H. unfold pad_segment. rewrite app_length, repeat_length. unfold SEGMENT_SIZE. lia. Qed.
Lemma rd_len s a n d : rd s a n = Some d -> N.of_nat (length d) = n.
Proof.
  unfold rd. destruct (as_u32 a) as [x|]; [|discriminate]. destruct (is_address_range_readable _ _ _); [|discriminate]. unfold read_bytes. destruct (N.eqb_spec n 0) as [->|Hn].
  - intros H. injection H as <-. reflexivity.
  - destruct (validate _ _ _ _) as [[]| |]; cbn [bind]; try discriminate. intros H. injection H as <-. rewrite map_length, nrange_length. lia.
Qed.
Lemma inv_host e a self n s c h c' : inv a c -> refine_host e a self n s c = Ok (h, c') -> inv a c'.
Proof.
  intros I H. assert (I' := I). destruct I' as (O & B & E & F). destruct (in_dec N.eq_dec n [0; 1; 6; 7; 8; 9; 10; 11; 12; 13; 100]) as [Hi|Hi].
  2:{ destruct (Z.lt_ge_cases (v_gas s) 10) as [Lg|Hg]; [|rewrite refine_other in H by assumption; injection H as _ <-; exact I].
      unfold refine_host in H. destruct (n =? 100); [injection H as _ <-; exact I|]. apply Z.ltb_lt in Lg. rewrite Lg in H. injection H as _ <-. exact I. }
  unfold refine_host in H. destruct (n =? 100) eqn:E100; [injection H as _ <-; exact I|].
  destruct (v_gas s <? 10)%Z; [injection H as _ <-; exact I|].
  assert (P : forall m l x m', set_page_range_access m l x m' = set_pages m (range l x) m') by reflexivity.
  destruct Hi as [<-|[<-|[<-|[<-|[<-|[<-|[<-|[<-|[<-|[<-|[<-|[]]]]]]]]]]]]; [injection H as _ <-; exact I| | | | | | | | | |discriminate E100].
  - (* FETCH *) destruct (fetch_refine e a s); cbn [bind] in H; try discriminate. injection H as _ <-. exact I.
  - (* HISTORICAL_LOOKUP *) unfold historical_lookup in H. destruct (rd s _ _); [|injection H as _ <-; exact I]. cbn zeta in H. match type of H with (match ?X with _ => _ end = _) => destruct X end; [|injection H as _ <-; exact I].
    destruct (re_lookup _ _ _ _); injection H as _ <-; exact I.
  - (* EXPORT *) unfold export in H. destruct (rd s _ _) as [d|] eqn:R; [|injection H as _ <-; exact I]. cbn zeta in H. change MAX_EXPORTS with 3072 in H.
    destruct (N.leb_spec 3072 (N.of_nat (length (rx_exports c)) + ra_offset a)) as [L|L]; injection H as _ <-; [exact I|]. split; [exact O|]. split; [exact B|]. cbn [push_export rx_exports]. split.
    + apply Forall_app. split; [exact E|]. constructor; [|constructor]. apply pad_len. apply rd_len in R. unfold SEGMENT_SIZE in R. lia.
    + right. rewrite app_length. cbn [length]. lia.
  - (* MACHINE *) unfold machine in H. destruct (rd s _ _) as [d|]; [|injection H as _ <-; exact I]. destruct (deblob d); [|injection H as _ <-; exact I|discriminate]. injection H as _ <-.
    split; [now apply add_order|]. split; [|split; [exact E|exact F]]. intros i w [Q|Q]; [injection Q as _ <-; split; reflexivity|]. apply filter_has in Q as [Q _]. eapply B; exact Q.
  - (* PEEK *) unfold peek in H. destruct (as_u32 _); [|injection H as _ <-; exact I]. destruct (negb _); [injection H as _ <-; exact I|]. destruct (get_vm c _); [|injection H as _ <-; exact I].
    destruct (rd _ _ _); injection H as _ <-; exact I.
  - (* POKE *) unfold poke in H. destruct (rd s _ _) as [d|]; [|injection H as _ <-; exact I]. destruct (get_vm c _) as [v|] eqn:G; [|injection H as _ <-; exact I].
    destruct (as_u32 _); [|injection H as _ <-; exact I]. destruct (negb _); [injection H as _ <-; exact I|]. assert (Bv := B _ _ (has_order_get _ _ _ O G)).
    destruct (write_bytes _ _ _) as [m| |] eqn:C; injection H as _ <-; try exact I. eapply inv_put; [exact I|exact G|]. apply write_blank in C as [C1 C2]. cbn [in_mem]. unfold blank. rewrite C1, C2. exact Bv.
  - (* PAGES *) unfold pages in H. destruct (get_vm c _) as [v|] eqn:G; [|injection H as _ <-; exact I]. cbn zeta in H. destruct (_ || _); [injection H as _ <-; exact I|].
    destruct (_ && _); [injection H as _ <-; exact I|]. assert (Bv := B _ _ (has_order_get _ _ _ O G)).
    match type of H with (match ?X with _ => _ end = _) => destruct X as [m| |] eqn:C end; [|injection H as _ <-; exact I|discriminate].
    assert (Bm : blank m). { destruct (_ <? 3); [|injection C as <-; exact Bv]. destruct (_ <=? _); [discriminate|]. apply write_blank in C as [C1 C2]. unfold blank. rewrite C1, C2. exact Bv. }
    rewrite P in H. destruct (set_pages _ _ _) as [m'| |] eqn:Q; injection H as _ <-; try exact I. apply set_pages_blank in Q as [Q1 Q2]. eapply inv_put; [exact I|exact G|]. cbn [in_mem]. unfold blank. rewrite Q1, Q2. exact Bm.
  - (* INVOKE *) unfold invoke in H. destruct (as_u32 _); [|injection H as _ <-; exact I]. destruct (negb _); [injection H as _ <-; exact I|].
    destruct (read_bytes _ _ _) as [g| |]; try (injection H as _ <-; exact I). destruct (read_regs _ _ _) as [regs|]; [|injection H as _ <-; exact I].
    destruct (get_vm c _) as [v|] eqn:G; [|injection H as _ <-; exact I]. cbn zeta in H. destruct (_ <=? _); [discriminate|]. destruct (load_program _) as [p| |]; cbn [bind] in H; try discriminate.
    assert (Bv := B _ _ (has_order_get _ _ _ O G)).
    destruct (invoke_general _ _ _) as [[[x t]| |]|] eqn:Q; cbn [bind] in H; try discriminate. destruct (reported x) as [[r7 r8]|]; [|discriminate]. injection H as _ <-.
    apply invoke_blank in Q as [Q1 Q2]. eapply inv_put; [exact I|exact G|]. cbn [in_mem]. unfold blank. rewrite Q1, Q2. exact Bv.
  - (* EXPUNGE *) unfold expunge in H. destruct (get_vm c _) as [v|]; injection H as _ <-; [|exact I]. split; [now apply remove_order|]. split; [|split; [exact E|exact F]].
    intros i w Hw. unfold has, remove_vm in Hw; cbn [rx_vms] in Hw. apply filter_has in Hw as [Hw _]. eapply B; exact Hw.
Qed.
Lemma inv_calls e a self : forall l c hs c', inv a c -> refine_calls e a self l c = Ok (hs, c') -> inv a c'.
Proof.
  induction l as [|[n s] l IH]; intros c hs c' I H; cbn [refine_calls] in H; [injection H as _ <-; exact I|].
  destruct (refine_host e a self n s c) as [[h c1]| |] eqn:E; cbn [bind] in H; try discriminate. destruct (refine_calls e a self l c1) as [[hs' c2]| |] eqn:E2; cbn [bind] in H; try discriminate.
  injection H as _ <-. eapply IH; [|exact E2]. eapply inv_host; eassumption.
Qed.
Lemma inv_sound a c : inv a c -> forall i v, has c i v -> sound (in_mem v).
Proof. intros (_ & B & _) i v H. right. exact (B i v H). Qed.
