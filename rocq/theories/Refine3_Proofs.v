(** The answers of [gp_call] are definite; calls are total but for known cases; numbers of machines and exports over histories. *)
From Verif Require Import Base Base_Proofs PvmMem_Model PvmMem_Spec PvmMem_Proofs PvmProg_Model PvmStep_Model PvmRun_Spec PvmRun_Proofs PvmInit_Model Codec_Model Host_Model Acc_Model Refine_Model Refine_Spec Refine_Proofs Refine2_Proofs.
Open Scope N_scope.

Lemma finds_fun e a i j id d d' : finds e a i j id d -> finds e a i j id d' -> d = d'.
Proof. intros H H'. destruct H; inversion H'; subst; congruence. Qed.
Lemma runs_fun p s x t x' t' : runs p s x t -> runs p s x' t' -> x = x' /\ t = t'.
Proof.
  intros [f H] [f' H']. destruct (Nat.le_ge_cases f f') as [L|L].
  - apply (invoke_fuel p f s _ f') in H; [|exact L]. rewrite H in H'. injection H' as -> ->. auto.
  - apply (invoke_fuel p f' s _ f) in H'; [|exact L]. rewrite H in H'. injection H' as -> ->. auto.
Qed.
Lemma told_fun x a b a' b' : told x a b -> told x a' b' -> a = a' /\ b = b'.
Proof. destruct x; cbn; intuition congruence. Qed.
Lemma record_fun_in gas regs gas' regs' d : record_of gas regs d -> record_of gas' regs' d -> (0 <= gas < 2 ^ 64)%Z -> (0 <= gas' < 2 ^ 64)%Z ->
  Forall (fun x => x < 2 ^ 64) regs -> Forall (fun x => x < 2 ^ 64) regs' -> gas = gas' /\ regs = regs'.
Proof.
  intros (_ & L & G & R) (_ & L' & G' & R') B B' F F'. rewrite Z.mod_small in G, G' by assumption. split; [congruence|].
  apply nth_ext with (d := 0) (d' := 0); [congruence|]. intros i Hi. rewrite L in Hi.
  assert (K : forall l, length l = 13%nat -> Forall (fun x => x < 2 ^ 64) l -> nth i l 0 mod 2 ^ 64 = nth i l 0).
  { intros l Ll Fl. apply N.mod_small. rewrite Forall_forall in Fl. apply Fl, nth_In. lia. }
  rewrite <- (K regs L F), <- (K regs' L' F'). rewrite <- (R i Hi), <- (R' i Hi). reflexivity.
Qed.
Lemma le_val_inj8 (b b' : bytes) : Bytes b -> Bytes b' -> length b = length b' -> le_val b = le_val b' -> b = b'.
Proof. intros B B' L E. rewrite <- (le_bytes_le_val b B), <- (le_bytes_le_val b' B'), L, E. reflexivity. Qed.
Lemma skip_skip {A} x y (l : list A) : skipn x (skipn y l) = skipn (y + x) l.
Proof. revert l. induction y as [|y IH]; intros [|a l]; cbn; auto. now rewrite skipn_nil. Qed.
Lemma chunks_eq : forall n (d d' : bytes), Bytes d -> Bytes d' -> length d = (8 * n)%nat -> length d' = (8 * n)%nat ->
  (forall i, (i < n)%nat -> le_val (firstn 8 (skipn (8 * i) d)) = le_val (firstn 8 (skipn (8 * i) d'))) -> d = d'.
Proof.
  induction n as [|n IH]; intros d d' B B' L L' H.
  - destruct d, d'; cbn in *; try lia; reflexivity.
  - rewrite <- (firstn_skipn 8 d), <- (firstn_skipn 8 d'). f_equal.
    + apply le_val_inj8; [apply Forall_firstn, B|apply Forall_firstn, B'| |].
      * rewrite !firstn_length. lia.
      * specialize (H 0%nat ltac:(lia)). exact H.
    + apply IH; [apply Forall_skipn, B|apply Forall_skipn, B'|rewrite skipn_length; lia|rewrite skipn_length; lia|].
      intros i Hi. specialize (H (S i) ltac:(lia)). rewrite !skip_skip. replace (8 + 8 * i)%nat with (8 * S i)%nat by lia. exact H.
Qed.

Lemma record_fun_out gas regs d d' : record_of gas regs d -> record_of gas regs d' -> Bytes d -> Bytes d' -> d = d'.
Proof.
  intros (L & _ & G & R) (L' & _ & G' & R') B B'. apply (chunks_eq 14); [exact B|exact B'|lia|lia|]. intros [|i] Hi.
  - apply N2Z.inj. etransitivity; [exact G|]. symmetry. exact G'.
  - replace (8 * S i)%nat with (8 + 8 * i)%nat by lia. rewrite R, R' by lia. reflexivity.
Qed.
Lemma has_fun c i v w : in_order c -> has c i v -> has c i w -> v = w.
Proof. intros O H H'. apply get_has in H, H'; try exact O. congruence. Qed.

Ltac clash1 :=
  match goal with
  | A : ~ In _ _ |- _ => exfalso; apply A; cbn; tauto
  | A : (10 <= v_gas _)%Z, B : (v_gas _ < 10)%Z |- _ => exfalso; lia
  | A : forall d, ~ reads _ _ _ d, B : reads _ _ _ ?d |- _ => exfalso; exact (A d B)
  | A : forall d, ~ finds _ _ _ _ _ d, B : finds _ _ _ _ _ ?d |- _ => exfalso; exact (A d B)
  | A : unknown _ ?i, B : has _ ?i ?v |- _ => exfalso; exact (A v B)
  | A : ?P, B : ~ ?P |- _ => exfalso; exact (B A)
  | A : forall x, ?f <> Ok x, B : ?f = Ok ?x |- _ => exfalso; exact (A x B)
  | A : finds ?e ?a ?i ?j ?id ?d, B : finds ?e ?a ?i ?j ?id ?d' |- _ => pose proof (finds_fun e a i j id d d' A B); subst d'; clear B
  | A : reads ?m ?x ?n ?d, B : reads ?m ?x ?n ?d' |- _ => pose proof (reads_fun m x n d d' A B); subst d'; clear B
  | A : part_of ?d ?o ?l ?b, B : part_of ?d ?o ?l ?b' |- _ => pose proof (part_fun d o l b b' A B); subst b'; clear B
  | O : in_order ?c, A : has ?c ?i ?v, B : has ?c ?i ?w |- _ => pose proof (has_fun c i v w O A B); subst w; clear B
  end.
Lemma peer_same s self t t' : (r_ s 7 = t /\ t < 2 ^ 32 \/ r_ s 7 = 2 ^ 64 - 1 /\ t = self) -> (r_ s 7 = t' /\ t' < 2 ^ 32 \/ r_ s 7 = 2 ^ 64 - 1 /\ t' = self) -> t = t'.
Proof. change (2 ^ 64 - 1) with 18446744073709551615. change (2 ^ 32) with 4294967296. lia. Qed.
Lemma gp_definite e a self s c n h1 c1 h2 c2 : in_order c -> gp_call e a self s c n h1 c1 -> gp_call e a self s c n h2 c2 -> h1 = h2.
Proof.
  intros O H1 H2. destruct H1; inversion H2; subst; try reflexivity; repeat clash1; try reflexivity; try congruence; try (exfalso; lia).
  all: try (f_equal; lia).
  all: try match goal with
    | A : forall t, _ -> _ -> re_lookup _ t _ ?h = None, B : (r_ _ 7 = ?t /\ _ \/ _), C : re_exists _ ?t = true, D : re_lookup _ ?t _ _ = Some _ |- _ =>
        exfalso; specialize (A t B C); congruence
    | A : (r_ ?s 7 = ?t /\ _ \/ _ /\ _ = ?self), B : (r_ ?s 7 = ?t' /\ _ \/ _) |- _ => pose proof (peer_same s self t t' A B); subst t';
        match goal with X : re_lookup _ t _ _ = Some ?d, Y : re_lookup _ t _ _ = Some ?d' |- _ => rewrite X in Y; injection Y as <- end; repeat clash1; reflexivity
    end.
  - (* MACHINE *) f_equal. destruct (N.lt_trichotomy i i0) as [L|[L|L]]; [|exact L|].
    + match goal with A : forall j, j < i0 -> _ |- _ => destruct (A i L) as [w Hw] end. exfalso. match goal with U : unknown c i |- _ => exact (U w Hw) end.
    + match goal with A : forall j, j < i -> _ |- _ => destruct (A i0 L) as [w Hw] end. exfalso. match goal with U : unknown c i0 |- _ => exact (U w Hw) end.
  - (* PAGES *) exfalso. match goal with A : _ \/ _ \/ _ \/ _ |- _ => destruct A as [A|[A|[A|(A & i & B & C)]]]; [lia|lia|lia|]; apply C; match goal with P : 2 < _ -> forall i, _ |- _ => apply P; [exact A|exact B] end end.
  - exfalso. match goal with A : _ \/ _ \/ _ \/ _ |- _ => destruct A as [A|[A|[A|(A & i & B & C)]]]; [lia|lia|lia|]; apply C; match goal with P : 2 < _ -> forall i, _ |- _ => apply P; [exact A|exact B] end end.
  - (* INVOKE *) match goal with
    | A : record_of gas regs d, B : record_of ?g ?r d, C : (0 <= ?g < _)%Z, D : Forall _ ?r |- _ => destruct (record_fun_in gas regs g r d A B) as [<- <-]; try assumption
    end.
    match goal with A : load_program (in_code v) = Ok p, B : load_program (in_code v) = Ok ?q |- _ => rewrite A in B; injection B as <- end.
    match goal with A : runs p _ x t, B : runs p _ ?x' ?t' |- _ => destruct (runs_fun _ _ _ _ _ _ A B) as [<- <-] end.
    match goal with A : told x r7 r8, B : told x ?q ?q' |- _ => destruct (told_fun _ _ _ _ _ A B) as [<- <-] end.
    match goal with A : record_of (v_gas t) _ ?q, B : record_of (v_gas t) _ ?q', C : Bytes ?q, D : Bytes ?q' |- ?G => assert (q = q') by (exact (record_fun_out _ _ _ _ A B C D)) end. congruence.
Qed.

(** ** Calls are answered *)
Lemma refine_total e a self n s c : args_ok a -> ~ In n [8; 11; 12] -> exists h c', refine_host e a self n s c = Ok (h, c').
Proof.
  intros AO Hn. destruct (Z.lt_ge_cases (v_gas s) 10) as [Lg|Hg].
  { unfold refine_host. destruct (n =? 100); [eauto|]. apply Z.ltb_lt in Lg. rewrite Lg. eauto. }
  destruct (in_dec N.eq_dec n [0; 1; 6; 7; 8; 9; 10; 11; 12; 13; 100]) as [Hi|Hi]; [|rewrite refine_other by assumption; eauto].
  unfold refine_host. apply Z.ltb_ge in Hg. rewrite Hg. cbn [In] in Hi.
  destruct Hi as [<-|[<-|[<-|[<-|[<-|[<-|[<-|[<-|[<-|[<-|[<-|[]]]]]]]]]]]]; cbn [N.eqb Pos.eqb]; try (exfalso; apply Hn; cbn; tauto); eauto.
  - (* FETCH *) destruct (N.eq_dec (r_ s 10) 11) as [E|E].
    + unfold fetch_refine. change (Host_Model.reg s 10) with (r_ s 10). rewrite E. cbn. eauto.
    + destruct (fetch_finds e a s AO E) as (o & Eo & _). rewrite Eo. cbn [bind]. eauto.
  - unfold historical_lookup. destruct (rd s _ _); [|eauto]. cbn zeta. match goal with |- context [match ?X with Some t => match re_lookup _ _ _ _ with _ => _ end | None => _ end] => destruct X end; [|eauto].
    destruct (re_lookup _ _ _ _); eauto.
  - unfold export. destruct (rd s _ _); [|eauto]. cbn zeta. destruct (_ <=? _); eauto.
  - unfold peek. destruct (as_u32 _); [|eauto]. destruct (negb _); [eauto|]. destruct (get_vm c _); [|eauto]. destruct (rd _ _ _); eauto.
  - unfold poke. destruct (rd s _ _); [|eauto]. destruct (get_vm c _); [|eauto]. destruct (as_u32 _); [|eauto]. destruct (negb _); [eauto|]. destruct (write_bytes _ _ _); eauto.
  - unfold expunge. destruct (get_vm c _); eauto.
Qed.

(** ** The change asked for can be made, and changes no more than registers 7 and 8 and what it declares *)
Lemma gp_window e a self s c n h c' : gp_call e a self s c n h c' ->
  h_gas h = 10 /\ match h_mem h with Some (p, d) => stores_at (v_mem s) p (N.of_nat (length d)) | None => True end.
Proof.
  intros H. destruct H; cbn; auto.
  - split; [reflexivity|]. match goal with A : reads _ _ _ d, B : stores_at (v_mem s) _ _ |- _ => destruct A as (_ & -> & _); exact B end.
  - split; [reflexivity|]. match goal with A : record_of _ _ d', B : stores_at (v_mem s) _ _ |- _ => destruct A as (-> & _); exact B end.
Qed.
Lemma nth_set {A} (x : A) : forall l n i d, nth i (set_nth n x l) d = if Nat.eqb i n && Nat.ltb n (length l) then x else nth i l d.
Proof.
  induction l as [|y l IH]; intros [|n] [|i] d; cbn; try reflexivity.
  - destruct (Nat.eqb i n); reflexivity.
  - rewrite IH. reflexivity.
Qed.
Lemma gp_applies e a self s c n h c' : guest s -> (0 <= v_gas s < 2 ^ 63)%Z -> gp_call e a self s c n h c' ->
  exists s', apply_host s h = Ok s' /\ v_gas s' = (v_gas s - 10)%Z /\ v_pc s' = v_pc s /\ (forall i, (i <> 7)%nat -> (i <> 8)%nat -> r_ s' i = r_ s i) /\
    m_len (v_mem s') = m_len (v_mem s) /\ m_acc (v_mem s') = m_acc (v_mem s) /\
    match h_mem h with Some (p, d) => stored (v_mem s) p d (v_mem s') | None => v_mem s' = v_mem s end.
Proof.
  intros G Hg C. apply gp_window in C as [Cg Cm]. unfold apply_host. set (s1 := match h_r7 h with Some v => set_reg s 7 v | None => s end). set (s2 := match h_r8 h with Some v => set_reg s1 8 v | None => s1 end).
  assert (M : v_mem s2 = v_mem s /\ v_gas s2 = v_gas s /\ v_pc s2 = v_pc s) by (unfold s2, s1; destruct (h_r8 h), (h_r7 h); cbn; auto). destruct M as (M & Gs & Ps).
  assert (R : forall i, (i <> 7)%nat -> (i <> 8)%nat -> nth i (v_regs s2) 0 = nth i (v_regs s) 0).
  { intros i N7 N8. apply Nat.eqb_neq in N7, N8. unfold s2, s1. destruct (h_r8 h), (h_r7 h); cbn [set_reg v_regs]; rewrite ?nth_set; change (N.to_nat 7) with 7%nat; change (N.to_nat 8) with 8%nat; rewrite ?N7, ?N8; reflexivity. }
  assert (CH : forall t, v_gas t = v_gas s -> charge t (h_gas h) = Ok (mk_vm (v_regs t) (v_mem t) (v_pc t) (v_gas t - 10))).
  { intros t E. unfold charge. rewrite Cg. change (2 ^ 63 <=? 10) with false. cbv iota. destruct (Z.ltb_spec (v_gas t - Z.of_N 10) (- 2 ^ 63)); [lia|reflexivity]. }
  destruct (h_mem h) as [[p d]|].
  - destruct (write_stored (v_mem s) p _ d (guest_sound _ G) eq_refl Cm) as (m' & Em & Sm). rewrite M, Em. cbn [lift bind]. rewrite CH by exact Gs. eexists. split; [reflexivity|]. cbn [v_gas v_pc v_mem v_regs set_mem].
    split; [now rewrite Gs|]. split; [exact Ps|]. split; [exact R|]. destruct Sm as (Sa & Sb & Sc & Sd). repeat split; assumption.
  - cbn [bind]. rewrite CH by exact Gs. eexists. split; [reflexivity|]. cbn [v_gas v_pc v_mem v_regs]. rewrite Gs, M. auto 8.
Qed.

(** ** Histories *)
Definition effect (a : rargs) (n : N) (c : rctx) (h : hchange) (c' : rctx) : Prop :=
  (n = 8 /\ h = sets (rx_next c) /\ rx_next c' = rx_next c + 1 /\ rx_exports c' = rx_exports c) \/
  (n = 7 /\ h = sets (N.of_nat (length (rx_exports c)) + ra_offset a) /\ rx_next c' = rx_next c /\ (exists seg, rx_exports c' = rx_exports c ++ [seg]) /\
     N.of_nat (length (rx_exports c)) + ra_offset a < 3072) \/
  (rx_next c' = rx_next c /\ rx_exports c' = rx_exports c /\ (n = 8 \/ n = 7 -> forall i, h_r7 h = Some i -> 2 ^ 64 - 9 <= i)).
Lemma host_effect e a self n s c h c' : refine_host e a self n s c = Ok (h, c') -> effect a n c h c'.
Proof.
  intros H.
  assert (W : forall x, n <> 8 -> n <> 7 -> effect a n c x c) by (intros x N8 N7; right; right; split; [reflexivity|]; split; [reflexivity|]; intuition).
  assert (V : forall x, n <> 8 -> n <> 7 -> rx_next c' = rx_next c -> rx_exports c' = rx_exports c -> effect a n c x c') by (intros x N8 N7 E1 E2; right; right; split; [exact E1|]; split; [exact E2|]; intuition).
  assert (U : forall x, match h_r7 x with Some i => 2 ^ 64 - 9 <= i | None => True end -> effect a n c x c).
  { intros x X. right; right. split; [reflexivity|]. split; [reflexivity|]. intros _ i E. rewrite E in X. exact X. }
  destruct (Z.lt_ge_cases (v_gas s) 10) as [Lg|Hg].
  { unfold refine_host in H. destruct (n =? 100); [injection H as <- <-; apply U; cbn; discriminate|]. apply Z.ltb_lt in Lg. rewrite Lg in H. injection H as <- <-. now apply U. }
  destruct (in_dec N.eq_dec n [0; 1; 6; 7; 8; 9; 10; 11; 12; 13; 100]) as [Hi|Hi].
  2:{ rewrite refine_other in H by assumption. injection H as <- <-. apply U. cbn. discriminate. }
  unfold refine_host in H. destruct (n =? 100) eqn:E100; [injection H as <- <-; apply U; cbn; discriminate|]. apply Z.ltb_ge in Hg. rewrite Hg in H. cbn [In] in Hi.
  destruct Hi as [<-|[<-|[<-|[<-|[<-|[<-|[<-|[<-|[<-|[<-|[<-|[]]]]]]]]]]]]; [injection H as <- <-; now apply W| | | | | | | | | |discriminate E100].
  - destruct (fetch_refine e a s); cbn [bind] in H; try discriminate. injection H as <- <-. now apply W.
  - unfold historical_lookup in H. destruct (rd s _ _); [|injection H as <- <-; now apply W]. cbn zeta in H. match type of H with (match ?X with _ => _ end = _) => destruct X end; [|injection H as <- <-; now apply W].
    destruct (re_lookup _ _ _ _); injection H as <- <-; now apply W.
  - unfold export in H. destruct (rd s _ _) as [d|] eqn:R; [|injection H as <- <-; now apply U]. cbn zeta in H. change MAX_EXPORTS with 3072 in H.
    destruct (N.leb_spec 3072 (N.of_nat (length (rx_exports c)) + ra_offset a)) as [L|L]; injection H as <- <-; [apply U; cbn; discriminate|].
    right; left. split; [reflexivity|]. split; [reflexivity|]. split; [reflexivity|]. split; [eexists; reflexivity|exact L].
  - unfold machine in H. destruct (rd s _ _) as [d|]; [|injection H as <- <-; now apply U]. destruct (deblob d); [|injection H as <- <-; apply U; cbn; discriminate|discriminate]. injection H as <- <-.
    left. auto.
  - unfold peek in H. destruct (as_u32 _); [|injection H as <- <-; now apply W]. destruct (negb _); [injection H as <- <-; now apply W|]. destruct (get_vm c _); [|injection H as <- <-; now apply W].
    destruct (rd _ _ _); injection H as <- <-; now apply W.
  - unfold poke in H. destruct (rd s _ _) as [d|]; [|injection H as <- <-; now apply W]. destruct (get_vm c _) as [v|] eqn:G; [|injection H as <- <-; now apply W].
    destruct (as_u32 _); [|injection H as <- <-; now apply W]. destruct (negb _); [injection H as <- <-; now apply W|].
    destruct (write_bytes _ _ _) as [m| |]; injection H as <- <-; now apply V.
  - unfold pages in H. destruct (get_vm c _) as [v|] eqn:G; [|injection H as <- <-; now apply W]. cbn zeta in H. destruct (_ || _); [injection H as <- <-; now apply W|].
    destruct (_ && _); [injection H as <- <-; now apply W|]. match type of H with (match ?X with _ => _ end = _) => destruct X as [m| |] eqn:C end; [|injection H as <- <-; now apply W|discriminate].
    destruct (set_page_range_access _ _ _ _) as [m'| |]; injection H as <- <-; now apply V.
  - unfold invoke in H. destruct (as_u32 _); [|injection H as <- <-; now apply W]. destruct (negb _); [injection H as <- <-; now apply W|].
    destruct (read_bytes _ _ _) as [g| |]; try (injection H as <- <-; now apply W). destruct (read_regs _ _ _) as [regs|]; [|injection H as <- <-; now apply W].
    destruct (get_vm c _) as [v|] eqn:G; [|injection H as <- <-; now apply W]. cbn zeta in H. destruct (_ <=? _); [discriminate|]. destruct (load_program _) as [p| |]; cbn [bind] in H; try discriminate.
    destruct (invoke_general _ _ _) as [[[x t]| |]|]; cbn [bind] in H; try discriminate. destruct (reported x) as [[r7 r8]|]; [|discriminate]. injection H as <- <-. now apply V.
  - unfold expunge in H. destruct (get_vm c _) as [v|]; injection H as <- <-; [now apply V|now apply W].
Qed.
Lemma counting_cons first x l : counting first (x :: l) <-> x = first /\ counting (first + 1) l.
Proof.
  unfold counting. split.
  - intros H. split; [specialize (H 0%nat ltac:(cbn; lia)); cbn in H; lia|]. intros i Hi. specialize (H (S i) ltac:(cbn; lia)). cbn [nth] in H. lia.
  - intros [-> H] [|i] Hi; cbn [nth length] in *; [lia|]. rewrite H by lia. lia.
Qed.
Lemma counting_nil first : counting first []. Proof. intros i Hi. cbn in Hi. lia. Qed.
Lemma history_numbers e a self : forall l c hs c', refine_calls e a self l c = Ok (hs, c') -> rx_next c + N.of_nat (length l) < 2 ^ 64 - 9 ->
  counting (rx_next c) (given 8 l hs) /\ rx_next c' = rx_next c + N.of_nat (length (given 8 l hs)).
Proof.
  change (2 ^ 64 - 9) with 18446744073709551607.
  induction l as [|[n s] l IH]; intros c hs c' H L; cbn [refine_calls] in H; [injection H as <- <-; split; [apply counting_nil|cbn; lia]|].
  destruct (refine_host e a self n s c) as [[h c1]| |] eqn:E; cbn [bind] in H; try discriminate. destruct (refine_calls e a self l c1) as [[hs' c2]| |] eqn:E2; cbn [bind] in H; try discriminate.
  injection H as <- <-. apply host_effect in E. cbn [length] in L. cbn [given]. change (2 ^ 64 - 9) with 18446744073709551607 in *. destruct E as [(-> & -> & E & _)|[(-> & _ & E & _)|(E & _ & F)]].
  - destruct (IH c1 hs' c2 E2) as [A B]; [rewrite E; lia|]. cbn [sets h_r7]. change (8 =? 8) with true. cbv iota. destruct (N.ltb_spec (rx_next c) 18446744073709551607); [|lia]. cbn [app].
    split; [apply counting_cons; split; [reflexivity|]; rewrite <- E; exact A|]. rewrite B, E. cbn [length]. lia.
  - destruct (IH c1 hs' c2 E2) as [A B]; [rewrite E; lia|]. change (7 =? 8) with false. cbv iota. cbn [app]. rewrite <- E. auto.
  - destruct (IH c1 hs' c2 E2) as [A B]; [rewrite E; lia|]. destruct (N.eqb_spec n 8) as [->|Ne]; [|cbn [app]; rewrite <- E; auto].
    destruct (h_r7 h) as [i|]; [|cbn [app]; rewrite <- E; auto]. change (2 ^ 64 - 9) with 18446744073709551607 in F. destruct (N.ltb_spec i 18446744073709551607) as [Q|Q]; [specialize (F (or_introl eq_refl) i eq_refl); lia|].
    cbn [app]. rewrite <- E. auto.
Qed.
Lemma history_exports e a self : forall l c hs c', refine_calls e a self l c = Ok (hs, c') ->
  counting (ra_offset a + N.of_nat (length (rx_exports c))) (given 7 l hs) /\ length (rx_exports c') = (length (rx_exports c) + length (given 7 l hs))%nat /\
  firstn (length (rx_exports c)) (rx_exports c') = rx_exports c.
Proof.
  induction l as [|[n s] l IH]; intros c hs c' H; cbn [refine_calls] in H; [injection H as <- <-; split; [apply counting_nil|split; [cbn; lia|apply firstn_all]]|].
  destruct (refine_host e a self n s c) as [[h c1]| |] eqn:E; cbn [bind] in H; try discriminate. destruct (refine_calls e a self l c1) as [[hs' c2]| |] eqn:E2; cbn [bind] in H; try discriminate.
  injection H as <- <-. apply host_effect in E. cbn [given]. change (2 ^ 64 - 9) with 18446744073709551607 in *. destruct (IH c1 hs' c2 E2) as (A & B & C). destruct E as [(-> & _ & _ & E)|[(-> & -> & _ & (seg & E) & Q)|(_ & E & F)]].
  - change (8 =? 7) with false. cbv iota. cbn [app]. rewrite E in *. auto.
  - change (7 =? 7) with true. cbv iota. cbn [sets h_r7]. destruct (N.ltb_spec (N.of_nat (length (rx_exports c)) + ra_offset a) 18446744073709551607); [|lia]. cbn [app].
    rewrite E, app_length in A, B. rewrite E, app_length in C. cbn [length] in A, B, C. split; [|split].
    + apply counting_cons. split; [lia|]. replace (ra_offset a + N.of_nat (length (rx_exports c)) + 1) with (ra_offset a + N.of_nat (length (rx_exports c) + 1)) by lia. exact A.
    + rewrite B. cbn [length]. lia.
    + assert (K : firstn (length (rx_exports c)) (firstn (length (rx_exports c) + 1) (rx_exports c2)) = firstn (length (rx_exports c)) (rx_exports c ++ [seg])) by now rewrite C.
      rewrite firstn_firstn, Nat.min_l in K by lia. rewrite K, firstn_app, Nat.sub_diag, firstn_all. cbn. apply app_nil_r.
  - rewrite E in *. destruct (N.eqb_spec n 7) as [->|Ne]; [|auto]. destruct (h_r7 h) as [i|]; [|auto]. change (2 ^ 64 - 9) with 18446744073709551607 in F.
    destruct (N.ltb_spec i 18446744073709551607) as [Q|Q]; [specialize (F (or_intror eq_refl) i eq_refl); lia|]. auto.
Qed.
