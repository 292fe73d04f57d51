(** One step of the machine refines the specification. *)
From Coq Require Import Lia ZArith ZifyBool.
From Verif Require Import Base Base_Proofs Codec_Model PvmMem_Model PvmMem_Spec PvmMem_Proofs PvmProg_Model PvmStep_Model PvmStep_Spec PvmProg_Spec PvmAlu_Proofs
  PvmProg_Proofs PvmRun_Spec.
Open Scope N_scope.

(** ** Registers *)
Lemma set_nth_length {A} (x : A) : forall l n, length (set_nth n x l) = length l.
Proof. induction l as [|y l IH]; intros [|n]; cbn [set_nth length]; auto. Qed.
Lemma set_nth_nth {A} (x d : A) : forall l n k, (n < length l)%nat -> nth k (set_nth n x l) d = if Nat.eqb k n then x else nth k l d.
Proof.
  induction l as [|y l IH]; intros [|n] [|k] H; cbn [set_nth nth length Nat.eqb] in *; try lia; auto. apply IH. lia.
Qed.
Lemma set_nth_Forall {A} (P : A -> Prop) x : P x -> forall l n, Forall P l -> Forall P (set_nth n x l).
Proof. intros Hx. induction l as [|y l IH]; intros [|n] F; cbn [set_nth]; auto; inversion F; subst; constructor; auto. Qed.
Lemma get_reg_ok s r : machine_ok s -> r <= 12 -> forall o : option N, o = Some r -> forall e, get_reg s (need e o) = Ok (reg s r).
Proof.
  intros (L & _) Hr o -> e. unfold get_reg, need. cbn [bind]. unfold reg. rewrite (nth_error_nth' _ 0) by lia. reflexivity.
Qed.
Lemma reg_lt s r : machine_ok s -> reg s r < 2 ^ 64.
Proof.
  intros (L & F & _). unfold reg. destruct (Nat.lt_ge_cases (N.to_nat r) (length (v_regs s))).
  - rewrite Forall_forall in F. apply F. now apply nth_In.
  - rewrite nth_overflow by assumption. reflexivity.
Qed.

(** ** One step, given what [exec] returned *)
Lemma charge1 s : (0 < v_gas s < 2 ^ 63)%Z -> charge s 1 = Ok (mk_vm (v_regs s) (v_mem s) (v_pc s) (v_gas s - 1)).
Proof.
  intros H. unfold charge. change (2 ^ 63 <=? 1) with false. cbv iota.
  destruct (Z.ltb_spec (v_gas s - Z.of_N 1) (- 2 ^ 63)); [lia|]. reflexivity.
Qed.
Lemma set_mem_same s : set_mem s (v_mem s) = s.
Proof. now destruct s. Qed.
Section Step.
Variables (p : prog) (s : vm) (i : inst).
Hypothesis Hi : instruction_at p (v_pc s) = Some i.
Hypothesis Hg : (0 < v_gas s < 2 ^ 63)%Z.
Hypothesis Hm : machine_ok s.
Lemma step_exec x c : exec p s i = Ok (v_mem s, x, c) ->
  step p s = (let s1 := mk_vm (v_regs s) (v_mem s) (v_pc s) (v_gas s - 1) in
    match x with
    | Continue | XPanic | RegularHalt =>
        let finish (s2 : vm) : result verr outcome :=
          let s3 := set_pc s2 (c_pc c) in
          let! s4 := (match c_reg c with
                      | Some (r, v) => if 13 <=? r then Err EInvalidRegIndex else Ok (set_reg s3 r v)
                      | None => Ok s3 end) in
          Ok (match x with Continue => Cont s4 | _ => Stop x s4 end) in
        match c_mem c with
        | None => finish s1
        | Some (a, bs) =>
            if a <? INIT_ZONE_SIZE then Ok (Stop XPanic s1)
            else match write_bytes (v_mem s1) a bs with
                 | Ok m' => finish (set_mem s1 m')
                 | Err (AccessViolation y) => Ok (Stop (PageFault (y / PAGE_SIZE * PAGE_SIZE)) (set_pc s1 0))
                 | Err e => Err (EMem e)
                 | Panic => Panic
                 end
        end
    | _ => Ok (Stop x s1)
    end).
Proof using Hi Hg.
  intros E. unfold step. rewrite Hi, E. cbn [bind]. rewrite set_mem_same. rewrite charge1 by exact Hg. cbn [bind v_gas].
  destruct (Z.ltb_spec (v_gas s - 1) 0); [lia|]. reflexivity.
Qed.
Lemma realize_go w pc : exec p s i = Ok (v_mem s, Continue, mk_change w None pc) ->
  (match w with Some (r, v) => r <= 12 /\ v < 2 ^ 64 | None => True end) -> realizes p s (Go pc w None).
Proof using Hi Hg Hm.
  intros E Hw. unfold realizes. rewrite (step_exec _ _ E). cbn [c_mem c_reg c_pc]. cbv zeta. destruct Hm as (L & F & M & ML & MD). destruct w as [[r v]|].
  - destruct (N.leb_spec 13 r); [lia|]. cbn [bind]. eexists. split; [reflexivity|]. split.
    + unfold after. cbn [v_pc v_gas v_regs v_mem set_reg set_pc]. rewrite set_nth_length. repeat split.
      intros k Hk. unfold reg, set_reg, set_pc. cbn [v_regs]. rewrite set_nth_nth by lia.
      destruct (Nat.eqb_spec (N.to_nat k) (N.to_nat r)), (N.eqb_spec k r); try lia; reflexivity.
    + unfold machine_ok. cbn [v_regs v_mem set_reg set_pc]. rewrite set_nth_length. split; [exact L|]. split; [|auto]. apply set_nth_Forall; tauto.
  - cbn [bind]. eexists. split; [reflexivity|]. split; [unfold after; cbn; repeat split|]. unfold machine_ok. cbn. auto.
Qed.
Lemma realize_stop x c : exec p s i = Ok (v_mem s, x, c) -> c_mem c = None -> (x = XPanic \/ x = RegularHalt) ->
  (match c_reg c with Some (r, v) => r <= 12 | None => True end) -> realizes p s (End x).
Proof using Hi Hg.
  intros E Hc Hx Hw. unfold realizes. rewrite (step_exec _ _ E), Hc. cbv zeta.
  assert (B : match c_reg c with Some (r, _) => 13 <=? r | None => false end = false).
  { destruct (c_reg c) as [[r v]|]; [apply N.leb_gt; lia|reflexivity]. }
  destruct (c_reg c) as [[r v]|]; [rewrite B|]; cbn [bind]; destruct Hx as [-> | ->]; (eexists; split; [reflexivity|cbn; auto]).
Qed.
Lemma realize_other x c : exec p s i = Ok (v_mem s, x, c) -> (match x with PageFault _ | HostCall _ => True | _ => False end) -> realizes p s (End x).
Proof using Hi Hg.
  intros E Hx. unfold realizes. rewrite (step_exec _ _ E). cbv zeta. destruct x; try contradiction; (eexists; split; [reflexivity|cbn; auto]).
Qed.

(** ** Memory *)
Lemma spot_small a k w : a + N.of_nat w <= 2 ^ 32 -> (k < w)%nat -> spot a k = a + N.of_nat k.
Proof. intros H Hk. unfold spot. apply N.mod_small. lia. Qed.
Lemma refused_low (P : N -> Prop) a w : (0 < w)%nat -> a + N.of_nat w <= 2 ^ 32 -> a < 65536 -> ~ P a -> refused P a w XPanic.
Proof.
  intros Hw H Ha HP. exists a. split; [exists 0%nat; rewrite (spot_small a 0 w H Hw); split; [exact Hw|lia]|]. split; [exact HP|]. split.
  - intros k Hk _. rewrite (spot_small a k w H Hk). lia.
  - destruct (N.ltb_spec a 65536); [reflexivity|lia].
Qed.
Lemma refused_page (Q : N -> Prop) a w pg : a + N.of_nat w <= 2 ^ 32 -> 65536 <= a ->
  (forall x y, x / 4096 = y / 4096 -> x <= y -> Q x -> Q y \/ ~ y < 2 ^ 32) -> (forall x y, x / 4096 = y / 4096 -> y <= x -> x < 2 ^ 32 -> Q y -> Q x) ->
  faults_at Q a (N.of_nat w) pg -> refused (fun x => 65536 <= x /\ Q x) a w (PageFault pg).
Proof.
  intros H Ha _ HQ (Hp & (x & Hx & Hxp & HnQ) & Hall).
  set (b := N.max a pg). assert (Hb : a <= b < a + N.of_nat w) by lia.
  assert (Hbp : pg <= b < pg + 4096) by lia.
  assert (Epg : pg = 4096 * (pg / 4096)) by (rewrite (N.div_mod pg 4096) at 1 by discriminate; lia).
  assert (Eb : b / 4096 = pg / 4096) by (symmetry; apply (N.div_unique b 4096 (pg / 4096) (b - pg)); lia).
  assert (Ex : x / 4096 = pg / 4096) by (symmetry; apply (N.div_unique x 4096 (pg / 4096) (x - pg)); lia).
  exists b. split; [|split; [|split]].
  - exists (N.to_nat (b - a)). split; [lia|]. rewrite (spot_small a _ w H) by lia. lia.
  - intros [_ Q1]. apply HnQ. apply (HQ x b); [congruence|lia|lia|exact Q1].
  - intros k Hk Hbad. rewrite (spot_small a k w H Hk) in *. destruct (N.le_gt_cases b (a + N.of_nat k)) as [|Hlt]; [assumption|].
    exfalso. apply Hbad. split; [lia|]. apply Hall; lia.
  - destruct (N.ltb_spec b 65536); [lia|]. rewrite Eb, <- Epg. reflexivity.
Qed.
Lemma can_read_page m x y : m_len m = 2 ^ 32 -> x / 4096 = y / 4096 -> y <= x -> x < 2 ^ 32 -> can_read m y -> can_read m x.
Proof. intros L E _ Hx [_ A]. unfold can_read. rewrite L, E. auto. Qed.
Lemma can_write_page m x y : m_len m = 2 ^ 32 -> x / 4096 = y / 4096 -> y <= x -> x < 2 ^ 32 -> can_write m y -> can_write m x.
Proof. intros L E _ Hx [_ A]. unfold can_write. rewrite L, E. auto. Qed.
Lemma refused_page_read m a w pg : m_len m = 2 ^ 32 -> a + N.of_nat w <= 2 ^ 32 -> 65536 <= a -> faults_at (can_read m) a (N.of_nat w) pg -> refused (readable m) a w (PageFault pg).
Proof.
  intros L H Ha F. apply (refused_page (can_read m)); auto.
  - intros x y E Hxy R. destruct (N.lt_ge_cases y (2 ^ 32)); [left|right; lia]. destruct R as [_ R]. split; [now rewrite L|now rewrite <- E].
  - intros x y. now apply can_read_page.
Qed.
Lemma refused_page_write m a w pg : m_len m = 2 ^ 32 -> a + N.of_nat w <= 2 ^ 32 -> 65536 <= a -> faults_at (can_write m) a (N.of_nat w) pg -> refused (writable m) a w (PageFault pg).
Proof.
  intros L H Ha F. apply (refused_page (can_write m)); auto.
  - intros x y E Hxy R. destruct (N.lt_ge_cases y (2 ^ 32)); [left|right; lia]. destruct R as [_ R]. split; [now rewrite L|now rewrite <- E].
  - intros x y. now apply can_write_page.
Qed.
Lemma allowed_spots_read m a w : a + N.of_nat w <= 2 ^ 32 -> (0 < w)%nat -> allowed (can_read m) a (N.of_nat w) -> all_spots (readable m) a w.
Proof. intros H Hw [Ha HA] k Hk. rewrite (spot_small a k w H Hk). split; [lia|]. apply HA. lia. Qed.
Lemma allowed_spots_write m a w : a + N.of_nat w <= 2 ^ 32 -> (0 < w)%nat -> allowed (can_write m) a (N.of_nat w) -> all_spots (writable m) a w.
Proof. intros H Hw [Ha HA] k Hk. rewrite (spot_small a k w H Hk). split; [lia|]. apply HA. lia. Qed.

Definition as_result (e : effect) : exit * change :=
  match e with Go pc w _ => (Continue, mk_change w None pc) | End x => (x, no_change) end.
Lemma load_bytes op w sg a r bs : (0 < w <= 8)%nat -> a + N.of_nat w <= 2 ^ 32 -> load_signed op = sg -> length bs = w ->
  allowed (can_read (v_mem s)) a (N.of_nat w) -> (forall k, (k < w)%nat -> nth k bs 0 = m_data (v_mem s) (a + N.of_nat k)) ->
  load_value op w (le_val bs) < 2 ^ 64 /\ loads (v_mem s) a w sg r (next_pc (v_pc s) p) (Go (next_pc (v_pc s) p) (Some (r, load_value op w (le_val bs))) None).
Proof using Hm.
  intros Hw Hwr Hsg Hl Hal Hn. destruct Hm as (L & F & M & ML & MD).
  assert (HB : Forall (fun b => b < 256) bs).
  { apply Forall_forall. intros b Hb. apply (In_nth _ _ 0) in Hb as (k & Hk & <-). rewrite Hn by lia. apply MD. }
  pose proof (le_val_lt bs HB) as Hv. rewrite Hl in Hv.
  assert (Hv64 : le_val bs < 2 ^ 64) by (apply N.lt_le_trans with (1 := Hv); apply N.pow_le_mono_r; lia).
  assert (W : if sg then word (sgn (8 * Z.of_nat w) (Z.of_N (le_val bs))) (load_value op w (le_val bs)) else load_value op w (le_val bs) = le_val bs).
  { unfold load_value. rewrite Hsg. destruct sg; [|reflexivity]. replace (Z.of_nat w) with (Z.of_N (N.of_nat w)) by lia.
    destruct (group op =? 6); [apply sext_word; [lia|exact Hv]|]. rewrite to_signed_sgn by (lia || exact Hv). apply word_u64_of. }
  split. { destruct sg; [now apply word_lt in W|now rewrite W]. }
  left. split; [apply allowed_spots_read; [exact Hwr|lia|exact Hal]|]. exists bs, (load_value op w (le_val bs)). split; [exact Hl|]. split; [|split; [reflexivity|exact W]].
  intros k Hk. rewrite (spot_small a k w Hwr Hk). now apply Hn.
Qed.
Lemma load_ok op w sg a r : (w = 1 \/ w = 2 \/ w = 4 \/ w = 8)%nat -> a + N.of_nat w <= 2 ^ 32 -> load_signed op = sg ->
  (w = 1%nat -> 65536 <= a -> ~ can_read (v_mem s) a -> a mod 4096 = 0) ->
  exists e, loads (v_mem s) a w sg r (next_pc (v_pc s) p) e /\ do_load s p op w a r = Ok (as_result e) /\
    match e with Go pc wr _ => pc = next_pc (v_pc s) p /\ exists v, wr = Some (r, v) /\ v < 2 ^ 64 | End x => x = XPanic \/ exists pg, x = PageFault pg end.
Proof using Hm.
  intros Hw Hwr Hsg Hal. assert (Hm' := Hm). destruct Hm' as (L & F & M & ML & MD).
  assert (Ha : a < 2 ^ 32) by lia.
  destruct (Nat.eq_dec w 1) as [->|H1].
  - destruct (N.lt_ge_cases a 65536) as [Hlo|Hlo].
    + exists (End XPanic). split; [|split].
      * right. exists XPanic. split; [|reflexivity]. apply refused_low; auto. intros [? _]. lia.
      * unfold do_load, read_byte, INIT_ZONE_SIZE. destruct (N.ltb_spec a 65536); [reflexivity|lia].
      * now left.
    + destruct (N.le_gt_cases 1 0); [lia|].
      assert (D : can_read (v_mem s) a \/ ~ can_read (v_mem s) a).
      { rewrite <- (page_readable_spec (v_mem s) a M). destruct (page_readable (v_mem s) (a / 4096)); [now left|right; discriminate]. }
      destruct D as [Hr|Hr].
      * assert (E : read_byte (v_mem s) a = Ok (m_data (v_mem s) a)) by (apply read_byte_spec; auto).
        assert (G1 : allowed (can_read (v_mem s)) a (N.of_nat 1)) by (split; [lia|]; intros x Hx; replace x with a by lia; exact Hr).
        assert (G2 : forall k, (k < 1)%nat -> nth k [m_data (v_mem s) a] 0 = m_data (v_mem s) (a + N.of_nat k)) by (intros [|k] Hk; [cbn [nth]; f_equal; lia|lia]).
        destruct (load_bytes op 1 sg a r [m_data (v_mem s) a] ltac:(lia) Hwr Hsg eq_refl G1 G2) as [B1 B2].
        eexists. split; [exact B2|]. split; [unfold do_load; rewrite E; reflexivity|]. split; [reflexivity|]. eexists. split; [reflexivity|exact B1].
      * exists (End (PageFault a)). split; [|split].
        -- right. eexists. split; [|reflexivity]. apply refused_page_read; auto.
           specialize (Hal eq_refl Hlo Hr). split; [exact Hal|]. split; [|lia]. exists a. split; [lia|]. split; [lia|exact Hr].
        -- unfold do_load, read_byte, INIT_ZONE_SIZE, page_of. destruct (N.ltb_spec a 65536); [lia|]. rewrite ML. destruct (N.leb_spec (2 ^ 32) a); [lia|].
           assert (Hps : m_psz (v_mem s) = 4096) by apply M. rewrite Hps.
           destruct (page_readable (v_mem s) (a / 4096)) eqn:Ep; [|reflexivity]. exfalso. apply Hr. now apply page_readable_spec.
        -- right. now eexists.
  - destruct (read_bytes_spec (v_mem s) a (N.of_nat w) M Ha ltac:(lia)) as (R1 & R2 & R3 & R4).
    assert (E : do_load s p op w a r = match read_bytes (v_mem s) a (N.of_nat w) with
       | Ok bs => Ok (Continue, reg_write r (load_value op w (le_val bs)) (next_pc (v_pc s) p))
       | Err (Forbidden _) => Ok (XPanic, no_change) | Err (AccessViolation x) => Ok (PageFault x, no_change) | Err e => Err (EMem e) | Panic => Panic end).
    { destruct Hw as [->|[->|[->| ->]]]; [lia|reflexivity|reflexivity|reflexivity]. }
    rewrite E. destruct (N.lt_ge_cases a 65536) as [Hlo|Hlo].
    + rewrite (R4 Hlo). exists (End XPanic). split; [|split; [reflexivity|now left]].
      right. exists XPanic. split; [|reflexivity]. apply refused_low; auto; [lia|]. intros [? _]. lia.
    + destruct (R3 Hlo ltac:(lia)) as [[bs Eb]|[pg Eb]]; rewrite Eb.
      * apply R1 in Eb as (A1 & A2 & A3). rewrite Nat2N.id in *.
        assert (Hw8 : (0 < w <= 8)%nat) by lia. assert (A2' : length bs = w) by lia.
        assert (A3' : forall k, (k < w)%nat -> nth k bs 0 = m_data (v_mem s) (a + N.of_nat k)) by (intros k Hk; apply A3; lia).
        destruct (load_bytes op w sg a r bs Hw8 Hwr Hsg A2' A1 A3') as [B1 B2].
        eexists. split; [exact B2|]. split; [reflexivity|]. split; [reflexivity|]. eexists. split; [reflexivity|exact B1].
      * apply R2 in Eb. exists (End (PageFault pg)). split; [|split; [reflexivity|right; now eexists]].
        right. eexists. split; [|reflexivity]. apply refused_page_read; auto.
Qed.
Lemma realize_load op w sg a r : exec p s i = (let! (x, c) := do_load s p op w a r in Ok (v_mem s, x, c)) -> r <= 12 ->
  (w = 1 \/ w = 2 \/ w = 4 \/ w = 8)%nat -> a + N.of_nat w <= 2 ^ 32 -> load_signed op = sg ->
  (w = 1%nat -> 65536 <= a -> ~ can_read (v_mem s) a -> a mod 4096 = 0) ->
  exists e, loads (v_mem s) a w sg r (next_pc (v_pc s) p) e /\ realizes p s e.
Proof using Hi Hg Hm.
  intros E Hr Hw Hwr Hsg Hal. destruct (load_ok op w sg a r Hw Hwr Hsg Hal) as (e & H1 & H2 & H3). exists e. split; [exact H1|].
  rewrite H2 in E. destruct e as [pc wr st|x]; cbn [as_result bind] in E.
  - destruct H3 as [-> (v & -> & Hv)].
    assert (st = None) as ->. { destruct H1 as [(_ & bs & v' & _ & _ & H & _)|(x & _ & H)]; congruence. }
    apply realize_go; auto.
  - destruct H3 as [->|[pg ->]]; [apply (realize_stop _ _ E); cbn; auto|apply (realize_other _ _ E); exact I].
Qed.
Lemma nth_le_bytes_at : forall w v k, (k < w)%nat -> nth k (le_bytes w v) 0 = byte_at (N.of_nat k) v.
Proof. intros w v k H. unfold byte_at. rewrite nth_le_bytes by exact H. reflexivity. Qed.
Lemma realize_store w a v : exec p s i = (let '(x, c) := do_store s p w a v in Ok (v_mem s, x, c)) -> (0 < w)%nat -> a + N.of_nat w <= 2 ^ 32 ->
  exists e, stores (v_mem s) a w v (next_pc (v_pc s) p) e /\ realizes p s e.
Proof using Hi Hg Hm.
  intros E Hw Hwr. assert (Hm' := Hm). destruct Hm' as (L & F & M & ML & MD). assert (Ha : a < 2 ^ 32) by lia.
  cbn [do_store] in E. assert (Hne : le_bytes w v <> []). { destruct w; [lia|discriminate]. }
  destruct (write_bytes_ok_iff (v_mem s) a (le_bytes w v) M Ha Hne) as (W1 & W2 & W3 & W4 & W5).
  rewrite le_bytes_length in *.
  pose proof (step_exec _ _ E) as S. cbn [c_mem c_reg c_pc v_mem] in S. cbv zeta in S. unfold INIT_ZONE_SIZE in S.
  destruct (N.ltb_spec a 65536) as [Hlo|Hlo].
  - exists (End XPanic). split.
    + right. exists XPanic. split; [|reflexivity]. apply refused_low; auto. intros [? _]. lia.
    + unfold realizes. rewrite S. eexists. split; [reflexivity|]. cbn. auto.
  - destruct (W4 Hlo ltac:(lia)) as [[m' Ew]|[pg Ew]]; rewrite Ew in S.
    + exists (Go (next_pc (v_pc s) p) None (Some (a, le_bytes w v))). split.
      * left. split; [apply allowed_spots_write; auto; apply W1; now exists m'|]. exists (le_bytes w v). split; [apply le_bytes_length|]. split; [|reflexivity].
        intros k Hk. now apply nth_le_bytes_at.
      * apply W2 in Ew. cbn [bind] in S. unfold realizes. rewrite S. eexists. split; [reflexivity|].
        pose proof (wrote_ok _ _ _ _ M Ew) as M'. destruct Ew as (D & A & Le & _ & _ & Hs & He & St). split.
        -- unfold after. cbn [v_pc v_gas v_regs v_mem set_pc set_mem]. split; [reflexivity|]. split; [reflexivity|]. split; [reflexivity|]. split; [reflexivity|].
           split. { intros x Hx. rewrite D, le_bytes_length. cbv zeta.
             destruct (N.leb_spec a x) as [Hax|Hax].
             - replace (x + 2 ^ 32 - a) with (x - a + 1 * 2 ^ 32) by lia. rewrite N.mod_add by discriminate. rewrite N.mod_small by lia.
               destruct (N.ltb_spec x (a + N.of_nat w)), (N.ltb_spec (x - a) (N.of_nat w)); try lia; reflexivity.
             - rewrite N.mod_small by lia. cbn [andb]. destruct (N.ltb_spec (x + 2 ^ 32 - a) (N.of_nat w)); [lia|reflexivity]. }
           rewrite A. auto 6.
        -- unfold machine_ok. cbn [v_regs v_mem set_pc set_mem]. split; [exact L|]. split; [exact F|]. split; [exact M'|]. split; [congruence|].
           intros x. rewrite D. destruct (_ && _) eqn:Ec; [|apply MD]. rewrite le_bytes_length in Ec. rewrite nth_le_bytes_at by lia. unfold byte_at. apply N.mod_upper_bound. discriminate.
    + apply W3 in Ew. exists (End (PageFault pg)). split.
      * right. eexists. split; [|reflexivity]. apply refused_page_write; auto.
      * unfold realizes. rewrite S. assert (Hpg : pg / PAGE_SIZE * PAGE_SIZE = pg).
        { destruct Ew as [Hp _]. unfold PAGE_SIZE. rewrite N.mul_comm. rewrite (N.div_mod pg 4096) at 2 by discriminate. lia. }
        rewrite Hpg. eexists. split; [reflexivity|]. cbn. auto.
Qed.
End Step.
