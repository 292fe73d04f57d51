(** Every instruction of a loaded program does what the specification says. *)
From Coq Require Import Lia ZArith ZifyBool.
From Verif Require Import Base Base_Proofs Codec_Model PvmMem_Model PvmMem_Spec PvmMem_Proofs PvmProg_Model PvmStep_Model PvmStep_Spec PvmProg_Spec PvmAlu_Proofs
  PvmProg_Proofs PvmRun_Spec PvmStep_Proofs.
Open Scope N_scope.

Lemma u32_wadd a x : u32 (wadd a x) = (a + x) mod 2 ^ 32.
Proof.
  unfold u32, wadd, u64. change (2 ^ 64) with (2 ^ 32 * 2 ^ 32). rewrite N.mod_mul_r by discriminate.
  rewrite (N.mul_comm (2 ^ 32) (_ mod _)), N.mod_add by discriminate. apply N.mod_mod. discriminate.
Qed.

(** ** The operands an instruction of each form has *)
Definition want_rs1 (f : form) : bool :=
  match f with FTrap | FFall | FEcall | FJump | FStoreImm false _ => false | _ => true end.
Definition want_rs2 (f : form) : bool :=
  match f with FSetJumpInd | FBranch | FLoad true _ _ | FStore true _ | FMath2 | FMath3 => true | _ => false end.
Definition want_rd (f : form) : bool := match f with FSbrk | FMath1 | FMath3 => true | _ => false end.
Definition want_imm1 (f : form) : bool := match f with FTrap | FFall | FSbrk | FMath1 | FMath3 => false | _ => true end.
Definition want_imm2 (f : form) : bool := match f with FSetJump | FSetJumpInd | FBranchImm | FStoreImm _ _ => true | _ => false end.
Definition target1 (f : form) : bool := match f with FJump | FBranch => true | _ => false end.
Definition target2 (f : form) : bool := match f with FSetJump | FBranchImm => true | _ => false end.
Definition is_reg (o : option N) : Prop := exists r, o = Some r /\ r <= 12.
Definition is_imm (o : option N) : Prop := exists x, o = Some x /\ x < 2 ^ 64.
Definition is_target (n : nat) (o : option N) : Prop := exists x z, o = Some x /\ (- 2 ^ 31 <= z < 2 ^ 31)%Z /\ word (Z.of_nat n + z) x.
Definition fit (i : inst) (n : nat) (f : form) : Prop :=
  (want_rs1 f = true -> is_reg (i_rs1 i)) /\ (want_rs2 f = true -> is_reg (i_rs2 i)) /\ (want_rd f = true -> is_reg (i_rd i)) /\
  (want_imm1 f = true -> is_imm (i_imm1 i)) /\ (want_imm2 f = true -> is_imm (i_imm2 i)) /\
  (target1 f = true -> is_target n (i_imm1 i)) /\ (target2 f = true -> is_target n (i_imm2 i)).
(** The forms an encoding shape supports. *)
Definition has_form (sh : shape) (f : form) : bool :=
  implb (want_rs1 f) (match sh with NoArgs | OneImm | TwoImm | OneOff => false | _ => true end) &&
  implb (want_rs2 f) (match sh with TwoRegImm | TwoRegOff | TwoRegTwoImm | ThreeReg => true | _ => false end) &&
  implb (want_rd f) (match sh with TwoReg | ThreeReg => true | _ => false end) &&
  implb (want_imm1 f) (match sh with NoArgs | TwoReg | ThreeReg => false | _ => true end) &&
  implb (want_imm2 f) (match sh with TwoImm | RegTwoImm | RegImmOff | TwoRegTwoImm => true | _ => false end) &&
  implb (target1 f) (match sh with OneOff | TwoRegOff => true | _ => false end) &&
  implb (target2 f) (match sh with RegImmOff => true | _ => false end).
Lemma shapes_forms b : b < 256 -> has_form (shape_of b) (form_of (opcode_of b)) = true.
Proof. revert b. apply all_bytes. vm_compute. reflexivity. Qed.
Lemma imm_is_imm c k l o : imm_is c k l o -> is_imm o.
Proof. intros (v & -> & W). exists v. split; [reflexivity|]. now apply word_lt in W. Qed.
Lemma off_is_imm c n k l o : off_is c n k l o -> is_imm o.
Proof. intros (v & -> & W). exists v. split; [reflexivity|]. now apply word_lt in W. Qed.
Lemma signed_at_range c k l : (l <= 4)%nat -> (- 2 ^ 31 <= signed_at c k l < 2 ^ 31)%Z.
Proof.
  intros Hl. unfold signed_at, sgn. destruct l as [|[|[|[|[|l]]]]]; [|..|lia].
  all: match goal with |- context [(?x mod ?y)%Z] => pose proof (Z.mod_pos_bound x y) as B end; cbn -[Z.modulo le_val] in *; lia.
Qed.
Lemma off_is_target c n k l o : (l <= 4)%nat -> off_is c n k l o -> is_target n o.
Proof. intros Hl (v & -> & W). exists v, (signed_at c k l). split; [reflexivity|]. split; [now apply signed_at_range|exact W]. Qed.
Lemma reg_lo_reg x : is_reg (Some (reg_lo x)).
Proof. eexists. split; [reflexivity|]. unfold reg_lo. lia. Qed.
Lemma reg_hi_reg x : is_reg (Some (reg_hi x)).
Proof. eexists. split; [reflexivity|]. unfold reg_hi. lia. Qed.
Lemma reg_min_reg x : is_reg (Some (N.min 12 x)).
Proof. eexists. split; [reflexivity|]. lia. Qed.
Lemma operands_fit c n l i : Bytes c -> i_op i = opcode_of (code_at c n) -> operands c n l i -> fit i n (form_of (i_op i)).
Proof.
  intros HB Ho HO. pose proof (shapes_forms (code_at c n) (code_at_byte c n HB)) as HF. rewrite <- Ho in HF. clear Ho.
  unfold has_form in HF. rewrite !andb_true_iff in HF. destruct HF as ((((((F1 & F2) & F3) & F4) & F5) & F6) & F7).
  unfold operands in HO. cbv zeta in HO. unfold fit. generalize dependent (form_of (i_op i)). intros f F1 F2 F3 F4 F5 F6 F7.
  destruct (shape_of (code_at c n));
    (destruct HO as ((E1 & E2 & E3) & E4 & E5); rewrite ?E1, ?E2, ?E3;
     repeat (split; [intros W; (rewrite W in F1 || rewrite W in F2 || rewrite W in F3 || rewrite W in F4 || rewrite W in F5 || rewrite W in F6 || rewrite W in F7);
       first [discriminate | apply reg_lo_reg | apply reg_hi_reg | apply reg_min_reg | now apply imm_is_imm in E4 | now apply imm_is_imm in E5 | now apply off_is_imm in E4
             | now apply off_is_imm in E5 | apply off_is_target in E4; [exact E4|lia] | apply off_is_target in E5; [exact E5|lia] ]|]);
     intros W; rewrite W in F7; first [discriminate | apply off_is_target in E5; [exact E5|lia] | apply off_is_target in E4; [exact E4|lia]]).
Qed.

(** What an instruction computes is a 64-bit word. *)
Lemma filter_len {A} (f : A -> bool) l : (length (filter f l) <= length l)%nat.
Proof. induction l as [|x l IH]; cbn [filter length]; [lia|]. destruct (f x); cbn [length]; lia. Qed.
Lemma meaning_lt op a b d r : a < 2 ^ 64 -> b < 2 ^ 64 -> d < 2 ^ 64 -> meaning op a b d r -> r < 2 ^ 64.
Proof.
  intros Ha Hb Hd M. destruct op; cbn [meaning] in M; try contradiction;
    repeat match type of M with context [if ?c then _ else _] => destruct c end;
    try (apply word_lt in M; exact M); try (subst r; assumption); try (apply proj1 in M; exact M);
    try (unfold truth in M; subst r; match goal with |- context [if ?c then _ else _] => destruct c end; reflexivity);
    try (destruct M as (y & _ & M); apply word_lt in M; exact M);
    try (destruct M as (y & _ & _ & M); apply word_lt in M; exact M);
    try (unfold top_zeros, low_zeros in M; apply proj1 in M; lia).
  all: unfold popcount in M; subst r; match goal with |- context [filter ?f ?l] => pose proof (filter_len f l) as L end; rewrite seq_length in L; lia.
Qed.

(** ** Jumps *)
Section Refine.
Variables (p : prog) (s : vm) (i : inst) (n : nat) (starts : N -> Prop).
Hypothesis Hi : instruction_at p (v_pc s) = Some i.
Hypothesis Hg : (0 < v_gas s < 2 ^ 63)%Z.
Hypothesis Hm : machine_ok s.
Hypothesis Hn : v_pc s = N.of_nat n.
Hypothesis Hlen : N.of_nat n < 2 ^ 31.
Hypothesis Hst : forall t, is_block_start p t = true <-> starts t.
Hypothesis Hst31 : forall t, starts t -> t < 2 ^ 31.
Hypothesis Hfit : fit i n (form_of (i_op i)).
Let op := i_op i.
Let nxt := next_pc (v_pc s) p.

Lemma target_u32 t : is_target n (Some t) -> is_block_start p (u32 t) = true <-> starts t.
Proof.
  intros (x & z & E & Hz & W). injection E as <-. rewrite Hst. destruct (Z.le_gt_cases 0 (Z.of_nat n + z)) as [Hp|Hp].
  - assert (Et : t < 2 ^ 32). { unfold word in W. rewrite Z.mod_small in W by lia. lia. }
    unfold u32. rewrite N.mod_small by exact Et. reflexivity.
  - assert (Et : Z.of_N t = (2 ^ 64 + (Z.of_nat n + z))%Z).
    { unfold word in W. rewrite W. symmetry. apply (Z.mod_unique _ _ (-1)); lia. }
    assert (Eu : u32 t = Z.to_N (2 ^ 32 + (Z.of_nat n + z))).
    { unfold u32. symmetry. apply (N.mod_unique t (2 ^ 32) (2 ^ 32 - 1)); lia. }
    split; intros H; apply Hst31 in H; lia.
Qed.
Lemma target_le t : is_target n (Some t) -> starts t -> u32 t = t.
Proof. intros _ H. apply Hst31 in H. unfold u32. apply N.mod_small. lia. Qed.
Lemma branch_jumps t w : is_target n (Some t) -> (match w with Some (r, v) => r <= 12 /\ v < 2 ^ 64 | None => True end) ->
  exec p s i = Ok (v_mem s, fst (branch s p (u32 t) true), mk_change w None (snd (branch s p (u32 t) true))) ->
  exists e, jumps starts t w e /\ realizes p s e.
Proof.
  intros Ht Hw E. unfold branch in E. pose proof (target_u32 t Ht) as HT.
  destruct (is_block_start p (u32 t)) eqn:B; cbn [fst snd] in E.
  - assert (Hs : starts t) by now apply HT. rewrite (target_le t Ht Hs) in E.
    exists (Go t w None). split; [left; auto|]. apply (realize_go p s i Hi Hg Hm); auto.
  - exists (End XPanic). split; [right; split; [rewrite <- HT; discriminate|reflexivity]|].
    apply (realize_stop p s i Hi Hg _ _ E); cbn [c_mem c_reg]; auto. destruct w as [[r v]|]; [apply Hw|exact I].
Qed.
Lemma branch_jumps2 t (c : bool) (P : Prop) : is_target n (Some t) -> (c = true <-> P) ->
  exec p s i = Ok (v_mem s, fst (branch s p (u32 t) c), to_pc (snd (branch s p (u32 t) c))) ->
  exists e, ((P /\ jumps starts t None e) \/ (~ P /\ e = Go nxt None None)) /\ realizes p s e.
Proof.
  intros Ht HP E. destruct c.
  - destruct (branch_jumps t None Ht I E) as (e & J & R). exists e. split; [left; split; [now apply HP|exact J]|exact R].
  - exists (Go nxt None None). split; [right; split; [rewrite <- HP; discriminate|reflexivity]|]. apply (realize_go p s i Hi Hg Hm); [exact E|exact I].
Qed.
Lemma djump_djumps a w : a < 2 ^ 32 -> (match w with Some (r, v) => r <= 12 /\ v < 2 ^ 64 | None => True end) ->
  exec p s i = (let! xt := djump s p a in Ok (v_mem s, fst xt, mk_change w None (snd xt))) ->
  exists e, djumps starts (p_jump p) a w e /\ realizes p s e.
Proof.
  intros Ha Hw E. unfold djump in E. unfold djumps. change HALT_ADDRESS with (2 ^ 32 - 2 ^ 16) in E.
  destruct (a =? 2 ^ 32 - 2 ^ 16).
  { exists (End RegularHalt). split; [reflexivity|]. apply (realize_stop p s i Hi Hg _ _ E); cbn [c_mem c_reg]; auto. destruct w as [[r v]|]; [apply Hw|exact I]. }
  assert (Eb : (a =? 0) || (N.of_nat (length (p_jump p)) * 2 <? a) || negb (a mod 2 =? 0) = (a =? 0) || (2 * N.of_nat (length (p_jump p)) <? a) || (a mod 2 =? 1)).
  { pose proof (N.mod_upper_bound a 2). lia. }
  rewrite Eb in E. destruct ((a =? 0) || (2 * N.of_nat (length (p_jump p)) <? a) || (a mod 2 =? 1)) eqn:B.
  { exists (End XPanic). split; [reflexivity|]. apply (realize_stop p s i Hi Hg _ _ E); cbn [c_mem c_reg]; auto. destruct w as [[r v]|]; [apply Hw|exact I]. }
  assert (H2 : (N.to_nat (a / 2 - 1) < length (p_jump p))%nat).
  { pose proof (N.div_mod a 2). lia. }
  apply nth_error_Some in H2. destruct (nth_error (p_jump p) (N.to_nat (a / 2 - 1))) as [t|]; [|congruence]. cbn [need bind] in E.
  destruct (is_block_start p t) eqn:Bt; cbn [bind fst snd] in E.
  - exists (Go t w None). split; [exists t; split; [reflexivity|left; split; [now apply Hst|reflexivity]]|]. apply (realize_go p s i Hi Hg Hm); auto.
  - exists (End XPanic). split; [exists t; split; [reflexivity|right; split; [rewrite <- Hst; congruence|reflexivity]]|].
    apply (realize_stop p s i Hi Hg _ _ E); cbn [c_mem c_reg]; auto. destruct w as [[r v]|]; [apply Hw|exact I].
Qed.
Lemma cond_takes a b c : a < 2 ^ 64 -> b < 2 ^ 64 -> branch_cond op a b = Some c -> c = true <-> takes op a b.
Proof.
  intros Ha Hb E. assert (S1 : i64_of a = sgn 64 (Z.of_N a)) by (now apply i64_sgn). assert (S2 : i64_of b = sgn 64 (Z.of_N b)) by (now apply i64_sgn).
  unfold branch_cond in E. unfold takes. destruct op; try discriminate E; apply some_inj in E; subst c; cbv zeta; rewrite ?S1, ?S2; lia.
Qed.

(** ** The forms *)
Ltac per_op := unfold exec; subst op; destruct (i_op i); try discriminate.
Lemma form_cond : (form_of op = FBranchImm \/ form_of op = FBranch) -> forall a b, exists c, branch_cond op a b = Some c.
Proof. intros H a b. subst op. destruct (i_op i); cbn in H; try (destruct H; discriminate); eexists; reflexivity. Qed.
Lemma form_alu1 : form_of op = FMath1 -> forall a, exists v, alu1 op a = Some v.
Proof. intros H a. subst op. destruct (i_op i); try discriminate H; eexists; reflexivity. Qed.
Lemma form_alu2 : form_of op = FMath2 -> forall a b d, exists v, alu2 op a b d = Some v.
Proof. intros H a b d. subst op. destruct (i_op i); try discriminate H; eexists; reflexivity. Qed.
Lemma form_alu3 : form_of op = FMath3 -> forall a b d, exists v, alu3 op a b d = Some v.
Proof. intros H a b d. subst op. destruct (i_op i); try discriminate H; eexists; reflexivity. Qed.
Lemma form_width ind w sg : form_of op = FLoad ind w sg -> (w = 1 \/ w = 2 \/ w = 4 \/ w = 8)%nat /\ load_signed op = sg.
Proof. intros H. subst op. destruct (i_op i); try discriminate H; injection H as <- <- <-; (split; [lia|reflexivity]). Qed.
Lemma form_width_st ind w : (form_of op = FStore ind w \/ form_of op = FStoreImm ind w) -> (0 < w)%nat.
Proof. intros H. subst op. destruct (i_op i); cbn in H; try (destruct H; discriminate); destruct H as [H|H]; try discriminate H; injection H as <- <-; lia. Qed.

Let keep (r : result verr (exit * change)) : result verr (mem * exit * change) := let! (x, c) := r in Ok (v_mem s, x, c).
Definition exec_form (f : form) : result verr (mem * exit * change) :=
  let pc := v_pc s in
  let jump (xt : exit * N) : result verr (exit * change) := Ok (fst xt, to_pc (snd xt)) in
  match f with
  | FTrap => keep (Ok (XPanic, to_pc pc))
  | FFall => keep (Ok (Continue, to_pc (next_pc pc p)))
  | FEcall => keep (let! x := imm1 i in Ok (HostCall (host_call_of (x mod 2 ^ 8)), to_pc (next_pc pc p)))
  | FSetImm => keep (let! r := rs1 i in let! x := imm1 i in Ok (Continue, reg_write r x (next_pc pc p)))
  | FSbrk => exec p s i
  | FJump => keep (let! t := imm1 i in jump (branch s p (u32 t) true))
  | FJumpInd => keep (let! a := get_reg s (rs1 i) in let! x := imm1 i in let! xt := djump s p (u32 (wadd a x)) in jump xt)
  | FSetJump => keep (let! t := imm2 i in let xt := branch s p (u32 t) true in
            let! r := rs1 i in let! x := imm1 i in Ok (fst xt, reg_write r x (snd xt)))
  | FSetJumpInd => keep (let! a := get_reg s (rs2 i) in let! y := imm2 i in let! xt := djump s p (u32 (wadd a y)) in
            let! r := rs1 i in let! x := imm1 i in Ok (fst xt, reg_write r x (snd xt)))
  | FBranchImm => keep (let! t := imm2 i in let! a := get_reg s (rs1 i) in let! b := imm1 i in
                      let! c := need EInvalidProgram (branch_cond op a b) in jump (branch s p (u32 t) c))
  | FBranch => keep (let! t := imm1 i in let! a := get_reg s (rs1 i) in let! b := get_reg s (rs2 i) in
                       let! c := need EInvalidProgram (branch_cond op a b) in jump (branch s p (u32 t) c))
  | FLoad false w sg => keep (let! a := imm1 i in let! r := rs1 i in do_load s p op w (u32 a) r)
  | FLoad true w sg => keep (let! a := get_reg s (rs2 i) in let! x := imm1 i in let! r := rs1 i in do_load s p op w (u32 (wadd a x)) r)
  | FStore false w => keep (let! a := imm1 i in let! v := get_reg s (rs1 i) in Ok (do_store s p w (u32 a) v))
  | FStore true w => keep (let! a := get_reg s (rs2 i) in let! x := imm1 i in let! v := get_reg s (rs1 i) in Ok (do_store s p w (u32 (wadd a x)) v))
  | FStoreImm false w => keep (let! a := imm1 i in let! v := imm2 i in Ok (do_store s p w (u32 a) v))
  | FStoreImm true w => keep (let! a := get_reg s (rs1 i) in let! x := imm1 i in let! v := imm2 i in Ok (do_store s p w (u32 (wadd a x)) v))
  | FMath1 => keep (let! a := get_reg s (rs1 i) in let! v := need EInvalidProgram (alu1 op a) in let! d := rd i in Ok (Continue, reg_write d v (next_pc pc p)))
  | FMath2 => keep (let! a := get_reg s (rs2 i) in let! b := imm1 i in let! d := get_reg s (rs1 i) in
                          let! v := need EInvalidProgram (alu2 op a b d) in let! r := rs1 i in Ok (Continue, reg_write r v (next_pc pc p)))
  | FMath3 => keep (let! a := get_reg s (rs1 i) in let! b := get_reg s (rs2 i) in let! d := get_reg s (rd i) in
                      let! v := need EInvalidProgram (alu3 op a b d) in let! r := rd i in Ok (Continue, reg_write r v (next_pc pc p)))
  end.
Lemma exec_form_ok : exec p s i = exec_form (form_of op).
Proof. clear Hfit. unfold exec_form, exec. unfold op. destruct (i_op i); reflexivity. Qed.

Lemma step_does : ~ deviates s i -> exists e, does starts (p_jump p) s i nxt e /\ realizes p s e.
Proof.
  intros ND. pose proof exec_form_ok as E. pose proof Hfit as (F1 & F2 & F3 & F4 & F5 & F6 & F7). fold op in F1, F2, F3, F4, F5, F6, F7.
  assert (GR : forall r e o, o = Some r -> r <= 12 -> get_reg s (need e o) = Ok (reg s r)) by (intros; now apply get_reg_ok).
  assert (RL : forall r, reg s r < 2 ^ 64) by (intros; now apply reg_lt).
  unfold does. fold op. unfold exec_form, imm1, imm2, rs1, rs2, rd, keep in E. cbv zeta in E.
  destruct (form_of op) as [| | | | | | | | | | |ind w sg|ind w|ind w| | |] eqn:F; cbn [want_rs1 want_rs2 want_rd want_imm1 want_imm2 target1 target2] in F1, F2, F3, F4, F5, F6, F7.
  - (* trap *) exists (End XPanic). split; [reflexivity|]. apply (realize_stop p s i Hi Hg _ _ E); cbn; auto.
  - (* fallthrough *) exists (Go nxt None None). split; [reflexivity|]. apply (realize_go p s i Hi Hg Hm); [exact E|exact I].
  - (* ecalli *) destruct (F4 eq_refl) as (x & Ex & Hx). rewrite Ex in E. cbn [need bind] in E. exists (End (HostCall (if host_known x then x else 255))).
    split; [now exists x|]. apply (realize_other p s i Hi Hg) with (c := to_pc nxt); [|exact I]. rewrite E. f_equal. f_equal. f_equal. f_equal.
    unfold host_call_of. fold (host_known (x mod 2 ^ 8)). change (2 ^ 8) with 256. destruct (N.lt_ge_cases x 256) as [Hl|Hl]; [now rewrite N.mod_small|].
    destruct (host_known (x mod 256)) eqn:K; [exfalso; apply ND; now apply (dev_ecalli s i x)|].
    unfold host_known. destruct (N.leb_spec x 26), (N.eqb_spec x 100); try lia; reflexivity.
  - (* load_imm *) destruct (F1 eq_refl) as (r & Er & Hr), (F4 eq_refl) as (x & Ex & Hx). rewrite Er, Ex in E. cbn [need bind] in E.
    exists (Go nxt (Some (r, x)) None). split; [exists r, x; auto|]. apply (realize_go p s i Hi Hg Hm); auto.
  - (* sbrk *) exfalso. apply ND. now apply dev_sbrk.
  - (* jump *) destruct (F4 eq_refl) as (x & Ex & Hx). rewrite Ex in E. cbn [need bind] in E. specialize (F6 eq_refl). rewrite Ex in F6.
    destruct (branch_jumps x None F6 I E) as (e & J & R). exists e. split; [exists x; auto|exact R].
  - (* jump_ind *) destruct (F1 eq_refl) as (r & Er & Hr), (F4 eq_refl) as (x & Ex & Hx). rewrite (GR r _ _ Er Hr), Ex in E. cbn [need bind] in E. rewrite u32_wadd in E.
    destruct (djump_djumps ((reg s r + x) mod 2 ^ 32) None) as (e & J & R); [apply N.mod_upper_bound; discriminate|exact I|rewrite E; now destruct (djump _ _ _)|].
    exists e. split; [exists r, x; auto|exact R].
  - (* load_imm_jump *) destruct (F1 eq_refl) as (r & Er & Hr), (F4 eq_refl) as (x & Ex & Hx), (F5 eq_refl) as (t & Et & Ht). rewrite Er, Ex, Et in E. cbn [need bind] in E.
    specialize (F7 eq_refl). rewrite Et in F7. destruct (branch_jumps t (Some (r, x)) F7 (conj Hr Hx) E) as (e & J & R). exists e. split; [exists r, x, t; auto|exact R].
  - (* load_imm_jump_ind *) destruct (F1 eq_refl) as (r & Er & Hr), (F2 eq_refl) as (b & Eb & Hb), (F4 eq_refl) as (x & Ex & Hx), (F5 eq_refl) as (y & Ey & Hy).
    rewrite (GR b _ _ Eb Hb), Er, Ex, Ey in E. cbn [need bind] in E. rewrite u32_wadd in E.
    destruct (djump_djumps ((reg s b + y) mod 2 ^ 32) (Some (r, x))) as (e & J & R); [apply N.mod_upper_bound; discriminate|auto|rewrite E; now destruct (djump _ _ _)|].
    exists e. split; [exists r, b, x, y; auto 6|exact R].
  - (* branch_imm *) destruct (F1 eq_refl) as (r & Er & Hr), (F4 eq_refl) as (x & Ex & Hx), (F5 eq_refl) as (t & Et & Ht).
    destruct (form_cond (or_introl F) (reg s r) x) as (c & Ec). rewrite (GR r _ _ Er Hr), Ex, Et in E. cbn [need bind] in E. rewrite Ec in E. cbn [need bind] in E.
    specialize (F7 eq_refl). rewrite Et in F7. destruct (branch_jumps2 t c (takes op (reg s r) x) F7) as (e & J & R); [now apply cond_takes|exact E|].
    exists e. split; [exists r, x, t; auto|exact R].
  - (* branch *) destruct (F1 eq_refl) as (r & Er & Hr), (F2 eq_refl) as (b & Eb & Hb), (F4 eq_refl) as (t & Et & Ht).
    destruct (form_cond (or_intror F) (reg s r) (reg s b)) as (c & Ec). rewrite (GR r _ _ Er Hr), (GR b _ _ Eb Hb), Et in E. cbn [need bind] in E. rewrite Ec in E. cbn [need bind] in E.
    specialize (F6 eq_refl). rewrite Et in F6. destruct (branch_jumps2 t c (takes op (reg s r) (reg s b)) F6) as (e & J & R); [now apply cond_takes|exact E|].
    exists e. split; [exists r, b, t; auto|exact R].
  - (* loads *) destruct (form_width _ _ _ F) as [Hw Hsg]. destruct (F1 eq_refl) as (r & Er & Hr).
    assert (AL : forall a, accesses s i a w -> a + N.of_nat w <= 2 ^ 32 /\ (w = 1%nat -> 65536 <= a -> ~ can_read (v_mem s) a -> a mod 4096 = 0)).
    { intros a Ha. split.
      - destruct (N.le_gt_cases (a + N.of_nat w) (2 ^ 32)); [assumption|]. exfalso. apply ND. now apply (dev_wrap s i a w).
      - intros -> H1 H2. destruct (N.eq_dec (a mod 4096) 0); [assumption|]. exfalso. apply ND. now apply (dev_byte_fault s i a ind sg). }
    destruct ind; destruct (F4 eq_refl) as (x & Ex & Hx).
    + destruct (F2 eq_refl) as (b & Eb & Hb). rewrite (GR b _ _ Eb Hb), Er, Ex in E. cbn [need bind] in E. rewrite u32_wadd in E.
      destruct (AL ((reg s b + x) mod 2 ^ 32)) as [A1 A2]. { exists x. fold op. rewrite F. split; [exact Ex|]. split; [reflexivity|now exists b]. }
      destruct (realize_load p s i Hi Hg Hm op w sg _ r E Hr Hw A1 Hsg A2) as (e & L & R). exists e. split; [exists r, b, x; auto|exact R].
    + rewrite Er, Ex in E. cbn [need bind] in E. destruct (AL (x mod 2 ^ 32)) as [A1 A2]. { exists x. fold op. rewrite F. auto. }
      destruct (realize_load p s i Hi Hg Hm op w sg _ r E Hr Hw A1 Hsg A2) as (e & L & R). exists e. split; [exists r, x; auto|exact R].
  - (* stores *) pose proof (form_width_st ind w (or_introl F)) as Hw. destruct (F1 eq_refl) as (r & Er & Hr).
    assert (AL : forall a, accesses s i a w -> a + N.of_nat w <= 2 ^ 32).
    { intros a Ha. destruct (N.le_gt_cases (a + N.of_nat w) (2 ^ 32)); [assumption|]. exfalso. apply ND. now apply (dev_wrap s i a w). }
    destruct ind; destruct (F4 eq_refl) as (x & Ex & Hx).
    + destruct (F2 eq_refl) as (b & Eb & Hb). rewrite (GR b _ _ Eb Hb), (GR r _ _ Er Hr), Ex in E. cbn [need bind] in E. rewrite u32_wadd in E.
      assert (A1 : (reg s b + x) mod 2 ^ 32 + N.of_nat w <= 2 ^ 32). { apply AL. exists x. fold op. rewrite F. split; [exact Ex|]. split; [reflexivity|now exists b]. }
      destruct (realize_store p s i Hi Hg Hm w _ (reg s r) E Hw A1) as (e & L & R). exists e. split; [exists r, b, x; auto|exact R].
    + rewrite (GR r _ _ Er Hr), Ex in E. cbn [need bind] in E. assert (A1 : x mod 2 ^ 32 + N.of_nat w <= 2 ^ 32). { apply AL. exists x. fold op. rewrite F. auto. }
      destruct (realize_store p s i Hi Hg Hm w _ (reg s r) E Hw A1) as (e & L & R). exists e. split; [exists r, x; auto|exact R].
  - (* immediate stores *) pose proof (form_width_st ind w (or_intror F)) as Hw.
    assert (AL : forall a, accesses s i a w -> a + N.of_nat w <= 2 ^ 32).
    { intros a Ha. destruct (N.le_gt_cases (a + N.of_nat w) (2 ^ 32)); [assumption|]. exfalso. apply ND. now apply (dev_wrap s i a w). }
    destruct ind; destruct (F4 eq_refl) as (x & Ex & Hx), (F5 eq_refl) as (y & Ey & Hy).
    + destruct (F1 eq_refl) as (r & Er & Hr). rewrite (GR r _ _ Er Hr), Ex, Ey in E. cbn [need bind] in E. rewrite u32_wadd in E.
      assert (A1 : (reg s r + x) mod 2 ^ 32 + N.of_nat w <= 2 ^ 32). { apply AL. exists x. fold op. rewrite F. split; [exact Ex|]. split; [reflexivity|now exists r]. }
      destruct (realize_store p s i Hi Hg Hm w _ y E Hw A1) as (e & L & R). exists e. split; [exists r, x, y; auto|exact R].
    + rewrite Ex, Ey in E. cbn [need bind] in E. assert (A1 : x mod 2 ^ 32 + N.of_nat w <= 2 ^ 32). { apply AL. exists x. fold op. rewrite F. auto. }
      destruct (realize_store p s i Hi Hg Hm w _ y E Hw A1) as (e & L & R). exists e. split; [exists x, y; auto|exact R].
  - (* one source *) destruct (F1 eq_refl) as (r & Er & Hr), (F3 eq_refl) as (d & Ed & Hd). destruct (form_alu1 F (reg s r)) as (v & Ev).
    rewrite (GR r _ _ Er Hr), Ed in E. cbn [need bind] in E. rewrite Ev in E. cbn [need bind] in E. pose proof (alu1_meaning op (reg s r) 0 v (RL r) Ev) as M.
    exists (Go nxt (Some (d, v)) None). split; [exists r, d, v; auto|]. apply (realize_go p s i Hi Hg Hm); [exact E|]. split; [exact Hd|].
    apply (meaning_lt op (reg s r) 0 0); auto; reflexivity.
  - (* immediate *) destruct (F1 eq_refl) as (r & Er & Hr), (F2 eq_refl) as (b & Eb & Hb), (F4 eq_refl) as (x & Ex & Hx). destruct (form_alu2 F (reg s b) x (reg s r)) as (v & Ev).
    rewrite (GR r _ _ Er Hr), (GR b _ _ Eb Hb), Er, Ex in E. cbn [need bind] in E. rewrite Ev in E. cbn [need bind] in E.
    pose proof (alu2_meaning op (reg s b) x (reg s r) v (RL b) Hx Ev) as M.
    exists (Go nxt (Some (r, v)) None). split; [exists r, b, x, v; auto 6|]. apply (realize_go p s i Hi Hg Hm); [exact E|]. split; [exact Hr|].
    apply (meaning_lt op (reg s b) x (reg s r)); auto.
  - (* two sources *) destruct (F1 eq_refl) as (r & Er & Hr), (F2 eq_refl) as (b & Eb & Hb), (F3 eq_refl) as (d & Ed & Hd). destruct (form_alu3 F (reg s r) (reg s b) (reg s d)) as (v & Ev).
    rewrite (GR r _ _ Er Hr), (GR b _ _ Eb Hb), (GR d _ _ Ed Hd), Ed in E. cbn [need bind] in E. rewrite Ev in E. cbn [need bind] in E.
    assert (NB : ~ rem_s_bad op (reg s r) (reg s b)). { intros B. apply ND. now apply (dev_rem s i r b). }
    pose proof (alu3_meaning op (reg s r) (reg s b) (reg s d) v (RL r) (RL b) NB Ev) as M.
    exists (Go nxt (Some (d, v)) None). split; [exists r, b, d, v; auto 6|]. apply (realize_go p s i Hi Hg Hm); [exact E|]. split; [exact Hd|].
    apply (meaning_lt op (reg s r) (reg s b) (reg s d)); auto.
Qed.
End Refine.
