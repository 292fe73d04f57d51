(** Steps of loaded programs, whole runs, and gas. *)
From Coq Require Import Lia ZArith ZifyBool.
From Verif Require Import Base Base_Proofs Codec_Model PvmMem_Model PvmMem_Spec PvmMem_Proofs PvmProg_Model PvmStep_Model PvmStep_Spec PvmProg_Spec PvmAlu_Proofs
  PvmProg_Proofs PvmRun_Spec PvmStep_Proofs PvmStep2_Proofs.
Open Scope N_scope.

Lemma skip_distance_at blob p n l : Bytes blob -> load_program blob = Ok p -> opcode_at (p_mask p) n -> skip_is (p_mask p) n l ->
  next_pc (N.of_nat n) p = N.of_nat (n + 1 + l) /\ (n < length (p_code p))%nat.
Proof.
  intros HB H Ho Hs. pose proof (load_inv blob p HB H) as (_ & _ & HL & _).
  assert (Hn : (n < length (p_code p))%nat).
  { rewrite <- HL. destruct (Nat.lt_ge_cases n (length (p_mask p))); [assumption|]. unfold opcode_at in Ho. rewrite nth_overflow in Ho by assumption. discriminate. }
  split; [|exact Hn]. destruct (skip_distance_spec blob p n HB H Hn) as (d & E & U). apply U in Hs. subst d. unfold next_pc. rewrite E. lia.
Qed.
Lemma holds_inst blob p n l i : Bytes blob -> load_program blob = Ok p -> instruction_at p (N.of_nat n) = Some i -> skip_is (p_mask p) n l -> holds (p_code p) (p_mask p) n l i.
Proof.
  intros HB H Hi Hs. destruct (instruction_spec blob p n HB H) as [I1 I2]. destruct (I2 i Hi) as (N1 & l' & _ & S1 & _ & O1).
  assert (Ho : opcode_at (p_mask p) n) by (apply I1; rewrite Hi; discriminate).
  pose proof (load_inv blob p HB H) as (_ & _ & HL & _).
  assert (l' = l) as -> by (eapply skip_is_uniq; eassumption). split; [exact Ho|]. auto.
Qed.

(** ** Whether an instruction deviates can be decided *)
Definition access_of (s : vm) (i : inst) : option (N * nat) :=
  match i_imm1 i with
  | None => None
  | Some x => match form_of (i_op i) with
              | FLoad false w _ | FStore false w | FStoreImm false w => Some (x mod 2 ^ 32, w)
              | FLoad true w _ | FStore true w => match i_rs2 i with Some b => Some ((reg s b + x) mod 2 ^ 32, w) | None => None end
              | FStoreImm true w => match i_rs1 i with Some b => Some ((reg s b + x) mod 2 ^ 32, w) | None => None end
              | _ => None end
  end.
Lemma access_of_ok s i a w : accesses s i a w <-> access_of s i = Some (a, w).
Proof.
  unfold accesses, access_of. split.
  - intros (x & -> & H). destruct (form_of (i_op i)) as [| | | | | | | | | | |[|] w' sg|[|] w'|[|] w'| | |]; try contradiction;
      first [destruct H as [-> ->]; reflexivity | destruct H as (-> & b & -> & ->); reflexivity].
  - intros H. destruct (i_imm1 i) as [x|]; [|discriminate]. exists x. split; [reflexivity|].
    destruct (form_of (i_op i)) as [| | | | | | | | | | |[|] w' sg|[|] w'|[|] w'| | |]; try discriminate;
      first [ injection H as <- <-; now split
            | destruct (i_rs2 i) as [b|]; [|discriminate]; injection H as <- <-; split; [reflexivity|]; now exists b
            | destruct (i_rs1 i) as [b|]; [|discriminate]; injection H as <- <-; split; [reflexivity|]; now exists b ].
Qed.
Lemma rem_s_bad_dec op a b : rem_s_bad op a b \/ ~ rem_s_bad op a b.
Proof.
  assert (D : forall (x y z : Z) (P : Prop), (P \/ ~ P) -> (x = y /\ z <> 0%Z /\ P) \/ ~ (x = y /\ z <> 0%Z /\ P)).
  { intros x y z P HP. destruct (Z.eq_dec x y), (Z.eq_dec z 0), HP; tauto. }
  unfold rem_s_bad. destruct op; try (right; tauto); apply D.
  - destruct (Z.eq_dec (sgn 32 (Z.of_N b)) 0); tauto.
  - destruct (N.eq_dec b 0); tauto.
Qed.
Lemma deviates_dec s i : machine_ok s -> deviates s i \/ ~ deviates s i.
Proof.
  intros (_ & _ & M & _).
  assert (D1 : form_of (i_op i) = FSbrk \/ form_of (i_op i) <> FSbrk) by (destruct (form_of (i_op i)); (left; reflexivity) || (right; discriminate)).
  destruct D1 as [D1|D1]; [left; now apply dev_sbrk|].
  assert (D2 : (exists r b, i_rs1 i = Some r /\ i_rs2 i = Some b /\ rem_s_bad (i_op i) (reg s r) (reg s b)) \/
               ~ (exists r b, i_rs1 i = Some r /\ i_rs2 i = Some b /\ rem_s_bad (i_op i) (reg s r) (reg s b))).
  { destruct (i_rs1 i) as [r|]; [|right; intros (r & b & E & _); discriminate]. destruct (i_rs2 i) as [b|]; [|right; intros (r' & b & _ & E & _); discriminate].
    destruct (rem_s_bad_dec (i_op i) (reg s r) (reg s b)) as [B|B]; [left; now exists r, b|right; intros (r' & b' & E & E' & B'); congruence]. }
  destruct D2 as [(r & b & E1 & E2 & B)|D2]; [left; now apply (dev_rem s i r b)|].
  assert (D3 : (exists a w, accesses s i a w /\ 2 ^ 32 < a + N.of_nat w) \/ ~ (exists a w, accesses s i a w /\ 2 ^ 32 < a + N.of_nat w)).
  { destruct (access_of s i) as [[a w]|] eqn:E.
    - destruct (N.lt_ge_cases (2 ^ 32) (a + N.of_nat w)); [left; exists a, w; split; [now apply access_of_ok|assumption]|].
      right. intros (a' & w' & A & ?). apply access_of_ok in A. assert (a' = a /\ w' = w) as [-> ->] by (split; congruence). lia.
    - right. intros (a' & w' & A & _). apply access_of_ok in A. congruence. }
  destruct D3 as [(a & w & A & B)|D3]; [left; now apply (dev_wrap s i a w)|].
  assert (D4 : (exists a ind sg, accesses s i a 1 /\ form_of (i_op i) = FLoad ind 1 sg /\ 65536 <= a /\ ~ can_read (v_mem s) a /\ a mod 4096 <> 0) \/
             ~ (exists a ind sg, accesses s i a 1 /\ form_of (i_op i) = FLoad ind 1 sg /\ 65536 <= a /\ ~ can_read (v_mem s) a /\ a mod 4096 <> 0)).
  { assert (DF : (exists ind sg, form_of (i_op i) = FLoad ind 1 sg) \/ ~ (exists ind sg, form_of (i_op i) = FLoad ind 1 sg)).
    { destruct (form_of (i_op i)) as [| | | | | | | | | | |ind w sg| | | | |]; try (right; intros (? & ? & ?); discriminate).
      destruct (Nat.eq_dec w 1) as [->|]; [left; now exists ind, sg|right; intros (? & ? & ?); congruence]. }
    destruct DF as [(ind & sg & F)|DF]; [|right; intros (a & ind & sg & _ & F & _); apply DF; now exists ind, sg].
    destruct (access_of s i) as [[a w]|] eqn:E; [|right; intros (a & ? & ? & A & _); apply access_of_ok in A; congruence].
    assert (DR : can_read (v_mem s) a \/ ~ can_read (v_mem s) a).
    { rewrite <- (page_readable_spec (v_mem s) a M). destruct (page_readable (v_mem s) (a / 4096)); [now left|right; discriminate]. }
    destruct (Nat.eq_dec w 1) as [->|]; [|right; intros (a' & ? & ? & A & _); apply access_of_ok in A; congruence].
    destruct (N.le_gt_cases 65536 a), (N.eq_dec (a mod 4096) 0), DR;
      try (left; exists a, ind, sg; split; [now apply access_of_ok|now auto]);
      right; intros (a' & ? & ? & A & _ & ? & ? & ?); apply access_of_ok in A; assert (a' = a) as -> by congruence; (lia || contradiction). }
  destruct D4 as [(a & ind & sg & A & F & B & C & D)|D4]; [left; now apply (dev_byte_fault s i a ind sg)|].
  assert (D5 : (exists x, form_of (i_op i) = FEcall /\ i_imm1 i = Some x /\ 256 <= x /\ host_known (x mod 256) = true) \/
             ~ (exists x, form_of (i_op i) = FEcall /\ i_imm1 i = Some x /\ 256 <= x /\ host_known (x mod 256) = true)).
  { assert (DF : form_of (i_op i) = FEcall \/ form_of (i_op i) <> FEcall) by (destruct (form_of (i_op i)); (left; reflexivity) || (right; discriminate)).
    destruct DF as [F|F]; [|right; intros (x & ? & _); contradiction]. destruct (i_imm1 i) as [x|]; [|right; intros (x & _ & ? & _); discriminate].
    destruct (N.le_gt_cases 256 x), (host_known (x mod 256)) eqn:K;
      try (left; exists x; now auto); right; intros (x' & _ & E & L & K'); injection E as ->; (lia || congruence). }
  destruct D5 as [(x & F & E & L & K)|D5]; [left; now apply (dev_ecalli s i x)|].
  right. intros [H|r b H1 H2 H3|a w H1 H2|a ind sg H1 H2 H3 H4 H5|x H1 H2 H3 H4].
  - contradiction.
  - apply D2. now exists r, b.
  - apply D3. now exists a, w.
  - apply D4. exists a, ind, sg. auto 6.
  - apply D5. now exists x.
Qed.

Section Loaded.
Variables (blob : bytes) (p : prog) (starts : N -> Prop).
Hypothesis HB : Bytes blob.
Hypothesis HP : load_program blob = Ok p.
Hypothesis Hlen : N.of_nat (length (p_code p)) < 2 ^ 31.
Hypothesis Hst : forall t, nth t (p_starts p) false = true <-> starts (N.of_nat t).
Lemma starts_block t : is_block_start p t = true <-> starts t.
Proof.
  unfold is_block_start. rewrite andb_true_iff, N.ltb_lt, Hst, N2Nat.id. split; [tauto|]. intros H. split; [|exact H].
  rewrite <- (N2Nat.id t) in H. apply Hst in H. destruct (Nat.lt_ge_cases (N.to_nat t) (length (p_starts p))); [lia|]. rewrite nth_overflow in H by assumption. discriminate.
Qed.
Lemma starts_small t : starts t -> t < 2 ^ 31.
Proof.
  intros H. rewrite <- (N2Nat.id t) in H. apply Hst in H. apply (starts_spec blob p (N.to_nat t) HB HP) in H.
  pose proof (load_inv blob p HB HP) as (_ & _ & HL & _).
  destruct H as [H|(n & d & Hn & _ & _ & (j & _ & J & _ & ->) & H)]; lia.
Qed.
Lemma inst_exists n : opcode_at (p_mask p) n -> exists i l, instruction_at p (N.of_nat n) = Some i /\ holds (p_code p) (p_mask p) n l i /\ fit i n (form_of (i_op i)) /\
  next_pc (N.of_nat n) p = N.of_nat (n + 1 + l) /\ (n < length (p_code p))%nat.
Proof.
  intros Ho. destruct (instruction_op blob p n HB HP) as [I1 I2]. apply I1 in Ho as Hi. destruct (instruction_at p (N.of_nat n)) as [i|] eqn:Ei; [|congruence].
  destruct (I2 i eq_refl) as (N1 & l & _ & S1 & _ & O1). exists i, l. split; [reflexivity|].
  split; [now apply holds_inst with blob|]. split; [|now apply skip_distance_at with blob].
  pose proof (load_inv blob p HB HP) as (_ & HBc & _). now apply operands_fit with (p_code p) l.
Qed.
Lemma holds_at n l i : holds (p_code p) (p_mask p) n l i -> exists i', instruction_at p (N.of_nat n) = Some i'.
Proof. intros (Ho & _). destruct (inst_exists n Ho) as (i' & _ & E & _). now exists i'. Qed.
Theorem step_refines_lemma s n : machine_ok s -> (0 < v_gas s < 2 ^ 63)%Z -> v_pc s = N.of_nat n -> opcode_at (p_mask p) n ->
  exists i l, holds (p_code p) (p_mask p) n l i /\ instruction_at p (N.of_nat n) = Some i /\
    (deviates s i \/ exists e, does starts (p_jump p) s i (N.of_nat (n + 1 + l)) e /\ realizes p s e).
Proof.
  intros Hm Hg Hn Ho. destruct (inst_exists n Ho) as (i & l & Ei & HH & HF & HX & Hl). exists i, l. split; [exact HH|]. split; [exact Ei|].
  destruct (deviates_dec s i Hm) as [D|D]; [now left|right]. rewrite <- HX, <- Hn.
  apply (step_does p s i n starts); auto.
  - now rewrite Hn.
  - lia.
  - exact starts_block.
  - exact starts_small.
Qed.
Lemma exec_gas s i g : exec p (mk_vm (v_regs s) (v_mem s) (v_pc s) g) i = exec p s i.
Proof. unfold exec. destruct (i_op i); reflexivity. Qed.
Lemma does_gas s i nxt e g : does starts (p_jump p) (mk_vm (v_regs s) (v_mem s) (v_pc s) g) i nxt e <-> does starts (p_jump p) s i nxt e.
Proof. reflexivity. Qed.
Lemma deviates_gas s i g : deviates (mk_vm (v_regs s) (v_mem s) (v_pc s) g) i -> deviates s i.
Proof.
  intros [H|r b H1 H2 H3|a w H1 H2|a ind sg H1 H2 H3 H4 H5|x H1 H2 H3 H4]; [now apply dev_sbrk|now apply (dev_rem s i r b)|now apply (dev_wrap s i a w)
    |now apply (dev_byte_fault s i a ind sg)|now apply (dev_ecalli s i x)].
Qed.
Lemma step_exec_ok s i o : instruction_at p (v_pc s) = Some i -> step p s = Ok o -> exists m x c, exec p s i = Ok (m, x, c).
Proof. intros Hi H. unfold step in H. rewrite Hi in H. destruct (exec p s i) as [[[m x] c]| |]; [now exists m, x, c| |]; discriminate. Qed.
Lemma keep_mem s (r : result verr (exit * change)) m x c : (let! (x, c) := r in Ok (v_mem s, x, c)) = Ok (m, x, c) -> m = v_mem s.
Proof. destruct r as [[x' c']| |]; cbn [bind]; congruence. Qed.
Lemma exec_mem s i m x c : form_of (i_op i) <> FSbrk -> exec p s i = Ok (m, x, c) -> m = v_mem s.
Proof.
  intros F E. rewrite exec_form_ok in E. unfold exec_form in E. cbv zeta in E.
  destruct (form_of (i_op i)) as [| | | | | | | | | | |[|] w sg|[|] w|[|] w| | |]; try congruence; now apply keep_mem in E.
Qed.
(** With no gas left the instruction is not executed. *)
Lemma step_dry s n : machine_ok s -> v_gas s = 0%Z -> v_pc s = N.of_nat n -> opcode_at (p_mask p) n ->
  exists i l, holds (p_code p) (p_mask p) n l i /\
    (deviates s i \/ step p s = Ok (Stop OutOfGas (mk_vm (v_regs s) (v_mem s) (v_pc s) (-1)))).
Proof.
  intros Hm Hg Hn Ho. set (s1 := mk_vm (v_regs s) (v_mem s) (v_pc s) 1).
  destruct (step_refines_lemma s1 n) as (i & l & HH & Ei & H); auto; [cbn; lia|]. exists i, l. split; [exact HH|].
  destruct (deviates_dec s i Hm) as [D|ND]; [now left|right]. destruct H as [D|(e & _ & R)]; [now apply deviates_gas in D|].
  assert (Hs1 : instruction_at p (v_pc s1) = Some i) by (subst s1; cbn [v_pc]; now rewrite Hn).
  assert (E : exists m x c, exec p s i = Ok (m, x, c)).
  { assert (S : exists o, step p s1 = Ok o) by (unfold realizes in R; destruct e; destruct R as (s' & R & _); eauto).
    destruct S as [o S]. apply (step_exec_ok s1 i o Hs1) in S. unfold s1 in S. now rewrite exec_gas in S. }
  destruct E as (m & x & c & E). unfold step. rewrite Hn, Ei, E. cbn [bind]. unfold charge. cbn [v_gas set_mem]. rewrite Hg. cbn [v_regs v_mem v_pc set_mem bind].
  change (2 ^ 63 <=? 1) with false. change (0 - Z.of_N 1 <? - 2 ^ 63)%Z with false. cbv iota. cbn [bind v_gas]. change (0 - Z.of_N 1 <? 0)%Z with true. cbv iota.
  rewrite Hn. apply exec_mem in E; [now rewrite E|]. intros F. apply ND. now apply dev_sbrk.
Qed.
End Loaded.

(** ** Whole runs *)
Lemma step_none p s n : v_pc s = N.of_nat n -> instruction_at p (N.of_nat n) = None -> step p s = Ok (Stop XPanic s).
Proof. intros E H. unfold step. now rewrite E, H. Qed.
Lemma opcode_at_dec mask n : opcode_at mask n \/ ~ opcode_at mask n.
Proof. unfold opcode_at. destruct (nth n mask false); [now left|right; discriminate]. Qed.
Theorem run_refines_lemma blob p : Bytes blob -> load_program blob = Ok p -> N.of_nat (length (p_code p)) < 2 ^ 31 ->
  (forall t, nth t (p_starts p) false = true <-> lands (p_code p) (p_mask p) (N.of_nat t)) ->
  forall fuel s r, machine_ok s -> (0 <= v_gas s < 2 ^ 63)%Z -> invoke_general fuel p s = Some r ->
  strays (p_code p) (p_mask p) (p_jump p) s \/ exists x s', r = Ok (x, s') /\ runs (p_code p) (p_mask p) (p_jump p) s x.
Proof.
  intros HB HP Hlen Hst. induction fuel as [|f IH]; intros s r Hm Hg H; [discriminate|].
  cbn [invoke_general] in H. assert (Hn : v_pc s = N.of_nat (N.to_nat (v_pc s))) by lia. set (n := N.to_nat (v_pc s)) in *.
  destruct (opcode_at_dec (p_mask p) n) as [Ho|Ho].
  - destruct (Z.eq_dec (v_gas s) 0) as [G|G].
    + destruct (step_dry blob p (lands (p_code p) (p_mask p)) HB HP Hlen Hst s n Hm G Hn Ho) as (i & l & HH & [D|E]); [left; now apply (stray_now _ _ _ s n l i)|].
      rewrite E in H. right. exists OutOfGas. eexists. split; [symmetry; apply some_inj; exact H|]. now apply run_dry with n.
    + assert (Hg' : (0 < v_gas s < 2 ^ 63)%Z) by lia.
      destruct (step_refines_lemma blob p (lands (p_code p) (p_mask p)) HB HP Hlen Hst s n Hm Hg' Hn Ho) as (i & l & HH & _ & [D|(e & De & R)]);
        [left; now apply (stray_now _ _ _ s n l i)|].
      destruct e as [pc w st|x]; cbn [realizes] in R.
      * destruct R as (s' & E & A & Hm'). rewrite E in H. assert (v_gas s' = (v_gas s - 1)%Z) by apply A.
        destruct (IH s' r Hm' ltac:(lia) H) as [S|(x & s'' & Er & R)].
        -- left. apply (stray_later _ _ _ s n l i pc w st s'); auto. lia.
        -- right. exists x, s''. split; [exact Er|]. apply (run_go _ _ _ s n l i pc w st s'); auto. lia.
      * destruct R as (s' & E & _). rewrite E in H. right. exists x, s'. split; [symmetry; now apply some_inj|]. apply (run_end _ _ _ s n l i); auto. lia.
  - assert (E : instruction_at p (N.of_nat n) = None).
    { destruct (instruction_op blob p n HB HP) as [I _]. destruct (instruction_at p (N.of_nat n)) as [i|] eqn:Ei; [|reflexivity]. exfalso. apply Ho, I. congruence. }
    rewrite (step_none p s n Hn E) in H. right. exists XPanic, s. split; [symmetry; now apply some_inj|]. now apply run_none with n.
Qed.

(** ** Gas *)
Lemma ok_pair (x y : exit) (c d : change) : @Ok verr _ (x, c) = Ok (y, d) -> x = y.
Proof. congruence. Qed.
Lemma exec_exit p s i m x c : exec p s i = Ok (m, x, c) -> x <> OutOfGas.
Proof.
  intros E ->. assert (B : forall t b c, branch s p t b <> (OutOfGas, c)) by (intros t b c'; unfold branch; destruct b; [destruct (is_block_start p t)|]; discriminate).
  assert (D : forall a c, djump s p a <> Ok (OutOfGas, c)).
  { intros a c'. unfold djump. destruct (a =? HALT_ADDRESS); [discriminate|]. destruct (_ || _); [discriminate|].
    destruct (nth_error _ _); cbn [need bind]; [|discriminate]. destruct (is_block_start p n); discriminate. }
  assert (B' : forall t b, fst (branch s p t b) <> OutOfGas) by (intros t b F; destruct (branch s p t b) eqn:Eb; cbn in F; subst; now apply B in Eb).
  assert (L : forall op w a d c, do_load s p op w a d <> Ok (OutOfGas, c)).
  { intros op w a d c'. unfold do_load. destruct (match w with 1%nat => _ | _ => _ end) as [bs|[]|]; discriminate. }
  rewrite exec_form_ok in E. unfold exec_form in E. cbv zeta in E.
  assert (K : forall r : result verr (exit * change), (let! (x, c) := r in Ok (v_mem s, x, c)) = Ok (m, OutOfGas, c) -> r = Ok (OutOfGas, c)).
  { intros [[x' c']| |] K; cbn [bind] in K; congruence. }
  destruct (form_of (i_op i)) as [| | | | | | | | | | |[|] w sg|[|] w|[|] w| | |] eqn:F.
  5:{ unfold exec in E. destruct (i_op i); try discriminate F. cbn [bind] in E. destruct (get_reg s (rs1 i)); cbn [bind] in E; try discriminate.
      destruct (lift EMem (sbrk (v_mem s) a)) as [[m' b]| |]; cbn [bind] in E; try discriminate. destruct (rd i); discriminate. }
  all: apply K in E; repeat match type of E with
    | bind (need _ (branch_cond ?o ?a ?b)) _ = _ => destruct (branch_cond o a b); cbn [need bind] in E; try discriminate E
    | bind (need _ (alu1 ?o ?a)) _ = _ => destruct (alu1 o a); cbn [need bind] in E; try discriminate E
    | bind (need _ (alu2 ?o ?a ?b ?d)) _ = _ => destruct (alu2 o a b d); cbn [need bind] in E; try discriminate E
    | bind (need _ (alu3 ?o ?a ?b ?d)) _ = _ => destruct (alu3 o a b d); cbn [need bind] in E; try discriminate E
    | bind (djump ?s0 ?p0 ?a) _ = _ => let J := fresh in destruct (djump s0 p0 a) as [[? ?]| |] eqn:J; cbn [bind fst snd] in E; try discriminate E
    | bind ?r _ = _ => destruct r; cbn [bind] in E; try discriminate E
    end; try discriminate E; try (now apply L in E).
  all: apply ok_pair in E; first [now apply B' in E|match goal with J : djump _ _ _ = Ok _ |- _ => rewrite E in J; now apply D in J end].
Qed.
Lemma charge_gas s g s' : charge s g = Ok s' -> v_gas s' = (v_gas s - Z.of_N g)%Z /\ v_regs s' = v_regs s /\ v_mem s' = v_mem s /\ v_pc s' = v_pc s.
Proof. unfold charge. destruct (2 ^ 63 <=? g); [discriminate|]. destruct (_ <? _)%Z; [discriminate|]. intros [= <-]. cbn. auto. Qed.
Lemma step_gas p s o : step p s = Ok o ->
  match o with
  | Cont s' => v_gas s' = (v_gas s - 1)%Z /\ (0 <= v_gas s')%Z
  | Stop x s' => (v_gas s' = (v_gas s - 1)%Z /\ (x = OutOfGas <-> (v_gas s' < 0)%Z)) \/ (x = XPanic /\ s' = s /\ instruction_at p (v_pc s) = None)
  end.
Proof.
  intros H. unfold step in H. destruct (instruction_at p (v_pc s)) as [i|] eqn:Ei; [|injection H as <-; right; auto].
  destruct (exec p s i) as [[[m x] c]| |] eqn:E; cbn [bind] in H; try discriminate. apply exec_exit in E.
  destruct (charge (set_mem s m) 1) as [s1| |] eqn:C; cbn [bind] in H; try discriminate. apply charge_gas in C as (C & _). cbn [set_mem v_gas] in C.
  destruct (Z.ltb_spec (v_gas s1) 0) as [G|G]; [injection H as <-; left; split; [lia|tauto]|].
  assert (FIN : forall s2 (r : result verr outcome), v_gas s2 = v_gas s1 -> r = Ok o ->
     r = (let! s4 := (match c_reg c with Some (r, v) => if 13 <=? r then Err EInvalidRegIndex else Ok (set_reg (set_pc s2 (c_pc c)) r v) | None => Ok (set_pc s2 (c_pc c)) end) in
          Ok (match x with Continue => Cont s4 | _ => Stop x s4 end)) ->
     match o with Cont s' => v_gas s' = (v_gas s - 1)%Z /\ (0 <= v_gas s')%Z
     | Stop x s' => (v_gas s' = (v_gas s - 1)%Z /\ (x = OutOfGas <-> (v_gas s' < 0)%Z)) \/ (x = XPanic /\ s' = s /\ Some i = None) end).
  { intros s2 r G2 -> F. assert (F' : exists s4, v_gas s4 = v_gas s1 /\ o = match x with Continue => Cont s4 | _ => Stop x s4 end).
    { destruct (c_reg c) as [[k v]|]; [destruct (13 <=? k); [discriminate|]|]; cbn [bind] in F; injection F as F; eexists; (split; [|exact F]); exact G2. }
    destruct F' as (s4 & G4 & ->). destruct x; try (split; lia); left; (split; [lia|]); (split; [intros Q; first [discriminate Q|now apply E in Q]|lia]). }
  destruct x; try (injection H as <-; left; split; [lia|]; split; [intros Q; first [discriminate Q|now contradict Q]|lia]).
  all: destruct (c_mem c) as [[a bs]|]; [|now apply (FIN s1 _ eq_refl H)].
  all: destruct (a <? INIT_ZONE_SIZE); [injection H as <-; left; split; [lia|]; split; [discriminate|lia]|].
  all: destruct (write_bytes (v_mem s1) a bs) as [m'|[]|]; try discriminate; [refine (FIN (set_mem s1 m') _ _ H eq_refl); reflexivity|].
  all: injection H as <-; left; cbn [set_pc v_gas]; split; [lia|]; split; [discriminate|lia].
Qed.
Theorem steps_gas p k s s' : steps p k s s' -> v_gas s' = (v_gas s - Z.of_nat k)%Z /\ (k <> 0%nat -> 0 <= v_gas s')%Z.
Proof.
  intros H. induction H as [s|k s s1 s2 H _ [IH IH']]; [split; [lia|congruence]|]. apply step_gas in H as [H1 H2].
  split; [lia|]. intros _. destruct k; [lia|]. apply IH'. discriminate.
Qed.
Lemma invoke_fuel p : forall f s r f', invoke_general f p s = Some r -> (f <= f')%nat -> invoke_general f' p s = Some r.
Proof.
  induction f as [|f IH]; intros s r f' H Hf; [discriminate|]. destruct f' as [|f']; [lia|]. cbn [invoke_general] in *.
  destruct (step p s) as [[s'|x s']| |]; try exact H. apply (IH s' r f' H). lia.
Qed.
Lemma invoke_ends p : forall f s, (v_gas s < Z.of_nat f)%Z -> (0 <= v_gas s)%Z -> exists r, invoke_general f p s = Some r.
Proof.
  induction f as [|f IH]; intros s Hf Hg; [lia|]. cbn [invoke_general]. destruct (step p s) as [[s'|x s']| |] eqn:E; eauto.
  apply step_gas in E as [E1 E2]. apply IH; lia.
Qed.
Lemma invoke_inv p : forall f s x s', invoke_general f p s = Some (Ok (x, s')) -> exists k s1, steps p k s s1 /\ step p s1 = Ok (Stop x s').
Proof.
  induction f as [|f IH]; intros s x s' H; [discriminate|]. cbn [invoke_general] in H. destruct (step p s) as [[s1|y s1]| |] eqn:E; try discriminate.
  - apply IH in H as (k & s2 & H1 & H2). exists (S k), s2. split; [now apply steps_more with s1|exact H2].
  - injection H as -> ->. exists 0%nat, s. split; [constructor|exact E].
Qed.
Theorem invoke_gas p f s x s' : (0 <= v_gas s)%Z -> invoke_general f p s = Some (Ok (x, s')) ->
  exists k s1, steps p k s s1 /\ step p s1 = Ok (Stop x s') /\ (Z.of_nat k <= v_gas s)%Z /\ (-1 <= v_gas s' <= v_gas s)%Z /\ (x = OutOfGas <-> (v_gas s' < 0)%Z) /\
    (x = OutOfGas -> Z.of_nat k = v_gas s).
Proof.
  intros Hg H. apply invoke_inv in H as (k & s1 & H1 & H2). exists k, s1. split; [exact H1|]. split; [exact H2|].
  apply steps_gas in H1 as [G1 G2]. apply step_gas in H2. destruct k as [|k].
  - destruct H2 as [[A B]|(-> & -> & _)].
    + split; [lia|]. split; [lia|]. split; [exact B|]. intros Q. apply B in Q. lia.
    + split; [lia|]. split; [lia|]. split; [split; [discriminate|lia]|discriminate].
  - specialize (G2 ltac:(discriminate)). destruct H2 as [[A B]|(-> & -> & _)].
    + split; [lia|]. split; [lia|]. split; [exact B|]. intros Q. apply B in Q. lia.
    + split; [lia|]. split; [lia|]. split; [split; [discriminate|lia]|discriminate].
Qed.
Section Host.
Context {C : Type} (host : N -> vm -> C -> result verr (hchange * C)).
Lemma apply_host_gas s h s' : apply_host s h = Ok s' -> v_gas s' = (v_gas s - Z.of_N (h_gas h))%Z.
Proof.
  unfold apply_host. intros H. destruct (h_r7 h), (h_r8 h), (h_mem h) as [[a bs]|]; cbn [bind] in H;
    try (destruct (lift EMem (write_bytes _ a bs)) as [m'| |]; cbn [bind] in H; try discriminate); apply charge_gas in H as (-> & _); reflexivity.
Qed.
Lemma host_stop p s h s1 : step p s = Ok (Stop (HostCall h) s1) -> v_gas s1 = (v_gas s - 1)%Z /\ (0 <= v_gas s1)%Z.
Proof.
  intros H. apply step_gas in H as [[A B]|(Q & _)]; [|discriminate]. split; [exact A|]. destruct (Z.lt_ge_cases (v_gas s1) 0) as [L|L]; [apply B in L; discriminate|lia].
Qed.
Theorem hsteps_gas t p k s c s' c' : hsteps host t p k s c s' c' -> (v_gas s' <= v_gas s - Z.of_nat k)%Z /\ (0 <= v_gas s -> 0 <= v_gas s')%Z.
Proof.
  intros H. induction H as [s c|k s c s1 s2 c2 H _ [IH IH']|k s c h s1 hc c1 s2 s3 c3 H He Hx Ha Hg _ [IH IH']]; [split; lia| |].
  - apply step_gas in H as [H1 H2]. split; [lia|]. intros _. apply IH'. exact H2.
  - apply host_stop in H as [H1 H2]. apply apply_host_gas in Ha. cbn [set_pc v_gas] in IH, IH'. split; [lia|]. intros _. now apply IH'.
Qed.
Lemma extended_ends t p : forall f s c, (v_gas s < Z.of_nat f)%Z -> (0 <= v_gas s)%Z -> exists r, forall f', (f <= f')%nat -> invoke_extended host f' t p s c = Some r.
Proof.
  induction f as [|f IH]; intros s c Hf Hg; [lia|]. destruct (invoke_ends p (S f) s Hf Hg) as [r Hr].
  assert (U : forall f', (S f <= f')%nat -> exists f'', f' = S f'' /\ (f <= f'')%nat /\ invoke_general f' p s = Some r).
  { intros f' Hf'. destruct f' as [|f']; [lia|]. exists f'. split; [reflexivity|]. split; [lia|]. now apply invoke_fuel with (S f). }
  destruct r as [[x s1]|e|].
  2:{ eexists. intros f' Hf'. destruct (U f' Hf') as (f'' & -> & _ & E). cbn [invoke_extended]. rewrite E. reflexivity. }
  2:{ eexists. intros f' Hf'. destruct (U f' Hf') as (f'' & -> & _ & E). cbn [invoke_extended]. rewrite E. reflexivity. }
  destruct x as [| | | |a|h].
  1-5: eexists; intros f' Hf'; destruct (U f' Hf') as (f'' & -> & _ & E); cbn [invoke_extended]; rewrite E; reflexivity.
  apply invoke_inv in Hr as (k & s0 & H1 & H2). apply steps_gas in H1 as [G1 G2]. apply host_stop in H2 as [G3 G4].
  destruct (execute_host host t s1 c h) as [[hc c']|e|] eqn:Eh.
  2:{ eexists. intros f' Hf'. destruct (U f' Hf') as (f'' & -> & _ & E). cbn [invoke_extended]. rewrite E, Eh. reflexivity. }
  2:{ eexists. intros f' Hf'. destruct (U f' Hf') as (f'' & -> & _ & E). cbn [invoke_extended]. rewrite E, Eh. reflexivity. }
  destruct (h_exit hc) eqn:Ex.
  2-6: destruct (apply_host s1 hc) as [s2|e|] eqn:Ea; eexists; intros f' Hf'; destruct (U f' Hf') as (f'' & -> & _ & E); cbn [invoke_extended]; rewrite E, Eh, Ex, ?Ea; reflexivity.
  destruct (apply_host s1 hc) as [s2|e|] eqn:Ea.
  2:{ eexists. intros f' Hf'. destruct (U f' Hf') as (f'' & -> & _ & E). cbn [invoke_extended]. rewrite E, Eh, Ex, Ea. reflexivity. }
  2:{ eexists. intros f' Hf'. destruct (U f' Hf') as (f'' & -> & _ & E). cbn [invoke_extended]. rewrite E, Eh, Ex, Ea. reflexivity. }
  destruct (Z.ltb_spec (v_gas s2) 0) as [L|L].
  { eexists. intros f' Hf'. destruct (U f' Hf') as (f'' & -> & _ & E). cbn [invoke_extended]. rewrite E, Eh, Ex, Ea.
    destruct (Z.ltb_spec (v_gas s2) 0); [reflexivity|lia]. }
  apply apply_host_gas in Ea as Eg. destruct (IH (set_pc s2 (next_pc (v_pc s2) p)) c') as [r Hr]; [cbn [set_pc v_gas]; lia|cbn [set_pc v_gas]; lia|].
  exists r. intros f' Hf'. destruct (U f' Hf') as (f'' & -> & Hf'' & E). cbn [invoke_extended]. rewrite E, Eh, Ex, Ea.
  destruct (Z.ltb_spec (v_gas s2) 0); [lia|]. now apply Hr.
Qed.
Lemma hsteps_app t p k s c s' c' k' s'' c'' : hsteps host t p k s c s' c' -> hsteps host t p k' s' c' s'' c'' -> hsteps host t p (k + k') s c s'' c''.
Proof. intros H H'. induction H; cbn [Nat.add]; [exact H'|eapply hsteps_more; eauto|eapply hsteps_host; eauto]. Qed.
Lemma steps_hsteps t p k s s' c : steps p k s s' -> hsteps host t p k s c s' c.
Proof. induction 1; [constructor|eapply hsteps_more; eauto]. Qed.
(** How a run with host calls ends: by the last instruction, by a host function, or by the gas a host function charged. *)
Theorem extended_inv t p : forall f s c x s' c', invoke_extended host f t p s c = Some (Ok (x, s', c')) ->
  exists k s1 c1, hsteps host t p k s c s1 c1 /\
    ((step p s1 = Ok (Stop x s') /\ c' = c1 /\ (forall h, x <> HostCall h)) \/
     exists h s2 hc, step p s1 = Ok (Stop (HostCall h) s2) /\ execute_host host t s2 c1 h = Ok (hc, c') /\ apply_host s2 hc = Ok s' /\
       ((h_exit hc = Continue /\ x = OutOfGas /\ (v_gas s' < 0)%Z) \/ (h_exit hc = x /\ (x = XPanic \/ x = RegularHalt \/ x = OutOfGas)))).
Proof.
  induction f as [|f IH]; intros s c x s' c' H; [discriminate|]. cbn [invoke_extended] in H.
  destruct (invoke_general (S f) p s) as [[[y s1]|e|]|] eqn:E; try discriminate. apply invoke_inv in E as (k & s0 & H1 & H2). apply (steps_hsteps t p k s s0 c) in H1.
  destruct y as [| | | |a|h].
  1-5: injection H as <- <- <-; exists k, s0, c; split; [exact H1|]; left; split; [exact H2|]; split; [reflexivity|discriminate].
  destruct (execute_host host t s1 c h) as [[hc c1]|e|] eqn:Eh; try discriminate.
  destruct (h_exit hc) eqn:Ex; try discriminate.
  - destruct (apply_host s1 hc) as [s2|e|] eqn:Ea; try discriminate. destruct (Z.ltb_spec (v_gas s2) 0) as [L|L].
    + injection H as <- <- <-. exists k, s0, c. split; [exact H1|]. right. exists h, s1, hc. auto 8.
    + apply IH in H as (k' & s3 & c3 & H3 & H4). exists (k + S k')%nat, s3, c3. split; [|exact H4].
      eapply hsteps_app; [exact H1|]. eapply hsteps_host; eauto.
  - destruct (apply_host s1 hc) as [s2|e|] eqn:Ea; try discriminate. injection H as <- <- <-. exists k, s0, c. split; [exact H1|]. right. exists h, s1, hc. auto 8.
  - destruct (apply_host s1 hc) as [s2|e|] eqn:Ea; try discriminate. injection H as <- <- <-. exists k, s0, c. split; [exact H1|]. right. exists h, s1, hc. auto 8.
  - destruct (apply_host s1 hc) as [s2|e|] eqn:Ea; try discriminate. injection H as <- <- <-. exists k, s0, c. split; [exact H1|]. right. exists h, s1, hc. auto 8.
Qed.
Theorem extended_gas t p f s c x s' c' : invoke_extended host f t p s c = Some (Ok (x, s', c')) -> (v_gas s' <= v_gas s)%Z.
Proof.
  intros H. apply extended_inv in H as (k & s1 & c1 & H1 & H2). apply hsteps_gas in H1 as [G1 G2].
  destruct H2 as [(H2 & _)|(h & s2 & hc & H2 & _ & H3 & _)].
  - apply step_gas in H2 as [[A _]|(_ & -> & _)]; lia.
  - apply host_stop in H2 as [A _]. apply apply_host_gas in H3. lia.
Qed.
Theorem extended_out t p f s c x s' c' : (0 <= v_gas s)%Z ->
  (forall h s c hc c', host h s c = Ok (hc, c') -> (h_exit hc = OutOfGas -> (v_gas s < Z.of_N (h_gas hc))%Z) /\
     (h_exit hc = XPanic \/ h_exit hc = RegularHalt -> (Z.of_N (h_gas hc) <= v_gas s)%Z)) ->
  invoke_extended host f t p s c = Some (Ok (x, s', c')) -> x = OutOfGas <-> (v_gas s' < 0)%Z.
Proof.
  intros Hg HH H. apply extended_inv in H as (k & s1 & c1 & H1 & H2). apply hsteps_gas in H1 as [G1 G2].
  destruct H2 as [(H2 & _)|(h & s2 & hc & H2 & He & H3 & H4)].
  - apply step_gas in H2 as [[A B]|(-> & -> & _)]; [exact B|]. split; [discriminate|]. specialize (G2 Hg). lia.
  - apply apply_host_gas in H3. destruct H4 as [(_ & -> & L)|(Hx & Hc)]; [tauto|].
    unfold execute_host in He. destruct (_ =? 255).
    + injection He as <- <-. subst x. cbn in Hc. destruct Hc as [Hc|[Hc|Hc]]; discriminate.
    + apply HH in He as [HO HP]. rewrite Hx in HO, HP. destruct Hc as [->|[->| ->]]; split; intros Q; try discriminate Q; try reflexivity.
      * specialize (HP (or_introl eq_refl)). lia.
      * specialize (HP (or_intror eq_refl)). lia.
      * specialize (HO eq_refl). lia.
Qed.
(** ** Host calls *)
Lemma offered_allowed t n : host_allowed t n = true <-> offered t n.
Proof.
  destruct t; cbn [host_allowed existsb offered]; rewrite ?Bool.orb_true_iff, ?N.eqb_eq, ?Bool.orb_false_r; [lia| |lia].
  lia.
Qed.
End Host.
