(** The gas of an accumulation: what is used is within the limit, and pays for the gas that the transfers carry. *)
From Verif Require Import Base Base_Proofs PvmMem_Model PvmProg_Model PvmStep_Model PvmStep_Spec PvmRun_Spec PvmRun_Proofs PvmInit_Model PvmInit_Proofs Codec_Model Sandbox_Model Sandbox_Spec Sandbox_Proofs Host_Model Host_Spec Acc_Model Acc_Spec Round_Model Round_Spec Round1_Proofs.
Set Implicit Arguments.
Open Scope N_scope.

Definition billed (r : rest) (x : result verr (hchange * rest)) : Prop := forall h r', x = Ok (h, r') ->
  (r_xfers r' = r_xfers r \/ exists t, r_xfers r' = r_xfers r ++ [t] /\ h_gas h = sat_add 64 10 (t_gas t)) /\ h_exit h <> RegularHalt.
Ltac leafb :=
  repeat first
  [ progress cbv beta iota zeta
  | match goal with
    | |- leaves _ (pbind _ _) => apply leaves_bind; intros ?
    | |- leaves _ (copy_out _ _ _ _ _ _) => unfold copy_out
    | |- leaves _ (ret _ _) => unfold ret
    | |- leaves _ fail => unfold fail
    | |- leaves _ (Ret _) => cbn [leaves]
    | |- leaves _ (Do _ _) => cbn [leaves]; intros ?
    | |- leaves _ (match ?c with _ => _ end) => destruct c
    | |- billed _ (match ?c with _ => _ end) => destruct c
    | |- billed _ (Err _) => intros ? ? ?; discriminate
    | |- billed _ Panic => intros ? ? ?; discriminate
    | |- billed _ (Ok _) => intros ? ? X; injection X as <- <-; split; [first [left; reflexivity | right; eexists; split; reflexivity] | discriminate]
    end ].
Lemma billed_call : forall e n s r, leaves (billed r) (call e n s r).
Proof.
  intros e n s r. unfold call. destruct (n =? 100); [leafb|]. destruct (v_gas s <? 10)%Z; [leafb|].
  destruct n as [|[[[[[p|p|]|[p|p|]|]|[[p|p|]|[p|p|]|]|]|[[[p|p|]|[p|p|]|]|[[p|p|]|[p|p|]|]|]|]|[[[[p|p|]|[p|p|]|]|[[p|p|]|[p|p|]|]|]|[[[p|p|]|[p|p|]|]|[[p|p|]|[p|p|]|]|]|]|]]; try solve [leafb].
  all: first [progress unfold host_gas | progress unfold host_fetch | progress unfold host_lookup | progress unfold host_read | progress unfold host_write | progress unfold host_info | progress unfold host_bless | progress unfold host_assign | progress unfold host_designate | progress unfold host_new | progress unfold host_upgrade
    | progress unfold host_transfer | progress unfold host_eject | progress unfold host_query | progress unfold host_solicit | progress unfold host_forget | progress unfold host_yield | progress unfold host_provide]; leafb.
Qed.

Definition pay (r : rest) : N := sum (map (fun t => t_gas t + 1) (r_xfers r)).
Section Pay.
  Context {A : Type} (do : A -> sop -> A * sout) (e : env).
  Lemma sum_app : forall a b, sum (a ++ b) = sum a + sum b. Proof. induction a; intros; simpl; [|rewrite IHa]; lia. Qed.
  Lemma host_pay : forall n s x y h x' y', host do e n s (x, y) = Ok (h, (x', y')) -> h_gas h < 2 ^ 63 ->
    pay (snd x') <= pay (snd x) + h_gas h /\ (pay (snd y') <= pay (snd y) \/ pay (snd y') <= pay (snd x)) /\ h_exit h <> RegularHalt.
  Proof.
    intros n s [a r] y h x' y' H L. unfold host in H. cbn [fst snd] in H. destruct (n =? 17).
    - destruct (v_gas s <? 10)%Z; inversion H; subst; cbn [snd h_exit starved]; (split; [lia|]; split; [|discriminate]); [left | right]; lia.
    - pose proof (@leaves_exec A _ _ do _ a (billed_call e n s r)) as B. destruct (exec do (call e n s r) a) as [a' [[h0 r']| |]]; try discriminate. inversion H; subst. cbn [snd] in *.
      destruct (B h r' eq_refl) as [C X]. split; [|split; [left; lia | exact X]]. destruct C as [C|[t [C Q]]]; unfold pay; rewrite C; [lia|]. rewrite map_app, sum_app. cbn [map sum].
      assert (10 + t_gas t <= h_gas h); [|lia]. rewrite Q in L |- *. unfold sat_add in L |- *. change (2 ^ 64 - 1) with 18446744073709551615 in *. change (2 ^ 63) with 9223372036854775808 in L. lia.
  Qed.
  Lemma apply_small : forall s h s', apply_host s h = Ok s' -> h_gas h < 2 ^ 63.
  Proof.
    unfold apply_host. intros s h s' H. destruct (h_r7 h), (h_r8 h), (h_mem h) as [[a bs]|]; cbn [bind] in H;
      try (destruct (lift EMem (write_bytes _ a bs)) as [m'| |]; cbn [bind] in H; try discriminate); unfold charge in H; destruct (N.leb_spec (2 ^ 63) (h_gas h)); try discriminate; assumption.
  Qed.
  Lemma steps_pay : forall L t p k s c s' c', hsteps (host do e) t p k s c s' c' ->
    (Z.of_N (pay (snd (fst c))) + v_gas s <= L)%Z /\ (Z.of_N (pay (snd (snd c))) + v_gas s <= L)%Z -> (Z.of_N (pay (snd (fst c'))) + v_gas s' <= L)%Z /\ (Z.of_N (pay (snd (snd c'))) + v_gas s' <= L)%Z.
  Proof.
    intros L t p k s c s' c' H. induction H as [s c|k s c s1 s2 c2 H _ IH|k s c h s1 hc c1 s2 s3 c3 H He Hx Ha Hg _ IH]; intros [X Y]; [auto | |].
    - apply step_gas in H as [H1 H2]. apply IH. split; lia.
    - apply (@host_stop unit (fun _ _ _ => Panic)) in H as [H1 H2]. pose proof (apply_host_gas _ _ _ Ha) as Gs. apply IH. cbn [set_pc v_gas]. unfold execute_host in He. destruct (_ =? 255).
      + injection He as <- <-. split; lia.
      + destruct c as [x y], c1 as [x' y']. destruct (host_pay _ _ _ _ He (apply_small _ _ Ha)) as [P [Q _]]. cbn [fst snd] in *. split; lia.
  Qed.
  Lemma extended_pay : forall f t p s c x s' c', invoke_extended (host do e) f t p s c = Some (Ok (x, s', c')) -> pay (snd (fst c)) = 0 -> pay (snd (snd c)) = 0 ->
    (Z.of_N (pay (snd (snd c'))) + Z.max 0 (v_gas s') <= Z.max 0 (v_gas s))%Z /\ (x = RegularHalt -> (Z.of_N (pay (snd (fst c'))) + Z.max 0 (v_gas s') <= Z.max 0 (v_gas s))%Z).
  Proof.
    intros f t p s c x s' c' H Zx Zy. apply extended_inv in H as (k & s1 & c1 & H1 & H2). pose proof (hsteps_gas _ _ _ _ _ _ _ _ H1) as [G1 G2].
    destruct (@steps_pay (v_gas s) _ _ _ _ _ _ _ H1) as [X Y]; [lia|]. destruct (Z_lt_dec (v_gas s) 0) as [Neg|Pos].
    - assert (E : s1 = s /\ c1 = c).
      { destruct H1 as [|k s c s1 s2 c2 H _|k s c h s1 hc c1 s2 s3 c3 H _ _ _ _ _]; [auto | |].
        - apply step_gas in H. lia.
        - apply (@host_stop unit (fun _ _ _ => Panic)) in H. lia. }
      destruct E as [-> ->]. destruct H2 as [(H2 & -> & _)|(h & s2 & hc & H2 & _)].
      + apply step_gas in H2 as [[A0 _]|(_ & -> & _)]; split; intros; lia.
      + apply (@host_stop unit (fun _ _ _ => Panic)) in H2. lia.
    - assert (Hg : (0 <= v_gas s)%Z) by lia. specialize (G2 Hg). destruct H2 as [(H2 & -> & _)|(h & s2 & hc & H2 & He & Ha & H4)].
      + apply step_gas in H2 as [[A0 _]|(_ & -> & _)]; split; intros; lia.
      + apply (@host_stop unit (fun _ _ _ => Panic)) in H2 as [A0 B0]. pose proof (apply_host_gas _ _ _ Ha) as Gs. unfold execute_host in He. destruct (_ =? 255).
        * injection He as <- <-. split; [lia|]. intros ->. destruct H4 as [[_ [Q _]]|[Q _]]; discriminate.
        * destruct c1 as [x1 y1], c' as [x' y']. destruct (host_pay _ _ _ _ He (apply_small _ _ Ha)) as [P [Q R]]. cbn [fst snd] in *. split; [lia|]. intros ->. exfalso. destruct H4 as [[_ [Z _]]|[Z _]]; [discriminate | contradiction].
  Qed.
End Pay.
Lemma run_pays : forall G e fuel fp pc limit args c g o x y, limit < 2 ^ 64 -> r_xfers (snd c) = [] -> run_prepared (host (step G) e) fuel Accumulate fp pc limit args (c, c) = Some (Ok (g, o, (x, y))) ->
  g <= limit /\ pay (snd y) <= g /\ (pay (snd x) <= g \/ o = OutputOutOfGas \/ o = OutputPanic).
Proof.
  intros G e fuel fp pc limit args c g o x y L C0 Iv. assert (P0 : pay (snd c) = 0) by (unfold pay; rewrite C0; reflexivity). apply run_prepared_inv in Iv as [(_ & -> & -> & Q)|(s0 & X & s & _ & E & R)].
  - injection Q as -> ->. rewrite P0. split; [lia|]. split; [lia|]. left. lia.
  - pose proof (extended_gas _ _ _ _ _ _ _ _ _ E) as Eg. cbn [v_gas] in Eg. destruct (@extended_pay _ _ _ _ _ _ _ _ _ _ _ E P0 P0) as [Py Px]. cbn [fst snd v_gas] in *.
    pose proof (result_of_gas _ _ _ _ _ R) as Rg. pose proof (as_signed_le _ L) as As. pose proof (gas_used_is limit (v_gas s) L ltac:(lia)) as Gu. rewrite <- Rg in Gu.
    split; [lia|]. split; [lia|]. unfold result_of in R. destruct X; try (right; right; inversion R; reflexivity).
    + left. specialize (Px eq_refl). lia.
    + right. left. inversion R. reflexivity.
Qed.
Lemma collect_pays : forall limit g o x y, g <= limit -> pay (snd y) <= g -> (pay (snd x) <= g \/ o = OutputOutOfGas \/ o = OutputPanic) ->
  a_gas (collect o g x y) <= limit /\ sum (map (fun t => t_gas t + 1) (a_xfers (collect o g x y))) <= a_gas (collect o g x y).
Proof. intros limit g o x y L Y X. unfold pay in *. destruct o; cbn [collect a_gas a_xfers]; (split; [exact L|]); destruct X as [X|[X|X]]; try discriminate; assumption. Qed.
Lemma context_empty : forall G e sb p t entropy c, new_context G e sb p t entropy = Ok c -> r_xfers (snd c) = [].
Proof. intros G e sb p t entropy c. unfold new_context. generalize (exec (step G) (check (first_id t entropy e)) sb). intros [sb4 [i|x|]] H; try discriminate. injection H as <-. reflexivity. Qed.
Theorem accumulate_pays : forall fuel G e sb p t recv inputs limit entropy a, limit < 2 ^ 64 ->
  accumulate fuel G e sb p t recv inputs limit entropy = Some (Ok (Some a)) -> a_gas a <= limit /\ sum (map (fun t => t_gas t + 1) (a_xfers a)) <= a_gas a.
Proof.
  intros fuel G e sb p t recv inputs limit entropy a L H. unfold accumulate in H. destruct (exec _ (active_of t) sb) as [sb1 there]. destruct (negb there); [discriminate|].
  destruct (if 0 <? recv then _ else _) as [sb2 ok]. destruct (negb ok); [discriminate|].
  assert (Z : forall s, a = mk_acc s p [] None 0 [] -> a_gas a <= limit /\ sum (map (fun t => t_gas t + 1) (a_xfers a)) <= a_gas a) by (intros s ->; cbn [a_gas a_xfers map sum]; split; apply N.le_0_l).
  destruct (exec _ (code_prog t) sb2) as [sb3 [[code|]|x|]]; try discriminate.
  - destruct (4000000 <? _); [injection H as <-; apply (Z _ eq_refl)|]. destruct (new_context G e sb3 p t entropy) as [c| |] eqn:Nc; try discriminate.
    destruct (invoke_with_args _ _ _ _ _ _ _ _) as [[[[gas o] [x y]]| |]|] eqn:Iv; try discriminate. injection H as <-.
    unfold invoke_with_args in Iv. destruct (prepare code) as [fp| |]; try discriminate. destruct (@run_pays _ _ _ _ _ _ _ _ _ _ _ _ L (@context_empty _ _ _ _ _ _ _ Nc) Iv) as (A & B & C). exact (@collect_pays _ _ _ _ _ A B C).
  - injection H as <-. apply (Z _ eq_refl).
Qed.
