(** Proofs about the size of a bundle whose package is within the limits, about constants and about reports. *)
From Verif Require Import Base Base_Proofs PvmMem_Model PvmProg_Model PvmStep_Model PvmInit_Model Refine_Model Refine_Spec Codec_Model Codec_Spec Codec_Proofs Codec2_Proofs Codec3_Proofs Block_Model
  Package_Model Package_Spec Package_Proofs Package2_Proofs.
Open Scope N_scope.

Lemma hint_short x : integer_size_hint x <= 9.
Proof.
  unfold integer_size_hint. destruct (x =? 0); [lia|]. destruct (N.ltb_spec x (2 ^ 56)) as [L|L]; [|lia].
  assert (E : N.log2 x <= 55). { destruct (N.eq_dec x 0) as [->|Z]; [cbn; lia|]. assert (N.log2 x < 56) by (apply N.log2_lt_pow2; lia). lia. }
  assert (N.log2 x / 7 <= 55 / 7) by (apply N.div_le_mono; lia). change (55 / 7) with 7 in *. lia.
Qed.
Lemma int_short x : x < 2 ^ 64 -> N.of_nat (length (integer_encode x)) <= 9.
Proof. intros L. rewrite <- integer_size_hint_length by exact L. apply hint_short. Qed.
Lemma sum_total l : sumN l = total l. Proof. reflexivity. Qed.
Lemma pair_encoded a b (v : interp (TPair a b)) bs : encode (TPair a b) v = Ok bs -> exists x y, encode a (fst v) = Ok x /\ encode b (snd v) = Ok y /\ bs = x ++ y.
Proof.
  cbn [encode]. destruct (encode a (fst v)) as [x|er|]; cbn [bind]; try discriminate. destruct (encode b (snd v)) as [y|er|]; cbn [bind]; try discriminate. intros E. injection E as <-. eauto.
Qed.
Lemma hashes_length (l : list bytes) x : Forall (fun h => length h = 32%nat) l -> encode_seq (encode t_hash) l = Ok x -> N.of_nat (length x) = 32 * N.of_nat (length l).
Proof.
  revert x. induction l as [|h l IH]; intros x F E; cbn [encode_seq] in E; [injection E as <-; reflexivity|]. inversion F as [|? ? Lh Fl]; subst.
  change (encode t_hash h) with (Ok (E := cerr) h) in E. cbn [bind] in E. destruct (encode_seq (encode t_hash) l) as [y|er|]; cbn [bind] in E; try discriminate. injection E as <-.
  rewrite app_length. specialize (IH y Fl eq_refl). cbn [length]. lia.
Qed.

Lemma set_length (hs : list bytes) z : wf (TSet t_hash) hs -> encode (TSet t_hash) hs = Ok z -> N.of_nat (length z) <= 9 + 32 * N.of_nat (length hs).
Proof.
  intros (Fs & Ls & _) E. change (bind (encode_seq (encode t_hash) hs) (fun x => Ok (integer_encode (N.of_nat (length hs)) ++ x)) = Ok z) in E.
  destruct (encode_seq (encode t_hash) hs) as [y|er|] eqn:Ey; cbn [bind] in E; try discriminate. injection E as <-. apply hashes_length in Ey.
  - rewrite app_length, Nat2N.inj_add, Ey. apply N.add_le_mono; [apply int_short; exact Ls|]. apply N.le_refl.
  - eapply Forall_impl; [|exact Fs]. intros h [_ L]. exact L.
Qed.

Section Size.
  Variable P : params.
  Variable size : nat.

  Definition item_bound (w : item P) : N := 81 + N.of_nat (length (i_payload P w)) + 34 * N.of_nat (length (i_imports P w)) + 36 * N.of_nat (length (i_xts P w)).
  Lemma item_hint (w : item P) : size_hint (t_item P) w <= item_bound w.
  Proof.
    assert (G : size_hint (t_item P) w = 4 + (32 + (8 + (8 + (2 + ((integer_size_hint (N.of_nat (length (i_payload P w))) + N.of_nat (length (i_payload P w))) +
      ((integer_size_hint (N.of_nat (length (i_imports P w))) + total (map (fun _ => 34) (i_imports P w))) +
       (integer_size_hint (N.of_nat (length (i_xts P w))) + total (map (fun _ => 36) (i_xts P w)))))))))) by reflexivity.
    rewrite G, !total_const. unfold item_bound. generalize (hint_short (N.of_nat (length (i_payload P w)))) (hint_short (N.of_nat (length (i_imports P w)))) (hint_short (N.of_nat (length (i_xts P w)))).
    lia.
  Qed.
  Lemma package_length (k : package P) p : wf (t_package P) k -> encode (t_package P) k = Ok p ->
    N.of_nat (length p) <= 204 + 32 * prerequisites k + N.of_nat (length (p_token P k)) + N.of_nat (length (p_config P k)) + all_of item_bound k.
  Proof.
    intros W E. pose proof W as W0. destruct W as (_ & Wa & Wc & Wr). destruct Wc as (C1 & C2 & C3 & C4 & _ & Cs).
    apply pair_encoded in E as (x1 & y1 & E1 & E & ->). apply pair_encoded in E as (x2 & y2 & E2 & E & ->). apply pair_encoded in E as (x3 & y3 & E3 & E & ->).
    apply pair_encoded in E3 as (c1 & z1 & F1 & E3 & ->). apply pair_encoded in E3 as (c2 & z2 & F2 & E3 & ->). apply pair_encoded in E3 as (c3 & z3 & F3 & E3 & ->).
    apply pair_encoded in E3 as (c4 & z4 & F4 & E3 & ->). apply pair_encoded in E3 as (c5 & z5 & F5 & F6 & ->).
    assert (Lf : forall b x, wf t_hash b -> encode t_hash b = Ok x -> N.of_nat (length x) = 32) by (intros b x [_ L] Eb; injection Eb as <-; rewrite L; reflexivity).
    apply Lf in E2; [|exact Wa]. apply Lf in F1; [|exact C1]. apply Lf in F2; [|exact C2]. apply Lf in F3; [|exact C3]. apply Lf in F4; [|exact C4].
    apply encode_fixed_ok_iff in E1 as (_ & _ & ->). apply encode_fixed_ok_iff in F5 as (_ & _ & ->).
    assert (L6 : N.of_nat (length z5) <= 9 + 32 * prerequisites k).
    { exact (set_length _ _ Cs F6). }
    assert (L3 : N.of_nat (length y3) <= 27 + N.of_nat (length (p_token P k)) + N.of_nat (length (p_config P k)) + all_of item_bound k).
    { assert (Et : ty_ok (TPair TOctets (TPair TOctets (TLim (sz_item P) 16 (t_item P))))) by (cbn; repeat split; lia).
      assert (Eh : exact_hint (TPair TOctets (TPair TOctets (TLim (sz_item P) 16 (t_item P))))) by (cbn; repeat split; auto).
      rewrite <- (codec_size_hint _ _ _ Et Eh Wr E). clear E Et Eh.
      change ((integer_size_hint (N.of_nat (length (p_token P k))) + N.of_nat (length (p_token P k))) + ((integer_size_hint (N.of_nat (length (p_config P k))) + N.of_nat (length (p_config P k))) +
        (integer_size_hint (N.of_nat (length (p_items P k))) + total (map (size_hint (t_item P)) (p_items P k)))) <=
        27 + N.of_nat (length (p_token P k)) + N.of_nat (length (p_config P k)) + all_of item_bound k).
      assert (T : total (map (size_hint (t_item P)) (p_items P k)) <= all_of item_bound k) by (apply total_le; intros w _; apply item_hint). revert T.
      generalize (hint_short (N.of_nat (length (p_token P k)))) (hint_short (N.of_nat (length (p_config P k)))) (hint_short (N.of_nat (length (p_items P k)))). lia. }
    rewrite !app_length, !Nat2N.inj_add, !le_bytes_length. revert E2 F1 F2 F3 F4 L6 L3. change (N.of_nat 4) with 4. lia.
  Qed.

  Lemma framed_length p : path p -> (length p <= 12)%nat -> N.of_nat (length (framed p)) <= 385.
  Proof.
    intros [_ F] L. unfold framed. rewrite app_length. rewrite octet_short by lia. assert (E : length (concat p) = (32 * length p)%nat).
    { clear L. induction p as [|h p IH]; [reflexivity|]. cbn [concat length]. rewrite app_length, IH by (intros x I; apply F; now right). destruct (F h (or_introl eq_refl)) as [_ ->]. lia. }
    rewrite E. cbn [length]. lia.
  Qed.
  Lemma concat_length_le {A} (l : list (list A)) c : (forall x, In x l -> N.of_nat (length x) <= c) -> N.of_nat (length (concat l)) <= c * N.of_nat (length l).
  Proof.
    induction l as [|x l IH]; intros F; cbn [concat length]; [lia|]. rewrite app_length. pose proof (F x (or_introl eq_refl)). specialize (IH (fun y i => F y (or_intror i))). lia.
  Qed.
  Lemma concat_lengths {A} (l : list (list A)) : N.of_nat (length (concat l)) = total (map (fun x => N.of_nat (length x)) l).
  Proof. induction l as [|x l IH]; [reflexivity|]. cbn [concat map total fold_right]. fold (total (map (fun x => N.of_nat (length x)) l)). rewrite app_length, Nat2N.inj_add, IH. reflexivity. Qed.
  Lemma counted {A} (ws : list (item P)) (l : list (list A)) : Forall2 (fun w x => length x = length (i_imports P w)) ws l ->
    N.of_nat (length (concat l)) = total (map (fun w => N.of_nat (length (i_imports P w))) ws).
  Proof. intros F. rewrite concat_lengths. induction F as [|w x ws l L F IH]; [reflexivity|]. cbn [map]. unfold total in *. cbn [fold_right]. now rewrite L, IH. Qed.
  Lemma blobs_total ws l : Forall2 (x_ok P) ws l -> N.of_nat (length (concat (concat l))) = total (map (fun w => total (map snd (i_xts P w))) ws).
  Proof.
    induction 1 as [|w x ws l [M _] F IH]; [reflexivity|]. cbn [concat map total fold_right]. fold (total (map (fun w => total (map snd (i_xts P w))) ws)).
    rewrite concat_app, app_length, Nat2N.inj_add, IH, concat_lengths, M. reflexivity.
  Qed.

  Theorem bundle_bounded (b : bundle P) gp : size = N.to_nat 4104 -> well_made size b -> brings b -> held (b_package P b) ->
    (forall ps p, In ps (b_paths P b) -> In p ps -> (length p <= 12)%nat) -> counts_ok P (b_package P b) = true -> size_ok P (b_package P b) = true -> gp_bundle b gp ->
    N.of_nat (length gp) <= 13791360 + 113628 + 32 * prerequisites (b_package P b).
  Proof.
    intros Z W S Hh Lp C So (p & Ep & ->). destruct (brings_parts P size b S W) as (Fx & Fi & Fp). pose proof W as (Wk & _ & Ws & Wp).
    apply size_ok_iff in So; [|assumption..]. apply counts_ok_iff in C; [|assumption..]. destruct C as (_ & Ci & Cx). rewrite footprint_split in So.
    pose proof (package_length _ _ Wk Ep) as Lk. destruct (package_parts P _ Wk) as [N16 _].
    rewrite !app_length, !Nat2N.inj_add, (blobs_total _ _ Fx). fold (all_of (P := P) (fun w => total (map snd (i_xts P w))) (b_package P b)).
    assert (Li : N.of_nat (length (concat (concat (b_imports P b)))) <= 4104 * imports_in (b_package P b)).
    { unfold imports_in, all_of. rewrite <- (counted (p_items P (b_package P b)) (b_imports P b)).
      - apply concat_length_le. intros s I. apply in_concat in I as (is & Ii & Is). destruct (Ws is s Ii Is) as [_ L]. rewrite L, Z. lia.
      - clear -Fi. induction Fi as [|w l ws ls [L _] F IH]; constructor; auto. }
    assert (Lj : N.of_nat (length (concat (map framed (concat (b_paths P b))))) <= 385 * imports_in (b_package P b)).
    { unfold imports_in, all_of. rewrite <- (counted (p_items P (b_package P b)) (b_paths P b)).
      - rewrite <- (map_length framed (concat (b_paths P b))). apply concat_length_le. intros x I. apply in_map_iff in I as (q & <- & I). apply in_concat in I as (ps & Ip & Iq).
        apply framed_length; [exact (Wp ps q Ip Iq)|exact (Lp ps q Ip Iq)].
      - clear -Fp. induction Fp as [|w l ws ls [L _] F IH]; constructor; auto. }
    change (fun path => integer_encode (N.of_nat (length path)) ++ concat path) with framed.
    assert (Lb : all_of item_bound (b_package P b) <= 1296 + all_of (fun w => N.of_nat (length (i_payload P w))) (b_package P b) + 34 * imports_in (b_package P b) + 36 * xts_in (b_package P b)).
    { unfold item_bound, imports_in, xts_in, all_of. rewrite !total_add, !total_mul, total_const. lia. }
    assert (A : forall i x j ib pay pre tok cfg lp li lj xl, li <= 4104 * i -> lj <= 385 * i -> ib <= 1296 + pay + 34 * i + 36 * x -> lp <= 204 + 32 * pre + tok + cfg + ib ->
      tok + cfg + pay + 4488 * i + xl <= 13791360 -> i <= 3072 -> x <= 128 -> j = lp + (xl + (li + lj)) -> j <= 13791360 + 113628 + 32 * pre) by (intros; lia).
    exact (A _ _ _ _ _ _ _ _ _ _ _ _ Li Lj Lb Lk So Ci Cx eq_refl).
  Qed.
End Size.

(** * Constants *)
Lemma le_val_fixed x n bs : encode_fixed x n = Ok bs -> le_val bs = x /\ length bs = n.
Proof.
  intros E. apply encode_fixed_ok_iff in E as (Ln & L & ->). split; [|apply le_bytes_length]. apply le_val_le_bytes_small. now replace (256 ^ N.of_nat n) with (2 ^ (8 * N.of_nat n)) by (rewrite N.pow_mul_r; reflexivity).
Qed.
Lemma fixed_total x n : (n <= 8)%nat -> x < 2 ^ (8 * N.of_nat n) -> exists bs, encode_fixed x n = Ok bs.
Proof. intros Ln L. exists (le_bytes n x). apply encode_fixed_ok_iff. split; [lia|]. auto. Qed.
Lemma fields_at (l : list (N * nat)) bs : encode_seq (fun x => encode_fixed (fst x) (snd x)) l = Ok bs ->
  forall pre x n post, l = pre ++ (x, n) :: post -> le_val (firstn n (skipn (list_sum (map snd pre)) bs)) = x.
Proof.
  intros E pre x n post ->. revert bs E. induction pre as [|[y m] pre IH]; intros bs E; cbn [app encode_seq fst snd] in E.
  - destruct (encode_fixed x n) as [b|er|] eqn:Ex; cbn [bind] in E; try discriminate.
    match type of E with bind ?r _ = _ => destruct r as [c|er|] eqn:Ec end; cbn [bind] in E; try discriminate. injection E as <-.
    apply le_val_fixed in Ex as [V L]. cbn [map list_sum fold_right skipn]. rewrite <- L, firstn_app, Nat.sub_diag, firstn_all. cbn [firstn]. now rewrite app_nil_r.
  - destruct (encode_fixed y m) as [b|er|] eqn:Ey; cbn [bind] in E; try discriminate.
    match type of E with bind ?r _ = _ => destruct r as [c|er|] eqn:Ec end; cbn [bind] in E; try discriminate. injection E as <-. specialize (IH c eq_refl).
    apply le_val_fixed in Ey as [_ L]. cbn [map list_sum fold_right snd]. fold (list_sum (map snd pre)). rewrite skipn_app, skipn_all2 by lia. cbn [app]. rewrite L.
    replace (m + list_sum (map snd pre) - m)%nat with (list_sum (map snd pre)) by lia. exact IH.
Qed.

Lemma fields_total l : Forall (fun x => (snd x <= 8)%nat /\ fst x < 2 ^ (8 * N.of_nat (snd x))) l ->
  exists bs, encode_seq (fun x => encode_fixed (fst x) (snd x)) l = Ok bs /\ length bs = list_sum (map snd l).
Proof.
  induction 1 as [|[x n] l [Ln L] F (bs & E & Lb)]; [exists []; split; reflexivity|]. cbn [fst snd] in *. destruct (fixed_total x n Ln L) as [b Eb]. exists (b ++ bs).
  cbn [encode_seq fst snd]. rewrite Eb. cbn [bind]. rewrite E. cbn [bind]. split; [reflexivity|]. apply le_val_fixed in Eb as [_ Lx]. rewrite app_length, Lx, Lb. reflexivity.
Qed.
Definition table (c : constants) : list (N * nat) :=
  [(c_BI c, 8%nat); (c_BL c, 8%nat); (c_BS c, 8%nat); (c_C c, 2%nat); (c_D c, 4%nat); (c_E c, 4%nat); (c_GA c, 8%nat); (c_GI c, 8%nat); (c_GR c, 8%nat);
   (c_GT c, 8%nat); (c_H c, 2%nat); (c_I c, 2%nat); (c_J c, 2%nat); (c_K c, 2%nat); (c_L c, 4%nat); (c_N c, 2%nat); (c_O c, 2%nat); (c_P c, 2%nat);
   (c_Q c, 2%nat); (c_R c, 2%nat); (c_T c, 2%nat); (c_U c, 2%nat); (c_V c, 2%nat); (c_WA c, 4%nat); (c_WB c, 4%nat); (c_WC c, 4%nat); (c_WE c, 4%nat);
   (c_WM c, 4%nat); (c_WP c, 4%nat); (c_WR c, 4%nat); (c_WT c, 4%nat); (c_WX c, 4%nat); (c_Y c, 4%nat)].
Lemma table_places c i f o n : nth_error gp_constants i = Some (f, o, n) -> exists pre post, table c = pre ++ (f c, n) :: post /\ list_sum (map snd pre) = o.
Proof.
  intros E. exists (firstn i (table c)), (skipn (S i) (table c)).
  do 33 (destruct i as [|i]; [cbn in E; injection E as <- <- <-; split; reflexivity|]). destruct i; discriminate.
Qed.
Lemma table_from c : table c = map (fun x => (fst (fst x) c, snd x)) gp_constants.
Proof. reflexivity. Qed.
Lemma table_fits c : fits c -> Forall (fun x => (snd x <= 8)%nat /\ fst x < 2 ^ (8 * N.of_nat (snd x))) (table c).
Proof.
  intros F. rewrite table_from. apply Forall_forall. intros x I. apply in_map_iff in I as ([[f o] n] & <- & I). cbn [fst snd]. split; [|exact (F f o n I)].
  revert I. assert (G : Forall (fun x => (snd x <= 8)%nat) gp_constants) by (repeat constructor). rewrite Forall_forall in G. intros I. exact (G _ I).
Qed.
Theorem constants_at c : fits c -> exists bs, encode_constants c = Ok bs /\ length bs = 134%nat /\
  forall f o n, In (f, o, n) gp_constants -> le_val (firstn n (skipn o bs)) = f c.
Proof.
  intros F. destruct (fields_total _ (table_fits c F)) as (bs & E & L). exists bs. split; [exact E|]. split; [exact L|]. intros f o n I.
  apply In_nth_error in I as [i I]. destruct (table_places c i f o n I) as (pre & post & Et & <-). exact (fields_at _ _ E _ _ _ _ Et).
Qed.

(** * Reports *)
Section Report.
  Context {S : Type}.
  Variables (H : bytes -> bytes) (auth : result verr (N * wresult)) (run : rargs -> result verr (N * wresult * list bytes)) (specs : bytes -> list bytes -> result perr S).

  Theorem report_made s k core r : compute_work_report H auth run specs s k core = Ok r -> exists gas trace imports xts bundle exports,
    auth = Ok (gas, WOutput trace) /\ N.of_nat (length trace) <= 49152 /\ wr_auth_gas r = gas /\ wr_trace r = trace /\ wr_core r = core /\ wr_context r = k_context k /\
    wr_authorizer r = H (k_auth k ++ k_config k) /\
    report_items (fun i offset => run (mk_rargs core i k trace imports offset xts)) H (k_items k) 0 0 (N.of_nat (length trace)) = Ok (wr_digests r, exports) /\
    st_bundle s = Ok bundle /\ specs bundle exports = Ok (wr_specs r) /\ N.of_nat (length (concat (map package_imports (k_items k)))) <= 8 /\ st_lookup s = Ok (wr_lookup r).
  Proof.
    unfold compute_work_report. destruct auth as [[gas w]|er|]; cbn [machine_err bind]; try discriminate. destruct w as [trace|f]; try discriminate.
    destruct (N.ltb_spec OUTPUT_LIMIT (N.of_nat (length trace))) as [|Lt]; try discriminate. intros E.
    match type of E with bind ?m _ = _ => destruct m as [[ds exports]|er|] eqn:Em end; cbn [bind] in E; try discriminate.
    destruct (st_bundle s) as [b|er|] eqn:Eb; cbn [bind] in E; try discriminate. destruct (specs b exports) as [sp|er|] eqn:Es; cbn [bind] in E; try discriminate.
    unfold lookup_table in E. destruct (N.ltb_spec 8 (N.of_nat (length (concat (map package_imports (k_items k)))))) as [|L8]; cbn [bind] in E; try discriminate.
    destruct (st_lookup s) as [l|er|] eqn:El; cbn [bind] in E; try discriminate. injection E as <-. cbn [wr_auth_gas wr_trace wr_core wr_context wr_authorizer wr_digests wr_specs wr_lookup].
    assert (G : exists imports xts, report_items (fun i offset => run (mk_rargs core i k trace imports offset xts)) H (k_items k) 0 0 (N.of_nat (length trace)) = Ok (ds, exports)).
    { destruct (k_items k) as [|w l'] eqn:Ek; [injection Em as <- <-; exists [], (fun _ => None); reflexivity|].
      destruct (st_imports s) as [im|er|]; cbn [bind] in Em; try discriminate. destruct (st_xts s) as [xt|er|]; cbn [bind] in Em; try discriminate. exists im, xt.
      match type of Em with machine_err ?m = _ => destruct m as [x|er|]; cbn [machine_err] in Em; try discriminate end. injection Em as <-. reflexivity. }
    destruct G as (im & xt & G). exists gas, trace, im, xt, b, exports. auto 20.
  Qed.

  Theorem report_crashes k core gas trace : auth = Ok (gas, WOutput trace) -> N.of_nat (length trace) <= 49152 -> compute_work_report H auth run specs unimplemented k core = Panic.
  Proof.
    intros -> L. unfold compute_work_report. cbn [machine_err bind]. destruct (N.ltb_spec OUTPUT_LIMIT (N.of_nat (length trace))) as [L2|_]; [unfold OUTPUT_LIMIT in L2; lia|].
    destruct (k_items k) as [|w l]; reflexivity.
  Qed.
  Theorem report_refusals s k core gas w : auth = Ok (gas, w) ->
    match w with WError f => compute_work_report H auth run specs s k core = Err (PNotAuthorized f)
    | WOutput trace => 49152 < N.of_nat (length trace) -> compute_work_report H auth run specs s k core = Err PTraceTooLarge end.
  Proof.
    intros ->. unfold compute_work_report. cbn [machine_err bind]. destruct w as [trace|f]; [|reflexivity]. intros L. apply N.ltb_lt in L. unfold OUTPUT_LIMIT. now rewrite L.
  Qed.
End Report.
