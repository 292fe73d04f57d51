(** Proofs about package limits, bundles, constants and reports. *)
From Verif Require Import Base Base_Proofs PvmMem_Model PvmProg_Model PvmStep_Model PvmInit_Model Refine_Model Codec_Model Codec_Spec Codec_Proofs Codec2_Proofs Codec3_Proofs Block_Model
  Package_Model Package_Spec.
Open Scope N_scope.

(** * Sums *)
Lemma two64 : 2 ^ 64 <> 0. Proof. discriminate. Qed.
Lemma total_app l m : total (l ++ m) = total l + total m.
Proof. induction l as [|x l IH]; cbn [app total fold_right]; [reflexivity|]. fold (total (l ++ m)) (total l). rewrite IH. lia. Qed.
Lemma sum64_from l : forall a, fold_left (fun a x => (a + x) mod 2 ^ 64) l a mod 2 ^ 64 = (a + total l) mod 2 ^ 64.
Proof.
  induction l as [|x l IH]; intros a; cbn [fold_left total fold_right].
  - now rewrite N.add_0_r.
  - fold (total l). rewrite IH, N.add_mod_idemp_l by apply two64. f_equal. lia.
Qed.
Lemma sum64_small l : sum64 l < 2 ^ 64.
Proof.
  unfold sum64. assert (G : forall l a, a < 2 ^ 64 -> fold_left (fun a x => (a + x) mod 2 ^ 64) l a < 2 ^ 64).
  { clear l. induction l as [|x l IH]; intros a A; cbn [fold_left]; [exact A|]. apply IH. apply N.mod_lt, two64. }
  apply G. reflexivity.
Qed.
Lemma sum64_total l : sum64 l = total l mod 2 ^ 64.
Proof. rewrite <- (N.mod_small (sum64 l) (2 ^ 64)) by apply sum64_small. unfold sum64. rewrite sum64_from. reflexivity. Qed.
Lemma sum64_map {A} (f g : A -> N) l : (forall x, f x mod 2 ^ 64 = g x mod 2 ^ 64) -> sum64 (map f l) = total (map g l) mod 2 ^ 64.
Proof.
  intros E. rewrite sum64_total. induction l as [|x l IH]; [reflexivity|]. cbn [map total fold_right]. fold (total (map f l)) (total (map g l)).
  rewrite N.add_mod, IH, E, <- N.add_mod by apply two64. reflexivity.
Qed.
Lemma total_le {A} (f g : A -> N) l : (forall x, In x l -> f x <= g x) -> total (map f l) <= total (map g l).
Proof.
  induction l as [|x l IH]; intros L; cbn [map total fold_right]; [lia|]. fold (total (map f l)) (total (map g l)).
  pose proof (L x (or_introl eq_refl)). specialize (IH (fun y i => L y (or_intror i))). lia.
Qed.
Lemma total_add {A} (f g : A -> N) l : total (map (fun x => f x + g x) l) = total (map f l) + total (map g l).
Proof. induction l as [|x l IH]; cbn [map total fold_right]; [reflexivity|]. fold (total (map (fun x => f x + g x) l)) (total (map f l)) (total (map g l)). rewrite IH. lia. Qed.
Lemma total_mul {A} c (f : A -> N) l : total (map (fun x => c * f x) l) = c * total (map f l).
Proof. induction l as [|x l IH]; cbn [map total fold_right]; [lia|]. fold (total (map (fun x => c * f x) l)) (total (map f l)). rewrite IH. lia. Qed.
Lemma total_const {A} c (l : list A) : total (map (fun _ => c) l) = c * N.of_nat (length l).
Proof. induction l as [|x l IH]; cbn [map total fold_right length]; [lia|]. fold (total (map (fun _ : A => c) l)). rewrite IH. lia. Qed.

(** * What a well-formed package is *)
Section Limits.
  Variable P : params.
  Lemma package_parts (k : package P) : wf (t_package P) k ->
    (length (p_items P k) <= 16)%nat /\ Forall (wf (t_item P)) (p_items P k).
  Proof.
    intros W. destruct W as (_ & _ & _ & _ & _ & F & _ & _ & L). split; [|exact F].
    apply N.le_trans with (n := N.of_nat (length (p_items P k))) in L; [|apply N.le_refl]. revert L. generalize (length (p_items P k)). intros n L. lia.
  Qed.
  Lemma item_parts (w : item P) : wf (t_item P) w ->
    i_refine_gas P w < 2 ^ 64 /\ i_acc_gas P w < 2 ^ 64 /\ i_exports P w < 2 ^ 16 /\ Forall (fun x => snd x < 2 ^ 32) (i_xts P w).
  Proof.
    intros W. unfold item in w. destruct w as (sid & ch & rg & ag & ex & pay & imp & xts). unfold t_item in W. cbn [wf fst snd] in W.
    destruct W as (_ & _ & G & A & X & _ & _ & F & _). unfold i_refine_gas, i_acc_gas, i_exports, i_xts. cbn [fst snd].
    split; [exact G|]. split; [exact A|]. split; [exact X|]. eapply Forall_impl; [|exact F]. intros [h n] [_ L]. exact L.
  Qed.

  Lemma all_items (f : item P -> N) c k : wf (t_package P) k -> (forall w, wf (t_item P) w -> f w <= c) -> all_of f k <= 16 * c.
  Proof.
    intros W L. destruct (package_parts k W) as [N16 F]. unfold all_of. rewrite Forall_forall in F.
    assert (E : total (map f (p_items P k)) <= total (map (fun _ => c) (p_items P k))) by (apply total_le; intros w I; apply L, F, I).
    rewrite total_const in E. nia.
  Qed.
  Lemma xts_total k : wf (t_package P) k -> all_of (fun w => total (map snd (i_xts P w))) k <= 2 ^ 32 * xts_in k.
  Proof.
    intros W. destruct (package_parts k W) as [_ F]. unfold xts_in, all_of. rewrite <- total_mul. apply total_le. intros w I.
    rewrite Forall_forall in F. destruct (item_parts w (F w I)) as (_ & _ & _ & X). rewrite <- total_const. apply total_le. intros x Ix.
    rewrite Forall_forall in X. specialize (X x Ix). change (2 ^ 32) with 4294967296 in *. cbn beta in X. lia.
  Qed.

  Lemma leb_mod x c : x < 2 ^ 64 -> (x mod 2 ^ 64 <=? c) = (x <=? c).
  Proof. intros L. now rewrite N.mod_small. Qed.

  Lemma held_parts k : held k -> N.of_nat (length (p_token P k)) + N.of_nat (length (p_config P k)) + all_of (fun w => N.of_nat (length (i_payload P w))) k + imports_in k + xts_in k <= 2 ^ 47.
  Proof. unfold held, imports_in, xts_in, all_of. rewrite !total_add. lia. Qed.

  Theorem counts_ok_iff k : wf (t_package P) k -> held k ->
    counts_ok P k = true <-> exports_in k <= 3072 /\ imports_in k <= 3072 /\ xts_in k <= 128.
  Proof.
    intros W Hh. apply held_parts in Hh. change (2 ^ 47) with 140737488355328 in Hh.
    assert (E : exports_in k <= 16 * 2 ^ 16). { apply all_items; [exact W|]. intros w Ww. destruct (item_parts w Ww) as (_ & _ & X & _). lia. }
    change (16 * 2 ^ 16) with 1048576 in E. unfold counts_ok, len. rewrite !sum64_total.
    change (total (map (i_exports P) (p_items P k))) with (exports_in k).
    change (total (map (fun w => N.of_nat (length (i_imports P w))) (p_items P k))) with (imports_in k).
    change (total (map (fun w => N.of_nat (length (i_xts P w))) (p_items P k))) with (xts_in k).
    rewrite !leb_mod by (change (2 ^ 64) with 18446744073709551616; lia).
    rewrite !Bool.andb_true_iff, !N.leb_le. tauto.
  Qed.

  Lemma footprint_split k : footprint k = N.of_nat (length (p_token P k)) + N.of_nat (length (p_config P k)) +
    all_of (fun w => N.of_nat (length (i_payload P w))) k + 4488 * imports_in k + all_of (fun w => total (map snd (i_xts P w))) k.
  Proof. unfold footprint, imports_in, all_of. rewrite !total_add, total_mul. lia. Qed.

  Lemma footprint_mod k : ((len (p_token P k) + len (p_config P k)) mod 2 ^ 64 +
    sum64 (map (fun w => ((len (i_payload P w) + (len (i_imports P w) * 4488) mod 2 ^ 64) mod 2 ^ 64 + sum64 (map snd (i_xts P w))) mod 2 ^ 64) (p_items P k))) mod 2 ^ 64
    = footprint k mod 2 ^ 64.
  Proof.
    rewrite (sum64_map _ (fun w => N.of_nat (length (i_payload P w)) + 4488 * N.of_nat (length (i_imports P w)) + total (map snd (i_xts P w)))).
    - unfold footprint, len, all_of. rewrite N.add_mod_idemp_l, N.add_mod_idemp_r by apply two64. reflexivity.
    - intros w. unfold len. rewrite N.mod_mod by apply two64. rewrite N.add_mod_idemp_l by apply two64.
      rewrite sum64_total, N.add_mod_idemp_r by apply two64.
      rewrite <- N.add_assoc, (N.add_comm ((_ * 4488) mod 2 ^ 64)), N.add_assoc, N.add_mod_idemp_r by apply two64. f_equal. lia.
  Qed.

  Theorem size_ok_iff k : wf (t_package P) k -> held k -> counts_ok P k = true -> size_ok P k = true <-> footprint k <= 13791360.
  Proof.
    intros W Hh C. apply counts_ok_iff in C; [|exact W|exact Hh]. destruct C as (_ & Ci & Cx). pose proof (xts_total k W) as X. apply held_parts in Hh.
    unfold size_ok. cbn zeta. rewrite footprint_mod, leb_mod, N.leb_le; [reflexivity|]. rewrite footprint_split. change (2 ^ 47) with 140737488355328 in Hh. change (2 ^ 32) with 4294967296 in X.
    change (2 ^ 64) with 18446744073709551616. nia.
  Qed.

  Theorem gas_ok_iff g k : acc_gas_in k < 2 ^ 64 -> refine_gas_in k < 2 ^ 64 -> gas_ok P g k = true <-> acc_gas_in k < 10000000 /\ refine_gas_in k < g.
  Proof.
    intros A R. unfold gas_ok. rewrite !sum64_total. change (total (map (i_acc_gas P) (p_items P k))) with (acc_gas_in k).
    change (total (map (i_refine_gas P) (p_items P k))) with (refine_gas_in k). rewrite !N.mod_small by assumption. now rewrite Bool.andb_true_iff, !N.ltb_lt.
  Qed.
End Limits.
