(** The components of the state and their octets (C118, C119). *)
From Verif Require Import Base Codec_Model Codec_Spec Codec2_Proofs Block_Model Stats_Model Stats_Spec StatsCodec_Model StatsCodec_Proofs Codec_Props Comp_Model Comp_Spec Comp_Proofs Comp2_Proofs.
From Coq Require Import Lia.
Open Scope N_scope.

(** ** C118 *)
Theorem components_stored : forall P Z POOL HISTORY QUEUE e, entry_held P Z POOL HISTORY QUEUE e ->
  (exists o, write_entry P Z POOL HISTORY QUEUE e = Ok o /\ Bytes o /\ read_entry P Z POOL HISTORY QUEUE (sort_of P e) o = Ok e) /\
  (forall o, write_entry P Z POOL HISTORY QUEUE e = Ok o <-> gp_entry e o).
Proof.
  intros P Z POOL HISTORY QUEUE e He. destruct (read_back_all _ _ _ _ _ e He) as (o & W & B & R). split; [exists o; auto|].
  intro o'. split; [apply entry_writes; exact He|]. intro G. rewrite W. f_equal. apply (uniq_entry P e); [apply (entry_writes P Z POOL HISTORY QUEUE); auto|exact G].
Qed.
Theorem components_distinct : forall P Z POOL HISTORY QUEUE e1 e2 o, entry_held P Z POOL HISTORY QUEUE e1 -> entry_held P Z POOL HISTORY QUEUE e2 ->
  sort_of P e1 = sort_of P e2 -> write_entry P Z POOL HISTORY QUEUE e1 = Ok o -> write_entry P Z POOL HISTORY QUEUE e2 = Ok o -> e1 = e2.
Proof.
  intros P Z POOL HISTORY QUEUE e1 e2 o H1 H2 S W1 W2. destruct (read_back_all _ _ _ _ _ e1 H1) as (a & A & _ & R1). destruct (read_back_all _ _ _ _ _ e2 H2) as (b & B & _ & R2).
  rewrite W1 in A. rewrite W2 in B. apply ok_inj in A. apply ok_inj in B. subst a b. rewrite S, R2 in R1. apply ok_inj in R1. auto.
Qed.

(** ** C119 *)
(** Whatever follows the octets of a component, unless it is storage or a preimage, is read as if it were not there, though nothing is
    written so. *)
Theorem components_tail_refuted : forall P Z POOL HISTORY QUEUE e o tail, entry_held P Z POOL HISTORY QUEUE e -> sort_of P e <> KStorage -> sort_of P e <> KPreimage ->
  write_entry P Z POOL HISTORY QUEUE e = Ok o -> tail <> [] ->
  read_entry P Z POOL HISTORY QUEUE (sort_of P e) (o ++ tail) = Ok e /\
  ~ exists e', entry_held P Z POOL HISTORY QUEUE e' /\ sort_of P e' = sort_of P e /\ write_entry P Z POOL HISTORY QUEUE e' = Ok (o ++ tail).
Proof.
  intros P Z POOL HISTORY QUEUE e o tail He N1 N2 W T. assert (D : delimited P e) by (destruct e; try exact I; cbn in N1, N2; congruence).
  destruct (read_back _ _ _ _ _ e D He) as (bs & W' & _ & R). rewrite W in W'. apply ok_inj in W'. subst bs. split; [apply R|].
  intros (e' & H' & S & W'). destruct (read_back_all _ _ _ _ _ e' H') as (c & C & _ & R'). rewrite W' in C. apply ok_inj in C. subst c.
  rewrite S, R in R'. apply ok_inj in R'. subst e'. rewrite W in W'. apply ok_inj in W'. apply T. apply (app_inv_head o). rewrite app_nil_r. auto.
Qed.
(** Two sequences of octets of one length are read as the same entry, and octets there are on which reading ends the process. *)
Definition szs : msizes := {| sz_recent := 120; sz_peak := 33; sz_queued := 600; sz_output := 36; sz_tkt := 33; sz_package := 64 |}.
Definition one_vk (n : N) : vk := mk_vk (repeat n 32) (repeat (n + 1) 32) (repeat (n + 2) 144) (repeat (n + 3) 128).
Definition sealed (l : list tkt) : safrole :=
  mk_safrole (map one_vk (map N.of_nat (seq 1 (validator_count ex_params)))) (repeat 9 144) (ByKeys (repeat (repeat 4 32) (epoch_length ex_params))) l.
Definition tk (n : N) : tkt := mk_tkt (repeat n 32) 1.
Theorem components_strict_refuted :
  (exists P Z POOL HISTORY QUEUE k o1 o2 e, Bytes o1 /\ Bytes o2 /\ length o1 = length o2 /\ o1 <> o2 /\
     read_entry P Z POOL HISTORY QUEUE k o1 = Ok e /\ read_entry P Z POOL HISTORY QUEUE k o2 = Ok e) /\
  (exists P Z POOL HISTORY QUEUE k o, Bytes o /\ read_entry P Z POOL HISTORY QUEUE k o = Panic).
Proof.
  split.
  - exists ex_params, szs, 8%nat, 8%nat, 80%nat, KSafrole.
    destruct (write_safrole ex_params szs (sealed [tk 1; tk 2])) as [o1| |] eqn:E1; [|vm_compute in E1; discriminate|vm_compute in E1; discriminate].
    destruct (write_safrole ex_params szs (sealed [tk 2; tk 1])) as [o2| |] eqn:E2; [|vm_compute in E2; discriminate|vm_compute in E2; discriminate].
    exists o1, o2, (ESafrole ex_params (sealed [tk 1; tk 2])). vm_compute in E1, E2. apply ok_inj in E1. apply ok_inj in E2. subst o1 o2.
    repeat split; try (apply bytesb_sound; vm_compute; reflexivity); try (vm_compute; reflexivity). intro F. vm_compute in F. discriminate F.
  - exists ex_params, szs, 8%nat, 8%nat, 80%nat, KDisputes, (repeat 255 9). split; [apply bytesb_sound; reflexivity|vm_compute; reflexivity].
Qed.
(** What holds: a component of fixed length is read as the one whose octets stand at the front. *)
Theorem components_strict_partial : forall P Z POOL HISTORY QUEUE k inp e, fixed_length k = true -> Bytes inp ->
  read_entry P Z POOL HISTORY QUEUE k inp = Ok e -> sort_of P e = k /\ exists o tail, write_entry P Z POOL HISTORY QUEUE e = Ok o /\ inp = o ++ tail.
Proof.
  intros P Z POOL HISTORY QUEUE k inp e K B H. split; [|apply (fixed_reads P Z POOL HISTORY QUEUE k inp e K B H)].
  destruct k; try discriminate K; cbn [read_entry] in H; try (apply ok_inj in H; subst e; reflexivity);
    match type of H with bind ?x _ = _ => destruct x as [[v r]| |]; cbn [bind] in H; try discriminate H end; apply ok_inj in H; subst e; reflexivity.
Qed.

(** ** Cases *)
Lemma sized_repeat : forall n x, is_byte x -> sized n (repeat x n).
Proof. intros n x B. split; [|apply repeat_length]. apply Forall_forall. intros y Hy. apply repeat_spec in Hy. subst y. exact B. Qed.
Ltac held1 := first [ apply sized_repeat; vm_compute; reflexivity | vm_compute; reflexivity | vm_compute; discriminate ].
Definition some_account := mk_account 0 (repeat 7 32) (10 ^ 12) 300 40 1234 0 4 77 99 5.
Definition some_privileges := mk_privileged 1 (repeat 3 (N.to_nat (core_count ex_params))) 2 4 [(5, 1000); (9, 2 ^ 40)].
Example safrole_case : entry_held ex_params szs 8 8 80 (ESafrole ex_params (sealed [tk 1; tk 2])).
Proof.
  cbn [entry_held]. refine (conj _ (conj _ (conj _ (conj (conj _ _) (conj _ (conj _ (conj (conj _ _) _)))))));
    try (vm_compute; reflexivity); try (vm_compute; discriminate); try held1.
  - unfold sealed. cbn [sf_pending]. apply Forall_forall. intros k Hk. apply in_map_iff in Hk. destruct Hk as (n & <- & Hn). apply in_map_iff in Hn. destruct Hn as (m & <- & Hm). apply in_seq in Hm. cbn in Hm.
    repeat split; cbn [one_vk vk_band vk_ed vk_bls vk_meta]; try apply repeat_length; apply Forall_forall; intros y Hy; apply repeat_spec in Hy; subst y; unfold is_byte; lia.
  - apply Forall_forall. intros x Hx. apply repeat_spec in Hx. subst x. held1.
  - cbn. lia.
  - repeat constructor; held1.
  - intros i j a b L A B. destruct i as [|[|i]], j as [|[|j]]; cbn in A, B; try lia; try (destruct j; discriminate B); try (destruct i; discriminate A).
    apply (f_equal (fun o => match o with Some x => x | None => [] end)) in A, B. subst. vm_compute. reflexivity.
Qed.
Example account_case : entry_held ex_params szs 8 8 80 (EAccount ex_params some_account) /\
  write_entry ex_params szs 8 8 80 (EAccount ex_params some_account) =
    Ok ([0] ++ repeat 7 32 ++ le_bytes 8 (10 ^ 12) ++ le_bytes 8 300 ++ le_bytes 8 40 ++ le_bytes 8 1234 ++ le_bytes 8 0 ++ le_bytes 4 4 ++ le_bytes 4 77 ++ le_bytes 4 99 ++ le_bytes 4 5).
Proof. split; [|vm_compute; reflexivity]. cbn [entry_held]. refine (conj _ (conj _ (conj _ _))); repeat constructor; held1. Qed.
Example privileges_case : entry_held ex_params szs 8 8 80 (EPrivileges ex_params some_privileges).
Proof.
  cbn [entry_held]. split; [reflexivity|]. split; [repeat (apply Forall_cons; [reflexivity|]); apply Forall_nil|].
  split; [repeat (apply Forall_cons; [split; reflexivity|]); apply Forall_nil|]. split; [reflexivity|].
  intros i j a b L A B. destruct i as [|[|i]], j as [|[|j]]; cbn in A, B; try lia; try (destruct j; discriminate B); try (destruct i; discriminate A). injection A as <-. injection B as <-. reflexivity.
Qed.
Example pending_case : entry_held ex_params szs 8 8 80 (EPending ex_params (Some (ex_report, 8) :: repeat None (N.to_nat (core_count ex_params) - 1))).
Proof.
  cbn [entry_held]. split; [vm_compute; reflexivity|]. constructor.
  - intros r t H. injection H as <- <-. split; [apply wfb_sound; vm_compute; reflexivity|reflexivity].
  - apply Forall_forall. intros x Hx. apply repeat_spec in Hx. subst x. discriminate.
Qed.
Example lookup_case : entry_held ex_params szs 8 8 80 (ELookup ex_params [3; 70000; 80000]) /\
  write_entry ex_params szs 8 8 80 (ELookup ex_params [3; 70000; 80000]) = Ok (3 :: le_bytes 4 3 ++ le_bytes 4 70000 ++ le_bytes 4 80000) /\
  (exists r, read_entry ex_params szs 8 8 80 KLookup (4 :: repeat 0 16) = Err r).
Proof. split; [cbn [entry_held]; split; [cbn; lia|repeat constructor; held1]|]. split; [vm_compute; reflexivity|]. eexists. vm_compute. reflexivity. Qed.
Example slot_case : read_entry ex_params szs 8 8 80 KSlot [1; 2; 3; 4; 5] = Ok (ESlot ex_params 67305985).
Proof. vm_compute. reflexivity. Qed.

Print Assumptions components_stored.
Print Assumptions components_distinct.
Print Assumptions components_tail_refuted.
Print Assumptions components_strict_refuted.
Print Assumptions components_strict_partial.
