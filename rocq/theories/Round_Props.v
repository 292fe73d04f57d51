(** Properties of a round of accumulation (C41, C74). *)
From Verif Require Import Base PvmMem_Model PvmProg_Model PvmStep_Model PvmInit_Model Codec_Model Gas_Model Sandbox_Model Sandbox_Spec Host_Model Host_Spec Acc_Model Acc_Spec Round_Model Round_Spec Round2_Spec Round10_Proofs Round11_Proofs
  Delta_Model Delta_Spec Delta_Proofs Delta4_Proofs Delta5_Proofs Finite_Proofs Town_Model.
From Coq Require Import Permutation.
Open Scope N_scope.

(** C41. The privileges [l] with which the services of a round come back, each after any host calls, are merged, one service after another. In whatever order that happens, it succeeds and the result
    is the same; the manager, the always-accumulate services, the designator, the registrar, the queues and the validators to come are as in the Graypaper, and so is the assigner of a core, except where the
    manager BLESSed, left that assigner, and it assigned the core to another. *)
Theorem privileges_merge_partial : forall q l, confirmed q -> NoDup (map fst l) -> (forall t p, In (t, p) l -> from_calls q t p) ->
  exists q', (forall l', Permutation l l' -> exists u, fold_left (fun r x => let! u := r in merge_priv q (fst x) u (snd x)) l' (Ok q) = Ok u /\ confirm u = q') /\
    others_after q l q' /\
    forall c a, nth_error (p_assign q) c = Some a ->
      (forall b, p_assign_bless (own l q (p_manager q)) = Some b -> nth_error b c = Some a -> a <> p_manager q -> assigner (own l q a) (N.of_nat c) = a) -> assigner_after q l q' c a.
Proof. exact merge_order. Qed.
(** C74. A round that begins in order ends without an error, with the privileges above; the accounts are the union of what the services left, less what they removed, and the preimages they provided are added where
    they were asked for. The accounts are in order again. The transfers are those of the services, in order. *)
Theorem round_partial : forall fuel G ch e base q entropy metered jobs results, proper G -> e_now e + e_expiry e < 2 ^ 32 -> begins fuel G ch e base q entropy metered jobs results ->
  exists o w, round G e metered base q results = Ok o /\
    (let q' := u_priv (o_union o) in let l := changed (ran results) in others_after q l q' /\ confirmed q' /\
       forall c a, nth_error (p_assign q) c = Some a ->
         (forall b, p_assign_bless (own l q (p_manager q)) = Some b -> nth_error b c = Some a -> a <> p_manager q -> assigner (own l q a) (N.of_nat c) = a) -> assigner_after q l q' c a) /\
    merged (view G base) (worlds G base (ran results)) w /\ provided e (provs metered (ran results)) w (view G (u_sb (o_union o))) /\ sane e G (view G (u_sb (o_union o))) /\
    o_xfers o = sent metered (ran results).
Proof.
  intros fuel G ch e base q entropy metered jobs results PG Eo Be. destruct (round_full PG Eo Be) as (o & w & E & Pv & _ & Mg & Pd & Sn & Xs & _). exists o, w. split; [exact E|]. split; [exact (Pv _ eq_refl)|]. auto.
Qed.

(** ** A round in which both happen: 7 BLESSes, makes an account and pays; 9 ASSIGNs, asks for a preimage and provides one *)
Definition begin (a : N) : lstate := start bpriv 5000 work79 [].
Definition outs (l : listed) (b : lstate) : list (N * option acc_out) := map (result_at (block l) b) (jobs_at (block l) b).
Lemma busy_ids : forall a s, has (accounts_of (busy a)) s -> In s [7; 9; 151652617].
Proof. intros a s H. apply accounts_have in H. cbn [busy map fst In] in *. tauto. Qed.
Lemma busy_order : in_order 100 (accounts_of (busy 9)). Proof. apply fine_ok. vm_compute. reflexivity. Qed.
Lemma bpriv_confirmed : confirmed bpriv. Proof. repeat split. Qed.
Example round_case : begins 100 (accounts_of (busy 9)) [] benv [] bpriv (repeat 3 32) (metered_at (begin 9)) (jobs_at (block (busy 9)) (begin 9)) (outs (busy 9) (begin 9)).
Proof.
  pose proof (@start_steady (block (busy 9)) bpriv 5000 work79 [] busy_order bpriv_confirmed eq_refl) as [S1 S2 [S3 S4]].
  assert (R : results_of 100 (accounts_of (busy 9)) benv [] bpriv (repeat 3 32) (jobs_at (block (busy 9)) (begin 9)) (outs (busy 9) (begin 9))).
  { apply (@runs_results (block (busy 9)) (begin 9)). vm_compute. reflexivity. }
  pose proof (@fair_at_ok (block (busy 9)) [7; 9; 151652617] (busy_ids 9) [] (begin 9) _ ltac:(vm_compute; reflexivity) R) as [F1 F2 F3 F4 F5].
  split; try assumption; try (split; assumption). split; [|exact F2]. change (NoDup (map j_id (jobs_at (block (busy 9)) (begin 9)))). unfold jobs_at. rewrite map_map, map_id. apply services_nodup.
Qed.
Example round_does : match round (accounts_of (busy 9)) benv (metered_at (begin 9)) [] bpriv (outs (busy 9) (begin 9)) with
  | Ok o => p_assign (u_priv (o_union o)) = [9; 6] /\ map t_amount (o_xfers o) = [100] /\ has (view (accounts_of (busy 9)) (u_sb (o_union o))) 151652617 /\
            g_ent (view (accounts_of (busy 9)) (u_sb (o_union o))) 7 (KPreimage (hash_of 9)) = Some [1; 2; 3] /\ g_ent (view (accounts_of (busy 9)) (u_sb (o_union o))) 9 (KLookup ([1; 2; 3] ++ repeat 0 29) 3) = Some []
  | _ => False end.
Proof. vm_compute. repeat split. discriminate. Qed.
(** 7 BLESSes and 9 assigns core 0 to [a]. *)
Definition bmem : PvmMem_Model.mem := mk_mem (fun x => if x =? 101000 then 9 else if x =? 101004 then 6 else 0) (2 ^ 32) (fun _ => ReadWrite) 4096 (2 ^ 20) 0 0 0.
Definition bregs (l : list N) : vm := mk_vm (repeat 0 7 ++ l) bmem 0 10000.
Definition calls_of (t : N) (l : list (N * vm)) : priv :=
  match host_calls (Sandbox_Model.step (accounts_of [])) benv l (([], mk_rest t bpriv 70000 [] None []), ([], mk_rest t bpriv 70000 [] None [])) with Ok (_, c) => r_priv (snd (fst c)) | _ => bpriv end.
Definition blessed : priv := calls_of 7 [(14, bregs [7; 101000; 3; 4; 0; 0])].
Definition assigned (a : N) : priv := calls_of 9 [(15, bregs [0; 102000; a; 0; 0; 0])].
Lemma from_7 : from_calls bpriv 7 blessed.
Proof. exists accounts, (Sandbox_Model.step (accounts_of [])), benv, [(14, bregs [7; 101000; 3; 4; 0; 0])], [], 70000. do 2 eexists. split; [reflexivity|]. split; [vm_compute; reflexivity|]. left. vm_compute. reflexivity. Qed.
Lemma from_9 : from_calls bpriv 9 (assigned 5).
Proof. exists accounts, (Sandbox_Model.step (accounts_of [])), benv, [(15, bregs [0; 102000; 5; 0; 0; 0])], [], 70000. do 2 eexists. split; [reflexivity|]. split; [vm_compute; reflexivity|]. left. vm_compute. reflexivity. Qed.
Example merge_case : confirmed bpriv /\ from_calls bpriv 7 blessed /\ from_calls bpriv 9 (assigned 5) /\ p_assign_bless blessed = Some [9; 6] /\ p_assign_self (assigned 5) = [(0, 5)].
Proof. split; [exact bpriv_confirmed|]. split; [exact from_7|]. split; [exact from_9|]. split; vm_compute; reflexivity. Qed.
(** False without the exception: where the manager BLESSes and leaves the assigner of a core, that assigner's own choice is dropped. *)
Theorem assigner_merge_refuted : exists q l u, confirmed q /\ NoDup (map fst l) /\ (forall t p, In (t, p) l -> from_calls q t p) /\
  fold_left (fun r x => let! u := r in merge_priv q (fst x) u (snd x)) l (Ok q) = Ok u /\ exists c a, nth_error (p_assign q) c = Some a /\ ~ assigner_after q l (confirm u) c a.
Proof.
  exists bpriv, [(7, blessed); (9, assigned 5)]. eexists. split; [exact bpriv_confirmed|]. split; [constructor; [intros [X|[]]; discriminate X | constructor; [intros [] | constructor]]|].
  split; [intros t p [E|[E|[]]]; injection E as <- <-; [exact from_7 | exact from_9]|]. split; [vm_compute; reflexivity|]. exists 0%nat, 9. split; [reflexivity|]. vm_compute. discriminate.
Qed.
(** C74 is false without [in_time]: 9 asked for the preimage that 7 provides; 9 accumulates in the same round, after 7, and the preimage is lost. Had 9 not accumulated, it would be there. *)
Theorem provided_late_refuted : exists G e metered q results o, in_order (e_now e) G /\ confirmed q /\
  results = outs late (start q 5000 work79 []) /\ In (9, [1; 2; 3]) (provs metered (ran results)) /\ solicited e G 9 [1; 2; 3] /\ (forall t r, In (t, r) (worlds G [] (ran results)) -> g_ent r 9 (KLookup (e_hash e [1; 2; 3]) 3) = Some []) /\
  round G e metered [] q results = Ok o /\ g_ent (view G (u_sb (o_union o))) 9 (KPreimage (e_hash e [1; 2; 3])) = None /\
  exists o', round G e metered [] q (firstn 4 results) = Ok o' /\ g_ent (view G (u_sb (o_union o'))) 9 (KPreimage (e_hash e [1; 2; 3])) = Some [1; 2; 3].
Proof.
  exists (accounts_of late), benv, (fun _ => true), bpriv, (outs late (start bpriv 5000 work79 [])). eexists. split; [apply fine_ok; vm_compute; reflexivity|]. split; [exact bpriv_confirmed|]. split; [reflexivity|].
  split; [vm_compute; left; reflexivity|]. split; [split; [apply there_has; vm_compute; reflexivity | vm_compute; reflexivity]|].
  split.
  { intros t r I. apply worlds_in in I as [a [I ->]].
    assert (B : forallb (fun y : N * acc_out => match g_ent (left_by (accounts_of late) [] (a_sb (snd y))) 9 (KLookup (e_hash benv [1; 2; 3]) 3) with Some [] => true | _ => false end) (ran (outs late (start bpriv 5000 work79 []))) = true) by (vm_compute; reflexivity).
    rewrite forallb_forall in B. specialize (B _ I). cbn [snd] in B. destruct (g_ent _ 9 _) as [[|z k]|]; [reflexivity | discriminate | discriminate]. }
  split; [vm_compute; reflexivity|]. split; [vm_compute; reflexivity|]. eexists. split; vm_compute; reflexivity.
Qed.
Print Assumptions privileges_merge_partial.
Print Assumptions round_partial.
Print Assumptions assigner_merge_refuted.
Print Assumptions provided_late_refuted.
