(** Properties of the accumulation of one service (C71-C73). *)
From Verif Require Import Base PvmMem_Model PvmProg_Model PvmStep_Model PvmInit_Model PvmInit_Spec PvmProg_Spec Codec_Model Sandbox_Model Sandbox_Spec Host_Model Host_Spec Acc_Model Acc_Spec Host6_Proofs Acc2_Proofs Host_Props.
Open Scope N_scope.

(** C71. A completed accumulation of [t] that received [recv] in transfers. Either [t] has no code, or too much, and nothing but the receipt happens. Or the program ran
    from a fresh context over the accounts with the receipt; [l] are the host calls it made; and the result is the context after all of them if it ended regularly, and
    the context at its last checkpoint (the fresh one, if there is none) if it ran out of gas or panicked. *)
Theorem accumulation_outcome : forall fuel G ch e sb p t recv inputs limit entropy out,
  proper G -> sb_ok G ch sb -> In t ch -> e_now e + e_expiry e < 2 ^ 32 -> settled e (view G sb) t ->
  accumulate fuel G e sb p t recv inputs limit entropy = Some (Ok (Some out)) ->
  let w := received (view G sb) t recv in
  exists m, g_meta w t = Some m /\
  ((out = mk_acc (a_sb out) p [] None 0 [] /\ account_eq (view G (a_sb out)) w t /\ (forall s, s <> t -> account_eq (view G (a_sb out)) G s) /\
    match g_ent w t (KPreimage (m_code m)) with None => True | Some v => exists code, split_code v = Ok code /\ 4000000 < N.of_nat (length code) end) \/
  exists v code o c0 x y l hs,
    g_ent w t (KPreimage (m_code m)) = Some v /\ split_code v = Ok code /\ N.of_nat (length code) <= 4000000 /\
    fresh G e w t p entropy c0 /\ ready G ch e (c0, c0) /\
    invoke_with_args (noted (host (step G) e)) fuel Accumulate code 5 limit (integer_encode (e_now e) ++ integer_encode t ++ integer_encode inputs) ((c0, c0), [])
      = Some (Ok (a_gas out, o, ((x, y), l))) /\
    host_calls (step G) e l (c0, c0) = Ok (hs, (x, y)) /\ fallback (step G) e l c0 y /\
    a_sb out = fst (result_from o x y) /\ a_priv out = r_priv (snd (result_from o x y)) /\ a_xfers out = r_xfers (snd (result_from o x y)) /\
    a_prov out = r_prov (snd (result_from o x y)) /\ a_yield out = yield_from o x y).
Proof. exact accumulate_ok. Qed.
(** C72. Money: such calls, each permitted, leave what the accounts held after the receipt, in accounts and transfers. *)
Theorem accumulation_conserves_partial : forall G ch e c0 l hs x y o w t recv v m, ready G ch e (c0, c0) -> permitted_run G ch e l (c0, c0) -> host_calls (step G) e l (c0, c0) = Ok (hs, (x, y)) ->
  same (view G (fst c0)) (received w t recv) -> r_xfers (snd c0) = [] -> g_meta w t = Some m -> holds w v ->
  exists v', holds (view G (fst (result_from o x y))) v' /\ v' + sum (map t_amount (r_xfers (snd (result_from o x y)))) = v + recv.
Proof. intros G ch e c0 l hs x y o w t recv v m R P E S X M V. exact (@trace_conserves G ch e c0 l hs x y o (received w t recv) (v + recv) R P E S X (holds_received _ recv V M)). Qed.
(** C73. The code that runs is what the code preimage holds after its metadata, if no octet of the metadata is 128 or more. *)
Theorem service_code_partial : forall md code, Forall (fun b => b < 128) md -> N.of_nat (length md) < 2 ^ 63 -> split_code (integer_encode (N.of_nat (length md)) ++ md ++ code) = Ok code.
Proof. exact split_ok. Qed.
Example service_code_case : split_code ([2; 65; 66] ++ [9; 200; 1]) = Ok [9; 200; 1]. Proof. reflexivity. Qed.
(** False otherwise: an octet of 128 or more in the metadata takes octets from the code, or is an error, which fails the block. *)
Theorem service_code_refuted : (exists md code code', split_code (integer_encode (N.of_nat (length md)) ++ md ++ code) = Ok code' /\ Bytes (md ++ code) /\ code' <> code) /\
  exists md code, Bytes (md ++ code) /\ split_code (integer_encode (N.of_nat (length md)) ++ md ++ code) = Err ConversionError.
Proof.
  split; [exists [128], [9; 200; 1], [200; 1] | exists [192], [9; 200; 1]]; repeat split; try reflexivity; try discriminate; repeat (constructor; [reflexivity|]); constructor.
Qed.

(** ** A service that pays: TRANSFER 100 to 9, CHECKPOINT, TRANSFER 100 to 9, and then a regular end or a trap. *)
Definition pay : bytes := [51; 7; 9; 51; 8; 100; 51; 9; 5; 51; 10; 0; 0; 1; 10; 20].
Definition pay_mask : list bool := [true; false; false; true; false; false; true; false; false; true; false; false; false; false; true; false].
Definition payer (last : bytes) : bytes :=
  standard [1; 2; 3] [4; 5] (program_blob 0 [] ([0; 0; 0; 0; 0] ++ pay ++ [10; 17] ++ pay ++ last)
    ([true; true; true; true; true] ++ pay_mask ++ [true; false] ++ pay_mask ++ true :: map (fun _ => false) (skipn 1 last))) 1 5000.
Definition C7 : bytes := repeat 1 32.
Definition work (size : N) (pre : bytes) : gstate :=
  mk_g (fun s => if s =? 7 then Some (mk_meta C7 100000 10 10 (81 + size) 0 2 5 5 0) else if s =? 9 then Some (mk_meta (repeat 2 32) 200 0 5 0 0 0 5 5 0) else None)
       (fun s k => if s =? 7 then if ekey_eq k (KPreimage C7) then Some pre else if ekey_eq k (KLookup C7 size) then Some [5] else None else None).
Definition works (last : bytes) : gstate := work (N.of_nat (length (payer last)) + 3) ([2; 65; 66] ++ payer last).
Definition wenv : env := mk_env 100 (fun _ => repeat 0 32) 2 6 32 (fun _ _ => None).
Definition wpriv : priv := mk_priv 1 [7; 2] None [] (mk_role 3 None None) (mk_role 4 None None) [] [[]; []] None.
Example regular_end : match accumulate 9 (works [50; 0]) wenv [] wpriv 7 50 1 1000 (repeat 3 32) with
  | Some (Ok (Some out)) => map t_amount (a_xfers out) = [100; 100] /\ option_map m_balance (g_meta (view (works []) (a_sb out)) 7) = Some 99850 /\ 0 < a_gas out
  | _ => False end.
Proof. vm_compute. repeat split. Qed.
Example trap_end : match accumulate 9 (works [0]) wenv [] wpriv 7 50 1 1000 (repeat 3 32) with
  | Some (Ok (Some out)) => map t_amount (a_xfers out) = [100] /\ option_map m_balance (g_meta (view (works []) (a_sb out)) 7) = Some 99950
  | _ => False end.
Proof. vm_compute. repeat split. Qed.
Lemma work_settled : forall size pre, size < 90000 -> proper (work size pre) /\ sb_ok (work size pre) [7] [] /\ settled wenv (view (work size pre) []) 7.
Proof.
  intros size pre L. assert (P : proper (work size pre)) by (intros s E k; unfold work in *; cbn [g_meta g_ent] in *; destruct (s =? 7); [discriminate | reflexivity]).
  split; [exact P|]. split; [split; [constructor | intros s b E; discriminate]|]. exists wpriv, 70000.
  assert (Ent : forall s k, g_ent (view (work size pre) []) s k = if s =? 7 then if ekey_eq k (KPreimage C7) then Some pre else if ekey_eq k (KLookup C7 size) then Some [5] else None else None) by reflexivity.
  assert (Met : forall s, g_meta (view (work size pre) []) s =
    if s =? 7 then Some (mk_meta C7 100000 10 10 (81 + size) 0 2 5 5 0) else if s =? 9 then Some (mk_meta (repeat 2 32) 200 0 5 0 0 0 5 5 0) else None) by reflexivity.
  split; cbn [fst snd r_host r_next].
  - exact P.
  - intros s m E. rewrite Met in E.
    destruct (N.eqb_spec s 7) as [->|D7]; [|destruct (N.eqb_spec s 9) as [->|D9]; [|discriminate]]; injection E as <-.
    + exists [KPreimage C7; KLookup C7 size]. split; [constructor; [intros [X|[]]; discriminate X | constructor; [intros [] | constructor]]|]. split; [|split].
      * intros k. rewrite Ent. cbn [N.eqb Pos.eqb In]. destruct (ekey_eq k (KPreimage C7)) as [->|A]; [split; [discriminate | left; reflexivity]|]. destruct (ekey_eq k (KLookup C7 size)) as [->|B]; [split; [discriminate | right; left; reflexivity]|].
        split; [intros [X|[X|[]]]; congruence | congruence].
      * reflexivity.
      * cbn [map]. rewrite !Ent. cbn [N.eqb Pos.eqb]. destruct (ekey_eq (KPreimage C7) (KPreimage C7)); [|contradiction]. destruct (ekey_eq (KLookup C7 size) (KPreimage C7)); [discriminate|].
        destruct (ekey_eq (KLookup C7 size) (KLookup C7 size)); [|contradiction]. change (81 + size = 0 + (81 + size + 0)). lia.
    + exists []. split; [constructor|]. split; [|split; reflexivity]. intros k. rewrite Ent. cbn [N.eqb Pos.eqb In]. split; [intros [] | congruence].
  - intros s h. rewrite Ent. destruct (N.eqb_spec s 7) as [->|]; [|congruence]. destruct (ekey_eq (KPreimage h) (KPreimage C7)) as [E|E].
    + injection E as ->. intros _. exists size. rewrite Ent. cbn [N.eqb Pos.eqb]. destruct (ekey_eq (KLookup C7 size) (KPreimage C7)); [discriminate|]. destruct (ekey_eq (KLookup C7 size) (KLookup C7 size)); [discriminate | contradiction].
    + destruct (ekey_eq (KPreimage h) (KLookup C7 size)); congruence.
  - intros s h len l. rewrite Ent. destruct (s =? 7); [|discriminate]. destruct (ekey_eq (KLookup h len) (KPreimage C7)); [discriminate|]. destruct (ekey_eq (KLookup h len) (KLookup C7 size)); [|discriminate].
    intros E. injection E as <-. split; [auto|]. repeat constructor; discriminate.
  - intros s h len. rewrite Ent. destruct (s =? 7); [|congruence]. destruct (ekey_eq (KLookup h len) (KPreimage C7)); [discriminate|]. destruct (ekey_eq (KLookup h len) (KLookup C7 size)) as [E|E]; [|congruence].
    injection E as _ ->. lia.
  - eexists. split; [rewrite Met; reflexivity|]. unfold least. cbn [m_items m_octets m_gratis m_balance]. lia.
  - split; [split; [discriminate | reflexivity] | reflexivity].
Qed.
Example works_settled : proper (works [0]) /\ sb_ok (works [0]) [7] [] /\ settled wenv (view (works [0]) []) 7.
Proof. unfold works. apply work_settled. vm_compute. reflexivity. Qed.
Example conserves_case : ready town [7] tenv (start, start) /\ permitted_run town [7] tenv calls (start, start) /\ same (view town (fst start)) (received town 7 0) /\ g_meta town 7 = Some m7 /\ holds town 100700.
Proof.
  split; [exact town_ready|]. split; [exact calls_permitted|]. split; [apply Sandbox_Proofs.same_sym, received_0|]. split; [reflexivity|]. destruct town_worth as [b [B E]]. cbn in E. rewrite N.add_0_r in E. subst b. exact B.
Qed.
Print Assumptions accumulation_outcome.
Print Assumptions accumulation_conserves_partial.
Print Assumptions service_code_partial.
Print Assumptions service_code_refuted.
