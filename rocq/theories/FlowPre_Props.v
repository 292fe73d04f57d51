(** Against which state a block's preimages are judged (C93). *)
From Verif Require Import Base Base_Proofs Sched_Model Sched_Spec Sched_Proofs Flow_Model Flow_Proofs FlowPre_Spec FlowPre_Proofs.

(** Under every schedule: if accumulation (and the Safrole transition) create none of the entries the extrinsic is about, then the preimages of a block are accepted exactly
    when each was asked for and not supplied in the state the block started from, whatever else the block has done to those entries by then.
    Missing: blocks whose accumulation creates such an entry; the theorems below show that these are judged wrongly, both ways. *)
Theorem preimages_judged_on_prior_partial : forall (X : Type) (b : block_data X) db s s' rs v l r,
  represents db s v -> untouched v -> (b_epoch b = true -> cached s Active <> None /\ cached s Past <> None) ->
  executes comp_eq db calm s (block_flow b) s' rs -> preimages_answer rs = Some r -> b_preimages b = Entries l ->
  (forall x k, In x l -> about x k -> ~ adds (b_safrole b) k /\ forall q, ~ adds (b_accumulate b q) k) ->
  (r <> None -> Forall (wanted (b_is_empty b) db) l) /\
  (Forall (wanted (b_is_empty b) db) l ->
   db Timeslot <> None -> ~ changes (b_safrole b) Timeslot -> (forall q, ~ changes (b_accumulate b q) Timeslot) ->
   (forall t e, b_is_empty b e = true -> b_push b t e <> None) -> r <> None).
Proof.
  intros X b db s s' rs v l r R U W E A L N. destruct (block_ok b db s s' rs v R W E) as [_ ->]. destruct (last_reached b v r A) as [v' [Er [K T]]].
  rewrite L in Er. unfold preimages_task in Er.
  assert (P : forall x, In x l -> wanted (b_is_empty b) (prior v') x <-> wanted (b_is_empty b) db x).
  { intros x I. assert (Q : forall k, account_entry k -> about x k -> prior v' k = db k).
    { intros k Ek Ak. destruct (N x k I Ak) as [N1 N2]. rewrite (K k Ek N1 N2). apply (untouched_db db s v R U k). }
    unfold wanted. rewrite (Q (Preimage (x_service x) (x_hash x)) Logic.I (or_introl eq_refl)), (Q (Lookup (x_service x) (x_hash x) (x_len x)) Logic.I (or_intror eq_refl)). reflexivity. }
  split.
  - intro Z. rewrite Er in Z. apply check_sound in Z. destruct Z as [Z _]. rewrite Forall_forall in *. intros x I. apply P; [exact I|]. apply Z. exact I.
  - intros Z D N1 N2 Pu. rewrite Er, check_complete.
    + unfold need. cbn [alone]. rewrite (T N1 N2). destruct (untouched_db db s v R U Timeslot) as [-> _]. destruct (db Timeslot) as [t|]; [|contradiction]. apply integrate_ok. apply Pu.
    + rewrite Forall_forall in *. intros x I. apply P; [exact I|]. apply Z. exact I.
Qed.

(** * A block that meets the hypotheses, and the two wrong verdicts *)
Definition db1 (k : comp) : option (value N) :=
  match k with
  | Entropy => Some (Eta [[1]; [2]; [3]; [4]]%N)
  | Storage _ _ | Preimage _ _ => None
  | Lookup s h l => if ((s =? 7) && (l =? 1))%N then Some (Other 0%N) else None
  | Metadata s => Some (Other s)
  | _ => Some (Other 0%N)
  end.
Definition v1 : view comp (value N) := mk_view db1 (fun _ => Kept).
Definition s1 : store comp (value N) := mk_store (fun _ => None) (fun _ => false).
Definition value_of (v : value N) : N := match v with Other n => n | Eta _ => 0 end.
Definition up (v : value N) : option (value N) := Some (Other (value_of v + 1)%N).
(** A block with no epoch change and no other extrinsic, with this accumulation and this preimage of service 7. *)
Definition block_with (acc : prog comp (value N) (option (list N))) (x : preimage) : block_data N := {|
  b_epoch := false;
  b_disputes := {| d_shape := Empty; d_offenders := false; d_verdicts_ok := fun _ _ _ => true; d_offenders_ok := fun _ _ _ => true; d_merge := fun v => Some v; d_hash := fun _ _ => Some 1%N |};
  b_past_of := fun a => a; b_pending_of := fun a => a; b_no_history := fun _ => false; b_set_root := fun h => h; b_safrole := Ret (Some []);
  b_hash := fun x => 9%N :: x; b_source := [8%N];
  b_reports := {| r_drop := fun v => Some v; r_assurances := Empty; r_available := fun p => Some []; r_clear := fun _ _ v => Some v; r_guarantees := Empty; r_insert := fun v => Some v |};
  b_accumulate := fun _ => acc; b_pool := fun _ v => Some v; b_stamp := fun _ v => Some v; b_services := fun _ => []; b_roll := fun _ v => Some v; b_keys_ok := fun _ => true;
  b_count := fun _ _ => up; b_stats := fun _ => up; b_is_empty := fun e => (value_of e =? 0)%N; b_push := fun t e => Some (Other 5%N); b_preimages := Entries [x]; b_append := Ret (Some []) |}.
Definition blob (len : N) : @preimage N := {| x_service := 7%N; x_hash := [2%N]; x_len := len; x_data := Other 12%N |}.
Example starts : represents db1 s1 v1 /\ untouched v1.
Proof. split; intro k; [|reflexivity]. split; [split; reflexivity|]. split; [discriminate|intro Z; exfalso; apply Z; reflexivity]. Qed.
Lemma wants : forall acc, Forall (wanted (b_is_empty (block_with acc (blob 1%N))) db1) [blob 1%N].
Proof. intro acc. apply Forall_cons; [|apply Forall_nil]. split; [reflexivity|]. exists (Other 0%N). split; reflexivity. Qed.
(** An accumulation that writes to storage and even withdraws the request: the preimage is accepted, as it was asked for when the block started. *)
Definition withdraws : prog comp (value N) (option (list N)) := Mut (Lookup 7%N [2%N] 1%N) true (fun v => Some v) (fun _ => Add (Storage 7%N [1%N]) (Other 1%N) (fun _ => Ret (Some []))).
Example meets : let b := block_with withdraws (blob 1%N) in
  (forall x k, In x [blob 1%N] -> about x k -> ~ adds (b_safrole b) k /\ forall q, ~ adds (b_accumulate b q) k) /\
  Forall (wanted (b_is_empty b) db1) [blob 1%N] /\ preimages_answer (snd (stages_in_order comp_eq (block_flow b) v1)) = Some (Some []) /\
  now (fst (stages_in_order comp_eq (block_flow b) v1)) (Preimage 7%N [2%N]) = None.
Proof.
  split; [|split; [apply wants|split; vm_compute; reflexivity]].
  intros x k [<-|[]] Ak. split.
  - intros [x [c W]]. inversion W.
  - intros q [x [c W]]. cbn in W. inversion W as [| | |? ? ? ? ? ? W1|]; subst. inversion W1 as [| | | |? ? ? ? ? W2]; subst; [|inversion W2].
    destruct Ak as [Z|Z]; discriminate Z.
Qed.
(** Accumulation asks for the blob and the same block supplies it: accepted and integrated, although nobody had asked when the block started. *)
Definition solicits : prog comp (value N) (option (list N)) := Add (Lookup 7%N [2%N] 3%N) (Other 0%N) (fun _ => Ret (Some [])).
Theorem solicited_in_block_accepted_refuted : exists (b : block_data N) db s v l,
  represents db s v /\ untouched v /\ b_epoch b = false /\ b_preimages b = Entries l /\ ~ Forall (wanted (b_is_empty b) db) l /\
  forall s' rs, executes comp_eq db calm s (block_flow b) s' rs -> exists r, preimages_answer rs = Some (Some r) /\ length rs = 6%nat /\ Forall (fun q => all_ok q = true) rs.
Proof.
  exists (block_with solicits (blob 3%N)), db1, s1, v1, [blob 3%N]. destruct starts as [R U]. split; [exact R|]. split; [exact U|]. split; [reflexivity|]. split; [reflexivity|]. split.
  { intro F. inversion F as [|? ? [_ [e [Z _]]]]. discriminate Z. }
  intros s' rs E. destruct (block_ok (block_with solicits (blob 3%N)) db1 s1 s' rs v1 R (fun Z => False_ind _ (Bool.diff_false_true Z)) E) as [_ ->].
  exists []. split; [vm_compute; reflexivity|]. split; [vm_compute; reflexivity|]. vm_compute. repeat constructor.
Qed.
(** Accumulation supplies the blob a service had asked for, and the same block's extrinsic supplies it too: the block is rejected, although the request was open when the block started. *)
Definition provides : prog comp (value N) (option (list N)) := change (Lookup 7%N [2%N] 1%N) (fun _ => Some (Other 4%N)) (Add (Preimage 7%N [2%N]) (Other 12%N) (fun _ => Ret (Some []))).
Theorem provided_in_block_rejected_refuted : exists (b : block_data N) db s v l,
  represents db s v /\ untouched v /\ b_epoch b = false /\ b_preimages b = Entries l /\ Forall (wanted (b_is_empty b) db) l /\
  db Timeslot <> None /\ (forall k, k = Timeslot -> ~ changes (b_safrole b) k /\ forall q, ~ changes (b_accumulate b q) k) /\ (forall t e, b_push b t e <> None) /\
  forall s' rs, executes comp_eq db calm s (block_flow b) s' rs -> preimages_answer rs = Some None.
Proof.
  exists (block_with provides (blob 1%N)), db1, s1, v1, [blob 1%N]. destruct starts as [R U]. split; [exact R|]. split; [exact U|]. split; [reflexivity|]. split; [reflexivity|].
  split; [apply wants|]. split; [discriminate|]. split.
  { intros k ->. split.
    - intros [[r [f [c W]]]|[x [c W]]]; inversion W.
    - intros q [[r [f [c W]]]|[x [c W]]]; cbn in W; unfold provides, change in W; inversion W as [| | |? ? ? ? ? bb W1|]; subst;
        (destruct bb; [inversion W1 as [| | | |? ? ? ? ? W2]; subst; inversion W2|inversion W1]). }
  split; [discriminate|]. intros s' rs E. destruct (block_ok (block_with provides (blob 1%N)) db1 s1 s' rs v1 R (fun Z => False_ind _ (Bool.diff_false_true Z)) E) as [_ ->]. vm_compute. reflexivity.
Qed.
Print Assumptions preimages_judged_on_prior_partial.
Print Assumptions solicited_in_block_accepted_refuted.
Print Assumptions provided_in_block_rejected_refuted.
