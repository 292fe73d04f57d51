(** Properties of concurrent execution of a block's transitions (C49). *)
From Verif Require Import Base Base_Proofs Sched_Model Sched_Spec Sched_Proofs Flow_Model Flow_Proofs.

(** Tasks sharing the state manager, under every schedule of their steps and every eviction of entries they do not change: if every component is changed
    by at most one task, and the others read of it only what the block found or what does not change, with such components cached beforehand,
    then the answers and the resulting state are those of the tasks run one after the other, and no task sees another.
    Missing: the conditions on the cache; the theorems below show what happens without them. *)
Theorem tasks_any_schedule_partial : forall (K V A P : Type) (eqk : forall a b : K, {a = b} + {a <> b}) (part : K -> V -> P) owner (tasks : list (prog K V A)) db v s l s' ts rs,
  represents db s v -> apart part owner tasks (fun k => cached s k <> None) -> calm tasks l ->
  run eqk db (s, map steps tasks) l = (s', ts) -> results ts = Some rs ->
  rs = snd (in_order eqk tasks v) /\ rs = map (fun p => snd (alone eqk p v)) tasks /\ represents db s' (fst (in_order eqk tasks v)).
Proof. intros. eapply stage_ok; eassumption. Qed.

(** No schedule gets stuck: whatever the tasks have done so far, they can all be brought to an end. *)
Theorem tasks_finish : forall (K V A : Type) (eqk : forall a b : K, {a = b} + {a <> b}) (db : K -> option V) (tasks : list (prog K V A)) s l,
  exists l' rs, results (snd (run eqk db (s, map steps tasks) (l ++ l'))) = Some rs.
Proof.
  intros K V A eqk db tasks s l. destruct (run eqk db (s, map steps tasks) l) as [s1 ts] eqn:E. destruct (can_finish eqk db ts s1) as [l' [s2 [ts' [rs [E2 [E3 _]]]]]].
  exists l', rs. rewrite run_app, E, E2. exact E3.
Qed.

(** A whole block: the stages of the executor with the accesses its transitions make, whatever they compute. Missing: as above; on an epoch change the active and
    past validator sets must be cached when the first stage starts, and the cache must not drop what the tasks of a stage change. *)
Theorem block_any_schedule_partial : forall (X : Type) (b : block_data X) db s s' rs v,
  represents db s v -> (b_epoch b = true -> cached s Active <> None /\ cached s Past <> None) ->
  executes comp_eq db calm s (block_flow b) s' rs ->
  represents db s' (fst (stages_in_order comp_eq (block_flow b) v)) /\ rs = snd (stages_in_order comp_eq (block_flow b) v).
Proof. intros. eapply block_ok; eassumption. Qed.

(** So any two executions of a block agree on every answer, on which components changed, and on the changes to be committed. *)
Theorem block_schedules_agree_partial : forall (X : Type) (b : block_data X) db s s1 r1 s2 r2 v,
  represents db s v -> (b_epoch b = true -> cached s Active <> None /\ cached s Past <> None) ->
  executes comp_eq db calm s (block_flow b) s1 r1 -> executes comp_eq db calm s (block_flow b) s2 r2 ->
  r1 = r2 /\ forall k, dirty s1 k = dirty s2 k /\
    (dirty s1 k = true -> exists e1 e2, cached s1 k = Some e1 /\ cached s2 k = Some e2 /\ e_kind e1 = e_kind e2 /\ (e_kind e1 <> KRemove -> e_value e1 = e_value e2)).
Proof.
  intros X b db s s1 r1 s2 r2 v R W E1 E2. destruct (block_ok b db s s1 r1 v R W E1) as [R1 Q1]. destruct (block_ok b db s s2 r2 v R W E2) as [R2 Q2].
  split; [congruence|]. intro k. set (w := fst (stages_in_order comp_eq (block_flow b) v)) in *. clearbody w.
  destruct (R1 k) as [C1 D1]. destruct (R2 k) as [C2 D2]. split.
  - destruct (dirty s1 k), (dirty s2 k); try reflexivity; exfalso.
    + assert (false = true) by (apply D2, D1; reflexivity). discriminate.
    + assert (false = true) by (apply D1, D2; reflexivity). discriminate.
  - intro D. apply D1 in D. destruct (cached s1 k) as [e1|]; [|exfalso; apply D; apply C1]. destruct (cached s2 k) as [e2|]; [|exfalso; apply D; apply C2].
    exists e1, e2. split; [reflexivity|]. split; [reflexivity|]. destruct C1 as [_ C1], C2 as [_ C2].
    destruct (e_kind e1); [exfalso; apply D; apply C1|..]; (destruct (e_kind e2); [exfalso; apply D; apply C2|..]); rewrite C1 in C2; try discriminate C2; split; try reflexivity; intro; congruence.
Qed.

(** Every block has an execution. *)
Theorem block_executes : forall (K V A : Type) (eqk : forall a b : K, {a = b} + {a <> b}) (db : K -> option V) (f : flow K V A) s, exists s' rs, executes eqk db calm s f s' rs.
Proof.
  intros K V A eqk db f. induction f as [|tasks next IH]; intro s.
  - exists s, []. constructor.
  - destruct (can_finish eqk db (map steps tasks) s) as [l [s1 [ts [r [E [Er C]]]]]]. destruct (IH r s1) as [s2 [rs E2]]. exists s2, (r :: rs).
    eapply ex_stage; [|exact E|exact Er|exact E2]. intros k p I. exfalso. exact (C k I).
Qed.

(** * A block that meets the hypotheses *)
Definition db0 (k : comp) : option (value N) :=
  match k with
  | Entropy => Some (Eta [[1]; [2]; [3]; [4]]%N)
  | Active => Some (Other 10%N) | Past => Some (Other 20%N) | SafroleC => Some (Other 30%N)
  | Storage _ _ | Preimage _ _ => None | Lookup s _ _ => if (s =? 7)%N then Some (Other 0%N) else None
  | Metadata s => if (s <? 9)%N then Some (Other s) else None
  | _ => Some (Other 0%N)
  end.
Definition v0 : view comp (value N) := mk_view db0 (fun _ => Kept).
Definition warm (k : comp) : bool := match k with Active | Past | Timeslot => true | _ => false end.
Definition s_warm : store comp (value N) := mk_store (fun k => if warm k then option_map clean_entry (db0 k) else None) (fun _ => false).
Definition s_cold : store comp (value N) := mk_store (fun _ => None) (fun _ => false).
Definition num (v : value N) : N := match v with Other n => n | Eta _ => 0 end.
Definition put (n : N) (v : value N) : option (value N) := Some (Other n).
Definition bump (v : value N) : option (value N) := Some (Other (num v + 1)%N).
Definition b0 : block_data N := {|
  b_epoch := true;
  b_disputes := {| d_shape := Entries tt; d_offenders := true; d_verdicts_ok := fun d a p => (num a =? 10)%N && (num p =? 20)%N; d_offenders_ok := fun d a p => true;
                   d_merge := bump; d_hash := fun s d => Some (num s + num d)%N |};
  b_past_of := fun a => a; b_pending_of := fun s => Other (num s + 1)%N; b_no_history := fun _ => false; b_set_root := fun h => Other (num h + 5)%N;
  b_safrole := need Active (fun a => change SafroleC (put (num a)) (Ret (Some [])));
  b_hash := fun x => 9%N :: x; b_source := [8%N];
  b_reports := {| r_drop := bump; r_assurances := Entries [{| a_set_ok := fun a => (num a =? 10)%N; a_pending_ok := fun _ => true |}]; r_available := fun p => Some [num p];
                  r_clear := fun p t => bump;
                  r_guarantees := Entries [{| g_pre := true; g_gas := [(3%N, fun m => (num m =? 3)%N)]; g_check := fun l => true; g_code := [(3%N, fun _ => true)]; g_form := true;
                    g_creds := [{| c_current := fun t => true; c_same_epoch := fun _ => true; c_check := fun b t e s d => Some (hd 0%N e + num s + num d)%N |};
                                {| c_current := fun t => false; c_same_epoch := fun _ => false; c_check := fun b t e s d => Some (hd 0%N e + num s + num d)%N |}] |}];
                  r_insert := bump |};
  b_accumulate := fun r => change AuthQueue (put 77%N) (Add (Storage 3%N [1%N]) (Other 6%N) (fun _ => change (Metadata 3%N) bump (Ret (Some [3%N; 40%N]))));
  b_pool := fun q p => Some (Other (num q + num p)%N); b_stamp := fun t m => Some (Other (num m + 100)%N); b_services := fun r => [3%N; 40%N];
  b_roll := fun st v => bump v; b_keys_ok := fun a => true; b_count := fun r a v => bump v; b_stats := fun r v => bump v;
  b_is_empty := fun e => (num e =? 0)%N; b_push := fun t e => put 5%N e; b_preimages := Entries [{| x_service := 7%N; x_hash := [2%N]; x_len := 1%N; x_data := Other 12%N |}];
  b_append := change History bump (Ret (Some [])) |}.
Example start_warm : represents db0 s_warm v0 /\ (b_epoch b0 = true -> cached s_warm Active <> None /\ cached s_warm Past <> None).
Proof.
  split; [|intros _; split; discriminate]. intro k.
  split; [|split; [discriminate|intro Z; exfalso; apply Z; reflexivity]]. destruct k; cbn; repeat split; reflexivity.
Qed.
Example start_cold : represents db0 s_cold v0.
Proof. intro k. split; [split; reflexivity|]. split; [discriminate|intro Z; exfalso; apply Z; reflexivity]. Qed.
(** One after the other it succeeds, with these answers and changes. *)
Example block_in_order : let (v, rs) := stages_in_order comp_eq (block_flow b0) v0 in
  rs = [[Some [1%N]; Some []; Some []; Some []; Some []]; [Some []]; [Some [1; 14; 34]%N; Some []]; [Some [3; 40]%N]; [Some []; Some []; Some []; Some []]; [Some []]] /\
  map (now v) [Active; Past; SafroleC; Entropy; Disputes; Pending; AuthPool; Stats; History; Metadata 3%N; Preimage 7%N [2%N]; Lookup 7%N [2%N] 1%N] =
  [Some (Other 31); Some (Other 10); Some (Other 31); Some (Eta [[9; 1; 8]; [1]; [2]; [3]]); Some (Other 1); Some (Other 3); Some (Other 77); Some (Other 3); Some (Other 6);
   Some (Other 104); Some (Other 12); Some (Other 5)]%N.
Proof. vm_compute. split; reflexivity. Qed.
(** The tasks of the first stage taking turns, step by step, do the same. *)
Definition turns (n tasks : nat) : list (event comp) := concat (repeat (map Run (seq 0 tasks)) n).
Example first_in_turns : exists s ts, run comp_eq db0 (s_warm, map steps (first_tasks b0)) (Evict Timeslot :: turns 30 5) = (s, ts) /\
  results ts = Some [Some [1%N]; Some []; Some []; Some []; Some []] /\ option_map e_value (cached s Active) = Some (Other 31%N) /\ cached s Timeslot = None /\
  calm (first_tasks b0) (Evict Timeslot :: turns 30 5).
Proof.
  eexists. eexists. split; [vm_compute; reflexivity|]. split; [reflexivity|]. split; [vm_compute; reflexivity|]. split; [vm_compute; reflexivity|].
  intros k p [I|I] Ip C.
  - inversion I; subst. apply In_nth_error in Ip. destruct Ip as [i Ip]. destruct (first_apart b0 (fun _ => True)) as [A _]; [auto|]. specialize (A i p Timeslot Ip C). discriminate A.
  - exfalso. revert I. unfold turns. rewrite in_concat. intros [x [Ix Jx]]. apply repeat_spec in Ix. subst x. cbn in Jx. repeat (destruct Jx as [Jx|Jx]; [discriminate Jx|]). exact Jx.
Qed.

(** * Without the sets in the cache, or with the cache dropping an entry a task is changing *)
(** On an epoch change with the active set not cached: the disputes check reads it from the database, the active set's transition then installs the new set, and the disputes check
    puts the old one over it. All tasks report success; run one after the other they install the new set. *)
Definition lost_schedule : list (event comp) :=
  repeat (Run 0) 5 ++ repeat (Run 3) 9 ++ repeat (Run 0) 40 ++ repeat (Run 1) 20 ++ repeat (Run 2) 20 ++ repeat (Run 4) 20.
Theorem lost_update_refuted : exists (b : block_data N) db s v l s' ts rs,
  represents db s v /\ (forall k, ~ In (Evict k) l) /\ run comp_eq db (s, map steps (first_tasks b)) l = (s', ts) /\ results ts = Some rs /\ all_ok rs = true /\
  rs = snd (in_order comp_eq (first_tasks b) v) /\
  now (fst (in_order comp_eq (first_tasks b) v)) Active <> now v Active /\
  option_map e_value (cached s' Active) = now v Active /\ option_map e_kind (cached s' Active) = Some KClean /\ dirty s' Active = true.
Proof.
  exists b0, db0, s_cold, v0, lost_schedule. eexists. eexists. eexists. split; [exact start_cold|]. split.
  { intros k I. unfold lost_schedule in I. repeat (apply in_app_or in I; destruct I as [I|I]; [apply repeat_spec in I; discriminate I|]). apply repeat_spec in I. discriminate I. }
  split; [vm_compute; reflexivity|]. split; [reflexivity|]. split; [reflexivity|]. split; [vm_compute; reflexivity|]. split; [vm_compute; discriminate|].
  split; [vm_compute; reflexivity|]. split; vm_compute; reflexivity.
Qed.
(** A single task, its component dropped from the cache between its loading and its change: the transition fails. *)
Theorem evicted_update_refuted : exists (b : block_data N) db s v l s' ts (rs : list (option (list N))),
  represents db s v /\ run comp_eq db (s, map steps [entropy_epoch_task (X := N) (b_epoch b)]) l = (s', ts) /\ results ts = Some rs /\
  rs = [None] /\ snd (in_order comp_eq [entropy_epoch_task (X := N) (b_epoch b)] v) = [Some []].
Proof.
  exists b0, db0, s_cold, v0, [Run 0; Run 0; Run 0; Evict Entropy; Run 0]. eexists. eexists. eexists. split; [exact start_cold|].
  split; [vm_compute; reflexivity|]. split; [reflexivity|]. split; vm_compute; reflexivity.
Qed.
Print Assumptions tasks_any_schedule_partial.
Print Assumptions tasks_finish.
Print Assumptions block_any_schedule_partial.
Print Assumptions block_schedules_agree_partial.
Print Assumptions block_executes.
Print Assumptions lost_update_refuted.
Print Assumptions evicted_update_refuted.
