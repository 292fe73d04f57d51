(** C23, C24: gas accounting of accumulation. *)
From Verif Require Import Base Queue_Model Gas_Model Gas_Spec Gas_Proofs.
Open Scope N_scope.

(** * C23 *)
(** The reports taken are the longest prefix whose declared gas fits. *)
Theorem max_processable_longest_prefix : forall reports limit, limit < 2 ^ 64 ->
  let k := max_processable_reports reports limit in
  (k <= length reports)%nat /\ declared (firstn k reports) <= limit /\
  forall k', (k' <= length reports)%nat -> declared (firstn k' reports) <= limit -> (k' <= k)%nat.
Proof. exact max_processable_spec. Qed.
Example max_processable_case :
  max_processable_reports [[mk_digest 1 5; mk_digest 2 4]; []; [mk_digest 3 1]; [mk_digest 1 1]] 10 = 3%nat /\
  max_processable_reports [[mk_digest 1 (2 ^ 64 - 1); mk_digest 2 4]] (2 ^ 64 - 1) = 0%nat.
Proof. vm_compute. auto. Qed.

(** * C24 *)
(** When accumulation finishes, whatever the services do: the rounds took a prefix of the reports in order; each round's reports
    were within the gas then left, which is the block limit plus the transferred gas handed out so far minus what was spent;
    each service ran with exactly its share; and the gas spent over all rounds is within the block limit plus transferred gas.
    Nothing that fits is left over: no transfer is outstanding and the next report does not fit. *)
Theorem accumulation_gas_bounded : forall fuel o limit reports always count log,
  NoDup (map fst always) -> (forall p, In p always -> snd p < 2 ^ 64) -> limit < 2 ^ 64 ->
  accumulate_outer fuel o limit reports always = Some (Finished count log) ->
  spent log <= limit + received log /\
  (count <= length reports)%nat /\ concat (map l_reports log) = firstn count reports /\
  (forall before r after, log = before ++ r :: after ->
     l_remaining r + spent before = limit + received before /\
     declared (l_reports r) <= l_remaining r /\
     l_transfers r = sent_before before /\
     l_always r = match before with [] => always | _ => [] end /\
     (forall s u, In (s, u) (l_pairs r) -> exists sent,
        o (length before) s (share (l_always r) (l_reports r) (l_transfers r) s) = Some (u, sent)) /\
     (forall x, In x (l_sent r) -> exists s u sent, In (s, u) (l_pairs r) /\
        o (length before) s (share (l_always r) (l_reports r) (l_transfers r) s) = Some (u, sent) /\ In x sent)) /\
  sent_before log = [] /\ (log = [] -> always = []) /\
  (forall next, nth_error reports count = Some next -> limit + received log < spent log + total (map d_gas next)).
Proof.
  intros fuel o limit reports always count log Hn Hb Hl H. unfold accumulate_outer in H.
  destruct (outer_sound fuel o limit always reports Hn) with (log := @nil round_log) (2 := H) as ([G1 G2] & A & B & C & D & E); auto.
  - intros p Hp. apply Hb in Hp. unfold u64_max. lia.
  - unfold u64_max. lia.
  - split; [intros [|? ?] ? ? ?; discriminate|cbn; lia].
  - split; [assumption|]. split; [assumption|]. split; [assumption|]. split; [|auto].
    intros before r after El. destruct (G1 _ _ _ El) as (R1 & R2 & R3 & R4 & R5 & _ & R7). repeat split; auto.
Qed.
(** The shares of a round add up to its reports', transfers' and always-accumulate gas: nothing is handed out twice. *)
Theorem accumulation_shares_partition : forall always reports ts,
  NoDup (metered always reports ts) /\
  (forall s, In s (metered always reports ts) <->
     In s (map d_service (concat reports)) \/ In s (map x_to ts) \/ In s (map fst always)) /\
  total (map (share always reports ts) (metered always reports ts)) = total (map snd always) + declared reports + carried ts.
Proof.
  intros always reports ts. split; [apply metered_NoDup|]. split; [intros; apply metered_In|apply share_partition].
Qed.
(** Accumulation ends, for any services that keep to their gas and pay for their transfers. *)
Theorem accumulation_terminates : forall o limit reports always, metered_oracle o -> limit < 2 ^ 64 ->
  exists fuel r, forall fuel', (fuel <= fuel')%nat -> accumulate_outer fuel' o limit reports always = Some r.
Proof. intros. apply outer_terminates; [assumption|unfold u64_max; lia]. Qed.

(** A block can be lost to gas accounting although every service keeps to its gas: the always-accumulate gas is not set aside
    when the first round's reports are chosen. The numbers are those of the full chain spec: 341 cores, 10 million gas per core and
    per report; one always-accumulate service with 200 million gas and 361 ready reports. *)
Definition use_all : oracle := fun _ _ g => Some (g, []).
Theorem accumulation_gas_failure_refuted :
  exists (always : list (N * N)) (reports : list greport),
    NoDup (map fst always) /\ (forall r, In r reports -> total (map d_gas r) <= 10000000) /\ metered_oracle use_all /\
    forall fuel, (0 < fuel)%nat ->
      accumulate_outer fuel use_all (block_gas_limit 3500000000 10000000 341 always) reports always = Some GasOverflow.
Proof.
  exists [(1, 200000000)], (repeat [mk_digest 7 10000000] 361). split.
  { constructor; [intros []|constructor]. }
  split. { intros r Hr. apply repeat_spec in Hr. subst r. vm_compute. discriminate. }
  split. { intros round s g used sent Q. injection Q as <- <-. cbn. lia. }
  intros [|fuel] Hf; [lia|]. unfold accumulate_outer. rewrite outer_unfold. vm_compute. reflexivity.
Qed.
(** It cannot when the first round's reports leave room for the always-accumulate gas. *)
Theorem accumulation_no_gas_failure_partial : forall fuel o limit reports always, metered_oracle o -> NoDup (map fst always) ->
  limit < 2 ^ 64 ->
  total (map snd always) + declared (firstn (max_processable_reports reports limit) reports) <= limit ->
  accumulate_outer fuel o limit reports always <> Some GasOverflow.
Proof.
  intros. apply outer_no_overflow; auto. unfold carried. cbn. unfold u64_max. lia.
Qed.
(** A run with two rounds: service 1 passes 10 gas on to service 2 in the first. *)
Definition pass_on : oracle := fun round s g =>
  if (s =? 1) && (30 <=? g) then Some (20, [mk_transfer 2 10]) else Some (g, []).
Example accumulation_case : metered_oracle pass_on /\
  accumulate_outer 5 pass_on 100 [[mk_digest 1 40; mk_digest 3 2]; [mk_digest 3 30]; [mk_digest 4 99]] [(3, 4)] =
  Some (Finished 2 [mk_round 100 [[mk_digest 1 40; mk_digest 3 2]; [mk_digest 3 30]] [] [(3, 4)] [(1, 20); (3, 36)] [mk_transfer 2 10];
                    mk_round 44 [] [mk_transfer 2 10] [] [(2, 10)] []]).
Proof.
  split; [|vm_compute; reflexivity]. intros round s g used sent Q. unfold pass_on in Q.
  destruct ((s =? 1) && (30 <=? g))%bool eqn:C; injection Q as <- <-; cbn; [|lia].
  apply andb_prop in C as [_ C]. apply N.leb_le in C. lia.
Qed.

Print Assumptions max_processable_longest_prefix.
Print Assumptions accumulation_gas_bounded.
Print Assumptions accumulation_shares_partition.
Print Assumptions accumulation_terminates.
Print Assumptions accumulation_gas_failure_refuted.
Print Assumptions accumulation_no_gas_failure_partial.
