(** The accumulation of a block, round by round. *)
From Verif Require Import Base PvmMem_Model PvmProg_Model PvmStep_Model PvmInit_Model Queue_Model Gas_Model Gas_Spec Sandbox_Model Sandbox_Spec Host_Model Host_Spec Acc_Model Acc_Spec Round_Model Round_Spec Round2_Spec Delta_Model.
Open Scope N_scope.

(** What the next round begins with: the always-accumulate services in the first, and the reports that the gas allows. *)
Definition due (l : lstate) : list (N * N) := match l_aas l with Some a => a | None => [] end.
Definition taken (l : lstate) : list greport := firstn (max_processable_reports (l_left l) (l_gas l)) (l_left l).
Definition jobs_at (x : setting) (l : lstate) : list job :=
  map (fun s => mk_job s (received_by (l_xfers l) s) (inputs_of (taken l) (l_xfers l) s)
                  (match service_gas_limit (due l) (taken l) (map gas_part (l_xfers l)) s with Some g => g | None => 0 end) (x_fetch x (taken l) (l_xfers l) s))
      (services (due l) (taken l) (l_xfers l) (l_priv l)).
Definition metered_at (l : lstate) : N -> bool := is_metered (due l) (taken l) (l_xfers l).
(** The rounds: from [l], with the services [ch] accumulated before, come [l'] and [ch']. *)
Inductive rounds (x : setting) : list N -> lstate -> list N -> lstate -> Prop :=
| rounds_none : forall ch l, rounds x ch l ch l
| rounds_one : forall ch l l1 ch' l', turn x l = Some (Ok (Some l1)) -> rounds x (map j_id (jobs_at x l) ++ ch) l1 ch' l' -> rounds x ch l ch' l'.

(** What the services must keep to in a round, whatever they compute: their ids are of 32 bits and their host calls are permitted, no two make the same account, preimages are provided in
    time and none has a hash that gives an account up, and some id is left. *)
Record fair (x : setting) (ch : list N) (l : lstate) (results : list (N * option acc_out)) : Prop := mk_fair {
  fa_roomy : roomy (view (x_G x) (l_sb l));
  fa_calls : Forall (fun j => j_id j < 2 ^ 32 /\ used_well (x_fuel x) (x_G x) (j_id j :: ch) (for_job (x_env x) j) (l_sb l) (l_priv l) (j_id j) (j_recv j) (j_inputs j) (j_limit j) (x_entropy x)) (jobs_at x l);
  fa_new : forall t r t' r' s, In (t, r) (worlds (x_G x) (l_sb l) (ran results)) -> In (t', r') (worlds (x_G x) (l_sb l) (ran results)) ->
    makes (view (x_G x) (l_sb l)) t r s -> makes (view (x_G x) (l_sb l)) t' r' s -> t = t';
  fa_time : in_time (x_G x) (l_sb l) (metered_at l) (ran results);
  fa_prov : distinct (x_env x) (provs (metered_at l) (ran results)) /\
    forall s i, In (s, i) (provs (metered_at l) (ran results)) -> N.of_nat (length i) < 2 ^ 32 /\ forall h, e_hash (x_env x) i <> given_to h }.
Definition all_fair (x : setting) (l0 : lstate) : Prop :=
  forall ch l results, rounds x [] l0 ch l -> results_of (x_fuel x) (x_G x) (x_env x) (l_sb l) (l_priv l) (x_entropy x) (jobs_at x l) results -> fair x ch l results.
(** Nothing is lost in a round: no transfer is to a service that is not there, none that ran is removed by another, and what each receives fits 64 bits. *)
Record lossless (x : setting) (l : lstate) (results : list (N * option acc_out)) : Prop := mk_lossless {
  lo_there : forall t, In t (l_xfers l) -> ~ In (t_to t, None) results;
  lo_kept : forall t r t' r', In (t, r) (worlds (x_G x) (l_sb l) (ran results)) -> In (t', r') (worlds (x_G x) (l_sb l) (ran results)) -> ~ removes (view (x_G x) (l_sb l)) t r t';
  lo_fits : sum (map t_amount (l_xfers l)) < 2 ^ 64 }.
Definition all_lossless (x : setting) (l0 : lstate) : Prop :=
  forall ch l results, rounds x [] l0 ch l -> results_of (x_fuel x) (x_G x) (x_env x) (l_sb l) (l_priv l) (x_entropy x) (jobs_at x l) results -> lossless x l results.

(** The gas accounts of a round from [l] to [l']: the reports taken are the first and their gas is there; each service that ran, once, used no more than its share; what was used, and no more, is taken from what was
    there and what the transfers brought; and the transfers sent are paid for with it, their gas and one unit each. A round has something to do. *)
Record accounted (l l' : lstate) (pairs : list (N * N)) : Prop := mk_accounted {
  ac_left : l_left l = taken l ++ l_left l' /\ l_count l' = (l_count l + length (taken l))%nat /\ l_aas l' = None /\ l_used l' = l_used l ++ pairs;
  ac_fits : declared (taken l) <= l_gas l;
  ac_once : NoDup (map fst pairs);
  ac_share : (NoDup (map fst (due l)) /\ forall p, In p (due l) -> snd p < 2 ^ 64) -> forall s u, In (s, u) pairs -> u <= share (due l) (taken l) (map gas_part (l_xfers l)) s;
  ac_gas : l_gas l' + total (map snd pairs) = l_gas l + total (map t_gas (l_xfers l));
  ac_sent : total (map (fun t => t_gas t + 1) (l_xfers l')) <= total (map snd pairs);
  ac_work : l_xfers l <> [] \/ taken l <> [] \/ due l <> [] }.
(** The accounts between blocks, in order: an account that is not there has no entries; every account's footprint is counted rightly and its balance covers it; every preimage was asked for, and none is for a
    hash that gives an account up; requests are for less than 2^32 octets, with at most three slots, none in the future. *)
Definition in_order (now : N) (w : gstate) : Prop :=
  proper w /\ forall s, (forall m, g_meta w s = Some m -> counted w s m /\ least m <= m_balance m) /\ requested w s /\ slotted now w s /\ short w s /\ forall h, g_ent w s (KPreimage (given_to h)) = None.
(** In every round every service's accumulation ends without an error. *)
Definition all_run (x : setting) (l0 : lstate) : Prop :=
  forall ch l j, rounds x [] l0 ch l -> In j (jobs_at x l) ->
    exists o, accumulate (x_fuel x) (x_G x) (for_job (x_env x) j) (l_sb l) (l_priv l) (j_id j) (j_recv j) (j_inputs j) (j_limit j) (x_entropy x) = Some (Ok o).
