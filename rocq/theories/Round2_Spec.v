(** What a round of accumulation does to the accounts: the Graypaper's union of the results, less the removed accounts, and then the provided preimages. *)
From Verif Require Import Base PvmMem_Model PvmProg_Model PvmStep_Model PvmInit_Model Codec_Model Sandbox_Model Sandbox_Spec Host_Model Host_Spec Acc_Model Acc_Spec Round_Model Round_Spec.
Open Scope N_scope.

(** The account [s] is the same in both. *)
Definition alike (s : N) (w w' : gstate) : Prop := g_meta w s = g_meta w' s /\ forall k, g_ent w s k = g_ent w' s k.
Definition empty (s : N) (w : gstate) : Prop := g_meta w s = None /\ forall k, g_ent w s k = None.

(** The service [t], accumulating on [d] and leaving [r], took away or made the account [s]. *)
Definition removes (d : gstate) (t : N) (r : gstate) (s : N) : Prop := t <> s /\ has d s /\ ~ has r s.
Definition makes (d : gstate) (t : N) (r : gstate) (s : N) : Prop := t <> s /\ ~ has d s /\ has r s.
(** The accounts [w] after the services accumulated on [d], each leaving what [rs] says: an account one of them removed is gone, each one's own account is as
    it left it, so is an account it made, and all others are as they were. *)
Definition merged (d : gstate) (rs : list (N * gstate)) (w : gstate) : Prop :=
  forall s,
    ((exists t r, In (t, r) rs /\ removes d t r s) -> empty s w) /\
    ((forall t r, In (t, r) rs -> ~ removes d t r s) ->
       (forall r, In (s, r) rs -> alike s w r) /\
       (forall t r, In (t, r) rs -> makes d t r s -> alike s w r) /\
       (~ In s (map fst rs) -> (forall t r, In (t, r) rs -> ~ makes d t r s) -> alike s w d)).

(** The octets were asked for by [s], and are not there. *)
Definition solicited (e : env) (w : gstate) (s : N) (i : bytes) : Prop := has w s /\ g_ent w s (KLookup (e_hash e i) (N.of_nat (length i))) = Some [].
(** The preimages [l] are added to [w]: those asked for, and nothing else. *)
Definition provided (e : env) (l : list (N * bytes)) (w w' : gstate) : Prop :=
  (forall s, g_meta w' s = g_meta w s) /\
  (forall s i, In (s, i) l -> solicited e w s i ->
     g_ent w' s (KPreimage (e_hash e i)) = Some i /\ g_ent w' s (KLookup (e_hash e i) (N.of_nat (length i))) = Some [e_now e]) /\
  (forall s k, (forall i, In (s, i) l -> solicited e w s i -> k <> KPreimage (e_hash e i) /\ k <> KLookup (e_hash e i) (N.of_nat (length i))) -> g_ent w' s k = g_ent w s k).

(** What a result shows: its accounts, and the account as it was where it has none. *)
Definition left_by (G : gstate) (base rsb : accounts) : gstate :=
  mk_g (fun s => match aget rsb s with Some _ => vmeta G rsb s | None => vmeta G base s end)
       (fun s k => match aget rsb s with Some _ => vent G rsb s k | None => vent G base s k end).
(** Those that ran. *)
Definition ran (results : list (N * option acc_out)) : list (N * acc_out) := flat_map (fun x => match snd x with Some a => [(fst x, a)] | None => [] end) results.

(** ** A round *)
(** The accounts [t] left, and the preimages it provided; a service that is not metered provides none. *)
Definition worlds (G : gstate) (base : accounts) (l : list (N * acc_out)) : list (N * gstate) := map (fun x => (fst x, left_by G base (a_sb (snd x)))) l.
Definition provs (metered : N -> bool) (l : list (N * acc_out)) : list (N * bytes) := flat_map (fun x => if metered (fst x) then a_prov (snd x) else []) l.
Definition changed (l : list (N * acc_out)) : list (N * priv) := map (fun x => (fst x, a_priv (snd x))) l.

(** A result as the accumulation of [t] leaves it: [t]'s account is there, and no account came back that the state has and an earlier round removed. *)
Record sound (G : gstate) (ch : list N) (base : accounts) (t : N) (a : acc_out) : Prop := mk_sound {
  so_sb : sb_ok G ch (a_sb a);
  so_proper : proper (left_by G base (a_sb a));
  so_own : In t (map fst (a_sb a)) /\ has (left_by G base (a_sb a)) t /\ has (view G base) t;
  so_back : forall s, s <> t -> has G s -> ~ has (view G base) s -> ~ has (left_by G base (a_sb a)) s }.
(** It did nothing to other accounts or to the privileges. *)
Definition quiet (d : gstate) (q : priv) (t : N) (r : gstate) (p : priv) : Prop := p = q /\ forall s, ~ makes d t r s /\ ~ removes d t r s.
(** No account is made twice or removed twice, and a service that another removes is quiet. *)
Definition compatible (d : gstate) (rs : list (N * gstate)) : Prop :=
  forall t r t' r' s, In (t, r) rs -> In (t', r') rs -> (makes d t r s /\ makes d t' r' s) \/ (removes d t r s /\ removes d t' r' s) -> t = t'.
Definition removed_quiet (G : gstate) (base : accounts) (q : priv) (l : list (N * acc_out)) : Prop :=
  forall t r t' a', In (t, r) (worlds G base l) -> In (t', a') l -> removes (view G base) t r t' -> quiet (view G base) q t' (left_by G base (a_sb a')) (a_priv a').
(** Nobody provides a preimage for a service that accumulates or is made after it in the round. *)
Definition in_time (G : gstate) (base : accounts) (metered : N -> bool) (l : list (N * acc_out)) : Prop :=
  forall l1 t a l2 s i, l = l1 ++ (t, a) :: l2 -> metered t = true -> In (s, i) (a_prov a) ->
    ~ In s (map fst l2) /\ forall t' r', In (t', r') (worlds G base l2) -> ~ makes (view G base) t' r' s.

(** ** What a service's accumulation is like *)
(** An account made in this block has no request that expired. *)
Definition young (e : env) (G d : gstate) : Prop :=
  forall s h len a y, has d s -> ~ has G s -> g_ent d s (KLookup h len) = Some [a; y] -> e_now e <= y + e_expiry e.
(** The host calls that the accumulation makes are permitted. *)
Definition used_well (fuel : nat) (G : gstate) (ch : list N) (e : env) (base : accounts) (q : priv) (t recv inputs limit : N) (entropy : bytes) : Prop :=
  forall code c0 gas o c l, begun G e base q t recv entropy code c0 ->
    invoke_with_args (noted (host (Sandbox_Model.step G) e)) fuel Accumulate code 5 limit (integer_encode (e_now e) ++ integer_encode t ++ integer_encode inputs) ((c0, c0), []) = Some (Ok (gas, o, (c, l))) ->
    permitted_run G ch e l (c0, c0).
(** From [d], [r] is what [t] may leave: other accounts are as they were, made, or given to [t] and removed. *)
Definition own_work (d : gstate) (t : N) (r : gstate) : Prop :=
  forall s, s <> t -> alike s r d \/ makes d t r s \/ (removes d t r s /\ exists m, g_meta d s = Some m /\ m_code m = given_to t).
(** No preimage is there for a hash that gives an account up. *)
Definition no_given (d : gstate) : Prop := forall s h, g_ent d s (KPreimage (given_to h)) = None.

(** ** Accounts in order, so that a round can begin *)
Record orderly (e : env) (G w : gstate) (s : N) : Prop := mk_orderly {
  or_counted : forall m, g_meta w s = Some m -> counted w s m;
  or_requested : requested w s;
  or_slotted : slotted (e_now e) w s;
  or_short : short w s;
  or_solvent : forall m, g_meta w s = Some m -> least m <= m_balance m;
  or_young : has w s -> ~ has G s -> forall h len a y, g_ent w s (KLookup h len) = Some [a; y] -> e_now e <= y + e_expiry e;
  or_given : forall h, g_ent w s (KPreimage (given_to h)) = None }.
Definition sane (e : env) (G w : gstate) : Prop := proper w /\ forall s, orderly e G w s.
(** Some id is left to give to a new account. *)
Definition roomy (w : gstate) : Prop := exists i, in_cycle i /\ g_meta w i = None.

(** ** A round and what it needs *)
(** A service to accumulate, with the amount it receives, the number of its inputs, its gas and what FETCH finds. *)
Record job := mk_job { j_id : N; j_recv : N; j_inputs : N; j_limit : N; j_fetch : N -> N -> option bytes }.
Definition for_job (e : env) (j : job) : env := mk_env (e_now e) (e_hash e) (e_cores e) (e_vals e) (e_expiry e) (j_fetch j).
Definition results_of (fuel : nat) (G : gstate) (e : env) (base : accounts) (q : priv) (entropy : bytes) (jobs : list job) (results : list (N * option acc_out)) : Prop :=
  Forall2 (fun j x => fst x = j_id j /\ accumulate fuel G (for_job e j) base q (j_id j) (j_recv j) (j_inputs j) (j_limit j) entropy = Some (Ok (snd x))) jobs results.
(** The hash tells the provided preimages apart. *)
Definition distinct (e : env) (P : list (N * bytes)) : Prop := forall s i s' i', In (s, i) P -> In (s', i') P -> e_hash e i = e_hash e i' -> i = i'.
(** The accounts [ch] changed before in the block. Every account is in order, and some id is left. The services are different and their host calls are permitted. No two of them
    make the same account. Preimages are provided in time, and none has a hash that gives an account up. *)
Record begins (fuel : nat) (G : gstate) (ch : list N) (e : env) (base : accounts) (q : priv) (entropy : bytes) (metered : N -> bool) (jobs : list job) (results : list (N * option acc_out)) : Prop := mk_begins {
  be_sb : sb_ok G ch base;
  be_sane : sane e G (view G base) /\ roomy (view G base);
  be_priv : confirmed q /\ e_cores e = N.of_nat (length (p_assign q));
  be_jobs : NoDup (map j_id jobs) /\ Forall (fun j => j_id j < 2 ^ 32 /\ used_well fuel G (j_id j :: ch) (for_job e j) base q (j_id j) (j_recv j) (j_inputs j) (j_limit j) entropy) jobs;
  be_results : results_of fuel G e base q entropy jobs results;
  be_new : forall t r t' r' s, In (t, r) (worlds G base (ran results)) -> In (t', r') (worlds G base (ran results)) -> makes (view G base) t r s -> makes (view G base) t' r' s -> t = t';
  be_time : in_time G base metered (ran results);
  be_prov : distinct e (provs metered (ran results)) /\ forall s i, In (s, i) (provs metered (ran results)) -> N.of_nat (length i) < 2 ^ 32 /\ forall h, e_hash e i <> given_to h }.
(** The transfers a round sends: those of the metered services. *)
Definition sent (metered : N -> bool) (l : list (N * acc_out)) : list xfer := flat_map (fun x => if metered (fst x) then a_xfers (snd x) else []) l.
