(** Model of the accumulation of a block: pvm/pvm-invocation/src/accumulate/pipeline.rs:72-177, 408-615 and 620-717, with pvm/pvm-types/src/invoke_args.rs:98-121.
    A report is its digests' services and gas limits (Gas_Model); what FETCH makes of the inputs is a parameter, as is the entropy. The sets of services
    are ascending lists. The outputs are a list, where the program has a set. *)
From Verif Require Import Base PvmMem_Model PvmProg_Model PvmStep_Model PvmInit_Model Queue_Model Gas_Model Sandbox_Model Host_Model Acc_Model Round_Model.
Open Scope N_scope.

(** pvm/pvm-invocation/src/error.rs: gas sums that do not fit, the failure of a service's accumulation, the failure of a merge. pvm/pvm-invocation/src/error.rs:13-50. *)
Inductive derr := DGas | DRun (x : verr) | DRound (x : rerr).
(** The state before the block, what does not change in the block, the fuel of an invocation, and what FETCH finds for a service in a round. The arguments of pvm/pvm-invocation/src/accumulate/pipeline.rs:72-169 and of pvm/pvm-invocation/src/accumulate/pipeline.rs:430-643. *)
Record setting := mk_setting { x_fuel : nat; x_G : gstate; x_env : env; x_entropy : bytes; x_fetch : list greport -> list xfer -> N -> N -> N -> option bytes }.
(** Projections used by pvm/pvm-invocation/src/accumulate/pipeline.rs:663-717; not in the code. *)
Definition gas_part (t : xfer) : transfer := mk_transfer (t_to t) (t_gas t).
(** Projections used by pvm/pvm-invocation/src/accumulate/pipeline.rs:663-717; not in the code. *)
Definition with_fetch (e : env) (f : N -> N -> option bytes) : env := mk_env (e_now e) (e_hash e) (e_cores e) (e_vals e) (e_expiry e) f.

(** pipeline.rs:462-491: the services of a round, ascending *)
Definition services (always : list (N * N)) (reports : list greport) (ts : list xfer) (q : priv) : list N :=
  bset_extend (metered always reports (map gas_part ts)) (p_assign q ++ [ro_last (p_registrar q); ro_last (p_designate q); p_manager q]).
(** pipeline.rs:484-487, 529 *)
Definition is_metered (always : list (N * N)) (reports : list greport) (ts : list xfer) (s : N) : bool := existsb (N.eqb s) (metered always reports (map gas_part ts)).
(** invoke_args.rs:103, a sum in u64 that wraps around; pipeline.rs:644-656 *)
Definition received_by (ts : list xfer) (s : N) : N := fold_left (fun a t => (a + t_amount t) mod 2 ^ 64) (filter (fun t => t_to t =? s) ts) 0.
(** pipeline.rs:620-642, 644-656: how many inputs a service has *)
Definition inputs_of (reports : list greport) (ts : list xfer) (s : N) : N :=
  N.of_nat (length (filter (fun t => t_to t =? s) ts) + length (filter (fun d => d_service d =? s) (concat reports))).
(** pipeline.rs:663-717 *)
Definition single (x : setting) (always : list (N * N)) (reports : list greport) (ts : list xfer) (sb : accounts) (q : priv) (s : N) : option (result derr (option acc_out)) :=
  match service_gas_limit always reports (map gas_part ts) s with
  | None => Some (Err DGas)
  | Some g => match accumulate (x_fuel x) (x_G x) (with_fetch (x_env x) (x_fetch x reports ts s)) sb q s (received_by ts s) (inputs_of reports ts s) g (x_entropy x) with
              | None => None
              | Some (Ok o) => Some (Ok o)
              | Some (Err y) => Some (Err (DRun y))
              | Some Panic => Some Panic
              end
  end.
(** The [?] of pvm/pvm-invocation/src/accumulate/pipeline.rs:515-610. *)
Definition ofround {A : Type} (r : result rerr A) : result derr A := match r with Ok a => Ok a | Err y => Err (DRound y) | Panic => Panic end.
(** pipeline.rs:496-551: every service on the same partial state; the results are taken in order *)
Fixpoint take_each (x : setting) (always : list (N * N)) (reports : list greport) (ts : list xfer) (sb : accounts) (q : priv) (ss : list N) (o : round_out) : option (result derr round_out) :=
  match ss with
  | [] => Some (Ok o)
  | s :: ss => match single x always reports ts sb q s with
               | None => None
               | Some (Err y) => Some (Err y)
               | Some Panic => Some Panic
               | Some (Ok a) => match ofround (take (x_G x) (x_env x) sb q (is_metered always reports ts) (Ok o) (s, a)) with
                                | Ok o => take_each x always reports ts sb q ss o
                                | r => Some r
                                end
               end
  end.
(** pipeline.rs:408-615 *)
Definition parallel (x : setting) (always : list (N * N)) (reports : list greport) (ts : list xfer) (sb : accounts) (q : priv) : option (result derr round_out) :=
  match take_each x always reports ts sb q (services always reports ts q) (mk_rout (mk_union sb q [] []) [] [] []) with
  | Some (Ok o) => let u := o_union o in Some (Ok (mk_rout (mk_union (u_sb u) (confirm (u_priv u)) (u_made u) (u_gone u)) (o_gas o) (o_outputs o) (o_xfers o)))
  | r => r
  end.

(** pipeline.rs:78-92: the variables of the loop *)
Record lstate := mk_l { l_aas : option (list (N * N)); l_left : list greport; l_gas : N; l_xfers : list xfer; l_sb : accounts; l_priv : priv; l_count : nat; l_used : list (N * N); l_outs : list (N * bytes) }.
(** pipeline.rs:95-149: once around the loop. [None] inside: the loop ends. *)
Definition turn (x : setting) (l : lstate) : option (result derr (option lstate)) :=
  let remaining := match l_left l with [] => false | _ => true end in
  let transfers := match l_xfers l with [] => false | _ => true end in
  if negb remaining && negb transfers && match l_aas l with None => true | Some _ => false end then Some (Ok None)
  else
    let aas := match l_aas l with Some a => a | None => [] end in
    let k := if remaining then max_processable_reports (l_left l) (l_gas l) else 0%nat in
    if Nat.eqb k 0 && negb transfers && match aas with [] => true | _ => false end then Some (Ok None)
    else match parallel x aas (firstn k (l_left l)) (l_xfers l) (l_sb l) (l_priv l) with
         | None => None
         | Some Panic => Some Panic
         | Some (Err y) => Some (Err y)
         | Some (Ok o) =>
             match checked_sum 0 (map snd (o_gas o)), checked_sum 0 (map t_gas (l_xfers l)) with
             | Some used, Some tg =>
                 match checked_add (l_gas l) tg with
                 | Some r => if r <? used then Some (Err DGas)
                             else Some (Ok (Some (mk_l None (skipn k (l_left l)) (r - used) (o_xfers o) (u_sb (o_union o)) (u_priv (o_union o)) (l_count l + k)%nat (l_used l ++ o_gas o) (l_outs l ++ o_outputs o))))
                 | None => Some (Err DGas)
                 end
             | _, _ => Some (Err DGas)
             end
         end.
(** pipeline.rs:94-150; [None]: too little fuel, for a service's invocation or for the number of rounds *)
Fixpoint loop (n : nat) (x : setting) (l : lstate) : option (result derr lstate) :=
  match n with
  | O => None
  | S n => match turn x l with
           | None => None
           | Some (Err y) => Some (Err y)
           | Some Panic => Some Panic
           | Some (Ok None) => Some (Ok l)
           | Some (Ok (Some l)) => loop n x l
           end
  end.
(** pipeline.rs:72-92 with partial_state.rs:1262-1281; [q] the privileges in the state *)
Definition start (q : priv) (limit : N) (reports : list greport) (always : list (N * N)) : lstate := mk_l (Some always) reports limit [] [] q 0 [] [].
(** pvm/pvm-invocation/src/accumulate/pipeline.rs:72-177. *)
Definition outer (n : nat) (x : setting) (q : priv) (limit : N) (reports : list greport) (always : list (N * N)) : option (result derr lstate) := loop n x (start q limit reports always).
