(** Model of one round of accumulation: pvm/pvm-invocation/src/accumulate/pipeline.rs:180-610, with pvm/pvm-host/src/context/partial_state.rs:1084-1209.
    A hash map or hash set is a list, and an order of its iteration an order of such a list. The state manager answers every read (its errors are not
    modelled). The services of a round run as tasks, each on its own copy of the partial state, and their results are taken in the order of the service
    ids: here the results are given as a list in that order. *)
From Verif Require Import Base PvmMem_Model PvmProg_Model PvmStep_Model PvmInit_Model Sandbox_Model Host_Model Acc_Model.
Open Scope N_scope.

(** pvm/pvm-invocation/src/error.rs. pvm/pvm-invocation/src/error.rs:13-50. *)
Inductive rerr := EMissingHost (t : N) | EDuplicate (s : N) | ECore (c : N) | ESlots.

(** ** Privileges *)
(** pipeline.rs:209-247: what a service may not change is taken out of its result; [q] are the privileges at the start of the round *)
Definition masked (q : priv) (t : N) (p : priv) : priv :=
  let manager := t =? p_manager q in
  let role q p := mk_role (ro_last p) (if manager then ro_bless p else None) (if t =? ro_last q then ro_self p else None) in
  mk_priv (p_manager p) (p_assign p) (if manager then p_assign_bless p else None)
    (filter (fun x => match nth_error (p_assign q) (N.to_nat (fst x)) with Some a => a =? t | None => false end) (p_assign_self p))
    (role (p_designate q) (p_designate p)) (role (p_registrar q) (p_registrar p)) (p_always p) (p_queues p) (p_staging p).
(** partial_state.rs:1120-1126 *)
Fixpoint merge_self (last : list N) (self o : list (N * N)) : result rerr (list (N * N)) :=
  match o with
  | [] => Ok self
  | (c, a) :: o => match nth_error last (N.to_nat c) with
                   | None => Err (ECore c)
                   | Some a0 => merge_self last (if a =? a0 then self else aset self c a) o
                   end
  end.
(** partial_state.rs:1150-1167, 1192-1209 *)
Definition merge_role (u o : role) : role :=
  match (match ro_bless o with Some a => if a =? ro_last o then None else Some a | None => None end) with
  | Some a => mk_role (ro_last u) (Some a) (ro_self u)
  | None => match ro_self o with
            | Some a => if a =? ro_last o then u else mk_role (ro_last u) (ro_bless u) (Some a)
            | None => u
            end
  end.
(** pipeline.rs:257-272 *)
Definition merge_queues (t : N) (last : list N) (u o : list (list bytes)) : list (list bytes) :=
  map (fun x => match nth_error last (fst x), nth_error o (fst x) with
                | Some a, Some q => if a =? t then q else snd x
                | _, _ => snd x
                end) (combine (seq 0 (length u)) u).
(** pipeline.rs:249-300; [u] the union, [q] the privileges at the start of the round, [p] the result of [t] *)
Definition merge_priv (q : priv) (t : N) (u p : priv) : result rerr priv :=
  let p := masked q t p in
  let staging := if t =? ro_last (p_designate u) then match p_staging p with Some x => Some x | None => p_staging u end else p_staging u in
  let queues := merge_queues t (p_assign p) (p_queues u) (p_queues p) in
  let blessed := (t =? p_manager q) && match p_assign_bless p with Some _ => true | None => false end in
  let! ab := match p_assign_bless p with
             | Some l => Ok (Some l, p_assign_self u)
             | None => let! s := merge_self (p_assign p) (p_assign_self u) (p_assign_self p) in Ok (p_assign_bless u, s)
             end in
  Ok (mk_priv (if blessed then p_manager p else p_manager u) (p_assign u) (fst ab) (snd ab) (merge_role (p_designate u) (p_designate p))
        (merge_role (p_registrar u) (p_registrar p)) (if blessed then p_always p else p_always u) queues staging).
(** pipeline.rs:554-606 with partial_state.rs:1389-1396 *)
Definition confirm_role (x : role) : role := mk_role (match ro_bless x with Some a => a | None => match ro_self x with Some a => a | None => ro_last x end end) None None.
(** Part of pipeline.rs:554-606; partial_state.rs:1389-1396. *)
Definition confirm (u : priv) : priv :=
  mk_priv (p_manager u)
    (match p_assign_bless u with Some l => l | None => fold_left (fun l x => set_at l (N.to_nat (fst x)) (snd x)) (p_assign_self u) (p_assign u) end)
    None [] (confirm_role (p_designate u)) (confirm_role (p_registrar u)) (p_always u) (p_queues u) (p_staging u).

(** ** Accounts *)
(** pipeline.rs:323-331, with 425-441 *)
Definition base_exists (G : gstate) (base : accounts) (s : N) : bool :=
  match aget base s with Some b => negb (is_removed (b_md b)) | None => match g_meta G s with Some _ => true | None => false end end.
(** pipeline.rs:314-369; [seen]: the ids made and the ids removed in this round *)
Definition merge_account (G : gstate) (base : accounts) (t : N) (r : result rerr (accounts * (list N * list N))) (x : N * asb) : result rerr (accounts * (list N * list N)) :=
  let! (u, (made, gone)) := r in
  let '(s, b) := x in
  if s =? t then Ok (u, (made, gone))
  else
    let twice := existsb (N.eqb s) made || existsb (N.eqb s) gone in
    match se_status (b_md b) with
    | Added => if base_exists G base s then Ok (u, (made, gone)) else if twice then Err (EDuplicate s) else Ok (aset u s b, (s :: made, gone))
    | Removed => if negb (base_exists G base s) then Ok (u, (made, gone)) else if twice then Err (EDuplicate s) else Ok (aset u s b, (made, s :: gone))
    | _ => Ok (u, (made, gone))
    end.
(** What a round carries along: the union, and the ids made and removed so far. The variables of pvm/pvm-invocation/src/accumulate/pipeline.rs:430-643. *)
Record union := mk_union { u_sb : accounts; u_priv : priv; u_made : list N; u_gone : list N }.
(** pipeline.rs:182-372; [base] and [q] are the accounts and privileges at the start of the round *)
Definition merge (G : gstate) (base : accounts) (q : priv) (t : N) (u : union) (rsb : accounts) (p : priv) : result rerr union :=
  let sb := ensure G (u_sb u) t in
  match aget sb t with
  | None => Err (EMissingHost t)
  | Some b =>
      if is_removed (b_md b) then Ok (mk_union sb (u_priv u) (u_made u) (u_gone u))
      else
        let! priv := merge_priv q t (u_priv u) p in
        let rsb := ensure G rsb t in
        match aget rsb t with
        | None => Err (EMissingHost t)
        | Some rb =>
            let! (sb, (made, gone)) := fold_left (merge_account G base t) rsb (Ok (aset sb t rb, (u_made u, u_gone u))) in
            Ok (mk_union sb priv made gone)
        end
  end.

(** pipeline.rs:375-424. The hash of the octets and their number are the key; a record that is full is an error. *)
Definition provide_one (G : gstate) (e : env) (r : result rerr accounts) (x : N * bytes) : result rerr accounts :=
  let! sb := r in
  let '(s, octets) := x in
  let h := e_hash e octets in
  let len := N.of_nat (length octets) mod 2 ^ 32 in
  let '(sb, there) := exists_active G sb s in
  if negb there then Ok sb
  else match get_entry G sb s (KLookup h len) with
       | (sb, Some []) =>
           match extend_slots G (fst (insert_entry G sb s (KPreimage h) octets)) s h len [e_now e] with
           | (sb, true) => Ok sb
           | (_, false) => Err ESlots
           end
       | (sb, _) => Ok sb
       end.
(** Part of pipeline.rs:375-424. *)
Definition provide (G : gstate) (e : env) (sb : accounts) (l : list (N * bytes)) : result rerr accounts := fold_left (provide_one G e) l (Ok sb).

(** pipeline.rs:496-551: the results, in the order of their services; [None] for a service that is not there *)
Record round_out := mk_rout { o_union : union; o_gas : list (N * N); o_outputs : list (N * bytes); o_xfers : list xfer }.
(** Part of pipeline.rs:496-551. *)
Definition take (G : gstate) (e : env) (base : accounts) (q : priv) (metered : N -> bool) (r : result rerr round_out) (x : N * option acc_out) : result rerr round_out :=
  let! o := r in
  match x with
  | (_, None) => Ok o
  | (t, Some a) =>
      let! u := merge G base q t (o_union o) (a_sb a) (a_priv a) in
      if metered t then
        let! sb := provide G e (u_sb u) (a_prov a) in
        Ok (mk_rout (mk_union sb (u_priv u) (u_made u) (u_gone u)) (o_gas o ++ [(t, a_gas a)])
             (match a_yield a with Some h => o_outputs o ++ [(t, h)] | None => o_outputs o end) (o_xfers o ++ a_xfers a))
      else Ok (mk_rout u (o_gas o) (o_outputs o) (o_xfers o))
  end.
(** The round as a whole: pipeline.rs:408-615 *)
Definition round (G : gstate) (e : env) (metered : N -> bool) (sb : accounts) (q : priv) (results : list (N * option acc_out)) : result rerr round_out :=
  let! o := fold_left (take G e sb q metered) results (Ok (mk_rout (mk_union sb q [] []) [] [] [])) in
  let u := o_union o in
  Ok (mk_rout (mk_union (u_sb u) (confirm (u_priv u)) (u_made u) (u_gone u)) (o_gas o) (o_outputs o) (o_xfers o)).
