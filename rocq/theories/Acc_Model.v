(** Model of the accumulation of one service: pvm/pvm-invocation/src/accumulate/mod.rs. *)
From Verif Require Import Base PvmMem_Model PvmProg_Model PvmStep_Model PvmInit_Model Codec_Model Sandbox_Model Host_Model.
Open Scope N_scope.

(** mod.rs:37-51; the accounts and the privileges are the partial state *)
Record acc_out := mk_acc { a_sb : accounts; a_priv : priv; a_xfers : list xfer; a_yield : option bytes; a_gas : N; a_prov : list (N * bytes) }.
(** state/src/types/services.rs:89-99: the metadata is a [Vec<u8>], each octet decoded as an integer; the rest is the code *)
Definition split_code (b : bytes) : result cerr bytes := let! (_, r) := decode (TVec 1 (TUint 8)) b in Ok r.
(** context/partial_state.rs:440-463 *)
Definition code_prog (t : N) : aprog (result verr (option bytes)) :=
  let* m := meta_of t in
  match m with
  | None => Ret (Ok None)
  | Some m => let* v := entry_of t (KPreimage (m_code m)) in
              Ret (match v with None => Ok None | Some v => let! c := lift ECodec (split_code v) in Ok (Some c) end)
  end.
(** context/mod.rs:214-239 *)
Definition new_context (G : gstate) (e : env) (sb : accounts) (p : priv) (host : N) (entropy : bytes) : result verr (accounts * rest) :=
  match exec (Sandbox_Model.step G) (check (first_id host entropy e)) sb with
  | (sb, Ok i) => Ok (sb, mk_rest host p i [] None [])
  | (_, Err x) => Err x
  | (_, Panic) => Panic
  end.
(** mod.rs:215-255 *)
Definition collect (o : output) (gas : N) (x y : accounts * rest) : acc_out :=
  let of c yield := mk_acc (fst c) (r_priv (snd c)) (r_xfers (snd c)) yield gas (r_prov (snd c)) in
  match o with
  | Output b => of x (if N.of_nat (length b) =? 32 then Some b else r_yield (snd x))
  | OutputUnavailable => of x (r_yield (snd x))
  | OutputOutOfGas | OutputPanic => of y (r_yield (snd y))
  end.
(** mod.rs:94-256. [recv] is the sum of the amounts of the transfers received, [inputs] the number of inputs. [None] at the outside: too little fuel. *)
Definition accumulate (fuel : nat) (G : gstate) (e : env) (sb : accounts) (p : priv) (t recv inputs limit : N) (entropy : bytes)
  : option (result verr (option acc_out)) :=
  let '(sb, there) := exec (Sandbox_Model.step G) (active_of t) sb in
  if negb there then Some (Ok None)
  else
    let '(sb, ok) := if 0 <? recv
                     then exec (Sandbox_Model.step G) (try (Change t (fun m => if m_balance m + recv <? 2 ^ 64 then Some (set_balance m (m_balance m + recv)) else None))) sb
                     else (sb, true) in
    if negb ok then Some (Err EHost)
    else
      let '(sb, code) := exec (Sandbox_Model.step G) (code_prog t) sb in
      let early := mk_acc (filter (fun x => fst x =? t) sb) p [] None 0 [] in
      match code with
      | Panic => Some Panic
      | Err x => Some (Err x)
      | Ok None => Some (Ok (Some early))
      | Ok (Some code) =>
          if 4000000 <? N.of_nat (length code) then Some (Ok (Some early))
          else match new_context G e sb p t entropy with
               | Panic => Some Panic
               | Err x => Some (Err x)
               | Ok c =>
                   match invoke_with_args (host (Sandbox_Model.step G) e) fuel Accumulate code 5 limit (integer_encode (e_now e) ++ integer_encode t ++ integer_encode inputs) (c, c) with
                   | None => None
                   | Some Panic => Some Panic
                   | Some (Err x) => Some (Err x)
                   | Some (Ok (gas, o, (x, y))) => Some (Ok (Some (collect o gas x y)))
                   end
               end
      end.
