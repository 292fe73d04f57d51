(** Preimages: requests, provision, forgetting, historical lookup and the preimages extrinsic.
    extrinsics/src/validation/preimages.rs, transition/src/state/services.rs, pvm/pvm-host/src/host_functions/accumulate/mod.rs,
    pvm/pvm-invocation/src/accumulate/pipeline.rs, state/src/manager.rs. Hashes are numbers; [H] is Blake2b-256. *)
From Verif Require Import Base.
Open Scope N_scope.

(** The preimages storage (service, hash) and the lookups storage (service, hash, length) of all accounts. state/src/types/services.rs:460-462, state/src/types/services.rs:496-498. *)
Record pstate := mk_ps { pre : N -> N -> option bytes; look : N -> N -> N -> option (list N) }.
(** block/src/types/extrinsics/preimages.rs:29-34. *)
Record pentry := mk_pe { pe_service : N; pe_data : bytes }.
(** The variants of extrinsics/src/validation/error.rs:10-194 for preimages. *)
Inductive pxt_err := PreimagesNotSorted | DuplicatePreimage | PreimageAlreadyIntegrated | PreimageNotSolicited.

(** state/src/manager.rs:1227-1241, state/src/manager.rs:1272-1286. *)
Definition set_pre (st : pstate) (s h : N) (v : option bytes) : pstate :=
  mk_ps (fun s' h' => if (s' =? s) && (h' =? h) then v else pre st s' h') (look st).
(** state/src/manager.rs:1227-1241, state/src/manager.rs:1272-1286. *)
Definition set_look (st : pstate) (s h n : N) (v : option (list N)) : pstate :=
  mk_ps (pre st) (fun s' h' n' => if (s' =? s) && (h' =? h) && (n' =? n) then v else look st s' h' n').

(** state/src/manager.rs:712-724: is the preimage with this record available at the slot? *)
Definition record_valid (l : list N) (t : N) : bool :=
  match l with
  | [] => false
  | [x] => x <=? t
  | [x; y] => (x <=? t) && (t <? y)
  | [x; y; z] => ((x <=? t) && (t <? y)) || (z <=? t)
  | _ => false
  end.

(** Derived order of entries: block/src/types/extrinsics/preimages.rs:30-36. *)
Fixpoint lex_leb (a b : bytes) : bool :=
  match a, b with
  | [], _ => true
  | _ :: _, [] => false
  | x :: a', y :: b' => if x <? y then true else if y <? x then false else lex_leb a' b'
  end.
(** Part of block/src/types/extrinsics/preimages.rs:30-36. *)
Definition entry_leb (a b : pentry) : bool :=
  if pe_service a <? pe_service b then true else if pe_service b <? pe_service a then false else lex_leb (pe_data a) (pe_data b).
(** extrinsics/src/validation/preimages.rs:33-55. *)
Fixpoint entries_sorted (x : list pentry) : bool :=
  match x with a :: ((b :: _) as r) => entry_leb a b && entries_sorted r | _ => true end.
(** Part of block/src/types/extrinsics/preimages.rs:30-36. *)
Fixpoint bytes_eqb (a b : bytes) : bool :=
  match a, b with [], [] => true | x :: a', y :: b' => (x =? y) && bytes_eqb a' b' | _, _ => false end.
(** Part of block/src/types/extrinsics/preimages.rs:30-36. *)
Definition entry_eqb (a b : pentry) : bool := (pe_service a =? pe_service b) && bytes_eqb (pe_data a) (pe_data b).
(** extrinsics/src/validation/preimages.rs:33-55. *)
Fixpoint entries_distinct (x : list pentry) : bool :=
  match x with [] => true | a :: r => negb (existsb (entry_eqb a) r) && entries_distinct r end.

Section Preimages.
  Variable H : bytes -> N.
  (** PREIMAGE_EXPIRATION_PERIOD. *)
  Variable D : N.
  (** [len as u32]. extrinsics/src/validation/preimages.rs:56-92. *)
  Definition dlen (d : bytes) : N := N.of_nat (length d) mod 2 ^ 32.

  (** manager.rs:693-731. *)
  Definition historical_lookup (st : pstate) (s t h : N) : option bytes :=
    match pre st s h with
    | None => None
    | Some d => match look st s h (dlen d) with
                | None => None
                | Some l => if record_valid l t then Some d else None
                end
    end.

  (** ** The extrinsic: validation/preimages.rs:33-92, against the state before the block. *)
  Definition validate_preimage (st : pstate) (e : pentry) : result pxt_err unit :=
    let h := H (pe_data e) in
    match pre st (pe_service e) h with
    | Some _ => Err PreimageAlreadyIntegrated
    | None => match look st (pe_service e) h (dlen (pe_data e)) with
              | Some [] => Ok tt
              | Some (_ :: _) => Err PreimageNotSolicited
              | None => Err PreimageNotSolicited
              end
    end.
  (** extrinsics/src/validation/preimages.rs:33-92. *)
  Fixpoint validate_each (st : pstate) (x : list pentry) : result pxt_err unit :=
    match x with [] => Ok tt | e :: r => let! _ := validate_preimage st e in validate_each st r end.
  (** extrinsics/src/validation/preimages.rs:33-92. *)
  Definition validate_preimages (st : pstate) (x : list pentry) : result pxt_err unit :=
    match x with
    | [] => Ok tt
    | _ => if negb (entries_sorted x) then Err PreimagesNotSorted
           else if negb (entries_distinct x) then Err DuplicatePreimage
           else validate_each st x
    end.
  (** services.rs:443-502: against the state after accumulation. [try_push] on an empty record does not fail. *)
  Definition integrate_one (t : N) (st : pstate) (e : pentry) : pstate :=
    let s := pe_service e in let d := pe_data e in let h := H d in
    match pre st s h, look st s h (dlen d) with
    | None, Some [] => set_pre (set_look st s h (dlen d) (Some [t])) s h (Some d)
    | _, _ => st
    end.
  (** services.rs:433-505. [st0]: before the block; [st]: after accumulation. *)
  Definition integrate_preimages (st0 st : pstate) (t : N) (x : list pentry) : result pxt_err pstate :=
    let! _ := validate_preimages st0 x in Ok (fold_left (integrate_one t) x st).

  (** ** Accumulation *)
  (** pvm/pvm-host/src/host_functions/mod.rs:15-37. *)
  Inductive hcode := hOK | hHUH | hFULL.
  (** host_functions/accumulate/mod.rs:777-882 (SOLICIT) from the lookup on. [affordable]: the threshold balance check of a new request. *)
  Definition host_solicit (affordable : bool) (st : pstate) (s h n t : N) : pstate * hcode :=
    match look st s h n with
    | Some [x; y] => (set_look st s h n (Some [x; y; t]), hOK)
    | Some _ => (st, hHUH)
    | None => if affordable then (set_look st s h n (Some []), hOK) else (st, hFULL)
    end.
  (** mod.rs:890-1135 (FORGET) from the lookup on. The u32 addition wraps in release builds. *)
  Definition expired (y t : N) : bool := (y + D) mod 2 ^ 32 <? t.
  (** Part of mod.rs:890-1135. *)
  Definition host_forget (st : pstate) (s h n t : N) : pstate * hcode :=
    match look st s h n with
    | None => (st, hHUH)
    | Some [] => (set_look (set_pre st s h None) s h n None, hOK)
    | Some [x] => (set_look st s h n (Some [x; t]), hOK)
    | Some [x; y] => if expired y t then (set_look (set_pre st s h None) s h n None, hOK) else (st, hHUH)
    | Some [x; y; z] => if expired y t then (set_look st s h n (Some [z; t]), hOK) else (st, hHUH)
    | Some _ => (st, hHUH)
    end.
  (** pipeline.rs:372-425, one provided preimage of a live account. *)
  Definition add_provided (st : pstate) (s : N) (d : bytes) (t : N) : pstate :=
    let h := H d in
    match look st s h (dlen d) with
    | Some [] => set_look (set_pre st s h (Some d)) s h (dlen d) (Some [t])
    | _ => st
    end.
  (** mod.rs:708-757 (QUERY): registers 7 and 8; None is the NONE code. *)
  Definition host_query (st : pstate) (s h n : N) : result unit (option (N * N)) :=
    match look st s h n with
    | None => Ok None
    | Some [] => Ok (Some (0, 0))
    | Some [x] => Ok (Some (1 + x * 2 ^ 32, 0))
    | Some [x; y] => Ok (Some (2 + x * 2 ^ 32, y))
    | Some [x; y; z] => Ok (Some (3 + x * 2 ^ 32, y + z * 2 ^ 32))
    | Some _ => Panic
    end.

  (** Anything that changes preimages, other than creating and removing accounts. Histories of the operations above (host_functions/accumulate/mod.rs:777-1135, transition/src/state/services.rs:433-505); not in the code. *)
  Inductive pop := Solicit (affordable : bool) (s h n : N) | Forget (s h n : N) | Provide (s : N) (d : bytes) | Integrate (s : N) (d : bytes).
  (** Histories of the operations above (host_functions/accumulate/mod.rs:777-1135, transition/src/state/services.rs:433-505); not in the code. *)
  Definition papply (st : pstate) (t : N) (o : pop) : pstate :=
    match o with
    | Solicit a s h n => fst (host_solicit a st s h n t)
    | Forget s h n => fst (host_forget st s h n t)
    | Provide s d => add_provided st s d t
    | Integrate s d => integrate_one t st (mk_pe s d)
    end.
  (** Histories of the operations above (host_functions/accumulate/mod.rs:777-1135, transition/src/state/services.rs:433-505); not in the code. *)
  Definition prun (st : pstate) (ops : list (N * pop)) : pstate := fold_left (fun st to => papply st (fst to) (snd to)) ops st.
End Preimages.
(** Histories of the operations above (host_functions/accumulate/mod.rs:777-1135, transition/src/state/services.rs:433-505); not in the code. *)
Definition pempty : pstate := mk_ps (fun _ _ => None) (fun _ _ _ => None).
