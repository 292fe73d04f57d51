(** Model of the typed view of the pool of extrinsics (extrinsics/src/manager.rs): entries are encoded when they are made and decoded when they are asked for.
    Simplifications: each call is made alone (C98 is about calls that overlap); the hash is an arbitrary function to numbers, as in Pool_Model. *)
From Verif Require Import Base Codec_Model Block_Model Pool_Model.
Local Open Scope N_scope.

Section Intake.
  Variable P : params.
  Variable H : bytes -> N.   (* Blake2b-256, opaque *)

  (** An entry of an extrinsic, block/src/types/extrinsics/mod.rs:33-45 *)
  Inductive xt :=
  | XTicket (v : interp t_ticket_xt) | XGuarantee (v : interp (t_guarantee P)) | XAssurance (v : interp (t_assurance P)) | XPreimage (v : interp t_preimage_xt)
  | XVerdict (v : interp (t_verdict P)) | XCulprit (v : interp t_culprit) | XFault (v : interp t_fault).
  (** block/src/types/extrinsics/mod.rs:33-41 *)
  Definition kind_of (x : xt) : N := match x with XTicket _ => 0 | XGuarantee _ => 1 | XAssurance _ => 2 | XPreimage _ => 3 | XVerdict _ => 4 | XCulprit _ => 5 | XFault _ => 6 end.
  (** The encodings of block/src/types/extrinsics/mod.rs:43-49 *)
  Definition encode_xt (x : xt) : result cerr bytes :=
    match x with
    | XTicket v => encode t_ticket_xt v | XGuarantee v => encode (t_guarantee P) v | XAssurance v => encode (t_assurance P) v | XPreimage v => encode t_preimage_xt v
    | XVerdict v => encode (t_verdict P) v | XCulprit v => encode t_culprit v | XFault v => encode t_fault v
    end.
  (** extrinsics/src/pool/mod.rs:43-50 *)
  Definition from_xt_entry (x : xt) : result cerr entry := let! b := encode_xt x in Ok (mk_entry (H b) b (kind_of x)).
  (** extrinsics/src/manager.rs:17-23, of an entry made by from_xt_entry; [Ok (_, false)]: the pool is full *)
  Definition submit (max : nat) (x : xt) (slot : N) (p : pool) : result cerr (pool * bool) := let! e := from_xt_entry x in Ok (add max e slot p).
  (** filter_map of decode and ok, extrinsics/src/manager.rs:39-42, 52-55, 66-69, 80-83, 91-105; a decoder may panic *)
  Fixpoint decoded (t : ty) (l : list entry) : result unit (list (interp t)) :=
    match l with
    | [] => Ok []
    | e :: r => match decode t (e_data e) with
                | Ok (v, _) => let! vs := decoded t r in Ok (v :: vs)
                | Err _ => decoded t r
                | Panic => Panic
                end
    end.
  (** LimitedVec::try_from, extrinsics/src/manager.rs:56, 70 (common/limited-vec/src/lib.rs:73-82) *)
  Definition at_most {A} (n : N) (l : list A) : result unit (list A) := if n <? N.of_nat (length l) then Err tt else Ok l.
  (** extrinsics/src/manager.rs:34-45 *)
  Definition get_tickets (slot : N) (p : pool) : result unit (list (interp t_ticket_xt)) := decoded t_ticket_xt (get 0 slot p).
  (** extrinsics/src/manager.rs:47-58 *)
  Definition get_guarantees (slot : N) (p : pool) : result unit (list (interp (t_guarantee P))) := let! l := decoded (t_guarantee P) (get 1 slot p) in at_most (core_count P) l.
  (** extrinsics/src/manager.rs:60-71 *)
  Definition get_assurances (slot : N) (p : pool) : result unit (list (interp (t_assurance P))) := let! l := decoded (t_assurance P) (get 2 slot p) in at_most (N.of_nat (validator_count P)) l.
  (** extrinsics/src/manager.rs:73-84 *)
  Definition get_preimages (slot : N) (p : pool) : result unit (list (interp t_preimage_xt)) := decoded t_preimage_xt (get 3 slot p).
  (** extrinsics/src/manager.rs:86-111 *)
  Definition get_disputes (slot : N) (p : pool) : result unit (list (interp (t_verdict P)) * (list (interp t_culprit) * list (interp t_fault))) :=
    let! v := decoded (t_verdict P) (get 4 slot p) in
    let! c := decoded t_culprit (get 5 slot p) in
    let! f := decoded t_fault (get 6 slot p) in
    Ok (v, (c, f)).
  (** Submissions one after the other, with what the pool answered; calls of extrinsics/src/manager.rs:17-23 *)
  Fixpoint submissions (max : nat) (l : list (xt * N)) (p : pool) : result cerr (pool * list bool) :=
    match l with
    | [] => Ok (p, [])
    | (x, s) :: r => let! (q, b) := submit max x s p in let! (q', bs) := submissions max r q in Ok (q', b :: bs)
    end.
End Intake.
