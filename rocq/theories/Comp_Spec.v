(** The serialization of the state, after the Graypaper (appendix D.1, and the codec of appendix C). *)
From Verif Require Import Base Codec_Model Codec_Spec Block_Model Stats_Model Stats_Spec StatsCodec_Proofs Comp_Model.
Open Scope N_scope.

(** What octets may be. *)
Definition shape := bytes -> Prop.
(** These very octets. *)
Definition as_is (b : bytes) : shape := fun o => o = b.
(** A natural number, in the general code. *)
Definition natural (x : N) : shape := gp_int x.
(** A natural number in so many octets, the least significant first. *)
Definition octets (n : nat) (x : N) : shape := fun o => o = le_bytes n x.
(** The items of a sequence one after the other. *)
Definition in_turn {A} (w : A -> shape) (l : list A) : shape := fun o => exists bs, Forall2 w l bs /\ o = concat bs.
(** A tuple. *)
Definition parts (l : list shape) : shape := in_turn (fun s => s) l.
(** A sequence preceded by its length. *)
Definition counted {A} (w : A -> shape) (l : list A) : shape := parts [natural (N.of_nat (length l)); in_turn w l].
(** A discriminator and the item, if there is one. *)
Definition maybe {A} (w : A -> shape) (x : option A) : shape := match x with None => as_is [0] | Some a => parts [as_is [1]; w a] end.

(** Graypaper (C.26)-(C.29): availability specification, refinement context, work digest, work report. *)
Definition gp_specs (s : interp t_avail_specs) : shape :=
  let '(package, (len, (erasure, (segments, count)))) := s in parts [as_is package; octets 4 len; as_is erasure; as_is segments; octets 2 count].
Definition gp_context (c : interp t_refine_ctx) : shape :=
  let '(anchor, (state, (beefy, (lookup, (slot, prerequisites))))) := c in
  parts [as_is anchor; as_is state; as_is beefy; as_is lookup; octets 4 slot; counted as_is prerequisites].
Definition gp_result (r : bytes + N) : shape := match r with inl out => parts [natural 0; counted (fun x => as_is [x]) out] | inr error => natural error end.
Definition gp_digest (d : interp t_digest) : shape :=
  let '(service, (code, (payload, (gas, (result, (used, (imports, (xts, (size, exports))))))))) := d in
  parts [octets 4 service; as_is code; as_is payload; octets 8 gas; gp_result result; natural used; natural imports; natural xts; natural size; natural exports].
Definition gp_report {P} (r : interp (t_report P)) : shape :=
  let '(specs, (context, (core, (authorizer, (gas, (trace, (lookup, digests))))))) := r in
  parts [gp_specs specs; gp_context context; natural core; as_is authorizer; natural gas; counted (fun x => as_is [x]) trace;
         counted (fun p => parts [as_is (fst p); as_is (snd p)]) lookup; counted gp_digest digests].

Definition gp_vk (k : vk) : shape := parts [as_is (vk_band k); as_is (vk_ed k); as_is (vk_bls k); as_is (vk_meta k)].
Definition gp_tkt (t : tkt) : shape := parts [as_is (tk_id t); natural (tk_attempt t)].
Definition gp_vstat (x : vstat) : shape := in_turn (octets 4) [v_blocks x; v_tickets x; v_preimages x; v_octets x; v_guarantees x; v_assurances x].
Definition gp_cstat (x : cstat) : shape := in_turn natural [c_da x; c_assurers x; c_imports x; c_xts x; c_octets x; c_exports x; c_bundle x; c_gas x].
Definition gp_sstat (x : sstat) : shape :=
  in_turn natural [s_preimages x; s_blobs x; s_digests x; s_gas x; s_imports x; s_xts x; s_octets x; s_exports x; s_acc_digests x; s_acc_gas x].

(** Graypaper (D.2): the octets of each component. *)
Definition gp_entry {P} (e : entry P) : shape :=
  match e with
  | EPool _ l => in_turn (counted as_is) l
  | EQueue _ l => in_turn (in_turn as_is) l
  | EHistory _ l peaks =>
      parts [counted (fun r => parts [as_is (re_header r); as_is (re_mmr r); as_is (re_state r);
                                      counted (fun p => parts [as_is (fst p); as_is (snd p)]) (re_packages r)]) l;
             counted (maybe as_is) peaks]
  | ESafrole _ s =>
      parts [in_turn gp_vk (sf_pending s); as_is (sf_root s);
             match sf_sealers s with ByTickets l => parts [as_is [0]; in_turn gp_tkt l] | ByKeys l => parts [as_is [1]; in_turn as_is l] end;
             counted gp_tkt (sf_tickets s)]
  | EDisputes _ good bad wonky offenders => parts [counted as_is good; counted as_is bad; counted as_is wonky; counted as_is offenders]
  | EEntropy _ l => in_turn as_is l
  | EStaging _ l | EActive _ l | EPast _ l => in_turn gp_vk l
  | EPending _ l => in_turn (maybe (fun p => parts [gp_report (fst p); octets 4 (snd p)])) l
  | ESlot _ t => octets 4 t
  | EPrivileges _ p =>
      parts [octets 4 (pv_manager p); in_turn (octets 4) (pv_assign p); octets 4 (pv_designate p); octets 4 (pv_registrar p);
             counted (fun x => parts [natural (fst x); natural (snd x)]) (pv_always p)]
  | EStatistics _ s =>
      parts [in_turn gp_vstat (curr s); in_turn gp_vstat (prev s); in_turn gp_cstat (cores s);
             counted (fun x => parts [octets 4 (fst x); gp_sstat (snd x)]) (services s)]
  | EReady _ l => in_turn (counted (fun p => parts [gp_report (fst p); counted as_is (snd p)])) l
  | EAccumulated _ l => in_turn (counted as_is) l
  | EOutputs _ l => counted (fun p => parts [octets 4 (fst p); as_is (snd p)]) l
  | EAccount _ a =>
      parts [natural (at_version a); as_is (at_code a);
             in_turn (octets 8) [at_balance a; at_gas a; at_transfer_gas a; at_octets a; at_gratis a];
             in_turn (octets 4) [at_items a; at_created a; at_accumulated a; at_parent a]]
  | EStorage _ b | EPreimage _ b => as_is b
  | ELookup _ l => counted (octets 4) l
  end.

(** ** Values the components can hold *)
Definition sized (n : nat) (b : bytes) : Prop := Bytes b /\ length b = n.
(** A sequence a machine can hold: its items, of [size] octets each, fit the address space. *)
Definition in_memory {A} (size : N) (l : list A) : Prop := N.of_nat (length l) < 2 ^ 64 /\ N.of_nat (length l) * size <= isize_max.
(** A set of hashes. *)
Definition hash_set (l : list bytes) : Prop := Forall (sized 32) l /\ N.of_nat (length l) < 2 ^ 64 /\ increasing (cmp_list N.compare) l.
Definition vk_held (k : vk) : Prop := sized 32 (vk_band k) /\ sized 32 (vk_ed k) /\ sized 144 (vk_bls k) /\ sized 128 (vk_meta k).
Definition tkt_held (t : tkt) : Prop := sized 32 (tk_id t) /\ tk_attempt t < 2 ^ 8.
Definition recent_held (Z : msizes) (r : recent) : Prop :=
  sized 32 (re_header r) /\ sized 32 (re_mmr r) /\ sized 32 (re_state r) /\
  Forall (fun p => sized 32 (fst p) /\ sized 32 (snd p)) (re_packages r) /\ in_memory (sz_package Z) (re_packages r).
Section Held.
  Variable P : params.
  Variable Z : msizes.
  Variable POOL HISTORY QUEUE : nat.
  Let V := validator_count P.
  Let C := N.to_nat (core_count P).
  Let E := epoch_length P.
  Definition entry_held (e : entry P) : Prop :=
    match e with
    | EPool _ l => length l = C /\ Forall (fun q => Forall (sized 32) q /\ in_memory 32 q /\ (length q <= POOL)%nat) l
    | EQueue _ l => length l = C /\ Forall (fun q => Forall (sized 32) q /\ length q = QUEUE) l
    | EHistory _ l peaks =>
        Forall (recent_held Z) l /\ in_memory (sz_recent Z) l /\ (length l <= HISTORY)%nat /\
        Forall (fun o => forall h, o = Some h -> sized 32 h) peaks /\ in_memory (sz_peak Z) peaks
    | ESafrole _ s =>
        length (sf_pending s) = V /\ Forall vk_held (sf_pending s) /\ sized 144 (sf_root s) /\
        match sf_sealers s with ByTickets l => length l = E /\ Forall tkt_held l | ByKeys l => length l = E /\ Forall (sized 32) l end /\
        (length (sf_tickets s) <= E)%nat /\ Forall tkt_held (sf_tickets s) /\ in_memory (sz_tkt Z) (sf_tickets s) /\
        increasing (cmp_list N.compare) (map tk_id (sf_tickets s))
    | EDisputes _ g b w o => Forall (fun l => Forall (sized 32) l /\ in_memory 32 l) [g; b; w; o]
    | EEntropy _ l => length l = 4%nat /\ Forall (sized 32) l
    | EStaging _ l | EActive _ l | EPast _ l => length l = V /\ Forall vk_held l
    | EPending _ l => length l = C /\ Forall (fun o => forall r t, o = Some (r, t) -> wf (t_report P) r /\ t < 2 ^ 32) l
    | ESlot _ t => t < 2 ^ 32
    | EPrivileges _ p =>
        length (pv_assign p) = C /\ Forall (fun x => x < 2 ^ 32) (pv_manager p :: pv_designate p :: pv_registrar p :: pv_assign p) /\
        Forall (fun x => fst x < 2 ^ 32 /\ snd x < 2 ^ 64) (pv_always p) /\ N.of_nat (length (pv_always p)) < 2 ^ 64 /\
        increasing N.compare (map fst (pv_always p))
    | EStatistics _ s => held V C s
    | EReady _ l => length l = E /\ Forall (fun q => Forall (fun p => wf (t_report P) (fst p) /\ hash_set (snd p)) q /\ in_memory (sz_queued Z) q) l
    | EAccumulated _ l => length l = E /\ Forall hash_set l
    | EOutputs _ l => Forall (fun p => fst p < 2 ^ 32 /\ sized 32 (snd p)) l /\ in_memory (sz_output Z) l
    | EAccount _ a =>
        at_version a < 2 ^ 8 /\ sized 32 (at_code a) /\
        Forall (fun x => x < 2 ^ 64) [at_balance a; at_gas a; at_transfer_gas a; at_octets a; at_gratis a] /\
        Forall (fun x => x < 2 ^ 32) [at_items a; at_created a; at_accumulated a; at_parent a]
    | EStorage _ b | EPreimage _ b => Bytes b
    | ELookup _ l => (length l <= 3)%nat /\ Forall (fun t => t < 2 ^ 32) l
    end.
End Held.

(** The components of no variable length: their octets are those of their value and then, at most, some that are ignored. *)
Definition fixed_length (k : sort) : bool :=
  match k with KQueue | KEntropy | KStaging | KActive | KPast | KSlot | KStorage | KPreimage => true | _ => false end.
