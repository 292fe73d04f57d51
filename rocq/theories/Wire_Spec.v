(** The serialization of blocks and work packages and the commitment of a header to its body, after the Graypaper (appendix C and section 5). *)
From Verif Require Import Base Codec_Model Codec_Spec Block_Model Comp_Spec.
Open Scope N_scope.

(** Bits, eight to an octet, the first in the least significant place; the bits of the last octet that are left over are zero. *)
Definition bits (l : list bool) : shape := fun o =>
  length o = ((length l + 7) / 8)%nat /\ Bytes o /\
  forall i x, nth_error o (i / 8) = Some x -> N.testbit x (N.of_nat (i mod 8)) = nth i l false.
Definition flag (b : bool) : shape := as_is [if b then 1 else 0].
Definition blob (b : bytes) : shape := counted (fun x => as_is [x]) b.

Section Wire.
  Variable P : params.

  (** The header: everything but the seal, and the seal. *)
  Definition gp_epoch_mark (m : interp (t_epoch_marker P)) : shape :=
    let '(entropy, (tickets_entropy, keys)) := m in
    parts [as_is entropy; as_is tickets_entropy; in_turn (fun k => parts [as_is (fst k); as_is (snd k)]) keys].
  Definition gp_ticket (t : interp t_ticket) : shape := parts [as_is (fst t); natural (snd t)].
  Definition gp_unsealed (h : interp (t_header_data P)) : shape :=
    let '(parent, (prior_state, (body, (slot, (epoch, (winners, (author, (vrf, offenders)))))))) := h in
    parts [as_is parent; as_is prior_state; as_is body; octets 4 slot; maybe gp_epoch_mark epoch; maybe (in_turn gp_ticket) winners; octets 2 author; as_is vrf;
           counted as_is offenders].
  Definition gp_header (h : interp (t_header P)) : shape := let '(unsealed, seal) := h in parts [gp_unsealed unsealed; as_is seal].

  (** The five parts of the body. *)
  Definition gp_tickets (l : interp (t_tickets P)) : shape := counted (fun t => parts [natural (fst t); as_is (snd t)]) l.
  Definition gp_preimages (l : interp (t_preimages P)) : shape := counted (fun p => parts [octets 4 (fst p); blob (snd p)]) l.
  Definition gp_credentials (l : interp (t_credentials P)) : shape := counted (fun c => parts [octets 2 (fst c); as_is (snd c)]) l.
  Definition gp_guarantees (l : interp (t_guarantees P)) : shape :=
    counted (fun g : interp (t_guarantee P) => let '(report, (slot, credentials)) := g in parts [@gp_report P report; octets 4 slot; gp_credentials credentials]) l.
  Definition gp_assurances (l : interp (t_assurances P)) : shape :=
    counted (fun a : interp (t_assurance P) => let '(anchor, (cores, (validator, signature))) := a in parts [as_is anchor; bits cores; octets 2 validator; as_is signature]) l.
  Definition gp_judgment (j : interp t_judgment) : shape := let '(valid, (voter, signature)) := j in parts [flag valid; octets 2 voter; as_is signature].
  Definition gp_disputes (d : interp (t_disputes P)) : shape :=
    let '(verdicts, (culprits, faults)) := d in
    parts [counted (fun v : interp (t_verdict P) => let '(report, (epoch, judgments)) := v in parts [as_is report; octets 4 epoch; in_turn gp_judgment judgments]) verdicts;
           counted (fun c : interp t_culprit => let '(report, (key, signature)) := c in parts [as_is report; as_is key; as_is signature]) culprits;
           counted (fun f : interp t_fault => let '(report, (valid, (key, signature))) := f in parts [as_is report; flag valid; as_is key; as_is signature]) faults].
  Definition gp_body (e : interp (t_extrinsics P)) : shape :=
    let '(tickets, (preimages, (guarantees, (assurances, disputes)))) := e in
    parts [gp_tickets tickets; gp_preimages preimages; gp_guarantees guarantees; gp_assurances assurances; gp_disputes disputes].
  Definition gp_block (b : interp (t_block P)) : shape := let '(header, body) := b in parts [gp_header header; gp_body body].

  (** Work packages. The highest bit of an import's index says that its hash is that of a package and not of a segment tree. *)
  Definition gp_import (i : interp t_import) : shape := let '(hash, (of_package, index)) := i in parts [as_is hash; octets 2 (index + (if of_package then 2 ^ 15 else 0))].
  Definition gp_item (i : interp (t_item P)) : shape :=
    let '(service, (code, (refine_gas, (accumulate_gas, (exports, (payload, (imports, extrinsics))))))) := i in
    parts [octets 4 service; as_is code; octets 8 refine_gas; octets 8 accumulate_gas; octets 2 exports; blob payload; counted gp_import imports;
           counted (fun x => parts [as_is (fst x); octets 4 (snd x)]) extrinsics].
  Definition gp_package (p : interp (t_package P)) : shape :=
    let '(host, (authorizer, (context, (token, (config, items))))) := p in
    parts [octets 4 host; as_is authorizer; gp_context context; blob token; blob config; counted gp_item items].

  (** The commitment to the body: the hash of the hashes of its parts, where a guarantee's report is replaced by its hash. *)
  Variable H : bytes -> bytes.
  Definition gp_hashed_guarantees (l : interp (t_guarantees P)) : shape :=
    counted (fun g : interp (t_guarantee P) => let '(report, (slot, credentials)) := g in
      parts [fun o => exists r, @gp_report P report r /\ o = H r; octets 4 slot; gp_credentials credentials]) l.
  Definition gp_commitment (e : interp (t_extrinsics P)) (h : bytes) : Prop :=
    let '(tickets, (preimages, (guarantees, (assurances, disputes)))) := e in
    exists t p g a d, gp_tickets tickets t /\ gp_preimages preimages p /\ gp_hashed_guarantees guarantees g /\ gp_assurances assurances a /\ gp_disputes disputes d /\
      h = H (H t ++ H p ++ H g ++ H a ++ H d).
End Wire.
