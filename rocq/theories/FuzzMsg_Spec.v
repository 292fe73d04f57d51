(** The octets of the fuzzing protocol's messages, as the protocol lays them out. *)
From Verif Require Import Base Codec_Model Codec_Spec Block_Model FuzzMsg_Model Comp_Spec Wire_Spec.
Open Scope N_scope.

Section Messages.
  Variable P : params.
  Variables (age sz_kv sz_anc : N).

  Definition fz_version (v : interp t_version) : shape := let '(major, (minor, patch)) := v in parts [octets 1 major; octets 1 minor; octets 1 patch].
  (** Text as the code writes it: a count, and each octet as a natural number (see text_octets_refuted for where this is not the octets themselves). *)
  Definition fz_text (l : list N) : shape := counted natural l.
  Definition fz_peer (v : interp t_peer) : shape :=
    let '(protocol, (features, (jam, (app, name)))) := v in parts [octets 1 protocol; octets 4 features; fz_version jam; fz_version app; fz_text name].
  Definition fz_state (l : interp (t_state sz_kv)) : shape :=
    counted (fun e => parts [fun o => as_is (fst e) o /\ length o = 31%nat; blob (snd e)]) l.
  Definition fz_ancestry (l : interp (t_ancestry age sz_anc)) : shape := counted (fun e => parts [octets 4 (fst e); as_is (snd e)]) l.
  Definition fz_initialize (v : interp (t_initialize P age sz_kv sz_anc)) : shape :=
    let '(header, (state, ancestry)) := v in parts [gp_header P header; fz_state state; fz_ancestry ancestry].
  (** A message: its number, then what it carries. *)
  Definition fz_message (k : kind P age sz_kv sz_anc) : shape :=
    match k with
    | KPeerInfo v => parts [as_is [0]; fz_peer v]
    | KInitialize v => parts [as_is [1]; fz_initialize v]
    | KStateRoot v => parts [as_is [2]; as_is v]
    | KImportBlock v => parts [as_is [3]; gp_block P v]
    | KGetState v => parts [as_is [4]; as_is v]
    | KState v => parts [as_is [5]; fz_state v]
    | KError v => parts [as_is [255]; fz_text v]
    end.
End Messages.
