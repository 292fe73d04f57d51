(** The messages of the fuzzing protocol and how they travel: fuzz/src/types.rs and fuzz/src/utils.rs. *)
From Verif Require Import Base Codec_Model Block_Model.
Open Scope N_scope.

Section Messages.
  (** [age] is MAX_LOOKUP_ANCHOR_AGE; [sz_kv], [sz_anc] the in-memory sizes of [KeyValue] and [AncestryItem]. *)
  Variable P : params.
  Variables (age sz_kv sz_anc : N).

  (** types.rs:20-55, 89-130. [app_name] is a [Vec<u8>], whose elements are compact integers. *)
  Definition t_version := TFix 8 1 ** TFix 8 1 ** TFix 8 1.
  (** Part of types.rs:20-55, 89-130. *)
  Definition t_peer := TFix 8 1 ** TFix 32 4 ** t_version ** t_version ** TVec 1 (TUint 8).
  (** types.rs:164-171, 189-219, 222-235. *)
  Definition t_kv := TByteArr 31 ** TOctets.
  (** Part of types.rs:164-171, 189-219, 222-235. *)
  Definition t_state := TVec sz_kv t_kv.
  (** Part of types.rs:164-171, 189-219, 222-235. *)
  Definition t_ancestry := TLim sz_anc age (TFix 32 4 ** t_hash).
  (** Part of types.rs:164-171, 189-219, 222-235. *)
  Definition t_initialize := t_header P ** t_state ** t_ancestry.

  (** types.rs:239-247. *)
  Inductive kind :=
  | KPeerInfo (v : interp t_peer)
  | KInitialize (v : interp t_initialize)
  | KStateRoot (v : interp t_hash)
  | KImportBlock (v : interp (t_block P))
  | KGetState (v : interp t_hash)
  | KState (v : interp t_state)
  | KError (v : interp (TVec 1 (TUint 8))).
  (** types.rs:264-276 [encode_to]. *)
  Definition encode_kind (k : kind) : result cerr bytes :=
    let! (id, b) := match k with
      | KPeerInfo v => let! b := encode t_peer v in Ok (0, b)
      | KInitialize v => let! b := encode t_initialize v in Ok (1, b)
      | KStateRoot v => let! b := encode t_hash v in Ok (2, b)
      | KImportBlock v => let! b := encode (t_block P) v in Ok (3, b)
      | KGetState v => let! b := encode t_hash v in Ok (4, b)
      | KState v => let! b := encode t_state v in Ok (5, b)
      | KError v => let! b := encode (TVec 1 (TUint 8)) v in Ok (255, b)
      end in
    Ok (id :: b).
  (** types.rs:280-297 [decode]. *)
  Definition decode_kind : dec kind := fun inp =>
    let! (id, r) := read_byte inp in
    if id =? 0 then let! (v, r') := decode t_peer r in Ok (KPeerInfo v, r')
    else if id =? 1 then let! (v, r') := decode t_initialize r in Ok (KInitialize v, r')
    else if id =? 2 then let! (v, r') := decode t_hash r in Ok (KStateRoot v, r')
    else if id =? 3 then let! (v, r') := decode (t_block P) r in Ok (KImportBlock v, r')
    else if id =? 4 then let! (v, r') := decode t_hash r in Ok (KGetState v, r')
    else if id =? 5 then let! (v, r') := decode t_state r in Ok (KState v, r')
    else if id =? 255 then let! (v, r') := decode (TVec 1 (TUint 8)) r in Ok (KError v, r')
    else Err InputError.
  (** types.rs:299-327: the octets of [FuzzProtocolMessage::from_kind], utils.rs:29-37 [send_message]. *)
  Definition frame (k : kind) : result cerr bytes :=
    let! b := encode_kind k in
    if N.of_nat (length b) <? 2 ^ 32 then
      let! l := encode_fixed (N.of_nat (length b)) 4 in Ok (l ++ b)
    else Err ConversionError.
  (** utils.rs:15-27 [read_message]: what is read from the octets still to come, or [None] if the stream ends before.
      Octets of the frame left after the message are dropped. Running out of memory for the buffer is not modelled. *)
  Definition read_message (inp : bytes) : option (result cerr kind * bytes) :=
    if N.of_nat (length inp) <? 4 then None
    else match decode_fixed 32 4 (firstn 4 inp) with
         | Ok (n, _) =>
             let r := skipn 4 inp in
             if N.of_nat (length r) <? n then None
             else Some (let! (k, _) := decode_kind (firstn (N.to_nat n) r) in Ok k, skipn (N.to_nat n) r)
         | Err e => Some (Err e, skipn 4 inp)
         | Panic => Some (Panic, skipn 4 inp)
         end.
  (** Reading until the stream ends or a message cannot be read (fuzz_target.rs:491-516). *)
  Fixpoint read_all (fuel : nat) (inp : bytes) : list (result cerr kind) * bytes :=
    match fuel with
    | O => ([], inp)
    | S f => match read_message inp with
             | None => ([], inp)
             | Some (Ok k, r) => let (ks, r') := read_all f r in (Ok k :: ks, r')
             | Some (x, r) => ([x], r)
             end
    end.
End Messages.

(** types.rs:149-161: the features in a peer's word. *)
Definition with_ancestors (w : N) : bool := negb (N.land w 1 =? 0).
(** Part of types.rs:149-161. *)
Definition with_forking (w : N) : bool := negb (N.land w 2 =? 0).
Arguments KPeerInfo {P age sz_kv sz_anc}. Arguments KInitialize {P age sz_kv sz_anc}. Arguments KStateRoot {P age sz_kv sz_anc}. Arguments KImportBlock {P age sz_kv sz_anc}.
Arguments KGetState {P age sz_kv sz_anc}. Arguments KState {P age sz_kv sz_anc}. Arguments KError {P age sz_kv sz_anc}.
Arguments encode_kind {P age sz_kv sz_anc}. Arguments frame {P age sz_kv sz_anc}.
