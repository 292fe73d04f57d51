(** How a byte stream reaches its reader, and what announcing means *)
From Verif Require Import Base Codec_Model Codec_Spec Block_Model Block_Spec Net_Model.
Open Scope N_scope.

(** The transport may hand over a stream in any pieces of at most 1024 octets; message borders mean nothing to it. *)
Definition cut (stream : bytes) (chunks : list bytes) : Prop := concat chunks = stream /\ Forall (fun c => c <> [] /\ (length c <= 1024)%nat) chunks.

(** The headers' announcements are these messages, and these are the headers' hashes. *)
Definition announces (P : params) (H : bytes -> bytes) (hs : list (header P)) (messages hashes : list bytes) : Prop :=
  Forall2 (fun h m => announcement_blob P H h = Ok m) hs messages /\ Forall2 (fun h x => header_hash P H h = Ok x) hs hashes.

(** Blake2b-256 yields 32 octets. *)
Definition hash_like (H : bytes -> bytes) : Prop := forall x, length (H x) = 32%nat /\ Bytes (H x).

(** What the node did since it was started on an empty database with genesis header [g]. A node authors a header with the hash of its extrinsics in it, and commits the state of
    blocks whose header it has committed before. *)
Inductive life (P : params) (H : bytes -> bytes) (g : header P) : store P -> list (deed P) -> Prop :=
| born : wf (t_header P) g -> life P H g (genesis_store P H g) []
| makes_header : forall s ds h, life P H g s ds -> wf (t_header P) h -> life P H g (done P H s (CommitHeader h)) (CommitHeader h :: ds)
| makes_block : forall s ds h e, life P H g s ds -> In (CommitHeader h) ds -> wf (t_extrinsics P) e -> extrinsics_hash P H e = Ok (xt_hash_of P h) ->
    life P H g (done P H s (CommitState (h, e))) (CommitState (h, e) :: ds)
| imports_block : forall s ds b, life P H g s ds -> wf (t_block P) b -> life P H g (done P H s (Import b)) (Import b :: ds).

(** The headers the node has seen *)
Definition seen (P : params) (g : header P) (ds : list (deed P)) (h : header P) : Prop := h = g \/ In (CommitHeader h) ds \/ exists e, In (Import (h, e)) ds.
(** Two headers, two bodies with the same hash *)
Definition headers_collide (P : params) (H : bytes -> bytes) (h h' : header P) : Prop :=
  exists y z, encode (t_header P) h = Ok y /\ encode (t_header P) h' = Ok z /\ y <> z /\ H y = H z.
Definition bodies_collide (P : params) (H : bytes -> bytes) (e e' : xts P) : Prop := exists y z, hashed_by P H e y /\ hashed_by P H e' z /\ y <> z /\ H y = H z.

(** A stream that is complete and asks for nothing unimplemented: announcements, an unknown kind, or a request the node can handle *)
Definition calm (P : params) (s : store P) (t : stream) : Prop :=
  match fst t with
  | Silent => False
  | Ended => True
  | Got k => k = 0 \/ k = 130 \/ (0 < k < 128) \/ 145 < k \/
      (k = 128 /\ match snd t with Silent => False | Ended => True | Got a => serve P s a <> Crashed end)
  end.
