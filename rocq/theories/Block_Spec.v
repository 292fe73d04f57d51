(** What is hashed while the extrinsic hash of a block body is computed: every part's own serialization,
    each guaranteed work-report's serialization, and the five part hashes together. A collision between
    two bodies is a pair of different strings, one from each list, with the same hash. *)
From Verif Require Import Base Codec_Model Block_Model.

Inductive hashed_by (P : params) (H : bytes -> bytes) : interp (t_extrinsics P) -> bytes -> Prop :=
| hb_tickets : forall t r b, encode (t_tickets P) t = Ok b -> hashed_by P H (t, r) b
| hb_preimages : forall t p r b, encode (t_preimages P) p = Ok b -> hashed_by P H (t, (p, r)) b
| hb_guarantees : forall t p g r b,
    encode_with_hashed_reports P H g = Ok b -> hashed_by P H (t, (p, (g, r))) b
| hb_report : forall e g b, In g (fst (snd (snd e))) -> encode (t_report P) (fst g) = Ok b -> hashed_by P H e b
| hb_assurances : forall t p g a d b, encode (t_assurances P) a = Ok b -> hashed_by P H (t, (p, (g, (a, d)))) b
| hb_disputes : forall t p g a d b, encode (t_disputes P) d = Ok b -> hashed_by P H (t, (p, (g, (a, d)))) b
| hb_top : forall t p g a d bt bp bg ba bd,
    encode (t_tickets P) t = Ok bt -> encode (t_preimages P) p = Ok bp ->
    encode_with_hashed_reports P H g = Ok bg -> encode (t_assurances P) a = Ok ba ->
    encode (t_disputes P) d = Ok bd ->
    hashed_by P H (t, (p, (g, (a, d)))) (H bt ++ H bp ++ H bg ++ H ba ++ H bd).
