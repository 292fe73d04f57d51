(** The octets of blocks and work packages (C122). *)
From Verif Require Import Base Codec_Model Codec_Spec Codec_Proofs Codec2_Proofs Codec3_Proofs Block_Model Codec_Props Comp_Spec Comp_Proofs Wire_Spec Wire_Proofs.
From Coq Require Import Lia.
Open Scope N_scope.

(** ** C122 *)
Theorem block_octets : forall P b, core_count P <= bitvec_max_bits -> wf (t_block P) b ->
  (exists o, encode (t_block P) b = Ok o) /\ forall o, encode (t_block P) b = Ok o <-> gp_block P b o.
Proof.
  intros P b C W. split; [destruct (codec_roundtrip _ _ (block_ok P C) W) as (o & E & _); eauto|].
  apply (both_ways (t_block P) (gp_block P)); [exact (block_ok P C)|exact W|intros o; apply block_writes; exact W|apply uniq_block].
Qed.
Theorem header_octets : forall P h, wf (t_header P) h ->
  (exists o, encode (t_header P) h = Ok o) /\ (forall o, encode (t_header P) h = Ok o <-> gp_header P h o) /\
  (forall o, encode (t_header_data P) (fst h) = Ok o <-> gp_unsealed P (fst h) o).
Proof.
  intros P h W. assert (K : ty_ok (t_header P)) by (cbn; repeat split; lia). split; [destruct (codec_roundtrip _ _ K W) as (o & E & _); eauto|]. split.
  - apply (both_ways (t_header P) (gp_header P)); [exact K|exact W|intros o; apply header_writes; exact W|apply uniq_header].
  - destruct h as (h & s). destruct K as (K & _). destruct W as (W & _). cbn [fst] in *.
    apply (both_ways (t_header_data P) (gp_unsealed P)); [exact K|exact W|intros o; apply unsealed_writes; exact W|apply uniq_unsealed].
Qed.
Theorem package_octets : forall P p, wf (t_package P) p ->
  (exists o, encode (t_package P) p = Ok o) /\ forall o, encode (t_package P) p = Ok o <-> gp_package P p o.
Proof.
  intros P p W. assert (K : ty_ok (t_package P)) by (cbn; repeat split; lia). split; [destruct (codec_roundtrip _ _ K W) as (o & E & _); eauto|].
  apply (both_ways (t_package P) (gp_package P)); [exact K|exact W|intros o; apply package_writes; exact W|apply uniq_package].
Qed.
Theorem body_commitment : forall P H e, core_count P <= bitvec_max_bits -> wf (t_extrinsics P) e ->
  (exists h, extrinsics_hash P H e = Ok h) /\ forall h, extrinsics_hash P H e = Ok h <-> gp_commitment P H e h.
Proof.
  intros P H e C W. assert (X : exists h, extrinsics_hash P H e = Ok h).
  { destruct e as (t & p & g & a & d). destruct W as (W1 & W2 & W3 & W4 & W5). cbn [fst snd] in *. destruct (block_ok P C) as (_ & K1 & K2 & K3 & K4 & K5).
    destruct (codec_roundtrip (t_tickets P) _ K1 W1) as (ot & E1 & _). destruct (codec_roundtrip (t_preimages P) _ K2 W2) as (op & E2 & _).
    destruct (codec_roundtrip (t_assurances P) _ K4 W4) as (oa & E4 & _). destruct (codec_roundtrip (t_disputes P) _ K5 W5) as (od & E5 & _).
    assert (G : exists og, encode_seq (encode_hashed_guarantee P H) g = Ok og).
    { destruct W3 as (F & _). clear - F K3. induction F as [|x l Wx F IH]; [exists []; reflexivity|]. destruct IH as (ol & IH). destruct x as (r & s & c). destruct Wx as (W1 & W2 & W3). cbn [fst snd] in *.
      destruct K3 as (K1 & K2 & K3). destruct (codec_roundtrip (t_report P) _ K1 W1) as (o1 & E1 & _). destruct (codec_roundtrip (t_u32_4) _ K2 W2) as (o2 & E2 & _). destruct (codec_roundtrip (t_credentials P) _ K3 W3) as (o3 & E3 & _).
      exists ((H o1 ++ o2 ++ o3) ++ ol). cbn [encode_seq]. unfold encode_hashed_guarantee at 1.
      rewrite E1. cbn [bind]. rewrite E2. cbn [bind]. rewrite E3. cbn [bind]. rewrite IH. reflexivity. }
    destruct G as (og & G). eexists. unfold extrinsics_hash. rewrite E1. cbn [bind]. rewrite E2. cbn [bind]. unfold encode_with_hashed_reports. rewrite G. cbn [bind].
    rewrite E4. cbn [bind]. rewrite E5. cbn [bind]. reflexivity. }
  split; [exact X|]. intro h. split; [apply commitment_writes; exact W|]. intro G. destruct X as (h' & X). rewrite X. f_equal.
  apply (commitment_uniq P H e); [apply commitment_writes; assumption|exact G].
Qed.
Theorem header_hash_of_octets : forall P H h x, wf (t_header P) h -> (header_hash P H h = Ok x <-> exists o, gp_header P h o /\ x = H o).
Proof.
  intros P H h x W. destruct (header_octets P h W) as ((o & E) & B & _). unfold header_hash. rewrite E. cbn [bind]. split.
  - intro X. apply ok_inj in X. subst x. exists o. split; [apply B; exact E|reflexivity].
  - intros (o' & G & ->). apply B in G. rewrite E in G. apply ok_inj in G. subst o'. reflexivity.
Qed.

(** A block with a ticket, a preimage, a guarantee, an assurance, an epoch mark and two offenders; the octets of some of its parts. *)
Definition a_mark : interp (t_epoch_marker ex_params) := (repeat 5 32, (repeat 6 32, repeat (repeat 7 32, repeat 8 32) 6)).
Definition a_header : interp (t_header ex_params) :=
  ((repeat 1 32, (repeat 2 32, (repeat 3 32, (258, (Some a_mark, (None, (260, (repeat 9 96, [repeat 10 32; repeat 11 32])))))))), repeat 12 96).
Definition a_block : interp (t_block ex_params) := (a_header, ex_xts 8).
Example block_case :
  core_count ex_params <= bitvec_max_bits /\ wf (t_block ex_params) a_block /\ wf (t_header ex_params) a_header /\ wf (t_extrinsics ex_params) (ex_xts 8) /\
  encode (t_header ex_params) a_header =
    Ok (repeat 1 32 ++ repeat 2 32 ++ repeat 3 32 ++ [2; 1; 0; 0] ++ [1] ++ repeat 5 32 ++ repeat 6 32 ++ concat (repeat (repeat 7 32 ++ repeat 8 32) 6) ++ [0] ++ [4; 1] ++ repeat 9 96 ++
        [2] ++ repeat 10 32 ++ repeat 11 32 ++ repeat 12 96) /\
  is_ok (extrinsics_hash ex_params toy_hash (ex_xts 8)) = true.
Proof.
  split; [vm_compute; discriminate|]. split; [apply wfb_sound; vm_compute; reflexivity|]. split; [apply wfb_sound; vm_compute; reflexivity|].
  split; [apply wfb_sound; vm_compute; reflexivity|]. split; vm_compute; reflexivity.
Qed.
Example bits_case : bits [true; false; false; true; false; false; false; false; false; true] [9; 2] /\ ~ bits [true] [3] /\ ~ bits [true] [128].
Proof.
  split; [|split].
  - change [9; 2] with (pack_bits [true; false; false; true; false; false; false; false; false; true]). split; [reflexivity|]. split; [apply pack_bits_Bytes|apply pack_at].
  - intros (_ & _ & B). specialize (B 1%nat 3 eq_refl). discriminate B.
  - intros (_ & _ & B). specialize (B 0%nat 128 eq_refl). discriminate B.
Qed.
Definition a_package : interp (t_package ex_params) :=
  (7, (repeat 1 32, ((repeat 2 32, (repeat 3 32, (repeat 4 32, (repeat 5 32, (9, [repeat 6 32]))))), ([1; 2], ([3], [(300, (repeat 7 32, (10, (20, (2, ([9], ([(repeat 8 32, (true, 3))], [(repeat 9 32, 5)])))))))]))))).
Example package_case : wf (t_package ex_params) a_package /\
  encode (t_package ex_params) a_package =
    Ok ([7; 0; 0; 0] ++ repeat 1 32 ++ (repeat 2 32 ++ repeat 3 32 ++ repeat 4 32 ++ repeat 5 32 ++ [9; 0; 0; 0] ++ [1] ++ repeat 6 32) ++ [2; 1; 2] ++ [1; 3] ++ [1] ++
        [44; 1; 0; 0] ++ repeat 7 32 ++ [10; 0; 0; 0; 0; 0; 0; 0] ++ [20; 0; 0; 0; 0; 0; 0; 0] ++ [2; 0] ++ [1; 9] ++ [1] ++ repeat 8 32 ++ [3; 128] ++ [1] ++ repeat 9 32 ++ [5; 0; 0; 0]).
Proof. split; [apply wfb_sound; vm_compute; reflexivity|vm_compute; reflexivity]. Qed.
Print Assumptions block_octets.
Print Assumptions header_octets.
Print Assumptions package_octets.
Print Assumptions body_commitment.
Print Assumptions header_hash_of_octets.
