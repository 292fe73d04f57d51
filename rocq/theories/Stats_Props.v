(** Properties of the activity statistics (C86, C87). *)
From Coq Require Import Sorted Lia.
From Verif Require Import Base Base_Proofs Codec_Model Stats_Model Stats_Spec Stats_Proofs Stats2_Proofs Stats3_Proofs Stats4_Proofs Stats5_Proofs StatsCodec_Model StatsCodec_Proofs.
Open Scope N_scope.

(** C86. After any history of blocks, a release build's statistics are each validator's activity in the latest block's epoch and in the epoch before it that had
    blocks, each core's and each service's activity in the latest block, as far as the counters' widths keep it. *)
Theorem statistics_release : forall V C E bs slot l, Forall (good V C) bs -> increasing_slots slot bs -> latest bs = Some l ->
  exists s, history false C E slot (genesis V C) bs = Ok s /\ statistics_are kept_v kept_c kept_s V C E bs l s.
Proof. exact release_ok. Qed.
(** If no counter overflows the statistics are the activity itself, in either build. *)
Theorem statistics_exact : forall V C E chk bs slot l, Forall (good V C) bs -> increasing_slots slot bs -> latest bs = Some l ->
  (forall v b, In b bs -> fits_v (activity v (filter (same_epoch E b) bs))) ->
  (forall b c, In b bs -> (c < C)%nat -> fits_c (core_activity c b)) ->
  (forall b i, In b bs -> active i b -> fits_s (service_activity i b)) ->
  exists s, history chk C E slot (genesis V C) bs = Ok s /\ statistics_are (fun x => x) (fun x => x) (fun x => x) V C E bs l s.
Proof. exact exact_ok. Qed.
(** A debug build that gets through a history has the activity itself, and agrees with the release build. *)
Theorem statistics_debug : forall V C E bs slot l s, Forall (good V C) bs -> increasing_slots slot bs -> latest bs = Some l ->
  history true C E slot (genesis V C) bs = Ok s ->
  statistics_are (fun x => x) (fun x => x) (fun x => x) V C E bs l s /\ history false C E slot (genesis V C) bs = Ok s.
Proof. exact debug_ok. Qed.
(** The data size counted for an available report is the Graypaper's, [4104 * ceil (65 n / 64)] for n segments, only for multiples of 64; otherwise it is more. *)
Theorem data_size_partial : forall r, r_bundle r + 4104 * ((65 * r_segments r + 63) / 64) <= da_size r /\
  (da_size r = r_bundle r + 4104 * ((65 * r_segments r + 63) / 64) <-> r_segments r mod 64 = 0).
Proof.
  intro r. unfold da_size. set (n := r_segments r). set (b := r_bundle r). clearbody n b.
  pose proof (N.div_mod n 64 ltac:(lia)) as D. pose proof (N.mod_lt n 64 ltac:(lia)) as M. set (q := n / 64) in *. set (m := n mod 64) in *. clearbody q m. subst n.
  destruct (N.eq_dec m 0) as [->|Z].
  - replace ((64 * q + 0 + 63) / 64) with q by (apply (N.div_unique _ 64 q 63); lia).
    replace ((65 * (64 * q + 0) + 63) / 64) with (65 * q) by (apply (N.div_unique _ 64 (65 * q) 63); lia). split; [lia|]. split; auto. intros _. lia.
  - replace ((64 * q + m + 63) / 64) with (q + 1) by (apply (N.div_unique _ 64 (q + 1) (m - 1)); lia).
    assert (L : (65 * (64 * q + m) + 63) / 64 < 65 * (q + 1)) by (apply N.div_lt_upper_bound; lia). split; [lia|]. split; [lia|contradiction].
Qed.
Definition data_block (b n : N) : sblock := mk_sblock 5 0 [11] 0 [] [] [] [] [mk_report 0 b n []] [] [] [].
Theorem data_size_refuted : exists s c, good 1 1 (data_block 1000 1) /\ transition false 1 false (data_block 1000 1) (genesis 1 1) = Ok s /\ cores s = [c] /\
  c_da c = 267760 /\ 1000 + 4104 * ((65 * 1 + 63) / 64) = 9208.
Proof.
  do 2 eexists. split; [|split; [vm_compute; reflexivity|split; [reflexivity|split; reflexivity]]].
  do 12 (split; [first [reflexivity | cbn; lia | repeat constructor]|]). intro i. cbn. intuition.
Qed.

(** C87. What is stored of the statistics after a history is read back unchanged. *)
Definition ids_ok (b : sblock) : Prop :=
  (forall d, In d (digests (b_guarantees b)) \/ In d (digests (b_accumulated b)) -> d_service d < 2 ^ 32) /\
  (forall p, In p (b_preimages b) \/ In p (b_gas b) -> fst p < 2 ^ 32).
Theorem statistics_stored : forall V C E bs slot l, Forall (good V C) bs -> increasing_slots slot bs -> latest bs = Some l -> ids_ok l ->
  exists s octets, history false C E slot (genesis V C) bs = Ok s /\ store V C s = Ok octets /\ Bytes octets /\
    forall rest, load V C (octets ++ rest) = Ok (s, rest).
Proof.
  intros V C E bs slot l G S L [I1 I2]. destruct (release_ok V C E bs slot l G S L) as (s & H & A1 & A2 & A3 & A4 & A5).
  assert (W : held V C s).
  { unfold held. rewrite A1, A2, A3, !map_length, !seq_length. repeat (split; [try reflexivity|]); auto.
    - apply Forall_forall. intros x Hx. apply in_map_iff in Hx. destruct Hx as (v & <- & _). exact (a_fits _ _ _ _ _ _ v_algebra _ I).
    - apply Forall_forall. intros x Hx. apply in_map_iff in Hx. destruct Hx as (v & <- & _). exact (a_fits _ _ _ _ _ _ v_algebra _ I).
    - apply Forall_forall. intros x Hx. apply in_map_iff in Hx. destruct Hx as (v & <- & _). exact (a_fits _ _ _ _ _ _ c_algebra _ I).
    - apply Forall_forall. intros [k x] Hx. apply A5 in Hx. destruct Hx as [Ha ->]. cbn [fst snd]. split; [|exact (a_fits _ _ _ _ _ _ s_algebra _ I)].
      assert (F : forall ds, of_service k ds <> [] -> exists d, In d ds /\ d_service d = k).
      { intros ds N. destruct (of_service k ds) as [|d r] eqn:E1; [congruence|]. exists d. assert (In d (of_service k ds)) by (rewrite E1; left; auto).
        apply filter_In in H0. destruct H0 as [H0 H1]. apply N.eqb_eq in H1. auto. }
      assert (P : forall ps, for_service k ps <> [] -> exists p, In p ps /\ fst p = k).
      { intros ps N. destruct (for_service k ps) as [|d r] eqn:E1; [congruence|]. exists d. assert (In d (for_service k ps)) by (rewrite E1; left; auto).
        apply filter_In in H0. destruct H0 as [H0 H1]. apply N.eqb_eq in H1. auto. }
      destruct Ha as [Ha|[Ha|[Ha|Ha]]].
      + destruct (F _ Ha) as (d & Hd & <-). apply I1. auto.
      + destruct (P _ Ha) as (d & Hd & <-). apply I2. auto.
      + destruct (F _ Ha) as (d & Hd & <-). apply I1. auto.
      + destruct (P (b_gas l)) as (d & Hd & <-); [|apply I2; auto]. intro Z. rewrite Z in Ha. cbn in Ha. lia. }
  destruct (store_load V C s W) as (octets & E1 & E2 & E3). exists s, octets. auto.
Qed.

(** ** Two validators, two cores, epochs of ten slots: two blocks in the first epoch, one in the third. *)
Definition dig (s gas : N) : digest := mk_digest s (mk_rstats gas 2 1 30 4).
Definition first : sblock := mk_sblock 3 1 [11; 12] 3 [(7, 100)] [(0%nat, [true; false])] [mk_report 1 500 64 [dig 7 10; dig 8 20]] [12] [] [] [] [].
Definition second : sblock := mk_sblock 8 0 [11; 12] 0 [] [(0%nat, [true; true]); (1%nat, [false; true])] [] [] [mk_report 1 500 64 [dig 7 10; dig 8 20]]
  [mk_report 1 500 64 [dig 7 10; dig 8 20]] [(8, 900); (5, 0); (7, 50); (8, 1)] [8; 7; 5].
Definition third : sblock := mk_sblock 27 0 [13; 11] 1 [(9, 5); (9, 6)] [] [mk_report 0 70 0 [dig 9 1]; mk_report 1 30 0 [dig 4 2]] [11; 12] [] [] [] [].
Example statistics_met :
  Forall (good 2 2) [first; second; third] /\ increasing_slots 0 [first; second; third] /\ latest [first; second; third] = Some third /\ ids_ok third /\
  this_epoch 10 [first; second; third] = [third] /\ last_epoch 10 [first; second; third] = [first; second] /\
  history true 2 10 0 (genesis 2 2) [first; second; third] = Ok (mk_stats
    [mk_vstat 1 1 2 11 0 0; mk_vstat 0 0 0 0 1 0] [mk_vstat 1 0 0 0 0 2; mk_vstat 1 3 1 100 1 1]
    [mk_cstat 0 0 2 1 30 4 70 1; mk_cstat 0 0 2 1 30 4 30 2]
    [(4, mk_sstat 0 0 1 2 2 1 30 4 0 0); (9, mk_sstat 2 11 1 1 2 1 30 4 0 0)]) /\
  (exists s, transition true 2 false second (genesis 2 2) = Ok s /\ cores s = [mk_cstat 0 1 0 0 0 0 0 0; mk_cstat 267260 2 0 0 0 0 0 0] /\
     services s = [(7, mk_sstat 0 0 0 0 0 0 0 0 1 50); (8, mk_sstat 0 0 0 0 0 0 0 0 1 901)]).
Proof.
  split; [|split; [|split; [|split; [|split; [|split; [|split]]]]]].
  - repeat apply Forall_cons; try apply Forall_nil;
      (do 12 (split; [first [reflexivity | cbn; lia | repeat constructor; cbn; try lia; intuition congruence]|])); intro i; cbn; intuition congruence.
  - repeat constructor.
  - reflexivity.
  - split; intros x [Hx|Hx]; cbn in Hx; intuition subst; reflexivity.
  - reflexivity.
  - reflexivity.
  - vm_compute. reflexivity.
  - eexists. split; [vm_compute; reflexivity|]. split; reflexivity.
Qed.
(** The counters fit. *)
Example statistics_exact_met : (forall v b, In b [first; second; third] -> fits_v (activity v (filter (same_epoch 10 b) [first; second; third]))) /\
  (forall b c, In b [first; second; third] -> (c < 2)%nat -> fits_c (core_activity c b)) /\
  (forall b i, In b [first; second; third] -> active i b -> fits_s (service_activity i b)).
Proof.
  split; [|split].
  - intros v b Hb. destruct Hb as [<-|[<-|[<-|[]]]]; destruct v as [|[|[|v]]]; vm_compute; repeat split.
  - intros b c Hb Hc. destruct Hb as [<-|[<-|[<-|[]]]]; (destruct c as [|[|c]]; [| |lia]); vm_compute; repeat split.
  - intros b i Hb Ha. assert (G : good 2 2 b) by (destruct statistics_met as [G _]; rewrite Forall_forall in G; auto).
    assert (D : exists m, service_stats true b = Ok m) by (destruct Hb as [<-|[<-|[<-|[]]]]; vm_compute; eauto).
    destruct D as [m D]. pose proof (service_debug 2 2 b m G D) as F. rewrite Forall_forall in F. apply (F (i, service_activity i b)).
    apply (service_map_in 2 2); auto.
Qed.
(** A release build keeps a wrapped count where a debug build stops. *)
Example statistics_wrap : exists b s, good 1 1 b /\ history false 1 10 0 (genesis 1 1) [b] = Ok s /\ map c_bundle (cores s) = [4] /\
  history true 1 10 0 (genesis 1 1) [b] = Panic.
Proof.
  exists (mk_sblock 5 0 [11] 0 [] [] [mk_report 0 (2 ^ 32 - 1) 0 []; mk_report 0 5 0 []] [] [] [] [] []). eexists.
  split; [|split; [vm_compute; reflexivity|split; vm_compute; reflexivity]].
  do 12 (split; [first [reflexivity | cbn; lia | repeat constructor]|]). intro i. cbn. intuition.
Qed.

Print Assumptions statistics_release.
Print Assumptions statistics_exact.
Print Assumptions statistics_debug.
Print Assumptions data_size_partial.
Print Assumptions data_size_refuted.
Print Assumptions statistics_stored.
