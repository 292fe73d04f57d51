(** The components are read back as they were written. *)
From Verif Require Import Base Base_Proofs Codec_Model Codec_Spec Codec_Proofs Codec2_Proofs Codec3_Proofs Block_Model Stats_Model Stats_Spec StatsCodec_Model StatsCodec_Proofs Comp_Model Comp_Spec Comp_Proofs.
From Coq Require Import Sorted Lia.
Open Scope N_scope.

(** Written and read: whatever follows is left. *)
Definition passes {A} (w : result cerr bytes) (r : dec A) (v : A) : Prop := exists bs, w = Ok bs /\ Bytes bs /\ forall rest, r (bs ++ rest) = Ok (v, rest).
Lemma passes_ty : forall t v, ty_ok t -> wf t v -> passes (encode t v) (decode t) v.
Proof. intros t v O W. exact (codec_roundtrip t v O W). Qed.

Lemma map_to_of_tkt : forall l, map to_tkt (map of_tkt l) = l.
Proof. intro l. rewrite map_map. rewrite <- (map_id l) at 2. apply map_ext. intros []; reflexivity. Qed.
Lemma map_to_of_vk : forall l, map to_vk (map of_vk l) = l.
Proof. intro l. rewrite map_map. rewrite <- (map_id l) at 2. apply map_ext. intros []; reflexivity. Qed.
Lemma map_to_of_recent : forall Z l, map (to_recent Z) (map (of_recent Z) l) = l.
Proof. intros Z l. rewrite map_map. rewrite <- (map_id l) at 2. apply map_ext. intros []; reflexivity. Qed.
Lemma Forall_map_of : forall A B (f : A -> B) (Q : B -> Prop) (R : A -> Prop) l, (forall a, R a -> Q (f a)) -> Forall R l -> Forall Q (map f l).
Proof. intros A B f Q R l I F. induction F; cbn [map]; constructor; auto. Qed.
Lemma wf_tkt : forall t, tkt_held t -> wf t_ticket (of_tkt t).
Proof. intros t (A & B). split; [exact A|exact B]. Qed.
Lemma wf_vk : forall k, vk_held k -> wf t_vk (of_vk k).
Proof. intros k (A & B & C & D). exact (conj A (conj B (conj C D))). Qed.

Lemma len_le : forall A (l : list A) n, (length l <= n)%nat -> N.of_nat (length l) <= N.of_nat n.
Proof. intros. lia. Qed.

(** ** The accumulator *)
Section Tickets.
  Variable P : params.
  Notation E := (epoch_length P).
  Lemma put_last : forall t l, Forall (fun x => cmp_list N.compare (tk_id x) (tk_id t) = Lt) l -> put_ticket t l = l ++ [t].
  Proof.
    intros t l F. induction F as [|x l H F IH]; [reflexivity|]. cbn [put_ticket app]. unfold id_lt.
    assert (G : cmp_list N.compare (tk_id t) (tk_id x) = Gt) by (apply (proj2 (cmp_gt_lt _ (ord_list _ _ ord_N) _ _)); exact H).
    rewrite G, IH. reflexivity.
  Qed.
  Lemma add_all : forall l h, (length h + length l <= E)%nat -> increasing (cmp_list N.compare) (map tk_id (h ++ l)) -> fold_left (add_tkt P) l h = h ++ l.
  Proof.
    induction l as [|t l IH]; intros h L I; [cbn; rewrite app_nil_r; reflexivity|]. cbn [fold_left length] in *.
    assert (A : add_tkt P h t = h ++ [t]).
    { unfold add_tkt. destruct (Nat.ltb_spec (length h) E); [|lia]. apply put_last. apply Forall_forall. intros x Hx.
      apply In_nth_error in Hx. destruct Hx as (i & Hi). assert (Li : (i < length h)%nat) by (apply nth_error_Some; congruence).
      apply (I i (length h)); auto.
      - rewrite map_app, nth_error_app1 by (rewrite map_length; auto). rewrite nth_error_map, Hi. reflexivity.
      - rewrite map_app, nth_error_app2 by (rewrite map_length; auto). rewrite map_length, Nat.sub_diag. reflexivity. }
    rewrite A, IH; [rewrite <- app_assoc; reflexivity|rewrite app_length; cbn [length]; lia|rewrite <- app_assoc; exact I].
  Qed.
End Tickets.

Section Read.
  Variable P : params.
  Variable Z : msizes.
  Variable POOL HISTORY QUEUE : nat.
  Notation wr := (write_entry P Z POOL HISTORY QUEUE).
  Notation rd := (read_entry P Z POOL HISTORY QUEUE).
  Notation hd := (entry_held P Z POOL HISTORY QUEUE).
  Notation E := (epoch_length P).

  Lemma tickets_pass : forall l, (length l <= E)%nat -> Forall tkt_held l -> in_memory (sz_tkt Z) l -> increasing (cmp_list N.compare) (map tk_id l) ->
    passes (write_tickets Z l) (read_tickets P Z) l.
  Proof.
    intros l L F (M1 & M2) I.
    destruct (passes_ty (TVec (sz_tkt Z) t_ticket) (map of_tkt l)) as (bs & W & B & R).
    - cbn; repeat split; lia.
    - split; [eapply Forall_map_of; [|exact F]; apply wf_tkt|]. rewrite map_length. split; [exact M1|exact M2].
    - exists bs. split; [exact W|]. split; [exact B|]. intro rest. unfold read_tickets. rewrite R. cbn [bind]. rewrite map_to_of_tkt, (add_all P l []); auto.
  Qed.
  Lemma sealers_pass : forall s, match s with ByTickets l => length l = E /\ Forall tkt_held l | ByKeys l => length l = E /\ Forall (sized 32) l end ->
    passes (write_sealers P s) (read_sealers P) s.
  Proof.
    intros [l|l] (L & F).
    - destruct (passes_ty (TArr E t_ticket) (map of_tkt l)) as (bs & W & B & R).
      + cbn; repeat split; lia.
      + split; [eapply Forall_map_of; [|exact F]; apply wf_tkt|]. rewrite map_length. exact L.
      + exists (integer_encode 0 ++ bs). unfold write_sealers. rewrite W. split; [reflexivity|]. split; [apply Forall_app; split; auto; apply integer_encode_Bytes; reflexivity|].
        intro rest. unfold read_sealers. rewrite <- app_assoc, integer_roundtrip by (reflexivity || discriminate). cbn [bind]. change (0 =? 0) with true. cbv iota. rewrite R. cbn [bind]. rewrite map_to_of_tkt. reflexivity.
    - destruct (passes_ty (TArr E (TByteArr 32)) l) as (bs & W & B & R).
      + cbn; repeat split; lia.
      + split; [exact F|exact L].
      + exists (integer_encode 1 ++ bs). unfold write_sealers. rewrite W. split; [reflexivity|]. split; [apply Forall_app; split; auto; apply integer_encode_Bytes; reflexivity|].
        intro rest. unfold read_sealers. rewrite <- app_assoc, integer_roundtrip by (reflexivity || discriminate). cbn [bind]. change (1 =? 0) with false. change (1 =? 1) with true. cbv iota. rewrite R. reflexivity.
  Qed.
  Lemma validators_wf : forall l, length l = validator_count P -> Forall vk_held l -> wf (t_validators P) (map of_vk l).
  Proof. intros l L F. split; [eapply Forall_map_of; [|exact F]; apply wf_vk|]. rewrite map_length. exact L. Qed.
  Lemma validators_ok : ty_ok (t_validators P).
  Proof. cbn. repeat split. Qed.
  Lemma safrole_pass : forall s, hd (ESafrole P s) -> passes (write_safrole P Z s) (read_safrole P Z) s.
  Proof.
    intros s (L1 & F1 & R & S & L2 & F2 & M & I).
    destruct (passes_ty _ _ validators_ok (validators_wf _ L1 F1)) as (a & Wa & Ba & Ra).
    destruct (passes_ty (TByteArr 144) (sf_root s)) as (b & Wb & Bb & Rb); [exact Logic.I|exact R|].
    destruct (sealers_pass _ S) as (c & Wc & Bc & Rc). destruct (tickets_pass _ L2 F2 M I) as (d & Wd & Bd & Rd).
    exists (a ++ b ++ c ++ d). unfold write_safrole. rewrite Wa. cbn [bind]. rewrite Wb. cbn [bind]. rewrite Wc. cbn [bind]. rewrite Wd. cbn [bind]. split; [reflexivity|].
    split; [unfold Bytes in *; repeat (apply Forall_app; split); auto|]. intro rest. unfold read_safrole. rewrite <- !app_assoc, Ra. cbn [bind]. rewrite Rb. cbn [bind]. rewrite Rc. cbn [bind].
    rewrite Rd. cbn [bind]. rewrite map_to_of_vk. destruct s; reflexivity.
  Qed.
  Lemma slots_pass : forall l, Forall (fun t => t < 2 ^ 32) l -> exists bs, encode_seq (fun t => encode_fixed t 4) l = Ok bs /\ Bytes bs /\ forall rest, decode_seq (decode_fixed 32 4) (length l) (bs ++ rest) = Ok (l, rest).
  Proof.
    intros l F. destruct (passes_ty (TArr (length l) t_u32_4) l) as (bs & W & B & R); [cbn; split; lia| |exists bs; auto]. split; [|reflexivity].
    eapply Forall_impl; [|exact F]. intros t Ht. exact Ht.
  Qed.
  Lemma lookup_pass : forall l, hd (ELookup P l) -> passes (write_lookup l) read_lookup l.
  Proof.
    intros l (L & F). destruct (slots_pass l F) as (bs & W & B & R). exists (integer_encode (N.of_nat (length l)) ++ bs).
    assert (L64 : N.of_nat (length l) < 2 ^ 64) by (apply N.le_lt_trans with 3; [lia|reflexivity]).
    unfold write_lookup. rewrite W. split; [reflexivity|]. split; [apply Forall_app; split; auto; apply integer_encode_Bytes; auto|].
    intro rest. unfold read_lookup. rewrite <- app_assoc, len_roundtrip by auto. cbn [bind].
    assert (A : alloc_ok 4 (N.of_nat (length l)) = true) by (apply N.leb_le; apply N.le_trans with 12; [lia|discriminate]). rewrite A, Nat2N.id, R. cbn [bind].
    destruct (Nat.leb_spec (length l) 3); [reflexivity|lia].
  Qed.
  Lemma pass_read : forall A (w : result cerr bytes) (r : dec A) v (f : A -> entry P), passes w r v ->
    exists bs, w = Ok bs /\ Bytes bs /\ forall rest, (let! (x, _) := r (bs ++ rest) in Ok (f x)) = Ok (f v).
  Proof. intros A w r v f (bs & W & B & R). exists bs. split; auto. split; auto. intro rest. rewrite R. reflexivity. Qed.

  (** Neither account storage nor preimages: these are their octets, whatever they are. *)
  Definition delimited (e : entry P) : Prop := match e with EStorage _ _ | EPreimage _ _ => False | _ => True end.
  Lemma read_back : forall e, delimited e -> hd e -> exists bs, wr e = Ok bs /\ Bytes bs /\ forall rest, rd (sort_of P e) (bs ++ rest) = Ok e.
  Proof.
    intros e De He. destruct e; cbn [write_entry read_entry sort_of]; try (exfalso; exact De).
    - destruct He as (L & F). apply (pass_read _ _ _ _ (EPool P)). apply passes_ty; [cbn; repeat split|]. split; [|exact L].
      eapply Forall_impl; [|exact F]. intros q (A & (M1 & M2) & B). refine (conj A (conj M1 (conj M2 _))). exact (len_le _ _ _ B).
    - destruct He as (L & F). apply (pass_read _ _ _ _ (EQueue P)). apply passes_ty; [cbn; repeat split|]. split; [|exact L].
      eapply Forall_impl; [|exact F]. intros q (A & B). exact (conj A B).
    - destruct He as (F1 & (M1 & M1') & L & F2 & (M2 & M2')).
      destruct (pass_read _ (encode (t_history Z HISTORY) (map (of_recent Z) l, peaks)) (decode (t_history Z HISTORY)) (map (of_recent Z) l, peaks) (fun i => EHistory P (map (to_recent Z) (fst i)) (snd i))) as (bs & W & B & R).
      + apply passes_ty; [cbn; repeat split|]. split; cbn [fst snd].
        * split; [eapply Forall_map_of; [|exact F1]|rewrite map_length; exact (conj M1 (conj M1' (len_le _ _ _ L)))].
          intros r (R1 & R2 & R3 & R4 & (R5 & R6)). refine (conj R1 (conj R2 (conj R3 (conj R4 (conj R5 R6))))).
        * split; [|split; [exact M2|exact M2']]. eapply Forall_impl; [|exact F2]. intros [h|] Hh; [exact (Hh h eq_refl)|exact Logic.I].
      + exists bs. split; [exact W|]. split; [exact B|]. intro rest. rewrite R. cbn [fst snd]. rewrite map_to_of_recent. reflexivity.
    - apply (pass_read _ _ _ _ (ESafrole P)). apply safrole_pass. exact He.
    - cbn [entry_held] in He. inversion He as [|g1 l1 (S1 & G1) F1]; subst. inversion F1 as [|g2 l2 (S2 & G2) F2]; subst. inversion F2 as [|g3 l3 (S3 & G3) F3]; subst. inversion F3 as [|g4 l4 (S4 & G4) F4]; subst.
      destruct (passes_ty t_judged (good, (bad, (wonky, offenders)))) as (bs & W & B & R).
      + cbn; repeat split.
      + destruct G1, G2, G3, G4. refine (conj _ (conj _ (conj _ _))); (split; [assumption|split; assumption]).
      + exists bs. split; [exact W|]. split; [exact B|]. intro rest. rewrite R. reflexivity.
    - destruct He as (L & F). apply (pass_read _ _ _ _ (EEntropy P)). apply passes_ty; [cbn; repeat split|]. exact (conj F L).
    - destruct He as (L & F). destruct (passes_ty _ _ validators_ok (validators_wf _ L F)) as (bs & W & B & R).
      exists bs. split; [exact W|]. split; [exact B|]. intro rest. rewrite R. cbn [bind]. rewrite map_to_of_vk. reflexivity.
    - destruct He as (L & F). destruct (passes_ty _ _ validators_ok (validators_wf _ L F)) as (bs & W & B & R).
      exists bs. split; [exact W|]. split; [exact B|]. intro rest. rewrite R. cbn [bind]. rewrite map_to_of_vk. reflexivity.
    - destruct He as (L & F). destruct (passes_ty _ _ validators_ok (validators_wf _ L F)) as (bs & W & B & R).
      exists bs. split; [exact W|]. split; [exact B|]. intro rest. rewrite R. cbn [bind]. rewrite map_to_of_vk. reflexivity.
    - destruct He as (L & F). apply (pass_read _ _ _ _ (EPending P)). apply passes_ty.
      + split; [apply report_ok|]. cbn; split; lia.
      + split; [|exact L]. eapply Forall_impl; [|exact F]. intros [[r t]|] H; [|exact Logic.I]. destruct (H r t eq_refl) as (A & B). exact (conj A B).
    - apply (pass_read _ _ _ _ (ESlot P)). apply passes_ty; [cbn; split; lia|]. exact He.
    - destruct He as (L & F & G & M & I). inversion F as [|x1 l1 A1 F1]; subst. inversion F1 as [|x2 l2 A2 F2]; subst. inversion F2 as [|x3 l3 A3 F3]; subst.
      destruct (passes_ty (t_privileges P) (of_privileged P p)) as (bs & W & B & R).
      + cbn; repeat split; lia.
      + refine (conj A1 (conj (conj _ L) (conj A2 (conj A3 (conj _ (conj M I)))))); [exact F3|exact G].
      + exists bs. split; [exact W|]. split; [exact B|]. intro rest. rewrite R. cbn [bind]. destruct p; reflexivity.
    - destruct (store_load _ _ _ He) as (bs & W & B & R). exists bs. split; [exact W|]. split; [exact B|]. intro rest. rewrite R. reflexivity.
    - destruct He as (L & F). apply (pass_read _ _ _ _ (EReady P)). apply passes_ty.
      + split; [apply report_ok|exact Logic.I].
      + split; [|exact L]. eapply Forall_impl; [|exact F]. intros q (A & M1 & M2). refine (conj _ (conj M1 M2)). eapply Forall_impl; [|exact A].
        intros [r d] (W & S1 & S2 & S3). exact (conj W (conj S1 (conj S2 S3))).
    - destruct He as (L & F). apply (pass_read _ _ _ _ (EAccumulated P)). apply passes_ty; [exact Logic.I|]. split; [|exact L].
      eapply Forall_impl; [|exact F]. intros d (S1 & S2 & S3). exact (conj S1 (conj S2 S3)).
    - destruct He as (F & M1 & M2). apply (pass_read _ _ _ _ (EOutputs P)). apply passes_ty; [cbn; repeat split; lia|]. refine (conj _ (conj M1 M2)).
      eapply Forall_impl; [|exact F]. intros [s h] (A & B). exact (conj A B).
    - destruct He as (W1 & W2 & F & G). inversion F as [|x1 l1 A1 F1]; subst. inversion F1 as [|x2 l2 A2 F2]; subst. inversion F2 as [|x3 l3 A3 F3]; subst. inversion F3 as [|x4 l4 A4 F4]; subst. inversion F4 as [|x5 l5 A5 F5]; subst.
      inversion G as [|y1 k1 B1 G1]; subst. inversion G1 as [|y2 k2 B2 G2]; subst. inversion G2 as [|y3 k3 B3 G3]; subst. inversion G3 as [|y4 k4 B4 G4]; subst.
      destruct (passes_ty t_account (of_account a)) as (bs & W & B & R).
      + cbn; repeat split; lia.
      + refine (conj W1 (conj W2 (conj A1 (conj A2 (conj A3 (conj A4 (conj A5 (conj B1 (conj B2 (conj B3 B4)))))))))).
      + exists bs. split; [exact W|]. split; [exact B|]. intro rest. rewrite R. cbn [bind]. destruct a; reflexivity.
    - apply (pass_read _ _ _ _ (ELookup P)). apply lookup_pass. exact He.
  Qed.
  Lemma read_back_all : forall e, hd e -> exists bs, wr e = Ok bs /\ Bytes bs /\ rd (sort_of P e) bs = Ok e.
  Proof.
    intros e He. assert (D : delimited e \/ exists b, Bytes b /\ (e = EStorage P b \/ e = EPreimage P b)) by (destruct e; try (left; exact Logic.I); right; eauto).
    destruct D as [D|(b & B & [->| ->])].
    - destruct (read_back e D He) as (bs & W & B & R). exists bs. split; auto. split; auto. rewrite <- (app_nil_r bs). apply R.
    - exists b. split; [reflexivity|]. split; [exact B|reflexivity].
    - exists b. split; [reflexivity|]. split; [exact B|reflexivity].
  Qed.
  (** What is read of a component of fixed length was written there, up to a tail. *)
  Lemma map_of_to_vk : forall l, map of_vk (map to_vk l) = l.
  Proof. intro l. rewrite map_map. rewrite <- (map_id l) at 2. apply map_ext. intros (a & b & c & d). reflexivity. Qed.
  Lemma fixed_reads : forall k inp e, fixed_length k = true -> Bytes inp -> rd k inp = Ok e -> exists o tail, wr e = Ok o /\ inp = o ++ tail.
  Proof.
    intros k inp e K B H.
    assert (G : forall t (f : interp t -> entry P), ty_ok t -> rigid t -> (forall v, wr (f v) = encode t v) -> (let! (x, _) := decode t inp in Ok (f x)) = Ok e -> exists o tail, wr e = Ok o /\ inp = o ++ tail).
    { intros t f O Rg Q D. destruct (decode t inp) as [[v r]| |] eqn:De; cbn [bind] in D; try discriminate D. apply ok_inj in D. subst e.
      destruct (rigid_CAN t O Rg inp v r B De) as (bs & W & ->). exists bs, r. rewrite Q. auto. }
    destruct k; try discriminate K; cbn [read_entry] in H.
    - apply (G (t_queue P QUEUE) (EQueue P)); auto; cbn; repeat split.
    - apply (G t_entropy (EEntropy P)); auto; cbn; repeat split.
    - apply (G (t_validators P) (fun l => EStaging P (map to_vk l))); auto; try (cbn; repeat split; fail). intro v. cbn [write_entry]. rewrite map_of_to_vk. reflexivity.
    - apply (G (t_validators P) (fun l => EActive P (map to_vk l))); auto; try (cbn; repeat split; fail). intro v. cbn [write_entry]. rewrite map_of_to_vk. reflexivity.
    - apply (G (t_validators P) (fun l => EPast P (map to_vk l))); auto; try (cbn; repeat split; fail). intro v. cbn [write_entry]. rewrite map_of_to_vk. reflexivity.
    - apply (G t_u32_4 (ESlot P)); auto; cbn; repeat split; lia.
    - apply ok_inj in H. subst. exists inp, []. split; [reflexivity|rewrite app_nil_r; reflexivity].
    - apply ok_inj in H. subst. exists inp, []. split; [reflexivity|rewrite app_nil_r; reflexivity].
  Qed.
End Read.
