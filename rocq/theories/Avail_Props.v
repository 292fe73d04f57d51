(** Property C79: what the availability commitments of a work package say. *)
From Verif Require Import Base Codec_Model Merkle_Model Merkle_Spec Erasure_Model Erasure_Spec Erasure_Proofs Avail_Model Avail_Spec
  Avail_Proofs.
Local Open Scope nat_scope.

Section P.
  Variable reed : Type.
  Variable rs : reed_solomon reed.
  Variable H : bytes -> bytes.
  Variables validators msg segment : nat.

  (** The erasure root of any bundle and any exported segments exists, and is the root of the validators' shares. Pages
      of proofs always fit a segment. *)
  Theorem erasure_root_of_shares :
    (forall x, length (H x) = 32) -> 0 < msg -> msg <= validators -> reed_solomon_code rs msg (validators - msg) ->
    32 * 122 + 2 <= segment -> Nat.divide (2 * msg) segment ->
    forall bundle exports, (N.of_nat (length exports) < 2 ^ 64)%N -> Forall (fun e : bytes => length e = segment) exports ->
    exists padded proofs bchunks segs root, root_of rs H validators msg segment bundle exports padded proofs bchunks segs root.
  Proof. intros; eapply root_ok; eassumption. Qed.

  (** The shares of any [msg] validators give back the bundle, every exported segment and every page of proofs. *)
  Theorem shares_suffice :
    (forall x, length (H x) = 32) -> 0 < msg -> msg <= validators -> reed_solomon_code rs msg (validators - msg) ->
    32 * 122 + 2 <= segment -> Nat.divide (2 * msg) segment ->
    forall bundle exports padded proofs bchunks segs root, Forall (fun e : bytes => length e = segment) exports ->
    root_of rs H validators msg segment bundle exports padded proofs bchunks segs root ->
    forall keep, msg <= kept keep validators ->
    erasure_recover rs msg (lose keep bchunks) = Ok padded /\
    Forall2 (fun d cs => erasure_recover rs msg (lose keep cs) = Ok d) (exports ++ proofs) segs.
  Proof. exact (@shares_recover reed rs H validators msg segment) || (intros; eapply (@shares_recover reed rs H validators msg) with (segment := segment); eassumption). Qed.

  (** Two packages with equally many exports and one erasure root have one padded bundle and the same exports, or two
      of the strings hashed for them collide. *)
  Theorem erasure_root_binds :
    (forall x, length (H x) = 32) -> 0 < msg -> msg <= validators -> reed_solomon_code rs msg (validators - msg) ->
    32 * 122 + 2 <= segment -> Nat.divide (2 * msg) segment ->
    forall b1 e1 p1 r1 bc1 sg1 b2 e2 p2 r2 bc2 sg2 root,
    Forall (fun e : bytes => length e = segment) e1 -> Forall (fun e : bytes => length e = segment) e2 ->
    root_of rs H validators msg segment b1 e1 p1 r1 bc1 sg1 root -> root_of rs H validators msg segment b2 e2 p2 r2 bc2 sg2 root ->
    length e1 = length e2 ->
    (p1 = p2 /\ e1 = e2) \/ exists s t, hashed H validators bc1 sg1 s /\ hashed H validators bc2 sg2 t /\ collision H s t.
  Proof. intros; eapply roots_bind; eassumption. Qed.

  (** The page of proofs for 64 exports: the path from the page to the root of all exports, then the hashes of the page's
      exports, then zeros up to a segment. *)
  Theorem paged_proof_content : forall exports page, 32 * 122 + 2 <= segment -> (forall x, length (H x) = 32) ->
    (N.of_nat (length exports) < 2 ^ 64)%N -> page < pages (length exports) ->
    exists p, @paged_proof reed H segment exports page = Ok p /\ length p = segment /\
      exists z leaves, let listed l := integer_encode (N.of_nat (length l)) ++ concat l in
        p = listed (single_page_justification H exports page 6) ++ listed leaves ++ repeat 0%N z /\
        leaves = map (fun item => H (leaf_tag ++ item)) (firstn 64 (skipn (64 * page) exports)).
  Proof. intros; apply paged_proof_ok; assumption. Qed.

  (** The pages are just as many as it takes: every export has its page, and no page is without an export. *)
  Theorem paged_proofs_cover : forall exports proofs, generate_paged_proofs reed H segment exports = Ok proofs ->
    length exports <= 64 * length proofs /\ (forall k, k < length proofs -> 64 * k < length exports) /\
    (forall k p, nth_error proofs k = Some p -> @paged_proof reed H segment exports k = Ok p).
  Proof.
    intros exports proofs G. unfold generate_paged_proofs in G. apply collect_in in G.
    assert (L : length proofs = pages (length exports)) by (rewrite <- (seq_length (pages (length exports)) 0); symmetry; clear - G; induction G; cbn [length]; congruence).
    unfold pages in L. pose proof (Nat.div_mod (length exports + 63) 64 ltac:(discriminate)) as D. pose proof (Nat.mod_upper_bound (length exports + 63) 64 ltac:(discriminate)) as M. rewrite <- L in D.
    split; [lia|]. split; [intros k K; lia|].
    assert (X : forall (Q : nat -> bytes -> Prop) n ps a, Forall2 Q (seq a n) ps -> forall k p, nth_error ps k = Some p -> Q (a + k) p).
    { intros Q n. induction n as [|n IH]; intros ps a F k p E; cbn [seq] in F; inversion F; subst; [destruct k; discriminate E|]. destruct k as [|k]; cbn [nth_error] in E.
      - injection E as <-. rewrite Nat.add_0_r. assumption.
      - replace (a + S k) with (S a + k) by lia. eapply IH; eassumption. }
    exact (X _ _ _ _ G).
  Qed.

  (** The lengths in the specification are exact below their widths. *)
  Theorem avail_lengths : forall bundle exports s,
    build_avail_specs rs H validators msg (2 * msg) segment bundle exports = Ok s ->
    (N.of_nat (length bundle) < 2 ^ 32)%N -> (N.of_nat (length exports) < 2 ^ 16)%N ->
    av_length s = N.of_nat (length bundle) /\ av_count s = N.of_nat (length exports) /\
    av_segment_root s = cd_root H exports /\
    compute_erasure_root rs H validators msg (2 * msg) segment bundle exports = Ok (av_erasure_root s).
  Proof.
    intros bundle exports s E L1 L2. unfold build_avail_specs in E.
    destruct (compute_erasure_root _ _ _ _ _ _ _ _) as [r| |]; cbn [bind] in E; try discriminate. injection E as <-.
    cbn [av_length av_count av_segment_root av_erasure_root]. rewrite !N.mod_small by assumption. auto.
  Qed.
End P.
Print Assumptions erasure_root_of_shares.
Print Assumptions shares_suffice.
Print Assumptions erasure_root_binds.
Print Assumptions paged_proof_content.
Print Assumptions paged_proofs_cover.
Print Assumptions avail_lengths.
(** 130 exports take three pages. *)
Example pages_case : match generate_paged_proofs unit toy32 4104 (repeat [1%N] 130) with Ok ps => length ps =? 3 | _ => false end = true.
Proof. vm_compute. reflexivity. Qed.

(** The conditions hold of the sizes in use (4104 octets, 342 of 1023 and 2 of 6 chunks), and of a code at hand. *)
Example avail_case :
  (forall x, length (toy32 x) = 32) /\ reed_solomon_code parity 2 (3 - 2) /\
  32 * 122 + 2 <= N.to_nat 4104 /\ Nat.divide (2 * 2) (N.to_nat 4104) /\ Nat.divide (2 * 342) (N.to_nat 4104).
Proof.
  split; [intros x; unfold toy32; now rewrite map_length, seq_length|]. split; [exact parity_code|].
  split; [apply Nat.leb_le; vm_compute; reflexivity|].
  split; [exists (N.to_nat 1026); apply Nat.eqb_eq; vm_compute; reflexivity|exists 6; apply Nat.eqb_eq; vm_compute; reflexivity].
Qed.
(** One export and a bundle of three octets: the root, in numbers. *)
Example avail_value : match compute_erasure_root parity toy32 3 2 4 4104 [1; 2; 3]%N [repeat 7%N 4104] with
  Ok r => (length r =? 32) && negb (forallb (N.eqb 0) r) | _ => false end = true.
Proof. vm_compute. reflexivity. Qed.
