(** What acceptable assurances and guarantees are, and what a block does to the pending reports. *)
From Verif Require Import Base Queue_Model Disputes_Model Disputes_Spec Reports_Model.
Open Scope N_scope.

(** The report pending at a core, with the slot it was reported in. *)
Definition at_core (p : pending) (c : nat) : option (wreport * N) := nth c p None.
(** How many assurances name the core. *)
Definition votes (x : list assurance) (c : nat) : N := N.of_nat (length (filter (fun a => nth c (a_bits a) false) x)).
(** The first element with a property. *)
Definition first_such {A} (P : A -> Prop) (l : list A) (x : A) : Prop :=
  exists before after, l = (before ++ x :: after)%list /\ P x /\ forall y, In y before -> ~ P y.

Section Spec.
  Variables (V C U R L : N).
  Variable verify : N -> bytes -> N -> bool.
  Variable report_hash : wreport -> N.
  Variable avail_hash : N -> list bool -> N.

  (** An assurance is made on the parent block, signed by the active validator it names, for cores with a pending report. *)
  Definition acceptable_assurance (parent : N) (active : list N) (p : pending) (a : assurance) : Prop :=
    a_anchor a = parent /\
    (exists key, nth_error active (N.to_nat (a_index a)) = Some key /\
       verify key (says_available ++ hbytes (avail_hash parent (a_bits a)))%list (a_sig a) = true) /\
    (forall c, nth_error (a_bits a) c = Some true -> exists r t, at_core p c = Some (r, t)).
  Definition acceptable_assurances (parent : N) (active : list N) (p : pending) (x : list assurance) : Prop :=
    ascending (map a_index x) /\ forall a, In a x -> acceptable_assurance parent active p a.

  Definition reported (hs : list hentry) (pkg root : N) : Prop := exists h, In h hs /\ In (pkg, root) (h_reported h).
  Definition manifests (k : gctx) (x : list guarantee) : list (N * N) :=
    (flat_map h_reported (k_history k) ++ map (fun g => (w_pkg (gu_report g), w_root (gu_report g))) x)%list.
  Definition acceptable_report (k : gctx) (x : list guarantee) (w : wreport) : Prop :=
    (* size and gas *)
    w_output w <= 49152 /\ fold_right N.add 0 (map wd_gas (w_digests w)) <= 10000000 /\
    (* every digest is of a known service with its current code and at least its minimum gas *)
    (forall d, In d (w_digests w) -> exists g, k_service k (wd_service d) = Some (g, wd_code d) /\ g <= wd_gas d) /\
    (* the core exists, is free, and has the report's authorizer in its pool *)
    w_core w < C /\ nth_error (k_pending k) (N.to_nat (w_core w)) = Some None /\
    (exists pool, nth_error (k_pools k) (N.to_nat (w_core w)) = Some pool /\ In (w_auth w) pool) /\
    (* the anchor is a recent block with these roots *)
    (exists h, first_such (fun h => h_hash h = w_anchor w) (k_history k) h /\ h_state h = w_anchor_state w /\ h_beefy h = w_anchor_beefy w) /\
    (* the lookup anchor is recent enough and an ancestor *)
    k_slot k <= w_lookup_slot w + L /\
    (forall l, k_ancestors k = Some l -> In (w_lookup_slot w, w_lookup_anchor w) l) /\
    (* the package is nowhere in the pipeline *)
    (forall root, ~ reported (k_history k) (w_pkg w) root) /\ ~ In (w_pkg w) (k_accumulated k) /\ ~ In (w_pkg w) (k_queued k) /\
    (forall c r t, at_core (k_prior_pending k) c = Some (r, t) -> w_pkg r <> w_pkg w) /\
    (* its dependencies are few and known *)
    (length (w_prereq w) + length (w_lookups w) <= 8)%nat /\
    (forall pkg root, In (pkg, root) (w_lookups w) -> first_such (fun m => fst m = pkg) (manifests k x) (pkg, root)) /\
    (forall pkg, In pkg (w_prereq w) -> (exists g, In g x /\ w_pkg (gu_report g) = pkg) \/ exists root, reported (k_history k) pkg root).
  (** Validator cores and keys of the rotation that [slot] belongs to: this one, or else the one before. *)
  Definition assignment (k : gctx) (slot : N) : list N * list N := if k_slot k / R =? slot / R then k_current k else k_previous k.
  Definition guarantor (k : gctx) (g : guarantee) (c : credential) (key : N) : Prop :=
    nth_error (snd (assignment k (gu_slot g))) (N.to_nat (cr_index c)) = Some key /\ key <> 0 /\
    nth_error (fst (assignment k (gu_slot g))) (N.to_nat (cr_index c)) = Some (w_core (gu_report g)) /\
    verify key (says_guarantee ++ hbytes (report_hash (gu_report g)))%list (cr_sig c) = true.
  Definition acceptable_guarantee (k : gctx) (x : list guarantee) (g : guarantee) : Prop :=
    acceptable_report k x (gu_report g) /\
    (length (gu_creds g) = 2 \/ length (gu_creds g) = 3)%nat /\ ascending (map cr_index (gu_creds g)) /\
    gu_slot g <= k_slot k /\ k_slot k / R <= gu_slot g / R + 1 /\
    (forall c, In c (gu_creds g) -> exists key, guarantor k g c key).
  Definition acceptable_guarantees (k : gctx) (x : list guarantee) : Prop :=
    ascending (map (fun g => w_core (gu_report g)) x) /\ NoDup (map (fun g => w_pkg (gu_report g)) x) /\
    forall g, In g x -> acceptable_guarantee k x g.

  (** Pending reports are told apart by their hashes. *)
  Definition distinct_hashes (p : pending) : Prop :=
    forall i j r r' t t', at_core p i = Some (r, t) -> at_core p j = Some (r', t') -> report_hash r = report_hash r' -> i = j.
  (** Why a pending report leaves its core: judged not good, available, timed out. *)
  Definition assured (b : rblock) (c : nat) : Prop := 2 * V / 3 + 1 <= votes (rb_assurances b) c.
  Definition leaves (b : rblock) (c : nat) (r : wreport) (t : N) : Prop :=
    In (report_hash r) (rb_judged b) \/ assured b c \/ t + U <= k_slot (rb_ctx b).

  (** Blocks with the rest of the pipeline: the reports that become available go to the accumulation queue, and guarantees are
      checked against the queue and the history the block started from. *)
  Record pblock := mk_pb { pb_reports : rblock; pb_count : nat }.
  Definition to_report (w : wreport) : report := mk_report (w_pkg w) (w_prereq w) (map fst (w_lookups w)) (w_id w).
  Definition reads_state (s : astate) (b : rblock) : Prop :=
    (forall p, In p (k_queued (rb_ctx b)) <-> In p (pkgs (map fst (concat (as_queue s))))) /\
    (forall p, In p (k_accumulated (rb_ctx b)) <-> In p (concat (as_hist s))).
  Inductive pipeline (E : N) (s0 : pending * astate) : list (pblock * list report) -> pending * astate -> Prop :=
  | pl_nil : pipeline E s0 [] s0
  | pl_snoc : forall log p s b p' rs s' acc, pipeline E s0 log (p, s) -> as_slot s < k_slot (rb_ctx (pb_reports b)) ->
      reads_state s (pb_reports b) ->
      reports_block V C U R L verify report_hash avail_hash p (pb_reports b) = Ok (p', rs) ->
      astep E s (mk_ab (k_slot (rb_ctx (pb_reports b))) (map to_report rs) (pb_count b)) = Ok (s', acc) ->
      pipeline E s0 (log ++ [(b, acc)]) (p', s').
  Definition pgenesis (E slot : N) : pending * astate := (repeat None (N.to_nat C), agenesis E slot).
End Spec.
