(** C104-C107: packages within their limits, auditable bundles, the constants FETCH gives, the report of a package. *)
From Verif Require Import Base Base_Proofs PvmMem_Model PvmProg_Model PvmStep_Model PvmInit_Model Refine_Model Refine_Spec Refine5_Proofs Codec_Model Codec_Spec Codec_Proofs Codec2_Proofs Block_Model
  Package_Model Package_Spec Package_Proofs Package2_Proofs Package3_Proofs.
Open Scope N_scope.

(** ** C104: bundles *)
(** A bundle that brings what its package declares is written, and read back whatever follows it. *)
Theorem bundle_roundtrip_partial : forall P size (b : bundle P), brings b -> well_made size b ->
  exists octets, encode_bundle P size b = Ok octets /\ forall rest, decode_bundle P size (octets ++ rest) = Ok (b, rest).
Proof. exact bundle_back. Qed.
(** Whatever is read as a bundle brings what its package declares. *)
Theorem bundle_read : forall P size inp (b : bundle P) rest, Bytes inp -> decode_bundle P size inp = Ok (b, rest) ->
  brings b /\ (forall is s, In is (b_imports P b) -> In s is -> Bytes s /\ length s = size) /\ exists used, inp = used ++ rest.
Proof. exact bundle_brings. Qed.
(** A bundle takes an octet more than the Graypaper's for every octet of its segments from 128 on, and is the Graypaper's if there is none. *)
Theorem bundle_octets_partial : forall P size (b : bundle P) octets gp, well_made size b -> encode_bundle P size b = Ok octets -> gp_bundle b gp ->
  N.of_nat (length octets) = N.of_nat (length gp) + high_octets b /\ (high_octets b = 0 -> octets = gp).
Proof. exact bundle_length. Qed.
(** The bundle of a package within the limits, with paths of at most 12 nodes, is no longer than the limit and what the references take. *)
Theorem bundle_bound_partial : forall P (b : bundle P) octets gp, well_made (N.to_nat 4104) b -> brings b -> held (b_package P b) ->
  (forall ps p, In ps (b_paths P b) -> In p ps -> (length p <= 12)%nat) -> counts_ok P (b_package P b) = true -> size_ok P (b_package P b) = true ->
  encode_bundle P (N.to_nat 4104) b = Ok octets -> gp_bundle b gp ->
  N.of_nat (length gp) <= 13791360 + 113628 + 32 * prerequisites (b_package P b) /\
  N.of_nat (length octets) <= 13791360 + 113628 + 32 * prerequisites (b_package P b) + high_octets b.
Proof.
  intros P b octets gp W S Hh Lp C So E G. pose proof (bundle_bounded P (N.to_nat 4104) b gp eq_refl W S Hh Lp C So G) as L. split; [exact L|].
  destruct (bundle_length P _ b octets gp W E G) as [-> _]. revert L. generalize (prerequisites (b_package P b)) (high_octets b). lia.
Qed.

Definition some_params : params := {| validator_count := 6; core_count := 2; epoch_length := 12; super_majority := 5; sz_ticket := 785; sz_preimage := 32; sz_guarantee := 400;
  sz_credential := 66; sz_assurance := 120; sz_verdict := 400; sz_culprit := 128; sz_fault := 129; sz_digest := 150; sz_import := 36; sz_xtinfo := 36; sz_item := 128 |}.
Definition a_hash (n : N) : bytes := repeat n 32.
Definition an_item (acc : N) (xts : list (bytes * N)) : item some_params := (7, (a_hash 1, (1000, (acc, (1, ([9; 9], ([(a_hash 2, (true, 5))], xts))))))).
Definition a_package (items : list (item some_params)) : package some_params := (3, (a_hash 4, ((a_hash 5, (a_hash 6, (a_hash 7, (a_hash 8, (77, [a_hash 9]))))), ([1; 2; 3], ([4], items))))).
Definition a_bundle (segment : bytes) (blobs : list bytes) : bundle some_params :=
  mk_bundle some_params (a_package [an_item 10 [(a_hash 3, 2); (a_hash 4, 0)]; an_item 20 [(a_hash 3, 3)]]) [blobs; [[7; 7; 7]]] [[segment]; [[1; 2; 3; 4]]]
    [[[a_hash 11; a_hash 12]]; [[a_hash 13]]].
Lemma a_bundle_made segment blobs : Bytes segment -> length segment = 4%nat -> Forall Bytes blobs -> well_made 4 (a_bundle segment blobs).
Proof.
  intros Bs Ls Bb. rewrite Forall_forall in Bb. split; [apply wfb_sound; vm_compute; reflexivity|]. split; [|split].
  - intros xs x [<-|[<-|[]]] I; [exact (Bb x I)|]. destruct I as [<-|[]]. apply bytesb_sound. reflexivity.
  - intros is s [<-|[<-|[]]] [<-|[]]; [split; assumption|]. split; [apply bytesb_sound|]; reflexivity.
  - intros ps p [<-|[<-|[]]] [<-|[]]; split; try reflexivity; intros h [<-|I]; repeat (destruct I as [<-|I]); try destruct I; split; try reflexivity; apply bytesb_sound; reflexivity.
Qed.
Lemma a_bundle_brings segment b1 : length b1 = 2%nat -> brings (a_bundle segment [b1; []]).
Proof.
  intros L. split; [reflexivity|]. split; [reflexivity|]. split; [reflexivity|]. intros [|[|j]] w E; cbn in E; try (injection E as <-); [| |destruct j; discriminate].
  - eexists _, _, _. split; [reflexivity|]. split; [reflexivity|]. split; [reflexivity|]. cbn [map]. rewrite L. split; [reflexivity|]. split; reflexivity.
  - eexists _, _, _. split; [reflexivity|]. split; [reflexivity|]. split; [reflexivity|]. split; [reflexivity|]. split; reflexivity.
Qed.
(** A bundle of two items is read back. *)
Example bundle_case : let b := a_bundle [5; 200; 6; 255] [[8; 9]; []] in brings b /\ well_made 4 b /\ high_octets b = 2 /\
  exists octets, encode_bundle some_params 4 b = Ok octets /\ decode_bundle some_params 4 (octets ++ [1]) = Ok (b, [1]).
Proof.
  cbv zeta. split; [apply a_bundle_brings; reflexivity|]. split; [apply a_bundle_made; [apply bytesb_sound; reflexivity|reflexivity|]|].
  - apply Forall_cons; [apply bytesb_sound; reflexivity|]. apply Forall_cons; [constructor|constructor].
  - split; [reflexivity|]. destruct (bundle_back some_params 4 (a_bundle [5; 200; 6; 255] [[8; 9]; []])) as (o & E & D).
    + apply a_bundle_brings; reflexivity.
    + apply a_bundle_made; [apply bytesb_sound; reflexivity|reflexivity|]. apply Forall_cons; [apply bytesb_sound; reflexivity|]. apply Forall_cons; [constructor|constructor].
    + exists o. split; [exact E|]. apply D.
Qed.
(** The octets are not the Graypaper's: the segment has an octet from 128 on. *)
Theorem segment_octets_refuted : exists P size (b : bundle P) octets gp, brings b /\ well_made size b /\ encode_bundle P size b = Ok octets /\ gp_bundle b gp /\ octets <> gp.
Proof.
  set (b := a_bundle [5; 200; 6; 255] [[8; 9]; []]). assert (W : well_made 4 b).
  { apply a_bundle_made; [apply bytesb_sound; reflexivity|reflexivity|]. apply Forall_cons; [apply bytesb_sound; reflexivity|]. apply Forall_cons; [constructor|constructor]. }
  destruct (bundle_back some_params 4 b) as (o & E & _); [apply a_bundle_brings; reflexivity|exact W|].
  destruct (bundle_octets_of some_params 4 b o E) as (p & Ep & _). assert (G : exists gp, gp_bundle b gp) by (eexists; exists p; split; [exact Ep|reflexivity]). destruct G as [gp G].
  exists some_params, 4%nat, b, o, gp. split; [apply a_bundle_brings; reflexivity|]. split; [exact W|]. split; [exact E|]. split; [exact G|]. intros ->.
  destruct (bundle_length _ _ b gp gp W E G) as [L _]. assert (Z : high_octets b = 2) by reflexivity. rewrite Z in L. lia.
Qed.
(** The limit does not hold of what is written: with as many imports as allowed and segments of octets from 128 on, a bundle is 25 megaoctets long. *)
Definition importing (n : nat) : item some_params := (7, (a_hash 1, (1000, (10, (0, (@nil N, (repeat (a_hash 2, (false, 5)) n, @nil (bytes * N)))))))).
Definition importing_package (n : nat) : package some_params := (3, (a_hash 4, ((a_hash 5, (a_hash 6, (a_hash 7, (a_hash 8, (77, @nil bytes))))), (@nil N, (@nil N, [importing n]))))).
Definition importing_bundle (n m : nat) : bundle some_params := mk_bundle some_params (importing_package n) [[]] [repeat (repeat 255 m) n] [repeat [] n].
Lemma hash_wf h : Bytes h /\ length h = 32%nat -> wf t_hash h. Proof. auto. Qed.
Lemma importing_wf n : N.of_nat n <= 3072 -> wf (t_package some_params) (importing_package n).
Proof.
  intros L. assert (Hh : forall x, x < 256 -> wf t_hash (a_hash x)).
  { intros x Lx. split; [|reflexivity]. apply Forall_forall. intros y I. apply repeat_spec in I. subst. exact Lx. }
  unfold importing_package, t_package, t_refine_ctx. cbn [wf fst snd]. split; [reflexivity|]. split; [now apply Hh|]. split; [repeat split; try (now apply Hh); try constructor; try reflexivity|].
  - intros i j x y _ Ex. destruct i; discriminate.
  - split; [split; [constructor|discriminate]|]. split; [split; [constructor|discriminate]|]. split; [|split; [reflexivity|]; split; discriminate].
    apply Forall_cons; [|constructor]. unfold importing. split; [reflexivity|]. split; [now apply Hh|]. split; [reflexivity|]. split; [reflexivity|]. split; [reflexivity|].
    split; [split; [constructor|discriminate]|]. split; [|split; [constructor|split; [reflexivity|discriminate]]]. cbn [fst snd wf interp]. rewrite repeat_length. split; [|split].
    + apply Forall_forall. intros x I. apply repeat_spec in I. subst. split; [now apply Hh|reflexivity].
    + apply N.le_lt_trans with 3072; [exact L|reflexivity].
    + apply N.le_trans with (3072 * 36); [apply N.mul_le_mono_r; exact L|]. discriminate.
Qed.
Lemma concat_repeat (x : bytes) n : length (concat (repeat x n)) = (n * length x)%nat.
Proof. induction n as [|n IH]; [reflexivity|]. cbn [repeat concat]. rewrite app_length, IH. lia. Qed.
Lemma all_high m : high (repeat 255 m) = N.of_nat m.
Proof. unfold high. induction m as [|m IH]; [reflexivity|]. cbn [repeat filter]. change (128 <=? 255) with true. cbn [length]. lia. Qed.
Lemma repeat_high m n : high (concat (repeat (repeat 255 m) n)) = N.of_nat n * N.of_nat m.
Proof. induction n as [|n IH]; [reflexivity|]. cbn [repeat concat]. rewrite high_app, IH, all_high. lia. Qed.
Lemma importing_made n m : N.of_nat n <= 3072 -> well_made m (importing_bundle n m).
Proof.
  intros Hn. split; [exact (importing_wf n Hn)|]. split; [intros xs x [<-|[]] []|]. split.
  - intros is s [<-|[]] I. apply repeat_spec in I. subst s. split; [|apply repeat_length]. apply Forall_forall. intros y Iy. apply repeat_spec in Iy. subst. reflexivity.
  - intros ps p [<-|[]] I. apply repeat_spec in I. subst p. split; [reflexivity|]. intros h [].
Qed.
Lemma importing_imports n : length (i_imports some_params (importing n)) = n.
Proof. unfold i_imports, importing; cbn [fst snd]; apply repeat_length. Qed.
Lemma importing_brings n m : brings (importing_bundle n m).
Proof.
  split; [reflexivity|]. split; [reflexivity|]. split; [reflexivity|]. intros [|j] w E; [|destruct j; discriminate]. injection E as <-. exists [], (repeat (repeat 255 m) n), (repeat [] n).
  split; [reflexivity|]. split; [reflexivity|]. split; [reflexivity|]. split; [reflexivity|]. rewrite importing_imports, !repeat_length. auto.
Qed.
Lemma importing_count n : imports_in (importing_package n) = N.of_nat n.
Proof. unfold imports_in, all_of. change (N.of_nat (length (i_imports some_params (importing n))) + 0 = N.of_nat n). rewrite importing_imports. lia. Qed.
Lemma importing_held n : N.of_nat n <= 3072 -> held (importing_package n).
Proof.
  intros Hn. unfold held, all_of. change (0 + 0 + (0 + N.of_nat (length (i_imports some_params (importing n))) + 0 + 0) <= 140737488355328). rewrite importing_imports. lia.
Qed.
Lemma importing_counts n : N.of_nat n <= 3072 -> counts_ok some_params (importing_package n) = true.
Proof.
  intros Hn. apply counts_ok_iff; [exact (importing_wf n Hn)|exact (importing_held n Hn)|]. rewrite importing_count. split; [|split; [exact Hn|]]; vm_compute; discriminate.
Qed.
Lemma importing_size n : N.of_nat n <= 3072 -> size_ok some_params (importing_package n) = true.
Proof.
  intros Hn. apply size_ok_iff; [exact (importing_wf n Hn)|exact (importing_held n Hn)|exact (importing_counts n Hn)|]. rewrite footprint_split, importing_count.
  change (0 + 0 + 0 + 4488 * N.of_nat n + 0 <= 13791360). lia.
Qed.
Lemma importing_high n m : high_octets (importing_bundle n m) = N.of_nat n * N.of_nat m.
Proof. change (high (concat (concat [repeat (repeat 255 m) n])) = N.of_nat n * N.of_nat m). cbn [concat]. rewrite app_nil_r. apply repeat_high. Qed.
Lemma importing_octets n m : N.of_nat (length (concat (concat (b_imports some_params (importing_bundle n m))))) = N.of_nat n * N.of_nat m.
Proof. change (N.of_nat (length (concat (concat [repeat (repeat 255 m) n]))) = N.of_nat n * N.of_nat m). cbn [concat]. rewrite app_nil_r, concat_repeat, repeat_length. lia. Qed.
Lemma importing_long n m : N.of_nat n <= 3072 -> exists o, encode_bundle some_params m (importing_bundle n m) = Ok o /\ 2 * (N.of_nat n * N.of_nat m) <= N.of_nat (length o).
Proof.
  intros Hn. pose proof (importing_made n m Hn) as Wb. pose proof (importing_high n m) as Hx. pose proof (importing_octets n m) as Gl. pose proof (importing_brings n m) as Bb.
  revert Wb Hx Gl Bb. generalize (importing_bundle n m) (N.of_nat n * N.of_nat m). intros b t Wb Hx Gl Bb.
  destruct (bundle_back some_params m b Bb Wb) as (o & E & _). destruct (bundle_octets_of some_params m b o E) as (p & Ep & _).
  assert (G : gp_bundle b (p ++ concat (concat (b_xts some_params b)) ++ concat (concat (b_imports some_params b)) ++
    concat (map (fun path => integer_encode (N.of_nat (length path)) ++ concat path) (concat (b_paths some_params b))))) by (exists p; split; [exact Ep|reflexivity]).
  destruct (bundle_length _ _ b o _ Wb E G) as [L _]. exists o. split; [exact E|]. rewrite !app_length in L. rewrite Hx in L. revert L Gl. generalize (length o) (length p). unfold bytes. intros. lia.
Qed.
Theorem bundle_bound_refuted : exists P (b : bundle P) octets, well_made (N.to_nat 4104) b /\ brings b /\ held (b_package P b) /\
  (forall ps p, In ps (b_paths P b) -> In p ps -> (length p <= 12)%nat) /\ counts_ok P (b_package P b) = true /\ size_ok P (b_package P b) = true /\ prerequisites (b_package P b) = 0 /\
  encode_bundle P (N.to_nat 4104) b = Ok octets /\ 25000000 < N.of_nat (length octets).
Proof.
  assert (Hn : exists n, N.of_nat n = 3072) by (exists (N.to_nat 3072); apply N2Nat.id). destruct Hn as [n Ln].
  assert (Hm : N.of_nat (N.to_nat 4104) = 4104) by apply N2Nat.id. revert Hm. generalize (N.to_nat 4104). intros m Lm.
  assert (Hn : N.of_nat n <= 3072) by lia. destruct (importing_long n m Hn) as (o & E & L). exists some_params, (importing_bundle n m), o.
  split; [exact (importing_made n m Hn)|]. split; [exact (importing_brings n m)|]. split; [exact (importing_held n Hn)|]. split.
  - intros ps q [<-|[]] I. apply repeat_spec in I. subst q. cbn. lia.
  - split; [exact (importing_counts n Hn)|]. split; [exact (importing_size n Hn)|]. split; [reflexivity|]. split; [exact E|]. lia.
Qed.
(** A bundle that brings blobs of other lengths than declared is written all the same, and read back as another. *)
Theorem bundle_shape_refuted : exists P size (b b' : bundle P) octets, well_made size b /\ encode_bundle P size b = Ok octets /\ decode_bundle P size octets = Ok (b', []) /\ b' <> b.
Proof.
  exists some_params, 4%nat, (a_bundle [5; 6; 7; 8] [[8]; [9]]), (a_bundle [5; 6; 7; 8] [[8; 9]; []]).
  destruct (bundle_back some_params 4 (a_bundle [5; 6; 7; 8] [[8; 9]; []])) as (o & E & D).
  - apply a_bundle_brings; reflexivity.
  - apply a_bundle_made; [apply bytesb_sound; reflexivity|reflexivity|]. apply Forall_cons; [apply bytesb_sound; reflexivity|]. apply Forall_cons; [constructor|constructor].
  - exists o. split; [apply a_bundle_made; [apply bytesb_sound; reflexivity|reflexivity|]; apply Forall_cons; [apply bytesb_sound; reflexivity|]; apply Forall_cons; [apply bytesb_sound; reflexivity|constructor]|].
    split; [exact E|]. split; [rewrite <- (app_nil_r o); apply D|]. intros X. assert (Y := f_equal (b_xts some_params) X). vm_compute in Y. discriminate Y.
Qed.

(** ** C105: limits *)
(** The counts are checked. *)
Theorem package_counts : forall P (k : package P), wf (t_package P) k -> held k ->
  counts_ok P k = true <-> exports_in k <= 3072 /\ imports_in k <= 3072 /\ xts_in k <= 128.
Proof. exact counts_ok_iff. Qed.
(** The size is checked, of a package whose counts are. *)
Theorem package_size_partial : forall P (k : package P), wf (t_package P) k -> held k -> counts_ok P k = true -> size_ok P k = true <-> footprint k <= 13791360.
Proof. exact size_ok_iff. Qed.
(** The gas is checked, if its sums do not wrap. *)
Theorem package_gas_partial : forall P g (k : package P), acc_gas_in k < 2 ^ 64 -> refine_gas_in k < 2 ^ 64 -> gas_ok P g k = true <-> acc_gas_in k < 10000000 /\ refine_gas_in k < g.
Proof. exact gas_ok_iff. Qed.
Example limits_case : let k := a_package [an_item 10 [(a_hash 3, 2)]; an_item 20 []] in
  wf (t_package some_params) k /\ held k /\ counts_ok some_params k = true /\ size_ok some_params k = true /\ gas_ok some_params 1000000000 k = true /\ footprint k = 8986 /\ acc_gas_in k = 30.
Proof. cbv zeta. split; [apply wfb_sound; vm_compute; reflexivity|]. split; [vm_compute; discriminate|]. repeat split; reflexivity. Qed.
Example limits_refuse : counts_ok some_params (a_package [an_item 10 (repeat (a_hash 3, 2) 129)]) = false /\ size_ok some_params (a_package [an_item 10 [(a_hash 3, 13791360)]]) = false /\
  gas_ok some_params 1000000000 (a_package [an_item 10000000 []]) = false.
Proof. repeat split; vm_compute; reflexivity. Qed.
(** Two items that ask for 2^63 gas each are within the limit: the sum wraps. *)
Theorem package_gas_refuted : exists P (k : package P), wf (t_package P) k /\ held k /\ gas_ok P 1000000000 k = true /\ counts_ok P k = true /\ size_ok P k = true /\ 10000000 <= acc_gas_in k.
Proof.
  exists some_params, (a_package [an_item (2 ^ 63) []; an_item (2 ^ 63) []]). split; [apply wfb_sound; vm_compute; reflexivity|]. split; [vm_compute; discriminate|].
  repeat split; vm_compute; try reflexivity; discriminate.
Qed.

(** ** C106: constants *)
(** Every constant is where the Graypaper has it, in 134 octets. *)
Theorem constants_written : forall c, fits c -> exists octets, encode_constants c = Ok octets /\ length octets = 134%nat /\
  forall f o n, In (f, o, n) gp_constants -> le_val (firstn n (skipn o octets)) = f c.
Proof. exact constants_at. Qed.
(** The constants of both chain specifications fit. *)
Theorem constants_fit : fits full /\ fits tiny.
Proof. split; intros f o n I; repeat (destruct I as [I|I]; [injection I as <- <- <-; reflexivity|]); destruct I. Qed.
(** What the constants name agrees with itself: segments, the footprint of an import, the epoch, the rotation of guarantors, the gas of a block, preimages. *)
Theorem constants_agree : Forall (fun c => c_WE c * c_WP c = 4104 /\ 4488 = c_WE c * c_WP c + 32 * 12 /\ c_WM c <= 2 ^ 12 /\ c_Y c < c_E c /\ c_L c < c_D c /\
  c_C c * c_GA c <= c_GT c /\ c_R c <= c_E c /\ c_V c < 2 ^ 16 /\ 3 * c_C c <= c_V c) [full; tiny].
Proof. repeat constructor; vm_compute; discriminate. Qed.
Example constants_case : exists octets, encode_constants full = Ok octets /\ firstn 10 (skipn 24 octets) = [85; 1; 0; 75; 0; 0; 88; 2; 0; 0].
Proof. eexists. split; vm_compute; reflexivity. Qed.

(** ** C107: reports *)
(** A report made is that of an authorised package: its trace and outputs are within the limit and it has a digest for each item. *)
Theorem report_sound : forall S H auth run specs s k core (r : wreport S), compute_work_report H auth run specs s k core = Ok r ->
  exists gas trace, auth = Ok (gas, WOutput trace) /\ wr_auth_gas r = gas /\ wr_trace r = trace /\ wr_core r = core /\ wr_context r = k_context k /\
    wr_authorizer r = H (k_auth k ++ k_config k) /\ length (wr_digests r) = length (k_items k) /\
    N.of_nat (length trace) + sum_of (map size_of (map d_result (wr_digests r))) <= 49152 /\
    (length (named k) <= 8)%nat.
Proof.
  intros S H auth run specs s k core r E. destruct (report_made H auth run specs s k core r E) as (gas & trace & im & xt & b & ex & Ea & Lt & Eg & Et & Ec & Ex & Eh & Er & _ & _ & L8 & _).
  exists gas, trace. split; [exact Ea|]. split; [exact Eg|]. split; [exact Et|]. split; [exact Ec|]. split; [exact Ex|]. split; [exact Eh|].
  destruct (report_runs _ _ _ _ _ _ Er) as (raw & R & J & K & D). split; [rewrite <- (proj1 J), map_length; reflexivity|]. split; [eapply judged_limit; [apply R|exact Lt|exact J]|].
  unfold named. eapply Nat.le_trans; [apply NoDup_incl_length; [apply NoDup_nodup|]; intros x I; apply nodup_In in I; exact I|]. unfold package_imports in L8. lia.
Qed.
(** A package that is not authorised, or whose trace is too big, has no report. *)
Theorem report_refused : forall S H auth run (specs : bytes -> list bytes -> result perr S) s k core gas w, auth = Ok (gas, w) ->
  match w with WError f => compute_work_report H auth run specs s k core = Err (PNotAuthorized f)
  | WOutput trace => 49152 < N.of_nat (length trace) -> compute_work_report H auth run specs s k core = Err PTraceTooLarge end.
Proof. intros S. exact report_refusals. Qed.
(** No authorised package has a report: what the code leaves unimplemented panics, whatever the package. *)
Theorem report_crashes_refuted : forall S H auth run (specs : bytes -> list bytes -> result perr S) k core gas trace, auth = Ok (gas, WOutput trace) -> N.of_nat (length trace) <= 49152 ->
  compute_work_report H auth run specs unimplemented k core = Panic.
Proof. intros S. exact report_crashes. Qed.
Definition importer (n : nat) : pkg := mk_pkg [mk_witem 7 [1] 1000 10 0 [] (repeat (true, a_hash 2, 3) n) []] 3 [4] [] [5] 77 [] [6].
Definition done : stubs := mk_stubs (Ok []) (Ok (fun _ => None)) (Ok []) (Ok [(a_hash 2, a_hash 3)]).
Example report_case : exists r, compute_work_report (fun b => b) (Ok (50, WOutput [1; 2])) (fun _ => Ok (9, WOutput [3], [])) (fun _ x => Ok x) done (importer 8) 1 = Ok r /\
  wr_authorizer r = [4; 5] /\ length (wr_digests r) = 1%nat /\ complete done.
Proof. eexists. split; [vm_compute; reflexivity|]. split; [reflexivity|]. split; [reflexivity|]. repeat split; eexists; reflexivity. Qed.
(** Were it complete, a package with nine imports of one other package would still be refused: imports are counted, not the packages they name. *)
Theorem report_lookup_refuted : exists s k, complete s /\ length (named k) = 1%nat /\
  compute_work_report (fun b => b) (Ok (50, WOutput [1; 2])) (fun _ => Ok (9, WOutput [3], [])) (fun _ x => Ok x) s k 1 = Err PTooManyLookups.
Proof. exists done, (importer 9). split; [repeat split; eexists; reflexivity|]. split; vm_compute; reflexivity. Qed.

Print Assumptions bundle_roundtrip_partial.
Print Assumptions bundle_read.
Print Assumptions bundle_octets_partial.
Print Assumptions bundle_bound_partial.
Print Assumptions bundle_bound_refuted.
Print Assumptions segment_octets_refuted.
Print Assumptions bundle_shape_refuted.
Print Assumptions package_counts.
Print Assumptions package_size_partial.
Print Assumptions package_gas_partial.
Print Assumptions package_gas_refuted.
Print Assumptions constants_written.
Print Assumptions constants_fit.
Print Assumptions constants_agree.
Print Assumptions report_sound.
Print Assumptions report_refused.
Print Assumptions report_crashes_refuted.
Print Assumptions report_lookup_refuted.
