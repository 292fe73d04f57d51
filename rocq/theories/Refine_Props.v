(** Properties of refinements, authorizations and the items of a report (C81-C85). *)
From Coq Require Import List NArith ZArith Lia Bool.
From Verif Require Import Base PvmMem_Model PvmMem_Spec PvmProg_Model PvmStep_Model PvmRun_Spec PvmProg_Spec PvmInit_Model PvmInit_Spec Codec_Model Codec_Spec Codec_Proofs Host_Model Acc_Model Refine_Model Refine_Spec
  Refine_Proofs Refine2_Proofs Refine3_Proofs Refine4_Proofs Refine5_Proofs.
Import ListNotations.
Open Scope N_scope.
Notation reg := Host_Model.reg.

(** C81. In a refinement, after any calls, a call that comes back does what [gp_call] says. Missing: MACHINE after an EXPUNGE, PAGES in modes 0 to 2 on pages that
    exist, FETCH of all the summaries (for these see the refutations below) and the calls that do not come back. *)
Theorem refine_calls_exact_partial : forall e a self l hs c n s h c', args_ok a -> refine_calls e a self l new_rctx = Ok (hs, c) -> guest s ->
  (n = 8 -> no_gaps c) -> (n = 11 -> r_ s 8 + r_ s 9 < 2 ^ 64 /\ (2 < r_ s 10 \/ r_ s 9 = 0 \/ r_ s 8 < 16 \/ 2 ^ 20 <= r_ s 8 + r_ s 9)) -> ~ (n = 1 /\ r_ s 10 = 11) ->
  refine_host e a self n s c = Ok (h, c') -> gp_call e a self s c n h c'.
Proof.
  intros e a self l hs c n s h c' AO R G NG N11 NF. pose proof (inv_calls e a self l new_rctx hs c (inv_new a) R) as I. apply refine_sound; try assumption; [apply I|]. eapply inv_sound; exact I.
Qed.
(** [gp_call] leaves no choice of the answer. *)
Theorem refine_answer_unique : forall e a self s c n h1 c1 h2 c2, in_order c -> gp_call e a self s c n h1 c1 -> gp_call e a self s c n h2 c2 -> h1 = h2.
Proof. intros *. apply gp_definite. Qed.
(** The calls other than MACHINE, PAGES and INVOKE always come back, whatever is in the registers and the memory. *)
Theorem refine_calls_total_partial : forall e a self n s c, args_ok a -> ~ In n [8; 11; 12] -> exists h c', refine_host e a self n s c = Ok (h, c').
Proof. intros *. apply refine_total. Qed.
(** What a call does to the guest: it costs 10 gas, changes registers 7 and 8 at most, and of the memory only what [gp_call] says was delivered. *)
Theorem refine_call_guest : forall e a self s c n h c', guest s -> (0 <= v_gas s < 2 ^ 63)%Z -> gp_call e a self s c n h c' ->
  exists s', apply_host s h = Ok s' /\ v_gas s' = (v_gas s - 10)%Z /\ v_pc s' = v_pc s /\ (forall i, (i <> 7)%nat -> (i <> 8)%nat -> r_ s' i = r_ s i) /\
    m_len (v_mem s') = m_len (v_mem s) /\ m_acc (v_mem s') = m_acc (v_mem s) /\
    match h_mem h with Some (p, d) => stored (v_mem s) p d (v_mem s') | None => v_mem s' = v_mem s end.
Proof. intros *. apply gp_applies. Qed.
(** The machines of a refinement are numbered 0, 1, 2, ... in the order they are made, and no number is given twice. *)
Theorem machine_numbers : forall e a self l hs c, refine_calls e a self l new_rctx = Ok (hs, c) -> N.of_nat (length l) < 2 ^ 64 - 9 -> counting 0 (given 8 l hs).
Proof. intros e a self l hs c H L. exact (proj1 (history_numbers e a self l new_rctx hs c H L)). Qed.

(** C82. Exports: every answer of EXPORT is the place of the segment among the exports of the whole package, without gaps or repetitions, and the segments so far
    stay. *)
Theorem export_numbers : forall e a self l hs c, refine_calls e a self l new_rctx = Ok (hs, c) ->
  counting (ra_offset a) (given 7 l hs) /\ length (rx_exports c) = length (given 7 l hs).
Proof. intros e a self l hs c H. destruct (history_exports e a self l new_rctx hs c H) as (A & B & _). cbn in A, B. rewrite N.add_0_r in A. auto. Qed.
Theorem exports_kept : forall e a self l c hs c', refine_calls e a self l c = Ok (hs, c') -> firstn (length (rx_exports c)) (rx_exports c') = rx_exports c.
Proof. intros e a self l c hs c' H. now destruct (history_exports e a self l c hs c' H) as (_ & _ & A). Qed.
(** A refinement gives segments of 4104 octets, with those of the items before at most 3072, none unless it succeeds, and then exactly those its calls exported. It
    uses no more gas than the item gives it. *)
Theorem refine_gives : forall fuel e H a used r segs, refine fuel e H a = Some (Ok (used, r, segs)) ->
  Forall (fun b => N.of_nat (length b) = 4104) segs /\ (segs = [] \/ ra_offset a + N.of_nat (length segs) <= 3072) /\ (is_output r = false -> segs = []) /\
  (forall w, nth_error (k_items (ra_pkg a)) (ra_item a) = Some w -> w_refine_gas w < 2 ^ 64 -> used <= w_refine_gas w) /\
  (is_output r = true -> exists w l hs c, nth_error (k_items (ra_pkg a)) (ra_item a) = Some w /\ refine_calls e a (w_service w) l new_rctx = Ok (hs, c) /\
     Forall (fun q => In (fst q) [0; 1; 6; 7; 8; 9; 10; 11; 12; 13; 100]) l /\ segs = rx_exports c).
Proof. exact refine_exports. Qed.

(** C83. When a refinement says there is no code (BAD) and that it is too big (BIG). *)
Theorem refine_no_code : forall fuel e H a used r segs, refine fuel e H a = Some (Ok (used, r, segs)) ->
  (r = WError WBad <-> forall w, nth_error (k_items (ra_pkg a)) (ra_item a) = Some w -> re_exists e (w_service w) = true -> re_lookup e (w_service w) (k_anchor (ra_pkg a)) (w_code w) = None) /\
  (r = WError WBig <-> exists w b code, nth_error (k_items (ra_pkg a)) (ra_item a) = Some w /\ re_exists e (w_service w) = true /\
     re_lookup e (w_service w) (k_anchor (ra_pkg a)) (w_code w) = Some b /\ split_code b = Ok code /\ 4000000 < N.of_nat (length code)).
Proof. exact refine_refused. Qed.

(** C84. The calls of an authorization do what [gp_auth] says, but for FETCH of all the summaries. *)
Theorem auth_calls_exact_partial : forall e k n s h, guest s -> Forall item_ok (k_items k) -> ~ (n = 1 /\ r_ s 10 = 11) -> auth_host e k n s tt = Ok (h, tt) -> gp_auth e k s n h.
Proof. intros *. apply auth_sound. Qed.
Theorem auth_calls_total : forall e k n s, exists h, auth_host e k n s tt = Ok (h, tt).
Proof. intros e k n s. unfold auth_host. destruct (n =? 100); [eauto|]. destruct (_ <? _)%Z; [eauto|]. destruct n as [|[p|p|]]; eauto. Qed.
Theorem auth_no_code : forall fuel e k core used r, is_authorized fuel e k core = Some (Ok (used, r)) ->
  (r = WError WBad <-> re_lookup e (k_host k) (k_anchor k) (k_auth k) = None) /\
  (r = WError WBig <-> exists b code, re_lookup e (k_host k) (k_anchor k) (k_auth k) = Some b /\ split_code b = Ok code /\ 64000 < N.of_nat (length code)) /\
  used <= 50000000.
Proof. exact is_authorized_refused. Qed.

(** The program of a refinement is called at its first instruction, with the item's refinement gas, on the core's index, the item's index, the service, the
    payload with its length, and the package's hash, in the Graypaper's code; that of an authorization, on the core's index in two octets. *)
Theorem refine_arguments : forall fuel e H a w b code i1 i2 i3 i4, nth_error (k_items (ra_pkg a)) (ra_item a) = Some w ->
  re_exists e (w_service w) = true -> re_lookup e (w_service w) (k_anchor (ra_pkg a)) (w_code w) = Some b -> split_code b = Ok code ->
  N.of_nat (length code) <= 4000000 ->
  gp_int (ra_core a) i1 -> gp_int (N.of_nat (ra_item a)) i2 -> gp_int (w_service w) i3 -> gp_int (N.of_nat (length (w_payload w))) i4 ->
  forall gas o c, invoke_with_args (refine_host e a (w_service w)) fuel Refine code 0 (w_refine_gas w) (i1 ++ i2 ++ i3 ++ i4 ++ w_payload w ++ H (k_octets (ra_pkg a))) new_rctx
    = Some (Ok (gas, o, c)) ->
  exists segs, refine fuel e H a = Some (Ok (gas, of_output o, segs)) /\ (is_output (of_output o) = true -> segs = rx_exports c).
Proof.
  intros fuel e H a w b code i1 i2 i3 i4 Hw He Hl Hs Hn G1 G2 G3 G4 gas o c Hi.
  apply gp_int_fun in G1, G2, G3, G4. subst. unfold refine. rewrite Hw, He, Hl, Hs. cbn [negb lift].
  destruct (4000000 <? N.of_nat (length code)) eqn:E; [apply N.ltb_lt in E; lia|]. rewrite Hi. cbn [bind]. eexists. split; [reflexivity|].
  destruct o; cbn; auto; discriminate.
Qed.
Theorem auth_arguments : forall fuel e k core b code, re_lookup e (k_host k) (k_anchor k) (k_auth k) = Some b -> split_code b = Ok code ->
  N.of_nat (length code) <= 64000 -> core < 2 ^ 16 ->
  forall gas o c, invoke_with_args (auth_host e k) fuel IsAuthorized code 0 50000000 [core mod 256; core / 256] tt = Some (Ok (gas, o, c)) ->
  is_authorized fuel e k core = Some (Ok (gas, of_output o)).
Proof.
  intros fuel e k core b code Hl Hs Hn Hc gas o c Hi. unfold is_authorized. rewrite Hl, Hs. cbn [lift].
  destruct (64000 <? N.of_nat (length code)) eqn:E; [apply N.ltb_lt in E; lia|].
  replace (le_bytes 2 core) with [core mod 256; core / 256]; [rewrite Hi; auto|].
  cbn. rewrite (N.mod_small (core / 256)); auto. apply N.div_lt_upper_bound; [lia|]. change (256 * 256) with (2 ^ 16). auto.
Qed.

(** C85. A report has a digest for each item, in order, which describes the item and what its refinement used; every item was refined with the number of
    exports the items before it declare. Its result is the refinement's, unless the outputs up to it are too big or the segments not as many as declared. *)
Theorem report_digests : forall run H items trace ds xs, report_items run H items 0 0 trace = Ok (ds, xs) ->
  exists raw, ran run items 0 0 raw /\ judged trace items raw (map d_result ds) /\ xs = kept_segments raw (map d_result ds) /\ length ds = length items /\
    forall j w, nth_error items j = Some w -> countable w -> exists d u r segs, nth_error ds j = Some d /\ nth_error raw j = Some (u, r, segs) /\ describes H w u d.
Proof.
  intros run H items trace ds xs E. destruct (report_runs _ _ _ _ _ _ E) as (raw & R & J & K & D). exists raw. split; [exact R|]. split; [exact J|]. split; [exact K|].
  assert (L : length ds = length items) by (rewrite <- (proj1 J), map_length; reflexivity). split; [exact L|]. apply report_described; [exact D|apply R|exact L].
Qed.
(** The outputs kept and the trace are within the limit. *)
Theorem report_fits : forall run H items trace ds xs, trace <= 49152 -> report_items run H items 0 0 trace = Ok (ds, xs) -> trace + sum_of (map size_of (map d_result ds)) <= 49152.
Proof. intros run H items trace ds xs L E. destruct (report_runs _ _ _ _ _ _ E) as (raw & R & J & _). eapply judged_limit; [apply R|exact L|exact J]. Qed.
(** The results are those of the Graypaper if no item but the last loses its output. *)
Theorem report_results_partial : forall run H items trace ds xs, report_items run H items 0 0 trace = Ok (ds, xs) ->
  exists raw, ran run items 0 0 raw /\
    ((forall j u r segs f, (S j < length items)%nat -> nth_error raw j = Some (u, r, segs) -> nth_error (map d_result ds) j = Some f -> size_of f = size_of r) ->
     gp_results trace items raw (map d_result ds)).
Proof. intros run H items trace ds xs E. destruct (report_runs _ _ _ _ _ _ E) as (raw & R & J & _). exists raw. split; [exact R|]. apply judged_gp; [apply R|exact J]. Qed.
(** The segments are those of the Graypaper if the items that fail declare none. *)
Theorem report_segments_partial : forall run H items trace ds xs, report_items run H items 0 0 trace = Ok (ds, xs) ->
  exists raw, ran run items 0 0 raw /\
    ((forall j w f, nth_error items j = Some w -> nth_error (map d_result ds) j = Some f -> is_output f = false -> w_exports w = 0) -> xs = gp_segments items raw (map d_result ds)).
Proof. intros run H items trace ds xs E. destruct (report_runs _ _ _ _ _ _ E) as (raw & R & J & K & _). exists raw. split; [exact R|]. rewrite K. apply kept_gp; [apply R|apply J]. Qed.

(** ** A guest and its calls *)
(** One page may be written: it holds the code of a machine that makes host call 5, and a record of 100 gas and registers of zeros. *)
Definition at_ (l : list (N * bytes)) (x : N) : N := fold_right (fun p r => if (fst p <=? x) && (x <? fst p + N.of_nat (length (snd p))) then nth (N.to_nat (x - fst p)) (snd p) 0 else r) 0 l.
Definition blob : bytes := [0; 0; 2; 10; 5; 1].
Definition page (l : list (N * bytes)) : mem := mk_mem (at_ l) (2 ^ 32) (fun i => if i =? 16 then ReadWrite else Inaccessible) 4096 (2 ^ 20) 0 0 0.
Definition one : list (N * bytes) := [(65536, blob); (65600, [100])].
Definition asks (l : list (N * bytes)) (r7 r8 r9 r10 r11 r12 : N) : vm := mk_vm [0; 0; 0; 0; 0; 0; 0; r7; r8; r9; r10; r11; r12] (page l) 0 1000.
Lemma asks_guest l r7 r8 r9 r10 r11 r12 : Forall (fun p => Bytes (snd p)) l -> Forall (fun v => v < 2 ^ 64) [r7; r8; r9; r10; r11; r12] -> guest (asks l r7 r8 r9 r10 r11 r12).
Proof.
  intros F R. split.
  - split; [reflexivity|]. split; [cbn [v_regs asks]; repeat (constructor; [reflexivity|]); exact R|]. split; [|split; [reflexivity|]].
    + split; [reflexivity|]. split; [reflexivity|]. cbn [asks v_mem page m_len]. lia.
    + intros x. cbn [asks v_mem page m_data]. induction F as [|[q d] l B F IH]; cbn [at_ fold_right fst snd] in *; [lia|]. destruct (_ && _); [|exact IH].
      unfold Bytes in B. rewrite Forall_forall in B. destruct (nth_in_or_default (N.to_nat (x - q)) d 0) as [I|E]; [exact (B _ I)|]. unfold bytes in *. rewrite E. lia.
  - intros i L. cbn. destruct (N.eqb_spec i 16); [lia|reflexivity].
Qed.
Definition item : witem := mk_witem 7 (repeat 1 32) 1000 1000 1 [1; 2; 3] [] [mk_xt (repeat 3 32) 5].
Definition pack : pkg := mk_pkg [item; item] 7 (repeat 2 32) [9] [8; 8] 12 [4; 4; 4; 4] [5; 5].
Definition env : renv := mk_renv (fun s => s =? 7) (fun s t h => if s =? 7 then Some [1; 1; 1] else None) [6; 6] (repeat 7 32).
Definition args : rargs := mk_rargs 3 1 pack [7] [[]; [repeat 1 (N.to_nat 4104)]] 4 (fun x => Some [1; 2; 3; 4; 5]).
Example args_good : args_ok args.
Proof. repeat split; try (cbn; lia). repeat constructor; cbn; lia. Qed.
Definition calls : list (N * vm) :=
  [(8, asks one 65536 6 0 0 0 0); (8, asks one 65536 6 1 0 0 0); (12, asks one 0 65600 0 0 0 0); (7, asks one 65536 6 0 0 0 0);
   (13, asks one 0 0 0 0 0 0); (13, asks one 0 0 0 0 0 0); (7, asks one 65537 4105 0 0 0 0); (9, asks one 1 65536 0 1 0 0); (11, asks one 1 16 2 0 0 0); (11, asks one 1 0 0 3 0 0)].
(** the machine that was run stands behind the host call *)
Example calls_go : match refine_calls env args 7 calls new_rctx with
  | Ok (hs, c) => (map h_r7 hs, map h_r8 hs, map fst (rx_vms c), map (fun x => in_pc (snd x)) (rx_vms c), map (firstn 6) (rx_exports c), map (@length N) (rx_exports c)) =
      ([Some 0; Some 1; Some 3; Some 4; Some 2; Some who_; None; Some oob_; Some huh_; Some huh_],
       [None; None; Some 5; None; None; None; None; None; None; None], [1], [1], [[0; 0; 2; 10; 5; 1]], [N.to_nat 4104])
  | _ => False end.
Proof. vm_compute. reflexivity. Qed.
Example calls_met : exists hs c h c', refine_calls env args 7 (firstn 2 calls) new_rctx = Ok (hs, c) /\ refine_host env args 7 12 (asks one 0 65600 0 0 0 0) c = Ok (h, c') /\
  gp_call env args 7 (asks one 0 65600 0 0 0 0) c 12 h c' /\ h_r7 h = Some 3 /\ h_r8 h = Some 5.
Proof.
  destruct (refine_calls env args 7 (firstn 2 calls) new_rctx) as [[hs c]| |] eqn:E1; [|vm_compute in E1; discriminate|vm_compute in E1; discriminate].
  assert (E1' := E1). vm_compute in E1'. injection E1' as <- <-.
  match goal with |- exists hs c h c', Ok (?x, ?y) = _ /\ _ => set (d := y) in *; exists x, d end.
  destruct (refine_host env args 7 12 (asks one 0 65600 0 0 0 0) d) as [[h c']| |] eqn:E2; [|vm_compute in E2; discriminate|vm_compute in E2; discriminate].
  exists h, c'. split; [reflexivity|]. split; [reflexivity|]. split.
  - eapply refine_calls_exact_partial; [exact args_good|exact E1| | | | |exact E2]; try (intros; lia).
    apply asks_guest; [repeat constructor|repeat constructor].
  - vm_compute in E2. injection E2 as <- _. split; reflexivity.
Qed.
(** FETCH: part of an import of the item refined *)
Example fetch_met : exists h, refine_host env args 7 1 (asks one 65600 4100 10 6 0 0) new_rctx = Ok (h, new_rctx) /\ h_r7 h = Some 4104 /\ h_mem h = Some (65600, [1; 1; 1; 1]) /\
  gp_call env args 7 (asks one 65600 4100 10 6 0 0) new_rctx 1 h new_rctx.
Proof.
  destruct (refine_host env args 7 1 (asks one 65600 4100 10 6 0 0) new_rctx) as [[h c']| |] eqn:E2; [|vm_compute in E2; discriminate|vm_compute in E2; discriminate].
  assert (E3 := E2). vm_compute in E3. injection E3 as Eh Ec. subst c'. exists h. split; [reflexivity|]. split; [rewrite <- Eh; reflexivity|]. split; [rewrite <- Eh; reflexivity|].
  eapply (refine_calls_exact_partial env args 7 [] [] new_rctx); [exact args_good|reflexivity| | | | |exact E2]; try (intros; lia).
  - apply asks_guest; [repeat constructor|repeat constructor].
  - cbn. intros [_ X]. discriminate.
Qed.

(** ** Refutations *)
(** C81: PAGES never gives a machine memory: page 16, to be made writable, is refused. *)
Theorem pages_refuted : exists hs c h c', let s := asks one 0 16 1 2 0 0 in refine_calls env args 7 (firstn 1 calls) new_rctx = Ok (hs, c) /\ guest s /\
  refine_host env args 7 11 s c = Ok (h, c') /\ ~ gp_call env args 7 s c 11 h c'.
Proof.
  do 4 eexists. cbv zeta. split; [vm_compute; reflexivity|]. split; [apply asks_guest; repeat constructor|]. split; [vm_compute; reflexivity|].
  intros C. inversion C; subst; cbn in *; try lia.
Qed.
(** and so, whatever is done, no inner machine ever has memory *)
Theorem inner_memory_refuted : forall e a self l hs c i v, refine_calls e a self l new_rctx = Ok (hs, c) -> has c i v -> forall x, ~ can_read (in_mem v) x.
Proof.
  intros e a self l hs c i v R Hv x [L _]. pose proof (inv_calls e a self l new_rctx hs c (inv_new a) R) as (_ & B & _). destruct (B i v Hv) as [B1 _]. rewrite B1 in L. lia.
Qed.
(** A count of pages that wraps around crashes the node. *)
Theorem pages_crash_refuted : exists hs c, let s := asks one 0 16 (2 ^ 64 - 16) 0 0 0 in refine_calls env args 7 (firstn 1 calls) new_rctx = Ok (hs, c) /\ guest s /\ refine_host env args 7 11 s c = Panic.
Proof. do 2 eexists. cbv zeta. split; [vm_compute; reflexivity|]. split; [apply asks_guest; repeat constructor|]. vm_compute. reflexivity. Qed.
(** So does a machine whose code claims to be too long for memory. *)
Theorem machine_crash_refuted : let s := asks [(65536, [0; 0; 255; 255; 255; 255; 255; 255; 255; 255; 255])] 65536 11 0 0 0 0 in guest s /\ refine_host env args 7 8 s new_rctx = Panic.
Proof. cbv zeta. split; [apply asks_guest; repeat constructor|]. vm_compute. reflexivity. Qed.
(** A number is not given again after EXPUNGE. *)
Theorem machine_number_refuted : exists hs c h c', let s := asks one 65536 6 0 0 0 0 in
  refine_calls env args 7 [(8, asks one 65536 6 0 0 0 0); (13, asks one 0 0 0 0 0 0)] new_rctx = Ok (hs, c) /\ guest s /\
  refine_host env args 7 8 s c = Ok (h, c') /\ ~ gp_call env args 7 s c 8 h c'.
Proof.
  do 4 eexists. cbv zeta. split; [vm_compute; reflexivity|]. split; [apply asks_guest; repeat constructor|]. split; [vm_compute; reflexivity|].
  intros C. inversion C; subst. match goal with H : forall j, j < 1 -> _ |- _ => destruct (H 0 ltac:(lia)) as [w Hw]; exact Hw end.
Qed.
(** FETCH of all the summaries delivers a length in front of each. *)
Theorem summaries_refuted : exists h, let s := asks one 65600 0 4 11 0 0 in guest s /\ refine_host env args 7 1 s new_rctx = Ok (h, new_rctx) /\ ~ gp_call env args 7 s new_rctx 1 h new_rctx.
Proof.
  eexists. cbv zeta. split; [apply asks_guest; repeat constructor|]. split; [vm_compute; reflexivity|].
  intros C. inversion C; subst. match goal with H : finds _ _ _ _ _ ?d, L : N.of_nat (length ?d) = _ |- _ => inversion H; subst; vm_compute in L; discriminate end.
Qed.
(** An inner machine that reads memory ends the refinement of the whole package with an error, since there are no pages to find the fault in. *)
Theorem inner_read_refuted : exists hs c, let l := [(65536, [0; 0; 6; 52; 7; 0; 0; 1; 0; 1]); (65600, [100])] in let s := asks l 0 65600 0 0 0 0 in
  refine_calls env args 7 [(8, asks l 65536 10 0 0 0 0)] new_rctx = Ok (hs, c) /\ guest s /\ match refine_host env args 7 12 s c with Ok _ => False | _ => True end.
Proof. do 2 eexists. cbv zeta. split; [vm_compute; reflexivity|]. split; [apply asks_guest; repeat constructor|]. vm_compute. exact I. Qed.
(** So does an INVOKE with gas of 2^63 or more. *)
Theorem invoke_gas_refuted : exists hs c, let l := [(65536, blob); (65600, [0; 0; 0; 0; 0; 0; 0; 128])] in let s := asks l 0 65600 0 0 0 0 in
  refine_calls env args 7 [(8, asks l 65536 6 0 0 0 0)] new_rctx = Ok (hs, c) /\ guest s /\ exists x, refine_host env args 7 12 s c = Err x.
Proof. do 2 eexists. cbv zeta. split; [vm_compute; reflexivity|]. split; [apply asks_guest; repeat constructor|]. eexists. vm_compute. reflexivity. Qed.

(** C84: an authorization sees the same. *)
Theorem auth_summaries_refuted : exists h, let s := asks one 65600 0 4 11 0 0 in guest s /\ auth_host env pack 1 s tt = Ok (h, tt) /\ ~ gp_auth env pack s 1 h.
Proof.
  eexists. cbv zeta. split; [apply asks_guest; repeat constructor|]. split; [vm_compute; reflexivity|].
  intros C. inversion C; subst. match goal with H : finds _ _ _ _ _ ?d, L : N.of_nat (length ?d) = _ |- _ => inversion H; subst; vm_compute in L; discriminate end.
Qed.
Example auth_met : exists h, auth_host env pack 1 (asks one 65600 1 9 13 1 0) tt = Ok (h, tt) /\ h_r7 h = Some 3 /\ h_mem h = Some (65600, [2; 3]) /\ gp_auth env pack (asks one 65600 1 9 13 1 0) 1 h.
Proof.
  destruct (auth_calls_total env pack 1 (asks one 65600 1 9 13 1 0)) as [h E2]. assert (E3 := E2). vm_compute in E3. injection E3 as Eh. exists h. split; [exact E2|]. split; [rewrite <- Eh; reflexivity|].
  split; [rewrite <- Eh; reflexivity|]. apply auth_calls_exact_partial; [apply asks_guest; repeat constructor|apply args_good| |exact E2]. intros [_ X]. discriminate.
Qed.

(** ** C82, C83: a program that exports its arguments, and gives as many octets from 65536 on *)
Definition exporter : bytes := standard [1; 2; 3] [4; 5] (program_blob 0 [] [10; 7; 51; 7; 0; 0; 1; 50; 0] [true; false; true; false; false; false; false; true; false]) 1 5000.
Definition serving (code : bytes) : renv := mk_renv (fun s => s =? 7) (fun s t h => if s =? 7 then Some (0 :: code) else None) [6; 6] (repeat 7 32).
Example refine_runs : match refine 20 (serving exporter) (fun b => b) args with
  | Some (Ok (used, r, segs)) => used = 13 /\ r = WOutput ([1; 2; 3] ++ repeat 0 8) /\ map (firstn 12) segs = [[3; 1; 7; 3; 1; 2; 3; 4; 4; 4; 4; 0]]
  | _ => False end.
Proof. vm_compute. repeat split. Qed.
(** and what it is called on is what [refine_arguments] says: core 3, item 1, service 7, three octets of payload, the hash *)
Example refine_arguments_met : exists w b code gas o c, nth_error (k_items (ra_pkg args)) (ra_item args) = Some w /\ re_exists (serving exporter) (w_service w) = true /\
  re_lookup (serving exporter) (w_service w) (k_anchor (ra_pkg args)) (w_code w) = Some b /\ split_code b = Ok code /\ (N.of_nat (length code) <=? 4000000) = true /\
  gp_int (ra_core args) [3] /\ gp_int (N.of_nat (ra_item args)) [1] /\ gp_int (w_service w) [7] /\ gp_int (N.of_nat (length (w_payload w))) [3] /\
  invoke_with_args (refine_host (serving exporter) args (w_service w)) 20 Refine code 0 (w_refine_gas w) [3; 1; 7; 3; 1; 2; 3; 4; 4; 4; 4] new_rctx = Some (Ok (gas, o, c)) /\ gas = 13.
Proof.
  destruct (nth_error (k_items (ra_pkg args)) (ra_item args)) as [w|] eqn:Ew; [|discriminate Ew].
  assert (E : exists gas o c, invoke_with_args (refine_host (serving exporter) args 7) 20 Refine exporter 0 (w_refine_gas w) [3; 1; 7; 3; 1; 2; 3; 4; 4; 4; 4] new_rctx = Some (Ok (gas, o, c)) /\ gas = 13).
  { cbn in Ew. injection Ew as <-. do 3 eexists. split; vm_compute; reflexivity. }
  destruct E as (gas & o & c & E & G). exists w, (0 :: exporter), exporter, gas, o, c.
  cbn in Ew. injection Ew as <-.
  do 5 (split; [reflexivity|]).
  split; [exact (integer_encode_spec 3 eq_refl)|]. split; [exact (integer_encode_spec 1 eq_refl)|].
  split; [exact (integer_encode_spec 7 eq_refl)|]. split; [exact (integer_encode_spec 3 eq_refl)|]. split; [exact E|exact G].
Qed.
(** without the gas for it *)
Example refine_starved : refine 20 (serving exporter) (fun b => b) (mk_rargs 3 0 (mk_pkg [mk_witem 7 (repeat 1 32) 9 1000 1 [1; 2; 3] [] []] 7 (repeat 2 32) [9] [8; 8] 12 [4; 4; 4; 4] [5; 5]) [7] [[]] 4 (fun x => None)) =
  Some (Ok (9, WError WOutOfGas, [])).
Proof. vm_compute. reflexivity. Qed.
Example refine_bad : refine 20 (mk_renv (fun s => s =? 7) (fun s t h => None) [6; 6] (repeat 7 32)) (fun b => b) args = Some (Ok (0, WError WBad, [])).
Proof. vm_compute. reflexivity. Qed.
Example refine_big : refine 20 (serving (repeat 0 (N.to_nat 4000001))) (fun b => b) args = Some (Ok (0, WError WBig, [])).
Proof. vm_compute. reflexivity. Qed.
Example auth_runs : is_authorized 20 (serving exporter) pack 3 = Some (Ok (13, WOutput ([1; 2]))).
Proof. vm_compute. reflexivity. Qed.
Example auth_bad : is_authorized 20 (mk_renv (fun s => s =? 7) (fun s t h => None) [6; 6] (repeat 7 32)) pack 3 = Some (Ok (0, WError WBad)) /\ 
  is_authorized 20 (serving (repeat 0 (N.to_nat 64001))) pack 3 = Some (Ok (0, WError WBig)).
Proof. vm_compute. split; reflexivity. Qed.

(** C85: items with outputs of [sizes] octets, one segment each *)
Definition sized (z : N) : wresult := WOutput (repeat 1 (N.to_nat z)).
Definition run (results : list (wresult * list bytes)) (i : nat) (offset : N) : result verr (N * wresult * list bytes) :=
  match nth_error results i with Some (r, segs) => Ok (10 + offset, r, segs) | None => Err EHost end.
Definition seg (b : N) : bytes := repeat b (N.to_nat 4104).
Definition three : list witem := [item; item; item].
Example report_met : match report_items (run [(sized 20000, [seg 1]); (sized 29000, [seg 2]); (sized 100, [])]) (fun b => b) three 0 0 52 with
  | Ok (ds, xs) => map (fun d => size_of (d_result d)) ds = [20000; 29000; 0] /\ map d_used ds = [10; 11; 12] /\ nth_error (map d_result ds) 2 = Some (WError WBadExports) /\
      map (fun b => nth 0 b 0) xs = [1; 2] /\ map d_octets ds = [5; 5; 5]
  | _ => False end.
Proof. vm_compute. repeat split. Qed.
(** After an output that is too big, every other is called too big. *)
Theorem oversize_refuted : exists ds xs raw, report_items (run [(sized 50000, [seg 1]); (sized 1, [seg 2])]) (fun b => b) [item; item] 0 0 0 = Ok (ds, xs) /\
  ran (run [(sized 50000, [seg 1]); (sized 1, [seg 2])]) [item; item] 0 0 raw /\ ~ gp_results 0 [item; item] raw (map d_result ds).
Proof.
  set (res := [(sized 50000, [seg 1]); (sized 1, [seg 2])]). set (its := [item; item]).
  assert (B : match report_items (run res) (fun b => b) its 0 0 0 with Ok (ds, xs) => match map d_result ds with [WError WOversize; WError WOversize] => true | _ => false end | _ => false end = true) by (vm_compute; reflexivity).
  destruct (report_items (run res) (fun b => b) its 0 0 0) as [[ds xs]| |] eqn:E; [|discriminate B|discriminate B]. clear E.
  exists ds, xs, [(10, sized 50000, [seg 1]); (11, sized 1, [seg 2])]. split; [reflexivity|]. split.
  - split; [reflexivity|]. intros [|[|[|j]]] x X; [| | |discriminate X]; cbn [nth_error] in X; [injection X as <-; reflexivity|injection X as <-; reflexivity|discriminate X].
  - intros [_ G]. specialize (G 1%nat item 11 (sized 1) [seg 2] eq_refl eq_refl). destruct (map d_result ds) as [|[|[]] [|[|[]] [|]]]; try discriminate B.
    cbn [nth_error] in G. vm_compute in G. discriminate G.
Qed.
(** An item that fails leaves no segments in place of those it declared, so those behind it are not where they were said to be. *)
Theorem segments_refuted : exists ds xs raw, report_items (run [(WError WPanic, []); (sized 1, [seg 2])]) (fun b => b) [item; item] 0 0 0 = Ok (ds, xs) /\
  ran (run [(WError WPanic, []); (sized 1, [seg 2])]) [item; item] 0 0 raw /\ xs <> gp_segments [item; item] raw (map d_result ds) /\
  nth_error (map d_result ds) 1 = Some (sized 1) /\ offset_of [item; item] 1 = 1 /\ nth_error xs 1 = None.
Proof.
  do 2 eexists. exists [(10, WError WPanic, []); (11, sized 1, [seg 2])]. split; [reflexivity|]. split.
  - split; [reflexivity|]. intros [|[|[|j]]] x X; cbn [nth_error] in X; try discriminate; injection X as <-; reflexivity.
  - split; [|split; [reflexivity|split; reflexivity]]. intros X. apply (f_equal (@length bytes)) in X. vm_compute in X. discriminate.
Qed.

Print Assumptions refine_calls_exact_partial.
Print Assumptions refine_answer_unique.
Print Assumptions refine_calls_total_partial.
Print Assumptions refine_call_guest.
Print Assumptions machine_numbers.
Print Assumptions export_numbers.
Print Assumptions exports_kept.
Print Assumptions refine_gives.
Print Assumptions refine_no_code.
Print Assumptions refine_arguments.
Print Assumptions auth_calls_exact_partial.
Print Assumptions auth_calls_total.
Print Assumptions auth_no_code.
Print Assumptions auth_arguments.
Print Assumptions report_digests.
Print Assumptions report_fits.
Print Assumptions report_results_partial.
Print Assumptions report_segments_partial.
Print Assumptions pages_refuted.
Print Assumptions inner_memory_refuted.
Print Assumptions pages_crash_refuted.
Print Assumptions machine_crash_refuted.
Print Assumptions machine_number_refuted.
Print Assumptions summaries_refuted.
Print Assumptions inner_read_refuted.
Print Assumptions invoke_gas_refuted.
Print Assumptions auth_summaries_refuted.
Print Assumptions oversize_refuted.
Print Assumptions segments_refuted.
