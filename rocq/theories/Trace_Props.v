(** Properties of the driver that replays test cases against a fuzz target (C114). *)
From Verif Require Import Base Trace_Model Trace_Spec Trace_Proofs.
Require Import Permutation Sorted.

(** * C114: a replay succeeds exactly when the target agrees with every test case of the directory *)
(** Success: the target was greeted, started from the state the suite names with the root it names, then given all cases in the order of their names, and answered each of them in
    agreement; the log names them all. *)
Theorem replay_succeeds_iff : forall (Hdr Blk St Root T : Type) (root_eqb : Root -> Root -> bool) (hdr : Blk -> Hdr) dg dc (tgt : T -> @tmsg Hdr Blk St -> T * @trep Root) dir t t' log,
  (forall a b, root_eqb a b = true <-> a = b) -> NoDup (map fst dir) ->
  run_trace root_eqb hdr dg dc tgt dir t = (t', Ok log) <->
  exists h s r cs t1 t2 al, suite hdr dg dc dir h s r cs /\ tgt t SendPeerInfo = (t1, GotPeerInfo) /\ tgt t1 (SendInit h s) = (t2, GotRoot r) /\
    replies tgt t2 cs al t' /\ Forall2 agrees (map snd cs) al /\ log = map fst cs.
Proof.
  intros Hdr Blk St Root T root_eqb hdr dg dc tgt dir t t' log Q D. split.
  - intros E. destruct (run_session root_eqb hdr dg dc tgt dir t D) as [(h & s & r & cs & S & R)|[_ [e [R _]]]]; [|congruence]. rewrite R in E. unfold session in E.
    destruct (tgt t SendPeerInfo) as [t1 [| | | |]] eqn:E1; try discriminate. destruct (tgt t1 (SendInit h s)) as [t2 [|x| | |]] eqn:E2; try discriminate.
    destruct (root_eqb x r) eqn:E3; [|discriminate]. apply Q in E3. subst x. apply (import_ok root_eqb Q) in E. destruct E as [al [A [B C]]].
    exists h, s, r, cs, t1, t2, al. split; [exact S|]. split; [reflexivity|]. split; [exact E2|]. split; [exact A|]. split; [exact B|exact C].
  - intros (h & s & r & cs & t1 & t2 & al & S & E1 & E2 & A & B & C). destruct (run_session root_eqb hdr dg dc tgt dir t D) as [(h' & s' & r' & cs' & S' & R)|[N _]]; [|destruct (N _ _ _ _ S)].
    destruct (suite_unique hdr dg dc dir _ _ _ _ _ _ _ _ D S' S) as (-> & -> & -> & ->). rewrite R. unfold session. rewrite E1, E2, (proj2 (Q r r) eq_refl).
    apply (import_ok root_eqb Q). exists al. split; [exact A|]. split; [exact B|exact C].
Qed.
(** Failure: the directory is no suite and the target was never spoken to; or the greeting or the start failed; or the error names the first case the target disagrees with, all before it agreed
    and no block after it was sent. The driver never crashes. *)
Theorem replay_fails_at_first : forall (Hdr Blk St Root T : Type) (root_eqb : Root -> Root -> bool) (hdr : Blk -> Hdr) dg dc (tgt : T -> @tmsg Hdr Blk St -> T * @trep Root) dir t,
  (forall a b, root_eqb a b = true <-> a = b) -> NoDup (map fst dir) ->
  (exists t' log, run_trace root_eqb hdr dg dc tgt dir t = (t', Ok log)) \/
  (exists e, run_trace root_eqb hdr dg dc tgt dir t = (t, Err e) /\ forall h s r cs, ~ suite hdr dg dc dir h s r cs) \/
  exists h s r cs t' e, suite hdr dg dc dir h s r cs /\ run_trace root_eqb hdr dg dc tgt dir t = (t', Err e) /\
    ((e = BadHandshake /\ snd (tgt t SendPeerInfo) <> GotPeerInfo) \/
     ((e = BadInit \/ e = InitRootDiffers) /\ snd (tgt (fst (tgt t SendPeerInfo)) (SendInit h s)) <> GotRoot r) \/
     exists before n c after al t1 t2 a, cs = before ++ (n, c) :: after /\ (e = RootDiffers n \/ e = Rejected n \/ e = BadReply n) /\
       replies tgt (fst (tgt (fst (tgt t SendPeerInfo)) (SendInit h s))) before al t1 /\ Forall2 agrees (map snd before) al /\
       tgt t1 (SendBlock (tc_block c)) = (t2, a) /\ ~ agrees c a /\ (t' = t2 \/ t' = fst (tgt t2 (SendGetState (tc_block c))))).
Proof.
  intros Hdr Blk St Root T root_eqb hdr dg dc tgt dir t Q D. destruct (run_session root_eqb hdr dg dc tgt dir t D) as [(h & s & r & cs & S & R)|[N [e [R _]]]]; [|right; left; exists e; split; assumption].
  destruct (tgt t SendPeerInfo) as [t1 a1] eqn:E1. cbn [fst snd].
  destruct (run_trace root_eqb hdr dg dc tgt dir t) as [t' [log|e|]] eqn:E; [left; exists t', log; reflexivity| |].
  - right. right. exists h, s, r, cs, t', e. split; [exact S|]. split; [reflexivity|]. unfold session in R. rewrite E1 in R.
    destruct a1; try (left; injection R as <- <-; split; [reflexivity|discriminate]). right.
    destruct (tgt t1 (SendInit h s)) as [t2 a2] eqn:E2. cbn [fst snd].
    destruct a2 as [|x| | |]; try (left; injection R as <- <-; split; [left; reflexivity|discriminate]).
    destruct (root_eqb x r) eqn:E3; [|left; injection R as <- <-; split; [right; reflexivity|]; intros X; injection X as <-; assert (root_eqb x x = true) by (apply Q; reflexivity); congruence].
    right. symmetry in R. destruct (import_err root_eqb Q tgt cs t2 [] t' e R) as (before & n & c & after & al & t3 & t4 & a & A1 & A2 & A3 & A4 & A5 & A6 & A7).
    exists before, n, c, after, al, t3, t4, a. repeat (split; [assumption|]). exact A7.
  - exfalso. unfold session in R. rewrite E1 in R. destruct a1; try discriminate. destruct (tgt t1 (SendInit h s)) as [t2 [|x| | |]]; try discriminate. destruct (root_eqb x r); [|discriminate].
    apply (import_no_panic root_eqb tgt cs t2 []). rewrite <- R. reflexivity.
Qed.
(** The order in which the file system lists the directory does not matter. *)
Theorem replay_order_free : forall (Hdr Blk St Root T : Type) (root_eqb : Root -> Root -> bool) (hdr : Blk -> Hdr) dg dc (tgt : T -> @tmsg Hdr Blk St -> T * @trep Root) dir dir' t,
  NoDup (map fst dir) -> Permutation dir dir' -> run_trace root_eqb hdr dg dc tgt dir t = run_trace root_eqb hdr dg dc tgt dir' t.
Proof. intros Hdr Blk St Root T root_eqb hdr dg dc tgt dir dir' t. apply run_same. Qed.

(** A target that counts: a block is a number to add, an odd one is refused. *)
Definition counting (t : N) (m : @tmsg N N N) : N * @trep N :=
  match m with SendPeerInfo => (t, GotPeerInfo) | SendInit _ s => (s, GotRoot s) | SendBlock b => if N.odd b then (t, GotError []) else ((t + b)%N, GotRoot (t + b)%N) | SendGetState _ => (t, GotState) end.
Definition toy_genesis (b : bytes) : option (@gcase N N N) := match b with [h; s; r] => Some (mk_gcase h s r) | _ => None end.
Definition toy_case (b : bytes) : option (@tcase N N N) := match b with [p; k; s; r] => Some (mk_tcase p k s r) | _ => None end.
Definition nm (c : N) : bytes := [c; 46; 98; 105; 110]%N.
Definition toy_dir (last : N) : list file := [(nm 50, Some [7; 1; 7; 7]%N); ([97; 46; 116; 120; 116]%N, None); (nm 51, Some [7; 4; 11; last]%N); (genesis_name, Some [0; 5; 5]%N); (nm 49, Some [5; 2; 7; 7]%N)].
Example replay_case : run_trace N.eqb (fun b => b) toy_genesis toy_case counting (toy_dir 11) 0%N = (11%N, Ok [nm 49; nm 50; nm 51]) /\
  run_trace N.eqb (fun b => b) toy_genesis toy_case counting (toy_dir 12) 0%N = (11%N, Err (RootDiffers (nm 51))) /\
  run_trace N.eqb (fun b => b) toy_genesis toy_case counting [(nm 49, Some [5; 2; 7; 7]%N); (nm 50, Some [7; 3; 7; 9]%N)] 0%N = (7%N, Err (Rejected (nm 50))) /\
  NoDup (map fst (toy_dir 11)).
Proof.
  split; [vm_compute; reflexivity|]. split; [vm_compute; reflexivity|]. split; [vm_compute; reflexivity|].
  cbn. repeat constructor; cbn; intuition discriminate.
Qed.
(** Without a genesis case the first case's block is never run: a wrong one goes unnoticed. *)
Example first_case_unchecked : exists dir t' log, run_trace N.eqb (fun b => b) toy_genesis toy_case counting dir 0%N = (t', Ok log) /\
  exists n b c, In (n, Some b) dir /\ bin_name n /\ toy_case b = Some c /\ forall t, ~ agrees c (snd (counting t (SendBlock (tc_block c)))).
Proof.
  exists [(nm 49, Some [5; 3; 7; 7]%N); (nm 50, Some [7; 2; 9; 9]%N)], 9%N, [nm 50]. split; [vm_compute; reflexivity|].
  exists (nm 49), [5; 3; 7; 7]%N, (mk_tcase 5 3 7 7)%N. split; [left; reflexivity|]. split; [exists [49%N]; split; [discriminate|reflexivity]|]. split; [reflexivity|]. intros t. cbn. discriminate.
Qed.
Print Assumptions replay_succeeds_iff.
Print Assumptions replay_fails_at_first.
Print Assumptions replay_order_free.
