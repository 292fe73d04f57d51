(** C123: announcing a block to the connected peers. *)
From Verif Require Import Base Announce_Model Announce_Spec Announce_Proofs.
From Coq Require Import Lia.

(** A stream carries what was given to it, in that order and each once; while it runs, what is missing is what its task still has. *)
Theorem stream_in_order : forall l es c s o, run (loaded l) es = (s, o) ->
  exists tail, given_to c o = on_wire c o ++ tail /\ (forall ch, nth_error (chans s) c = Some ch -> c_open ch = true -> tail = pending ch).
Proof.
  intros l es c s o R. destruct (in_order l es c) as (t & T1 & T2 & _). rewrite R in *. exists t. auto.
Qed.
Print Assumptions stream_in_order.

(** An announcement gives its own message, to each peer at most once, whatever else happens; and when it comes to its end it has given it to every peer of the map whose
    stream was there from its beginning. *)
Theorem announcement_told : forall l es1 es2 b order s o, let s1 := fst (run (loaded l) es1) in let i := length (calls s1) in
  run s1 (Announced b order :: es2) = (s, o) ->
  within (map fst (told_by i o)) order /\
  (forall a c b', In (Given i a c b') o -> b' = b) /\
  (forall a c, peers s1 a = Some (Joined (Some c)) -> In a order -> Forall (leaves a) es2 -> nth_error (calls s) i = Some (b, Finished) -> In (a, c) (told_by i o)).
Proof.
  intros l es1 es2 b order s o s1 i R. cbn [run happens] in R.
  set (s2 := {| peers := peers s1; chans := chans s1; calls := calls s1 ++ [(b, Going order)] |}) in R.
  assert (C : nth_error (calls s2) i = Some (b, Going order)) by (cbn; unfold i; rewrite nth_error_app2, Nat.sub_diag by lia; reflexivity).
  destruct (run s2 es2) as [s' o'] eqn:R2. cbn [app] in R. injection R as <- <-.
  split; [|split].
  - pose proof (told_within es2 s2 i b order C) as X. rewrite R2 in X. exact X.
  - intros a c b' H. apply (given_blob es2 s2 i a c b b' (Going order)); [rewrite R2; exact H|exact C].
  - intros a c Pa Ia F Fi. pose proof (visited es2 s2 a c i b order F Pa Ia C) as X. rewrite R2 in X. apply X. exact Fi.
Qed.
Print Assumptions announcement_told.

(** As long as every connected peer's stream runs and has room, an announcement left to itself ends well, having given its message to each of them and to nobody else. *)
Theorem announced_to_all_partial : forall l s b order, reached l s -> NoDup order -> roomy s order -> let i := length (calls s) in
  exists s', run s (Announced b order :: repeat (Goes_on i) (S (length order))) = (s', map (fun x => Given i (fst x) (snd x) b) (connected s order)) /\
    nth_error (calls s') i = Some (b, Finished).
Proof.
  intros l s b order Re Nd Ro i. cbn [run happens].
  set (s2 := {| peers := peers s; chans := chans s; calls := calls s ++ [(b, Going order)] |}).
  destruct (at_once order s2 i b Nd) as (s' & R & F).
  - apply (own_same s); [reflexivity|reflexivity|]. exact (own_reached l s Re).
  - intros a c H. rewrite (conn_same s) in H by reflexivity. exact (Ro a c H).
  - cbn. unfold i. rewrite nth_error_app2, Nat.sub_diag by lia. reflexivity.
  - rewrite R. exists s'. split; [|exact F]. rewrite (conn_same s s2) by reflexivity. reflexivity.
Qed.
Print Assumptions announced_to_all_partial.

(** Once a peer's stream has broken, no announcement comes to a good end, and none reaches the peers behind this one, until the peer connects anew. *)
Theorem broken_peer_silences : forall l s a b pre post es s' o, reached l s -> broken s a -> ~ In a pre -> let i := length (calls s) in
  Forall (leaves a) es -> run s (Announced b (pre ++ a :: post) :: es) = (s', o) ->
  (exists p, nth_error (calls s') i = Some (b, p) /\ p <> Finished) /\ (forall x, In x (told_by i o) -> In (fst x) pre).
Proof.
  intros l s a b pre post es s' o _ (c & ch & Pa & C1 & C2) Na i F R. cbn [run happens] in R.
  set (s2 := {| peers := peers s; chans := chans s; calls := calls s ++ [(b, Going (pre ++ a :: post))] |}) in R.
  pose proof (stuck (fun s => shut s c) (leaves a) a c) as X.
  assert (X1 : forall s e, leaves a e -> shut s c -> shut (fst (happens s e)) c) by (intros; apply shut_step; assumption).
  assert (X2 : forall s, shut s c -> jammed s c) by (intros s0 (x & Y1 & Y2); exists x; auto).
  specialize (X X1 (fun e H => H) X2 pre post b i es s2 F).
  assert (K : shut s2 c) by (exists ch; auto). specialize (X K Pa Na pre (incl_refl _)).
  assert (St : nth_error (calls s2) i = Some (b, Going (pre ++ a :: post))) by (cbn; unfold i; rewrite nth_error_app2, Nat.sub_diag by lia; reflexivity).
  specialize (X (or_introl St)). destruct (run s2 es) as [s3 o3]. cbn [app] in R. injection R as <- <-. exact X.
Qed.
Print Assumptions broken_peer_silences.

(** While a peer's channel is full and nothing is taken from it, the same: the announcement waits, and the peers behind wait with it. *)
Theorem full_peer_stalls : forall l s a c b pre post es s' o, reached l s -> full s a c -> ~ In a pre -> let i := length (calls s) in
  Forall (fun e => leaves a e /\ e <> Taken c) es -> run s (Announced b (pre ++ a :: post) :: es) = (s', o) ->
  (exists p, nth_error (calls s') i = Some (b, p) /\ p <> Finished) /\ (forall x, In x (told_by i o) -> In (fst x) pre).
Proof.
  intros l s a c b pre post es s' o _ (Pa & ch & C1 & C2 & C3) Na i F R. cbn [run happens] in R.
  set (s2 := {| peers := peers s; chans := chans s; calls := calls s ++ [(b, Going (pre ++ a :: post))] |}) in R.
  pose proof (stuck (fun s => jammed s c) (fun e => leaves a e /\ e <> Taken c) a c) as X.
  assert (X1 : forall s e, leaves a e /\ e <> Taken c -> jammed s c -> jammed (fst (happens s e)) c) by (intros s0 e (_ & Y) Z; apply jam_step; assumption).
  specialize (X X1 (fun e H => proj1 H) (fun s H => H) pre post b i es s2 F).
  assert (K : jammed s2 c) by (exists ch; auto). specialize (X K Pa Na pre (incl_refl _)).
  assert (St : nth_error (calls s2) i = Some (b, Going (pre ++ a :: post))) by (cbn; unfold i; rewrite nth_error_app2, Nat.sub_diag by lia; reflexivity).
  specialize (X (or_introl St)). destruct (run s2 es) as [s3 o3]. cbn [app] in R. injection R as <- <-. exact X.
Qed.
Print Assumptions full_peer_stalls.

Local Open Scope N_scope.
(** The history of the examples: two peers connect and open streams; a header is announced to both; the first peer goes away, which its task finds out in writing. *)
Definition both : list event := [Stored 1; Opened 1; Stored 2; Opened 2].
Definition first_goes : list event := both ++ [Announced [7] [1; 2]; Goes_on 0; Goes_on 0; Goes_on 0; Taken 0; Written 0 false; Taken 1; Written 1 true].

(** A connected peer with a running stream that is not told of a block, because of another peer; and is told again when that one has come back. *)
Theorem announced_to_all_refuted : exists l es a b order, let s := fst (run (loaded l) es) in let i := length (calls s) in
  connected s [a] <> [] /\ roomy s [a] /\ In a order /\ NoDup order /\
  (forall es', Forall (leaves 1) es' -> ~ In a (map fst (told_by i (snd (run s (Announced b order :: es')))))) /\
  let t := fst (run s [Stored 1; Opened 1]) in In a (map fst (told_by i (snd (run t (Announced b order :: repeat (Goes_on i) 3))))).
Proof.
  exists [1; 2], first_goes, 2, [8], [1; 2]. intros s i. split; [vm_compute; discriminate|]. split.
  { intros a c H. assert (E : connected s [2] = [(2, 1%nat)]) by (vm_compute; reflexivity). rewrite E in H. destruct H as [H|[]]. injection H as <- <-.
    exists {| c_open := true; c_queue := []; c_writing := None |}. split; [vm_compute; reflexivity|]. split; [reflexivity|]. cbn. unfold buffer. lia. }
  split; [right; left; reflexivity|]. split; [repeat constructor; cbn; intuition congruence|]. split.
  - intros es' F H. destruct (run s (Announced [8] [1; 2] :: es')) as [s' o] eqn:R.
    assert (Re : reached [1; 2] s) by (exists first_goes; reflexivity).
    assert (Br : broken s 1) by (exists 0%nat, {| c_open := false; c_queue := []; c_writing := None |}; split; [vm_compute; reflexivity|split; [vm_compute; reflexivity|reflexivity]]).
    destruct (broken_peer_silences [1; 2] s 1 [8] [] [2] es' s' o Re Br (fun x => x) F R) as (_ & X).
    apply in_map_iff in H. destruct H as (x & _ & H). destruct (X x H).
  - vm_compute. auto.
Qed.
Print Assumptions announced_to_all_refuted.

(** ** Cases *)
Example in_order_case : let r := run (loaded [1; 2]) first_goes in
  given_to 1 (snd r) = [[7]] /\ on_wire 1 (snd r) = [[7]] /\ given_to 0 (snd r) = [[7]] /\ on_wire 0 (snd r) = [].
Proof. vm_compute. auto. Qed.
Example told_case : let s := fst (run (loaded [1; 2; 3]) both) in
  let r := run s (Announced [7] [2; 3; 1] :: [Goes_on 0; Taken 1; Stored 3; Goes_on 0; Announced [8] [1]; Goes_on 1; Goes_on 0; Goes_on 0]) in
  told_by 0 (snd r) = [(2, 1%nat); (1, 0%nat)] /\ nth_error (calls (fst r)) 0 = Some ([7], Finished) /\ given_to 0 (snd r) = [[8]; [7]].
Proof. vm_compute. auto. Qed.
Example all_case : let s := fst (run (loaded [1; 2; 3]) both) in reached [1; 2; 3] s /\ NoDup [3; 2; 1] /\ roomy s [3; 2; 1] /\ connected s [3; 2; 1] = [(2, 1%nat); (1, 0%nat)].
Proof.
  cbv zeta. split; [exists both; reflexivity|]. split; [repeat constructor; cbn; intuition congruence|]. split; [|vm_compute; reflexivity].
  intros a c H. assert (E : connected (fst (run (loaded [1; 2; 3]) both)) [3; 2; 1] = [(2, 1%nat); (1, 0%nat)]) by (vm_compute; reflexivity). rewrite E in H.
  exists {| c_open := true; c_queue := []; c_writing := None |}. destruct H as [H|[H|[]]]; injection H as <- <-; (split; [vm_compute; reflexivity|]); (split; [reflexivity|cbn; unfold buffer; lia]).
Qed.
(** A peer that stops reading: its task hangs in writing, and the 1025th announcement after that finds the channel full. *)
Definition stalls : list event :=
  both ++ [Announced [0] [1]; Goes_on 0; Taken 0] ++ flat_map (fun i => [Announced [1] [1]; Goes_on i]) (seq 1 buffer).
Example full_case : full (fst (run (loaded [1; 2]) stalls)) 1 0.
Proof.
  split; [vm_compute; reflexivity|]. exists {| c_open := true; c_queue := repeat [1] buffer; c_writing := Some [0] |}. split; [vm_compute; reflexivity|]. split; [reflexivity|].
  cbn [c_queue]. rewrite repeat_length. apply le_n.
Qed.
