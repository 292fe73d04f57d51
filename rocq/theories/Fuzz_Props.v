(** Properties of the fuzz target's sessions (C88 - C91). *)
From Coq Require Import Sorted.
From Verif Require Import Base Base_Proofs Import_Model Fuzz_Model Fuzz_Spec Fuzz_Proofs Fuzz2_Proofs Fuzz3_Proofs Fuzz4_Proofs.
Open Scope N_scope.

(** A session that introduces itself, plants a state and then imports blocks and asks for states. *)
Notation opening a f h sl kvs anc l := (PeerInfo a f :: Initialize h sl kvs anc :: map message_of l).
Notation first_root root kvs := (root (fold_left (fun (s : state) (e : N * bytes) => put s (fst e) (snd e)) kvs [])).

(** C88. Each block is answered with the root of the state it leads to from its own parent's state, ring cache and ancestors,
    or refused, whatever rivals were imported before it. *)
Theorem import_replies : forall R B cap root exec gen d0 (ring0 : R) an fk h sl kvs anc (l : list (@request B)), Forall proper l ->
  exists rs, sessions cap root exec gen d0 ring0 [opening an fk h sl kvs anc l] = [Peer :: Root (first_root root kvs) :: rs] /\
    imports_right cap root exec fk an (planted cap ring0 an h sl kvs anc) l rs.
Proof.
  intros. destruct (session_ok cap root exec gen d0 ring0 False an fk h sl kvs anc l) as (rs & E & I & _); [|eauto].
  eapply Forall_impl; [|eassumption]. intros [b|g]; cbn; [|auto]. intros [P1 P2]. split; auto. split; auto. intros [].
Qed.
(** In particular the answer to a block is the same with and without a rival over the same parent just before it. *)
Theorem rivals_do_not_matter : forall R B cap root exec gen d0 (ring0 : R) an h sl kvs anc (l : list (@request B)) b c,
  Forall proper (l ++ [Import c; Import b]) -> fb_parent c = fb_parent b ->
  exists rs x r, sessions cap root exec gen d0 ring0 [opening an true h sl kvs anc (l ++ [Import b])] = [rs ++ [r]] /\
    sessions cap root exec gen d0 ring0 [opening an true h sl kvs anc (l ++ [Import c; Import b])] = [rs ++ [x; r]].
Proof. exact @rivals_ok. Qed.
(** Not so for blocks without a parent: they change the state but not the best block, so that the next block is executed over another state than its parent's. *)
Section Examples.
  Definition xroot (s : state) : N := fold_left (fun a e => a * 31 + fst e + fold_left N.add (snd e) 1) s 7.
  (** A block adds or overwrites the entry its body names and moves entry 1 to its slot; if [pre], it also integrates a preimage. *)
  Definition xexec (pre : bool) (r : N) (a : option aset) (s : state) (b : @fblock N) : N * option outcome :=
    (r + fb_body b,
     match get s 1 with
     | None => None
     | Some _ => Some (mk_outcome [[(100 + fb_body b, match get s (100 + fb_body b) with None => Added [r] | Some _ => Updated [r] end)]] [(1, [fb_slot b])]
                   (if pre then match get s (500 + fb_body b) with None => [(500 + fb_body b, Added [fb_body b])] | Some _ => [] end else []))
     end).
  Definition xgen (r : N) (s : state) (b : @fblock N) : N * option (list (N * option bytes)) := (r, Some [(8, Some [fb_slot b])]).
  Definition xs (pre : bool) := @sessions N N 24 xroot (xexec pre) xgen 99 0.
  Definition x0 : list (N * bytes) := [(7, [1; 2]); (1, [4])].
  Definition xb (h p sl r body : N) : @fblock N := mk_fblock h p sl r true body.
  Definition root0 : N := xroot [(1, [4]); (7, [1; 2])].
  Definition root_a : N := xroot [(1, [5]); (7, [1; 2]); (103, [0])].
  (** Two rivals over block 10, a child of the first, and states on the way. *)
  Definition fork : list (@request N) :=
    [Import (xb 11 10 5 root0 3); Import (xb 12 10 6 root0 4); Get 10; Get 11; Get 12; Import (xb 13 11 6 root_a 2); Get 11; Get 13; Import (xb 14 12 9 root_a 2)].
  Example import_replies_met : Forall proper fork /\ exists a b c,
    xs false [opening false true 10 4 x0 [] fork] =
      [[Peer; Root root0; Root root_a; Root a; State [(1, [4]); (7, [1; 2])]; State [(1, [5]); (7, [1; 2]); (103, [0])];
        State [(1, [6]); (7, [1; 2]); (104, [0])]; Root b; State [(1, [5]); (7, [1; 2]); (103, [0])]; State c; Failed]] /\
    a <> root_a /\ c = [(1, [6]); (7, [1; 2]); (102, [3]); (103, [0])] /\ b = xroot c.
  Proof.
    split; [repeat constructor; cbn; discriminate|]. do 3 eexists. split; [vm_compute; reflexivity|]. split; [vm_compute; discriminate|]. split; reflexivity.
  Qed.
  Definition orphan : list (@request N) := [Import (xb 11 0 9 0 0); Import (xb 12 10 6 root0 4)].
  Theorem orphan_block_refuted :
    xs false [opening false true 10 4 x0 [] orphan] = [[Peer; Root root0; Root (xroot [(1, [4]); (7, [1; 2]); (8, [9])]); Root (xroot [(1, [6]); (7, [1; 2]); (8, [9]); (104, [0])])]] /\
    xs false [opening false true 10 4 x0 [] (skipn 1 orphan)] = [[Peer; Root root0; Root (xroot [(1, [6]); (7, [1; 2]); (104, [0])])]] /\
    snd (grow 24 xroot (xexec false) true false (planted 24 0 false 10 4 x0 []) (xb 12 10 6 root0 4)) = Root (xroot [(1, [6]); (7, [1; 2]); (104, [0])]).
  Proof. split; [vm_compute; reflexivity|]. split; vm_compute; reflexivity. Qed.
End Examples.

(** C89. What is told of the state after the latest block, or after a block over it, are entries of that state with their values, in order. *)
Theorem told_entries : forall R B cap root exec gen d0 (ring0 : R) an fk h sl kvs anc (l : list (@request B)), Forall proper l ->
  exists rs, sessions cap root exec gen d0 ring0 [opening an fk h sl kvs anc l] = [Peer :: Root (first_root root kvs) :: rs] /\
    states_are cap root exec part_of fk an (planted cap ring0 an h sl kvs anc) l rs.
Proof.
  intros. destruct (session_ok cap root exec gen d0 ring0 False an fk h sl kvs anc l) as (rs & E & _ & I & _); [|eauto].
  eapply Forall_impl; [|eassumption]. intros [b|g]; cbn; [|auto]. intros [P1 P2]. split; auto. split; auto. intros [].
Qed.
(** All of them, as long as no block integrates a preimage from its extrinsic. *)
Theorem told_states_partial : forall R B cap root exec gen d0 (ring0 : R) an fk h sl kvs anc (l : list (@request B)), Forall proper l -> lawful exec -> adds_no_preimage exec l ->
  exists rs, sessions cap root exec gen d0 ring0 [opening an fk h sl kvs anc l] = [Peer :: Root (first_root root kvs) :: rs] /\
    states_are cap root exec exactly fk an (planted cap ring0 an h sl kvs anc) l rs.
Proof.
  intros R B cap root exec gen d0 ring0 an fk h sl kvs anc l P L N. destruct (session_ok cap root exec gen d0 ring0 True an fk h sl kvs anc l) as (rs & E & _ & _ & I); [|eauto].
  apply Forall_forall. intros q Hq. rewrite Forall_forall in P. specialize (P q Hq). destruct q as [b|g]; cbn in *; [|auto]. destruct P as [P1 P2]. split; auto. split; auto.
  intros _ r a s r' o A X. split; [exact (L r a s b r' o A X)|exact (N b Hq r a s r' o X)].
Qed.
Lemma xexec_lawful pre : lawful (xexec pre).
Proof.
  intros r a s b r' o A E. unfold xexec in E.
  assert (K1 : 100 + fb_body b <> 1) by lia. assert (K2 : 500 + fb_body b <> 1) by lia. assert (K3 : 500 + fb_body b <> 100 + fb_body b) by lia.
  set (k1 := 100 + fb_body b) in *. set (k5 := 500 + fb_body b) in *. clearbody k1 k5.
  destruct (get s 1) as [v1|] eqn:G1; [|discriminate]. injection E as <- <-.
  set (c := match get s k1 with None => Added [r] | Some _ => Updated [r] end).
  assert (C : change_fits s (k1, c)) by (unfold change_fits, c; cbn [snd fst]; destruct (get s k1); congruence).
  assert (NR : c <> Removed) by (unfold c; destruct (get s k1); discriminate). clearbody c.
  unfold outcome_fits, after_rest, after_accounts, after_changes. cbn [o_accounts o_rest o_preimages concat app map fst snd fold_left].
  split; [repeat constructor; intros []|]. split; [cbn [changes_fit]; auto|]. split.
  - intros e [<-|[]]. cbn [fst]. rewrite write_get. cbn [fst snd]. rewrite (proj2 (N.eqb_neq 1 k1)) by congruence. congruence.
  - destruct pre; [|exact I]. destruct (get s k5) eqn:G; [exact I|]. cbn [changes_fit]. split; [|exact I].
    unfold change_fits. cbn [snd fst]. rewrite get_put, write_get. cbn [fst snd].
    rewrite (proj2 (N.eqb_neq k5 1)), (proj2 (N.eqb_neq k5 k1)) by congruence. exact G.
Qed.
Example told_states_met : lawful (xexec false) /\ adds_no_preimage (xexec false) fork.
Proof.
  split; [apply xexec_lawful|]. intros b _ r a s r' o E. unfold xexec in E. destruct (get s 1); [|discriminate]. injection E as <- <-. intros c [].
Qed.
(** An entry added by the preimages extrinsic is told while its block is over the latest one, and no longer once it is the latest. *)
Definition provided : list (@request N) := [Import (xb 11 10 5 root0 3); Get 11; Import (xb 12 11 6 (xroot [(1, [5]); (7, [1; 2]); (103, [0]); (503, [3])]) 4); Get 11; Get 12].
Theorem told_states_refuted : exists rs x y r s2 s12, xs true [opening false true 10 4 x0 [] provided] = [Peer :: Root root0 :: rs] /\ Forall proper provided /\ lawful (xexec true) /\
  rs = [Root r; State [(1, [5]); (7, [1; 2]); (103, [0]); (503, [3])]; x; State s2; y] /\ s2 = [(1, [5]); (7, [1; 2]); (103, [0])] /\
  y = State s12 /\ get s12 503 = None /\
  ~ states_are 24 xroot (xexec true) exactly true false (planted 24 0 false 10 4 x0 []) provided rs.
Proof.
  do 6 eexists. split; [vm_compute; reflexivity|]. split; [repeat constructor; cbn; discriminate|]. split; [apply xexec_lawful|]. split; [reflexivity|]. split; [reflexivity|].
  split; [reflexivity|]. split; [reflexivity|]. intro H. cbn [states_are provided] in H. destruct H as [_ [H _]].
  specialize (H (mk_post [(1, [5]); (7, [1; 2]); (103, [0]); (503, [3])] 3 (mk_aset [(5, 11)] [(5, 11)]) 5) (or_introl eq_refl) eq_refl). discriminate H.
Qed.
(** Asked for a block that lost to its rival, or was never known, the target tells of the latest. *)
Theorem told_states_unknown_refuted : exists a b c,
  xs false [opening false true 10 4 x0 [] [Import (xb 11 10 5 root0 3); Import (xb 12 10 6 root0 4); Get 12; Import (xb 13 11 6 root_a 2); Get 12; Get 11; Get 77]] =
    [[Peer; Root root0; Root a; Root b; State [(1, [6]); (7, [1; 2]); (104, [0])]; Root c;
      State [(1, [5]); (7, [1; 2]); (103, [0])]; State [(1, [5]); (7, [1; 2]); (103, [0])]; State [(1, [5]); (7, [1; 2]); (103, [0])]]].
Proof. do 3 eexists. vm_compute. reflexivity. Qed.

(** C90. A block that is refused changes nothing, if its parent is not one of the rivals. *)
Theorem refused_block_partial : forall R B cap root exec gen (t : @target R) (b : @fblock B), snd (process_import cap root exec gen t b) = Failed ->
  find_staged (t_staged t) (fb_parent b) = None -> fst (process_import cap root exec gen t b) = t.
Proof. exact @refused_ok. Qed.
Definition settled : list (@request N) := [Import (xb 11 10 5 root0 3); Import (xb 12 10 6 root0 4); Import (mk_fblock 13 11 6 root_a false 2); Import (xb 14 12 7 (xroot [(1, [6]); (7, [1; 2]); (104, [0])]) 2)].
(** A refused child of a rival makes the target forget the other rivals, whose children it then refuses. *)
Theorem refused_block_refuted : exists a b c,
  xs false [opening false true 10 4 x0 [] settled] = [[Peer; Root root0; Root a; Root b; Failed; Failed]] /\
  xs false [opening false true 10 4 x0 [] (firstn 2 settled ++ skipn 3 settled)] = [[Peer; Root root0; Root a; Root b; Root c]].
Proof. do 3 eexists. split; vm_compute; reflexivity. Qed.
Example refused_block_met : let t := fst (session 24 xroot (xexec false) xgen 99 0 (new_target 99 0) (opening false true 10 4 x0 [] (firstn 2 fork))) in
  let b := mk_fblock 13 10 6 root0 false 2 in snd (process_import 24 xroot (xexec false) xgen t b) = Failed /\ find_staged (t_staged t) (fb_parent b) = None /\ t_staged t <> [].
Proof. vm_compute. split; [reflexivity|]. split; [reflexivity|discriminate]. Qed.

(** C91. Every session is answered as if it were the first. *)
Theorem sessions_independent : forall R B cap root exec gen d0 (ring0 : R) (ls : list (list (@message B))),
  sessions cap root exec gen d0 ring0 ls = map (fun l => snd (session cap root exec gen d0 ring0 (new_target d0 ring0) l)) ls.
Proof. exact @sessions_ok. Qed.
Example sessions_independent_met : exists rs, xs true [opening true true 10 4 x0 [] provided; opening false false 10 4 x0 [] fork; map message_of fork; opening true true 10 4 x0 [] provided]
  = rs /\ nth 3 rs [] = nth 0 rs [] /\ nth 2 rs [Peer] = [] /\ nth 1 rs [] <> nth 0 rs [].
Proof. eexists. split; [vm_compute; reflexivity|]. split; [reflexivity|]. split; [reflexivity|]. vm_compute. discriminate. Qed.

(** A session that does not begin with an introduction is not answered; a second introduction, a message only a target sends, and a second planting of a state each end the
    session, and nothing from there on is answered. *)
Theorem session_protocol : forall R B cap root exec gen d0 (ring0 : R) (t : @target R) (a f : bool) (l1 l2 : list (@message B)),
  let answers l := snd (session cap root exec gen d0 ring0 t l) in
  (forall l, (forall a f l', l <> PeerInfo a f :: l') -> answers l = []) /\
  (forall a' f', answers (PeerInfo a f :: l1 ++ PeerInfo a' f' :: l2) = answers (PeerInfo a f :: l1)) /\
  answers (PeerInfo a f :: l1 ++ Other :: l2) = answers (PeerInfo a f :: l1) /\
  (forall h sl kvs anc l0 h' sl' kvs' anc', answers (PeerInfo a f :: l0 ++ Initialize h sl kvs anc :: l1 ++ Initialize h' sl' kvs' anc' :: l2) = answers (PeerInfo a f :: l0 ++ Initialize h sl kvs anc :: l1)).
Proof.
  intros R B cap root exec gen d0 ring0 t a f l1 l2 answers.
  assert (E : forall x y, (forall u, snd (messages cap root exec gen d0 ring0 u x) = snd (messages cap root exec gen d0 ring0 u y)) -> answers (PeerInfo a f :: x) = answers (PeerInfo a f :: y)).
  { intros x y X. unfold answers, session. match goal with |- context [messages _ _ _ _ _ _ ?u x] => specialize (X u); set (v := u) in * end.
    destruct (messages cap root exec gen d0 ring0 v x). destruct (messages cap root exec gen d0 ring0 v y). cbn [snd] in *. congruence. }
  split; [|split; [|split]].
  - intros l N. unfold answers, session. destruct l as [|[a' f'|h sl kvs anc|b|h|] l']; try reflexivity. destruct (N a' f' l' eq_refl).
  - intros a' f'. apply E. intro u. apply stops_any. reflexivity.
  - apply E. intro u. apply stops_any. reflexivity.
  - intros h sl kvs anc l0 h' sl' kvs' anc'. apply E. intro u. apply second_initialize.
Qed.
Example session_protocol_met : let i := Initialize 10 4 x0 [] in
  nth 0 (xs false [[PeerInfo false true; i; ImportBlock (xb 11 10 5 root0 3); i; GetState 11]]) [] = nth 0 (xs false [[PeerInfo false true; i; ImportBlock (xb 11 10 5 root0 3)]]) [] /\
  length (nth 0 (xs false [[PeerInfo false true; i; ImportBlock (xb 11 10 5 root0 3)]]) []) = 3%nat.
Proof. vm_compute. auto. Qed.

Print Assumptions import_replies.
Print Assumptions rivals_do_not_matter.
Print Assumptions orphan_block_refuted.
Print Assumptions told_entries.
Print Assumptions told_states_partial.
Print Assumptions told_states_refuted.
Print Assumptions told_states_unknown_refuted.
Print Assumptions refused_block_partial.
Print Assumptions refused_block_refuted.
Print Assumptions sessions_independent.
Print Assumptions session_protocol.
