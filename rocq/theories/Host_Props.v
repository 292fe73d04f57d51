(** Properties of the host calls of an accumulation (C38, C39, C68-C71). *)
From Verif Require Import Base PvmMem_Model PvmProg_Model PvmStep_Model Sandbox_Model Sandbox_Spec Host_Model Host_Spec Acc_Spec Host_Proofs Host5_Proofs Host6_Proofs Acc_Proofs.
Open Scope N_scope.
Notation step := Sandbox_Model.step.

(** C68. Every history of host calls, made in a context in order and each permitted, runs without an error, and every answer, the accounts, the transfers, the
    privileges, the output and the checkpoint are those of the tables in [Host_Spec]. Missing: the calls [permitted] excludes. *)
Theorem host_calls_exact_partial : forall G ch e l c, ready G ch e c -> permitted_run G ch e l c ->
  exists hs c' X', host_calls (step G) e l c = Ok (hs, c') /\ gp_calls e l (seen G (fst c), seen G (snd c)) hs X' /\ stands G (fst c') (fst X') /\ stands G (snd c') (snd X').
Proof. exact calls_exact. Qed.
(** C39. The balances of all accounts and the transfers on their way keep their total, in the context and in the checkpoint. *)
Theorem host_calls_conserve_partial : forall G ch e l c hs c' v, ready G ch e c -> permitted_run G ch e l c -> host_calls (step G) e l c = Ok (hs, c') ->
  worth G (fst c) v -> worth G (snd c) v -> worth G (fst c') v /\ worth G (snd c') v.
Proof. exact calls_conserve. Qed.
(** After any history the counts of every account are those of its entries, and the host still has the balance its counts require. *)
Theorem host_calls_solvent_partial : forall G ch e l c hs c', ready G ch e c -> permitted_run G ch e l c -> host_calls (step G) e l c = Ok (hs, c') ->
  forall d, d = fst c' \/ d = snd c' ->
    (forall s m, g_meta (view G (fst d)) s = Some m -> counted (view G (fst d)) s m) /\
    exists m, g_meta (view G (fst d)) (r_host (snd (fst c))) = Some m /\ least m <= m_balance m.
Proof. exact calls_solvent. Qed.
(** A call that is refused changes nothing. *)
Theorem host_call_refused_partial : forall G ch e n s c h c', ready G ch e c -> permitted G ch (seen G (fst c)) n s -> host (step G) e n s c = Ok (h, c') ->
  refused h -> looks G (fst c') (fst c) /\ looks G (snd c') (snd c).
Proof. exact call_refused. Qed.
(** C69. No call touches another account, except that NEW makes one that was not there, with the host as its parent, and EJECT removes one given up to the host. *)
Theorem host_call_isolated_partial : forall G ch e n s c h c' t, ready G ch e c -> permitted G ch (seen G (fst c)) n s -> host (step G) e n s c = Ok (h, c') ->
  let w := view G (fst (fst c)) in let w' := view G (fst (fst c')) in let host := r_host (snd (fst c)) in
  t <> host ->
  account_eq w' w t \/
  (g_meta w t = None /\ exists m, g_meta w' t = Some m /\ m_parent m = host) \/
  (g_meta w' t = None /\ exists m, g_meta w t = Some m /\ m_code m = given_to host).
Proof. exact call_isolated. Qed.
(** C38. A new account's id is the answer, was not in use, and is the context's next id, in 2^16 .. 2^32 - 2^8 - 1, after which the next is the first id not in use
    from 42 further on; or it is a small id asked for by the registrar. The next id is in that range and not in use after every history. *)
Theorem new_id_partial : forall G ch e s c h c', ready G ch e c -> permitted G ch (seen G (fst c)) 18 s -> host (step G) e 18 s c = Ok (h, c') ->
  looks G (fst c') (fst c) \/
  exists id, h = code id /\ g_meta (view G (fst (fst c))) id = None /\ has (view G (fst (fst c'))) id /\
    ((in_cycle id /\ id = r_next (snd (fst c)) /\ first_free (view G (fst (fst c'))) (cyc id 42) (r_next (snd (fst c')))) \/
     (id < 65536 /\ id = reg s 12 /\ holder (p_registrar (r_priv (snd (fst c)))) = r_host (snd (fst c)) /\ r_next (snd (fst c')) = r_next (snd (fst c)))).
Proof. exact call_new. Qed.
Theorem next_id_free_partial : forall G ch e l c hs c', ready G ch e c -> permitted_run G ch e l c -> host_calls (step G) e l c = Ok (hs, c') ->
  in_cycle (r_next (snd (fst c'))) /\ g_meta (view G (fst (fst c'))) (r_next (snd (fst c'))) = None.
Proof. exact next_free. Qed.
(** The search for an id, over any accounts that leave one: it ends at the first id not in use. *)
Theorem id_search : forall G ch sb i, proper G -> sb_ok G ch sb -> proper (view G sb) -> in_cycle i -> (exists j, in_cycle j /\ ~ has (view G sb) j) ->
  exists sb' j, exec (step G) (check i) sb = (sb', Ok j) /\ same (view G sb') (view G sb) /\ first_free (view G sb) i j.
Proof. exact search_ok. Qed.
(** C70. CHECKPOINT: whatever follows, until the next one the second context is the first as it was there. For every host of the accounts' operations. *)
Theorem checkpoint_kept : forall A (do : A -> sop -> A * sout) e l1 s l2 c h1 x y hs c', host_calls do e l1 c = Ok (h1, (x, y)) -> is_point (17, s) = true -> existsb is_point l2 = false ->
  host_calls do e (l1 ++ (17, s) :: l2) c = Ok (hs, c') -> snd c' = x.
Proof. intros A do e l1 s l2 c h1 x y hs c'. exact (@checkpoint A do e l1 s l2 c h1 x y hs c'). Qed.
Theorem no_checkpoint_kept : forall A (do : A -> sop -> A * sout) e l c hs c', existsb is_point l = false -> host_calls do e l c = Ok (hs, c') -> snd c' = snd c.
Proof. intros A do e l c hs c'. exact (@no_point A do e l c hs c'). Qed.

(** ** A town: the host 7, with one storage entry; 8, given up to 7; 9. *)
Definition H8 : bytes := repeat 8 32.
Definition m7 : meta := mk_meta (repeat 1 32) 100000 10 10 37 0 1 5 5 0.
Definition m8 (b : N) : meta := mk_meta (given_to 7) b 0 0 83 0 2 5 5 7.
Definition m9 : meta := mk_meta (repeat 2 32) 200 0 5 0 0 0 5 5 0.
Definition village (b : N) : gstate :=
  mk_g (fun s => if s =? 7 then Some m7 else if s =? 8 then Some (m8 b) else if s =? 9 then Some m9 else None)
       (fun s k => if s =? 7 then if ekey_eq k (KStorage [5]) then Some [1; 2] else None
                   else if s =? 8 then if ekey_eq k (KPreimage H8) then Some [1; 1] else if ekey_eq k (KLookup H8 2) then Some [3; 4] else None
                   else None).
Definition town : gstate := village 500.
Definition tenv : env := mk_env 100 (fun _ => repeat 0 32) 2 6 32 (fun _ _ => None).
Definition tpriv : priv := mk_priv 1 [7; 2] None [] (mk_role 3 None None) (mk_role 4 None None) [] [[]; []] None.
Definition trest : rest := mk_rest 7 tpriv 70000 [] None [].
(** Memory: octets 8 from 101000 to 101031, 5 at 102000, then 6 7 8; zeros elsewhere. *)
Definition tmem : mem := mk_mem (fun x => if (101000 <=? x) && (x <? 101032) then 8 else if x =? 102000 then 5 else if (102001 <=? x) && (x <=? 102003) then x - 101995 else 0) (2 ^ 32)
  (fun _ => ReadWrite) 4096 (2 ^ 20) 0 0 0.
Definition regs (l : list N) : vm := mk_vm (repeat 0 7 ++ l) tmem 0 10000.
Definition calls : list (N * vm) :=
  [ (4, regs [102000; 1; 102001; 3; 0; 0]); (* WRITE [5] := [6; 7; 8] *)
    (18, regs [101000; 10; 1; 1; 0; 2 ^ 32 - 1]); (* NEW *)
    (20, regs [9; 1000; 5; 103000; 0; 0]); (* TRANSFER 1000 to 9 *)
    (17, regs []); (* CHECKPOINT *)
    (21, regs [8; 101000; 0; 0; 0; 0]); (* EJECT 8 *)
    (20, regs [9; 200000; 5; 103000; 0; 0]); (* TRANSFER too much *)
    (23, regs [101000; 20; 0; 0; 0; 0]) (* SOLICIT *) ].
Definition start : accounts * rest := ([], trest).
Lemma one_key : forall (k : ekey) (v : option (list N)) a, (if ekey_eq k a then v else None) <> None -> k = a.
Proof. intros k v a H. destruct (ekey_eq k a); [assumption | congruence]. Qed.
Lemma village_proper : forall b, proper (village b).
Proof. intros b s E k. cbn in *. destruct (s =? 7); [discriminate|]. destruct (s =? 8); [discriminate | reflexivity]. Qed.
Lemma village_tidy : forall b, tidy tenv (village b, trest).
Proof.
  intros b. split; cbn [fst snd trest r_host r_next].
    - exact (village_proper b).
    - intros s m E. unfold village in E. cbn [g_meta] in E. destruct (N.eqb_spec s 7) as [->|D7]; [|destruct (N.eqb_spec s 8) as [->|D8]; [|destruct (N.eqb_spec s 9) as [->|D9]; [|discriminate]]]; inversion E; subst m.
      + exists [KStorage [5]]. split; [repeat constructor; intros []|]. split; [|split; reflexivity]. intros k. cbn. split; [intros [<-|[]]; discriminate|]. intros H. left. apply one_key in H. congruence.
      + exists [KPreimage H8; KLookup H8 2]. split; [repeat constructor; cbn; intuition discriminate|]. split; [|split; reflexivity]. intros k. unfold village. cbn [g_ent N.eqb Pos.eqb].
        split; [intros [<-|[<-|[]]]; discriminate|]. intros H. destruct (ekey_eq k (KPreimage H8)); [left; congruence|]. apply one_key in H. right. left. congruence.
      + exists []. split; [constructor|]. split; [|split; reflexivity]. intros k. cbn. split; [intros [] | congruence].
    - intros s h H. unfold village in H. cbn [g_ent] in H. destruct (s =? 7); [destruct (ekey_eq (KPreimage h) (KStorage [5])); congruence|]. destruct (N.eqb_spec s 8) as [->|]; [|congruence].
      destruct (ekey_eq (KPreimage h) (KPreimage H8)) as [E|E]; [inversion E; subst h; exists 2; discriminate|]. destruct (ekey_eq (KPreimage h) (KLookup H8 2)); congruence.
    - intros s h len l H. unfold village in H. cbn [g_ent] in H. destruct (s =? 7); [destruct (ekey_eq (KLookup h len) (KStorage [5])); congruence|]. destruct (N.eqb_spec s 8) as [->|]; [|congruence].
      destruct (ekey_eq (KLookup h len) (KPreimage H8)); [discriminate|]. destruct (ekey_eq (KLookup h len) (KLookup H8 2)); [|discriminate]. inversion H; subst l. split; [auto|]. repeat constructor; discriminate.
    - intros s h len H. unfold village in H. cbn [g_ent] in H. destruct (s =? 7); [destruct (ekey_eq (KLookup h len) (KStorage [5])); congruence|]. destruct (N.eqb_spec s 8) as [->|]; [|congruence].
      destruct (ekey_eq (KLookup h len) (KPreimage H8)); [discriminate|]. destruct (ekey_eq (KLookup h len) (KLookup H8 2)) as [E|E]; [|congruence]. inversion E. reflexivity.
    - exists m7. split; [reflexivity | discriminate].
    - split; [split; [discriminate | reflexivity] | reflexivity].
Qed.
Example town_ready : ready town [7] tenv (start, start).
Proof.
  assert (T : tidy tenv (seen town start)) by (apply (village_tidy 500)).
  assert (O : sb_ok town [7] []) by (split; [constructor | intros s b E; discriminate]).
  unfold ready. cbn [fst snd start]. split; [exact (village_proper 500)|]. split; [reflexivity|]. split; [left; reflexivity|]. auto.
Qed.
Example calls_answers : exists c, host_calls (step town) tenv calls (start, start) =
  Ok ([code 2; code 70000; mk_hchange Continue 15 (Some OK) None None; mk_hchange Continue 10 (Some 9990) None None; code OK; code CASH; code OK], c) /\
  option_map m_balance (g_meta (view town (fst (fst c))) 7) = Some 99289 /\ option_map m_balance (g_meta (view town (fst (fst c))) 70000) = Some 211 /\
  g_meta (view town (fst (fst c))) 8 = None /\ option_map m_balance (g_meta (view town (fst (snd c))) 7) = Some 98789 /\ deferred (snd (fst c)) = 1000 /\
  g_ent (view town (fst (fst c))) 7 (KStorage [5]) = Some [6; 7; 8] /\ g_ent (view town (fst (fst c))) 7 (KLookup H8 20) = Some [] /\ g_ent (view town (fst (snd c))) 7 (KLookup H8 20) = None /\
  option_map (fun m => (m_items m, m_octets m)) (g_meta (view town (fst (fst c))) 7) = Some (3, 139) /\ r_next (snd (fst c)) = 70042.
Proof. eexists. split; [vm_compute; reflexivity|]. vm_compute. repeat split. Qed.
Ltac meta_cases E :=
  vm_compute in E;
  repeat match type of E with
         | context [match ?t with 0%N => _ | N.pos _ => _ end] => destruct t
         | context [match ?t with xI _ => _ | xO _ => _ | xH => _ end] => destruct t
         | context [if ?b then _ else _] => destruct b
         end; try discriminate E; injection E as <-.
Ltac permit :=
  split; [vm_compute; discriminate|]; split; [reflexivity|]; split; [intros t m E; meta_cases E; vm_compute; repeat split|];
  split; [intros N21; first [discriminate N21 | vm_compute; intuition discriminate]|];
  split; [intros N21; first [discriminate N21 | intros t m h D E F; vm_compute in F; injection F as <-; meta_cases E; reflexivity]|];
  split; [intros N18; first [discriminate N18 | intros i [->| ->] _; vm_compute; congruence]|];
  intros N18; first [discriminate N18 | exists 80000; split; [split; [discriminate | reflexivity]|]; split; [discriminate | reflexivity]].
Ltac permits := cbn [permitted_run]; repeat match goal with
  | |- permitted _ _ _ _ _ /\ _ => split; [permit | intros ? ? E; vm_compute in E; injection E as <- <-]
  | |- True => exact I
  end.
Example calls_permitted : permitted_run town [7] tenv calls (start, start).
Proof. unfold calls. permits. Qed.
Example town_worth : worth town start 100700.
Proof.
  exists 100700. split; [|reflexivity]. exists [7; 8; 9]. split; [repeat constructor; cbn; intuition discriminate|]. split; [|reflexivity].
  intros i. unfold has. cbn [In]. split; [intros [<-|[<-|[<-|[]]]]; discriminate|]. intros E. change (g_meta town i <> None) in E. unfold town, village in E. cbn [g_meta] in E.
  destruct (N.eqb_spec i 7); [auto|]. destruct (N.eqb_spec i 8); [auto|]. destruct (N.eqb_spec i 9); [auto | congruence].
Qed.

(** What the calls [permitted] excludes can do. An account that received something in an earlier round (so that the sandbox has its changed metadata) is ejected: its
    balance goes to the host, and the account is there again with what it had in the state. *)
Theorem eject_changed_refuted : exists G e sb r s v hs c',
  sb = fst (run G [] [Change 8 (fun m => Some (set_balance m (m_balance m + 5)))]) /\ ready G [8; r_host r] e ((sb, r), (sb, r)) /\ worth G (sb, r) v /\
  host_calls (step G) e [(21, s)] ((sb, r), (sb, r)) = Ok (hs, c') /\ hs = [code OK] /\ worth G (fst c') (v + 500) /\ has (view G (fst (fst c'))) 8.
Proof.
  set (sb := fst (run town [] [Change 8 (fun m => Some (set_balance m (m_balance m + 5)))])).
  exists town, tenv, sb, trest, (regs [8; 101000; 0; 0; 0; 0]), 100705. do 2 eexists. split; [reflexivity|].
  assert (W : forall sb a, (forall i, g_meta (view town sb) i <> None <-> i = 7 \/ i = 8 \/ i = 9) ->
    (exists x y z, option_map m_balance (g_meta (view town sb) 7) = Some x /\ option_map m_balance (g_meta (view town sb) 8) = Some y /\ option_map m_balance (g_meta (view town sb) 9) = Some z /\ a = x + y + z) ->
    worth town (sb, trest) a).
  { intros sb0 a I [x [y [z [X [Y [Z E]]]]]]. exists a. split; [|cbn [deferred snd trest r_xfers map sum]; unfold deferred; cbn; lia]. exists [7; 8; 9]. split; [repeat constructor; cbn; intuition discriminate|]. split.
    - intros i. unfold has. rewrite I. cbn [In]. intuition.
    - cbn [map sum fst]. cbn [fst]. destruct (g_meta (view town sb0) 7); [|discriminate]. destruct (g_meta (view town sb0) 8); [|discriminate]. destruct (g_meta (view town sb0) 9); [|discriminate].
      cbn [option_map] in *. inversion X; inversion Y; inversion Z; subst. lia. }
  assert (Out : forall sb i, (forall j, In j (map fst sb) -> j = 7 \/ j = 8 \/ j = 9) -> i <> 7 -> i <> 8 -> i <> 9 -> g_meta (view town sb) i = None).
  { intros sb0 i I A B D. cbn [view g_meta]. unfold vmeta. replace (aget sb0 i) with (@None asb).
    - unfold town, village. cbn [g_meta]. destruct (N.eqb_spec i 7); [contradiction|]. destruct (N.eqb_spec i 8); [contradiction|]. destruct (N.eqb_spec i 9); [contradiction | reflexivity].
    - unfold mget. induction sb0 as [|[a b] l IH]; [reflexivity|]. cbn [find fst]. destruct (N.eq_dec a i) as [->|]; [destruct (I i) as [|[|]]; [left; reflexivity | contradiction ..]|].
      apply IH. intros j J. apply I. right. assumption. }
  assert (C : forall (P : N -> Prop), P 7 -> P 8 -> P 9 -> (forall i, i <> 7 -> i <> 8 -> i <> 9 -> P i) -> forall i, P i).
  { intros P P7 P8 P9 D i. destruct (N.eq_dec i 7) as [->|]; [exact P7|]. destruct (N.eq_dec i 8) as [->|]; [exact P8|]. destruct (N.eq_dec i 9) as [->|]; [exact P9|]. auto. }
  split.
  { destruct town_ready as [P [Eo [_ [O [_ _]]]]]. cbn [fst snd start] in O.
    destruct (@Sandbox_Proofs.step_ok town [7] [] town (Change 8 (fun m => Some (set_balance m (m_balance m + 5)))) P P O (Sandbox_Proofs.same_refl _) I) as [O1 [S1 _]].
    assert (T : tidy tenv (seen town (sb, trest))).
    { eapply Host4_Proofs.tidy_same; [apply (village_tidy 505) | | reflexivity | reflexivity]. eapply Sandbox_Proofs.same_trans; [exact S1|]. split; [|reflexivity].
      intros i. cbn [next]. unfold town, village. cbn [g_meta N.eqb Pos.eqb with_meta fst]. destruct (N.eqb_spec i 7) as [->|]; [reflexivity|]. destruct (i =? 8); reflexivity. }
    unfold ready. cbn [fst snd]. split; [exact P|]. split; [exact Eo|]. split; [right; left; reflexivity|]. auto. }
  split.
  { apply W; [|do 3 eexists; repeat split; vm_compute; reflexivity]. apply C; try (vm_compute; intuition discriminate). intros i A B D. split; [|intuition]. intros E. exfalso. apply E. apply Out; try assumption. intros j. vm_compute. intuition. }
  split; [vm_compute; reflexivity|]. split; [reflexivity|]. split; [|intro X; vm_compute in X; discriminate X].
  { apply W; [|do 3 eexists; repeat split; vm_compute; reflexivity]. apply C; try (vm_compute; intuition discriminate). intros i A B D. split; [|intuition]. intros E. exfalso. apply E. apply Out; try assumption. intros j. vm_compute. intuition. }
Qed.

(** Guards of the privileges: within its own accumulation every service can make itself manager and registrar, and then make an account with a small id, all its
    storage free and no balance. *)
Theorem free_account_refuted : exists G e c s1 s2 hs c', ready G [r_host (snd (fst c))] e c /\ permitted_run G [r_host (snd (fst c))] e [(14, s1); (18, s2)] c /\
  p_manager (r_priv (snd (fst c))) <> r_host (snd (fst c)) /\ holder (p_registrar (r_priv (snd (fst c)))) <> r_host (snd (fst c)) /\
  host_calls (step G) e [(14, s1); (18, s2)] c = Ok (hs, c') /\
  exists m, g_meta (view G (fst (fst c'))) 5 = Some m /\ g_meta (view G (fst (fst c))) 5 = None /\ m_balance m = 0 /\ m_gratis m = 1000000 /\ worth G (fst c) 100700 /\
    option_map m_balance (g_meta (view G (fst (fst c'))) (r_host (snd (fst c)))) = option_map m_balance (g_meta (view G (fst (fst c))) (r_host (snd (fst c)))).
Proof.
  exists town, tenv, (start, start), (regs [7; 103000; 0; 7; 103000; 0]), (regs [101000; 10; 1; 1; 1000000; 5]). do 2 eexists.
  split; [exact town_ready|]. split; [permits|]. split; [discriminate|]. split; [discriminate|]. split; [vm_compute; reflexivity|]. eexists. split; [vm_compute; reflexivity|].
  split; [reflexivity|]. split; [reflexivity|]. split; [reflexivity|]. split; [exact town_worth|]. vm_compute. reflexivity.
Qed.
(** The checkpoint of [calls]: what EJECT and SOLICIT did is not in it. *)
Example checkpoint_case : is_point (17, regs []) = true /\ existsb is_point (skipn 4 calls) = false /\ calls = firstn 3 calls ++ (17, regs []) :: skipn 4 calls.
Proof. repeat split. Qed.
Print Assumptions host_calls_exact_partial.
Print Assumptions host_calls_conserve_partial.
Print Assumptions host_calls_solvent_partial.
Print Assumptions host_call_refused_partial.
Print Assumptions host_call_isolated_partial.
Print Assumptions new_id_partial.
Print Assumptions next_id_free_partial.
Print Assumptions id_search.
Print Assumptions checkpoint_kept.
Print Assumptions no_checkpoint_kept.
Print Assumptions eject_changed_refuted.
Print Assumptions free_account_refuted.
