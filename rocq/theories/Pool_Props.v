(** C98: the pool of extrinsics, used by any number of threads. *)
From Verif Require Import Base Base_Proofs Pool_Model Pool_Spec Pool_Proofs.
From Coq Require Import Permutation.

(** Whatever the interleaving, the answers are those of a list of accepted submissions to the same calls made one after the other, in the order in which they return; no answer is lost. *)
Theorem pool_answers : forall max cs log p ts, no_collisions cs -> reaches max (empty_pool, starting cs) log (p, ts) ->
  replies max [] (map fst log) = map snd log /\ Permutation log (returned ts).
Proof. intros max cs log p ts NC R. destruct (good_reach max cs _ log (p, ts) NC R eq_refl) as [_ [A B]]. split; assumption. Qed.
Print Assumptions pool_answers.

(** A submission waits only while another one is being made; so do queries among themselves.
    Missing: submissions together with queries, see below. *)
Theorem pool_progress_partial : forall max cs log p ts, no_collisions cs -> (forall c, In c cs -> is_add c = true) \/ (forall c, In c cs -> is_add c = false) ->
  reaches max (empty_pool, starting cs) log (p, ts) -> length log < length cs -> exists log' s, moves max (p, ts) log' s.
Proof.
  intros max cs log p ts NC K R L. destruct (good_reach max cs _ log (p, ts) NC R eq_refl) as [G [_ P]]. cbn [fst snd] in *. pose proof (g_calls _ _ _ _ _ G) as GC.
  assert (W : exists t, In t ts /\ label t = []).
  { assert (Z : length (returned ts) < length ts) by (pose proof (Permutation_length P) as P1; pose proof (f_equal (@length _) GC) as P2; rewrite map_length in P2; unfold thread in *; lia). clear - Z. induction ts as [|t ts IH]; [cbn in Z; lia|]. destruct (label t) eqn:E.
    - exists t. split; [left; reflexivity|exact E].
    - destruct IH as [u [U V]]; [|exists u; split; [right; exact U|exact V]]. unfold returned in *. cbn [flat_map length] in Z. fold (label t) in Z. rewrite E in Z. rewrite app_length in Z. cbn [length] in Z. lia. }
  assert (F : forall b, (forall c, In c cs -> is_add c = b) -> Forall (fun t => is_add (fst t) = b) ts).
  { intros b H. apply Forall_forall. intros t I. apply H. rewrite <- GC. apply in_map. exact I. }
  destruct K as [K|K]; [apply all_adds_move; [apply F, K|apply (g_calm _ _ _ _ _ G)|exact W]|apply all_gets_move; [apply F, K|exact W]].
Qed.
Print Assumptions pool_progress_partial.

(** A pool that once was full refuses everything from then on: nothing ever leaves it. *)
Theorem full_pool_stays_full : forall max cs log p ts l1 e s l2 c a, no_collisions cs -> reaches max (empty_pool, starting cs) log (p, ts) ->
  log = l1 ++ (Add e s, Added false) :: l2 -> In (c, a) l2 -> is_add c = true -> a = Added false.
Proof.
  intros max cs log p ts l1 e s l2 c a NC R -> I K. destruct (good_reach max cs _ _ (p, ts) NC R eq_refl) as [_ [A _]]. rewrite !map_app, replies_app in A. cbn [map fst snd replies] in A.
  assert (SP : forall (x x' y y' : list answer), length x = length x' -> x ++ y = x' ++ y' -> y = y').
  { induction x as [|h x IH]; intros [|h' x'] y y' Ln E; try discriminate; [exact E|]. inversion Ln. inversion E. eapply IH; eassumption. }
  assert (LR : forall ds acc, length (replies max acc ds) = length ds) by (induction ds as [|d ds IH]; intro acc; [reflexivity|]; cbn [replies length]; rewrite IH; reflexivity).
  apply SP in A; [|rewrite LR, !map_length; reflexivity]. set (acc := after max [] (map fst l1)) in *. clearbody acc. cbn [reply] in A. destruct (Nat.ltb (distinct acc) max) eqn:Q; cbn [fst snd] in A; [discriminate|]. inversion A as [B]. clear A R.
  revert B I. induction l2 as [|[d b] l2 IH]; intros B I; [contradiction|]. cbn [map fst snd replies] in B. inversion B as [[B1 B2]].
  assert (Z : fst (reply max acc d) = acc) by (destruct d as [e0 s0|k0 s0]; cbn [reply]; [rewrite Q|]; reflexivity). rewrite Z in B2. destruct I as [E|I]; [|apply IH; assumption]. injection E as E1 E2. rewrite E1, E2 in B1. destruct c as [e0 s0|k0 s0]; [|discriminate]. rewrite <- B1. cbn [reply]. rewrite Q. reflexivity.
Qed.
Print Assumptions full_pool_stays_full.

(** Four calls of four threads, the second first; the last submission finds the pool full. *)
Definition ex_e (n k : N) : entry := mk_entry n [n] k.
Definition ex_cs : list call := [Add (ex_e 7 1) 5; Add (ex_e 8 1) 5; Get 1 5; Add (ex_e 9 2) 5].
Example pool_case : exists log p ts, reaches 2 (empty_pool, starting ex_cs) log (p, ts) /\ no_collisions ex_cs /\
  map snd log = [Added true; Added true; Added false; Got [ex_e 8 1; ex_e 7 1]] /\ map fst log <> [Add (ex_e 7 1) 5; Add (ex_e 8 1) 5; Add (ex_e 9 2) 5; Get 1 5].
Proof.
  destruct (go 2 empty_pool (starting ex_cs) [] [1; 1; 1; 1; 0; 0; 0; 0; 3; 3; 3; 2; 2; 2; 2]) as [[[p ts] log]|] eqn:G; [|vm_compute in G; discriminate].
  exists log, p, ts. split; [|split; [|vm_compute in G; inversion G; subst; split; [reflexivity|discriminate]]].
  - eapply go_reaches; [apply here|exact G].
  - intros e1 s1 e2 s2 I1 I2 E. unfold ex_cs in *. cbn [In] in *. intuition; repeat match goal with H : Add _ _ = Add _ _ |- _ => inversion H; subst; clear H end; try discriminate; try reflexivity.
Qed.

(** A submission and a query can lock each other out: each holds one lock and waits for the other's, and no step is possible any more. *)
Theorem pool_deadlock_refuted : exists max cs p ts, no_collisions cs /\ reaches max (empty_pool, starting cs) [] (p, ts) /\ returned ts = [] /\ length cs = 2 /\ forall log s, ~ moves max (p, ts) log s.
Proof.
  exists 10, [Add (ex_e 7 1) 5; Get 1 5], empty_pool, [(Add (ex_e 7 1) 5, One); (Get 1 5, One)]. split; [|split; [|split; [reflexivity|split; [reflexivity|]]]].
  - intros e1 s1 e2 s2 I1 I2 E. cbn [In] in *. intuition; repeat match goal with H : Add _ _ = Add _ _ |- _ => inversion H; subst; clear H end; try discriminate; try reflexivity.
  - change (@nil (call * answer)) with ([] ++ ([] ++ @nil (call * answer))). rewrite app_assoc. eapply further; [eapply further; [apply here|]|].
    + apply (move 10 empty_pool [] (Add (ex_e 7 1) 5, Begin) [(Get 1 5, Begin)] empty_pool (Add (ex_e 7 1) 5, One)). reflexivity.
    + apply (move 10 empty_pool [(Add (ex_e 7 1) 5, One)] (Get 1 5, Begin) [] empty_pool (Get 1 5, One)). reflexivity.
  - intros log s M. inversion M as [p l t r p' t' S Ep El Es]. clear M Es El. destruct l as [|a [|b [|c l]]]; cbn [app] in H; inversion H; subst; cbn in S; discriminate.
Qed.
Print Assumptions pool_deadlock_refuted.

(** The bound on the pool's size counts different entries only: one entry submitted again and again is listed again and again, without limit. *)
Theorem pool_bound_refuted : forall n, exists cs log p ts l, no_collisions cs /\ reaches 2 (empty_pool, starting (cs ++ [Get 1 5])) log (p, ts) /\ In (Get 1 5, Got l) log /\ length l = n.
Proof.
  intro n. set (c := Add (ex_e 7 1) 5). exists (repeat c n). destruct (one_by_one 2 (repeat c n ++ [Get 1 5]) [] empty_pool) as [log [p [R E]]]. cbn [backs map app] in R.
  assert (NC : forall tl, (forall x, In x tl -> is_add x = false) -> no_collisions (repeat c n ++ tl)).
  { intros tl T e1 s1 e2 s2 I1 I2 _. assert (Z : forall e s, In (Add e s) (repeat c n ++ tl) -> e = ex_e 7 1). { intros e s I. apply in_app_or in I. destruct I as [I|I]; [apply repeat_spec in I; inversion I; reflexivity|apply T in I; discriminate]. }
    rewrite (Z _ _ I1), (Z _ _ I2). reflexivity. }
  exists log, p. eexists. exists (repeat (ex_e 7 1) n). split; [rewrite <- (app_nil_r (repeat c n)); apply NC; intros x []|]. split; [exact R|].
  destruct (good_reach 2 (repeat c n ++ [Get 1 5]) _ log (p, backs log) (NC [Get 1 5] ltac:(intros x [<-|[]]; reflexivity)) R eq_refl) as [_ [A _]]. rewrite E in A. rewrite replies_app in A. split; [|apply repeat_length].
  assert (AF : forall m acc, (forall x, In x acc -> x = (ex_e 7 1, 5%N)) -> after 2 acc (repeat c m) = acc ++ repeat (ex_e 7 1, 5%N) m).
  { induction m as [|m IH]; intros acc F; [cbn; rewrite app_nil_r; reflexivity|]. cbn [repeat after]. unfold c at 1. cbn [reply]. assert (D : Nat.ltb (distinct acc) 2 = true).
    { apply Nat.ltb_lt. unfold distinct. assert (Z : incl (nodup N.eq_dec (map (fun x => e_hash (fst x)) acc)) [7%N]). { intros h I. apply nodup_In in I. apply in_map_iff in I. destruct I as [x [<- I]]. apply F in I. subst x. left. reflexivity. }
      apply NoDup_incl_length in Z; [cbn in Z; lia|apply NoDup_nodup]. }
    rewrite D. cbn [fst]. fold c. rewrite IH; [rewrite <- app_assoc; reflexivity|]. intros x I. apply in_app_or in I. destruct I as [I|[<-|[]]]; [apply F, I|reflexivity]. }
  rewrite (AF n []) in A by (intros x []). cbn [app replies reply snd fst] in A.
  assert (G : map fst (filter (fun x => N.eqb (e_kind (fst x)) 1 && N.eqb (snd x) 5)%bool (repeat (ex_e 7 1, 5%N) n)) = repeat (ex_e 7 1) n).
  { clear. induction n as [|n IH]; [reflexivity|]. cbn [repeat filter]. cbn [fst snd ex_e e_kind]. rewrite !N.eqb_refl. cbn [andb map fst]. f_equal. exact IH. }
  rewrite G in A. clear - A E. destruct log as [|x log] using rev_ind; [destruct n; discriminate|]. clear IHlog. rewrite map_app in A, E. cbn [map] in A, E. apply app_inj_tail in A. apply app_inj_tail in E. apply in_or_app. right. left.
  destruct x as [c' a']. cbn [fst snd] in *. destruct A as [_ <-], E as [_ ->]. reflexivity.
Qed.
Print Assumptions pool_bound_refuted.

(** A call made by the only thread does at once what the code of add_extrinsic and of the getter says from start to end. *)
Theorem pool_alone : forall max p c log p' a,
  reaches max (p, [(c, Begin)]) log (p', [(c, Back a)]) <->
  log = [(c, a)] /\ (p', a) = match c with Add e s => let (q, ok) := add max e s p in (q, Added ok) | Get k s => (p, Got (get k s p)) end.
Proof.
  intros max p c log p' a. split.
  - (* every state reached from the start is one of those on the way *)
    intros R.
    assert (W : forall q t, reaches max (p, [(c, Begin)]) log (q, t) -> exists pl, t = [(c, pl)] /\
      match pl with
      | Begin | One | Two => q = p /\ log = []
      | Half hs => log = [] /\ match c with Add e s => Nat.leb max (length (p_map p)) = false /\ q = mk_pool (map_set (p_map p) (e_hash e) e) (p_index p)
                                | Get k s => q = p /\ hs = match index_get (p_index p) (k, s) with Some hs => hs | None => [] end end
      | Back a => log = [(c, a)] /\ (q, a) = match c with Add e s => let (q, ok) := add max e s p in (q, Added ok) | Get k s => (p, Got (get k s p)) end
      end).
    { clear R. intros q t R. remember (p, [(c, Begin)]) as s eqn:Es. remember (q, t) as s' eqn:Et. revert q t Et. induction R as [s|s l1 m l2 u R IH M]; intros q t Et; subst.
      - injection Et as <- <-. exists Begin. repeat split; reflexivity.
      - destruct m as [q1 t1]. destruct (IH eq_refl q1 t1 eq_refl) as [pl [-> X]]. inversion M as [p0 l0 t0 r0 p2 t2 A Em El Eu]. subst.
        destruct l0 as [|y l0]; [|destruct l0; discriminate]. destruct r0 as [|y r0]; [|discriminate]. cbn [app] in *.
        match goal with Q : [_] = [_] |- _ => injection Q as -> end.
        destruct c as [e s|k s], pl as [| | |hs|b]; cbn in A; try discriminate.
        + injection A as <- <-. destruct X as [-> ->]. exists One. repeat split; reflexivity.
        + injection A as <- <-. destruct X as [-> ->]. exists Two. repeat split; reflexivity.
        + destruct X as [-> ->]. destruct (Nat.leb max (length (p_map p))) eqn:Q; injection A as <- <-.
          * exists (Back (Added false)). split; [reflexivity|]. split; [reflexivity|]. unfold add. rewrite Q. reflexivity.
          * exists (Half []). repeat split; try reflexivity.
        + destruct X as [-> [Q ->]]. injection A as <- <-. exists (Back (Added true)). split; [reflexivity|]. split; [reflexivity|]. unfold add. rewrite Q. reflexivity.
        + injection A as <- <-. destruct X as [-> ->]. exists One. repeat split; reflexivity.
        + injection A as <- <-. destruct X as [-> ->]. exists Two. repeat split; reflexivity.
        + injection A as <- <-. destruct X as [-> ->]. eexists. split; [reflexivity|]. repeat split; reflexivity.
        + destruct X as [-> [-> ->]]. injection A as <- <-. eexists. split; [reflexivity|]. split; [reflexivity|]. unfold get.
          destruct (index_get (p_index p) (k, s)); reflexivity. }
    destruct (W p' _ R) as [pl [E X]]. injection E as <-. exact X.
  - intros [-> E]. assert (St : forall q1 t1 q2 t2 l, advance max [] q1 t1 = Some (q2, t2) -> reaches max (p, [(c, Begin)]) l (q1, [t1]) ->
      reaches max (p, [(c, Begin)]) (l ++ match t2 with (c, Back a) => [(c, a)] | _ => [] end) (q2, [t2])).
    { intros q1 t1 q2 t2 l A R. eapply further; [exact R|]. exact (move max q1 [] t1 [] q2 t2 A). }
    destruct c as [e s|k s].
    + assert (R2 : reaches max (p, [(Add e s, Begin)]) [] (p, [(Add e s, Two)])).
      { apply (St p (Add e s, One) p (Add e s, Two) []); [reflexivity|]. apply (St p (Add e s, Begin) p (Add e s, One) []); [reflexivity|]. apply here. }
      unfold add in E. destruct (Nat.leb max (length (p_map p))) eqn:Q.
      * injection E as -> ->. apply (St p (Add e s, Two) p (Add e s, Back (Added false)) []); [cbn; rewrite Q; reflexivity|exact R2].
      * injection E as -> ->. apply (St (mk_pool (map_set (p_map p) (e_hash e) e) (p_index p)) (Add e s, Half []) _ (Add e s, Back (Added true)) []); [reflexivity|].
        apply (St p (Add e s, Two) _ (Add e s, Half []) []); [cbn; rewrite Q; reflexivity|exact R2].
    + injection E as -> ->. apply (St p (Get k s, Half (match index_get (p_index p) (k, s) with Some hs => hs | None => [] end)) p (Get k s, Back (Got (get k s p))) []).
      { cbn. unfold get. destruct (index_get (p_index p) (k, s)); reflexivity. }
      apply (St p (Get k s, Two) p (Get k s, Half (match index_get (p_index p) (k, s) with Some hs => hs | None => [] end)) []); [reflexivity|].
      apply (St p (Get k s, One) p (Get k s, Two) []); [reflexivity|]. apply (St p (Get k s, Begin) p (Get k s, One) []); [reflexivity|]. apply here.
Qed.
Print Assumptions pool_alone.
