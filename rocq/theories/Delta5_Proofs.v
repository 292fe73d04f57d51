(** A check, by computation, that the services of a given block keep to what the theorems about blocks ask of them. *)
From Verif Require Import Base Base_Proofs PvmMem_Model PvmProg_Model PvmStep_Model PvmInit_Model Codec_Model Queue_Model Gas_Model Gas_Spec Sandbox_Model Sandbox_Spec Sandbox_Proofs Host_Model Host_Spec Host_Proofs
  Acc_Model Acc_Spec Acc_Proofs Acc2_Proofs Round_Model Round_Spec Round2_Spec Delta_Model Delta_Spec.
Set Implicit Arguments.
Open Scope N_scope.

Definition mem (ids : list N) (s : N) : bool := existsb (N.eqb s) ids.
Lemma mem_in : forall ids s, mem ids s = true -> In s ids.
Proof. intros ids s H. apply existsb_exists in H as [y [I E]]. apply N.eqb_eq in E. subst. exact I. Qed.
Lemma in_mem : forall ids s, In s ids -> mem ids s = true.
Proof. intros ids s H. apply existsb_exists. exists s. split; [exact H | apply N.eqb_refl]. Qed.
Definition within (ids : list N) (sb : accounts) : bool := forallb (fun x => mem ids (fst x)) sb.
Definition there (w : gstate) (s : N) : bool := match g_meta w s with Some _ => true | None => false end.
Lemma there_has : forall w s, there w s = true <-> has w s.
Proof. intros w s. unfold there, has. destruct (g_meta w s); split; congruence. Qed.
Section Check.
  Variables (G : gstate) (ids : list N).
  Hypothesis Sup : forall s, has G s -> In s ids.
  Lemma within_has : forall sb s, within ids sb = true -> has (view G sb) s -> In s ids.
  Proof.
    intros sb s W H. unfold has in H. cbn [view g_meta] in H. unfold vmeta in H. destruct (aget sb s) as [b|] eqn:E; [|apply Sup; exact H].
    destruct (in_dec N.eq_dec s (map fst sb)) as [I|I]; [|apply (mget_None N.eq_dec) in I; congruence]. apply in_map_iff in I as [y [Q I]]. unfold within in W. rewrite forallb_forall in W. specialize (W y I). rewrite Q in W. apply mem_in, W.
  Qed.
  Definition balance_of (w : gstate) (s : N) : N := match g_meta w s with Some m => m_balance m | None => 0 end.
  (** What [permitted] asks for *)
  Definition allow (ch : list N) (c : accounts * rest) (n : N) (s : vm) : bool :=
    let w := view G (fst c) in
    (m_len (v_mem s) <=? 2 ^ 32) && (v_gas s <? 2 ^ 63 - 1)%Z && within ids (fst c) &&
    forallb (fun t => match g_meta w t with Some m => (m_items m + 2 <? 2 ^ 32) && (m_octets m + 2 ^ 34 <? 2 ^ 63) && (m_balance m <? 2 ^ 64) | None => true end) ids &&
    (negb (n =? 21) || (negb (there G (reg s 7)) || negb (mem ch (reg s 7))) && forallb (fun t => balance_of w t + balance_of w (r_host (snd c)) <? 2 ^ 64) ids) &&
    (negb (n =? 18) || forallb (fun i => there w i || negb (there G i)) [reg s 12; r_next (snd c)] && existsb (fun i => negb (i =? r_next (snd c)) && negb (there w i)) [80000; 80001]).
  Fixpoint allow_run (ch : list N) (e : env) (l : list (N * vm)) (c : (accounts * rest) * (accounts * rest)) : bool :=
    match l with
    | [] => true
    | (n, s) :: l => allow ch (fst c) n s && match host (Sandbox_Model.step G) e n s c with Ok (_, c') => allow_run ch e l c' | _ => true end
    end.
  Lemma allow_ok : forall ch c n s, allow ch c n s = true -> permitted G ch (seen G c) n s.
  Proof.
    intros ch c n s H. unfold allow in H. cbv zeta in H. rewrite !andb_true_iff in H. destruct H as [[[[[A B] C] D] E] F]. unfold permitted, seen. cbn [fst snd].
    split; [apply N.leb_le, A|]. split; [apply Z.ltb_lt, B|]. split; [|split; [|split; [|split]]].
    - intros t m M. rewrite forallb_forall in D. specialize (D t). rewrite M in D. assert (I : In t ids) by (apply (@within_has (fst c)); [exact C | unfold has; rewrite M; discriminate]). specialize (D I). rewrite !andb_true_iff in D. destruct D as [[D1 D2] D3].
      apply N.ltb_lt in D1, D2, D3. auto.
    - intros -> _ Hg _ I. cbn [N.eqb Pos.eqb negb orb] in E. rewrite andb_true_iff in E. destruct E as [E _]. rewrite (in_mem _ _ I) in E. rewrite (proj2 (there_has _ _) Hg) in E. discriminate.
    - intros -> t m h _ M Hh. cbn [N.eqb Pos.eqb negb orb] in E. rewrite andb_true_iff in E. destruct E as [_ E]. rewrite forallb_forall in E. assert (I : In t ids) by (apply (@within_has (fst c)); [exact C | unfold has; rewrite M; discriminate]). specialize (E t I). unfold balance_of in E. rewrite M, Hh in E. apply N.ltb_lt, E.
    - intros -> i Hi No Hg. cbn [N.eqb Pos.eqb negb orb] in F. rewrite andb_true_iff in F. destruct F as [F _]. rewrite forallb_forall in F. assert (X : there (view G (fst c)) i || negb (there G i) = true) by (apply F; cbn [In]; destruct Hi as [-> | ->]; auto).
      rewrite (proj2 (there_has _ _) Hg), orb_false_r in X. apply there_has in X. contradiction.
    - intros ->. cbn [N.eqb Pos.eqb negb orb] in F. rewrite andb_true_iff in F. destruct F as [_ F]. apply existsb_exists in F as [i [I F]]. apply andb_true_iff in F as [F1 F2]. apply negb_true_iff in F1, F2. apply N.eqb_neq in F1. exists i. split; [|split; [exact F1|]].
      + cbn [In] in I. destruct I as [<-|[<-|[]]]; (split; [discriminate | reflexivity]).
      + unfold there in F2. destruct (g_meta (view G (fst c)) i); [discriminate | reflexivity].
  Qed.
  Lemma allow_run_ok : forall ch e l c, allow_run ch e l c = true -> permitted_run G ch e l c.
  Proof.
    intros ch e. induction l as [|[n s] l IH]; intros c H; cbn [allow_run permitted_run] in *; [exact Logic.I|]. apply andb_true_iff in H as [A B]. split; [apply allow_ok, A|]. intros h c' E. rewrite E in B. apply IH, B.
  Qed.
  Definition allow_job (fuel : nat) (ch : list N) (e : env) (base : accounts) (q : priv) (t recv inputs limit : N) (entropy : bytes) : bool :=
    match opening G base t recv with
    | (sb, Ok (Some code)) =>
        match new_context G e sb q t entropy with
        | Ok c0 => match invoke_with_args (noted (host (Sandbox_Model.step G) e)) fuel Accumulate code 5 limit (integer_encode (e_now e) ++ integer_encode t ++ integer_encode inputs) ((c0, c0), []) with
                   | Some (Ok (_, _, (_, l))) => allow_run ch e l (c0, c0)
                   | _ => true
                   end
        | _ => true
        end
    | _ => true
    end.
  Lemma allow_job_ok : forall fuel ch e base q t recv inputs limit entropy, allow_job fuel ch e base q t recv inputs limit entropy = true -> used_well fuel G ch e base q t recv inputs limit entropy.
  Proof.
    intros fuel ch e base q t recv inputs limit entropy H code c0 gas o c l [sb [E1 E2]] E3. unfold allow_job in H. rewrite E1, E2, E3 in H. apply allow_run_ok, H.
  Qed.
End Check.
Definition result_at (x : setting) (l : lstate) (j : job) : N * option acc_out :=
  (j_id j, match accumulate (x_fuel x) (x_G x) (for_job (x_env x) j) (l_sb l) (l_priv l) (j_id j) (j_recv j) (j_inputs j) (j_limit j) (x_entropy x) with Some (Ok o) => o | _ => None end).
Definition made_b (G : gstate) (base : accounts) (y : N * acc_out) (s : N) : bool := negb (there (view G base) s) && there (left_by G base (a_sb (snd y))) s.
Definition removed_b (G : gstate) (base : accounts) (y : N * acc_out) (s : N) : bool := there (view G base) s && negb (there (left_by G base (a_sb (snd y))) s).
Fixpoint timely (G : gstate) (base : accounts) (metered : N -> bool) (l : list (N * acc_out)) : bool :=
  match l with
  | [] => true
  | (t, a) :: l => forallb (fun p => negb (mem (map fst l) (fst p)) && forallb (fun y => negb (made_b G base y (fst p))) l) (a_prov a) && timely G base metered l
  end.
Definition same_bytes (a b : bytes) : bool := if list_eq_dec N.eq_dec a b then true else false.
Definition fair_at (x : setting) (ids ch : list N) (l : lstate) : bool :=
  let G := x_G x in let base := l_sb l in let results := map (result_at x l) (jobs_at x l) in let k := ran results in let ps := provs (metered_at l) k in
  within ids base && match g_meta (view G base) 70000 with None => true | _ => false end &&
  forallb (fun j => (j_id j <? 2 ^ 32) && allow_job G ids (x_fuel x) (j_id j :: ch) (for_job (x_env x) j) base (l_priv l) (j_id j) (j_recv j) (j_inputs j) (j_limit j) (x_entropy x)) (jobs_at x l) &&
  forallb (fun y => within ids (a_sb (snd y))) k &&
  forallb (fun y => forallb (fun z => (fst y =? fst z) || forallb (fun s => negb (made_b G base y s) || negb (made_b G base z s)) ids) k) k &&
  timely G base (metered_at l) k &&
  forallb (fun p => (N.of_nat (length (snd p)) <? 2 ^ 32) && existsb (fun b => negb (b =? 0)) (skipn 4 (e_hash (x_env x) (snd p))) && forallb (fun p' => negb (same_bytes (e_hash (x_env x) (snd p)) (e_hash (x_env x) (snd p'))) || same_bytes (snd p) (snd p')) ps) ps.
Definition lossless_at (x : setting) (l : lstate) : bool :=
  let G := x_G x in let base := l_sb l in let results := map (result_at x l) (jobs_at x l) in let k := ran results in
  forallb (fun y => forallb (fun z => negb (removed_b G base y (fst z))) k) k &&
  (sum (map t_amount (l_xfers l)) <? 2 ^ 64) && forallb (fun t => forallb (fun y => match snd y with None => negb (fst y =? t_to t) | Some _ => true end) results) (l_xfers l).
Fixpoint fair_all (n : nat) (x : setting) (ids ch : list N) (l : lstate) : bool :=
  match n with
  | O => false
  | S n => fair_at x ids ch l && match turn x l with Some (Ok (Some l')) => fair_all n x ids (map j_id (jobs_at x l) ++ ch) l' | _ => true end
  end.
Fixpoint lossless_all (n : nat) (x : setting) (l : lstate) : bool :=
  match n with
  | O => false
  | S n => lossless_at x l && match turn x l with Some (Ok (Some l')) => lossless_all n x l' | _ => true end
  end.
Section Fair.
  Variables (x : setting) (ids : list N).
  Hypothesis Sup : forall s, has (x_G x) s -> In s ids.
  Lemma results_are : forall l results, results_of (x_fuel x) (x_G x) (x_env x) (l_sb l) (l_priv l) (x_entropy x) (jobs_at x l) results -> results = map (result_at x l) (jobs_at x l).
  Proof.
    intros l results H. unfold results_of in H. induction H as [|j y js ys [A B] F IH]; [reflexivity|]. cbn [map]. rewrite <- IH. f_equal. unfold result_at. rewrite B. destruct y; cbn [fst snd] in *. subst. reflexivity.
  Qed.
  Lemma left_within : forall base rsb s, within ids base = true -> within ids rsb = true -> has (left_by (x_G x) base rsb) s -> In s ids.
  Proof.
    intros base rsb s A B H. unfold has, left_by in H. cbn [g_meta] in H. destruct (aget rsb s) eqn:E; [apply (@within_has (x_G x) ids Sup rsb) | apply (@within_has (x_G x) ids Sup base)]; assumption.
  Qed.
  Lemma worlds_in : forall G base k t r, In (t, r) (worlds G base k) -> exists a, In (t, a) k /\ r = left_by G base (a_sb a).
  Proof. intros G base k t r I. unfold worlds in I. apply in_map_iff in I as [[t' a] [E I]]. cbn [fst snd] in E. injection E as <- <-. exists a. auto. Qed.
  Lemma makes_b : forall G base t a s, makes (view G base) t (left_by G base (a_sb a)) s -> made_b G base (t, a) s = true.
  Proof. intros G base t a s [_ [X Y]]. unfold made_b. cbn [snd]. apply there_has in Y. rewrite Y, andb_true_r. apply negb_true_iff. destruct (there (view G base) s) eqn:E; [apply there_has in E; contradiction | reflexivity]. Qed.
  Lemma removes_b : forall G base t a s, removes (view G base) t (left_by G base (a_sb a)) s -> removed_b G base (t, a) s = true.
  Proof. intros G base t a s [_ [X Y]]. unfold removed_b. cbn [snd]. apply there_has in X. rewrite X. cbn [andb]. apply negb_true_iff. destruct (there (left_by G base (a_sb a)) s) eqn:E; [apply there_has in E; contradiction | reflexivity]. Qed.
  Lemma timely_ok : forall G base m k, timely G base m k = true -> in_time G base m k.
  Proof.
    intros G base m. induction k as [|[t a] k IH]; intros H l1 t0 a0 l2 s i E M I; [destruct l1; discriminate|]. cbn [timely] in H. apply andb_true_iff in H as [H1 H2]. destruct l1 as [|y l1].
    - cbn [app] in E. injection E as <- <- <-. rewrite forallb_forall in H1. specialize (H1 _ I). cbn [fst] in H1. apply andb_true_iff in H1 as [H1 H3]. split; [intros X; apply in_mem in X; rewrite X in H1; discriminate|].
      intros t' r' J Mk. apply worlds_in in J as [a' [J ->]]. apply makes_b in Mk. rewrite forallb_forall in H3. specialize (H3 _ J). rewrite Mk in H3. discriminate.
    - cbn [app] in E. injection E as _ ->. exact (IH H2 l1 t0 a0 l2 s i eq_refl M I).
  Qed.
  Lemma hash_given : forall h i, existsb (fun b => negb (b =? 0)) (skipn 4 h) = true -> h <> given_to i.
  Proof.
    intros h i H ->. unfold given_to in H. rewrite skipn_app in H. rewrite skipn_all2 in H by (rewrite le_bytes_length; lia). rewrite le_bytes_length in H. cbn in H. discriminate.
  Qed.
  Lemma fair_at_ok : forall ch l results, fair_at x ids ch l = true -> results_of (x_fuel x) (x_G x) (x_env x) (l_sb l) (l_priv l) (x_entropy x) (jobs_at x l) results -> fair x ch l results.
  Proof.
    intros ch l results H R. rewrite (@results_are l results R). clear R results. unfold fair_at in H. cbv zeta in H. rewrite !andb_true_iff in H. destruct H as [[[[[[A B] C] D] E] F] H]. split.
    - exists 70000. split; [split; [discriminate | reflexivity]|]. destruct (g_meta _ 70000); [discriminate | reflexivity].
    - rewrite forallb_forall in C. apply Forall_forall. intros j J. specialize (C j J). apply andb_true_iff in C as [C1 C2]. split; [apply N.ltb_lt, C1 | apply (@allow_job_ok (x_G x) ids Sup), C2].
    - intros t r t' r' s I1 I2 M1 M2. apply worlds_in in I1 as [a [I1 ->]]. apply worlds_in in I2 as [a' [I2 ->]]. rewrite forallb_forall in E, D. pose proof (D _ I1) as W. specialize (E _ I1). rewrite forallb_forall in E. specialize (E _ I2). cbn [fst snd] in *.
      apply orb_true_iff in E as [E|E]; [apply N.eqb_eq, E|]. exfalso. rewrite forallb_forall in E. specialize (E s (@left_within _ _ _ A W (proj2 (proj2 M1)))). apply makes_b in M1, M2. rewrite M1, M2 in E. discriminate.
    - apply timely_ok, F.
    - rewrite forallb_forall in H. split.
      + intros s i s' i' I1 I2 Eh. specialize (H _ I1). cbn [snd] in H. rewrite !andb_true_iff in H. destruct H as [_ H]. rewrite forallb_forall in H. specialize (H _ I2). cbn [snd] in H. unfold same_bytes in H. rewrite Eh in H.
        destruct (list_eq_dec N.eq_dec (e_hash (x_env x) i') (e_hash (x_env x) i')); [|contradiction]. cbn [negb orb] in H. destruct (list_eq_dec N.eq_dec i i'); [assumption | discriminate].
      + intros s i I1. specialize (H _ I1). cbn [snd] in H. rewrite !andb_true_iff in H. destruct H as [[H1 H2] _]. split; [apply N.ltb_lt, H1 | intros h; apply hash_given, H2].
  Qed.
  Lemma lossless_at_ok : forall l results, lossless_at x l = true -> results_of (x_fuel x) (x_G x) (x_env x) (l_sb l) (l_priv l) (x_entropy x) (jobs_at x l) results -> lossless x l results.
  Proof.
    intros l results H R. rewrite (@results_are l results R). clear R results. unfold lossless_at in H. cbv zeta in H. rewrite !andb_true_iff in H. destruct H as [[A B] C]. split.
    - rewrite forallb_forall in C. intros t I. specialize (C t I). rewrite forallb_forall in C. intros J. specialize (C _ J). cbn [fst snd] in C. rewrite N.eqb_refl in C. discriminate.
    - intros t r t' r' I1 I2 M. apply worlds_in in I1 as [a [I1 ->]]. apply worlds_in in I2 as [a' [I2 ->]]. rewrite forallb_forall in A. specialize (A _ I1). rewrite forallb_forall in A. specialize (A _ I2). cbn [fst] in A. apply removes_b in M. rewrite M in A. discriminate.
    - apply N.ltb_lt, B.
  Qed.
  Theorem fair_checked : forall n l0, fair_all n x ids [] l0 = true -> all_fair x l0.
  Proof.
    intros n l0 H ch l results R F. revert n H. induction R as [ch l|ch l l1 ch' l' T R IH]; intros [|n] H; try discriminate; cbn [fair_all] in H; apply andb_true_iff in H as [A B]; [apply fair_at_ok; assumption|].
    rewrite T in B. exact (IH F n B).
  Qed.
  Theorem lossless_checked : forall n l0, lossless_all n x l0 = true -> all_lossless x l0.
  Proof.
    intros n l0 H ch l results R F. revert n H. induction R as [ch l|ch l l1 ch' l' T R IH]; intros [|n] H; try discriminate; cbn [lossless_all] in H; apply andb_true_iff in H as [A B]; [apply lossless_at_ok; assumption|].
    rewrite T in B. exact (IH F n B).
  Qed.
End Fair.
(** Every service's accumulation ends without an error. *)
Definition runs_at (x : setting) (l : lstate) : bool :=
  forallb (fun j => match accumulate (x_fuel x) (x_G x) (for_job (x_env x) j) (l_sb l) (l_priv l) (j_id j) (j_recv j) (j_inputs j) (j_limit j) (x_entropy x) with Some (Ok _) => true | _ => false end) (jobs_at x l).
Fixpoint runs_all (n : nat) (x : setting) (l : lstate) : bool :=
  match n with
  | O => false
  | S n => runs_at x l && match turn x l with Some (Ok (Some l')) => runs_all n x l' | _ => true end
  end.
Lemma runs_results : forall x l, runs_at x l = true -> results_of (x_fuel x) (x_G x) (x_env x) (l_sb l) (l_priv l) (x_entropy x) (jobs_at x l) (map (result_at x l) (jobs_at x l)).
Proof.
  intros x l H. unfold runs_at in H. unfold results_of. induction (jobs_at x l) as [|j js IH]; [constructor|]. cbn [forallb] in H. apply andb_true_iff in H as [A B]. cbn [map]. constructor; [|apply IH, B].
  unfold result_at. cbn [fst snd]. split; [reflexivity|]. destruct (accumulate _ _ _ _ _ _ _ _ _ _) as [[o|y|]|]; try discriminate. reflexivity.
Qed.
Theorem runs_checked : forall x n l0, runs_all n x l0 = true -> all_run x l0.
Proof.
  intros x n l0 H ch l j R J. revert n H. induction R as [ch l|ch l l1 ch' l' T R IH]; intros [|n] H; try discriminate; cbn [runs_all] in H; apply andb_true_iff in H as [A B]; [|rewrite T in B; exact (IH J n B)].
  unfold runs_at in A. rewrite forallb_forall in A. specialize (A j J). destruct (accumulate _ _ _ _ _ _ _ _ _ _) as [[o|y|]|]; try discriminate. exists o. reflexivity.
Qed.
