(** The merge of the privileges. *)
From Verif Require Import Base Base_Proofs PvmMem_Model PvmProg_Model PvmStep_Model PvmInit_Model Sandbox_Model Sandbox_Spec Sandbox_Proofs Host_Model Host_Spec Acc_Model Round_Model Round_Spec Round1_Proofs.
Set Implicit Arguments.
Open Scope N_scope.

Fixpoint privs (q u : priv) (l : list (N * priv)) : result rerr priv := match l with [] => Ok u | (t, p) :: l => let! u := merge_priv q t u p in privs q u l end.

Lemma own_cons : forall t p d q x, own ((t, p) :: d) q x = if N.eq_dec t x then p else own d q x.
Proof. intros. unfold own, mget. cbn [find fst]. destruct (N.eq_dec t x); reflexivity. Qed.
Lemma own_out : forall d q x, ~ In x (map fst d) -> own d q x = q.
Proof.
  intros d q x H. induction d as [|[t p] d IH]; [reflexivity|]. rewrite own_cons. destruct (N.eq_dec t x) as [->|]; [exfalso; apply H; left; reflexivity|]. apply IH. intros I. apply H. right. exact I.
Qed.
Lemma own_in : forall d q t p, NoDup (map fst d) -> In (t, p) d -> own d q t = p.
Proof.
  intros d q t p. induction d as [|[t0 p0] d IH]; intros N I; [destruct I|]. rewrite own_cons. cbn [map fst] in N. inversion N; subst. destruct I as [I|I].
  - injection I as -> ->. destruct (N.eq_dec t t); [reflexivity | contradiction].
  - destruct (N.eq_dec t0 t) as [->|]; [exfalso; apply H1; apply (in_map fst) in I; exact I | auto].
Qed.

(** What is in the union for one role *)
Definition role_inv (m v : N) (get : priv -> role) (q : priv) (d : list (N * priv)) (x : role) : Prop :=
  ro_last x = v /\
  ro_bless x = match ro_bless (get (own d q m)) with Some a => if a =? v then None else Some a | None => None end /\
  match ro_self x with
  | Some a => a = holder (get (own d q v)) /\ a <> v
  | None => holder (get (own d q v)) = v \/ (v = m /\ ro_bless x <> None)
  end.
Record inv (q : priv) (d : list (N * priv)) (u : priv) : Prop := mk_inv {
  i_manager : p_manager u = p_manager (own d q (p_manager q)) /\ p_always u = p_always (own d q (p_manager q)) /\ p_assign u = p_assign q /\
              p_assign_bless u = p_assign_bless (own d q (p_manager q));
  i_dup : NoDup (map fst (p_assign_self u));
  i_some : forall c a, aget (p_assign_self u) (N.of_nat c) = Some a -> exists a0, nth_error (p_assign q) c = Some a0 /\ a = assigner (own d q a0) (N.of_nat c) /\ a <> a0;
  i_none : forall c a0, nth_error (p_assign q) c = Some a0 -> aget (p_assign_self u) (N.of_nat c) = None ->
           assigner (own d q a0) (N.of_nat c) = a0 \/ (a0 = p_manager q /\ p_assign_bless u <> None);
  i_designate : role_inv (p_manager q) (ro_last (p_designate q)) p_designate q d (p_designate u);
  i_registrar : role_inv (p_manager q) (ro_last (p_registrar q)) p_registrar q d (p_registrar u);
  i_queues : length (p_queues u) = length (p_queues q) /\ forall c a, nth_error (p_assign q) c = Some a -> nth_error (p_queues u) c = nth_error (p_queues (own d q a)) c;
  i_staging : p_staging u = p_staging (own d q (ro_last (p_designate q))) }.
Lemma assigner_confirmed : forall q c a, confirmed q -> nth_error (p_assign q) c = Some a -> assigner q (N.of_nat c) = a.
Proof. intros q c a [A [B _]] E. unfold assigner. rewrite A, B. cbn. rewrite Nat2N.id. apply nth_error_nth, E. Qed.
Lemma inv_start : forall q, confirmed q -> inv q [] q.
Proof.
  intros q Q. pose proof Q as [A [B [C [D L]]]].
  split; change (own [] q) with (fun _ : N => q); cbv beta.
  - auto.
  - rewrite B. constructor.
  - rewrite B. discriminate.
  - intros c a0 E _. left. apply assigner_confirmed; assumption.
  - unfold role_inv. change (own [] q) with (fun _ : N => q). cbv beta. rewrite C. repeat split. left. reflexivity.
  - unfold role_inv. change (own [] q) with (fun _ : N => q). cbv beta. rewrite D. repeat split. left. reflexivity.
  - auto.
  - reflexivity.
Qed.
Lemma filter_get : forall (f : N -> bool) (l : list (N * N)) k, aget (filter (fun x => f (fst x)) l) k = if f k then aget l k else None.
Proof.
  intros f l k. unfold mget. induction l as [|[a b] l IH]; [destruct (f k); reflexivity|]. cbn [filter find fst]. destruct (N.eq_dec a k) as [->|D].
  - destruct (f k) eqn:F; [cbn [find fst]; destruct (N.eq_dec k k); [reflexivity | contradiction] | exact IH].
  - destruct (f a); [cbn [find fst]; destruct (N.eq_dec a k); [contradiction | exact IH] | exact IH].
Qed.
Lemma merge_self_ok : forall last o self, NoDup (map fst o) -> (forall c a, In (c, a) o -> nth_error last (N.to_nat c) <> None) -> NoDup (map fst self) ->
  exists s, merge_self last self o = Ok s /\ NoDup (map fst s) /\
    forall c, aget s c = match aget o c with Some a => match nth_error last (N.to_nat c) with Some a0 => if a =? a0 then aget self c else Some a | None => None end | None => aget self c end.
Proof.
  intros last. induction o as [|[c a] o IH]; intros self Nd K U; [exists self; split; [reflexivity|]; split; [exact U | reflexivity]|]. cbn [merge_self].
  destruct (nth_error last (N.to_nat c)) as [a0|] eqn:E; [|exfalso; apply (K c a); [left; reflexivity | exact E]]. cbn [map fst] in Nd. inversion Nd as [|x y N1 N2]; subst.
  assert (U' : NoDup (map fst (if a =? a0 then self else aset self c a))) by (destruct (a =? a0); [exact U | apply aset_nodup, U]).
  destruct (IH _ N2 (fun c0 a1 I => K c0 a1 (or_intror I)) U') as [s [S1 [S2 S3]]]. exists s. split; [exact S1|]. split; [exact S2|]. intros k. rewrite S3.
  assert (X : aget ((c, a) :: o) k = if N.eq_dec c k then Some a else aget o k) by (unfold mget; cbn [find fst]; destruct (N.eq_dec c k); reflexivity). rewrite X.
  destruct (N.eq_dec c k) as [->|D].
  - assert (No : aget o k = None). { destruct (aget o k) eqn:Y; [|reflexivity]. exfalso. apply N1. unfold mget in Y. destruct (find (fun e : N * N => if N.eq_dec (fst e) k then true else false) o) as [[k1 z]|] eqn:F; [|discriminate]. apply find_some in F. destruct F as [F1 F2]. cbn [fst] in F2. destruct (N.eq_dec k1 k) as [->|]; [|discriminate]. apply (in_map fst) in F1. exact F1. }
    rewrite No, E. destruct (a =? a0); [reflexivity|]. rewrite aget_aset. destruct (N.eq_dec k k); [reflexivity | contradiction].
  - destruct (aget o k); [destruct (nth_error last (N.to_nat k)); [|reflexivity]|]; destruct (a =? a0); rewrite ?aget_aset; try reflexivity; destruct (N.eq_dec c k); congruence.
Qed.
Lemma role_step : forall get (q : priv) t p d u m v, ~ In t (map fst d) -> ro_last (get p) = v -> ro_last (get q) = v -> get q = mk_role v None None ->
  (ro_bless (get p) = None -> ro_self (get p) = None) -> (v = t -> match ro_self (get p) with Some a => a | None => t end = holder (get p)) ->
  role_inv m v get q d u ->
  role_inv m v get q ((t, p) :: d) (merge_role u (mk_role (ro_last (get p)) (if t =? m then ro_bless (get p) else None) (if t =? v then ro_self (get p) else None))).
Proof.
  intros get q t p d u m v Out L Lq Gq Un Self [I1 [I2 I3]]. unfold role_inv. rewrite !own_cons. unfold merge_role. cbn [ro_bless ro_self ro_last]. rewrite L.
  assert (Ov : v = t -> own d q v = q) by (intros ->; apply own_out, Out). assert (Om : m = t -> own d q m = q) by (intros ->; apply own_out, Out).
  assert (Hq : holder (get q) = v) by (rewrite Gq; reflexivity).
  destruct (N.eqb_spec t m) as [Em|Dm]; destruct (N.eqb_spec t v) as [Ev|Dv].
  - (* manager and incumbent *) destruct (N.eq_dec t m); [|contradiction]. destruct (N.eq_dec t v); [|contradiction]. specialize (Self (eq_sym Ev)). rewrite Om in I2 by auto. rewrite Ov in I3 by auto. rewrite Gq in I2. cbn [ro_bless] in I2.
    assert (Su : ro_self u = None) by (destruct (ro_self u) as [a|]; [destruct I3 as [I3 I4]; rewrite Hq in I3; contradiction | reflexivity]).
    destruct (ro_bless (get p)) as [b|] eqn:B.
    + assert (H : holder (get p) = b) by (unfold holder; rewrite B; reflexivity). destruct (N.eqb_spec b v) as [Eb|Db].
      * destruct (ro_self (get p)) as [a|] eqn:S.
        -- assert (Ea : a = v) by congruence. rewrite Ea. rewrite N.eqb_refl, Su. split; [exact I1|]. split; [exact I2|]. left; congruence.
        -- rewrite Su. split; [exact I1|]. split; [exact I2|]. left; congruence.
      * cbn [ro_last ro_bless ro_self]. split; [exact I1|]. split; [reflexivity|]. rewrite Su. right; split; [congruence | discriminate].
    + specialize (Un eq_refl). rewrite Un in *. rewrite Su. split; [exact I1|]. split; [exact I2|]. left; congruence.
  - (* manager only *) destruct (N.eq_dec t m); [|contradiction]. destruct (N.eq_dec t v); [contradiction|]. rewrite Om in I2 by auto. rewrite Gq in I2. cbn [ro_bless] in I2.
    assert (X : match ro_self u with Some a => a = holder (get (own d q v)) /\ a <> v | None => holder (get (own d q v)) = v end).
    { destruct (ro_self u); [exact I3|]. destruct I3 as [I3|[I3 _]]; [exact I3 | congruence]. }
    destruct (ro_bless (get p)) as [b|] eqn:B; [destruct (b =? v)|]; cbn [ro_last ro_bless ro_self]; (split; [exact I1|]; split; [first [reflexivity | exact I2]|]; destruct (ro_self u); auto).
  - (* incumbent only *) destruct (N.eq_dec t m); [contradiction|]. destruct (N.eq_dec t v); [|contradiction]. specialize (Self (eq_sym Ev)). rewrite Ov in I3 by auto.
    assert (Su : ro_self u = None) by (destruct (ro_self u) as [a|]; [destruct I3 as [I3 I4]; rewrite Hq in I3; contradiction | reflexivity]).
    destruct (ro_self (get p)) as [a|] eqn:S; [destruct (N.eqb_spec a v) as [Ea|Da]|]; cbn [ro_last ro_bless ro_self]; rewrite ?Su; (split; [exact I1|]; split; [exact I2|]); [left; congruence | split; congruence | left; congruence].
  - (* neither *) destruct (N.eq_dec t m); [contradiction|]. destruct (N.eq_dec t v); [contradiction|]. auto.
Qed.
Lemma role_end : forall get q d u m v, role_inv m v get q d u -> (ro_bless (get (own d q m)) = None -> ro_self (get (own d q m)) = None) -> ro_last (get (own d q m)) = v ->
  confirm_role u = mk_role (R v (holder (get (own d q m))) (holder (get (own d q v)))) None None.
Proof.
  intros get q d u m v [I1 [I2 I3]] Un L. unfold confirm_role, R. f_equal. rewrite I2 in *. set (h := holder (get (own d q v))) in *.
  assert (H : holder (get (own d q m)) = match ro_bless (get (own d q m)) with Some b => b | None => v end) by (unfold holder; destruct (ro_bless (get (own d q m))); [reflexivity | rewrite Un by reflexivity; exact L]).
  rewrite H. destruct (ro_bless (get (own d q m))) as [b|].
  - destruct (N.eqb_spec b v) as [Eb|D]; [|reflexivity]. destruct (ro_self u) as [a|]; [destruct I3; assumption|]. destruct I3 as [I3|[_ I3]]; congruence.
  - rewrite N.eqb_refl. destruct (ro_self u) as [a|]; [destruct I3; assumption|]. destruct I3 as [I3|[_ I3]]; congruence.
Qed.
Lemma queues_nth : forall t last u o c, nth_error (merge_queues t last u o) c =
  match nth_error u c with None => None | Some x => Some (match nth_error last c, nth_error o c with Some a, Some y => if a =? t then y else x | _, _ => x end) end.
Proof.
  intros t last u o c. unfold merge_queues.
  assert (X : forall A (l : list A) k, nth_error (combine (seq k (length l)) l) c = match nth_error l c with Some x => Some ((k + c)%nat, x) | None => None end).
  { intros A l. revert c. induction l as [|x l IH]; intros [|c] k; cbn [length seq combine nth_error]; try reflexivity; [rewrite Nat.add_0_r; reflexivity|]. rewrite IH. replace (S k + c)%nat with (k + S c)%nat by lia. reflexivity. }
  rewrite nth_error_map, X. destruct (nth_error u c); reflexivity.
Qed.
Lemma queues_len : forall t last u o, length (merge_queues t last u o) = length u.
Proof. intros. unfold merge_queues. rewrite map_length, combine_length, seq_length. lia. Qed.

Lemma step_inv : forall q d u t p, confirmed q -> ~ In t (map fst d) -> from q t p -> inv q d u -> exists u', merge_priv q t u p = Ok u' /\ inv q ((t, p) :: d) u'.
Proof.
  intros q d u t p Q Out F I. pose proof Q as [Q1 [Q2 [Q3 [Q4 Q5]]]]. pose proof F as [[F1 [F2 F3]] F4 F5 F6 F7 F8 F9 F10 F11 [F12 F13]]. pose proof I as [[I1 [I2 [I3 I4]]] I5 I6 I7 I8 I9 [I10 I11] I12].
  set (m := p_manager q) in *. set (keepf := fun c : N => match nth_error (p_assign q) (N.to_nat c) with Some a => a =? t | None => false end).
  assert (Om : m = t -> own d q m = q) by (intros ->; apply own_out, Out).
  assert (MS : exists s, merge_self (p_assign p) (p_assign_self u) (p_assign_self (masked q t p)) = Ok s /\ NoDup (map fst s) /\
    forall c, aget s (N.of_nat c) = match nth_error (p_assign q) c with
      | Some a0 => if a0 =? t then match aget (p_assign_self p) (N.of_nat c) with Some a => if a =? a0 then aget (p_assign_self u) (N.of_nat c) else Some a | None => aget (p_assign_self u) (N.of_nat c) end else aget (p_assign_self u) (N.of_nat c)
      | None => aget (p_assign_self u) (N.of_nat c) end).
  { destruct (@merge_self_ok (p_assign p) (p_assign_self (masked q t p)) (p_assign_self u)) as [s [S1 [S2 S3]]]; cbn [masked p_assign_self].
    - assert (X : forall l, NoDup (map fst l) -> NoDup (map fst (filter (fun x : N * N => keepf (fst x)) l))).
      { intros l N. induction l as [|[a b] l IH]; [constructor|]. cbn [map fst] in N. inversion N as [|x y N1 N2]; subst. cbn [filter fst]. destruct (keepf a); [|auto]. cbn [map fst]. constructor; [|auto].
        intros J. apply in_map_iff in J. destruct J as [z [Z J]]. apply filter_In in J. apply N1. apply in_map_iff. exists z. tauto. }
      apply X, F7.
    - intros c a J. apply filter_In in J. destruct J as [_ J]. cbn [fst] in J. rewrite F1. destruct (nth_error (p_assign q) (N.to_nat c)); discriminate.
    - exact I5.
    - exists s. split; [exact S1|]. split; [exact S2|]. intros c. rewrite S3. cbn [masked p_assign_self]. rewrite (filter_get keepf). unfold keepf. rewrite Nat2N.id, F1. destruct (nth_error (p_assign q) c) as [a0|] eqn:E.
      + destruct (a0 =? t); [destruct (aget (p_assign_self p) (N.of_nat c)) as [a|]; reflexivity | reflexivity].
      + reflexivity. }
  destruct MS as [s [S1 [S2 S3]]].
  assert (Dd : role_inv m (ro_last (p_designate q)) p_designate q ((t, p) :: d) (merge_role (p_designate u) (p_designate (masked q t p)))).
  { apply role_step; try assumption; try reflexivity. }
  assert (Dr : role_inv m (ro_last (p_registrar q)) p_registrar q ((t, p) :: d) (merge_role (p_registrar u) (p_registrar (masked q t p)))).
  { apply role_step; try assumption; try reflexivity. }
  assert (Dq : length (merge_queues t (p_assign p) (p_queues u) (p_queues p)) = length (p_queues q) /\
    forall c a, nth_error (p_assign q) c = Some a -> nth_error (merge_queues t (p_assign p) (p_queues u) (p_queues p)) c = nth_error (p_queues (own ((t, p) :: d) q a)) c).
  { rewrite queues_len. split; [exact I10|]. intros c a E. rewrite queues_nth, F1, E, own_cons. destruct (N.eqb_spec a t) as [->|D]; [destruct (N.eq_dec t t); [|contradiction] | destruct (N.eq_dec t a); [congruence|]].
    - destruct (nth_error (p_queues u) c) eqn:X; destruct (nth_error (p_queues p) c) eqn:Y; try reflexivity.
      + apply nth_error_None in Y. assert ((c < length (p_queues u))%nat) by (apply nth_error_Some; congruence). lia.
      + apply nth_error_None in X. assert ((c < length (p_queues p))%nat) by (apply nth_error_Some; congruence). lia.
    - rewrite <- (I11 _ _ E). destruct (nth_error (p_queues u) c); [destruct (nth_error (p_queues p) c); reflexivity | reflexivity]. }
  assert (Ds : (if t =? ro_last (p_designate u) then match p_staging p with Some x => Some x | None => p_staging u end else p_staging u) = p_staging (own ((t, p) :: d) q (ro_last (p_designate q)))).
  { destruct I8 as [I8 _]. rewrite I8, own_cons. destruct (N.eqb_spec t (ro_last (p_designate q))) as [E|D]; destruct (N.eq_dec t (ro_last (p_designate q))); try contradiction; [|exact I12].
    destruct (p_staging p) eqn:X; [reflexivity|]. rewrite I12, own_out by (rewrite <- E; exact Out). auto. }
  unfold merge_priv. fold m. destruct (N.eqb_spec t m) as [Em|Dm].
  - (* the manager *) replace (p_assign_bless (masked q t p)) with (p_assign_bless p) by (cbn [masked p_assign_bless]; fold m; rewrite Em, N.eqb_refl; reflexivity). cbn [andb].
    rewrite Om in I1, I2, I4 by auto. rewrite Q1 in I4. destruct (p_assign_bless p) as [l|] eqn:B; cbn [bind fst snd].
    + eexists. split; [reflexivity|]. split; cbn [p_manager p_always p_assign p_assign_bless p_assign_self p_designate p_registrar p_queues p_staging masked]; fold m; try assumption.
      * rewrite own_cons. destruct (N.eq_dec t m); [|contradiction]. rewrite B. auto.
      * intros c a E. destruct (I6 c a E) as [a0 [X [Y Z]]]. exists a0. split; [exact X|]. rewrite own_cons. destruct (N.eq_dec t a0) as [<-|]; [|auto]. rewrite own_out in Y by exact Out. rewrite (@assigner_confirmed _ _ _ Q X) in Y. contradiction.
      * intros c a0 X Y. rewrite own_cons. destruct (N.eq_dec t a0) as [<-|D]; [right; split; [exact Em | discriminate]|]. left. destruct (I7 c a0 X Y) as [W|[W _]]; [exact W | congruence].
    + cbn [masked p_assign] in *. rewrite S1. cbn [bind fst snd]. destruct (F5 eq_refl) as [G1 [G2 [G3 [G4 G5]]]]. eexists. split; [reflexivity|].
      split; cbn [p_manager p_always p_assign p_assign_bless p_assign_self p_designate p_registrar p_queues p_staging]; fold m; try assumption.
      * rewrite own_cons. destruct (N.eq_dec t m); [|contradiction]. rewrite B, G1, G2. auto.
      * intros c a E. rewrite S3 in E. destruct (nth_error (p_assign q) c) as [a0|] eqn:X; [|destruct (I6 c a E) as [a0 [X' _]]; congruence]. exists a0. split; [reflexivity|]. rewrite own_cons.
        destruct (N.eqb_spec a0 t) as [->|D]; [destruct (N.eq_dec t t); [|contradiction] | destruct (N.eq_dec t a0); [congruence|]; destruct (I6 c a E) as [a1 [X1 X2]]; congruence].
        specialize (F6 _ X). destruct (aget (p_assign_self p) (N.of_nat c)) as [b|].
        -- destruct (N.eqb_spec b t) as [->|Db]; [|injection E as <-; auto]. destruct (I6 c a E) as [a1 [X1 [X2 X3]]]. assert (a1 = t) by congruence. subst a1. rewrite own_out in X2 by exact Out. rewrite (@assigner_confirmed _ _ _ Q X) in X2. contradiction.
        -- destruct (I6 c a E) as [a1 [X1 [X2 X3]]]. assert (a1 = t) by congruence. subst a1. rewrite own_out in X2 by exact Out. rewrite (@assigner_confirmed _ _ _ Q X) in X2. contradiction.
      * intros c a0 X E. rewrite S3, X in E. rewrite own_cons. destruct (N.eqb_spec a0 t) as [->|D]; [destruct (N.eq_dec t t); [|contradiction] | destruct (N.eq_dec t a0); [congruence | auto]].
        left. specialize (F6 _ X). destruct (aget (p_assign_self p) (N.of_nat c)) as [b|]; [destruct (N.eqb_spec b t) as [->|Db]; [auto | discriminate] | auto].
  - (* another *) replace (p_assign_bless (masked q t p)) with (@None (list N)) by (cbn [masked p_assign_bless]; fold m; destruct (N.eqb_spec t m); [contradiction | reflexivity]). cbn [andb masked p_assign] in *.
    rewrite S1. cbn [bind fst snd]. eexists. split; [reflexivity|]. split; cbn [p_manager p_always p_assign p_assign_bless p_assign_self p_designate p_registrar p_queues p_staging]; fold m; try assumption.
    + rewrite own_cons. destruct (N.eq_dec t m); [contradiction|]. auto.
    + intros c a E. rewrite S3 in E. destruct (nth_error (p_assign q) c) as [a0|] eqn:X; [|destruct (I6 c a E) as [a0 [X' _]]; congruence]. exists a0. split; [reflexivity|]. rewrite own_cons.
      destruct (N.eqb_spec a0 t) as [->|D]; [destruct (N.eq_dec t t); [|contradiction] | destruct (N.eq_dec t a0); [congruence|]; destruct (I6 c a E) as [a1 [X1 X2]]; congruence].
      specialize (F6 _ X). destruct (aget (p_assign_self p) (N.of_nat c)) as [b|].
      * destruct (N.eqb_spec b t) as [->|Db]; [|injection E as <-; auto]. destruct (I6 c a E) as [a1 [X1 [X2 X3]]]. assert (a1 = t) by congruence. subst a1. rewrite own_out in X2 by exact Out. rewrite (@assigner_confirmed _ _ _ Q X) in X2. contradiction.
      * destruct (I6 c a E) as [a1 [X1 [X2 X3]]]. assert (a1 = t) by congruence. subst a1. rewrite own_out in X2 by exact Out. rewrite (@assigner_confirmed _ _ _ Q X) in X2. contradiction.
    + intros c a0 X E. rewrite S3, X in E. rewrite own_cons. destruct (N.eqb_spec a0 t) as [->|D]; [destruct (N.eq_dec t t); [|contradiction] | destruct (N.eq_dec t a0); [congruence | auto]].
      left. specialize (F6 _ X). destruct (aget (p_assign_self p) (N.of_nat c)) as [b|]; [destruct (N.eqb_spec b t) as [->|Db]; [auto | discriminate] | auto].
Qed.
