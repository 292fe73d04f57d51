(** What an accumulation can do to the privileges. *)
From Verif Require Import Base Base_Proofs PvmMem_Model PvmProg_Model PvmStep_Model PvmInit_Model Sandbox_Model Sandbox_Spec Sandbox_Proofs Host_Model Host_Spec Acc_Model Round_Model Round_Spec.
Set Implicit Arguments.
Open Scope N_scope.

Fixpoint leaves {R} (P : R -> Prop) (p : aprog R) : Prop := match p with Ret r => P r | Do o k => forall a, leaves P (k a) end.
Lemma leaves_exec : forall A R (P : R -> Prop) (do : A -> sop -> A * sout) (p : aprog R) a, leaves P p -> P (snd (exec do p a)).
Proof. intros A R P do p. induction p as [r|o k IH]; intros a L; cbn [exec leaves] in *; [exact L|]. destruct (do a o) as [a' x]. apply IH, L. Qed.
Lemma leaves_bind : forall A B (P : B -> Prop) (p : aprog A) (k : A -> aprog B), (forall a, leaves P (k a)) -> leaves P (pbind p k).
Proof. intros A B P p k H. induction p as [r|o f IH]; cbn [pbind leaves]; [apply H | intros a; apply IH]. Qed.

Definition kept (r : rest) (x : result verr (hchange * rest)) : Prop := forall h r', x = Ok (h, r') -> r_priv r' = r_priv r /\ r_host r' = r_host r.
Ltac leaf :=
  repeat first
  [ progress cbv beta iota zeta
  | match goal with
    | |- leaves _ (pbind _ _) => apply leaves_bind; intros ?
    | |- leaves _ (copy_out _ _ _ _ _ _) => unfold copy_out
    | |- leaves _ (ret _ _) => unfold ret
    | |- leaves _ fail => unfold fail
    | |- leaves _ (Ret _) => cbn [leaves]
    | |- leaves _ (Do _ _) => cbn [leaves]; intros ?
    | |- leaves _ (match ?c with _ => _ end) => destruct c
    | |- kept _ (match ?c with _ => _ end) => destruct c
    | |- kept _ (Err _) => intros ? ? ?; discriminate
    | |- kept _ Panic => intros ? ? ?; discriminate
    | |- kept _ (Ok _) => intros ? ? X; injection X as <- <-; cbn [set_next add_xfer set_yield add_prov r_priv r_host]; split; reflexivity
    end ].
Lemma kept_fetch : forall e s r, leaves (kept r) (host_fetch e s r). Proof. intros. unfold host_fetch. leaf. Qed.
Lemma kept_lookup : forall s r, leaves (kept r) (host_lookup s r). Proof. intros. unfold host_lookup. leaf. Qed.
Lemma kept_read : forall s r, leaves (kept r) (host_read s r). Proof. intros. unfold host_read. leaf. Qed.
Lemma kept_write : forall s r, leaves (kept r) (host_write s r). Proof. intros. unfold host_write. leaf. Qed.
Lemma kept_info : forall s r, leaves (kept r) (host_info s r). Proof. intros. unfold host_info. leaf. Qed.
Lemma kept_new : forall e s r, leaves (kept r) (host_new e s r). Proof. intros. unfold host_new. leaf. Qed.
Lemma kept_upgrade : forall s r, leaves (kept r) (host_upgrade s r). Proof. intros. unfold host_upgrade. leaf. Qed.
Lemma kept_transfer : forall s r, leaves (kept r) (host_transfer s r). Proof. intros. unfold host_transfer. leaf. Qed.
Lemma kept_eject : forall e s r, leaves (kept r) (host_eject e s r). Proof. intros. unfold host_eject. leaf. Qed.
Lemma kept_query : forall s r, leaves (kept r) (host_query s r). Proof. intros. unfold host_query. leaf. Qed.
Lemma kept_solicit : forall e s r, leaves (kept r) (host_solicit e s r). Proof. intros. unfold host_solicit. leaf. Qed.
Lemma kept_forget : forall e s r, leaves (kept r) (host_forget e s r). Proof. intros. unfold host_forget. leaf. Qed.
Lemma kept_yield : forall s r, leaves (kept r) (host_yield s r). Proof. intros. unfold host_yield. leaf. Qed.
Lemma kept_provide : forall e s r, leaves (kept r) (host_provide e s r). Proof. intros. unfold host_provide. leaf. Qed.
Lemma kept_gas : forall s r, leaves (kept r) (host_gas s r). Proof. intros. unfold host_gas. leaf. Qed.

Lemma aget_aset : forall V (m : list (N * V)) k v k', aget (aset m k v) k' = if N.eq_dec k k' then Some v else aget m k'.
Proof.
  intros V m k v k'. unfold mget, mset, mdel. cbn [find fst]. destruct (N.eq_dec k k') as [->|D]; [reflexivity|].
  induction m as [|[a b] m IH]; [reflexivity|]. cbn [filter find fst]. destruct (N.eq_dec a k) as [->|X]; cbn [find fst].
  - destruct (N.eq_dec k k'); [contradiction|]. exact IH.
  - destruct (N.eq_dec a k'); [reflexivity | exact IH].
Qed.
Lemma aset_nodup : forall V (m : list (N * V)) k v, NoDup (map fst m) -> NoDup (map fst (aset m k v)).
Proof.
  intros V m k v H. unfold mset. cbn [map fst]. constructor.
  - intros I. apply in_map_iff in I. destruct I as [[a b] [X I]]. cbn [fst] in X. subst a. apply filter_In in I. destruct I as [_ I]. cbn [fst] in I. destruct (N.eq_dec k k); [discriminate | contradiction].
  - induction m as [|[a b] m IH]; [constructor|]. cbn [map fst] in H. inversion H; subst. unfold mdel. cbn [filter fst]. destruct (N.eq_dec a k); [apply IH; assumption|].
    cbn [map fst]. constructor; [|apply IH; assumption]. intros I. apply in_map_iff in I. destruct I as [x [X I]]. apply filter_In in I. destruct I as [I _]. apply H2. apply in_map_iff. exists x. auto.
Qed.
Section Self.
  Variable t : N.
  Let put (m : list (N * N)) (x : N * (N * N)) := aset m (fst x) (snd (snd x)).
  Let sel (k : nat) (l a : list N) := filter (fun x : N * (N * N) => fst (snd x) =? t) (combine (map N.of_nat (seq k (length l))) (combine l a)).
  Lemma self_below : forall l a k m c, (c < k)%nat -> aget (fold_left put (sel k l a) m) (N.of_nat c) = aget m (N.of_nat c).
  Proof.
    induction l as [|x l IH]; intros a k m c L; [reflexivity|]. destruct a as [|y a]; [reflexivity|]. unfold sel. cbn [length seq map combine filter fst snd].
    destruct (x =? t); cbn [fold_left]; [rewrite (IH a (S k)) by lia; unfold put; rewrite aget_aset; cbn [fst]; destruct (N.eq_dec (N.of_nat k) (N.of_nat c)); [lia | reflexivity] | apply (IH a (S k)); lia].
  Qed.
  Lemma self_get : forall l a k m j, length a = length l -> aget (fold_left put (sel k l a) m) (N.of_nat (k + j)) =
    match nth_error l j with Some x => if x =? t then nth_error a j else aget m (N.of_nat (k + j)) | None => aget m (N.of_nat (k + j)) end.
  Proof.
    induction l as [|x l IH]; intros a k m j E; [destruct j; reflexivity|]. destruct a as [|y a]; [discriminate|]. unfold sel. cbn [length seq map combine filter fst snd]. destruct j as [|j]; cbn [nth_error].
    - rewrite Nat.add_0_r. destruct (x =? t); cbn [fold_left].
      + change (aget (fold_left put (sel (S k) l a) (put m (N.of_nat k, (x, y)))) (N.of_nat k) = Some y). rewrite self_below by lia. unfold put. rewrite aget_aset. cbn [fst snd]. destruct (N.eq_dec (N.of_nat k) (N.of_nat k)); [reflexivity | contradiction].
      + change (aget (fold_left put (sel (S k) l a) m) (N.of_nat k) = aget m (N.of_nat k)). apply self_below. lia.
    - replace (k + S j)%nat with (S k + j)%nat by lia. injection E as E. destruct (x =? t); cbn [fold_left].
      + change (aget (fold_left put (sel (S k) l a) (put m (N.of_nat k, (x, y)))) (N.of_nat (S k + j)) = match nth_error l j with Some x => if x =? t then nth_error a j else aget m (N.of_nat (S k + j)) | None => aget m (N.of_nat (S k + j)) end).
        rewrite IH by exact E. unfold put. rewrite aget_aset. cbn [fst snd]. destruct (N.eq_dec (N.of_nat k) (N.of_nat (S k + j))); [lia | reflexivity].
      + apply (IH a (S k) m j E).
  Qed.
  Lemma self_nodup : forall l m, NoDup (map fst m) -> NoDup (map fst (fold_left put l m)).
  Proof. induction l as [|x l IH]; intros m H; [exact H|]. cbn [fold_left]. apply IH, aset_nodup, H. Qed.
End Self.

(** The privileges in a context of [t] that began with [q] *)
Record from (q : priv) (t : N) (p : priv) : Prop := mk_from {
  f_last : p_assign p = p_assign q /\ ro_last (p_designate p) = ro_last (p_designate q) /\ ro_last (p_registrar p) = ro_last (p_registrar q);
  f_len : forall l, p_assign_bless p = Some l -> length l = length (p_assign q);
  f_unblessed : p_assign_bless p = None -> p_manager p = p_manager q /\ p_always p = p_always q /\ p_designate p = p_designate q /\ p_registrar p = p_registrar q /\
                forall c a, aget (p_assign_self p) (N.of_nat c) = Some a -> nth_error (p_assign q) c = Some t;
  f_self : forall c, nth_error (p_assign q) c = Some t -> match aget (p_assign_self p) (N.of_nat c) with Some a => a | None => t end = assigner p (N.of_nat c);
  f_dup : NoDup (map fst (p_assign_self p));
  f_designate : ro_last (p_designate q) = t -> match ro_self (p_designate p) with Some a => a | None => t end = holder (p_designate p);
  f_registrar : ro_last (p_registrar q) = t -> match ro_self (p_registrar p) with Some a => a | None => t end = holder (p_registrar p);
  f_queues : length (p_queues p) = length (p_queues q);
  f_staging : p_staging p = None -> p_staging q = None;
  f_pairs : (ro_bless (p_designate p) = None -> ro_self (p_designate p) = None) /\ (ro_bless (p_registrar p) = None -> ro_self (p_registrar p) = None) }.
Lemma from_start : forall q t, confirmed q -> from q t q.
Proof.
  intros q t [A [B [C [D _]]]]. split; try solve [auto].
  - rewrite A. discriminate.
  - intros _. rewrite B. repeat (split; [reflexivity|]). discriminate.
  - intros c E. rewrite B. cbn. unfold assigner. rewrite A, B. cbn. rewrite Nat2N.id. symmetry. apply nth_error_nth, E.
  - rewrite B. constructor.
  - intros E. rewrite C. cbn. exact (eq_sym E).
  - intros E. rewrite D. cbn. exact (eq_sym E).
  - rewrite C, D. auto.
Qed.
Lemma chunks_len : forall n k l, length (chunks n k l) = n.
Proof. induction n as [|n IH]; intros k l; [reflexivity|]. cbn [chunks length]. rewrite IH. reflexivity. Qed.
Lemma set_at_len : forall A (l : list A) i v, length (set_at l i v) = length l.
Proof. induction l as [|x l IH]; intros [|i] v; cbn [set_at length]; [reflexivity.. | rewrite IH; reflexivity]. Qed.
Lemma set_at_nth : forall A (l : list A) i v j, nth_error (set_at l i v) j = if Nat.eq_dec i j then match nth_error l j with Some _ => Some v | None => None end else nth_error l j.
Proof.
  induction l as [|x l IH]; intros [|i] v [|j]; cbn [set_at nth_error]; try reflexivity.
  - destruct (Nat.eq_dec _ _); reflexivity.
  - rewrite IH. destruct (Nat.eq_dec i j), (Nat.eq_dec (S i) (S j)); try reflexivity; lia.
Qed.
Lemma from_bless : forall q t r manager assigns d g always, from q t (r_priv r) -> r_host r = t -> length assigns = length (p_assign q) -> from q t (r_priv (bless r manager assigns d g always)).
Proof.
  intros q t r manager assigns d g always F H L. destruct F as [[F1 [F2 F3]] F4 F5 F6 F7 F8 F9 F10 F11 F12]. unfold bless. rewrite H. split; cbn [set_priv r_priv p_assign p_designate p_registrar ro_last p_assign_bless p_assign_self p_queues ro_self ro_bless holder].
  - auto.
  - intros l E. injection E as <-. exact L.
  - discriminate.
  - intros c E. rewrite F1. unfold assigner. cbn [p_assign_bless]. rewrite Nat2N.id. pose proof (self_get t (p_assign q) assigns 0 (p_assign_self (r_priv r)) c L) as G. cbn [plus] in G. rewrite G. rewrite E, N.eqb_refl.
    assert (X : (c < length assigns)%nat) by (rewrite L; apply nth_error_Some; congruence). destruct (nth_error assigns c) as [a|] eqn:Y; [symmetry; apply nth_error_nth, Y | apply nth_error_None in Y; lia].
  - apply self_nodup, F7.
  - intros E. rewrite F2, E, N.eqb_refl. reflexivity.
  - intros E. rewrite F3, E, N.eqb_refl. reflexivity.
  - exact F10.
  - exact F11.
  - split; discriminate.
Qed.
Definition from_out (e : env) (q : priv) (t : N) (x : result verr (hchange * rest)) : Prop := forall h r', x = Ok (h, r') -> from q t (r_priv r') /\ r_host r' = t.
Ltac fleaf F H :=
  repeat first
  [ progress cbv beta iota zeta
  | match goal with
    | |- leaves _ (ret _ ?r) => unfold ret; cbn [leaves]; intros ? ? X; injection X as <- <-; split; [try exact F | try exact H]
    | |- leaves _ (match ?c with _ => _ end) => destruct c eqn:?
    end ].
Lemma nat_N_eq : forall n c, n = N.of_nat c -> N.to_nat n = c. Proof. intros n c ->. apply Nat2N.id. Qed.
Lemma from_call : forall e q t n s r, e_cores e = N.of_nat (length (p_assign q)) -> confirmed q -> from q t (r_priv r) -> r_host r = t -> leaves (from_out e q t) (call e n s r).
Proof.
  intros e q t n s r C Q F H.
  assert (K : forall p, leaves (kept r) p -> leaves (from_out e q t) p).
  { intros p. induction p as [x|o k IH]; cbn [leaves]; intros X; [|intros a; apply IH, X]. intros h r' E. destruct (X h r' E) as [-> ->]. auto. }
  assert (D : leaves (from_out e q t) (ret what_result r)) by (fleaf F H).
  unfold call. destruct (n =? 100); [exact D|]. destruct (v_gas s <? 10)%Z; [fleaf F H|].
  repeat match goal with |- leaves _ (match ?c with _ => _ end) => destruct c end; try exact D;
    try solve [apply K; first [apply kept_gas | apply kept_fetch | apply kept_lookup | apply kept_read | apply kept_write | apply kept_info | apply kept_new | apply kept_upgrade
      | apply kept_transfer | apply kept_eject | apply kept_query | apply kept_solicit | apply kept_forget | apply kept_yield | apply kept_provide]].
  - unfold host_assign. fleaf F H. destruct F as [F1 F4 F5 F6 F7 F8 F9 F10 F11 F12]. set (p := r_priv r) in *.
    match goal with X : negb (r_host r =? _) = false |- _ => apply Bool.negb_false_iff, N.eqb_eq in X; rename X into Own end.
    match goal with X : (e_cores e <=? _) = false |- _ => apply N.leb_gt in X; rename X into In' end. rewrite C in In'.
    set (core := reg s 7) in *.
    assert (Self : forall c, nth_error (p_assign q) c = Some t -> match aget (aset (p_assign_self p) core n) (N.of_nat c) with Some a => a | None => t end =
      match match p_assign_bless p with Some l => Some (set_at l (N.to_nat core) n) | None => None end with
      | Some l => nth (N.to_nat (N.of_nat c)) l 0
      | None => match aget (aset (p_assign_self p) core n) (N.of_nat c) with Some a => a | None => nth (N.to_nat (N.of_nat c)) (p_assign p) 0 end
      end).
    { intros c E. specialize (F6 c E). unfold assigner in F6. rewrite aget_aset. destruct (p_assign_bless p) as [l|] eqn:B; cbn [option_map] in *.
      - specialize (F4 _ eq_refl). rewrite Nat2N.id in *. assert (Lc : (c < length l)%nat) by (rewrite F4; apply nth_error_Some; congruence). destruct (N.eq_dec core (N.of_nat c)) as [Z|Z].
        + rewrite Z, Nat2N.id. symmetry. apply nth_error_nth. rewrite set_at_nth. destruct (Nat.eq_dec c c); [|contradiction]. destruct (nth_error l c) eqn:Y; [reflexivity | apply nth_error_None in Y; lia].
        + rewrite F6. destruct (nth_error l c) as [y|] eqn:Y; [|apply nth_error_None in Y; lia]. rewrite (nth_error_nth _ _ _ Y). symmetry. apply nth_error_nth. rewrite set_at_nth. destruct (Nat.eq_dec (N.to_nat core) c); [lia | exact Y].
      - destruct (N.eq_dec core (N.of_nat c)); [reflexivity | exact F6]. }
    split; cbn [set_priv r_priv p_assign p_designate p_registrar p_assign_bless p_assign_self p_queues p_manager p_always]; try assumption.
    + intros l E. destruct (p_assign_bless p) as [l0|] eqn:B; [|discriminate]. injection E as <-. rewrite set_at_len. auto.
    + intros E. destruct (p_assign_bless p) as [l0|] eqn:B; [discriminate|]. destruct (F5 eq_refl) as [X1 [X2 [X3 [X4 X5]]]]. repeat (split; [assumption|]). intros c a Ea. rewrite aget_aset in Ea.
      destruct (N.eq_dec core (N.of_nat c)) as [Z|Z]; [|eauto]. unfold assigner in Own. rewrite B in Own. destruct (aget (p_assign_self p) core) as [y|] eqn:Y; [rewrite Z in Y; eauto|].
      destruct F1 as [F1 _]. rewrite F1 in Own. rewrite Z, Nat2N.id in Own. destruct (nth_error (p_assign q) c) as [z|] eqn:W; [rewrite (nth_error_nth _ _ _ W) in Own; congruence | apply nth_error_None in W; lia].
    + apply aset_nodup. assumption.
    + rewrite set_at_len. assumption.
  - unfold host_bless. fleaf F H. apply from_bless; try assumption. rewrite map_length, chunks_len, C, Nat2N.id. reflexivity.
  - unfold host_designate. fleaf F H. destruct F as [F1 F4 F5 F6 F7 F8 F9 F10 F11 F12]. split; cbn; try assumption. discriminate.
Qed.
Lemma from_host : forall A (do : A -> sop -> A * sout) e q t n s c h c', e_cores e = N.of_nat (length (p_assign q)) -> confirmed q ->
  (forall d, d = fst c \/ d = snd c -> from q t (r_priv (snd d)) /\ r_host (snd d) = t) -> host do e n s c = Ok (h, c') ->
  (forall d, d = fst c' \/ d = snd c' -> from q t (r_priv (snd d)) /\ r_host (snd d) = t).
Proof.
  intros A do e q t n s [x y] h c' C Q F H. unfold host in H. cbn [fst snd] in *. destruct (n =? 17).
  - destruct (v_gas s <? 10)%Z; injection H as <- <-; cbn [fst snd]; intros d [->| ->]; apply F; auto.
  - destruct (F x (or_introl eq_refl)) as [Fx Hx]. pose proof (@leaves_exec A _ _ do _ (fst x) (@from_call e q t n s (snd x) C Q Fx Hx)) as L.
    destruct (exec do (call e n s (snd x)) (fst x)) as [a [[h0 r]| |]]; try discriminate. injection H as <- <-. cbn [fst snd] in *. intros d [->| ->]; [apply (L h0 r eq_refl) | apply F; auto].
Qed.
Lemma from_host_calls : forall A (do : A -> sop -> A * sout) e q t l c hs c', e_cores e = N.of_nat (length (p_assign q)) -> confirmed q ->
  (forall d, d = fst c \/ d = snd c -> from q t (r_priv (snd d)) /\ r_host (snd d) = t) -> host_calls do e l c = Ok (hs, c') ->
  (forall d, d = fst c' \/ d = snd c' -> from q t (r_priv (snd d)) /\ r_host (snd d) = t).
Proof.
  intros A do e q t. induction l as [|[n s] l IH]; intros c hs c' C Q F H; cbn [host_calls bind] in H; [injection H as <- <-; exact F|].
  destruct (host do e n s c) as [[h c1]| |] eqn:X; cbn [bind] in H; try discriminate. destruct (host_calls do e l c1) as [[h1 c2]| |] eqn:Y; cbn [bind] in H; try discriminate. injection H as <- <-.
  exact (IH c1 h1 c2 C Q (@from_host A do e q t n s c h c1 C Q F X) Y).
Qed.
Theorem calls_from : forall q t p, confirmed q -> from_calls q t p -> from q t p.
Proof.
  intros q t p Q [A [do [e [l [a [i [hs [c' [C [E D]]]]]]]]]].
  assert (S0 : forall d : A * rest, d = (a, mk_rest t q i [] None []) \/ d = (a, mk_rest t q i [] None []) -> from q t (r_priv (snd d)) /\ r_host (snd d) = t).
  { intros d [->| ->]; cbn [snd r_priv r_host]; (split; [apply from_start, Q | reflexivity]). }
  destruct D as [->| ->]; eapply (@from_host_calls A do e q t l); try eassumption; auto.
Qed.
