(** The tasks of a block stay apart (Flow_Model). *)
From Verif Require Import Base Base_Proofs Sched_Model Sched_Spec Sched_Proofs Flow_Model.

Section Proofs.
  Context {X : Type}.
  Notation value := (value X). Notation prog := (prog comp value (option (list X))).
  (** The part of a component others may read while it changes: of the entropy all but the newest. *)
  Definition part (k : comp) (v : value) : value := match k, v with Entropy, Eta l => Eta (tl l) | _, _ => v end.

  (** Footprints, by the structure of a program. *)
  Fixpoint fits (G : comp -> (option value -> prog) -> Prop) (C : comp -> Prop) (M : comp -> bool -> (value -> option value) -> Prop) (D : comp -> Prop) (p : prog) : Prop :=
    match p with
    | Ret _ => True
    | Get k c => G k c /\ forall o, fits G C M D (c o)
    | GetClean k c => C k /\ forall o, fits G C M D (c o)
    | Mut k r f c => M k r f /\ forall b, fits G C M D (c b)
    | Add k v c => D k /\ forall b, fits G C M D (c b)
    end.
  Lemma fits_within : forall G C M D q p, within q p -> fits G C M D p -> fits G C M D q.
  Proof.
    intros G C M D q p W. induction W as [p|q k c o W IH|q k c o W IH|q k r f c b W IH|q k x c b W IH]; intro F; [exact F|..]; apply IH; apply F.
  Qed.
  Section Fits.
    Variables (G : comp -> (option value -> prog) -> Prop) (C : comp -> Prop) (M : comp -> bool -> (value -> option value) -> Prop) (D : comp -> Prop).
    Notation fits := (fits G C M D).
    Lemma fits_none : fits (Ret None). Proof. exact I. Qed.
    Lemma fits_need : forall k c, G k (fun o => match o with Some v => c v | None => Ret None end) -> (forall v, fits (c v)) -> fits (need k c).
    Proof. intros k c Gk F. split; [exact Gk|]. intros [v|]; [apply F|exact I]. Qed.
    Lemma fits_need_clean : forall k c, C k -> (forall v, fits (c v)) -> fits (need_clean k c).
    Proof. intros k c Ck F. split; [exact Ck|]. intros [v|]; [apply F|exact I]. Qed.
    Lemma fits_change : forall k f c, M k false f -> fits c -> fits (change k f c).
    Proof. intros k f c Mk F. split; [exact Mk|]. intros [|]; [exact F|exact I]. Qed.
    Lemma fits_disputes : forall d c, C Disputes -> C Active -> C Past -> fits c -> fits (check_disputes d c).
    Proof.
      intros d c C1 C2 C3 F. unfold check_disputes. destruct (d_shape d) as [| |u]; [exact F|exact I|].
      apply fits_need_clean; [exact C1|]. intro ds. apply fits_need_clean; [exact C2|]. intro a. apply fits_need_clean; [exact C3|]. intro p.
      destruct (d_verdicts_ok d ds a p); [|exact I]. destruct (d_offenders d); [|exact F]. apply fits_need_clean; [exact C1|]. intro ds'. destruct (d_offenders_ok d ds' a p); [exact F|exact I].
    Qed.
  End Fits.

  (** From footprints to the conditions of the specification. *)
  Lemma fits_changes : forall G C M D p k, fits G C M D p -> changes p k -> (exists r f, M k r f) \/ D k.
  Proof.
    intros G C M D p k F [[r [f [c W]]]|[x [c W]]]; pose proof (fits_within _ _ _ _ _ _ W F) as Q; [left; exists r, f; apply Q|right; apply Q].
  Qed.
  Lemma fits_adds : forall G C M D p k, fits G C M D p -> adds p k -> D k.
  Proof. intros G C M D p k F [x [c W]]. exact (proj1 (fits_within _ _ _ _ _ _ W F)). Qed.
  Lemma fits_clean : forall G C M D p k, fits G C M D p -> reads_clean p k -> C k.
  Proof. intros G C M D p k F [c W]. exact (proj1 (fits_within _ _ _ _ _ _ W F)). Qed.
  Lemma fits_reads : forall G C M D p k, fits G C M D p -> reads p k -> exists c, G k c.
  Proof. intros G C M D p k F [c W]. exists c. exact (proj1 (fits_within _ _ _ _ _ _ W F)). Qed.

  Definition only (l : list comp) (k : comp) : Prop := In k l.
  Definition only_mut (l : list comp) (k : comp) (r : bool) (f : value -> option value) : Prop := In k l.
  Definition any (k : comp) (c : option value -> prog) : Prop := True.
  Definition reads_only (l : list comp) (k : comp) (c : option value -> prog) : Prop := In k l.
  Ltac fit := repeat first
    [ exact I | apply fits_disputes | apply fits_need; [|intro] | apply fits_need_clean; [|intro] | apply fits_change
    | match goal with |- fits _ _ _ _ (if ?b then _ else _) => destruct b end
    | match goal with |- fits _ _ _ _ (match ?o with Some _ => _ | None => _ end) => destruct o end
    | progress (unfold only, only_mut, reads_only, any; cbn [In]; tauto) ].

  (** * The first stage *)
  Lemma fits_disputes_task : forall d, fits (reads_only [Staging; Disputes]) (only [Disputes; Active; Past]) (only_mut [Disputes]) (only []) (disputes_task d).
  Proof. intro d. unfold disputes_task. fit. split; [unfold reads_only; cbn [In]; tauto|]. intros [st|]; fit. Qed.
  Lemma fits_entropy_task : forall e, fits (reads_only []) (only []) (only_mut [Entropy]) (only []) (entropy_epoch_task e).
  Proof. intro e. unfold entropy_epoch_task. fit. Qed.
  Lemma fits_past_task : forall (e : bool) (f : value -> value), fits (reads_only []) (only (if e then [Active] else [])) (only_mut (if e then [Past] else [])) (only []) (past_task e f).
  Proof. intros e f. unfold past_task. destruct e; fit. Qed.
  Lemma fits_active_task : forall (e : bool) (f : value -> value), fits (reads_only []) (only (if e then [SafroleC] else [])) (only_mut (if e then [Active] else [])) (only []) (active_task e f).
  Proof. intros e f. unfold active_task. destruct e; fit. Qed.
  Lemma fits_history_task : forall (f : value -> bool) (g : value -> value), fits (reads_only []) (only [History]) (only_mut [History]) (only []) (history_task f g).
  Proof. intros f g. unfold history_task. fit. Qed.

  Definition first_owner (e : bool) (k : comp) : option nat :=
    match k with Disputes => Some 0%nat | Entropy => Some 1%nat | Past => if e then Some 2%nat else None | Active => if e then Some 3%nat else None | History => Some 4%nat | _ => None end.
  Lemma nth5 : forall (B : Type) (a b c d e : B) i x, nth_error [a; b; c; d; e] i = Some x -> (i = 0%nat /\ x = a) \/ (i = 1%nat /\ x = b) \/ (i = 2%nat /\ x = c) \/ (i = 3%nat /\ x = d) \/ (i = 4%nat /\ x = e).
  Proof. intros B a b c d e i x E. destruct i as [|[|[|[|[|i]]]]]; cbn in E; [..|destruct i; discriminate]; inversion E; tauto. Qed.
  Definition feet (b : block_data X) (i : nat) : list comp * list comp * list comp :=
    match i with
    | 0%nat => ([Staging; Disputes], [Disputes; Active; Past], [Disputes])
    | 1%nat => ([], [], [Entropy])
    | 2%nat => ([], if b_epoch b then [Active] else [], if b_epoch b then [Past] else [])
    | 3%nat => ([], if b_epoch b then [SafroleC] else [], if b_epoch b then [Active] else [])
    | _ => ([], [History], [History])
    end.
  Lemma first_fits : forall b i p, nth_error (first_tasks b) i = Some p ->
    fits (reads_only (fst (fst (feet b i)))) (only (snd (fst (feet b i)))) (only_mut (snd (feet b i))) (only []) p /\ (i < 5)%nat.
  Proof.
    intros b i p E. apply nth5 in E. destruct E as [[-> ->]|[[-> ->]|[[-> ->]|[[-> ->]|[-> ->]]]]]; (split; [|lia]); cbn [feet fst snd].
    - apply fits_disputes_task.
    - apply fits_entropy_task.
    - apply fits_past_task.
    - apply fits_active_task.
    - apply fits_history_task.
  Qed.
  Lemma first_apart : forall b (ready : comp -> Prop), (b_epoch b = true -> ready Active /\ ready Past) -> apart part (first_owner (b_epoch b)) (first_tasks b) ready.
  Proof.
    intros b ready R. split; [|split].
    - intros i p k N C. destruct (first_fits b i p N) as [F L]. destruct (fits_changes _ _ _ _ _ _ F C) as [[r [f Q]]|Q]; [|destruct Q].
      unfold only_mut in Q. destruct i as [|[|[|[|[|i]]]]]; [..|lia]; cbn [feet snd] in Q; destruct (b_epoch b); cbn [In] in Q; repeat (destruct Q as [<-|Q]; [reflexivity|]); contradiction.
    - intros i j p q k Ni Nj D O Rd. exfalso. destruct (first_fits b j q Nj) as [F L]. destruct (fits_reads _ _ _ _ _ _ F Rd) as [c Q]. unfold reads_only in Q.
      destruct j as [|[|[|[|[|j]]]]]; [..|lia]; cbn [feet fst] in Q; try contradiction. cbn [In] in Q.
      destruct Q as [<-|[<-|[]]]; cbn in O; [discriminate|]. inversion O. congruence.
    - intros i j p q k Ni Nj D O Rd. destruct (first_fits b j q Nj) as [F L]. pose proof (fits_clean _ _ _ _ _ _ F Rd) as Q. unfold only in Q.
      destruct (first_fits b i p Ni) as [Fi _]. split; [intro Ad; exact (fits_adds _ _ _ _ _ _ Fi Ad)|].
      destruct j as [|[|[|[|[|j]]]]]; [..|lia]; cbn [feet fst snd] in Q; destruct (b_epoch b); cbn [In] in Q; repeat (destruct Q as [<-|Q]; [cbn in O; try discriminate; try (inversion O; congruence); try (apply R; reflexivity)|]); try contradiction.
  Qed.

  (** * The second stage *)
  Definition sees (k : comp) (c : option value -> prog) : Prop := k = Entropy -> forall x y, part k x = part k y -> c (Some x) = c (Some y).
  Lemma eta_part : forall x y n, part Entropy x = part Entropy y -> eta (S n) x = eta (S n) y.
  Proof.
    intros [l|x] [l'|y] n E; cbn [part] in E; inversion E; [|reflexivity].
    destruct l as [|a l], l' as [|a' l']; cbn [tl eta nth] in *; subst; try reflexivity; destruct n; reflexivity.
  Qed.
  Notation rfits := (fits sees (fun k => k <> Entropy) (only_mut [Pending]) (only [])).
  Ltac other := let Z := fresh "Z" in unfold sees; intro Z; discriminate Z.
  Lemma fits_fin : forall (g : credential) (c : X -> prog) b t e s d, (forall x, rfits (c x)) -> rfits match c_check g b t e s d with Some x => c x | None => Ret None end.
  Proof. intros. destruct (c_check g b t e s d); [auto|exact I]. Qed.
  Lemma fits_credential : forall (g : credential) (c : X -> prog), (forall x, rfits (c x)) -> rfits (check_credential g c).
  Proof.
    intros g c F. unfold check_credential. apply fits_need; [other|]. intro t. destruct (c_current g t).
    - apply fits_need; [other|]. intro t'. apply fits_need.
      + intros _ x y E. cbv zeta. rewrite (eta_part x y 1 E). reflexivity.
      + intro e. cbv zeta. apply fits_need; [other|]. intro s. apply fits_need; [other|]. intro d. apply fits_fin. exact F.
    - apply fits_need; [other|]. intro t'. apply fits_need; [other|]. intro d. apply fits_need.
      + intros _ x y E. cbv zeta. rewrite (eta_part x y 1 E), (eta_part x y 2 E). reflexivity.
      + intro e. cbv zeta. destruct (c_same_epoch g t').
        * apply fits_need; [other|]. intro s. apply fits_fin. exact F.
        * apply fits_need; [other|]. intro s. apply fits_fin. exact F.
  Qed.
  Lemma fits_credentials : forall (l : list credential) keys (c : list X -> prog), (forall ks, rfits (c ks)) -> rfits (check_credentials l keys c).
  Proof. induction l as [|g l IH]; intros keys c F; cbn [check_credentials]; [apply F|]. apply fits_credential. intro x. apply IH. exact F. Qed.
  Lemma fits_accounts : forall l (c : prog), rfits c -> rfits (check_accounts l c).
  Proof. induction l as [|[s ok] l IH]; intros c F; cbn [check_accounts]; [exact F|]. split; [other|]. intros [m|]; [|exact I]. destruct (ok m); [apply IH; exact F|exact I]. Qed.
  Lemma fits_guarantees : forall l read keys (c : list X -> prog), (forall ks, rfits (c ks)) -> rfits (check_guarantees l read keys c).
  Proof.
    induction l as [|g l IH]; intros read keys c F; cbn [check_guarantees]; [apply F|]. destruct (g_pre g); [|exact I]. apply fits_accounts.
    destruct (g_check g read); [|exact I]. apply fits_accounts. destruct (g_form g); [|exact I]. apply fits_credentials. intro ks. apply IH. exact F.
  Qed.
  Lemma fits_assurances : forall l (c : prog), rfits c -> rfits (check_assurances l c).
  Proof.
    induction l as [|a l IH]; intros c F; cbn [check_assurances]; [exact F|]. apply fits_need_clean; [discriminate|]. intro s. destruct (a_set_ok a s); [|exact I].
    apply fits_need; [other|]. intro p. destruct (a_pending_ok a p); [apply IH; exact F|exact I].
  Qed.
  Lemma fits_reports : forall d r, rfits (reports_task d r).
  Proof.
    intros d r. unfold reports_task. apply fits_disputes; try discriminate. apply fits_change; [left; reflexivity|]. cbv zeta.
    assert (Go : rfits (need Pending (fun p => match r_available r p with
                                        | None => Ret None
                                        | Some av => need Timeslot (fun t => change Pending (r_clear r p t)
                                            (guarantees_part (r_guarantees r) (fun keys => change Pending (r_insert r) (Ret (Some (av ++ keys))))))
                                        end))).
    { apply fits_need; [other|]. intro p. destruct (r_available r p) as [av|]; [|exact I]. apply fits_need; [other|]. intro t. apply fits_change; [left; reflexivity|].
      unfold guarantees_part. destruct (r_guarantees r) as [| |l]; [apply fits_change; [left; reflexivity|exact I]|exact I|].
      apply fits_need; [other|]. intro. apply fits_need_clean; [discriminate|]. intro. apply fits_need_clean; [discriminate|]. intro. apply fits_need; [other|]. intro.
      apply fits_need_clean; [discriminate|]. intro. apply fits_need_clean; [discriminate|]. intro. apply fits_guarantees. intro ks. apply fits_change; [left; reflexivity|exact I]. }
    destruct (r_assurances r) as [| |l]; [exact Go|exact I|]. apply fits_assurances. exact Go.
  Qed.
  Definition keeping (k : comp) (r : bool) (f : value -> option value) : Prop := k = Entropy /\ r = false /\ forall x y, f x = Some y -> part Entropy y = part Entropy x.
  Lemma fits_entropy_block : forall H src, fits (reads_only []) (only []) keeping (only []) (entropy_block_task H src).
  Proof.
    intros H src. unfold entropy_block_task. apply fits_change; [|exact I]. split; [reflexivity|]. split; [reflexivity|].
    intros [[|a l]|x] y E; cbn in E; inversion E. reflexivity.
  Qed.
  Definition second_owner (k : comp) : option nat := match k with Pending => Some 0%nat | Entropy => Some 1%nat | _ => None end.
  Lemma nth2 : forall (B : Type) (a b : B) i x, nth_error [a; b] i = Some x -> (i = 0%nat /\ x = a) \/ (i = 1%nat /\ x = b).
  Proof. intros B a b i x E. destruct i as [|[|i]]; cbn in E; [..|destruct i; discriminate]; inversion E; tauto. Qed.
  Lemma second_apart : forall b (ready : comp -> Prop), ready Entropy -> apart part second_owner (second_tasks b) ready.
  Proof.
    intros b ready R. pose proof (fits_reports (b_disputes b) (b_reports b)) as F0. pose proof (fits_entropy_block (b_hash b) (b_source b)) as F1.
    split; [|split].
    - intros i p k N C. apply nth2 in N. destruct N as [[-> ->]|[-> ->]].
      + destruct (fits_changes _ _ _ _ _ _ F0 C) as [[r [f [<-|[]]]]|[]]. reflexivity.
      + destruct (fits_changes _ _ _ _ _ _ F1 C) as [[r [f [-> _]]]|[]]. reflexivity.
    - intros i j p q k Ni Nj D O Rd. apply nth2 in Ni. apply nth2 in Nj. destruct Nj as [[-> ->]|[-> ->]]; [|destruct (fits_reads _ _ _ _ _ _ F1 Rd) as [c []]].
      destruct Ni as [[-> ->]|[-> ->]]; [congruence|]. assert (k = Entropy) by (destruct k; try discriminate; reflexivity). subst k.
      split; [|split; [|split; [|exact R]]].
      + intros r f c W. pose proof (fits_within _ _ _ _ _ _ W F1) as [[_ Q] _]. exact Q.
      + intros c W. pose proof (fits_within _ _ _ _ _ _ W F0) as [Q _]. exact (Q eq_refl).
      + intro Ad. exact (fits_adds _ _ _ _ _ _ F1 Ad).
    - intros i j p q k Ni Nj D O Rd. exfalso. apply nth2 in Ni. apply nth2 in Nj. destruct Nj as [[-> ->]|[-> ->]]; [|exact (fits_clean _ _ _ _ _ _ F1 Rd)].
      destruct Ni as [[-> ->]|[-> ->]]; [congruence|]. apply (fits_clean _ _ _ _ _ _ F0 Rd). destruct k; try discriminate; reflexivity.
  Qed.

  (** * The last stage *)
  Definition accounts_of (j : nat) (k : comp) : Prop :=
    match k with Metadata _ => j = 1%nat | Preimage _ _ | Lookup _ _ _ => j = 3%nat | AuthPool => j = 0%nat | Stats => j = 2%nat | _ => False end.
  Definition last_owner (k : comp) : option nat :=
    match k with AuthPool => Some 0%nat | Metadata _ => Some 1%nat | Stats => Some 2%nat | Preimage _ _ | Lookup _ _ _ => Some 3%nat | _ => None end.
  Definition mine (j : nat) (k : comp) : Prop := last_owner k = Some j.
  Definition free (j : nat) (k : comp) : Prop := last_owner k = Some j \/ last_owner k = None.
  Notation lfits j := (fits (fun k _ => free j k) (free j) (fun k _ _ => mine j k) (mine j)).
  Lemma fits_pool : forall (f : value -> value -> option value), lfits 0 (pool_task f).
  Proof. intro f. unfold pool_task. apply fits_need; [right; reflexivity|]. intro. apply fits_change; [reflexivity|exact I]. Qed.
  Lemma fits_stamp : forall (f : value -> value -> option value) l, lfits 1 (stamp_task f l).
  Proof.
    intros f l. unfold stamp_task. apply fits_need; [right; reflexivity|]. intro t. induction l as [|s l IH]; cbn [stamp]; [exact I|].
    split; [left; reflexivity|]. intros [m|]; [|exact IH]. apply fits_change; [reflexivity|exact IH].
  Qed.
  Lemma fits_stats : forall (e : bool) (f : value -> value -> option value) g h k, lfits 2 (stats_task e f g h k).
  Proof.
    intros e f g h k. unfold stats_task. cbv zeta.
    assert (R : lfits 2 (need Active (fun a => if g a then change Stats (h a) (change Stats k (Ret (Some []))) else Ret None))).
    { apply fits_need; [right; reflexivity|]. intro a. destruct (g a); [|exact I]. apply fits_change; [reflexivity|]. apply fits_change; [reflexivity|exact I]. }
    destruct e; [|exact R]. apply fits_need; [left; reflexivity|]. intro st. apply fits_change; [reflexivity|exact R].
  Qed.
  Lemma fits_integrate : forall (f : value -> bool) g t l, lfits 3 (integrate f g t l).
  Proof.
    intros f g t l. induction l as [|x l IH]; cbn [integrate]; [exact I|]. split; [left; reflexivity|]. intro have. split; [left; reflexivity|]. intro asked.
    destruct (match have, asked with None, Some e => f e | _, _ => false end); [|exact IH]. apply fits_change; [reflexivity|]. split; [reflexivity|]. intros [|]; [exact IH|exact I].
  Qed.
  Lemma fits_check_preimages : forall (f : value -> bool) l c, lfits 3 c -> lfits 3 (check_preimages f l c).
  Proof.
    intros f l c F. induction l as [|x l IH]; cbn [check_preimages]; [exact F|]. split; [left; reflexivity|]. intros [v|]; [exact I|]. split; [left; reflexivity|]. intros [e|]; [|exact I].
    destruct (f e); [exact IH|exact I].
  Qed.
  Lemma fits_preimages : forall (f : value -> bool) g sh, lfits 3 (preimages_task f g sh).
  Proof.
    intros f g [| |l]; cbn [preimages_task]; [|exact I|].
    - apply fits_need; [right; reflexivity|]. intro. exact I.
    - apply fits_check_preimages. apply fits_need; [right; reflexivity|]. intro. apply fits_integrate.
  Qed.
  Lemma last_fits : forall b ra rb i p, nth_error (last_tasks b ra rb) i = Some p -> lfits i p.
  Proof.
    intros b ra rb i p E. destruct i as [|[|[|[|i]]]]; cbn in E; [..|destruct i; discriminate]; inversion E; [apply fits_pool|apply fits_stamp|apply fits_stats|apply fits_preimages].
  Qed.
  Lemma last_apart : forall b ra rb (ready : comp -> Prop), apart part last_owner (last_tasks b ra rb) ready.
  Proof.
    intros b ra rb ready. split; [|split].
    - intros i p k N C. destruct (fits_changes _ _ _ _ _ _ (last_fits b ra rb i p N) C) as [[r [f Q]]|Q]; exact Q.
    - intros i j p q k Ni Nj D O Rd. exfalso. destruct (fits_reads _ _ _ _ _ _ (last_fits b ra rb j q Nj) Rd) as [c [Q|Q]]; congruence.
    - intros i j p q k Ni Nj D O Rd. exfalso. destruct (fits_clean _ _ _ _ _ _ (last_fits b ra rb j q Nj) Rd) as [Q|Q]; congruence.
  Qed.
  Lemma single_apart : forall (p : prog) (ready : comp -> Prop), apart part (fun _ => Some 0%nat) [p] ready.
  Proof.
    assert (N1 : forall (p q : prog) i, nth_error [p] i = Some q -> i = 0%nat) by (intros p q i E; destruct i as [|i]; [reflexivity|destruct i; discriminate]).
    intros p ready. split; [|split].
    - intros i q k N _. apply N1 in N. subst. reflexivity.
    - intros i j q q' k Ni Nj D. apply N1 in Ni. apply N1 in Nj. congruence.
    - intros i j q q' k Ni Nj D. apply N1 in Ni. apply N1 in Nj. congruence.
  Qed.

  (** * The block *)
  Lemma entropy_changed : forall e (v : view comp value), snd (alone comp_eq (entropy_epoch_task e) v) <> None -> so_far (fst (alone comp_eq (entropy_epoch_task e) v)) Entropy <> Kept.
  Proof.
    intros e v. unfold entropy_epoch_task, change. cbn [alone]. destruct (now v Entropy) as [x|]; [|cbn; congruence]. destruct (rotate e x) as [y|]; [|cbn; congruence].
    cbn [alone fst snd]. intros _. unfold update. cbn [so_far]. rewrite set_same. destruct (so_far v Entropy); discriminate.
  Qed.
  Lemma first_entropy : forall b (v : view comp value), all_ok (snd (in_order comp_eq (first_tasks b) v)) = true -> so_far (fst (in_order comp_eq (first_tasks b) v)) Entropy <> Kept.
  Proof.
    intros b v. unfold first_tasks.
    change (in_order comp_eq (?p :: ?q :: ?l) v) with (let (v1, a) := alone comp_eq p v in let (v2, r) := (let (v3, a3) := alone comp_eq q v1 in let (v4, r4) := in_order comp_eq l v3 in (v4, a3 :: r4)) in (v2, a :: r)).
    destruct (alone comp_eq (disputes_task (b_disputes b)) v) as [v1 a]. pose proof (entropy_changed (b_epoch b) v1) as E.
    destruct (alone comp_eq (entropy_epoch_task (b_epoch b)) v1) as [v3 a3]. cbn [fst snd] in E.
    match goal with |- context [in_order comp_eq ?l v3] => pose proof (in_order_changed comp_eq l v3 Entropy) as Q; destruct (in_order comp_eq l v3) as [v4 r4] end. cbn [fst snd] in *.
    unfold all_ok. cbn [forallb]. intro A. apply Q. apply E. intros ->. destruct a; cbn in A; discriminate A.
  Qed.
  Theorem block_ok : forall (b : block_data X) db s s' rs v,
    represents db s v -> (b_epoch b = true -> cached s Active <> None /\ cached s Past <> None) ->
    executes comp_eq db calm s (block_flow b) s' rs ->
    represents db s' (fst (stages_in_order comp_eq (block_flow b) v)) /\ rs = snd (stages_in_order comp_eq (block_flow b) v).
  Proof.
    intros b db s s' rs v R W E. unfold block_flow in E. inversion E as [|s0 tasks next l s1 ts r s2 rs' C Er Rs E']; subst. clear E.
    destruct (stage_ok comp_eq part (first_owner (b_epoch b)) (first_tasks b) db v s l s1 ts r R) as [E1 [_ R1]]; try assumption; [apply first_apart; exact W|].
    pose proof (first_entropy b v) as Fe.
    unfold block_flow. cbn [stages_in_order]. destruct (in_order comp_eq (first_tasks b) v) as [v1 r1]. cbn [fst snd] in *. subst r1.
    match type of E' with executes _ _ _ _ ?f _ _ => assert (Ap : apart_from comp_eq part f v1) end.
    { unfold go_on. destruct (all_ok r); [|exact I]. specialize (Fe eq_refl). cbn [apart_from]. split; [eexists; apply single_apart|].
      assert (F2 : so_far (fst (in_order comp_eq [b_safrole b] v1)) Entropy <> Kept) by (apply in_order_changed; exact Fe).
      unfold go_on. destruct (all_ok (snd (in_order comp_eq [b_safrole b] v1))); [|exact I]. cbn [apart_from]. split; [eexists; apply second_apart; exact F2|].
      set (v2 := fst (in_order comp_eq [b_safrole b] v1)). clearbody v2. clear F2.
      destruct (in_order comp_eq (second_tasks b) v2) as [v3 r3]. cbn [fst snd]. destruct (all_ok r3); [|exact I]. cbn [apart_from]. split; [eexists; apply single_apart|].
      destruct (in_order comp_eq [b_accumulate b r3] v3) as [v4 r4]. cbn [fst snd]. destruct (all_ok r4); [|exact I]. cbn [apart_from]. split; [eexists; apply last_apart|].
      destruct (in_order comp_eq (last_tasks b r3 r4) v4) as [v5 r5]. cbn [fst snd]. destruct (all_ok r5); [|exact I]. cbn [apart_from]. split; [eexists; apply single_apart|exact I]. }
    destruct (stages_ok comp_eq part db s1 _ s' rs' v1 E' R1 Ap) as [R2 E2].
    destruct (stages_in_order comp_eq _ v1) as [v2 rs2]. cbn [fst snd] in *. subst. auto.
  Qed.
End Proofs.
