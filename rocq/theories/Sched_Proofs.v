(** Proofs about concurrent execution (Sched_Model) against the sequential specification (Sched_Spec). *)
From Verif Require Import Base Base_Proofs Sched_Model Sched_Spec.

Section Proofs.
  Context {K V A P : Type} (eqk : forall a b : K, {a = b} + {a <> b}).
  Notation prog := (prog K V A). Notation micro := (micro K V A). Notation store := (store K V). Notation view := (view K V).
  Notation upd := (upd eqk). Notation alone := (alone eqk). Notation in_order := (in_order eqk).

  Definition cell (v : view) (k : K) : option V * change V := (prior v k, so_far v k).
  Definition look (c : option V * change V) : option V := match snd c with Kept => fst c | Added x | Updated x => Some x | Removed => None end.
  Lemma now_cell : forall v k, now v k = look (cell v k). Proof. reflexivity. Qed.
  Lemma set_same : forall B (m : K -> B) k x, set eqk m k x k = x. Proof. intros. unfold set. destruct (eqk k k); congruence. Qed.
  Lemma set_other : forall B (m : K -> B) k x j, j <> k -> set eqk m k x j = m j. Proof. intros. unfold set. destruct (eqk j k); congruence. Qed.
  Lemma upd_same : forall B (m : K -> B) k x, upd m k x k = x. Proof. intros. unfold Sched_Model.upd. destruct (eqk k k); congruence. Qed.
  Lemma upd_other : forall B (m : K -> B) k x j, j <> k -> upd m k x j = m j. Proof. intros. unfold Sched_Model.upd. destruct (eqk j k); congruence. Qed.
  Lemma within_trans : forall p q : prog, within p q -> forall r, within q r -> within p r.
  Proof. intros p q W r X. induction X; [exact W|eapply in_get; eauto|eapply in_clean; eauto|eapply in_mut; eauto|eapply in_add; eauto]. Qed.
  Lemma within_get : forall p k (c : option V -> prog) o, within (Get k c) p -> within (c o) p.
  Proof. intros. eapply within_trans; [|eassumption]. econstructor. constructor. Qed.
  Lemma within_clean : forall p k (c : option V -> prog) o, within (GetClean k c) p -> within (c o) p.
  Proof. intros. eapply within_trans; [|eassumption]. econstructor. constructor. Qed.
  Lemma within_mut : forall p k r f (c : bool -> prog) b, within (Mut k r f c) p -> within (c b) p.
  Proof. intros. eapply within_trans; [|eassumption]. econstructor. constructor. Qed.
  Lemma within_add : forall p k x (c : bool -> prog) b, within (Add k x c) p -> within (c b) p.
  Proof. intros. eapply within_trans; [|eassumption]. econstructor. constructor. Qed.

  (** * Tasks alone *)
  Section Alone.
    Variables (part : K -> V -> P).
    Definition same_part (k : K) (a b : option V) : Prop :=
      match a, b with Some x, Some y => part k x = part k y | None, None => True | _, _ => False end.
    Lemma same_part_refl : forall k a, same_part k a a. Proof. intros k [x|]; cbn; auto. Qed.
    Lemma same_part_trans : forall k a b c, same_part k a b -> same_part k b c -> same_part k a c.
    Proof. intros k [x|] [y|] [z|]; cbn; intros; try tauto. congruence. Qed.
    Lemma same_part_sym : forall k a b, same_part k a b -> same_part k b a.
    Proof. intros k [x|] [y|]; cbn; intros; try tauto. congruence. Qed.

    Lemma update_other : forall v k x j, j <> k -> cell (update eqk v k x) j = cell v j.
    Proof. intros. unfold cell, update. cbn. rewrite set_other by assumption. reflexivity. Qed.
    Lemma remove_other : forall v k j, j <> k -> cell (remove eqk v k) j = cell v j.
    Proof. intros. unfold cell, remove. cbn. rewrite set_other by assumption. reflexivity. Qed.
    Lemma create_other : forall v k x j, j <> k -> cell (create eqk v k x) j = cell v j.
    Proof. intros. unfold cell, create. cbn. rewrite !set_other by assumption. reflexivity. Qed.

    (** What a task does to a component it does not change, add, or of which it keeps a part. *)
    Lemma alone_frame : forall (p : prog) v k, ~ changes p k -> cell (fst (alone p v)) k = cell v k.
    Proof.
      assert (G : forall p0 p : prog, within p p0 -> forall v k, ~ changes p0 k -> cell (fst (alone p v)) k = cell v k).
      { intros p0 p. induction p as [a|k' c IH|k' c IH|k' r f c IH|k' x c IH]; intros W v k C; cbn [Sched_Spec.alone].
        - reflexivity.
        - apply IH; [eapply within_get; eassumption|assumption].
        - apply IH; [eapply within_clean; eassumption|assumption].
        - assert (N : k <> k') by (intros ->; apply C; left; eauto).
          destruct (now v k') as [x|]; [|apply IH; [eapply within_mut; eassumption|assumption]].
          destruct (f x) as [y|]; [|apply IH; [eapply within_mut; eassumption|assumption]].
          rewrite IH; [|eapply within_mut; eassumption|assumption]. destruct r; [apply remove_other|apply update_other]; assumption.
        - assert (N : k <> k') by (intros ->; apply C; right; exists x, c; assumption).
          destruct (now v k'); [apply IH; [eapply within_add; eassumption|assumption]|].
          rewrite IH; [|eapply within_add; eassumption|assumption]. apply create_other. assumption. }
      intros p v k C. apply (G p p); [constructor|assumption].
    Qed.
    Lemma alone_prior : forall p0 (p : prog), within p p0 -> forall v k, ~ adds p0 k -> prior (fst (alone p v)) k = prior v k.
    Proof.
      intros p0 p. induction p as [a|k' c IH|k' c IH|k' r f c IH|k' x c IH]; intros W v k C; cbn [Sched_Spec.alone].
      - reflexivity.
      - apply IH; [eapply within_get; eassumption|assumption].
      - apply IH; [eapply within_clean; eassumption|assumption].
      - destruct (now v k') as [x|]; [|apply IH; [eapply within_mut; eassumption|assumption]].
        destruct (f x) as [y|]; [|apply IH; [eapply within_mut; eassumption|assumption]].
        rewrite IH; [|eapply within_mut; eassumption|assumption]. destruct r; reflexivity.
      - assert (N : k <> k') by (intros ->; apply C; exists x, c; assumption).
        destruct (now v k'); [apply IH; [eapply within_add; eassumption|assumption]|].
        rewrite IH; [|eapply within_add; eassumption|assumption]. unfold create. cbn. apply set_other. assumption.
    Qed.
    Lemma now_update : forall (v : view) k x, now (update eqk v k x) k = Some x.
    Proof. intros. unfold now, update. cbn. rewrite set_same. destruct (so_far v k); reflexivity. Qed.
    Lemma update_part : forall v k x y, now v k = Some x -> part k y = part k x -> same_part k (now (update eqk v k y) k) (now v k).
    Proof. intros v k x y E Q. rewrite now_update, E. exact Q. Qed.
    Lemma alone_part : forall p0 (p : prog), within p p0 -> forall v k, ~ adds p0 k -> keeps_part (part k) p0 k -> same_part k (now (fst (alone p v)) k) (now v k).
    Proof.
      intros p0 p. induction p as [a|k' c IH|k' c IH|k' r f c IH|k' x c IH]; intros W v k C Q; cbn [Sched_Spec.alone].
      - apply same_part_refl.
      - apply IH; [eapply within_get; eassumption|assumption..].
      - apply IH; [eapply within_clean; eassumption|assumption..].
      - destruct (now v k') as [x|] eqn:E; [|apply IH; [eapply within_mut; eassumption|assumption..]].
        destruct (f x) as [y|] eqn:F; [|apply IH; [eapply within_mut; eassumption|assumption..]].
        eapply same_part_trans; [apply IH; [eapply within_mut; eassumption|assumption..]|].
        destruct (eqk k k') as [<-|N].
        + destruct (Q r f c W) as [-> Q']. eapply update_part; [exact E|]. apply Q'. exact F.
        + rewrite !now_cell. replace (cell (if r then remove eqk v k' else update eqk v k' y) k) with (cell v k); [apply same_part_refl|].
          destruct r; symmetry; [apply remove_other|apply update_other]; assumption.
      - assert (N : k <> k') by (intros ->; apply C; exists x, c; assumption).
        destruct (now v k'); [apply IH; [eapply within_add; eassumption|assumption..]|].
        eapply same_part_trans; [apply IH; [eapply within_add; eassumption|assumption..]|].
        rewrite !now_cell, create_other by assumption. apply same_part_refl.
    Qed.
    (** The block's changes are never forgotten. *)
    Lemma alone_changed : forall (p : prog) v k, so_far v k <> Kept -> so_far (fst (alone p v)) k <> Kept.
    Proof.
      intro p. induction p as [a|k' c IH|k' c IH|k' r f c IH|k' x c IH]; intros v k C; cbn [Sched_Spec.alone]; auto.
      - destruct (now v k') as [x|]; auto. destruct (f x) as [y|]; auto. apply IH. destruct r; unfold remove, update; cbn; unfold set; destruct (eqk k k') as [<-|]; try assumption; try discriminate.
        destruct (so_far v k); discriminate.
      - destruct (now v k'); auto. apply IH. unfold create; cbn; unfold set. destruct (eqk k k'); [discriminate|assumption].
    Qed.
    Lemma in_order_changed : forall (l : list prog) (v : view) k, so_far v k <> Kept -> so_far (fst (in_order l v)) k <> Kept.
    Proof.
      intro l. induction l as [|p l IH]; intros v k C; cbn [Sched_Spec.in_order]; [exact C|].
      pose proof (alone_changed p v k C) as C'. destruct (alone p v) as [v1 a]. cbn [fst] in C'.
      specialize (IH v1 k C'). destruct (in_order l v1). exact IH.
    Qed.

    (** * Tasks that stay apart *)
    Variables (owner : K -> option nat) (tasks : list prog) (ready : K -> Prop).
    Hypothesis Ap : apart part owner tasks ready.
    Lemma own_changes : forall i p k, nth_error tasks i = Some p -> changes p k -> owner k = Some i. Proof. apply Ap. Qed.
    Lemma own_mut : forall i p k r f c, nth_error tasks i = Some p -> within (Mut k r f c) p -> owner k = Some i.
    Proof. intros. eapply own_changes; [eassumption|]. left. eauto. Qed.
    Lemma own_add : forall i p k x c, nth_error tasks i = Some p -> within (Add k x c) p -> owner k = Some i.
    Proof. intros. eapply own_changes; [eassumption|]. right. exists x, c. assumption. Qed.

    (** [w] is the view [v] after other tasks than [i] did some of their work. *)
    Definition near (i : nat) (v w : view) : Prop :=
      forall k,
        match owner k with
        | Some j => if Nat.eq_dec j i then cell v k = cell w k
                    else forall p, nth_error tasks j = Some p ->
                         (~ adds p k -> prior v k = prior w k) /\ (~ adds p k -> keeps_part (part k) p k -> same_part k (now v k) (now w k))
        | None => cell v k = cell w k
        end.

    Lemma alone_near : forall i p0, nth_error tasks i = Some p0 -> forall p, within p p0 -> forall v w, near i v w ->
      (forall k j, owner k = Some j -> nth_error tasks j <> None) ->
      snd (alone p v) = snd (alone p w) /\ (forall k, owner k = Some i -> cell (fst (alone p v)) k = cell (fst (alone p w)) k).
    Proof.
      intros i p0 N p. induction p as [a|k' c IH|k' c IH|k' r f c IH|k' x c IH]; intros W v w E R; cbn [Sched_Spec.alone].
      - split; [reflexivity|]. intros k O. specialize (E k). rewrite O in E. destruct (Nat.eq_dec i i); [exact E|congruence].
      - replace (c (now w k')) with (c (now v k')). { apply IH; [eapply within_get; eassumption|assumption..]. }
        pose proof (E k') as Ek. destruct (owner k') as [j|] eqn:O; [|rewrite now_cell, Ek; reflexivity].
        destruct (Nat.eq_dec j i) as [->|Nj]; [rewrite now_cell, Ek; reflexivity|].
        destruct (nth_error tasks j) as [q|] eqn:Q; [|exfalso; exact (R _ _ O Q)].
        destruct Ap as [_ [A2 _]]. destruct (A2 j i q p0 k' Q N Nj O) as [B1 [B2 [B3 B4]]]; [exists c; exact W|].
        destruct (Ek q eq_refl) as [_ E2]. specialize (E2 B3 B1). unfold same_part in E2.
        destruct (now v k') as [x|], (now w k') as [y|]; try contradiction; [|reflexivity]. apply (B2 c W). exact E2.
      - replace (prior w k') with (prior v k'). { apply IH; [eapply within_clean; eassumption|assumption..]. }
        pose proof (E k') as Ek. destruct (owner k') as [j|] eqn:O; [|unfold cell in Ek; congruence].
        destruct (Nat.eq_dec j i) as [->|Nj]; [unfold cell in Ek; congruence|].
        destruct (nth_error tasks j) as [q|] eqn:Q; [|exfalso; exact (R _ _ O Q)].
        destruct Ap as [_ [_ A3]]. destruct (A3 j i q p0 k' Q N Nj O) as [B1 B2]; [exists c; exact W|].
        destruct (Ek q eq_refl) as [E1 _]. apply E1. exact B1.
      - assert (O : owner k' = Some i) by (eapply own_mut; eassumption).
        pose proof (E k') as Ek. rewrite O in Ek. destruct (Nat.eq_dec i i); [|congruence].
        replace (now w k') with (now v k') by (rewrite !now_cell, Ek; reflexivity).
        destruct (now v k') as [x|]; [|apply IH; [eapply within_mut; eassumption|assumption..]].
        destruct (f x) as [y|]; [|apply IH; [eapply within_mut; eassumption|assumption..]].
        apply IH; [eapply within_mut; eassumption| |assumption].
        intro k. destruct (eqk k k') as [->|Nk].
        + rewrite O. destruct (Nat.eq_dec i i); [|congruence]. unfold cell in Ek. inversion Ek as [[E1 E2]].
          destruct r; unfold cell, remove, update; cbn; rewrite !set_same, ?E1, ?E2; reflexivity.
        + specialize (E k). destruct r; rewrite ?now_cell, ?remove_other, ?update_other by assumption; rewrite <- ?now_cell; exact E.
      - assert (O : owner k' = Some i) by (eapply own_add; eassumption).
        pose proof (E k') as Ek. rewrite O in Ek. destruct (Nat.eq_dec i i); [|congruence].
        replace (now w k') with (now v k') by (rewrite !now_cell, Ek; reflexivity).
        destruct (now v k'); [apply IH; [eapply within_add; eassumption|assumption..]|].
        apply IH; [eapply within_add; eassumption| |assumption].
        intro k. destruct (eqk k k') as [->|Nk].
        + rewrite O. destruct (Nat.eq_dec i i); [|congruence]. unfold cell, create; cbn. rewrite !set_same. reflexivity.
        + specialize (E k). replace (prior (create eqk v k' x) k) with (prior v k) by (unfold create; cbn; rewrite set_other by assumption; reflexivity).
          replace (prior (create eqk w k' x) k) with (prior w k) by (unfold create; cbn; rewrite set_other by assumption; reflexivity).
          rewrite ?now_cell, ?create_other by assumption. rewrite <- ?now_cell. exact E.
    Qed.

    Hypothesis Range : forall k j, owner k = Some j -> nth_error tasks j <> None.
    (** What every task leaves of what it owns, the rest as it was. *)
    Definition left_by (v0 : view) (n : nat) (k : K) : option V * change V :=
      match owner k with
      | Some i => if i <? n then match nth_error tasks i with Some p => cell (fst (alone p v0)) k | None => cell v0 k end else cell v0 k
      | None => cell v0 k
      end.
    Lemma left_near : forall v0 n w, (forall k, cell w k = left_by v0 n k) -> near n v0 w.
    Proof.
      intros v0 n w E k. pose proof (E k) as Ek. unfold left_by in Ek. destruct (owner k) as [j|] eqn:O; [|symmetry; exact Ek].
      destruct (Nat.eq_dec j n) as [->|N]. { rewrite Nat.ltb_irrefl in Ek. symmetry. exact Ek. }
      intros p Hp. rewrite Hp in Ek. destruct (j <? n).
      - split.
        + intro C. pose proof (alone_prior p p (in_here p) v0 k C) as X. unfold cell in Ek. congruence.
        + intros C Q. rewrite !now_cell, Ek, <- !now_cell. apply same_part_sym. apply (alone_part p p (in_here p)); assumption.
      - split; intros; [unfold cell in Ek; congruence|]. rewrite !now_cell, Ek. apply same_part_refl.
    Qed.
    Lemma in_order_left : forall v0 suf n w, (forall i, nth_error suf i = nth_error tasks (n + i)) -> (forall k, cell w k = left_by v0 n k) ->
      (forall k, cell (fst (in_order suf w)) k = left_by v0 (n + length suf) k) /\ snd (in_order suf w) = map (fun p => snd (alone p v0)) suf.
    Proof.
      intros v0 suf. induction suf as [|p suf IH]; intros n w Sf E; cbn [Sched_Spec.in_order].
      - split; [|reflexivity]. intro k. cbn. rewrite Nat.add_0_r. apply E.
      - assert (Hp : nth_error tasks n = Some p) by (specialize (Sf 0%nat); rewrite Nat.add_0_r in Sf; symmetry; exact Sf).
        destruct (alone_near n p Hp p (in_here p) v0 w (left_near v0 n w E) Range) as [E1 E2].
        pose proof (fun k => alone_frame p w k) as Fr.
        destruct (alone p w) as [w1 a] eqn:Ew. cbn [fst snd] in *.
        assert (E' : forall k, cell w1 k = left_by v0 (S n) k).
        { intro k. unfold left_by. destruct (owner k) as [j|] eqn:O.
          - destruct (Nat.eq_dec j n) as [->|N].
            + replace (n <? S n) with true by (symmetry; apply Nat.ltb_lt; lia). rewrite Hp. symmetry. apply E2. exact O.
            + rewrite Fr by (intro C; pose proof (own_changes n p k Hp C); congruence). rewrite E. unfold left_by. rewrite O.
              replace (j <? S n) with (j <? n); [reflexivity|]. destruct (Nat.ltb_spec j n), (Nat.ltb_spec j (S n)); try reflexivity; lia.
          - rewrite Fr by (intro C; pose proof (own_changes n p k Hp C); congruence). rewrite E. unfold left_by. rewrite O. reflexivity. }
        destruct (IH (S n) w1) as [F1 F2]; [|exact E'|].
        { intro i. specialize (Sf (S i)). cbn in Sf. rewrite Sf. f_equal. lia. }
        destruct (in_order suf w1) as [w2 r]. cbn [fst snd] in *. split.
        + intro k. rewrite F1. cbn [length]. f_equal. lia.
        + cbn [map]. rewrite E1, F2. reflexivity.
    Qed.
    Lemma in_order_joint : forall v0, (forall k, cell (fst (in_order tasks v0)) k = left_by v0 (length tasks) k) /\ snd (in_order tasks v0) = map (fun p => snd (alone p v0)) tasks.
    Proof. intro v0. apply (in_order_left v0 tasks 0 v0); [reflexivity|]. intro k. unfold left_by. destruct (owner k); reflexivity. Qed.

    (** * The machine *)
    Variables (db : K -> option V) (v0 : view).
    Definition cell_ok (k : K) (o : option (entry V)) (c : option V * change V) : Prop :=
      match o with
      | None => snd c = Kept /\ fst c = db k
      | Some e => fst c = Some (e_snap e) /\
                  match e_kind e with
                  | KClean => snd c = Kept /\ e_value e = e_snap e /\ db k = Some (e_snap e)
                  | KAdd => snd c = Added (e_value e)
                  | KUpdate => snd c = Updated (e_value e)
                  | KRemove => snd c = Removed
                  end
      end.
    Definition dirty_kind (e : entry V) : Prop := e_kind e <> KClean.

    Section Thread.
      Variables (i : nat) (p0 : prog).
      Notation r := (alone p0 v0).
      (** The thread is about to change its own component [k] to [e] and go on with [m]. *)
      Definition about (lv : view) (k : K) (e : entry V) (m : micro) : Prop :=
        exists p lv', owner k = Some i /\ within p p0 /\ alone p lv' = r /\ m = steps p /\ dirty_kind e /\
          (forall j, j <> k -> cell lv' j = cell lv j) /\ cell_ok k (Some e) (cell lv' k) /\
          (~ adds p0 k -> prior lv' k = prior lv k) /\ (~ adds p0 k -> keeps_part (part k) p0 k -> same_part k (now lv' k) (now lv k)).
      Definition next_ok (lv : view) (k : K) (m : micro) : Prop :=
        (exists p, within p p0 /\ alone p lv = r /\ m = steps p) \/
        (exists rm f c, within (Mut k rm f c) p0 /\ alone (Mut k rm f c) lv = r /\ now lv k <> None /\ m = mut_entry_steps k rm f (fun b => steps (c b))) \/
        (exists e m', about lv k e m' /\ m = Mark k (Put k e m')).
      Inductive at_ (s : store) (lv : view) : micro -> Prop :=
      | at_prog : forall p, within p p0 -> alone p lv = r -> at_ s lv (steps p)
      | at_read : forall k c, owner k = Some i /\ cached s k = None \/ owner k = None -> so_far lv k = Kept -> prior lv k = db k ->
          next_ok lv k (c (db k)) -> at_ s lv (Read k (fill k c))
      | at_fill : forall k v m, owner k = Some i /\ cached s k = None \/ owner k = None -> so_far lv k = Kept -> prior lv k = db k -> db k = Some v ->
          next_ok lv k m -> at_ s lv (Put k (clean_entry v) m)
      | at_mut : forall k rm f c, owner k = Some i -> cached s k <> None -> within (Mut k rm f c) p0 -> alone (Mut k rm f c) lv = r -> now lv k <> None ->
          at_ s lv (mut_entry_steps k rm f (fun b => steps (c b)))
      | at_mark : forall k e m, about lv k e m -> at_ s lv (Mark k (Put k e m))
      | at_put : forall k e m, about lv k e m -> dirty s k = true -> at_ s lv (Put k e m).
    End Thread.
    Definition lv_of (lv : nat -> view) (k : K) : option V * change V := match owner k with Some i => cell (lv i) k | None => cell v0 k end.
    Definition pending (ts : list micro) (k : K) : Prop := exists i e m, nth_error ts i = Some (Put k e m) /\ dirty_kind e.
    Definition shared (k : K) : Prop := exists i j p q, nth_error tasks i = Some p /\ nth_error tasks j = Some q /\ i <> j /\ owner k = Some i /\ (reads q k \/ reads_clean q k).
    Record inv (s : store) (ts : list micro) (lv : nat -> view) : Prop := {
      i_len : length ts = length tasks;
      i_at : forall i p m, nth_error tasks i = Some p -> nth_error ts i = Some m -> at_ i p s (lv i) m;
      i_coh : forall k, cell_ok k (cached s k) (lv_of lv k);
      i_other : forall i k, owner k <> Some i -> cell (lv i) k = cell v0 k;
      i_prior : forall i p k, nth_error tasks i = Some p -> ~ adds p k -> prior (lv i) k = prior v0 k;
      i_part : forall i p k, nth_error tasks i = Some p -> ~ adds p k -> keeps_part (part k) p k -> same_part k (now (lv i) k) (now v0 k);
      i_shared : forall k, shared k -> cached s k <> None;
      i_marked : forall k, snd (lv_of lv k) <> Kept -> dirty s k = true;
      i_dirty : forall k, dirty s k = true -> snd (lv_of lv k) <> Kept \/ pending ts k }.

    Lemma nth_replace : forall (ts : list micro) i m j, nth_error (replace ts i m) j = if Nat.eq_dec j i then (match nth_error ts i with Some _ => Some m | None => None end) else nth_error ts j.
    Proof.
      intro ts. induction ts as [|x ts IH]; intros i m j; cbn [replace].
      - destruct (Nat.eq_dec j i) as [->|]; [destruct i; reflexivity|reflexivity].
      - destruct i as [|i], j as [|j]; cbn [nth_error]; try reflexivity. rewrite IH. destruct (Nat.eq_dec j i), (Nat.eq_dec (S j) (S i)); try reflexivity; congruence.
    Qed.
    Lemma replace_length : forall (ts : list micro) i m, length (replace ts i m) = length ts.
    Proof. intro ts. induction ts as [|x ts IH]; intros [|i] m; cbn; try reflexivity. rewrite IH. reflexivity. Qed.
    Lemma at_stable : forall j p s s' lv m, at_ j p s lv m -> (forall k, owner k = Some j -> cached s' k = cached s k) -> (forall k, dirty s k = true -> dirty s' k = true) -> at_ j p s' lv m.
    Proof.
      intros j p s s' lv m X C D. destruct X as [q W E|k c O S1 S2 N|k v m O S1 S2 Dk N|k rm f c O Ck W E Nn|k e m Ab|k e m Ab Dk].
      - apply at_prog; assumption.
      - apply at_read; try assumption. destruct O as [[O1 O2]|O]; [left; split; [exact O1|rewrite C; assumption]|right; exact O].
      - apply at_fill; try assumption. destruct O as [[O1 O2]|O]; [left; split; [exact O1|rewrite C; assumption]|right; exact O].
      - apply at_mut; try assumption. rewrite C; assumption.
      - apply at_mark. assumption.
      - apply at_put; [assumption|]. apply D. assumption.
    Qed.
    Lemma next_at : forall i p s lv k m, nth_error tasks i = Some p -> next_ok i p lv k m -> (now lv k <> None -> cached s k <> None) -> at_ i p s lv m.
    Proof.
      intros i p s lv k m N [[q [W [E ->]]]|[[rm [f [c [W [E [Nn ->]]]]]]|[e [m' [Ab ->]]]]] C.
      - apply at_prog; assumption.
      - apply at_mut; try assumption; [eapply own_mut; eassumption|apply C; assumption].
      - apply at_mark. exact Ab.
    Qed.
    Lemma hit_value : forall k e c, cell_ok k (Some e) c -> match e_kind e with KRemove => None | _ => Some (e_value e) end = look c.
    Proof.
      intros k e [pr ch] [E1 E2]. cbn [fst snd] in *. unfold look. cbn [fst snd]. destruct (e_kind e).
      - destruct E2 as [-> [-> _]]. symmetry. exact E1.
      - rewrite E2. reflexivity.
      - rewrite E2. reflexivity.
      - rewrite E2. reflexivity.
    Qed.
    Lemma lv_mine : forall s ts lv i k, inv s ts lv -> owner k = Some i \/ owner k = None -> lv_of lv k = cell (lv i) k.
    Proof.
      intros s ts lv i k I O. unfold lv_of. destruct (owner k) as [j|] eqn:Q.
      - destruct O as [O|O]; inversion O; subst. reflexivity.
      - symmetry. apply (i_other _ _ _ I). congruence.
    Qed.
    Lemma owner_cases : forall i k, (owner k = Some i \/ owner k = None) \/ exists j, owner k = Some j /\ j <> i.
    Proof. intros i k. destruct (owner k) as [j|]; [destruct (Nat.eq_dec j i) as [->|N]; eauto|eauto]. Qed.

    (** A thread's lookup when it is about to read a component that no other thread owns. *)
    Lemma get_mine : forall s ts lv i p k c, inv s ts lv -> nth_error tasks i = Some p -> owner k = Some i \/ owner k = None ->
      next_ok i p (lv i) k (c (now (lv i) k)) ->
      at_ i p s (lv i) match cached s k with
                       | Some e => match e_kind e with KRemove => c None | _ => c (Some (e_value e)) end
                       | None => Read k (fill k c)
                       end.
    Proof.
      intros s ts lv i p k c I N O X. pose proof (i_coh _ _ _ I k) as Ck. rewrite (lv_mine _ _ _ _ _ I O) in Ck.
      destruct (cached s k) as [e|] eqn:E.
      - apply hit_value in Ck. rewrite <- now_cell in Ck.
        replace (match e_kind e with KRemove => c None | _ => c (Some (e_value e)) end) with (c (now (lv i) k)) by (rewrite <- Ck; destruct (e_kind e); reflexivity).
        eapply next_at; [exact N|exact X|]. intros _. congruence.
      - destruct Ck as [C1 C2]. cbn [cell fst snd] in C1, C2.
        assert (Nw : now (lv i) k = db k) by (unfold now; rewrite C1; exact C2).
        apply at_read; try assumption; [|rewrite <- Nw; exact X]. destruct O as [O|O]; [left; split; assumption|right; exact O].
    Qed.

    (** Steps that change nothing in the store. *)
    Lemma quiet_step : forall s ts lv i p m m', inv s ts lv -> nth_error tasks i = Some p -> nth_error ts i = Some m -> (forall k e c, m <> Put k e c) ->
      at_ i p s (lv i) m' -> inv s (replace ts i m') lv.
    Proof.
      intros s ts lv i p m m' I N Nm Np X. constructor.
      - rewrite replace_length. apply (i_len _ _ _ I).
      - intros j q mj Nq Nj. rewrite nth_replace in Nj. destruct (Nat.eq_dec j i) as [->|D].
        + rewrite Nm in Nj. inversion Nj; subst. rewrite N in Nq. inversion Nq; subst. exact X.
        + apply (i_at _ _ _ I); assumption.
      - apply (i_coh _ _ _ I).
      - apply (i_other _ _ _ I).
      - apply (i_prior _ _ _ I).
      - apply (i_part _ _ _ I).
      - apply (i_shared _ _ _ I).
      - apply (i_marked _ _ _ I).
      - intros k Dk. destruct (i_dirty _ _ _ I k Dk) as [L|[j [e [c [Nj De]]]]]; [left; exact L|right].
        exists j, e, c. split; [|exact De]. rewrite nth_replace. destruct (Nat.eq_dec j i) as [->|D]; [|exact Nj]. rewrite Nm in Nj. inversion Nj. exfalso. eapply Np. eassumption.
    Qed.
    Lemma mark_step : forall s ts lv i p k e m, inv s ts lv -> nth_error tasks i = Some p -> nth_error ts i = Some (Mark k (Put k e m)) -> about i p (lv i) k e m ->
      inv (mk_store (cached s) (upd (dirty s) k true)) (replace ts i (Put k e m)) lv.
    Proof.
      intros s ts lv i p k e m I N Nm Ab.
      assert (De : dirty_kind e) by (destruct Ab as [? [? Ab]]; tauto).
      constructor; cbn [cached dirty].
      - rewrite replace_length. apply (i_len _ _ _ I).
      - intros j q mj Nq Nj. rewrite nth_replace in Nj. destruct (Nat.eq_dec j i) as [->|D].
        + rewrite Nm in Nj. inversion Nj; subst. rewrite N in Nq. inversion Nq; subst. apply at_put; [exact Ab|]. cbn. apply upd_same.
        + eapply at_stable; [apply (i_at _ _ _ I); eassumption|reflexivity|]. intros j' H'. cbn. unfold Sched_Model.upd. destruct (eqk j' k); [reflexivity|exact H'].
      - apply (i_coh _ _ _ I).
      - apply (i_other _ _ _ I).
      - apply (i_prior _ _ _ I).
      - apply (i_part _ _ _ I).
      - apply (i_shared _ _ _ I).
      - intros j Hj. unfold Sched_Model.upd. destruct (eqk j k); [reflexivity|]. apply (i_marked _ _ _ I). exact Hj.
      - intros j Dj. unfold Sched_Model.upd in Dj. destruct (eqk j k) as [->|D].
        + right. exists i, e, m. split; [|exact De]. rewrite nth_replace, Nm. destruct (Nat.eq_dec i i); [reflexivity|congruence].
        + destruct (i_dirty _ _ _ I j Dj) as [L|[j' [e' [c [Nj De']]]]]; [left; exact L|right].
          exists j', e', c. split; [|exact De']. rewrite nth_replace. destruct (Nat.eq_dec j' i) as [->|D']; [|exact Nj]. rewrite Nm in Nj. discriminate.
    Qed.
    Lemma fill_step : forall s ts lv i p k v m, inv s ts lv -> nth_error tasks i = Some p -> nth_error ts i = Some (Put k (clean_entry v) m) ->
      owner k = Some i /\ cached s k = None \/ owner k = None -> so_far (lv i) k = Kept -> prior (lv i) k = db k -> db k = Some v -> next_ok i p (lv i) k m ->
      inv (mk_store (upd (cached s) k (Some (clean_entry v))) (dirty s)) (replace ts i m) lv.
    Proof.
      intros s ts lv i p k v m I N Nm O S1 S2 Dv X.
      constructor; cbn [cached dirty].
      - rewrite replace_length. apply (i_len _ _ _ I).
      - intros j q mj Nq Nj. rewrite nth_replace in Nj. destruct (Nat.eq_dec j i) as [->|D].
        + rewrite Nm in Nj. inversion Nj; subst. rewrite N in Nq. inversion Nq; subst. eapply next_at; [exact N|exact X|]. intros _. cbn. rewrite upd_same. discriminate.
        + eapply at_stable; [apply (i_at _ _ _ I); eassumption| |intros j' H'; exact H'].
          intros j' H'. cbn. apply upd_other. intros ->. destruct O as [[O _]|O]; congruence.
      - intro j. destruct (eqk j k) as [->|D]; [|rewrite upd_other by exact D; apply (i_coh _ _ _ I)].
        rewrite upd_same. rewrite (lv_mine _ _ _ i _ I) by (destruct O as [[O _]|O]; auto). unfold cell. cbn. rewrite S1, S2, Dv. auto.
      - apply (i_other _ _ _ I).
      - apply (i_prior _ _ _ I).
      - apply (i_part _ _ _ I).
      - intros j Sj. unfold Sched_Model.upd. destruct (eqk j k); [discriminate|]. apply (i_shared _ _ _ I). exact Sj.
      - apply (i_marked _ _ _ I).
      - intros j Dj. destruct (i_dirty _ _ _ I j Dj) as [L|[j' [e' [c [Nj De']]]]]; [left; exact L|right].
        exists j', e', c. split; [|exact De']. rewrite nth_replace. destruct (Nat.eq_dec j' i) as [->|D']; [|exact Nj]. rewrite Nm in Nj. inversion Nj; subst. exfalso. apply De'. reflexivity.
    Qed.
    Lemma put_step : forall s ts lv i p k e m, inv s ts lv -> nth_error tasks i = Some p -> nth_error ts i = Some (Put k e m) -> about i p (lv i) k e m -> dirty s k = true ->
      exists lv', inv (mk_store (upd (cached s) k (Some e)) (dirty s)) (replace ts i m) lv'.
    Proof.
      intros s ts lv i p k e m I N Nm [q [lvn [O [W [E [-> [De [Oth [Ck [Pr Pa]]]]]]]]]] Dk.
      exists (fun j => if Nat.eq_dec j i then lvn else lv j).
      assert (Hi : forall B (f : view -> B), f (if Nat.eq_dec i i then lvn else lv i) = f lvn) by (intros; destruct (Nat.eq_dec i i); congruence).
      assert (Ls : forall j, j <> k -> lv_of (fun j => if Nat.eq_dec j i then lvn else lv j) j = lv_of lv j).
      { intros j D. unfold lv_of. destruct (owner j) as [o|]; [|reflexivity]. destruct (Nat.eq_dec o i) as [->|]; [apply Oth; exact D|reflexivity]. }
      assert (Lk : lv_of (fun j => if Nat.eq_dec j i then lvn else lv j) k = cell lvn k).
      { unfold lv_of. rewrite O. destruct (Nat.eq_dec i i); congruence. }
      assert (Nk : snd (cell lvn k) <> Kept).
      { destruct Ck as [_ C2]. unfold dirty_kind in De. destruct (e_kind e); [congruence|rewrite C2; discriminate..]. }
      constructor; cbn [cached dirty].
      - rewrite replace_length. apply (i_len _ _ _ I).
      - intros j q' mj Nq Nj. rewrite nth_replace in Nj. destruct (Nat.eq_dec j i) as [->|D].
        + rewrite Nm in Nj. inversion Nj; subst. rewrite N in Nq. inversion Nq; subst. apply at_prog; assumption.
        + eapply at_stable; [apply (i_at _ _ _ I); eassumption| |intros j' H'; exact H'].
          intros j' H'. cbn. apply upd_other. intros ->. congruence.
      - intro j. destruct (eqk j k) as [->|D]; [rewrite upd_same, Lk; exact Ck|]. rewrite upd_other by exact D. rewrite Ls by exact D. apply (i_coh _ _ _ I).
      - intros j k' D. destruct (Nat.eq_dec j i) as [->|]; [|apply (i_other _ _ _ I); exact D].
        rewrite Oth by (intros ->; congruence). apply (i_other _ _ _ I). exact D.
      - intros j q' k' Nq Ad. destruct (Nat.eq_dec j i) as [->|]; [|eapply (i_prior _ _ _ I); eassumption].
        rewrite N in Nq. inversion Nq; subst q'. transitivity (prior (lv i) k'); [|eapply (i_prior _ _ _ I); eassumption].
        destruct (eqk k' k) as [->|D]; [apply Pr; exact Ad|]. pose proof (Oth k' D) as Q. unfold cell in Q. congruence.
      - intros j q' k' Nq Ad Kp. destruct (Nat.eq_dec j i) as [->|]; [|eapply (i_part _ _ _ I); eassumption].
        rewrite N in Nq. inversion Nq; subst q'. eapply same_part_trans; [|eapply (i_part _ _ _ I); eassumption].
        destruct (eqk k' k) as [->|D]; [apply Pa; assumption|]. rewrite !now_cell, (Oth k' D). apply same_part_refl.
      - intros j Sj. unfold Sched_Model.upd. destruct (eqk j k); [discriminate|]. apply (i_shared _ _ _ I). exact Sj.
      - intros j Hj. destruct (eqk j k) as [->|D]; [exact Dk|]. rewrite Ls in Hj by exact D. apply (i_marked _ _ _ I). exact Hj.
      - intros j Dj. destruct (eqk j k) as [->|D]; [left; rewrite Lk; exact Nk|]. rewrite Ls by exact D.
        destruct (i_dirty _ _ _ I j Dj) as [L|[j' [e' [c [Nj De']]]]]; [left; exact L|right].
        exists j', e', c. split; [|exact De']. rewrite nth_replace. destruct (Nat.eq_dec j' i) as [->|D']; [|exact Nj]. rewrite Nm in Nj. inversion Nj; subst. congruence.
    Qed.

    Lemma prog_step : forall s ts lv i p q, inv s ts lv -> nth_error tasks i = Some p -> nth_error ts i = Some (steps q) -> within q p -> alone q (lv i) = alone p v0 ->
      let (s', m') := micro_step eqk db s (steps q) in exists lv', inv s' (replace ts i m') lv'.
    Proof.
      intros s ts lv i p q I N Nm W E. destruct q as [a|k c|k c|k rm f c|k x c]; cbn [steps micro_step].
      - exists lv. eapply quiet_step; [exact I|exact N|exact Nm|discriminate|]. apply (at_prog i p s (lv i) (Ret a)); assumption.
      - (* Get *) unfold get_steps. cbn [micro_step]. exists lv. eapply quiet_step; [exact I|exact N|exact Nm|discriminate|].
        destruct (owner_cases i k) as [O|[j [O D]]].
        + refine (get_mine s ts lv i p k (fun o => steps (c o)) I N O _). left. exists (c (now (lv i) k)). split; [eapply within_get; exact W|]. split; [exact E|reflexivity].
        + destruct (nth_error tasks j) as [pj|] eqn:Nj; [|exfalso; exact (Range _ _ O Nj)].
          destruct Ap as [_ [A2 _]]. destruct (A2 j i pj p k Nj N D O) as [B1 [B2 [B3 _]]]; [exists c; exact W|].
          assert (Sh : shared k) by (exists j, i, pj, p; repeat split; try assumption; left; exists c; exact W).
          pose proof (i_shared _ _ _ I k Sh) as Ce. pose proof (i_coh _ _ _ I k) as Ck. unfold lv_of in Ck. rewrite O in Ck.
          destruct (cached s k) as [e|]; [|congruence]. apply hit_value in Ck. rewrite <- now_cell in Ck.
          replace (match e_kind e with KRemove => steps (c None) | _ => steps (c (Some (e_value e))) end) with (steps (c (now (lv j) k))) by (rewrite <- Ck; destruct (e_kind e); reflexivity).
          assert (Eq : c (now (lv j) k) = c (now (lv i) k)).
          { pose proof (i_part _ _ _ I j pj k Nj B3 B1) as Q.
            assert (Qi : now (lv i) k = now v0 k) by (rewrite !now_cell; rewrite (i_other _ _ _ I i k) by congruence; reflexivity).
            rewrite Qi. unfold same_part in Q. destruct (now (lv j) k), (now v0 k); try contradiction; [|reflexivity]. apply (B2 c W). exact Q. }
          rewrite Eq. apply at_prog; [eapply within_get; exact W|exact E].
      - (* GetClean *) unfold get_clean_steps. cbn [micro_step]. exists lv. eapply quiet_step; [exact I|exact N|exact Nm|discriminate|].
        assert (W' : forall o, within (c o) p) by (intro o; eapply within_clean; exact W).
        destruct (owner_cases i k) as [O|[j [O D]]].
        + pose proof (i_coh _ _ _ I k) as Ck. rewrite (lv_mine _ _ _ _ _ I O) in Ck. destruct (cached s k) as [e|] eqn:Ce.
          * destruct Ck as [C1 _]. cbn [cell fst] in C1. apply at_prog; [apply W'|]. rewrite <- C1. exact E.
          * destruct Ck as [C1 C2]. cbn [cell fst snd] in C1, C2. apply at_read; try assumption.
            { destruct O as [O|O]; [left; split; assumption|right; exact O]. }
            left. exists (c (db k)). split; [apply W'|]. split; [|reflexivity]. rewrite <- C2. exact E.
        + destruct (nth_error tasks j) as [pj|] eqn:Nj; [|exfalso; exact (Range _ _ O Nj)].
          destruct Ap as [_ [_ A3]]. destruct (A3 j i pj p k Nj N D O) as [B1 _]; [exists c; exact W|].
          assert (Sh : shared k) by (exists j, i, pj, p; repeat split; try assumption; right; exists c; exact W).
          pose proof (i_shared _ _ _ I k Sh) as Ce. pose proof (i_coh _ _ _ I k) as Ck. unfold lv_of in Ck. rewrite O in Ck.
          destruct (cached s k) as [e|]; [|congruence]. destruct Ck as [C1 _]. cbn [cell fst] in C1.
          apply at_prog; [apply W'|]. rewrite <- C1, (i_prior _ _ _ I j pj k Nj B1).
          assert (Qi : prior (lv i) k = prior v0 k) by (assert (X : cell (lv i) k = cell v0 k) by (apply (i_other _ _ _ I); congruence); unfold cell in X; congruence).
          rewrite <- Qi. exact E.
      - (* Mut *) unfold mut_steps, get_steps. cbn [micro_step]. exists lv. eapply quiet_step; [exact I|exact N|exact Nm|discriminate|].
        assert (O : owner k = Some i) by (eapply own_mut; eassumption).
        refine (get_mine s ts lv i p k (fun o => match o with None => steps (c false) | Some _ => mut_entry_steps k rm f (fun b => steps (c b)) end) I N (or_introl O) _).
        destruct (now (lv i) k) as [y|] eqn:Ny.
        + right. left. exists rm, f, c. split; [exact W|]. split; [exact E|]. split; [congruence|reflexivity].
        + left. exists (c false). split; [eapply within_mut; exact W|]. split; [|reflexivity]. rewrite <- E. cbn [Sched_Spec.alone]. rewrite Ny. reflexivity.
      - (* Add *) unfold add_steps, get_steps. cbn [micro_step]. exists lv. eapply quiet_step; [exact I|exact N|exact Nm|discriminate|].
        assert (O : owner k = Some i) by (eapply own_add; eassumption).
        refine (get_mine s ts lv i p k (fun o => match o with Some _ => steps (c false) | None => Mark k (Put k (mk_entry x x KAdd) (steps (c true))) end) I N (or_introl O) _).
        destruct (now (lv i) k) as [y|] eqn:Ny.
        + left. exists (c false). split; [eapply within_add; exact W|]. split; [|reflexivity]. rewrite <- E. cbn [Sched_Spec.alone]. rewrite Ny. reflexivity.
        + right. right. exists (mk_entry x x KAdd), (steps (c true)). split; [|reflexivity].
          exists (c true), (create eqk (lv i) k x). split; [exact O|]. split; [eapply within_add; exact W|]. split; [rewrite <- E; cbn [Sched_Spec.alone]; rewrite Ny; reflexivity|].
          split; [reflexivity|]. split; [discriminate|]. split; [intros; apply create_other; assumption|].
          split; [unfold cell, create; cbn; rewrite !set_same; auto|].
          split; [|intro Z]; intros; exfalso; [match goal with Z : ~ adds _ _ |- _ => apply Z end|apply Z]; exists x, c; exact W.
    Qed.

    Lemma mut_step : forall s ts lv i p k rm f c, inv s ts lv -> nth_error tasks i = Some p -> nth_error ts i = Some (mut_entry_steps k rm f (fun b => steps (c b))) ->
      owner k = Some i -> cached s k <> None -> within (Mut k rm f c) p -> alone (Mut k rm f c) (lv i) = alone p v0 -> now (lv i) k <> None ->
      let (s', m') := micro_step eqk db s (mut_entry_steps k rm f (fun b => steps (c b))) in exists lv', inv s' (replace ts i m') lv'.
    Proof.
      intros s ts lv i p k rm f c I N Nm O Ce W E Nn. unfold mut_entry_steps. cbn [micro_step]. exists lv. eapply quiet_step; [exact I|exact N|exact Nm|discriminate|].
      pose proof (i_coh _ _ _ I k) as Ck. unfold lv_of in Ck. rewrite O in Ck. destruct (cached s k) as [e|] eqn:Ek; [|congruence]. clear Ce.
      pose proof (hit_value _ _ _ Ck) as Hv. rewrite <- now_cell in Hv.
      assert (Nr : e_kind e <> KRemove) by (intro Q; rewrite Q in Hv; congruence).
      assert (Hn : now (lv i) k = Some (e_value e)) by (rewrite <- Hv; destruct (e_kind e); congruence).
      assert (W' : forall b, within (c b) p) by (intro b; eapply within_mut; exact W).
      cbn [Sched_Spec.alone] in E. rewrite Hn in E. destruct (f (e_value e)) as [y|] eqn:F; [|apply at_prog; [apply W'|exact E]].
      assert (Ab : forall e', e_snap e' = e_snap e -> e_value e' = y -> e_kind e' = (if rm then KRemove else match e_kind e with KAdd => KAdd | _ => KUpdate end) ->
        about i p (lv i) k e' (steps (c true))).
      { intros e' Q1 Q2 Q3. exists (c true), (if rm then remove eqk (lv i) k else update eqk (lv i) k y).
        split; [exact O|]. split; [apply W'|]. split; [exact E|]. split; [reflexivity|].
        split; [unfold dirty_kind; rewrite Q3; destruct rm; [discriminate|destruct (e_kind e); discriminate]|].
        split; [intros j D; destruct rm; [apply remove_other|apply update_other]; exact D|].
        split.
        { destruct Ck as [C1 C2]. cbn [cell fst snd] in C1, C2. unfold cell_ok. rewrite Q1, Q2, Q3.
          destruct rm; unfold cell, remove, update; cbn [prior so_far fst snd]; rewrite set_same; split; try assumption; try reflexivity.
          destruct (e_kind e); [destruct C2 as [-> _]|rewrite C2|rewrite C2|congruence]; reflexivity. }
        split; [intros _; destruct rm; reflexivity|].
        intros Ad Kp. destruct (Kp rm f c W) as [-> Q]. eapply update_part; [exact Hn|]. apply Q. exact F. }
      assert (Mk : at_ i p s (lv i) (Mark k (Put k (mk_entry (e_snap e) y (if rm then KRemove else KUpdate)) (steps (c true)))) \/ e_kind e = KAdd /\ rm = false).
      { destruct rm; [|destruct (e_kind e) eqn:Q]; try (left; apply at_mark; apply Ab; cbn; congruence). right; auto. }
      destruct Mk as [Mk|[Q ->]].
      - destruct (e_kind e) eqn:Q; try exact Mk. destruct rm; [exact Mk|]. apply at_put; [apply Ab; cbn; congruence|].
        apply (i_marked _ _ _ I). unfold lv_of. rewrite O. destruct Ck as [_ C2]. rewrite Q in C2. rewrite C2. discriminate.
      - rewrite Q. apply at_put; [apply Ab; cbn; rewrite ?Q; reflexivity|].
        apply (i_marked _ _ _ I). unfold lv_of. rewrite O. destruct Ck as [_ C2]. rewrite Q in C2. rewrite C2. discriminate.
    Qed.

    Lemma run_step : forall s ts lv i m, inv s ts lv -> nth_error ts i = Some m ->
      let (s', m') := micro_step eqk db s m in exists lv', inv s' (replace ts i m') lv'.
    Proof.
      intros s ts lv i m I Nm.
      assert (exists p, nth_error tasks i = Some p) as [p N].
      { destruct (nth_error tasks i) as [p|] eqn:N; [eauto|]. apply nth_error_None in N. assert (nth_error ts i <> None) as X by congruence. apply nth_error_Some in X. rewrite (i_len _ _ _ I) in X. lia. }
      pose proof (i_at _ _ _ I i p m N Nm) as X. inversion X as [q W E|k c O S1 S2 Nx|k v m1 O S1 S2 Dv Nx|k rm f c O Ce W E Nn|k e m1 Ab|k e m1 Ab Dk]; subst m; clear X.
      - apply (prog_step s ts lv i p q); assumption.
      - cbn [micro_step]. exists lv. eapply quiet_step; [exact I|exact N|exact Nm|discriminate|].
        assert (Nw : now (lv i) k = db k) by (unfold now; rewrite S1; exact S2).
        unfold fill. destruct (db k) as [v|] eqn:Dk.
        + apply at_fill; try assumption. congruence.
        + eapply next_at; [exact N|exact Nx|]. congruence.
      - cbn [micro_step]. exists lv. apply (fill_step s ts lv i p k v m1); assumption.
      - apply (mut_step s ts lv i p k rm f c); assumption.
      - cbn [micro_step]. exists lv. apply (mark_step s ts lv i p k e m1); assumption.
      - cbn [micro_step]. apply (put_step s ts lv i p k e m1); assumption.
    Qed.
    Lemma evict_step : forall s ts lv k, inv s ts lv -> owner k = None -> is_clean (cached s k) = true -> inv (mk_store (upd (cached s) k None) (dirty s)) ts lv.
    Proof.
      intros s ts lv k I O Cl. constructor; cbn [cached dirty]; try apply I.
      - intros i p m N Nm. eapply at_stable; [eapply (i_at _ _ _ I); eassumption| |intros j H'; exact H']. intros j Hj. cbn. apply upd_other. intros ->. congruence.
      - intro j. destruct (eqk j k) as [->|D]; [|rewrite upd_other by exact D; apply (i_coh _ _ _ I)]. rewrite upd_same.
        pose proof (i_coh _ _ _ I k) as Ck. unfold is_clean in Cl. destruct (cached s k) as [e|]; [|discriminate]. destruct (e_kind e) eqn:Q; try discriminate.
        destruct Ck as [C1 C2]. rewrite Q in C2. destruct C2 as [C2 [C3 C4]]. split; [exact C2|]. congruence.
      - intros j Sj. assert (j <> k). { intros ->. destruct Sj as [a [b [c [d Sj]]]]. destruct Sj as [_ [_ [_ [Sj _]]]]. congruence. }
        rewrite upd_other by assumption. apply (i_shared _ _ _ I). exact Sj.
    Qed.
    Lemma run_inv : forall l s ts lv, inv s ts lv -> (forall k, In (Evict k) l -> owner k = None) -> exists lv', inv (fst (run eqk db (s, ts) l)) (snd (run eqk db (s, ts) l)) lv'.
    Proof.
      intro l. induction l as [|[i|k] l IH]; intros s ts lv I C.
      - exists lv. exact I.
      - unfold run. cbn [fold_left event_step]. destruct (nth_error ts i) as [m|] eqn:Nm.
        + pose proof (run_step s ts lv i m I Nm) as X. destruct (micro_step eqk db s m) as [s' m']. destruct X as [lv' I']. eapply IH; [exact I'|]. intros. apply C. right. assumption.
        + eapply IH; [exact I|]. intros. apply C. right. assumption.
      - unfold run. cbn [fold_left event_step]. destruct (is_clean (cached s k)) eqn:Cl.
        + eapply IH; [apply evict_step; [exact I|apply C; left; reflexivity|exact Cl]|]. intros. apply C. right. assumption.
        + eapply IH; [exact I|]. intros. apply C. right. assumption.
    Qed.
    Lemma start_inv : forall s, represents db s v0 -> (forall k, shared k -> cached s k <> None) -> inv s (map steps tasks) (fun _ => v0).
    Proof.
      intros s R Sh. constructor.
      - apply map_length.
      - intros i p m N Nm. rewrite nth_error_map, N in Nm. inversion Nm. apply at_prog; [constructor|reflexivity].
      - intro k. replace (lv_of (fun _ => v0) k) with (cell v0 k) by (unfold lv_of; destruct (owner k); reflexivity). exact (proj1 (R k)).
      - reflexivity.
      - reflexivity.
      - intros. apply same_part_refl.
      - exact Sh.
      - intros k X. replace (lv_of (fun _ => v0) k) with (cell v0 k) in X by (unfold lv_of; destruct (owner k); reflexivity). apply (proj2 (R k)). exact X.
      - intros k X. left. replace (lv_of (fun _ => v0) k) with (cell v0 k) by (unfold lv_of; destruct (owner k); reflexivity). apply (proj2 (R k)). exact X.
    Qed.
    Lemma results_nth : forall (ts : list micro) rs, results ts = Some rs -> forall i, nth_error ts i = option_map Done (nth_error rs i).
    Proof.
      intro ts. induction ts as [|m ts IH]; intros rs E i; cbn [results] in E.
      - inversion E. destruct i; reflexivity.
      - destruct m; try discriminate. destruct (results ts) as [r|]; [|discriminate]. inversion E; subst. destruct i; [reflexivity|]. cbn. apply IH. reflexivity.
    Qed.
    Lemma nth_error_same : forall B (a b : list B), (forall i, nth_error a i = nth_error b i) -> a = b.
    Proof.
      intros B a. induction a as [|x a IH]; intros [|y b] E; [reflexivity|specialize (E 0%nat); discriminate..|].
      pose proof (E 0%nat) as E0. cbn in E0. inversion E0; subst. f_equal. apply IH. intro i. exact (E (S i)).
    Qed.
    Lemma run_end : forall s lv ts rs, inv s ts lv -> results ts = Some rs ->
      rs = map (fun p => snd (alone p v0)) tasks /\ represents db s (fst (in_order tasks v0)).
    Proof.
      intros s lv ts rs I E. pose proof (results_nth ts rs E) as Hr.
      assert (Fin : forall i p, nth_error tasks i = Some p -> lv i = fst (alone p v0) /\ nth_error rs i = Some (snd (alone p v0))).
      { intros i p N. assert (exists m, nth_error ts i = Some m) as [m Nm].
        { destruct (nth_error ts i) as [m|] eqn:Q; [eauto|]. apply nth_error_None in Q. assert (nth_error tasks i <> None) as X by congruence. apply nth_error_Some in X. rewrite <- (i_len _ _ _ I) in X. lia. }
        pose proof (i_at _ _ _ I i p m N Nm) as X. pose proof (Hr i) as Hi. rewrite Nm in Hi. destruct (nth_error rs i) as [a|] eqn:Ea; [|discriminate]. cbn in Hi. inversion Hi; subst m.
        inversion X as [q W Eq Q|k c O S1 S2 Nx Q|k v m1 O S1 S2 Dv Nx Q|k rm f c O Ce W Eq Nn Q|k e m1 Ab Q|k e m1 Ab Dk Q]; try discriminate.
        destruct q; try discriminate. inversion Q; subst. cbn [Sched_Spec.alone] in Eq. rewrite <- Eq. auto. }
      split.
      - apply nth_error_same. intro i. rewrite nth_error_map. destruct (nth_error tasks i) as [p|] eqn:N; [apply (Fin i p N)|].
        cbn. apply nth_error_None. apply nth_error_None in N. rewrite <- (i_len _ _ _ I) in N. apply nth_error_None in N. pose proof (Hr i) as Hi. rewrite N in Hi. destruct (nth_error rs i) eqn:Ea; [discriminate|]. apply nth_error_None. exact Ea.
      - assert (J : forall k, lv_of lv k = cell (fst (in_order tasks v0)) k).
        { intro k. rewrite (proj1 (in_order_joint v0)). unfold lv_of, left_by. destruct (owner k) as [i|] eqn:O; [|reflexivity].
          destruct (nth_error tasks i) as [p|] eqn:N; [|exfalso; exact (Range _ _ O N)]. assert (i < length tasks)%nat by (apply nth_error_Some; congruence).
          replace (i <? length tasks) with true by (symmetry; apply Nat.ltb_lt; assumption). rewrite (proj1 (Fin i p N)). reflexivity. }
        intro k. pose proof (i_coh _ _ _ I k) as Ck. pose proof (i_marked _ _ _ I k) as Mk. pose proof (i_dirty _ _ _ I k) as Dk. rewrite J in Ck, Mk, Dk.
        split; [exact Ck|]. split; [|exact Mk]. intro D. destruct (Dk D) as [X|[i [e [m [Nm _]]]]]; [exact X|]. rewrite Hr in Nm. destruct (nth_error rs i); discriminate.
    Qed.
  End Alone.

  (** * Stages *)
  Definition evicted (l : list (event K)) (k : K) : bool := existsb (fun e => match e with Evict j => if eqk j k then true else false | Run _ => false end) l.
  Lemma evicted_in : forall l k, evicted l k = true <-> In (Evict k) l.
  Proof.
    intros l k. unfold evicted. rewrite existsb_exists. split.
    - intros [[i|j] [I E]]; [discriminate|]. destruct (eqk j k) as [->|]; [exact I|discriminate].
    - intro I. exists (Evict k). split; [exact I|]. destruct (eqk k k); congruence.
  Qed.
  Theorem stage_ok : forall (part : K -> V -> P) owner (tasks : list prog) db v0 s l s' ts rs,
    represents db s v0 -> apart part owner tasks (fun k => cached s k <> None) -> calm tasks l ->
    run eqk db (s, map steps tasks) l = (s', ts) -> results ts = Some rs ->
    rs = snd (in_order tasks v0) /\ rs = map (fun p => snd (alone p v0)) tasks /\ represents db s' (fst (in_order tasks v0)).
  Proof.
    intros part owner tasks db v0 s l s' ts rs R [A1 [A2 A3]] C E Er.
    set (own := fun k => if evicted l k then None else match owner k with Some j => match nth_error tasks j with Some _ => Some j | None => None end | None => None end).
    assert (Oo : forall k j, own k = Some j -> owner k = Some j /\ nth_error tasks j <> None).
    { intros k j O. unfold own in O. destruct (evicted l k); [discriminate|]. destruct (owner k) as [i|]; [|discriminate]. destruct (nth_error tasks i) eqn:N; [|discriminate]. inversion O; subst. split; congruence. }
    assert (Ap : apart part own tasks (fun k => cached s k <> None)).
    { split; [|split].
      - intros i p k N Ch. unfold own. destruct (evicted l k) eqn:Q; [|rewrite (A1 i p k N Ch), N; reflexivity].
        exfalso. apply evicted_in in Q. apply (C k p Q); [apply nth_error_In in N; exact N|exact Ch].
      - intros i j p q k Ni Nj D O Rd. apply (A2 i j p q k); try assumption. apply Oo. exact O.
      - intros i j p q k Ni Nj D O Rd. apply (A3 i j p q k); try assumption. apply Oo. exact O. }
    assert (Rg : forall k j, own k = Some j -> nth_error tasks j <> None) by (intros k j O; apply Oo in O; apply O).
    assert (Sh : forall k, shared own tasks k -> cached s k <> None).
    { intros k [i [j [p [q [Ni [Nj [D [O [Rd|Rd]]]]]]]]]; destruct Ap as [_ [B2 B3]]; [apply (B2 i j p q k); assumption|apply (B3 i j p q k); assumption]. }
    destruct (run_inv part own tasks _ Ap Rg db v0 l s (map steps tasks) (fun _ => v0)) as [lv I].
    - apply start_inv; assumption.
    - intros k Ik. apply evicted_in in Ik. unfold own. rewrite Ik. reflexivity.
    - rewrite E in I. cbn [fst snd] in I. destruct (run_end part own tasks _ Ap Rg db v0 s' lv ts rs I Er) as [E1 E2].
      split; [|split; [exact E1|exact E2]]. rewrite E1. symmetry. apply (proj2 (in_order_joint part own tasks _ Ap Rg v0)).
  Qed.

  (** Every execution can be finished. *)
  Lemma run_app : forall db w l1 l2, @run K V A eqk db w (l1 ++ l2) = run eqk db (run eqk db w l1) l2.
  Proof. intros. unfold run. apply fold_left_app. Qed.
  Lemma replace_nth : forall (pre : list micro) m m' post, replace (pre ++ m :: post) (length pre) m' = pre ++ m' :: post.
  Proof. intros pre. induction pre as [|x pre IH]; intros; cbn; [reflexivity|]. rewrite IH. reflexivity. Qed.
  Lemma finish_one : forall db (m : micro) s pre post, exists l s' a, run eqk db (s, pre ++ m :: post) l = (s', pre ++ Done a :: post) /\ forall k, ~ In (Evict k) l.
  Proof.
    intros db m. induction m as [a|k c IH|k c IH|k m IH|k e m IH]; intros s pre post.
    - exists [], s, a. split; [reflexivity|]. intros k [].
    - destruct (IH (cached s k) s pre post) as [l [s' [a [E C]]]]. exists (Run (length pre) :: l), s', a. split; [|intros j [X|X]; [discriminate|exact (C j X)]].
      unfold run. cbn [fold_left event_step]. rewrite nth_error_app2, Nat.sub_diag by lia. cbn [nth_error micro_step]. rewrite replace_nth. exact E.
    - destruct (IH (db k) s pre post) as [l [s' [a [E C]]]]. exists (Run (length pre) :: l), s', a. split; [|intros j [X|X]; [discriminate|exact (C j X)]].
      unfold run. cbn [fold_left event_step]. rewrite nth_error_app2, Nat.sub_diag by lia. cbn [nth_error micro_step]. rewrite replace_nth. exact E.
    - destruct (IH (mk_store (cached s) (upd (dirty s) k true)) pre post) as [l [s' [a [E C]]]]. exists (Run (length pre) :: l), s', a. split; [|intros j [X|X]; [discriminate|exact (C j X)]].
      unfold run. cbn [fold_left event_step]. rewrite nth_error_app2, Nat.sub_diag by lia. cbn [nth_error micro_step]. rewrite replace_nth. exact E.
    - destruct (IH (mk_store (upd (cached s) k (Some e)) (dirty s)) pre post) as [l [s' [a [E C]]]]. exists (Run (length pre) :: l), s', a. split; [|intros j [X|X]; [discriminate|exact (C j X)]].
      unfold run. cbn [fold_left event_step]. rewrite nth_error_app2, Nat.sub_diag by lia. cbn [nth_error micro_step]. rewrite replace_nth. exact E.
  Qed.
  Theorem can_finish : forall db (ts : list micro) s, exists l s' ts' rs, run eqk db (s, ts) l = (s', ts') /\ results ts' = Some rs /\ forall k, ~ In (Evict k) l.
  Proof.
    assert (G : forall db (post pre : list micro) ra s, results pre = Some ra -> exists l s' ts' rs, run eqk db (s, pre ++ post) l = (s', ts') /\ results ts' = Some rs /\ forall k, ~ In (Evict k) l).
    { intros db post. induction post as [|m post IH]; intros pre ra s E.
      - exists [], s, (pre ++ []), ra. split; [reflexivity|]. rewrite app_nil_r. split; [exact E|]. intros k [].
      - destruct (finish_one db m s pre post) as [l1 [s1 [a [E1 C1]]]].
        assert (X : exists r, results (pre ++ [Done a]) = Some r).
        { clear -E. revert ra E. induction pre as [|y pre IH]; intros ra E; cbn in *; [eauto|]. destruct y; try discriminate. destruct (results pre) as [r|]; [|discriminate]. destruct (IH r eq_refl) as [r' ->]. cbn. eauto. }
        destruct X as [r X]. destruct (IH (pre ++ [Done a]) r s1 X) as [l2 [s2 [ts2 [rs [E2 [E3 C2]]]]]].
        exists (l1 ++ l2), s2, ts2, rs. split; [rewrite run_app, E1; rewrite <- app_assoc in E2; exact E2|]. split; [exact E3|].
        intros k I. apply in_app_or in I. destruct I as [I|I]; [exact (C1 k I)|exact (C2 k I)]. }
    intros db ts s. exact (G db ts [] [] s eq_refl).
  Qed.

  Lemma apart_ready : forall (part : K -> V -> P) owner (tasks : list prog) (r1 r2 : K -> Prop), (forall k, r1 k -> r2 k) -> apart part owner tasks r1 -> apart part owner tasks r2.
  Proof.
    intros part owner tasks r1 r2 E [A1 [A2 A3]]. split; [exact A1|]. split.
    - intros i j p q k Ni Nj D O R. destruct (A2 i j p q k Ni Nj D O R) as [B1 [B2 [B3 B4]]]. auto.
    - intros i j p q k Ni Nj D O R. destruct (A3 i j p q k Ni Nj D O R) as [B1 B2]. auto.
  Qed.
  Lemma changed_cached : forall db s (v : view) k, represents db s v -> so_far v k <> Kept -> cached s k <> None.
  Proof. intros db s v k R C E. destruct (R k) as [X _]. rewrite E in X. apply C. apply X. Qed.
  Theorem stages_ok : forall (part : K -> V -> P) db s (f : flow K V A) s' rs (v : view), executes eqk db calm s f s' rs -> represents db s v -> apart_from eqk part f v ->
    represents db s' (fst (stages_in_order eqk f v)) /\ rs = snd (stages_in_order eqk f v).
  Proof.
    intros part db s f s' rs v X. revert v. induction X as [s|s tasks next l s1 ts r s2 rs C E Er X IH]; intros v R Ap; cbn [stages_in_order].
    - split; [exact R|reflexivity].
    - destruct Ap as [[owner Ap] Nx].
      destruct (stage_ok part owner tasks db v s l s1 ts r R) as [E1 [_ R1]]; try assumption.
      { eapply apart_ready; [|exact Ap]. intros k Ck. eapply changed_cached; eassumption. }
      destruct (in_order tasks v) as [v1 r1]. cbn [fst snd] in *. subst r1.
      destruct (IH v1 R1 Nx) as [R2 E2]. destruct (stages_in_order eqk (next r) v1) as [v2 rs2]. cbn [fst snd] in *. subst. auto.
  Qed.
End Proofs.
