(** Proofs about the statistics: counters that wrap or panic, lifted to loops, arrays and maps. *)
From Verif Require Import Base Base_Proofs Stats_Model Stats_Spec.
From Coq Require Import Sorted Lia.
Open Scope N_scope.

(** ** Saturating facts about [plus] *)
Lemma plus_release : forall w a b, plus false w a b = Ok ((a + b) mod 2 ^ w).
Proof.
  intros. unfold plus. destruct (a + b <? 2 ^ w) eqn:E; auto. apply N.ltb_lt in E. rewrite N.mod_small; auto.
Qed.
Lemma plus_exact : forall chk w a b, a + b < 2 ^ w -> plus chk w a b = Ok (a + b).
Proof. intros. unfold plus. apply N.ltb_lt in H. rewrite H. auto. Qed.
Lemma plus_debug : forall w a b c, plus true w a b = Ok c -> a + b < 2 ^ w /\ c = a + b.
Proof.
  intros w a b c. unfold plus. destruct (a + b <? 2 ^ w) eqn:E; intro H; inversion H. apply N.ltb_lt in E. auto.
Qed.

(** ** Counters *)
Record algebra {R D : Type} (step : bool -> R -> D -> result unit R) (add : R -> D -> R) (keep : R -> R) (fits : R -> Prop)
    (shape : R -> Prop) (ok : D -> Prop) : Prop := mk_algebra {
  a_release : forall x d, shape x -> fits x -> ok d -> step false x d = Ok (keep (add x d));
  a_exact : forall chk x d, shape x -> ok d -> fits (add x d) -> step chk x d = Ok (add x d);
  a_debug : forall x d y, shape x -> fits x -> ok d -> step true x d = Ok y -> fits (add x d);
  a_keep : forall x d, shape x -> ok d -> keep (add (keep x) d) = keep (add x d);
  a_id : forall x, fits x -> keep x = x;
  a_fits : forall x, shape x -> fits (keep x);
  a_mono : forall x d, shape x -> ok d -> fits (add x d) -> fits x;
  a_shape : forall x d, shape x -> ok d -> shape (add x d);
  a_shape' : forall x, shape x -> shape (keep x) }.

Lemma each_app : forall (A S : Type) (f : S -> A -> result unit S) l1 l2 s,
  each f s (l1 ++ l2) = let! s' := each f s l1 in each f s' l2.
Proof. induction l1; simpl; intros; auto. destruct (f s a); simpl; auto. Qed.
Lemma each_map : forall (A B S : Type) (f : S -> A -> result unit S) (g : B -> A) l s,
  each f s (map g l) = each (fun x b => f x (g b)) s l.
Proof. induction l; simpl; intros; auto. destruct (f s (g a)); simpl; auto. Qed.
Lemma each_ext : forall (A S : Type) (f g : S -> A -> result unit S) l s, (forall s a, In a l -> f s a = g s a) -> each f s l = each g s l.
Proof. induction l; simpl; intros; auto. rewrite H by auto. destruct (g s a); simpl; auto. Qed.

(** Loops. *)
Section Loop.
  Context {R D : Type} {step : bool -> R -> D -> result unit R} {add : R -> D -> R} {keep : R -> R} {fits : R -> Prop}
    {shape : R -> Prop} {ok : D -> Prop}.
  Hypothesis A : algebra step add keep fits shape ok.
  Lemma loop_shape : forall ds x, shape x -> Forall ok ds -> shape (fold_left add ds x).
  Proof. induction ds; simpl; intros; auto. inversion H0; subst. apply IHds; auto. eapply (a_shape _ _ _ _ _ _ A); eauto. Qed.
  Lemma loop_mono : forall ds x, shape x -> Forall ok ds -> fits (fold_left add ds x) -> fits x.
  Proof.
    induction ds; simpl; intros; auto. inversion H0; subst. eapply (a_mono _ _ _ _ _ _ A); eauto. apply IHds; auto. eapply (a_shape _ _ _ _ _ _ A); eauto.
  Qed.
  Lemma loop_keep : forall ds x, shape x -> Forall ok ds -> keep (fold_left add ds (keep x)) = keep (fold_left add ds x).
  Proof.
    induction ds; simpl; intros x S F.
    - apply (a_id _ _ _ _ _ _ A). eapply (a_fits _ _ _ _ _ _ A); eauto.
    - inversion F; subst. rewrite <- (IHds (add (keep x) a)); auto; [|eapply (a_shape _ _ _ _ _ _ A); eauto; eapply (a_shape' _ _ _ _ _ _ A); eauto].
      rewrite (a_keep _ _ _ _ _ _ A); auto. apply IHds; auto. eapply (a_shape _ _ _ _ _ _ A); eauto.
  Qed.
  Lemma loop_algebra : algebra (fun chk => each (step chk)) (fun x ds => fold_left add ds x) keep fits shape (Forall ok).
  Proof.
    constructor.
    - intros x d. revert x. induction d as [|a d IH]; simpl; intros x S F O.
      + rewrite (a_id _ _ _ _ _ _ A); auto.
      + inversion O; subst. rewrite (a_release _ _ _ _ _ _ A) by auto. simpl. rewrite IH; auto.
        * f_equal. apply loop_keep; auto. eapply (a_shape _ _ _ _ _ _ A); eauto.
        * eapply (a_shape' _ _ _ _ _ _ A); eauto. eapply (a_shape _ _ _ _ _ _ A); eauto.
        * eapply (a_fits _ _ _ _ _ _ A); eauto. eapply (a_shape _ _ _ _ _ _ A); eauto.
    - intros chk x d. revert x. induction d as [|a d IH]; simpl; intros x S O F; auto.
      inversion O; subst. rewrite (a_exact _ _ _ _ _ _ A); auto.
      + simpl. apply IH; auto. eapply (a_shape _ _ _ _ _ _ A); eauto.
      + eapply loop_mono; eauto. eapply (a_shape _ _ _ _ _ _ A); eauto.
    - intros x d. revert x. induction d as [|a d IH]; simpl; intros x y S F O H; auto.
      inversion O; subst. destruct (step true x a) as [x'| |] eqn:E; try discriminate H.
      simpl in H. pose proof (a_debug _ _ _ _ _ _ A _ _ _ S F H2 E) as F1.
      pose proof (a_exact _ _ _ _ _ _ A true _ _ S H2 F1) as E1. rewrite E1 in E. inversion E; subst.
      eapply IH; eauto. eapply (a_shape _ _ _ _ _ _ A); eauto.
    - intros. apply loop_keep; auto.
    - apply (a_id _ _ _ _ _ _ A).
    - apply (a_fits _ _ _ _ _ _ A).
    - intros. eapply loop_mono; eauto.
    - intros. apply loop_shape; auto.
    - apply (a_shape' _ _ _ _ _ _ A).
  Qed.
End Loop.

(** A step given by another step on a translated datum. *)
Lemma via_algebra : forall (R D D' : Type) (step : bool -> R -> D -> result unit R) add keep fits shape ok (g : D' -> D)
    (step' : bool -> R -> D' -> result unit R) (ok' : D' -> Prop),
  algebra step add keep fits shape ok -> (forall chk x d, shape x -> ok' d -> step' chk x d = step chk x (g d)) -> (forall d, ok' d -> ok (g d)) ->
  algebra step' (fun x d => add x (g d)) keep fits shape ok'.
Proof.
  intros R D D' step add keep fits shape ok g step' ok' A E O. destruct A. constructor; intros; eauto; rewrite ?E in *; eauto.
Qed.

(** Arrays. *)
Fixpoint alter {A : Type} (i : nat) (f : A -> A) (l : list A) : list A :=
  match l, i with [], _ => [] | x :: l', O => f x :: l' | x :: l', S i' => x :: alter i' f l' end.
Lemma alter_length : forall (A : Type) (f : A -> A) l i, length (alter i f l) = length l.
Proof. induction l; destruct i; simpl; auto. Qed.
Lemma alter_nth : forall (A : Type) (f : A -> A) l i j, nth_error (alter i f l) j =
  if Nat.eqb i j then option_map f (nth_error l j) else nth_error l j.
Proof.
  induction l; intros [|i] [|j]; simpl; auto; destruct (Nat.eqb _ _); auto.
Qed.
Section Array.
  Context {R D : Type} {step : bool -> R -> D -> result unit R} {add : R -> D -> R} {keep : R -> R} {fits : R -> Prop}
    {shape : R -> Prop} {ok : D -> Prop}.
  Hypothesis A : algebra step add keep fits shape ok.
  Lemma array_algebra : forall n, algebra (fun chk l d => at_index (fst d) (fun x => step chk x (snd d)) l)
    (fun l d => alter (fst d) (fun x => add x (snd d)) l) (map keep) (Forall fits) (fun l => length l = n /\ Forall shape l)
    (fun d => (fst d < n)%nat /\ ok (snd d)).
  Proof.
    intro n. constructor.
    - intros x [i d]. revert x. simpl. intros x [L S] F [Hi O]. rewrite <- L in Hi. clear L n. revert i Hi.
      induction x as [|a x IH]; intros i Hi; simpl in *; [lia|]. inversion S; inversion F; subst.
      assert (Hk : map keep x = x) by (clear - H6 A; induction H6; simpl; auto; rewrite IHForall, (a_id _ _ _ _ _ _ A); auto).
      destruct i; simpl.
      + rewrite (a_release _ _ _ _ _ _ A) by auto. simpl. rewrite Hk. auto.
      + rewrite IH; auto; [|lia]. simpl. rewrite (a_id _ _ _ _ _ _ A a); auto.
    - intros chk x [i d]. revert x. simpl. intros x [L S] [Hi O] F. rewrite <- L in Hi. clear L n. revert i Hi F.
      induction x as [|a x IH]; intros i Hi F; simpl in *; [lia|]. inversion S; subst.
      destruct i; simpl in *; inversion F; subst.
      + rewrite (a_exact _ _ _ _ _ _ A) by auto. auto.
      + rewrite IH; auto; lia.
    - intros x [i d]. revert x. simpl. intros x y [L S] F [Hi O]. rewrite <- L in Hi. clear L n. revert i y Hi.
      induction x as [|a x IH]; intros i y Hi H; simpl in *; [lia|]. inversion S; inversion F; subst.
      destruct i; simpl in *.
      + destruct (step true a d) eqn:E; try discriminate H. constructor; auto. eapply (a_debug _ _ _ _ _ _ A); eauto.
      + destruct (at_index i (fun x0 => step true x0 d) x) eqn:E; try discriminate H. constructor; auto. eapply IH; eauto. lia.
    - intros x [i d]. revert x. simpl. intros x [L S] [Hi O]. clear L Hi n. revert i. induction x as [|a x IH]; intros i; simpl; auto.
      inversion S; subst.
      assert (Hk : map keep (map keep x) = map keep x).
      { clear - H2 A; induction H2; simpl; auto; rewrite IHForall, (a_id _ _ _ _ _ _ A (keep x)); auto. eapply (a_fits _ _ _ _ _ _ A); eauto. }
      destruct i; simpl.
      + rewrite (a_keep _ _ _ _ _ _ A), Hk; auto.
      + rewrite IH, (a_id _ _ _ _ _ _ A (keep a)); auto. eapply (a_fits _ _ _ _ _ _ A); eauto.
    - intros x F. induction F; simpl; auto. rewrite IHF, (a_id _ _ _ _ _ _ A); auto.
    - intros x [_ S]. induction S; simpl; constructor; auto. eapply (a_fits _ _ _ _ _ _ A); eauto.
    - intros x [i d] [L S] [Hi O]. simpl in *. clear L Hi n. revert i. induction x as [|a x IH]; intros i F; simpl in *; auto.
      inversion S; subst. destruct i; simpl in *; inversion F; subst; constructor; eauto. eapply (a_mono _ _ _ _ _ _ A); eauto.
    - intros x [i d] [L S] [Hi O]. simpl in *. rewrite alter_length. split; auto. clear L Hi n. revert i.
      induction x as [|a x IH]; intros i; [destruct i; simpl; auto|].
      inversion S; subst. destruct i; simpl; constructor; auto. eapply (a_shape _ _ _ _ _ _ A); eauto.
    - intros x [L S]. rewrite map_length. split; auto. clear L. induction S; simpl; constructor; auto. eapply (a_shape' _ _ _ _ _ _ A); eauto.
  Qed.
End Array.

(** Maps. *)
Fixpoint upsert {A : Type} (d : A) (k : N) (f : A -> A) (m : list (N * A)) : list (N * A) :=
  match m with
  | [] => [(k, f d)]
  | (k', x) :: m' => if k <? k' then (k, f d) :: m else if k =? k' then (k, f x) :: m' else (k', x) :: upsert d k f m'
  end.
Definition on_snd {A B : Type} (f : A -> B) (p : N * A) : N * B := (fst p, f (snd p)).
Section Map.
  Context {R D : Type} {step : bool -> R -> D -> result unit R} {add : R -> D -> R} {keep : R -> R} {fits : R -> Prop}
    {shape : R -> Prop} {ok : D -> Prop}.
  Hypothesis A : algebra step add keep fits shape ok.
  Variable z : R.
  Hypothesis z_shape : shape z.
  Hypothesis z_fits : fits z.
  Lemma map_algebra : algebra (fun chk m d => entry z (fst d) (fun x => step chk x (snd d)) m)
    (fun m d => upsert z (fst d) (fun x => add x (snd d)) m) (map (on_snd keep)) (Forall (fun p => fits (snd p)))
    (Forall (fun p => shape (snd p))) (fun d => ok (snd d)).
  Proof.
    assert (Hk : forall m : list (N * R), Forall (fun p => fits (snd p)) m -> map (on_snd keep) m = m).
    { intros m F. induction F as [|[k x] m F1 F2 IH]; simpl; auto. unfold on_snd at 1. simpl in *. rewrite IH, (a_id _ _ _ _ _ _ A); auto. }
    assert (Hf : forall m : list (N * R), Forall (fun p => shape (snd p)) m -> Forall (fun p => fits (snd p)) (map (on_snd keep) m)).
    { intros m S. induction S; simpl; constructor; auto. simpl. eapply (a_fits _ _ _ _ _ _ A); eauto. }
    assert (Zk : keep z = z) by (apply (a_id _ _ _ _ _ _ A); auto).
    constructor.
    - intros m [k d]; simpl; intros S F O. induction m as [|[k' x] m IH]; simpl in *.
      + rewrite (a_release _ _ _ _ _ _ A) by auto. auto.
      + inversion S; inversion F; subst. simpl in *. destruct (k <? k').
        * rewrite (a_release _ _ _ _ _ _ A) by auto. simpl. unfold on_snd at 1 2. simpl. rewrite (Hk m), (a_id _ _ _ _ _ _ A x); auto.
        * destruct (k =? k').
          -- rewrite (a_release _ _ _ _ _ _ A) by auto. simpl. rewrite (Hk m); auto.
          -- rewrite IH; auto. simpl. unfold on_snd at 2. simpl. rewrite (a_id _ _ _ _ _ _ A x); auto.
    - intros chk m [k d]; simpl; intros S O F. induction m as [|[k' x] m IH]; simpl in *.
      + inversion F; subst. rewrite (a_exact _ _ _ _ _ _ A) by auto. auto.
      + inversion S; subst. simpl in *. destruct (k <? k').
        * inversion F; subst. rewrite (a_exact _ _ _ _ _ _ A) by auto. auto.
        * destruct (k =? k'); inversion F; subst.
          -- rewrite (a_exact _ _ _ _ _ _ A) by auto. auto.
          -- rewrite IH; auto.
    - intros m [k d]; simpl; intros y S F O. revert y. induction m as [|[k' x] m IH]; simpl in *; intros y H.
      + destruct (step true z d) eqn:E; try discriminate H. constructor; auto. simpl. eapply (a_debug _ _ _ _ _ _ A); eauto.
      + inversion S; inversion F; subst. simpl in *. destruct (k <? k').
        * destruct (step true z d) eqn:E; try discriminate H. constructor; auto. simpl. eapply (a_debug _ _ _ _ _ _ A); eauto.
        * destruct (k =? k').
          -- destruct (step true x d) eqn:E; try discriminate H. constructor; auto. simpl. eapply (a_debug _ _ _ _ _ _ A); eauto.
          -- destruct (entry z k (fun x0 => step true x0 d) m) eqn:E; try discriminate H. constructor; auto. eapply IH; eauto.
    - intros m [k d]; simpl; intros S O. induction m as [|[k' x] m IH]; simpl in *; auto.
      inversion S; subst. simpl in *.
      destruct (k <? k'); simpl.
      + f_equal. unfold on_snd at 1. simpl. unfold on_snd at 2. simpl. rewrite (a_id _ _ _ _ _ _ A (keep x)) by (eapply (a_fits _ _ _ _ _ _ A); eauto).
        rewrite Hk; auto.
      + destruct (k =? k'); simpl.
        * unfold on_snd at 1 3. simpl. rewrite (a_keep _ _ _ _ _ _ A) by auto. rewrite Hk; auto.
        * rewrite IH by auto. unfold on_snd at 1 3. simpl. rewrite (a_id _ _ _ _ _ _ A (keep x)) by (eapply (a_fits _ _ _ _ _ _ A); eauto). auto.
    - intros; auto.
    - intros; auto.
    - intros m [k d]; simpl; intros S O. induction m as [|[k' x] m IH]; simpl in *; auto. inversion S; subst; simpl in *.
      destruct (k <? k'); [intro F; inversion F; auto|]. destruct (k =? k'); intro F; inversion F; subst; constructor; simpl in *; auto.
      eapply (a_mono _ _ _ _ _ _ A); eauto.
    - intros m [k d]; simpl; intros S O. induction m as [|[k' x] m IH]; simpl in *.
      + constructor; auto. simpl. eapply (a_shape _ _ _ _ _ _ A); eauto.
      + inversion S; subst; simpl in *. destruct (k <? k'); [constructor; auto; simpl; eapply (a_shape _ _ _ _ _ _ A); eauto|].
        destruct (k =? k'); constructor; simpl; auto. eapply (a_shape _ _ _ _ _ _ A); eauto.
    - intros m S. induction S; simpl; constructor; auto. simpl. eapply (a_shape' _ _ _ _ _ _ A); eauto.
  Qed.
End Map.
