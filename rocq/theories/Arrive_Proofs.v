From Verif Require Import Base Arrive_Model Arrive_Spec.
From Coq Require Import Permutation.
Open Scope N_scope.

Section P.
  Context {B : Type}.
  Variables hash parent : B -> N.
  Variable ok : N -> B -> bool.
  Local Notation happens := (happens B hash parent ok).
  Local Notation happen := (happen B hash parent ok).
  Local Notation holds_of := (fun t : task B => match t with Holding b => [b] | _ => [] end).

  Lemma happen_app : forall l1 l2 n, happen n (l1 ++ l2) = let (n1, o1) := happen n l1 in let (n2, o2) := happen n1 l2 in (n2, o1 ++ o2).
  Proof.
    induction l1 as [|e l1 IH]; intros l2 n; cbn [app Arrive_Model.happen]; [destruct (happen n l2); reflexivity|].
    destruct (happens n e) as [n1 o1]. rewrite IH. destruct (happen n1 l1) as [n2 o2]. destruct (happen n2 l2) as [n3 o3]. rewrite app_assoc. reflexivity.
  Qed.

  Lemma put_task_held : forall (l : list (task B)) i t u, nth_error l i = Some t ->
    Permutation (holds_of t ++ flat_map holds_of (put_task l i u)) (holds_of u ++ flat_map holds_of l).
  Proof.
    induction l as [|x l IH]; intros i t u E; [destruct i; discriminate|]. destruct i as [|i]; cbn [nth_error] in E.
    - injection E as ->. cbn [put_task flat_map]. rewrite !app_assoc. apply Permutation_app_tail, Permutation_app_comm.
    - cbn [put_task flat_map]. rewrite !app_assoc. rewrite (Permutation_app_comm (holds_of t)), (Permutation_app_comm (holds_of u)), <- !app_assoc.
      apply Permutation_app_head, IH, E.
  Qed.

  (** The invariant of every run. *)
  Record sound (n0 n : node_at B) (o : list (sight B)) : Prop := {
    so_order : a_chan n0 ++ queued o = took o ++ a_chan n;
    so_held : Permutation (held n0 ++ fetched o) (queued o ++ held n);
    so_room : (length (a_chan n0) <= 10 -> length (a_chan n) <= 10)%nat;
    so_idle : a_runs n = false -> a_runs n0 = false /\ took o = [] }.

  Lemma happens_sound : forall n e n' o, happens n e = (n', o) -> sound n n' o.
  Proof.
    intros n e n' o E. destruct e as [h|i r|i| |]; cbn [Arrive_Model.happens] in E.
    - injection E as <- <-. constructor; cbn; auto using app_nil_r; unfold held; cbn [a_tasks]; [rewrite flat_map_app; cbn; rewrite !app_nil_r; reflexivity].
    - destruct (nth_error (a_tasks n) i) as [[h|b|]|] eqn:T; try (injection E as <- <-; constructor; cbn; rewrite ?app_nil_r; auto).
      destruct r as [b|]; injection E as <- <-; constructor; cbn; rewrite ?app_nil_r; auto; unfold held; cbn [a_tasks].
      + rewrite (Permutation_app_comm _ [b]). symmetry. exact (put_task_held _ _ _ (Holding b) T).
      + symmetry. exact (put_task_held _ _ _ Over T).
    - destruct (nth_error (a_tasks n) i) as [[h|b|]|] eqn:T; try (injection E as <- <-; constructor; cbn; rewrite ?app_nil_r; auto).
      destruct (Nat.ltb_spec (length (a_chan n)) channel_size) as [L|L]; injection E as <- <-; constructor; cbn; rewrite ?app_nil_r; auto; unfold held; cbn [a_tasks].
      + symmetry. exact (put_task_held _ _ _ Over T).
      + intros _. rewrite app_length. cbn [length]. unfold channel_size in L. lia.
    - injection E as <- <-. constructor; cbn; rewrite ?app_nil_r; auto. discriminate.
    - destruct (a_runs n) eqn:R; [|injection E as <- <-; constructor; cbn; rewrite ?app_nil_r; auto].
      destruct (a_chan n) as [|b q] eqn:C; [injection E as <- <-; constructor; cbn; rewrite ?app_nil_r, ?C; auto|].
      destruct (accepts B parent ok (a_best n) b); injection E as <- <-; constructor; cbn [a_chan a_runs a_tasks queued took fetched flat_map app length held]; rewrite ?C, ?app_nil_r; auto; try discriminate; cbn [length]; lia.
  Qed.
  Lemma queued_app (a b : list (sight B)) : queued (a ++ b) = queued a ++ queued b. Proof. apply flat_map_app. Qed.
  Lemma took_app (a b : list (sight B)) : took (a ++ b) = took a ++ took b. Proof. apply flat_map_app. Qed.
  Lemma fetched_app (a b : list (sight B)) : fetched (a ++ b) = fetched a ++ fetched b. Proof. apply flat_map_app. Qed.
  Lemma accepted_app (a b : list (sight B)) : accepted (a ++ b) = accepted a ++ accepted b. Proof. apply flat_map_app. Qed.
  Lemma sound_trans : forall n0 n1 n2 o1 o2, sound n0 n1 o1 -> sound n1 n2 o2 -> sound n0 n2 (o1 ++ o2).
  Proof.
    intros n0 n1 n2 o1 o2 [A1 B1 C1 D1] [A2 B2 C2 D2]. constructor.
    - rewrite queued_app, took_app, app_assoc, A1, <- !app_assoc, A2. reflexivity.
    - rewrite queued_app, fetched_app, app_assoc, B1, <- !app_assoc. apply Permutation_app_head, B2.
    - intro L. apply C2, C1, L.
    - intro R. destruct (D2 R) as [R1 T2]. destruct (D1 R1) as [R0 T1]. split; [exact R0|]. rewrite took_app, T1, T2. reflexivity.
  Qed.
  Lemma happen_sound : forall l n n' o, happen n l = (n', o) -> sound n n' o.
  Proof.
    induction l as [|e l IH]; intros n n' o E; cbn [Arrive_Model.happen] in E.
    - injection E as <- <-. constructor; cbn; rewrite ?app_nil_r; auto.
    - destruct (happens n e) as [n1 o1] eqn:E1. destruct (happen n1 l) as [n2 o2] eqn:E2. injection E as <- <-. eapply sound_trans; [eapply happens_sound, E1|eapply IH, E2].
  Qed.

  (** What the importer does with the blocks it takes, one after the other. *)
  Fixpoint imported (best : N) (l : list B) : N * list B :=
    match l with [] => (best, []) | b :: r => if accepts B parent ok best b then let (x, a) := imported (hash b) r in (x, b :: a) else imported best r end.
  Lemma imported_app : forall l1 l2 g, imported g (l1 ++ l2) = let (x, a) := imported g l1 in let (y, c) := imported x l2 in (y, a ++ c).
  Proof.
    induction l1 as [|b l1 IH]; intros l2 g; cbn [app imported]; [destruct (imported g l2); reflexivity|].
    destruct (accepts B parent ok g b); rewrite IH; destruct (imported _ l1) as [x a]; destruct (imported x l2); reflexivity.
  Qed.
  Lemma happens_imports : forall n e n' o, happens n e = (n', o) -> imported (a_best n) (took o) = (a_best n', accepted o).
  Proof.
    intros n e n' o E. destruct e as [h|i r|i| |]; cbn [Arrive_Model.happens] in E.
    - injection E as <- <-. reflexivity.
    - destruct (nth_error (a_tasks n) i) as [[h|b|]|]; [destruct r| | |]; injection E as <- <-; reflexivity.
    - destruct (nth_error (a_tasks n) i) as [[h|b|]|]; [|destruct (Nat.ltb _ _)| |]; injection E as <- <-; reflexivity.
    - injection E as <- <-. reflexivity.
    - destruct (a_runs n); [|injection E as <- <-; reflexivity]. destruct (a_chan n) as [|b q]; [injection E as <- <-; reflexivity|].
      destruct (accepts B parent ok (a_best n) b) eqn:A; injection E as <- <-; cbn; rewrite A; reflexivity.
  Qed.
  Lemma happen_imports : forall l n n' o, happen n l = (n', o) -> imported (a_best n) (took o) = (a_best n', accepted o).
  Proof.
    induction l as [|e l IH]; intros n n' o E; cbn [Arrive_Model.happen] in E.
    - injection E as <- <-. reflexivity.
    - destruct (happens n e) as [n1 o1] eqn:E1. destruct (happen n1 l) as [n2 o2] eqn:E2. injection E as <- <-.
      rewrite took_app, accepted_app, imported_app, (happens_imports _ _ _ _ E1), (IH _ _ _ E2). reflexivity.
  Qed.
  Lemma imported_chain : forall l g, chain hash parent g l -> (forall x b, In b l -> ok x b = true) -> imported g l = (tip hash g l, l).
  Proof.
    induction l as [|b l IH]; intros g C O; [reflexivity|]. cbn [imported]. destruct C as [P C]. unfold accepts. rewrite P, N.eqb_refl, (O g b (or_introl eq_refl)). cbn [andb].
    rewrite IH; [|exact C|intros x c I; apply O; right; exact I]. unfold tip. cbn [map]. f_equal. destruct (map hash l) eqn:M; [reflexivity|]. cbn [last]. clear. revert n. induction l0 as [|y l0 IH]; intro n; [reflexivity|]. cbn [last]. apply IH.
  Qed.
  Lemma imported_none : forall l g, (forall b, In b l -> parent b <> g) -> imported g l = (g, []).
  Proof.
    induction l as [|b l IH]; intros g F; [reflexivity|]. cbn [imported]. unfold accepts. pose proof (F b (or_introl eq_refl)) as X. apply N.eqb_neq in X. rewrite X. cbn [andb]. apply IH. intros c I. apply F. right. exact I.
  Qed.
  Lemma chain_parents : forall l g b, chain hash parent g l -> In b l -> parent b = g \/ In (parent b) (map hash l).
  Proof.
    induction l as [|c l IH]; intros g b C I; [destruct I|]. destruct C as [P C]. destruct I as [<-|I]; [left; exact P|]. right. destruct (IH _ _ C I) as [E|E]; [left; symmetry; exact E|right; exact E].
  Qed.

  (** Drained: everything held is sent and taken. *)
  Lemma take_all : forall q n, a_runs n = true -> a_chan n = q -> exists l, Forall only_moves l /\ exists n' o, happen n l = (n', o) /\ a_chan n' = [] /\ a_tasks n' = a_tasks n /\ a_runs n' = true.
  Proof.
    induction q as [|b q IH]; intros n R C; [exists []; split; [constructor|]; exists n, []; auto|].
    destruct (happens n Takes) as [n1 o1] eqn:E1. assert (K : a_chan n1 = q /\ a_tasks n1 = a_tasks n /\ a_runs n1 = true).
    { cbn [Arrive_Model.happens] in E1. rewrite R, C in E1. destruct (accepts B parent ok (a_best n) b); injection E1 as <- <-; auto. }
    destruct K as (K1 & K2 & K3). destruct (IH n1 K3 K1) as (l & F & n2 & o2 & E2 & C2 & T2 & R2).
    exists (Takes :: l). split; [constructor; [exact Logic.I|exact F]|]. exists n2, (o1 ++ o2). cbn [Arrive_Model.happen]. rewrite E1, E2. rewrite T2, K2. auto.
  Qed.
  Definition holding (t : task B) : bool := match t with Holding _ => true | _ => false end.
  Lemma put_task_count : forall (l : list (task B)) i b, nth_error l i = Some (Holding b) -> S (length (filter holding (put_task l i Over))) = length (filter holding l) /\
    (forall t, In t (put_task l i Over) -> In t l \/ t = Over).
  Proof.
    induction l as [|x l IH]; intros i b E; [destruct i; discriminate|]. destruct i as [|i]; cbn [nth_error] in E.
    - injection E as ->. cbn [put_task filter holding length]. split; [reflexivity|]. intros t [<-|I]; [right; reflexivity|left; right; exact I].
    - destruct (IH i b E) as [A C]. cbn [put_task filter]. split; [destruct (holding x); cbn [length]; lia|]. intros t [<-|I]; [left; left; reflexivity|]. destruct (C t I) as [D|D]; [left; right; exact D|right; exact D].
  Qed.
  Lemma drain : forall k n, a_runs n = true -> (forall t, In t (a_tasks n) -> (exists b, t = Holding b) \/ t = Over) -> length (filter holding (a_tasks n)) = k ->
    exists l, Forall only_moves l /\ exists n' o, happen n l = (n', o) /\ quiet_at n'.
  Proof.
    induction k as [|k IH]; intros n R T K.
    - destruct (take_all _ n R eq_refl) as (l & F & n' & o & E & C & Q & _). exists l. split; [exact F|]. exists n', o. split; [exact E|]. split; [exact C|]. rewrite Q.
      intros t I. destruct (T t I) as [[b ->] | ->]; [|reflexivity]. exfalso. assert (J : In (Holding b) (filter holding (a_tasks n))) by (apply filter_In; auto). destruct (filter holding (a_tasks n)); [exact J|discriminate].
    - destruct (take_all _ n R eq_refl) as (l1 & F1 & n1 & o1 & E1 & C1 & Q1 & R1).
      assert (X : exists i b, nth_error (a_tasks n1) i = Some (Holding b)).
      { rewrite Q1. destruct (filter holding (a_tasks n)) as [|t f] eqn:Y; [discriminate|]. assert (J : In t (filter holding (a_tasks n))) by (rewrite Y; left; reflexivity). apply filter_In in J as [J1 J2].
        destruct t as [h|b|]; try discriminate. apply In_nth_error in J1 as [i J1]. eauto. }
      destruct X as (i & b & X). destruct (happens n1 (Sent i)) as [n2 o2] eqn:E2.
      assert (Y : a_tasks n2 = put_task (a_tasks n1) i Over /\ a_runs n2 = true).
      { cbn [Arrive_Model.happens] in E2. rewrite X, C1 in E2. cbn in E2. injection E2 as <- <-. auto. }
      destruct Y as [Y1 Y2]. destruct (put_task_count _ _ _ X) as [Z1 Z2].
      destruct (IH n2 Y2) as (l3 & F3 & n3 & o3 & E3 & Q3).
      + rewrite Y1. intros t I. destruct (Z2 t I) as [J| ->]; [rewrite Q1 in J; apply T, J|right; reflexivity].
      + rewrite Y1. rewrite Q1 in Z1 at 2. lia.
      + exists (l1 ++ Sent i :: l3). split; [apply Forall_app; split; [exact F1|constructor; [exact Logic.I|exact F3]]|]. exists n3, (o1 ++ o2 ++ o3). split; [|exact Q3].
        rewrite happen_app, E1. cbn [Arrive_Model.happen]. rewrite E2, E3. reflexivity.
  Qed.
End P.

Section Q.
  Context {B : Type}.
  Variables hash parent : B -> N.
  Variable ok : N -> B -> bool.
  Lemma idle_until : forall l n n' o, happen B hash parent ok n l = (n', o) -> ~ In Dialled l -> a_runs n' = a_runs n.
  Proof.
    induction l as [|e l IH]; intros n n' o E I; cbn [happen] in E; [injection E as <- <-; reflexivity|].
    destruct (happens B hash parent ok n e) as [n1 o1] eqn:E1. destruct (happen B hash parent ok n1 l) as [n2 o2] eqn:E2. injection E as <- <-.
    rewrite (IH _ _ _ E2); [|intro J; apply I; right; exact J].
    destruct e as [h|i r|i| |]; cbn [happens] in E1.
    - injection E1 as <- <-. reflexivity.
    - destruct (nth_error (a_tasks n) i) as [[h|b|]|]; [destruct r| | |]; injection E1 as <- <-; reflexivity.
    - destruct (nth_error (a_tasks n) i) as [[h|b|]|]; [|destruct (Nat.ltb _ _)| |]; injection E1 as <- <-; reflexivity.
    - exfalso. apply I. left. reflexivity.
    - destruct (a_runs n) eqn:R; [|injection E1 as <- <-; exact R]. destruct (a_chan n) as [|b q]; [injection E1 as <- <-; exact R|]. destruct (accepts B parent ok (a_best n) b); injection E1 as <- <-; reflexivity.
  Qed.
  Lemma tip_cons : forall b l g, tip hash g (b :: l) = tip hash (hash b) l.
  Proof.
    intros b l g. unfold tip. cbn [map]. generalize (hash b) as x. induction (map hash l) as [|y m IH]; intro x; [reflexivity|]. change (last (y :: m) g = last (y :: m) x). clear IH. revert y. induction m as [|z m IH]; intro y; [reflexivity|]. cbn [last] in *. apply IH.
  Qed.
  Lemma imported_is_chain : forall l g x a, imported hash parent ok g l = (x, a) -> chain hash parent g a /\ x = tip hash g a.
  Proof.
    induction l as [|b l IH]; intros g x a E; cbn [imported] in E; [injection E as <- <-; split; [exact Logic.I|reflexivity]|].
    destruct (accepts B parent ok g b) eqn:A; [|apply IH, E]. destruct (imported hash parent ok (hash b) l) as [y c] eqn:E2. injection E as <- <-. destruct (IH _ _ _ E2) as [C T].
    split; [split; [|exact C]|rewrite tip_cons; exact T]. unfold accepts in A. apply andb_true_iff in A as [A _]. apply N.eqb_eq, A.
  Qed.
  Lemma early_child : forall g b1 b2 rest, chain hash parent g (b1 :: b2 :: rest) -> NoDup (g :: map hash (b1 :: b2 :: rest)) -> (forall x b, ok x b = true) ->
    imported hash parent ok g (b2 :: b1 :: rest) = (hash b1, [b1]).
  Proof.
    intros g b1 b2 rest (P1 & P2 & C) D O. inversion D as [|? ? D1 D2]; subst. cbn [map] in *. inversion D2 as [|? ? D3 D4]; subst. inversion D4 as [|? ? D5 D6]; subst.
    cbn [imported]. unfold accepts at 1. rewrite P2. destruct (N.eqb_spec (hash b1) (parent b1)) as [X|_]; [exfalso; apply D1; left; exact X|]. cbn [andb].
    unfold accepts at 1. rewrite N.eqb_refl, O. cbn [andb]. rewrite (imported_none hash parent ok); [reflexivity|].
    intros b I X. destruct (chain_parents hash parent _ _ _ C I) as [Y|Y]; rewrite X in Y; [apply D3; left; symmetry; exact Y|apply D3; right; exact Y].
  Qed.
  (** One block at a time: heard, fetched, put into the channel and taken before the next is heard of. *)
  Lemma put_last : forall (l : list (task B)) x y, put_task (l ++ [x]) (length l) y = l ++ [y].
  Proof. induction l as [|z l IH]; cbn; intros; [reflexivity|]. rewrite IH. reflexivity. Qed.
  Lemma nth_last : forall (l : list (task B)) x, nth_error (l ++ [x]) (length l) = Some x.
  Proof. induction l as [|z l IH]; cbn; intros; [reflexivity|apply IH]. Qed.
  Lemma one_block : forall l g b, parent b = g -> ok g b = true ->
    happen B hash parent ok (mk_at true l [] g) [Heard (hash b); Replied (length l) (Some b); Sent (length l); Takes] = (mk_at true (l ++ [Over]) [] (hash b), [Fetched b; Queued b; Took b true]).
  Proof.
    intros l g b E O. cbn. rewrite nth_last. cbn. rewrite put_last. cbn. rewrite nth_last. cbn. rewrite put_last. cbn. unfold accepts. rewrite E, N.eqb_refl, O. reflexivity.
  Qed.
  Lemma one_by_one : forall bs l g, chain hash parent g bs -> (forall x b, In b bs -> ok x b = true) ->
    exists n o, happen B hash parent ok (mk_at true l [] g) (concat (map (fun p => [Heard (hash (snd p)); Replied (fst p) (Some (snd p)); Sent (fst p); Takes]) (combine (seq (length l) (length bs)) bs))) = (n, o) /\
      accepted o = bs /\ a_best n = tip hash g bs.
  Proof.
    induction bs as [|b bs IH]; intros l g C O.
    - exists (mk_at true l [] g), []. split; [reflexivity|]. split; reflexivity.
    - destruct C as [E C]. destruct (IH (l ++ [Over]) (hash b) C (fun x c I => O x c (or_intror I))) as [n [o [R [A T]]]].
      rewrite app_length, Nat.add_comm in R. cbn [length Nat.add] in R.
      exists n, ([Fetched b; Queued b; Took b true] ++ o). cbn [length seq combine map concat fst snd]. rewrite (happen_app hash parent ok), (one_block l g b E (O g b (or_introl eq_refl))), R.
      split; [reflexivity|]. split; [cbn; f_equal; exact A|]. rewrite tip_cons. exact T.
  Qed.
End Q.
