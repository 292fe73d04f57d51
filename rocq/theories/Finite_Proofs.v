(** Accounts given by a list, and a check, by computation, that they are in order. *)
From Verif Require Import Base Base_Proofs Sandbox_Model Sandbox_Spec Sandbox_Proofs Host_Model Host_Spec Delta_Spec.
Set Implicit Arguments.
Open Scope N_scope.

Notation eget := (mget ekey_eq).
Definition listed : Type := list (N * (meta * list (ekey * list N))).
Definition accounts_of (l : listed) : gstate :=
  mk_g (fun s => option_map fst (aget l s)) (fun s k => match aget l s with Some x => eget (snd x) k | None => None end).
Fixpoint once {A} (eqA : forall a b : A, {a = b} + {a <> b}) (l : list A) : bool :=
  match l with [] => true | a :: l => negb (if in_dec eqA a l then true else false) && once eqA l end.
Lemma once_ok : forall A (eqA : forall a b : A, {a = b} + {a <> b}) l, once eqA l = true -> NoDup l.
Proof. intros A eqA. induction l as [|a l IH]; intros H; [constructor|]. cbn [once] in H. apply andb_true_iff in H as [H1 H2]. destruct (in_dec eqA a l); [discriminate|]. constructor; auto. Qed.
Definition entry_fine (now : N) (es : list (ekey * list N)) (x : ekey * list N) : bool :=
  match fst x with
  | KStorage _ => true
  | KPreimage h => existsb (fun y => match fst y with KLookup h' _ => if list_eq_dec N.eq_dec h h' then true else false | _ => false end) es && negb (existsb (fun b => b =? 0) (skipn 4 h))  && (4 <? N.of_nat (length h))
  | KLookup _ len => (length (snd x) <=? 3)%nat && forallb (fun t => t <=? now) (snd x) && (len <? 2 ^ 32)
  end.
Definition account_fine (now : N) (x : meta * list (ekey * list N)) : bool :=
  let '(m, es) := x in
  once ekey_eq (map fst es) && (m_items m =? sum (map items_of (map fst es))) && (m_octets m =? sum (map (fun y => octets_of (fst y) (snd y)) es)) && (least m <=? m_balance m) && forallb (entry_fine now es) es.
Definition fine (now : N) (l : listed) : bool := forallb (fun x => account_fine now (snd x)) l.
Lemma eget_in : forall (es : list (ekey * list N)) k v, eget es k = Some v -> In (k, v) es.
Proof.
  intros es k v H. unfold mget in H. destruct (find _ es) as [[k' v']|] eqn:F; [|discriminate]. apply find_some in F as [I E]. cbn in *. destruct (ekey_eq k' k) as [->|]; [|discriminate]. injection H as ->. exact I.
Qed.
Lemma in_eget : forall (es : list (ekey * list N)) k v, NoDup (map fst es) -> In (k, v) es -> eget es k = Some v.
Proof.
  induction es as [|[a b] es IH]; intros k v Nd I; [contradiction|]. cbn [map fst] in Nd. inversion Nd as [|z w N1 N2]; subst. unfold mget. cbn [find fst]. destruct (ekey_eq a k) as [->|D].
  - destruct I as [I|I]; [injection I as ->; reflexivity|]. exfalso. apply N1. apply (in_map fst) in I. exact I.
  - destruct I as [I|I]; [injection I as -> ->; contradiction|]. apply IH; assumption.
Qed.
Lemma aget_in : forall A (l : list (N * A)) s x, aget l s = Some x -> In (s, x) l.
Proof.
  intros A l s x H. unfold mget in H. destruct (find _ l) as [[k' v']|] eqn:F; [|discriminate]. apply find_some in F as [I E]. cbn in *. destruct (N.eq_dec k' s) as [->|]; [|discriminate]. injection H as ->. exact I.
Qed.
Theorem fine_ok : forall now l, fine now l = true -> in_order now (accounts_of l).
Proof.
  intros now l F. split; [intros s E k; cbn [accounts_of g_meta g_ent] in *; destruct (aget l s); [discriminate | reflexivity]|]. intros s. unfold fine in F. rewrite forallb_forall in F.
  assert (K : forall x, aget l s = Some x -> account_fine now x = true) by (intros x E; apply (F (s, x)), aget_in, E). clear F.
  assert (Ent : forall k, g_ent (accounts_of l) s k = match aget l s with Some x => eget (snd x) k | None => None end) by reflexivity.
  destruct (aget l s) as [[m es]|] eqn:E.
  - specialize (K _ eq_refl). cbn [account_fine] in K. rewrite !andb_true_iff in K. destruct K as [[[[K1 K2] K3] K4] K5]. apply once_ok in K1. apply N.eqb_eq in K2, K3. apply N.leb_le in K4. rewrite forallb_forall in K5. cbn [snd] in Ent.
    split; [|split; [|split; [|split]]].
    + intros m' M. cbn [accounts_of g_meta] in M. rewrite E in M. injection M as <-. split; [|exact K4]. exists (map fst es). split; [exact K1|]. split; [|split; [exact K2|]].
      * intros k. rewrite Ent. split; [intros I; apply in_map_iff in I as [[a b] [<- I]]; cbn [fst]; rewrite (@in_eget es _ _ K1 I); discriminate|]. intros H. destruct (eget es k) as [v|] eqn:V; [|congruence]. apply eget_in in V. apply (in_map fst) in V. exact V.
      * rewrite K3, map_map. f_equal. apply map_ext_in. intros [a b] I. cbn [fst snd]. rewrite Ent, (@in_eget es _ _ K1 I). reflexivity.
    + intros h H. rewrite Ent in H. destruct (eget es (KPreimage h)) as [v|] eqn:V; [|congruence]. apply eget_in in V. apply K5 in V. cbn [entry_fine fst] in V. rewrite !andb_true_iff in V. destruct V as [[V _] _].
      apply existsb_exists in V as [[y v'] [I V]]. cbn [fst] in V. destruct y as [|?|h' len]; try discriminate. destruct (list_eq_dec N.eq_dec h h') as [<-|]; [|discriminate]. exists len. rewrite Ent, (@in_eget es _ _ K1 I). discriminate.
    + intros h len v H. rewrite Ent in H. apply eget_in in H. apply K5 in H. cbn [entry_fine fst snd] in H. rewrite !andb_true_iff in H. destruct H as [[H1 H2] _]. split; [apply Nat.leb_le, H1|]. apply Forall_forall. rewrite forallb_forall in H2. intros t I. apply N.leb_le, H2, I.
    + intros h len H. rewrite Ent in H. destruct (eget es (KLookup h len)) as [v|] eqn:V; [|congruence]. apply eget_in in V. apply K5 in V. cbn [entry_fine fst snd] in V. rewrite !andb_true_iff in V. apply N.ltb_lt, V.
    + intros h. rewrite Ent. destruct (eget es (KPreimage (given_to h))) as [v|] eqn:V; [|reflexivity]. exfalso. apply eget_in in V. apply K5 in V. cbn [entry_fine fst snd] in V. rewrite !andb_true_iff in V. destruct V as [[_ V] _].
      unfold given_to in V. rewrite skipn_app in V. rewrite skipn_all2 in V by (rewrite le_bytes_length; lia). rewrite le_bytes_length in V. cbn in V. discriminate.
  - clear K. split; [intros m M; cbn [accounts_of g_meta] in M; rewrite E in M; discriminate|]. split; [intros h H; rewrite Ent in H; congruence|]. split; [intros h len v H; rewrite Ent in H; discriminate|]. split; [intros h len H; rewrite Ent in H; congruence | intros h; apply Ent].
Qed.
Lemma accounts_have : forall l s, has (accounts_of l) s -> In s (map fst l).
Proof. intros l s H. unfold has in H. cbn [accounts_of g_meta] in H. destruct (aget l s) as [x|] eqn:E; [|cbn in H; congruence]. apply aget_in in E. apply (in_map fst) in E. exact E. Qed.
Lemma accounts_hold : forall l, once N.eq_dec (map fst l) = true -> holds (accounts_of l) (sum (map (fun x => m_balance (fst (snd x))) l)).
Proof.
  intros l O. apply once_ok in O. exists (map fst l). split; [exact O|].
  assert (A : forall s x, In (s, x) l -> aget l s = Some x).
  { clear -O. induction l as [|[a b] l IH]; intros s x I; [contradiction|]. cbn [map fst] in O. inversion O as [|z w N1 N2]; subst. unfold mget. cbn [find fst]. destruct (N.eq_dec a s) as [->|D].
    - destruct I as [I|I]; [injection I as ->; reflexivity|]. exfalso. apply N1. apply (in_map fst) in I. exact I.
    - destruct I as [I|I]; [injection I as -> ->; contradiction|]. apply IH; assumption. }
  split.
  - intros s. split; [|apply accounts_have]. intros I. apply in_map_iff in I as [[a x] [<- I]]. unfold has. cbn [accounts_of g_meta fst]. rewrite (A _ _ I). discriminate.
  - rewrite map_map. f_equal. apply map_ext_in. intros [a x] I. cbn [fst snd accounts_of g_meta]. rewrite (A _ _ I). reflexivity.
Qed.
