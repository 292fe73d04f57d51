(** Lemmas for Intake_Props.v. *)
From Verif Require Import Base Base_Proofs Codec_Model Codec_Spec Codec2_Proofs Codec3_Proofs Block_Model Pool_Model Pool_Spec Pool_Proofs Intake_Model Intake_Spec.
Local Open Scope N_scope.

(** ** The pool as the list of what it accepted *)
Definition data_fine (acc : list (entry * N)) : Prop := forall x y, In x acc -> In y acc -> e_hash (fst x) = e_hash (fst y) -> e_data (fst x) = e_data (fst y).
Lemma data_map acc : data_fine acc -> forall x, In x acc -> exists e, map_get (p_map (pool_of acc)) (e_hash (fst x)) = Some e /\ e_data e = e_data (fst x).
Proof.
  induction acc as [|y acc IH] using rev_ind; intros F x I; [contradiction|]. rewrite pool_snoc. cbn [put p_map]. rewrite get_set. destruct (N.eqb_spec (e_hash (fst y)) (e_hash (fst x))) as [E|E].
  - exists (fst y). split; [reflexivity|]. apply F; [apply in_or_app; right; left; reflexivity|exact I|exact E].
  - apply in_app_or in I. destruct I as [I|[<-|[]]]; [|congruence]. apply IH; [|exact I]. intros a b A B. apply F; apply in_or_app; left; assumption.
Qed.
Lemma data_get acc k s : data_fine acc -> map e_data (get k s (pool_of acc)) = map (fun x => e_data (fst x)) (filter (fun x => (e_kind (fst x) =? k) && (snd x =? s)) acc).
Proof.
  intro F. assert (G : get k s (pool_of acc) = found (p_map (pool_of acc)) (hashes (p_index (pool_of acc)) (k, s))).
  { unfold get, hashes. destruct (index_get _ _); reflexivity. }
  rewrite G, pool_index. assert (I : incl (filter (fun x => (e_kind (fst x) =? k) && (snd x =? s)) acc) acc) by (intros x X; apply filter_In in X; apply X).
  revert I. generalize (filter (fun x => (e_kind (fst x) =? k) && (snd x =? s)) acc) as l. induction l as [|x l IH]; intro I; [reflexivity|].
  cbn [map found flat_map]. destruct (data_map acc F x (I x (or_introl eq_refl))) as [e [M D]]. rewrite M. cbn [app map]. rewrite D. f_equal. apply IH. intros y Y. apply I. right. exact Y.
Qed.

Section Intake.
  Variable P : params.
  Variable H : bytes -> N.
  Hypothesis HC : core_count P <= bitvec_max_bits.

  (** An entry of the pool *)
  Definition made (x : xt P * N) (e : entry * N) : Prop := snd e = snd x /\ e_kind (fst e) = kind_of P (fst x) /\ encode_xt P (fst x) = Ok (e_data (fst e)) /\ e_hash (fst e) = H (e_data (fst e)).

  Lemma submissions_pool max : forall l p bs acc, submissions P H max l (pool_of acc) = Ok (p, bs) ->
    exists es, p = pool_of (acc ++ es) /\ Forall2 made (accepted l bs) es.
  Proof.
    induction l as [|[x s] l IH]; intros p bs acc E; cbn [submissions] in E.
    - injection E as <- <-. exists []. rewrite app_nil_r. split; [reflexivity|constructor].
    - unfold submit, from_xt_entry in E. destruct (encode_xt P x) as [b| |] eqn:X; cbn [bind] in E; try discriminate. unfold add in E. destruct (Nat.leb max (length (p_map (pool_of acc)))).
      + destruct (submissions P H max l (pool_of acc)) as [[q bs']| |] eqn:S; cbn [bind] in E; try discriminate. injection E as <- <-. cbn [accepted]. apply (IH _ _ acc S).
      + cbn [bind] in E. set (e := mk_entry (H b) b (kind_of P x)) in *.
        change (mk_pool (map_set (p_map (pool_of acc)) (e_hash e) e) (index_push (p_index (pool_of acc)) (e_kind e, s) (e_hash e))) with (put (pool_of acc) (e, s)) in E. rewrite <- pool_snoc in E.
        destruct (submissions P H max l (pool_of (acc ++ [(e, s)]))) as [[q bs']| |] eqn:S; cbn [bind] in E; try discriminate. injection E as <- <-.
        destruct (IH _ _ _ S) as [es [-> F]]. exists ((e, s) :: es). rewrite <- app_assoc. split; [reflexivity|]. cbn [accepted]. constructor; [|exact F]. repeat split; exact X.
  Qed.
  Lemma accepted_incl {A} : forall (l : list A) bs, incl (accepted l bs) l.
  Proof. induction l as [|x l IH]; intros [|[] bs] y I; cbn [accepted] in I; try contradiction; [destruct I as [<-|I]; [left; reflexivity|]|]; right; apply (IH bs); exact I. Qed.

  (** Decoding what was encoded *)
  Lemma decoded_data t l l' : map e_data l = map e_data l' -> decoded t l = decoded t l'.
  Proof. revert l'. induction l as [|e l IH]; intros [|e' l'] E; try discriminate; [reflexivity|]. cbn [map] in E. injection E as E1 E2. cbn [decoded]. rewrite E1, (IH l' E2). reflexivity. Qed.
  Lemma decoded_values t (k : N) (f : xt P -> option (interp t)) slot :
    ty_ok t -> (forall x, kind_of P x = k <-> exists v, f x = Some v) -> (forall x v, f x = Some v -> encode_xt P x = encode t v) -> (forall x v, f x = Some v -> xt_wf P x -> wf t v) ->
    forall xs es, Forall (fun x => xt_wf P (fst x)) xs -> Forall2 made xs es ->
    decoded t (map fst (filter (fun e : entry * N => (e_kind (fst e) =? k) && (snd e =? slot)) es)) = Ok (values P f slot xs).
  Proof.
    intros TO K EN WF xs es W F. induction F as [|x e xs es M F IH]; [reflexivity|]. inversion W as [|? ? W1 W2]; subst. specialize (IH W2). destruct M as [M1 [M2 [M3 M4]]].
    cbn [filter values flat_map]. rewrite M1, M2. fold (@values P (interp t) f slot xs). destruct (N.eqb_spec (kind_of P (fst x)) k) as [Q|Q].
    - destruct (proj1 (K _) Q) as [v V]. rewrite V. destruct (snd x =? slot); cbn [andb]; [|exact IH]. cbn [map decoded].
      destruct (codec_roundtrip t v TO (WF _ _ V W1)) as [b [B1 [_ B2]]]. rewrite (EN _ _ V), B1 in M3. injection M3 as M3. rewrite <- M3. specialize (B2 []). rewrite app_nil_r in B2. rewrite B2, IH. reflexivity.
    - cbn [andb]. assert (V : f (fst x) = None). { destruct (f (fst x)) as [v|] eqn:V; [|reflexivity]. exfalso. apply Q, K. exists v. exact V. } rewrite V. destruct (snd x =? slot); exact IH.
  Qed.
  Lemma getter t (k : N) (f : xt P -> option (interp t)) slot :
    ty_ok t -> (forall x, kind_of P x = k <-> exists v, f x = Some v) -> (forall x v, f x = Some v -> encode_xt P x = encode t v) -> (forall x v, f x = Some v -> xt_wf P x -> wf t v) ->
    forall max l p bs, Forall (fun x => xt_wf P (fst x)) l -> hashes_apart P H l -> submissions P H max l empty_pool = Ok (p, bs) ->
    decoded t (get k slot p) = Ok (values P f slot (accepted l bs)).
  Proof.
    intros TO K EN WF max l p bs W NC S. destruct (submissions_pool max l p bs [] S) as [es [-> F]]. cbn [app].
    assert (D : data_fine es).
    { intros a b A B E. assert (Z : forall xs es, Forall2 made xs es -> forall a, In a es -> exists x, In x xs /\ made x a).
      { induction 1 as [|x e xs' es' M F' IH]; [intros c []|]. intros c [<-|C]; [exists x; split; [left; reflexivity|exact M]|]. destruct (IH c C) as [y [Y1 Y2]]. exists y. split; [right; exact Y1|exact Y2]. }
      destruct (Z _ _ F a A) as [x [X1 [_ [_ [X2 X3]]]]]. destruct (Z _ _ F b B) as [y [Y1 [_ [_ [Y2 Y3]]]]]. apply (NC x y); try assumption; [apply (accepted_incl l bs), X1|apply (accepted_incl l bs), Y1|]. congruence. }
    rewrite (decoded_data t _ (map fst (filter (fun e : entry * N => (e_kind (fst e) =? k) && (snd e =? slot)) es))).
    - apply decoded_values; try assumption. apply Forall_forall. intros x X. rewrite Forall_forall in W. apply W, (accepted_incl l bs), X.
    - rewrite data_get by exact D. rewrite map_map. reflexivity.
  Qed.
End Intake.
