(** The accounts after a round. *)
From Verif Require Import Base Base_Proofs PvmMem_Model PvmProg_Model PvmStep_Model PvmInit_Model Sandbox_Model Sandbox_Spec Sandbox_Proofs Host_Model Host_Spec Acc_Model Round_Model Round_Spec Round2_Spec Round1_Proofs Round2_Proofs Round3_Proofs.
From Coq Require Import Permutation.
Set Implicit Arguments.
Open Scope N_scope.

Lemma alike_refl : forall s w, alike s w w. Proof. split; reflexivity. Qed.
Lemma alike_trans : forall s a b c, alike s a b -> alike s b c -> alike s a c.
Proof. intros s a b c [A B] [C D]. split; [congruence | intros k; rewrite B; apply D]. Qed.
Lemma alike_sym : forall s a b, alike s a b -> alike s b a. Proof. intros s a b [A B]. split; [congruence | intros k; symmetry; apply B]. Qed.
Lemma same_alike : forall a b, same a b -> forall s, alike s a b. Proof. intros a b [A B] s. split; [apply A | apply B]. Qed.
Lemma alike_same : forall a b, (forall s, alike s a b) -> same a b. Proof. intros a b H. split; intros s; apply (H s). Qed.
Lemma alike_has : forall s a b, alike s a b -> (has a s <-> has b s). Proof. intros s a b [A _]. unfold has. rewrite A. reflexivity. Qed.
Lemma alike_empty : forall s a b, alike s a b -> empty s a -> empty s b. Proof. intros s a b [A B] [C D]. split; [congruence | intros k; rewrite <- B; apply D]. Qed.
Lemma empty_alike : forall s a b, empty s a -> empty s b -> alike s a b. Proof. intros s a b [A B] [C D]. split; [congruence | intros k; rewrite B, D; reflexivity]. Qed.
Lemma has_dec : forall w s, {has w s} + {~ has w s}. Proof. intros w s. unfold has. destruct (g_meta w s); [left; discriminate | right; intros X; apply X; reflexivity]. Qed.
Lemma not_has : forall w s, ~ has w s -> g_meta w s = None. Proof. intros w s H. destruct (g_meta w s) eqn:E; [exfalso; apply H; red; congruence | reflexivity]. Qed.

(** One step of the union, on accounts *)
Definition put_in (w : gstate) (s : N) (r : gstate) : gstate := mk_g (fun x => if N.eq_dec x s then g_meta r x else g_meta w x) (fun x k => if N.eq_dec x s then g_ent r x k else g_ent w x k).
Lemma put_in_at : forall w s r, alike s (put_in w s r) r. Proof. intros. split; intros; cbn; destruct (N.eq_dec s s); congruence. Qed.
Lemma put_in_off : forall w s r x, x <> s -> alike x (put_in w s r) w. Proof. intros w s r x D. split; intros; cbn; destruct (N.eq_dec x s); congruence. Qed.

Lemma base_exists_ok : forall G ch base s, sb_ok G ch base -> base_exists G base s = true <-> has (view G base) s.
Proof.
  intros G ch base s A. unfold base_exists. pose proof (exists_effective_ok s A) as X. unfold exists_effective in X. rewrite X. unfold has. cbn [view g_meta]. destruct (vmeta G base s); cbn; split; congruence.
Qed.
Lemma existsb_in : forall s l, existsb (N.eqb s) l = true <-> In s l.
Proof. intros s l. rewrite existsb_exists. split; [intros [x [I E]]; apply N.eqb_eq in E; subst; exact I | intros I; exists s; split; [exact I | apply N.eqb_refl]]. Qed.
Lemma view1 : forall G sb s b x, aget sb s = Some b -> s = x -> alike x (view G sb) (view G [(s, b)]).
Proof. intros G sb s b x E <-. split; intros; cbn [view g_meta g_ent]; unfold vmeta, vent; rewrite E, mget_cons; destruct (N.eq_dec s s); congruence. Qed.
Lemma aset_at : forall G sb s b, alike s (view G (aset sb s b)) (view G [(s, b)]).
Proof. intros. apply view1; [|reflexivity]. rewrite mget_mset. destruct (N.eq_dec s s); congruence. Qed.
Lemma aset_off : forall G sb s b x, s <> x -> alike x (view G (aset sb s b)) (view G sb).
Proof. intros G sb s b x D. split; intros; cbn [view g_meta g_ent]; [rewrite vmeta_set | rewrite vent_set]; destruct (N.eq_dec s x); congruence. Qed.

(** What the loop over a result's accounts does. *)
Section Loop.
  Variables (G : gstate) (ch : list N) (base : accounts) (t : N).
  Hypothesis (Bok : sb_ok G ch base).
  Let d := view G base.
  Definition new_in (x : N * asb) : bool := negb (fst x =? t) && (match se_status (b_md (snd x)) with Added => negb (base_exists G base (fst x)) | _ => false end).
  Definition gone_in (x : N * asb) : bool := negb (fst x =? t) && (match se_status (b_md (snd x)) with Removed => base_exists G base (fst x) | _ => false end).
  Lemma loop_err : forall l x, fold_left (merge_account G base t) l (Err x) = Err x.
  Proof. induction l as [|a l IH]; intros x; [reflexivity|]. cbn [fold_left]. unfold merge_account at 2. cbn [bind]. apply IH. Qed.
  Lemma loop_ok : forall l sb made gone, NoDup (map fst l) -> sb_ok G ch sb -> (forall s b, In (s, b) l -> asb_ok G ch s b) ->
    (forall x, In x l -> new_in x = true \/ gone_in x = true -> ~ In (fst x) made /\ ~ In (fst x) gone) ->
    exists sb', fold_left (merge_account G base t) l (Ok (sb, (made, gone))) = Ok (sb', (rev (map fst (filter new_in l)) ++ made, rev (map fst (filter gone_in l)) ++ gone)) /\ sb_ok G ch sb' /\
      forall s, match aget l s with
                | Some b => if new_in (s, b) || gone_in (s, b) then alike s (view G sb') (view G [(s, b)]) else alike s (view G sb') (view G sb)
                | None => alike s (view G sb') (view G sb)
                end.
  Proof.
    induction l as [|[s b] l IH]; intros sb made gone Nd A B F; [exists sb; cbn; split; [reflexivity|]; split; [exact A | intros; apply alike_refl]|].
    inversion Nd as [|y z N1 N2]; subst. cbn [fold_left].
    assert (X : merge_account G base t (Ok (sb, (made, gone))) (s, b) = Ok (if new_in (s, b) || gone_in (s, b) then aset sb s b else sb, ((if new_in (s, b) then [s] else []) ++ made, (if gone_in (s, b) then [s] else []) ++ gone))).
    { unfold merge_account. cbn [bind]. specialize (F _ (or_introl eq_refl)). unfold new_in, gone_in in *. cbn [fst snd] in *. destruct (s =? t); [reflexivity|]. cbn [negb andb] in *.
      assert (T : ~ In s made /\ ~ In s gone -> existsb (N.eqb s) made || existsb (N.eqb s) gone = false).
      { intros [T1 T2]. destruct (existsb (N.eqb s) made) eqn:E1; [apply existsb_in in E1; contradiction|]. destruct (existsb (N.eqb s) gone) eqn:E2; [apply existsb_in in E2; contradiction | reflexivity]. }
      destruct (se_status (b_md b)); try reflexivity.
      - destruct (base_exists G base s); [reflexivity|]. rewrite T by (apply F; left; reflexivity). reflexivity.
      - destruct (base_exists G base s); [|reflexivity]. cbn [negb]. rewrite T by (apply F; right; reflexivity). reflexivity. }
    rewrite X. clear X.
    assert (A' : sb_ok G ch (if new_in (s, b) || gone_in (s, b) then aset sb s b else sb)) by (destruct (new_in (s, b) || gone_in (s, b)); [apply sb_set; [exact A | apply B; left; reflexivity] | exact A]).
    edestruct IH as [sb' [E [A2 V]]]; [exact N2 | exact A' | intros s0 b0 J; apply B; right; exact J | |].
    2:{ exists sb'. split; [|split; [exact A2|]].
        - rewrite E. f_equal. f_equal. cbn [filter]. destruct (new_in (s, b)), (gone_in (s, b)); cbn [map fst rev app]; rewrite <- ?app_assoc; reflexivity.
        - intros x. rewrite mget_cons. specialize (V x). destruct (N.eq_dec s x) as [<-|D].
          + assert (No : aget l s = None) by (apply mget_None; exact N1). rewrite No in V. destruct (new_in (s, b) || gone_in (s, b)); [eapply alike_trans; [exact V | apply aset_at] | exact V].
          + assert (Off : alike x (view G (if new_in (s, b) || gone_in (s, b) then aset sb s b else sb)) (view G sb)) by (destruct (new_in (s, b) || gone_in (s, b)); [apply aset_off, D | apply alike_refl]).
            destruct (aget l x) as [c|]; [|eapply alike_trans; [exact V | exact Off]]. destruct (new_in (x, c) || gone_in (x, c)); [exact V | eapply alike_trans; [exact V | exact Off]]. }
    intros x J H. destruct (F x (or_intror J) H) as [F1 F2]. assert (Dx : fst x <> s) by (intros <-; apply N1, in_map, J).
    split; intros I; apply in_app_or in I; destruct I as [I|I]; try contradiction.
    - destruct (new_in (s, b)); [destruct I as [I|[]]; congruence | destruct I].
    - destruct (gone_in (s, b)); [destruct I as [I|[]]; congruence | destruct I].
  Qed.
  (** A conflict *)
  Lemma loop_twice : forall l sb made gone x, In x l -> new_in x = true \/ gone_in x = true -> In (fst x) made \/ In (fst x) gone -> exists s, fold_left (merge_account G base t) l (Ok (sb, (made, gone))) = Err (EDuplicate s).
  Proof.
    induction l as [|[s b] l IH]; intros sb made gone x I H T; [destruct I|]. cbn [fold_left].
    assert (X : (exists s0, merge_account G base t (Ok (sb, (made, gone))) (s, b) = Err (EDuplicate s0)) \/
      ((s, b) <> x /\ exists sb' m' g', merge_account G base t (Ok (sb, (made, gone))) (s, b) = Ok (sb', (m', g')) /\ incl made m' /\ incl gone g')).
    { unfold merge_account. cbn [bind].
      assert (Tw : (s, b) = x -> existsb (N.eqb s) made || existsb (N.eqb s) gone = true) by (intros <-; cbn [fst] in T; apply Bool.orb_true_iff; destruct T; [left | right]; apply existsb_in; assumption).
      assert (Hx : (s, b) = x -> new_in (s, b) = true \/ gone_in (s, b) = true) by (intros ->; exact H). unfold new_in, gone_in in Hx. cbn [fst snd] in Hx.
      destruct (s =? t). { right. split; [intros Y; destruct (Hx Y); discriminate|]. do 3 eexists. split; [reflexivity|]. split; apply incl_refl. }
      cbn [negb andb] in Hx. destruct (se_status (b_md b)); try (right; split; [intros Y; destruct (Hx Y); discriminate|]; do 3 eexists; split; [reflexivity|]; split; apply incl_refl).
      - destruct (base_exists G base s). { right. split; [intros Y; destruct (Hx Y); discriminate|]. do 3 eexists. split; [reflexivity|]. split; apply incl_refl. }
        destruct (existsb (N.eqb s) made || existsb (N.eqb s) gone); [left; eexists; reflexivity|]. right. split; [intros Y; specialize (Tw Y); discriminate|]. do 3 eexists. split; [reflexivity|]. split; [apply incl_tl|]; apply incl_refl.
      - destruct (base_exists G base s); cbn [negb]. 2:{ right. split; [intros Y; destruct (Hx Y); discriminate|]. do 3 eexists. split; [reflexivity|]. split; apply incl_refl. }
        destruct (existsb (N.eqb s) made || existsb (N.eqb s) gone); [left; eexists; reflexivity|]. right. split; [intros Y; specialize (Tw Y); discriminate|]. do 3 eexists. split; [reflexivity|]. split; [|apply incl_tl]; apply incl_refl. }
    destruct X as [[s0 ->]|[Dx [sb' [m' [g' [-> [I1 I2]]]]]]]; [exists s0; apply loop_err|]. destruct I as [I|I]; [contradiction|]. apply (IH sb' m' g' x I H). destruct T; [left | right]; auto.
  Qed.
End Loop.

Lemma left_in : forall G base rsb s b, aget rsb s = Some b -> alike s (left_by G base rsb) (view G rsb).
Proof. intros G base rsb s b E. split; intros; cbn [left_by g_meta g_ent view]; rewrite E; reflexivity. Qed.
Lemma left_out : forall G base rsb s, aget rsb s = None -> alike s (left_by G base rsb) (view G base).
Proof. intros G base rsb s E. split; intros; cbn [left_by g_meta g_ent view]; rewrite E; reflexivity. Qed.

Lemma new_in_iff : forall G ch base t a s b, sb_ok G ch base -> sound G ch base t a -> aget (a_sb a) s = Some b ->
  (new_in G base t (s, b) = true <-> makes (view G base) t (left_by G base (a_sb a)) s) /\ (gone_in G base t (s, b) = true <-> removes (view G base) t (left_by G base (a_sb a)) s).
Proof.
  intros G ch base t a s b B [S1 S2 S3 S4] E. pose proof (base_exists_ok s B) as X. pose proof (alike_has (left_in G base _ _ E)) as H.
  assert (Hv : has (view G (a_sb a)) s <-> se_val (b_md b) <> None) by (unfold has; cbn [view g_meta]; unfold vmeta; rewrite E; reflexivity).
  destruct (proj2 S1 s b E) as [M _]. unfold md_ok in M. unfold new_in, gone_in, makes, removes. cbn [fst snd]. rewrite !Bool.andb_true_iff, !Bool.negb_true_iff, N.eqb_neq. rewrite H, Hv.
  assert (Bx : has G s -> ~ has (view G base) s -> s <> t -> se_val (b_md b) <> None -> False) by (intros Z1 Z2 Z3 Z4; apply (S4 s Z3 Z1 Z2), H, Hv, Z4).
  assert (Bd : base_exists G base s = false <-> ~ has (view G base) s) by (rewrite <- X; destruct (base_exists G base s); split; congruence).
  unfold has in Bx at 1. destruct (se_status (b_md b)).
  - destruct M as [M1 M2]. split; (split; [intros [_ Y]; discriminate|]); intros [Y1 [Y2 Y3]]; exfalso; [apply Bx; auto; congruence | apply Y3; congruence].
  - destruct M as [M1 [M2 M3]]. split; [rewrite Bool.negb_true_iff, Bd; intuition congruence|]. split; [intros [_ Y]; discriminate | intros [Y1 [Y2 Y3]]; contradiction].
  - destruct M as [M1 [M2 M3]]. split; (split; [intros [_ Y]; discriminate|]); intros [Y1 [Y2 Y3]]; exfalso; [apply Bx; auto; congruence | contradiction].
  - destruct M as [M1 M2]. split; [split; [intros [_ Y]; discriminate | intros [Y1 [Y2 Y3]]; contradiction]|]. rewrite X. rewrite M1. split; [intros [Y1 Y2]; split; [congruence|]; split; [exact Y2 | congruence] | intros [Y1 [Y2 Y3]]; split; [congruence | exact Y2]].
Qed.
Lemma not_in_neither : forall G base t a s, aget (a_sb a) s = None -> ~ makes (view G base) t (left_by G base (a_sb a)) s /\ ~ removes (view G base) t (left_by G base (a_sb a)) s.
Proof. intros G base t a s E. pose proof (alike_has (@left_out G base _ s E)) as H. split; intros [_ [Y1 Y2]]; rewrite H in Y2; contradiction. Qed.

(** Merging one result *)
Lemma merge_ok : forall G ch base q t u a p', sb_ok G ch base -> sb_ok G ch (u_sb u) -> sound G ch base t a -> has (view G (u_sb u)) t -> merge_priv q t (u_priv u) (a_priv a) = Ok p' ->
  (forall s, makes (view G base) t (left_by G base (a_sb a)) s \/ removes (view G base) t (left_by G base (a_sb a)) s -> ~ In s (u_made u) /\ ~ In s (u_gone u)) ->
  exists u', merge G base q t u (a_sb a) (a_priv a) = Ok u' /\ u_priv u' = p' /\ sb_ok G ch (u_sb u') /\
    (forall s, In s (u_made u') <-> makes (view G base) t (left_by G base (a_sb a)) s \/ In s (u_made u)) /\
    (forall s, In s (u_gone u') <-> removes (view G base) t (left_by G base (a_sb a)) s \/ In s (u_gone u)) /\
    (forall s, s = t \/ makes (view G base) t (left_by G base (a_sb a)) s \/ removes (view G base) t (left_by G base (a_sb a)) s -> alike s (view G (u_sb u')) (left_by G base (a_sb a))) /\
    (forall s, ~ (s = t \/ makes (view G base) t (left_by G base (a_sb a)) s \/ removes (view G base) t (left_by G base (a_sb a)) s) -> alike s (view G (u_sb u')) (view G (u_sb u))).
Proof.
  intros G ch base q t u a p' B A S Ht P Fr. pose proof S as [S1 S2 [S3 [S5 S6]] S4]. unfold merge.
  pose proof (ensure_ok t A) as A1. pose proof (view_meta_ens G (u_sb u) t) as Vt. destruct (aget (ensure G (u_sb u) t) t) as [b|] eqn:E; [|exfalso; apply Ht; cbn; congruence].
  destruct (is_removed (b_md b)) eqn:Rm. { exfalso. destruct (proj2 A1 _ _ E) as [M _]. apply removed_val in M. rewrite Rm in M. cbn in M. apply Ht. cbn [view g_meta]. rewrite <- Vt. destruct (se_val (b_md b)); [discriminate | reflexivity]. }
  rewrite P. cbn [bind]. destruct (aget (a_sb a) t) as [rb|] eqn:Et; [|apply mget_None in Et; contradiction]. rewrite (ensure_idem G _ _ Et), Et.
  destruct (@loop_ok G ch base t (a_sb a) (aset (ensure G (u_sb u) t) t rb) (u_made u) (u_gone u)) as [sb' [L1 [L2 L3]]].
  - apply S1.
  - apply sb_set; [exact A1 | apply (proj2 S1), Et].
  - intros s b0 I. apply (proj2 S1). apply mget_In; [apply S1 | exact I].
  - intros [s b0] I H. apply (mget_In N.eq_dec _ _ _ (proj1 S1)) in I. apply Fr. cbn [fst]. destruct (new_in_iff s B S I) as [X1 X2]. rewrite X1, X2 in H. exact H.
  - rewrite L1. cbn [bind]. eexists. split; [reflexivity|]. cbn [u_priv u_sb u_made u_gone]. split; [reflexivity|]. split; [exact L2|].
    assert (Fm : forall s, In s (map fst (filter (new_in G base t) (a_sb a))) <-> makes (view G base) t (left_by G base (a_sb a)) s).
    { intros s. rewrite in_map_iff. split.
      - intros [[s0 b0] [<- I]]. apply filter_In in I. destruct I as [I I2]. apply (mget_In N.eq_dec _ _ _ (proj1 S1)) in I. apply (new_in_iff s0 B S I). exact I2.
      - intros M. destruct (aget (a_sb a) s) as [b0|] eqn:Es; [|destruct (@not_in_neither G base t a s Es); contradiction]. exists (s, b0). split; [reflexivity|]. apply filter_In. split; [apply (mget_In N.eq_dec _ _ _ (proj1 S1)), Es | apply (new_in_iff s B S Es), M]. }
    assert (Fg : forall s, In s (map fst (filter (gone_in G base t) (a_sb a))) <-> removes (view G base) t (left_by G base (a_sb a)) s).
    { intros s. rewrite in_map_iff. split.
      - intros [[s0 b0] [<- I]]. apply filter_In in I. destruct I as [I I2]. apply (mget_In N.eq_dec _ _ _ (proj1 S1)) in I. apply (new_in_iff s0 B S I). exact I2.
      - intros M. destruct (aget (a_sb a) s) as [b0|] eqn:Es; [|destruct (@not_in_neither G base t a s Es); contradiction]. exists (s, b0). split; [reflexivity|]. apply filter_In. split; [apply (mget_In N.eq_dec _ _ _ (proj1 S1)), Es | apply (new_in_iff s B S Es), M]. }
    split; [intros s; rewrite in_app_iff, <- in_rev, Fm; reflexivity|]. split; [intros s; rewrite in_app_iff, <- in_rev, Fg; reflexivity|].
    assert (Vs : forall s, s <> t -> alike s (view G (aset (ensure G (u_sb u) t) t rb)) (view G (u_sb u))) by (intros s D; eapply alike_trans; [apply aset_off; congruence | apply same_alike, ensure_view]).
    split; intros s H; specialize (L3 s); destruct (aget (a_sb a) s) as [b0|] eqn:Es.
    + destruct (new_in_iff s B S Es) as [X1 X2]. destruct (new_in G base t (s, b0) || gone_in G base t (s, b0)) eqn:Y.
      * eapply alike_trans; [exact L3|]. apply alike_sym. eapply alike_trans; [eapply left_in, Es | apply view1; [exact Es | reflexivity]].
      * apply Bool.orb_false_iff in Y. destruct Y as [Y1 Y2]. destruct H as [->|[H|H]]; [|apply X1 in H; congruence | apply X2 in H; congruence].
        eapply alike_trans; [exact L3|]. rewrite Et in Es. injection Es as <-. eapply alike_trans; [apply aset_at|]. apply alike_sym. eapply alike_trans; [eapply left_in, Et | apply view1; [exact Et | reflexivity]].
    + destruct (@not_in_neither G base t a s Es). destruct H as [->|[H|H]]; try contradiction. congruence.
    + destruct (new_in_iff s B S Es) as [X1 X2]. destruct (new_in G base t (s, b0) || gone_in G base t (s, b0)) eqn:Y.
      * exfalso. apply H. apply Bool.orb_true_iff in Y. rewrite X1, X2 in Y. tauto.
      * eapply alike_trans; [exact L3 | apply Vs; intros ->; tauto].
    + eapply alike_trans; [exact L3 | apply Vs; intros ->; tauto].
Qed.
(** Merging the result of a service that was removed *)
Lemma merge_skip : forall G ch base q t u a, sb_ok G ch (u_sb u) -> ~ has (view G (u_sb u)) t -> has G t ->
  exists sb, merge G base q t u (a_sb a) (a_priv a) = Ok (mk_union sb (u_priv u) (u_made u) (u_gone u)) /\ sb_ok G ch sb /\ same (view G sb) (view G (u_sb u)).
Proof.
  intros G ch base q t u a A Ht Hg. unfold merge. pose proof (ensure_ok t A) as A1. pose proof (view_meta_ens G (u_sb u) t) as Vt.
  destruct (aget (ensure G (u_sb u) t) t) as [b|] eqn:E; [|apply ensure_get in E; destruct E; exfalso; apply Hg; assumption].
  destruct (proj2 A1 _ _ E) as [M _]. apply removed_val in M. apply not_has in Ht. cbn [view g_meta] in Ht. rewrite Vt, Ht in M. destruct (is_removed (b_md b)); [|discriminate].
  eexists. split; [reflexivity|]. split; [exact A1 | apply ensure_view].
Qed.
