From Verif Require Import Base Base_Proofs Import_Model Import_Spec Import_Proofs Import_Props Reports_Model Reports_Spec Reports_Props Anchor_Model Anchor_Spec.
Require Import Lia.
Open Scope N_scope.

(** The imported blocks of a history. *)
Definition imported (l : list became) : list (N * N) := flat_map (fun b => match b with Imported e => [e] | _ => [] end) l.
Lemma after_imported : forall L l a, fold_left (note_header L) l a = fold_left (an_add L) (imported l) a.
Proof. intros L l. induction l as [|b l IH]; intros a; [reflexivity|]. destruct b; cbn [fold_left note_header imported flat_map app]; apply IH. Qed.
Lemma imported_in : forall l e, In e (imported l) -> In e (chain l).
Proof.
  intros l e H. unfold imported in H. apply in_flat_map in H. destruct H as [b [A B]]. unfold chain. apply in_map_iff. exists b. split; [|exact A].
  destruct b; cbn in B; try solve [destruct B]; destruct B as [<-|[]]; reflexivity.
Qed.
Lemma imported_iff : forall l e, In e (imported l) <-> In (Imported e) l.
Proof.
  intros l e. unfold imported. rewrite in_flat_map. split.
  - intros [b [A B]]. destruct b; cbn in B; try solve [destruct B]; destruct B as [<-|[]]; exact A.
  - intros A. exists (Imported e). split; [exact A|left; reflexivity].
Qed.
Lemma contains_in : forall a e, an_contains a e = true <-> In e (an_set a).
Proof.
  intros a e. unfold an_contains. rewrite existsb_exists. split.
  - intros [x [A B]]. unfold ent_eqb in B. apply andb_prop in B. destruct B as [B C]. apply N.eqb_eq in B, C. destruct e, x; cbn in *; subst; exact A.
  - intros A. exists e. split; [exact A|]. unfold ent_eqb. rewrite !N.eqb_refl. reflexivity.
Qed.
Lemma rise_distinct : forall l now x y, slots_rise l now -> In x l -> In y l -> fst x = fst y -> x = y.
Proof.
  induction l as [|e l IH]; intros now x y R A B E; [destruct A|]. destruct R as [_ [R1 R2]].
  destruct A as [<-|A], B as [<-|B]; [reflexivity|specialize (R1 _ B); lia|specialize (R1 _ A); lia|exact (IH now x y R2 A B E)].
Qed.
Lemma rise_below : forall l now x, slots_rise l now -> In x l -> fst x < now.
Proof. induction l as [|e l IH]; intros now x R A; [destruct A|]. destruct R as [R0 [_ R2]]. destruct A as [<-|A]; [exact R0|exact (IH _ _ R2 A)]. Qed.
(** Numbers strictly between two bounds are few. *)
Lemma few_between : forall (l : list N) a b, NoDup l -> (forall x, In x l -> a < x /\ x < b) -> (length l <= N.to_nat (b - a - 1))%nat.
Proof.
  intros l a b D B.
  assert (I : incl (map N.to_nat l) (seq (S (N.to_nat a)) (N.to_nat (b - a - 1)))).
  { intros y H. apply in_map_iff in H. destruct H as [x [<- H]]. specialize (B x H). apply in_seq. lia. }
  assert (D' : NoDup (map N.to_nat l)). { apply FinFun.Injective_map_NoDup; [intros x y E; lia|exact D]. }
  pose proof (NoDup_incl_length D' I) as K. rewrite map_length, seq_length in K. exact K.
Qed.
Lemma nodup_fst : forall l : list (N * N), NoDup l -> (forall x y, In x l -> In y l -> fst x = fst y -> x = y) -> NoDup (map fst l).
Proof.
  induction l as [|e l IH]; intros D U; [constructor|]. inversion D as [|? ? N0 D']; subst. cbn. constructor.
  - intros C. apply in_map_iff in C. destruct C as [y [E A]]. apply N0. rewrite <- (U y e); [exact A|right; exact A|left; reflexivity|exact E].
  - apply IH; [exact D'|]. intros x y A B. apply U; right; assumption.
Qed.
(** The ancestor set: only imported blocks, and all of them that are recent enough. *)
Lemma in_ancestors : forall L l now e, 0 < L -> slots_rise (chain l) now -> now <= fst e + L -> (In e (an_set (ancestors_after L l)) <-> In (Imported e) l).
Proof.
  intros L l now e P R A. unfold ancestors_after. rewrite after_imported, <- contains_in.
  destruct (ancestor_set_latest (N.to_nat L) (imported l)) as [_ K]. rewrite K, <- imported_iff. split; [intros [H _]; exact H|].
  intros H. split; [exact H|]. intros q D Q.
  assert (F : NoDup (map fst q)).
  { apply nodup_fst; [exact D|]. intros x y X Y. apply (rise_distinct (chain l) now x y R); apply imported_in; [apply (Q x X)|apply (Q y Y)]. }
  assert (B : forall s, In s (map fst q) -> fst e < s /\ s < now).
  { intros s S. apply in_map_iff in S. destruct S as [x [<- S]]. destruct (Q x S) as [X1 X2]. split.
    - destruct X2 as [X2|[X2 X3]]; [exact X2|]. exfalso. assert (e = x) by (apply (rise_distinct (chain l) now e x R); [apply imported_in; exact H|apply imported_in; exact X1|exact X2]).
      subst x. lia.
    - apply (rise_below (chain l) now x R). apply imported_in. exact X1. }
  pose proof (few_between (map fst q) (fst e) now F B) as W. rewrite map_length in W.
  assert (fst e < now) by (apply (rise_below (chain l) now e R); apply imported_in; exact H). lia.
Qed.

(** Switching the check on keeps exactly the extrinsics whose lookup anchors are imported blocks. *)
Lemma with_check : forall C R L verify rh l k x keys, 0 < L -> slots_rise (chain l) (k_slot k) ->
  validate_guarantees C R L verify rh (node_ctx L true l k) x = Ok keys <->
  validate_guarantees C R L verify rh (node_ctx L false l k) x = Ok keys /\ forall g, In g x -> In (Imported (lookup_of g)) l.
Proof.
  intros C R L verify rh l k x keys P S. rewrite !guarantees_accepted_iff.
  assert (Same : forall b kss, Forall2 (fun g ks => Forall2 (guarantor R verify rh (node_ctx L b l k) g) (gu_creds g) ks) x kss <->
                 Forall2 (fun g ks => Forall2 (guarantor R verify rh k g) (gu_creds g) ks) x kss).
  { intros b kss. split; intros F; exact F. }
  split.
  - intros [[A [B D]] [kss [E F]]]. split; [split; [split; [exact A|split; [exact B|]]|exists kss; split; [exact E|exact F]]|].
    + intros g G. specialize (D g G). destruct D as [W D]. split; [|exact D].
      destruct W as (W1 & W2 & W3 & W4 & W5 & W6 & W7 & W8 & W9 & W). repeat (split; [assumption|]). split; [intros q Q; discriminate Q|exact W].
    + intros g G. destruct (D g G) as [(W1 & W2 & W3 & W4 & W5 & W6 & W7 & W8 & W9 & _) _].
      apply (in_ancestors L l (k_slot k)); [exact P|exact S|exact W8|]. exact (W9 _ eq_refl).
  - intros [[[A [B D]] [kss [E F]]] G0]. split; [split; [exact A|split; [exact B|]]|exists kss; split; [exact E|exact F]].
    intros g G. specialize (D g G). destruct D as [W D]. split; [|exact D].
    destruct W as (W1 & W2 & W3 & W4 & W5 & W6 & W7 & W8 & W9 & W). repeat (split; [assumption|]). split; [|exact W].
    intros q Q. injection Q as <-. apply (in_ancestors L l (k_slot k)); [exact P|exact S|exact W8|]. exact (G0 g G).
Qed.
Lemma accepted_recent : forall C R L verify rh w l k x keys, validate_guarantees C R L verify rh (node_ctx L w l k) x = Ok keys ->
  forall g, In g x -> k_slot k <= fst (lookup_of g) + L.
Proof.
  intros C R L verify rh w l k x keys E g G. apply guarantees_accepted_iff in E. destruct E as [[_ [_ D]] _].
  destruct (D g G) as [(W1 & W2 & W3 & W4 & W5 & W6 & W7 & W8 & _) _]. exact W8.
Qed.
