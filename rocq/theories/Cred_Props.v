(** Guarantees put together from signatures (C121). *)
From Verif Require Import Base Disputes_Model Disputes_Spec Reports_Model Reports_Spec Reports_Proofs Reports_Props Cred_Model Cred_Spec Cred_Proofs.
From Coq Require Import Lia Permutation.
Open Scope N_scope.

(** ** C121 *)
(** Every signature gets its answer, and the entry holds the first signatures of the first three validators, in the order of the validators' indices. *)
Theorem credentials_gathered : forall w slot cs, exists g ans, gather (new_guarantee w slot) cs = (g, ans) /\
  gu_report g = w /\ gu_slot g = slot /\
  ascending (map cr_index (gu_creds g)) /\ first_three cs (map cr_index (gu_creds g)) /\ (forall c, In c (gu_creds g) -> first_of_each cs c) /\
  length ans = length cs /\ forall i c, nth_error cs i = Some c -> exists a, nth_error ans i = Some a /\ reply (firstn i cs) c a.
Proof.
  intros w slot cs. destruct (gather_inv cs [] (new_guarantee w slot) inv_nil) as (g & ans & E & (_ & A & T & F) & R & S & (RL & RN)). exists g, ans. auto 10.
Qed.
(** With the signatures of two or three guarantors of the core the block's checks of the entry pass as far as the signatures go. *)
Theorem credentials_accepted : forall C R L verify report_hash k x w slot cs g ans, gather (new_guarantee w slot) cs = (g, ans) ->
  (exists a b, In a cs /\ In b cs /\ cr_index a <> cr_index b) ->
  (forall c, In c cs -> exists key, guarantor R verify report_hash k g c key) ->
  acceptable_report C L k x w -> slot <= k_slot k -> k_slot k / R <= slot / R + 1 ->
  acceptable_guarantee C R L verify report_hash k x g.
Proof.
  intros C R L verify report_hash k x w slot cs g ans E (a & b & A & B & AB) G W S1 S2.
  destruct (credentials_gathered w slot cs) as (g' & ans' & E' & R1 & R2 & AS & (ND & be & af & EC & T2 & T3) & F & _). rewrite E in E'. injection E' as <- <-.
  unfold acceptable_guarantee. rewrite R1, R2. split; [exact W|]. split; [|split; [exact AS|split; [exact S1|split; [exact S2|]]]].
  - destruct T3 as [T3|(T3 & ->)]; [rewrite map_length in T3; auto|]. rewrite app_nil_r in EC. subst be. left. rewrite map_length in T3.
    assert (X : (length [cr_index a; cr_index b] <= length (map cr_index (gu_creds g)))%nat).
    { apply NoDup_incl_length; [repeat constructor; cbn; [intros [Q|[]]; congruence|tauto]|]. intros i [<-|[<-|[]]]; apply T2; apply in_map; assumption. }
    rewrite map_length in X. cbn in X. lia.
  - intros c Q. apply G. destruct (F c Q) as (p & q & -> & _). apply in_or_app. right. left. reflexivity.
Qed.
(** The order of arrival does not matter for at most three signatures of different validators. *)
Theorem credentials_any_order : forall w slot cs cs', NoDup (map cr_index cs) -> (length cs <= 3)%nat -> Permutation cs cs' ->
  fst (gather (new_guarantee w slot) cs) = fst (gather (new_guarantee w slot) cs') /\ Permutation (gu_creds (fst (gather (new_guarantee w slot) cs))) cs.
Proof.
  intros w slot cs cs' N L PM. destruct (gather_inv cs [] (new_guarantee w slot) inv_nil) as (g & ans & -> & V & R & S & _). destruct (gather_inv cs' [] (new_guarantee w slot) inv_nil) as (g' & ans' & -> & V' & R' & S' & _). cbn [fst app] in *.
  pose proof (all_taken _ _ V N L) as P1. assert (P2 : Permutation (gu_creds g') cs').
  { apply all_taken; [exact V'|apply (Permutation_NoDup (Permutation_map cr_index PM) N)|rewrite <- (Permutation_length PM); exact L]. }
  split; [|exact P1]. assert (EC : gu_creds g = gu_creds g') by (apply asc_unique; [apply V|apply V'|rewrite P1, P2; exact PM]). destruct g, g'; cbn in *. congruence.
Qed.
(** Nothing is verified here: who is first decides, and a wrong signature keeps the right one of the same validator out. *)
Theorem credentials_first_refuted : exists w slot bad good, cr_index bad = cr_index good /\
  fst (gather (new_guarantee w slot) [bad; good]) <> fst (gather (new_guarantee w slot) [good; bad]) /\
  snd (gather (new_guarantee w slot) [bad; good]) = [None; Some DuplicateValidatorIndex] /\ gu_creds (fst (gather (new_guarantee w slot) [bad; good])) = [bad].
Proof. exists (mk_w 1 2 3 4 5 [] 6 7 8 9 10 [] [] 11), 20, (mk_cr 4 66), (mk_cr 4 77). split; [reflexivity|]. split; [intro E; vm_compute in E; discriminate E|]. split; reflexivity. Qed.

Example gather_case : let w := mk_w 1 2 3 4 5 [] 6 7 8 9 10 [] [] 11 in
  gather (new_guarantee w 20) [mk_cr 9 90; mk_cr 4 40; mk_cr 9 91; mk_cr 6 60; mk_cr 2 20] =
    (mk_g w 20 [mk_cr 4 40; mk_cr 6 60; mk_cr 9 90], [None; None; Some DuplicateValidatorIndex; None; Some InvalidCredentialCount]) /\
  NoDup (map cr_index [mk_cr 9 90; mk_cr 4 40; mk_cr 6 60]) /\ fst (gather (new_guarantee w 20) [mk_cr 6 60; mk_cr 9 90; mk_cr 4 40]) = mk_g w 20 [mk_cr 4 40; mk_cr 6 60; mk_cr 9 90].
Proof. cbn zeta. split; [reflexivity|]. split; [|reflexivity]. repeat constructor; cbn; intuition discriminate. Qed.

(** Signatures of the core's guarantors in any order: the block takes the entry. *)
Example accepted_case : let busy := with_pending (ctx 12 [] [] []) [Some (rep 100 0 [], 11); None] [] in
  let sig i := mk_cr i (rsign (nth (N.to_nat i) vkeys 0) (X_G ++ hbytes (rhash (rep 102 1 [])))) in
  let g := fst (gather (new_guarantee (rep 102 1 []) 12) [sig 5; sig 3; sig 5]) in
  (forall c, In c [sig 5; sig 3; sig 5] -> exists key, guarantor 4 rverify rhash busy g c key) /\ acceptable_report 2 100 busy [g] (rep 102 1 []) /\ 12 <= k_slot busy /\
  validate_guarantees 2 4 100 rverify rhash busy [g] = Ok [13; 15].
Proof.
  cbn zeta. assert (V : validate_guarantees 2 4 100 rverify rhash (with_pending (ctx 12 [] [] []) [Some (rep 100 0 [], 11); None] []) [guaranteed (rep 102 1 []) 12 [3; 5]] = Ok [13; 15]) by (vm_compute; reflexivity).
  split; [|split; [|split; [vm_compute; discriminate|vm_compute; reflexivity]]].
  - intros c [<-|[<-|[<-|[]]]]; [exists 15|exists 13|exists 15]; (split; [reflexivity|]; split; [discriminate|]; split; vm_compute; reflexivity).
  - apply guarantees_accepted_iff in V. destruct V as ((_ & _ & V) & _). specialize (V _ (or_introl eq_refl)). apply V.
Qed.

Print Assumptions credentials_gathered.
Print Assumptions credentials_accepted.
Print Assumptions credentials_any_order.
Print Assumptions credentials_first_refuted.
