(** The report of a package's items: one digest each, in order, the outputs within the limit. *)
From Coq Require Import List NArith ZArith Lia Bool.
From Verif Require Import Base Base_Proofs Codec_Model PvmMem_Model PvmProg_Model PvmStep_Model Host_Model Acc_Model PvmInit_Model Refine_Model Refine_Spec.
Import ListNotations.
Open Scope N_scope.
Set Implicit Arguments.

Lemma octets_acc l : forall n, n + sum_of (map x_len l) < 2 ^ 32 -> fold_left (fun n x => u32 (n + x_len x)) l n = n + sum_of (map x_len l).
Proof.
  induction l as [|x l IH]; cbn [fold_left map sum_of fold_right]; intros n L; [lia|]. change (fold_right N.add 0 (map x_len l)) with (sum_of (map x_len l)) in *.
  assert (E : u32 (n + x_len x) = n + x_len x) by (unfold u32; apply N.mod_small; lia). rewrite E. rewrite IH; lia.
Qed.
Lemma digest_describes H w r used : countable w -> describes H w used (digest_of H w r used).
Proof.
  intros (A & B & C). unfold describes, digest_of; cbn [d_service d_code d_payload d_gas d_used d_exports d_imports d_xts d_octets].
  repeat (split; [reflexivity|]). split; [now apply N.mod_small|]. split; [now apply N.mod_small|]. rewrite octets_acc; lia.
Qed.

Lemma report_runs run H : forall items i offset size ds xs, report_items run H items i offset size = Ok (ds, xs) ->
  exists raw, ran run items i offset raw /\ judged size items raw (map d_result ds) /\ xs = kept_segments raw (map d_result ds) /\
    ds = map (fun z => digest_of H (fst (fst z)) (snd z) (fst (fst (snd (fst z))))) (combine (combine items raw) (map d_result ds)).
Proof.
  induction items as [|w items IH]; cbn [report_items]; intros i offset size ds xs E.
  - injection E as <- <-. exists []. repeat split; try (intros [|j]; discriminate).
  - destruct (run i offset) as [[[used r] segs]| |] eqn:Er; cbn [bind] in E; try discriminate.
    set (size' := match r with WOutput b => size + N.of_nat (length b) | WError _ => size end) in E.
    assert (Z : size' = size + size_of r) by (unfold size'; destruct r; cbn [size_of]; lia). clearbody size'.
    destruct (if OUTPUT_LIMIT <? size' then _ else _) as [f kept] eqn:Ef.
    assert (F : f = verdict size w r segs /\ kept = if is_output f then segs else []).
    { unfold verdict. rewrite <- Z. unfold OUTPUT_LIMIT in Ef. destruct (49152 <? size'); [injection Ef as <- <-; auto|]. destruct (N.of_nat (length segs) =? w_exports w); cbn [negb] in Ef; [|injection Ef as <- <-; auto]. destruct r; injection Ef as <- <-; auto. }
    destruct (report_items _ _ _ _ _ _) as [[ds' more]| |] eqn:E'; cbn [bind] in E; try discriminate. injection E as <- <-.
    destruct (IH _ _ _ _ _ E') as (raw & [R1 R2] & [J1 J2] & K & D). exists ((used, r, segs) :: raw). cbn [map d_result digest_of]. destruct F as [F1 F2].
    split; [|split; [|split]].
    + split; [cbn [length]; congruence|]. intros [|j] x X; cbn [nth_error] in X.
      * injection X as <-. unfold offset_of; cbn. rewrite Nat.add_0_r, N.add_0_r. exact Er.
      * apply R2 in X. unfold offset_of in *. cbn [firstn map sum_of fold_right]. rewrite <- X. f_equal; [lia|]. unfold sum_of. lia.
    + split; [cbn [length]; congruence|]. intros [|j] w' u r' segs' A B; cbn [nth_error] in *.
      * injection A as <-. injection B as <- <- <-. cbn. rewrite N.add_0_r, F1. reflexivity.
      * rewrite (J2 _ _ _ _ _ A B). cbn [firstn map sum_of fold_right]. unfold raw_size at 2; cbn [fst snd]. rewrite Z. do 2 f_equal. unfold sum_of. lia.
    + cbn [kept_segments]. rewrite <- F2, <- K. reflexivity.
    + cbn [combine map fst snd]. rewrite <- D. reflexivity.
Qed.

Lemma report_described H (items : list witem) (ds : list digest) (raw : list (N * wresult * list bytes)) : ds = map (fun z => digest_of H (fst (fst z)) (snd z) (fst (fst (snd (fst z))))) (combine (combine items raw) (map d_result ds)) ->
  length raw = length items -> length ds = length items ->
  forall j w, nth_error items j = Some w -> countable w -> exists d u r segs, nth_error ds j = Some d /\ nth_error raw j = Some (u, r, segs) /\ describes H w u d.
Proof.
  intros D R L j w E C. assert (Lj : (j < length items)%nat) by (apply nth_error_Some; congruence).
  destruct (nth_error raw j) as [[[u r] segs]|] eqn:Er; [|apply nth_error_None in Er; lia]. destruct (nth_error ds j) as [d|] eqn:Ed; [|apply nth_error_None in Ed; lia].
  exists d, u, r, segs. split; [reflexivity|]. split; [reflexivity|].
  assert (CB : forall (A B : Type) (l : list A) (m : list B) j a b, nth_error l j = Some a -> nth_error m j = Some b -> nth_error (combine l m) j = Some (a, b)).
  { clear. induction l as [|x l IH]; intros [|y m] [|j] a b X Y; try discriminate; cbn in *; [congruence|eauto]. }
  assert (Ed2 : nth_error (map d_result ds) j = Some (d_result d)) by now apply map_nth_error.
  pose proof (CB _ _ _ _ _ _ _ (CB _ _ _ _ _ _ _ E Er) Ed2) as Q. eapply map_nth_error in Q. rewrite <- D, Ed in Q. injection Q as Q. cbn [fst snd] in Q. rewrite Q. now apply digest_describes.
Qed.

Lemma sum_of_cons x l : sum_of (x :: l) = x + sum_of l. Proof. reflexivity. Qed.
Lemma verdict_size before w r segs : before <= 49152 -> before + size_of (verdict before w r segs) <= 49152.
Proof. intros L. unfold verdict. destruct (N.ltb_spec 49152 (before + size_of r)); cbn [size_of]; [lia|]. destruct (_ =? _); cbn [size_of]; lia. Qed.
Lemma verdict_le before w r segs : size_of (verdict before w r segs) <= size_of r.
Proof. unfold verdict. destruct (_ <? _); cbn [size_of]; [lia|]. destruct (_ =? _); cbn [size_of]; lia. Qed.
Lemma verdict_over before w r segs : 49152 < before -> size_of (verdict before w r segs) = 0.
Proof. intros L. unfold verdict. destruct (N.ltb_spec 49152 (before + size_of r)); cbn [size_of]; lia. Qed.

Lemma judged_tail size w items x raw f final : judged size (w :: items) (x :: raw) (f :: final) ->
  f = verdict size w (snd (fst x)) (snd x) /\ judged (size + raw_size x) items raw final.
Proof.
  intros [L J]. destruct x as [[u r] segs]. split.
  - specialize (J 0%nat w u r segs eq_refl eq_refl). cbn in J. rewrite N.add_0_r in J. now injection J.
  - split; [cbn in L; congruence|]. intros j w' u' r' segs' A B. specialize (J (S j) w' u' r' segs' A B). cbn [nth_error firstn map] in J. rewrite J, sum_of_cons. do 2 f_equal. lia.
Qed.
Lemma judged_zero : forall items raw final size, length raw = length items -> 49152 < size -> judged size items raw final -> sum_of (map size_of final) = 0.
Proof.
  induction items as [|w items IH]; intros [|x raw] [|f final] size L O J; try reflexivity; try (destruct J as [J _]; discriminate); try discriminate.
  apply judged_tail in J as [F J]. rewrite F. cbn [map]. rewrite sum_of_cons, verdict_over by exact O. rewrite (IH raw final (size + raw_size x)); [reflexivity| |lia|exact J]. cbn in L; congruence.
Qed.
Lemma judged_limit : forall items raw final size, length raw = length items -> size <= 49152 -> judged size items raw final -> size + sum_of (map size_of final) <= 49152.
Proof.
  induction items as [|w items IH]; intros [|x raw] [|f final] size L O J; try (cbn; lia); try (destruct J as [J _]; discriminate); try discriminate.
  assert (L' : length raw = length items) by (cbn in L; congruence).
  apply judged_tail in J as [F J]. cbn [map]. rewrite sum_of_cons, F. pose proof (verdict_size w (snd (fst x)) (snd x) O) as V. pose proof (verdict_le size w (snd (fst x)) (snd x)) as V2.
  destruct (N.le_gt_cases (size + raw_size x) 49152) as [Q|Q].
  - specialize (IH raw final _ L' Q J). unfold raw_size in *. lia.
  - rewrite (@judged_zero items raw final (size + raw_size x) L' Q J). lia.
Qed.

Lemma judged_gp trace items raw final : length raw = length items -> judged trace items raw final ->
  (forall j u r segs f, (S j < length items)%nat -> nth_error raw j = Some (u, r, segs) -> nth_error final j = Some f -> size_of f = size_of r) -> gp_results trace items raw final.
Proof.
  intros L [Jl J] K. split; [exact Jl|]. intros j w u r segs A B. rewrite (J j w u r segs A B). do 3 f_equal. f_equal.
  assert (Lj : (j < length items)%nat) by (apply nth_error_Some; congruence). clear J A B.
  assert (Q : forall (a : list (N * wresult * list bytes)) (b : list wresult) n, length a = length b -> (n <= length a)%nat ->
     (forall i u r segs f, (i < n)%nat -> nth_error a i = Some (u, r, segs) -> nth_error b i = Some f -> size_of f = size_of r) -> map raw_size (firstn n a) = map size_of (firstn n b)).
  { clear. induction a as [|[[u r] segs] a IH]; intros [|f b] [|n] L M Q; try reflexivity; try discriminate; try (cbn in M; lia).
    cbn [firstn map]. f_equal; [symmetry; apply (Q 0%nat u r segs f); [lia|reflexivity|reflexivity]|].
    apply IH; [cbn in L; congruence|cbn in M; lia|]. intros i u' r' segs' f' Hi. intros X Y. apply (Q (S i) u' r' segs' f'); [lia|exact X|exact Y]. }
  rewrite (Q raw final j); [reflexivity|lia|lia|]. intros i u' r' segs' f' Hi X Y. eapply (K i); eauto. lia.
Qed.

Lemma kept_gp : forall items raw final, length raw = length items -> length final = length items ->
  (forall j w f, nth_error items j = Some w -> nth_error final j = Some f -> is_output f = false -> w_exports w = 0) -> kept_segments raw final = gp_segments items raw final.
Proof.
  induction items as [|w items IH]; intros [|[[u r] segs] raw] [|f final] L M K; try reflexivity; try discriminate. cbn [kept_segments gp_segments].
  rewrite <- (IH raw final); [|cbn in L; congruence|cbn in M; congruence|intros j; exact (K (S j))].
  destruct (is_output f) eqn:E; [reflexivity|]. rewrite (K 0%nat w f eq_refl eq_refl E). reflexivity.
Qed.
