(** A round from beginning to end. *)
From Verif Require Import Base Base_Proofs PvmMem_Model PvmProg_Model PvmStep_Model PvmInit_Model Codec_Model Sandbox_Model Sandbox_Spec Sandbox_Proofs Host_Model Host_Spec Host_Proofs Host2_Proofs Host3_Proofs Host4_Proofs Host5_Proofs Host6_Proofs
  Acc_Model Acc_Spec Acc_Proofs Acc2_Proofs Round_Model Round_Spec Round2_Spec Round1_Proofs Round2_Proofs Round3_Proofs Round4_Proofs Round5_Proofs Round6_Proofs Round7_Proofs Round8_Proofs Round9_Proofs.
From Coq Require Import Permutation.
Set Implicit Arguments.
Open Scope N_scope.

Lemma nodup_join : forall (A : Type) (a b : list A), NoDup a -> NoDup b -> (forall x, In x a -> ~ In x b) -> NoDup (a ++ b).
Proof.
  intros A a b Na Nb H. induction Na as [|x a Nx Na IH]; [exact Nb|]. cbn [app]. constructor; [rewrite in_app_iff; intros [X|X]; [contradiction | apply (H x (or_introl eq_refl) X)] | apply IH; intros y I; apply H; right; exact I].
Qed.
(** ** Order is kept *)
Lemma empty_orderly : forall e G w s, empty s w -> orderly e G w s.
Proof.
  intros e G w s [A B]. split.
  - intros m M. congruence.
  - intros h H. rewrite B in H. contradiction.
  - intros h len l H. rewrite B in H. discriminate.
  - intros h len H. rewrite B in H. contradiction.
  - intros m M. congruence.
  - intros H. contradiction.
  - intros h. apply B.
Qed.
Lemma merged_sane : forall e G d rs w, sane e G d -> (forall t r, In (t, r) rs -> sane e G r) -> merged d rs w -> proper w -> sane e G w.
Proof.
  intros e G d rs w [_ D] R M P. split; [exact P|]. intros s. destruct (M s) as [M1 M2].
  destruct (@not_any rs (fun t r => removes d t r s)) as [X|X]; [intros; apply removes_dec | apply empty_orderly, M1, X|]. destruct (M2 X) as [A [B C]].
  destruct (in_dec N.eq_dec s (map fst rs)) as [I|I].
  - apply in_map_iff in I. destruct I as [[t r] [E I]]. cbn [fst] in E. subst t. eapply orderly_alike; [apply alike_sym, (A r I) | apply (R s r I)].
  - destruct (@not_any rs (fun t r => makes d t r s)) as [[t [r [J K]]]|Y]; [intros; apply makes_dec | |].
    + eapply orderly_alike; [apply alike_sym, (B t r J K) | apply (R t r J)].
    + eapply orderly_alike; [apply alike_sym, (C I Y) | apply D].
Qed.
Lemma sum_zero : forall (A : Type) (f : A -> N) l, (forall a, In a l -> f a = 0) -> sum (map f l) = 0.
Proof. intros A f l H. induction l as [|a l IH]; [reflexivity|]. cbn [map sum]. rewrite (H a (or_introl eq_refl)), IH; [reflexivity|]. intros b I. apply H. right. exact I. Qed.
Section Provided.
  Variables (e : env) (G : gstate) (P : list (N * bytes)) (w w' : gstate).
  Hypotheses (Pv : provided e P w w') (Gv : forall s i, In (s, i) P -> forall h, e_hash e i <> given_to h).
  Lemma sol_dec : forall s i, {solicited e w s i} + {~ solicited e w s i}.
  Proof.
    intros s i. unfold solicited. destruct (has_dec w s) as [H|H]; [|right; intros [X _]; contradiction]. destruct (g_ent w s (KLookup (e_hash e i) (N.of_nat (length i)))) as [[|a l]|]; [left; auto | right; intros [_ X]; discriminate | right; intros [_ X]; discriminate].
  Qed.
  Definition asked (s : N) : list bytes := map snd (filter (fun x => (fst x =? s) && if sol_dec s (snd x) then true else false) P).
  Lemma asked_in : forall s i, In i (asked s) <-> In (s, i) P /\ solicited e w s i.
  Proof.
    intros s i. unfold asked. rewrite in_map_iff. split.
    - intros [[t j] [E I]]. apply filter_In in I. destruct I as [I F]. cbn [fst snd] in *. subst j. apply andb_prop in F. destruct F as [F1 F2]. apply N.eqb_eq in F1. subst t. destruct (sol_dec s i); [auto | discriminate].
    - intros [I S]. exists (s, i). split; [reflexivity|]. apply filter_In. split; [exact I|]. cbn [fst snd]. rewrite N.eqb_refl. destruct (sol_dec s i); [reflexivity | contradiction].
  Qed.
  (** Which entries change *)
  Lemma entry_cases : forall s k, g_ent w' s k = g_ent w s k \/ (exists i, In i (asked s) /\ k = KPreimage (e_hash e i) /\ g_ent w' s k = Some i) \/
    exists i, In i (asked s) /\ k = KLookup (e_hash e i) (N.of_nat (length i)) /\ g_ent w' s k = Some [e_now e] /\ g_ent w s k = Some [].
  Proof.
    intros s k. destruct Pv as [P1 [P2 P3]].
    assert (D : (exists i, In i (asked s) /\ (k = KPreimage (e_hash e i) \/ k = KLookup (e_hash e i) (N.of_nat (length i)))) \/ forall i, In i (asked s) -> k <> KPreimage (e_hash e i) /\ k <> KLookup (e_hash e i) (N.of_nat (length i))).
    { generalize (asked s). induction l as [|i l IH]; [right; intros i []|]. destruct (ekey_eq k (KPreimage (e_hash e i))) as [E|E]; [left; exists i; split; [left; reflexivity | left; exact E]|].
      destruct (ekey_eq k (KLookup (e_hash e i) (N.of_nat (length i)))) as [E2|E2]; [left; exists i; split; [left; reflexivity | right; exact E2]|].
      destruct IH as [[j [I J]]|J]; [left; exists j; split; [right; exact I | exact J]|]. right. intros j [<-|I]; [auto | apply J, I]. }
    destruct D as [[i [I D]]|D].
    - pose proof (proj1 (asked_in s i) I) as [Ip So]. destruct (P2 s i Ip So) as [A B]. destruct D as [-> | ->]; [right; left | right; right]; exists i; repeat (split; [assumption || reflexivity|]); [exact A | exact (proj2 So)].
    - left. apply P3. intros i Ip So. apply D, asked_in. auto.
  Qed.
  Lemma provided_orderly : forall s, orderly e G w s -> orderly e G w' s.
  Proof.
    intros s [C R S Sh V Y Gn]. pose proof Pv as [P1 _]. split.
    - intros m M. rewrite P1 in M. destruct (C m M) as [ks [K1 [K2 [K3 K4]]]].
      set (new := filter (fun k => if in_dec ekey_eq k ks then false else true) (nodup ekey_eq (map (fun i => KPreimage (e_hash e i)) (asked s)))).
      assert (In_new : forall k, In k new -> (exists i, In i (asked s) /\ k = KPreimage (e_hash e i)) /\ ~ In k ks).
      { intros k I. apply filter_In in I. destruct I as [I F]. apply nodup_In, in_map_iff in I. destruct I as [i [E I]]. split; [exists i; auto|]. destruct (in_dec ekey_eq k ks); [discriminate | assumption]. }
      exists (ks ++ new). split; [|split; [|split]].
      + apply nodup_join.
        * exact K1.
        * apply NoDup_filter, NoDup_nodup.
        * intros k I J. apply (In_new k J), I.
      + intros k. rewrite in_app_iff, K2. split.
        * intros [H|H].
          -- destruct (entry_cases s k) as [E|[[i [_ [_ E]]]|[i [_ [_ [E _]]]]]]; rewrite E; [exact H | discriminate | discriminate].
          -- destruct (In_new k H) as [[i [I ->]] _]. apply asked_in in I. destruct I as [I So]. destruct Pv as [_ [P2 _]]. rewrite (proj1 (P2 s i I So)). discriminate.
        * intros H. destruct (entry_cases s k) as [E|[[i [I [E E']]]|[i [_ [_ [_ E]]]]]].
          -- left. rewrite <- E. exact H.
          -- destruct (in_dec ekey_eq k ks) as [J|J]; [left; apply K2, J|]. right. apply filter_In. split; [apply nodup_In, in_map_iff; exists i; auto|]. destruct (in_dec ekey_eq k ks); [contradiction | reflexivity].
          -- left. rewrite E. discriminate.
      + rewrite map_app, sum_app, <- K3, (@sum_zero _ items_of new); [lia|]. intros k I. destruct (In_new k I) as [[i [_ ->]] _]. reflexivity.
      + rewrite map_app, sum_app, K4. rewrite (@sum_zero _ _ new).
        * rewrite N.add_0_r. apply sum_map_ext. intros k I. destruct (entry_cases s k) as [E|[[i [_ [-> E]]]|[i [_ [-> [E E']]]]]]; rewrite E; [reflexivity | |rewrite E'; reflexivity]. cbn [octets_of]. destruct (g_ent w s _); reflexivity.
        * intros k I. destruct (In_new k I) as [[i [_ ->]] _]. destruct (g_ent w' s _); reflexivity.
    - intros h H. assert (X : exists len, g_ent w s (KLookup h len) <> None).
      { destruct (entry_cases s (KPreimage h)) as [E|[[i [I [E _]]]|[i [_ [E _]]]]]; [rewrite E in H; apply (R h H) | | discriminate]. inversion E; subst. apply asked_in in I. destruct I as [_ [_ X]]. exists (N.of_nat (length i)). rewrite X. discriminate. }
      destruct X as [len X]. exists len. destruct (entry_cases s (KLookup h len)) as [E|[[i [_ [_ E]]]|[i [_ [_ [E _]]]]]]; rewrite E; [exact X | discriminate | discriminate].
    - intros h len l. destruct (entry_cases s (KLookup h len)) as [E|[[i [_ [E _]]]|[i [_ [_ [E _]]]]]]; [rewrite E; apply S | discriminate|]. rewrite E. intros X. inversion X; subst. split; [cbn; lia | constructor; [lia | constructor]].
    - intros h len H. destruct (entry_cases s (KLookup h len)) as [E|[[i [_ [E _]]]|[i [_ [_ [_ E]]]]]]; [rewrite E in H; apply (Sh h len H) | discriminate|]. apply (Sh h len). rewrite E. discriminate.
    - intros m M. rewrite P1 in M. apply V, M.
    - intros H Hg h len a y. destruct (entry_cases s (KLookup h len)) as [E|[[i [_ [E _]]]|[i [_ [_ [E _]]]]]]; [rewrite E; apply Y; [unfold has in *; rewrite <- P1; exact H | exact Hg] | discriminate | rewrite E; discriminate].
    - intros h. destruct (entry_cases s (KPreimage (given_to h))) as [E|[[i [I [E _]]]|[i [_ [E _]]]]]; [rewrite E; apply Gn | | discriminate]. exfalso. inversion E. apply asked_in in I. destruct I as [I _]. apply (@Gv s i I h). congruence.
  Qed.
End Provided.

(** ** The services *)
Lemma given_inj : forall a b, a < 2 ^ 32 -> b < 2 ^ 32 -> given_to a = given_to b -> a = b.
Proof.
  intros a b A B E. unfold given_to in E. assert (X : le_bytes 4 a = le_bytes 4 b).
  { apply (f_equal (firstn 4)) in E. rewrite !firstn_app, !le_bytes_length, Nat.sub_diag, !firstn_O, !app_nil_r in E. rewrite !firstn_all2 in E by (rewrite le_bytes_length; lia). exact E. }
  apply (f_equal le_val) in X. rewrite !le_val_le_bytes_small in X by (change (256 ^ N.of_nat 4) with (2 ^ 32); assumption). exact X.
Qed.
Lemma there : forall fuel G ch e base q t recv inputs limit entropy o, proper G -> sb_ok G ch base -> proper (view G base) ->
  accumulate fuel G e base q t recv inputs limit entropy = Some (Ok o) -> (o <> None -> has (view G base) t) /\ (o = None -> ~ has (view G base) t).
Proof.
  intros fuel G ch e base q t recv inputs limit entropy o PG O Pd H.
  destruct (@wp_exec _ (active_of t) G ch base (view G base) (fun w' b => b = is_some (g_meta (view G base) t)) PG Pd O (same_refl _)) as [w1 [B _]].
  { apply wp_active. reflexivity. }
  unfold accumulate in H. unfold has. destruct (exec (stp G) (active_of t) base) as [sb1 b]. cbn [fst snd] in *. subst b. destruct (g_meta (view G base) t) as [m|]; cbn [is_some negb] in H.
  - split; [intros _; discriminate|]. intros ->. exfalso.
    destruct (if 0 <? recv then _ else _) as [sb2 ok]. destruct (negb ok); [discriminate|]. destruct (exec (stp G) (code_prog t) sb2) as [sb3 [[code|]|x|]]; try discriminate.
    destruct (4000000 <? _); [discriminate|]. destruct (new_context _ _ _ _ _ _); try discriminate. destruct (invoke_with_args _ _ _ _ _ _ _ _) as [[[[gas o'] [x y]]|x|]|]; discriminate.
  - inversion H; subst o. split; [intros X; contradiction|]. intros _ X. apply X. reflexivity.
Qed.

Section Full.
  Variables (fuel : nat) (G : gstate) (ch : list N) (e : env) (base : accounts) (q : priv) (entropy : bytes) (metered : N -> bool) (jobs : list job) (results : list (N * option acc_out)).
  Hypotheses (PG : proper G) (Eo : e_now e + e_expiry e < 2 ^ 32) (Be : begins fuel G ch e base q entropy metered jobs results).
  Let d := view G base.
  Let l := ran results.
  Let ch' := map j_id jobs ++ ch.
  Lemma job_of : forall t a, In (t, a) l -> exists j, In j jobs /\ j_id j = t /\ accumulate fuel G (for_job e j) base q t (j_recv j) (j_inputs j) (j_limit j) entropy = Some (Ok (Some a)).
  Proof.
    intros t a I. pose proof (be_results _ _ _ _ _ _ _ _ _ _ Be) as F. unfold results_of in F. unfold l in I. clear - F I. induction F as [|j x js xs [E H] F IH]; [contradiction|]. unfold ran in I. cbn [flat_map] in I. apply in_app_or in I. destruct I as [I|I].
    - destruct x as [t' [a'|]]; cbn [fst snd] in *; [|contradiction]. destruct I as [I|[]]. inversion I; subst. exists j. split; [left; reflexivity|]. split; [reflexivity | exact H].
    - destruct (IH I) as [j' [J X]]. exists j'. split; [right; exact J | exact X].
  Qed.
  Lemma ran_ids : exists sub, map fst l = sub /\ NoDup sub /\ incl sub (map j_id jobs).
  Proof.
    exists (map fst l). split; [reflexivity|]. pose proof (be_results _ _ _ _ _ _ _ _ _ _ Be) as F. destruct (be_jobs _ _ _ _ _ _ _ _ _ _ Be) as [Nd _]. unfold l. unfold results_of in F. clear - F Nd.
    induction F as [|j x js xs [E H] F IH]; [split; [constructor | intros y []]|]. inversion Nd; subst. destruct (IH H3) as [A B]. unfold ran in *. cbn [flat_map map]. rewrite map_app. destruct (snd x); cbn [map app fst].
    - split; [constructor; [rewrite E; intros X; apply H2, B, X | exact A]|]. intros y [<-|Y]; [left; symmetry; exact E | right; apply B, Y].
    - split; [exact A|]. intros y Y. right. apply B, Y.
  Qed.
  Lemma sane_job : forall j w, sane (for_job e j) G w -> sane e G w.
  Proof. intros j w [A B]. split; [exact A|]. intros s. destruct (B s). split; assumption. Qed.
  Lemma each : forall t a, In (t, a) l -> exists j, In j jobs /\ j_id j = t /\ let r := left_by G base (a_sb a) in
    sound G ch' base t a /\ from q t (a_priv a) /\ own_work d t r /\ (forall v, holds d v -> exists v', holds r v' /\ v' + sum (map t_amount (a_xfers a)) = v + j_recv j) /\ sane e G r /\
    (forall m, g_meta d t = Some m -> g_ent d t (KPreimage (m_code m)) = None -> a = mk_acc (a_sb a) q [] None 0 [] /\ forall s, s <> t -> alike s r d).
  Proof.
    intros t a I. destruct (job_of _ _ I) as [j [J [Ej H]]]. exists j. split; [exact J|]. split; [exact Ej|]. destruct Be as [B1 [B2 B2'] [B3 B3'] [B4 B5] _ _ _ _].
    rewrite Forall_forall in B5. destruct (B5 j J) as [_ U]. rewrite Ej in U. destruct (sane_parts B2) as [Ex St].
    assert (Ht : has (view G base) t) by (eapply (proj1 (@there fuel G ch (for_job e j) base q t _ _ _ _ _ PG B1 (proj1 B2) H)); discriminate).
    destruct (@accumulate_sound fuel G (t :: ch) (for_job e j) base q t (j_recv j) (j_inputs j) (j_limit j) entropy a PG) as [A1 [A2 [A3 [A4 [[p [i A5]] [A6 A7]]]]]]; try assumption.
    - apply (@sb_ok_incl G ch); [intros x X; right; exact X | exact B1].
    - left. reflexivity.
    - destruct (St t Ht B2') as [p [i T]]. exists p, i. destruct T. split; assumption.
    - apply Ex.
    - cbn zeta. split; [|split; [apply calls_from; assumption|]; split; [exact A3|]; split; [exact A4|]; split; [apply (@sane_job j), (sane_extra A5 (A7 Ex)) | exact A6]].
      destruct A1 as [S1 S2 S3 S4]. split; try assumption. apply (@sb_ok_incl G (t :: ch)); [|exact S1]. intros x [<-|X]; apply in_or_app; [left; rewrite <- Ej; apply in_map, J | right; exact X].
  Qed.
  Lemma rs_in : forall t r, In (t, r) (worlds G base l) -> exists a, In (t, a) l /\ r = left_by G base (a_sb a).
  Proof. intros t r I. apply in_map_iff in I. destruct I as [[t0 a] [E I]]. injection E as <- <-. eauto. Qed.
  Lemma given_by : forall t r s, In (t, r) (worlds G base l) -> removes d t r s -> t < 2 ^ 32 /\ exists m, g_meta d s = Some m /\ m_code m = given_to t.
  Proof.
    intros t r s I R. destruct (rs_in _ _ I) as [a [Ia ->]]. destruct (each _ _ Ia) as [j [J [Ej [_ [_ [W _]]]]]]. split.
    - destruct (be_jobs _ _ _ _ _ _ _ _ _ _ Be) as [_ F]. rewrite Forall_forall in F. destruct (F j J) as [X _]. congruence.
    - destruct (W s (not_eq_sym (proj1 R))) as [X|[[_ [X _]]|[_ X]]]; [|exfalso; apply X, R | exact X]. exfalso. apply (proj2 (proj2 R)). apply (alike_has X), R.
  Qed.
  Lemma full_compatible : compatible d (worlds G base l).
  Proof.
    intros t r t' r' s I I' [[M M']|[M M']].
    - exact (be_new _ _ _ _ _ _ _ _ _ _ Be t r t' r' s I I' M M').
    - destruct (@given_by t r s I M) as [L [m [E C]]]. destruct (@given_by t' r' s I' M') as [L' [m' [E' C']]]. apply given_inj; [assumption..|]. congruence.
  Qed.
  Lemma removed_idle : forall t r t' a', In (t, r) (worlds G base l) -> In (t', a') l -> removes d t r t' ->
    a' = mk_acc (a_sb a') q [] None 0 [] /\ forall s, s <> t' -> alike s (left_by G base (a_sb a')) d.
  Proof.
    intros t r t' a' I I' R. destruct (@given_by t r t' I R) as [_ [m [E C]]]. destruct (each _ _ I') as [j [_ [_ [_ [_ [_ [_ [_ W]]]]]]]]. apply (W m E). rewrite C. destruct (be_sane _ _ _ _ _ _ _ _ _ _ Be) as [S _]. apply (or_given _ _ _ _ (proj2 S t')).
  Qed.
  Lemma full_quiet : removed_quiet G base q l.
  Proof.
    intros t r t' a' I I' R. destruct (@removed_idle t r t' a' I I' R) as [-> Z]. cbn [a_priv a_sb] in *. split; [reflexivity|]. intros s. split; intros [D [X Y]]; pose proof (alike_has (Z s (not_eq_sym D))) as H; rewrite H in Y; contradiction.
  Qed.
  Definition recv_of (t : N) : N := sum (map j_recv (filter (fun j => j_id j =? t) jobs)).
  Lemma recv_job : forall j, In j jobs -> recv_of (j_id j) = j_recv j.
  Proof.
    intros j J. destruct (be_jobs _ _ _ _ _ _ _ _ _ _ Be) as [Nd _]. unfold recv_of. clear - J Nd. induction jobs as [|x js IH]; [contradiction|]. inversion Nd; subst. cbn [filter]. destruct J as [->|J].
    - rewrite N.eqb_refl. cbn [map sum]. assert (E : filter (fun k => j_id k =? j_id j) js = []); [|rewrite E; cbn [map sum]; lia].
      clear - H1. induction js as [|x js IH]; [reflexivity|]. cbn [filter]. cbn [map] in H1. destruct (N.eqb_spec (j_id x) (j_id j)) as [E|E]; [exfalso; apply H1; left; exact E | apply IH; intros X; apply H1; right; exact X].
    - destruct (N.eqb_spec (j_id x) (j_id j)) as [E|E]; [exfalso; apply H1; rewrite E; apply in_map, J | apply (IH J H2)].
  Qed.
  Lemma ran_recv : sum (map (fun x => recv_of (fst x)) l) <= sum (map j_recv jobs) /\ ((forall j, In j jobs -> In (j_id j, None) results -> j_recv j = 0) -> sum (map (fun x => recv_of (fst x)) l) = sum (map j_recv jobs)).
  Proof.
    pose proof recv_job as Rj. pose proof (be_results _ _ _ _ _ _ _ _ _ _ Be) as F. unfold results_of in F. unfold l. generalize recv_of Rj. intros rv Rv. clear - F Rv. induction F as [|j x js xs [E H] F IH]; [split; [cbn; lia | reflexivity]|].
    destruct IH as [A B]; [intros k K; apply Rv; right; exact K|]. unfold ran in *. cbn [flat_map]. rewrite map_app, sum_app. cbn [map sum]. destruct x as [t [a|]]; cbn [fst snd map sum] in *.
    - rewrite E, (Rv j (or_introl eq_refl)). split; [lia|]. intros N. rewrite B; [lia|]. intros k K X. apply N; right; assumption.
    - split; [lia|]. intros N. rewrite (N j (or_introl eq_refl)) by (left; rewrite E; reflexivity). rewrite B; [reflexivity|]. intros k K X. apply N; right; assumption.
  Qed.
  Definition out_of (x : N * acc_out) : N := sum (map t_amount (a_xfers (snd x))).
  Lemma sent_le : forall k, sum (map t_amount (sent metered k)) <= sum (map out_of k) /\ ((forall t a, In (t, a) k -> metered t = true \/ a_xfers a = []) -> sum (map t_amount (sent metered k)) = sum (map out_of k)).
  Proof.
    induction k as [|[t a] k [A B]]; [split; [cbn; lia | reflexivity]|]. unfold sent in *. cbn [flat_map fst snd]. rewrite map_app, sum_app. cbn [map sum]. unfold out_of at 1 3. cbn [snd]. split.
    - destruct (metered t); cbn [map sum]; lia.
    - intros M. rewrite B by (intros t0 a0 I; apply (M t0 a0); right; exact I). destruct (M t a (or_introl eq_refl)) as [X|X]; rewrite X; [reflexivity | destruct (metered t); reflexivity].
  Qed.
  Theorem round_full : exists o w, round G e metered base q results = Ok o /\
    (forall u, u = u_priv (o_union o) -> others_after q (changed l) u /\ confirmed u /\
       forall c a, nth_error (p_assign q) c = Some a ->
         (forall b, p_assign_bless (own (changed l) q (p_manager q)) = Some b -> nth_error b c = Some a -> a <> p_manager q -> assigner (own (changed l) q a) (N.of_nat c) = a) -> assigner_after q (changed l) u c a) /\
    sb_ok G ch' (u_sb (o_union o)) /\ merged d (worlds G base l) w /\ provided e (provs metered l) w (view G (u_sb (o_union o))) /\ sane e G (view G (u_sb (o_union o))) /\
    o_xfers o = sent metered l /\
    (forall v, holds d v -> exists v', holds (view G (u_sb (o_union o))) v' /\ v' + sum (map t_amount (o_xfers o)) <= v + sum (map j_recv jobs) /\
       ((forall j, In j jobs -> In (j_id j, None) results -> j_recv j = 0) -> (forall t a, In (t, a) l -> metered t = true \/ a_xfers a = []) -> (forall t r t' r', In (t, r) (worlds G base l) -> In (t', r') (worlds G base l) -> ~ removes d t r t') ->
        v' + sum (map t_amount (o_xfers o)) = v + sum (map j_recv jobs))).
  Proof.
    destruct ran_ids as [ids [Ei [Nd Ic]]]. pose proof Be as [B1 [B2 B2'] [B3 B3'] [B4 B5] B6 B7 B8 [B9 B10]].
    destruct (@round_ok G ch' e base q metered) with (results := results) as [o [u0 [E [Pu [Iv [Ob [[w [Mg [Pw Pd]]] [_ [_ Ex]]]]]]]]].
    - apply (@sb_ok_incl G ch); [intros x X; apply in_or_app; right; exact X | exact B1].
    - exact PG.
    - apply B2.
    - exact B3.
    - fold l. rewrite Ei. exact Nd.
    - intros t a I. destruct (each _ _ I) as [j [_ [_ [X [Y _]]]]]. split; assumption.
    - exact full_compatible.
    - exact full_quiet.
    - exact B8.
    - intros s i I. apply (B10 s i I).
    - exact B9.
    - fold l in Iv, Mg, Pd, Ex. fold d in Mg. exists o, w. split; [exact E|].
      assert (Fr : forall t p, In (t, p) (changed l) -> from q t p).
      { intros t p I. unfold changed in I. apply in_map_iff in I. destruct I as [[t0 a] [Z I]]. injection Z as <- <-. destruct (each _ _ I) as [j [_ [_ [_ [Y _]]]]]. exact Y. }
      assert (Nc : NoDup (map fst (changed l))) by (unfold changed; rewrite map_map; change (NoDup (map fst l)); rewrite Ei; exact Nd).
      destruct (@inv_end q (changed l) u0 B3 Nc Fr Iv) as [V1 V2].
      assert (Sw : sane e G w).
      { eapply merged_sane; [exact B2 | | exact Mg | exact Pw]. intros t r I. destruct (rs_in _ _ I) as [a [Ia ->]]. destruct (each _ _ Ia) as [j [_ [_ [_ [_ [_ [_ [Y _]]]]]]]]. exact Y. }
      assert (Sv : sane e G (view G (u_sb (o_union o)))).
      { split; [eapply provided_proper; [exact Pd | exact Pw]|]. intros s. eapply provided_orderly; [exact Pd | intros s0 i I; apply (B10 s0 i I) | apply Sw]. }
      split; [|split; [exact Ob|]; split; [exact Mg|]; split; [exact Pd|]; split; [exact Sv|]; split; [exact Ex|]].
      + intros u ->. rewrite Pu. split; [exact V1|]. split; [|exact V2].
        destruct V1 as [_ _ V3 V4 [V5 _] _ [V6 [V7 V8]]]. destruct B3 as [_ [_ [_ [_ L]]]]. unfold confirmed. split; [exact V7|]. split; [exact V8|]. split; [rewrite V3; reflexivity|]. split; [rewrite V4; reflexivity|]. rewrite V5, V6. exact L.
      + intros v Hv. assert (Ex' : o_xfers o = sent metered l) by exact Ex. rewrite Ex'. assert (Wf : map fst (worlds G base l) = map fst l) by (unfold worlds; rewrite map_map; reflexivity).
        set (rx := fun t => (recv_of t, sum (map t_amount (flat_map (fun x => if fst x =? t then a_xfers (snd x) else []) l)))).
        assert (Rx : forall t a, In (t, a) l -> snd (rx t) = out_of (t, a)).
        { intros t a I. unfold rx, out_of. cbn [snd]. f_equal. f_equal. clear - I Nd Ei. subst ids. induction l as [|[t0 a0] k IH]; [contradiction|]. cbn [flat_map fst snd map] in *. inversion Nd; subst. destruct I as [I|I].
          - inversion I; subst. rewrite N.eqb_refl. assert (Z : flat_map (fun x : N * acc_out => if fst x =? t then a_xfers (snd x) else []) k = []); [|rewrite Z; apply app_nil_r].
            clear - H1. induction k as [|[t0 a0] k IH]; [reflexivity|]. cbn [flat_map fst snd map] in *. destruct (N.eqb_spec t0 t) as [Z|Z]; [exfalso; apply H1; left; exact Z | apply IH; intros X; apply H1; right; exact X].
          - destruct (N.eqb_spec t0 t) as [->|Z]; [exfalso; apply H1; change t with (fst (t, a)); apply in_map, I | apply (IH H2 I)]. }
        destruct (@merged_conserves d (worlds G base l) w v rx) as [v' [Hw [Le Eq]]]; try assumption.
        * rewrite Wf, Ei. exact Nd.
        * intros t r I. destruct (rs_in _ _ I) as [a [Ia ->]]. destruct (each _ _ Ia) as [j [_ [_ [[_ _ [_ [_ Ht]] _] [_ [W _]]]]]]. split; assumption.
        * exact full_compatible.
        * intros t r t' r' I I' R. destruct (rs_in _ _ I') as [a' [Ia' ->]]. destruct (@removed_idle t r t' a' I Ia' R) as [Z1 Z2]. split; [rewrite (Rx t' a' Ia'); unfold out_of; cbn [snd]; rewrite Z1; reflexivity|].
          intros s. split; intros [D [X Y]]; pose proof (alike_has (Z2 s (not_eq_sym D))) as H; rewrite H in Y; contradiction.
        * intros t r I. destruct (rs_in _ _ I) as [a [Ia ->]]. destruct (each _ _ Ia) as [j [J [Ej [_ [_ [_ [W _]]]]]]]. destruct (W v Hv) as [v' [X Y]]. exists v'. split; [exact X|]. rewrite (Rx t a Ia). unfold rx, out_of. cbn [fst snd]. rewrite <- Ej, (recv_job j J). exact Y.
        * assert (S1 : sum (map (fun x => snd (rx (fst x))) (worlds G base l)) = sum (map out_of l)).
          { unfold worlds. rewrite map_map. cbn [fst]. f_equal. apply map_ext_in. intros [t a] I. cbn [fst]. apply (Rx t a I). }
          assert (S2 : sum (map (fun x => fst (rx (fst x))) (worlds G base l)) = sum (map (fun x => recv_of (fst x)) l)) by (unfold worlds; rewrite map_map; reflexivity).
          rewrite S1, S2 in Le, Eq. destruct ran_recv as [R1 R2]. destruct (sent_le l) as [T1 T2]. exists v'. split; [eapply provided_holds; [exact Pd | exact Hw]|]. split; [lia|].
          intros N1 N2 N3. rewrite (T2 N2), <- (R2 N1). apply Eq, N3.
  Qed.
End Full.
