From Verif Require Import Base Base_Proofs LVec_Model LVec_Proofs Queue_Model Queue_Spec.
From Coq Require Import Permutation Sorted.
Local Ltac Zify.zify_post_hook ::= Z.div_mod_to_equations.

(** * Lists *)
Lemma lastn_all : forall A n (l : list A), length l <= n -> lastn n l = l.
Proof. intros. unfold lastn. replace (length l - n) with 0 by lia. reflexivity. Qed.
Lemma lastn_length : forall A n (l : list A), length (lastn n l) = Nat.min n (length l).
Proof. intros. unfold lastn. rewrite skipn_length. lia. Qed.
Lemma skipn_skipn' : forall A x y (l : list A), skipn x (skipn y l) = skipn (y + x) l.
Proof. induction y as [|y IH]; intros [|a l]; cbn; auto using skipn_nil. Qed.
Lemma lastn_app_lastn : forall A n (l m : list A), lastn n (lastn n l ++ m) = lastn n (l ++ m).
Proof.
  intros. unfold lastn. rewrite !app_length, skipn_length.
  destruct (le_lt_dec (length l) n) as [Hl|Hl].
  - replace (length l - n) with 0 by lia. rewrite skipn_O. f_equal. lia.
  - rewrite !skipn_app, skipn_skipn', skipn_length. f_equal; f_equal; lia.
Qed.
Lemma position_spec : forall x l, match position x l with
  | Some i => i < length l /\ firstn i l ++ skipn (S i) l = remove_first x l
  | None => remove_first x l = l end.
Proof.
  induction l as [|y l IH]; cbn [position remove_first]; [reflexivity|].
  destruct (N.eqb_spec y x) as [->|Hn].
  - destruct (N.eq_dec x x); [|congruence]. split; [cbn; lia|reflexivity].
  - destruct (N.eq_dec y x); [congruence|]. destruct (position x l) as [i|]; cbn [option_map].
    + destruct IH as [H1 H2]. split; [cbn; lia|]. cbn [firstn skipn app]. f_equal. exact H2.
    + now rewrite IH.
Qed.
Lemma remove_first_length : forall x l, length (remove_first x l) <= length l.
Proof. induction l as [|y l IH]; cbn; [lia|]. destruct (N.eq_dec y x); cbn; lia. Qed.
Lemma shift_push_lastn : forall A P (v : list A) x, 0 < P -> length v <= P ->
  exists o, shift_push P v x = Ok (o, lastn P (v ++ [x])).
Proof.
  intros A P v x HP Hv. unfold shift_push. destruct (Nat.eqb_spec (length v) P) as [He|He].
  - destruct v as [|o v']; [cbn in He; lia|]. exists (Some o). unfold lastn. rewrite app_length. cbn [length] in *.
    replace (S (length v') + 1 - P) with 1 by lia. reflexivity.
  - exists None. rewrite lastn_all; [reflexivity|]. rewrite app_length. cbn. lia.
Qed.

(** * C19 *)
Lemma find_filter : forall A (f : A -> bool) l, find f l = match filter f l with x :: _ => Some x | [] => None end.
Proof. induction l as [|a l IH]; cbn; [reflexivity|]. destruct (f a); [reflexivity|exact IH]. Qed.
Lemma after_use_length : forall g c p, length (after_use g c p) <= length p.
Proof. intros. unfold after_use. destruct (filter _ g); [lia|apply remove_first_length]. Qed.
Lemma core_pool_step_spec : forall P Q g q slot core pool, 0 < P -> length pool <= P ->
  core_pool_step P Q g q slot core pool = Ok (lastn P (after_use g core pool ++ queue_entry Q q core slot)).
Proof.
  intros P Q g q slot core pool HP Hl. unfold core_pool_step.
  set (m := match option_map g_auth _ with Some _ => _ | None => _ end).
  assert (E1 : m = Ok (after_use g core pool)).
  { subst m. unfold after_use. rewrite find_filter. destruct (filter _ g) as [|a l]; [reflexivity|]. cbn [option_map].
    pose proof (position_spec (g_auth a) pool) as S. destruct (position (g_auth a) pool) as [i|].
    - destruct S as [Hi S]. unfold remove_at. destruct (nth_error pool i) eqn:En; [cbn [bind snd]; now rewrite S|].
      apply nth_error_None in En. lia.
    - now rewrite S. }
  rewrite E1. cbn [bind]. pose proof (after_use_length g core pool) as Ha. unfold queue_entry.
  destruct (nth_error q core) as [cq|]; [|rewrite app_nil_r, lastn_all by lia; reflexivity].
  destruct (nth_error cq (N.to_nat slot mod Q)) as [x|]; [|rewrite app_nil_r, lastn_all by lia; reflexivity].
  destruct (shift_push_lastn _ P (after_use g core pool) x HP) as [o ->]; [lia|]. reflexivity.
Qed.
Lemma pools_from_spec : forall P Q g q slot pools c, 0 < P -> Forall (fun p => length p <= P) pools ->
  exists pools', pools_from P Q g q slot c pools = Ok pools' /\ length pools' = length pools /\
    forall i p, nth_error pools i = Some p ->
      nth_error pools' i = Some (lastn P (after_use g (c + i) p ++ queue_entry Q q (c + i) slot)).
Proof.
  intros P Q g q slot. induction pools as [|p ps IH]; intros c HP HF.
  - exists []. repeat split. intros [|i] p; discriminate.
  - inversion HF; subst. cbn [pools_from]. rewrite core_pool_step_spec by assumption. cbn [bind].
    destruct (IH (S c) HP H2) as (ps' & -> & Hlen & Hnth). cbn [bind]. eexists. split; [reflexivity|]. split; [cbn; lia|].
    intros [|i] p0 E0; cbn [nth_error] in *; [inversion E0; subst; now rewrite Nat.add_0_r|]. rewrite (Hnth i p0 E0).
    replace (S c + i) with (c + S i) by lia. reflexivity.
Qed.
Lemma auth_pool_step : forall P Q g q slot pools, 0 < P -> (forall p, In p pools -> length p <= P) ->
  exists pools', transition_auth_pool P Q g q slot pools = Ok pools' /\ length pools' = length pools /\
    forall core p, nth_error pools core = Some p ->
      nth_error pools' core = Some (lastn P (after_use g core p ++ queue_entry Q q core slot)).
Proof. intros P Q g q slot pools HP HF. apply Forall_forall in HF. exact (pools_from_spec P Q g q slot pools 0 HP HF). Qed.
Lemma remove_first_incl : forall x l, incl (remove_first x l) l.
Proof. induction l as [|y l IH]; cbn; [intros z; auto|]. destruct (N.eq_dec y x); intros z Hz; [now right|]. destruct Hz; [now left|right; auto]. Qed.
Lemma lastn_incl : forall A n (l : list A), incl (lastn n l) l.
Proof. intros A n l x Hx. unfold lastn in Hx. rewrite <- (firstn_skipn (length l - n) l). apply in_or_app. now right. Qed.
Lemma pool_chain_spec : forall P Q pools0 bs pools, 0 < P -> (forall p, In p pools0 -> length p <= P) ->
  pool_chain P Q pools0 bs pools ->
  length pools = length pools0 /\ (forall p, In p pools -> length p <= P) /\
  forall core p x, nth_error pools core = Some p -> In x p ->
    (exists p0, nth_error pools0 core = Some p0 /\ In x p0) \/
    (exists g q slot, In (g, q, slot) bs /\ In x (queue_entry Q q core slot)).
Proof.
  intros P Q pools0 bs pools HP H0 C. induction C as [|bs pools g q slot pools' C IH T].
  - repeat split; auto. intros core p x Ep Hx. left. eauto.
  - destruct IH as (L & B & O). destruct (auth_pool_step P Q g q slot pools HP B) as (pools1 & T1 & L1 & S1).
    rewrite T in T1. inversion T1; subst pools1. clear T1.
    assert (Back : forall core p', nth_error pools' core = Some p' -> exists p, nth_error pools core = Some p /\
      p' = lastn P (after_use g core p ++ queue_entry Q q core slot)).
    { intros core p' E'. destruct (nth_error pools core) as [p|] eqn:Ep.
      - exists p. split; [reflexivity|]. rewrite (S1 core p Ep) in E'. now inversion E'.
      - apply nth_error_None in Ep. assert (nth_error pools' core <> None) by congruence. apply nth_error_Some in H. lia. }
    split; [lia|]. split.
    + intros p' Hp. apply In_nth_error in Hp. destruct Hp as [core Hp]. destruct (Back core p' Hp) as (p & _ & ->).
      rewrite lastn_length. lia.
    + intros core p' x Ep Hx. destruct (Back core p' Ep) as (p & Ep0 & ->). apply lastn_incl in Hx. apply in_app_or in Hx.
      destruct Hx as [Hx|Hx].
      * assert (Hxp : In x p).
        { unfold after_use in Hx. destruct (filter _ g); [assumption|]. now apply remove_first_incl in Hx. }
        destruct (O core p x Ep0 Hxp) as [A|(g1 & q1 & s1 & A & B1)]; [now left|]. right. exists g1, q1, s1.
        split; [apply in_or_app; now left|assumption].
      * right. exists g, q, slot. split; [apply in_or_app; right; now left|assumption].
Qed.

(** * Sets *)
Lemma mem_In : forall x l, mem x l = true <-> In x l.
Proof.
  intros x l. unfold mem. rewrite existsb_exists. split.
  - intros (y & Hy & E). apply N.eqb_eq in E. now subst.
  - intros Hx. exists x. split; [assumption|apply N.eqb_refl].
Qed.
Lemma mem_not_In : forall x l, mem x l = false <-> ~ In x l.
Proof. intros x l. rewrite <- mem_In. destruct (mem x l); split; congruence. Qed.
Lemma mem_dec : forall x l, negb (mem x l) = if in_dec N.eq_dec x l then false else true.
Proof.
  intros x l. destruct (in_dec N.eq_dec x l) as [H|H].
  - apply mem_In in H. now rewrite H.
  - apply mem_not_In in H. now rewrite H.
Qed.
Lemma bset_insert_In : forall x y l, In y (bset_insert x l) <-> y = x \/ In y l.
Proof.
  intros x y l. induction l as [|z l IH]; cbn; [intuition|]. destruct (N.compare_spec x z) as [->|?|?]; cbn; rewrite ?IH; intuition.
Qed.
Lemma bset_extend_In : forall xs l y, In y (bset_extend l xs) <-> In y l \/ In y xs.
Proof.
  unfold bset_extend. induction xs as [|x xs IH]; intros l y; cbn; [intuition|]. rewrite IH, bset_insert_In. intuition.
Qed.
Lemma bset_of_In : forall xs y, In y (bset_of xs) <-> In y xs.
Proof. intros. unfold bset_of. rewrite bset_extend_In. cbn. intuition. Qed.
Lemma history_union_In : forall h y, In y (history_union h) <-> In y (concat h).
Proof. intros. apply bset_of_In. Qed.
Lemma bset_extend_nil : forall xs l, bset_extend l xs = [] -> l = [] /\ xs = [].
Proof.
  intros xs l E. split.
  - destruct l as [|a l]; [reflexivity|]. assert (In a (bset_extend (a :: l) xs)) by (apply bset_extend_In; left; now left).
    rewrite E in H. destruct H.
  - destruct xs as [|a xs]; [reflexivity|]. assert (In a (bset_extend l (a :: xs))) by (apply bset_extend_In; right; now left).
    rewrite E in H. destruct H.
Qed.

(** * C20 *)
Lemma edit_queue_In : forall q news r ds', In (r, ds') (edit_queue q news) <->
  exists ds, In (r, ds) q /\ ~ In (rp_pkg r) news /\ ds' = filter (fun d => negb (mem d news)) ds.
Proof.
  intros q news r ds'. unfold edit_queue. rewrite in_map_iff. split.
  - intros ([r0 ds] & E & Hin). apply filter_In in Hin. cbn in *. inversion E; subst. destruct Hin as [Hin Hm].
    exists ds. apply negb_true_iff, mem_not_In in Hm. auto.
  - intros (ds & Hin & Hm & ->). exists (r, ds). split; [reflexivity|]. apply filter_In. split; [assumption|]. cbn.
    now apply negb_true_iff, mem_not_In.
Qed.
Lemma edit_filter_In : forall d news ds, In d (filter (fun d => negb (mem d news)) ds) <-> In d ds /\ ~ In d news.
Proof. intros. rewrite filter_In, negb_true_iff, mem_not_In. reflexivity. Qed.
Lemma edit_queue_length : forall q news, length (edit_queue q news) <= length q.
Proof. intros. unfold edit_queue. rewrite map_length. induction q as [|e q IH]; cbn; [lia|]. destruct (negb _); cbn; lia. Qed.
Lemma filter_length_lt : forall A (f : A -> bool) l, length (filter f l) + length (filter (fun x => negb (f x)) l) = length l.
Proof. induction l as [|a l IH]; cbn; [reflexivity|]. destruct (f a); cbn; lia. Qed.
Lemma extract_total : forall fuel q, length q < fuel -> exists l, extract_accumulatables fuel q = Some l.
Proof.
  induction fuel as [|fuel IH]; intros q Hl; [lia|]. cbn [extract_accumulatables].
  destruct (filter no_deps q) as [|e rs] eqn:Er; [eauto|].
  pose proof (filter_length_lt _ no_deps q) as L. rewrite Er in L. cbn [length] in L.
  match goal with |- context [edit_queue ?w ?n] => pose proof (edit_queue_length w n); destruct (IH (edit_queue w n)) as [l ->] end; [lia|eauto].
Qed.
Lemma no_deps_spec : forall e, no_deps e = true <-> snd e = [].
Proof. intros [r [|d ds]]; cbn; split; congruence. Qed.
Lemma app_split_cases : forall A (a b l1 l2 : list A) x, a ++ b = l1 ++ x :: l2 -> In x a \/ exists l1', l1 = a ++ l1' /\ b = l1' ++ x :: l2.
Proof.
  induction a as [|y a IH]; intros b l1 l2 x E; cbn in E.
  - right. exists l1. auto.
  - destruct l1 as [|z l1]; cbn in E.
    + injection E as -> _. left. now left.
    + injection E as -> E. destruct (IH _ _ _ _ E) as [H|(l1' & -> & ->)]; [left; now right|]. right. exists l1'. auto.
Qed.
Lemma app_split_left : forall A (a b l1 l2 : list A) x, a ++ b = l1 ++ x :: l2 ->
  (exists a2, a = l1 ++ x :: a2) \/ exists l1', l1 = a ++ l1' /\ b = l1' ++ x :: l2.
Proof.
  induction a as [|y a IH]; intros b l1 l2 x E; cbn in E.
  - right. exists l1. auto.
  - destruct l1 as [|z l1]; cbn in E.
    + injection E as -> _. left. now exists a.
    + injection E as -> E. destruct (IH _ _ _ _ E) as [[a2 ->]|(l1' & -> & ->)]; [left; now exists a2|]. right. exists l1'. auto.
Qed.
Lemma extract_sound : forall fuel q l, extract_accumulatables fuel q = Some l ->
  forall l1 r l2, l = l1 ++ r :: l2 -> exists ds, In (r, ds) q /\ incl ds (pkgs l1).
Proof.
  induction fuel as [|fuel IH]; intros q l E; [discriminate|]. cbn [extract_accumulatables] in E.
  destruct (filter no_deps q) as [|e rs] eqn:Er; [injection E as <-; intros [|] ? ?; discriminate|].
  rewrite <- Er in E. set (res := map fst (filter no_deps q)) in *. set (w := filter _ q) in E.
  destruct (extract_accumulatables fuel (edit_queue w (pkgs res))) as [l'|] eqn:El; [|discriminate]. injection E as <-.
  intros l1 r l2 E. destruct (app_split_cases _ _ _ _ _ _ E) as [Hin|(l1' & -> & E')].
  - subst res. apply in_map_iff in Hin. destruct Hin as ([r0 ds] & <- & Hin). apply filter_In in Hin. destruct Hin as [Hin Hn].
    apply no_deps_spec in Hn. cbn in *. subst ds. exists []. split; [assumption|]. intros x [].
  - destruct (IH _ _ El _ _ _ E') as (ds' & Hin & Hi). apply edit_queue_In in Hin. destruct Hin as (ds & Hin & _ & ->).
    exists ds. subst w. apply filter_In in Hin. split; [apply Hin|]. intros d Hd. unfold pkgs. rewrite map_app. apply in_or_app.
    destruct (in_dec N.eq_dec d (pkgs res)) as [H|H]; [now left|]. right. apply Hi, edit_filter_In. auto.
Qed.
Lemma extract_complete : forall fuel q l, extract_accumulatables fuel q = Some l ->
  forall r ds, In (r, ds) q -> In (rp_pkg r) (pkgs l) \/ exists d, In d ds /\ ~ In d (pkgs l).
Proof.
  induction fuel as [|fuel IH]; intros q l E; [discriminate|]. cbn [extract_accumulatables] in E.
  destruct (filter no_deps q) as [|e rs] eqn:Er.
  - injection E as <-. intros r ds Hin. right. destruct ds as [|d ds].
    + assert (In (r, []) (filter no_deps q)) by (apply filter_In; auto). rewrite Er in H. destruct H.
    + exists d. split; [now left|]. intros [].
  - rewrite <- Er in E. set (res := map fst (filter no_deps q)) in *. set (w := filter _ q) in E.
    destruct (extract_accumulatables fuel (edit_queue w (pkgs res))) as [l'|] eqn:El; [|discriminate]. injection E as <-.
    intros r ds Hin. unfold pkgs. rewrite map_app. fold (pkgs res) (pkgs l').
    destruct (no_deps (r, ds)) eqn:En.
    + left. apply in_or_app. left. unfold pkgs, res. apply in_map, in_map_iff. exists (r, ds). split; [reflexivity|]. apply filter_In. auto.
    + destruct (in_dec N.eq_dec (rp_pkg r) (pkgs res)) as [H|H]; [left; apply in_or_app; now left|].
      assert (Hw : In (r, filter (fun d => negb (mem d (pkgs res))) ds) (edit_queue w (pkgs res))).
      { apply edit_queue_In. exists ds. repeat split; auto. apply filter_In. rewrite En. auto. }
      destruct (IH _ _ El _ _ Hw) as [Hl|(d & Hd & Hn)]; [left; apply in_or_app; now right|].
      apply edit_filter_In in Hd. destruct Hd. right. exists d. split; [assumption|]. rewrite in_app_iff. intuition.
Qed.
Lemma pkgs_extract_incl : forall fuel q l, extract_accumulatables fuel q = Some l -> incl (pkgs l) (pkgs (map fst q)).
Proof.
  intros fuel q l E p Hp. unfold pkgs in Hp. apply in_map_iff in Hp. destruct Hp as (r & <- & Hr).
  apply in_split in Hr. destruct Hr as (l1 & l2 & ->). destruct (extract_sound _ _ _ E _ _ _ eq_refl) as (ds & Hin & _).
  unfold pkgs. apply in_map. now apply (in_map fst) in Hin.
Qed.
Lemma NoDup_map_filter : forall A B (g : A -> B) f (l : list A), NoDup (map g l) -> NoDup (map g (filter f l)).
Proof.
  induction l as [|a l IH]; intros ND; cbn in *; [constructor|]. inversion ND; subst. destruct (f a); cbn; [|auto].
  constructor; [|auto]. intros Hin. apply H1. apply in_map_iff in Hin. destruct Hin as (x & <- & Hx). apply in_map. now apply filter_In in Hx.
Qed.
Lemma NoDup_app_intro : forall A (l m : list A), NoDup l -> NoDup m -> (forall x, In x l -> ~ In x m) -> NoDup (l ++ m).
Proof.
  induction l as [|a l IH]; intros m Hl Hm D; cbn; [assumption|]. inversion Hl; subst. constructor.
  - rewrite in_app_iff. intros [H|H]; [contradiction|]. exact (D a (or_introl eq_refl) H).
  - apply IH; auto. intros x Hx. apply D. now right.
Qed.
Lemma NoDup_app_r : forall A (l m : list A), NoDup (l ++ m) -> NoDup m.
Proof. induction l; intros m ND; [assumption|]. inversion ND; auto. Qed.
Lemma NoDup_app_l : forall A (l m : list A), NoDup (l ++ m) -> NoDup l.
Proof. induction l as [|a l IH]; intros m ND; [constructor|]. inversion ND; subst. constructor; [|eauto]. intros H. apply H1, in_or_app. now left. Qed.
Lemma NoDup_app_disj : forall A (l m : list A), NoDup (l ++ m) -> forall x, In x l -> ~ In x m.
Proof.
  induction l as [|a l IH]; intros m ND x Hx; [destruct Hx|]. inversion ND; subst. destruct Hx as [->|Hx]; [|eauto].
  intros H. apply H1, in_or_app. now right.
Qed.
Lemma edit_queue_pkgs : forall q news, pkgs (map fst (edit_queue q news)) = pkgs (map fst (filter (fun e => negb (mem (rp_pkg (fst e)) news)) q)).
Proof. intros. unfold edit_queue, pkgs. rewrite !map_map. reflexivity. Qed.
Lemma edit_queue_NoDup : forall q news, NoDup (pkgs (map fst q)) -> NoDup (pkgs (map fst (edit_queue q news))).
Proof.
  intros q news ND. rewrite edit_queue_pkgs. unfold pkgs in *. rewrite map_map in *. now apply NoDup_map_filter.
Qed.
Lemma edit_queue_pkgs_In : forall q news p, In p (pkgs (map fst (edit_queue q news))) -> In p (pkgs (map fst q)) /\ ~ In p news.
Proof.
  intros q news p. unfold pkgs. rewrite !map_map, !in_map_iff. intros ([r ds] & <- & Hin). apply edit_queue_In in Hin.
  destruct Hin as (ds0 & Hin & Hn & _). cbn. split; [|assumption]. exists (r, ds0). auto.
Qed.
Lemma extract_NoDup : forall fuel q l, extract_accumulatables fuel q = Some l -> NoDup (pkgs (map fst q)) -> NoDup (pkgs l).
Proof.
  induction fuel as [|fuel IH]; intros q l E ND; [discriminate|]. cbn [extract_accumulatables] in E.
  destruct (filter no_deps q) as [|e rs] eqn:Er; [injection E as <-; constructor|].
  rewrite <- Er in E. set (res := map fst (filter no_deps q)) in *. set (w := filter _ q) in E.
  destruct (extract_accumulatables fuel (edit_queue w (pkgs res))) as [l'|] eqn:El; [|discriminate]. injection E as <-.
  unfold pkgs. rewrite map_app. fold (pkgs res) (pkgs l'). apply NoDup_app_intro.
  - unfold res, pkgs in *. rewrite map_map in *. now apply NoDup_map_filter.
  - apply (IH _ _ El). apply edit_queue_NoDup. unfold w, pkgs in *. rewrite map_map in *. now apply NoDup_map_filter.
  - intros p Hp Hl. apply (pkgs_extract_incl _ _ _ El) in Hl. apply edit_queue_pkgs_In in Hl. tauto.
Qed.

Lemma independent_spec : forall r, independent r = true <-> rp_pre r ++ rp_look r = [].
Proof. intros [p [|a pre] [|b look] i]; cbn; split; congruence. Qed.
Lemma independent_false : forall r, independent r = false <-> rp_pre r ++ rp_look r <> [].
Proof. intros r. rewrite <- independent_spec. destruct (independent r); split; congruence. Qed.
Lemma deps_In : forall r d, In d (snd (work_report_deps r)) <-> In d (rp_pre r ++ rp_look r).
Proof. intros r d. cbn. rewrite bset_extend_In, bset_of_In, in_app_iff. reflexivity. Qed.

(** What collect returns. *)
Definition new_entries (available : list report) (hist : list (list N)) : list entry :=
  extract_queued_reports (filter (fun r => negb (independent r)) available) (history_union hist).
Lemma collect_inv : forall E available queue hist slot acc newq,
  collect_accumulatable_reports E available queue hist slot = Ok (acc, newq) ->
  newq = new_entries available hist /\ N.to_nat (slot mod E) <= length queue /\
  exists l, acc = filter independent available ++ l /\
    let m := N.to_nat (slot mod E) in
    let q := edit_queue (concat (skipn m queue ++ firstn m queue) ++ newq) (pkgs (filter independent available)) in
    extract_accumulatables (S (length q)) q = Some l.
Proof.
  intros E available queue hist slot acc newq. unfold collect_accumulatable_reports, partition_reports_by_deps, rotate_left.
  destruct (Nat.leb_spec (N.to_nat (slot mod E)) (length queue)) as [Hl|Hl]; [|discriminate].
  cbn [bind]. intros Ex. fold (new_entries available hist) in Ex.
  match type of Ex with match ?m with _ => _ end = _ => destruct m as [l|] eqn:El; [|discriminate] end.
  injection Ex as <- <-. repeat split; auto. exists l. auto.
Qed.
Lemma collect_ok : forall E available queue hist slot, N.to_nat (slot mod E) <= length queue ->
  exists acc newq, collect_accumulatable_reports E available queue hist slot = Ok (acc, newq).
Proof.
  intros E available queue hist slot Hl. unfold collect_accumulatable_reports, partition_reports_by_deps, rotate_left.
  apply Nat.leb_le in Hl. rewrite Hl. cbn [bind].
  match goal with |- context [extract_accumulatables (S (length ?q)) ?q] => destruct (extract_total (S (length q)) q (Nat.lt_succ_diag_r _)) as [l ->] end.
  eauto.
Qed.
Lemma rotated_In : forall A m (l : list (list A)) x, In x (concat (skipn m l ++ firstn m l)) <-> In x (concat l).
Proof.
  intros A m l x. rewrite <- (firstn_skipn m l) at 3. rewrite !concat_app, !in_app_iff. tauto.
Qed.
Lemma new_entries_In : forall available hist r ds, In (r, ds) (new_entries available hist) ->
  In r available /\ rp_pre r ++ rp_look r <> [] /\ ~ In (rp_pkg r) (concat hist) /\
  (forall d, In d ds <-> In d (rp_pre r ++ rp_look r) /\ ~ In d (concat hist)).
Proof.
  intros available hist r ds Hin. unfold new_entries, extract_queued_reports in Hin. apply edit_queue_In in Hin.
  destruct Hin as (ds0 & Hin & Hn & ->). apply in_map_iff in Hin. destruct Hin as (r0 & E & Hin). 
  assert (Er : r0 = r) by (now inversion E). subst r0. apply filter_In in Hin. destruct Hin as [Hin Hi].
  apply negb_true_iff, independent_false in Hi. repeat split; auto.
  - intros Hc. apply Hn. now apply history_union_In.
  - apply edit_filter_In in H. destruct H as [Hd _]. apply deps_In. rewrite E. exact Hd.
  - apply edit_filter_In in H. destruct H as [_ Hd]. intros Hc. apply Hd. now apply history_union_In.
  - intros [Hd Hc]. apply edit_filter_In. split; [|now rewrite history_union_In]. apply deps_In in Hd. now rewrite E in Hd.
Qed.
Lemma new_entries_exist : forall available hist r, In r available -> rp_pre r ++ rp_look r <> [] -> ~ In (rp_pkg r) (concat hist) ->
  exists ds, In (r, ds) (new_entries available hist).
Proof.
  intros available hist r Hin Hd Hn. eexists. unfold new_entries, extract_queued_reports. apply edit_queue_In. eexists. repeat split.
  - apply in_map_iff. exists r. split; [reflexivity|]. apply filter_In. split; [assumption|]. now apply negb_true_iff, independent_false.
  - now rewrite history_union_In.
Qed.
Lemma waiting_In : forall available queue hist m r ds,
  In (r, ds) (concat (skipn m queue ++ firstn m queue) ++ new_entries available hist) -> waiting available queue hist r ds.
Proof.
  intros available queue hist m r ds Hin. apply in_app_or in Hin. destruct Hin as [Hin|Hin].
  - rewrite rotated_In in Hin. apply in_concat in Hin. destruct Hin as (se & A & B). eapply w_queued; eauto.
  - apply new_entries_In in Hin. destruct Hin as (A & B & C & D). now apply w_new.
Qed.

Lemma collect_order : forall E available queue hist slot acc newq,
  collect_accumulatable_reports E available queue hist slot = Ok (acc, newq) ->
  forall l1 r l2, acc = l1 ++ r :: l2 ->
    (In r available /\ rp_pre r ++ rp_look r = []) \/
    (exists ds, waiting available queue hist r ds /\ forall d, In d ds -> In d (pkgs l1)).
Proof.
  intros E available queue hist slot acc newq C l1 r l2 Es. destruct (collect_inv _ _ _ _ _ _ _ C) as (-> & _ & l & -> & Ex).
  cbv zeta in Ex. destruct (app_split_cases _ _ _ _ _ _ Es) as [Hin|(l1' & -> & E')].
  - left. apply filter_In in Hin. destruct Hin as [Hin Hi]. split; [assumption|]. now apply independent_spec.
  - right. destruct (extract_sound _ _ _ Ex _ _ _ E') as (ds' & Hin & Hi). apply edit_queue_In in Hin.
    destruct Hin as (ds & Hin & Hn & ->). exists ds. split; [eapply waiting_In; eauto|]. intros d Hd. unfold pkgs. rewrite map_app.
    apply in_or_app. destruct (in_dec N.eq_dec d (pkgs (filter independent available))) as [H|H]; [now left|]. right.
    apply Hi, edit_filter_In. auto.
Qed.
Lemma collect_complete : forall E available queue hist slot acc newq,
  collect_accumulatable_reports E available queue hist slot = Ok (acc, newq) ->
  (forall r, In r available -> rp_pre r ++ rp_look r = [] -> In r acc) /\
  (forall se r ds, In se queue -> In (r, ds) se -> In (rp_pkg r) (pkgs acc) \/ exists d, In d ds /\ ~ In d (pkgs acc)) /\
  (forall r, In r available -> rp_pre r ++ rp_look r <> [] -> ~ In (rp_pkg r) (concat hist) ->
     In (rp_pkg r) (pkgs acc) \/ exists d, In d (rp_pre r ++ rp_look r) /\ ~ In d (concat hist) /\ ~ In d (pkgs acc)).
Proof.
  intros E available queue hist slot acc newq C. destruct (collect_inv _ _ _ _ _ _ _ C) as (-> & _ & l & -> & Ex). cbv zeta in Ex.
  assert (K : forall r ds, In (r, ds) (concat (skipn (N.to_nat (slot mod E)) queue ++ firstn (N.to_nat (slot mod E)) queue) ++ new_entries available hist) ->
    In (rp_pkg r) (pkgs (filter independent available ++ l)) \/ exists d, In d ds /\ ~ In d (pkgs (filter independent available ++ l))).
  { intros r ds Hin. unfold pkgs. rewrite map_app. fold (pkgs (filter independent available)) (pkgs l).
    destruct (in_dec N.eq_dec (rp_pkg r) (pkgs (filter independent available))) as [H|H]; [left; apply in_or_app; now left|].
    assert (Hq : In (r, filter (fun d => negb (mem d (pkgs (filter independent available)))) ds)
                   (edit_queue (concat (skipn (N.to_nat (slot mod E)) queue ++ firstn (N.to_nat (slot mod E)) queue) ++ new_entries available hist)
                      (pkgs (filter independent available)))) by (apply edit_queue_In; exists ds; auto).
    destruct (extract_complete _ _ _ Ex _ _ Hq) as [Hl|(d & Hd & Hn)]; [left; apply in_or_app; now right|].
    apply edit_filter_In in Hd. destruct Hd. right. exists d. split; [assumption|]. rewrite in_app_iff. intuition. }
  split; [|split].
  - intros r Hin Hd. apply in_or_app. left. apply filter_In. split; [assumption|]. now apply independent_spec.
  - intros se r ds Hse Hin. apply K. apply in_or_app. left. apply rotated_In, in_concat. eauto.
  - intros r Hin Hd Hn. destruct (new_entries_exist _ _ _ Hin Hd Hn) as [ds Hds].
    destruct (K r ds) as [H|(d & Hd1 & Hd2)]; [apply in_or_app; now right|now left|]. right. exists d.
    apply new_entries_In in Hds. destruct Hds as (_ & _ & _ & Hds). apply Hds in Hd1. tauto.
Qed.
Lemma NoDup_rotated : forall m (q : list (list entry)),
  NoDup (pkgs (map fst (concat q))) -> NoDup (pkgs (map fst (concat (skipn m q ++ firstn m q)))).
Proof.
  intros m q. unfold pkgs. rewrite <- (firstn_skipn m q) at 1. rewrite !concat_app, !map_app.
  intros ND. eapply Permutation_NoDup; [|exact ND]. apply Permutation_app_comm.
Qed.
Lemma collect_NoDup : forall E available queue hist slot acc newq,
  collect_accumulatable_reports E available queue hist slot = Ok (acc, newq) ->
  NoDup (pkgs available ++ pkgs (map fst (concat queue))) -> NoDup (pkgs acc).
Proof.
  intros E available queue hist slot acc newq C ND. destruct (collect_inv _ _ _ _ _ _ _ C) as (-> & _ & l & -> & Ex). cbv zeta in Ex.
  assert (NA : NoDup (pkgs available)) by (eapply NoDup_app_l; eauto).
  assert (NQ : NoDup (pkgs (map fst (concat queue)))) by (eapply NoDup_app_r; eauto).
  assert (D : forall p, In p (pkgs available) -> ~ In p (pkgs (map fst (concat queue)))).
  { apply NoDup_app_disj. exact ND. }
  unfold pkgs. rewrite map_app. fold (pkgs (filter independent available)) (pkgs l). apply NoDup_app_intro.
  - unfold pkgs in *. now apply NoDup_map_filter.
  - apply (extract_NoDup _ _ _ Ex). apply edit_queue_NoDup. unfold pkgs. rewrite !map_app. fold (pkgs (map fst (new_entries available hist))).
    apply NoDup_app_intro.
    + exact (NoDup_rotated _ _ NQ).
    + unfold new_entries, extract_queued_reports. apply edit_queue_NoDup. unfold pkgs. rewrite !map_map. cbn [work_report_deps fst].
      now apply NoDup_map_filter.
    + intros p Hp Hn.
      assert (Hq : In p (pkgs (map fst (concat queue)))).
      { unfold pkgs in *. rewrite map_map in *. apply in_map_iff in Hp. destruct Hp as (e & <- & He). apply in_map_iff. exists e.
        split; [reflexivity|]. now apply rotated_In in He. }
      revert Hq. apply D. unfold pkgs in Hn. rewrite map_map in Hn. apply in_map_iff in Hn. destruct Hn as ([r ds] & <- & Hr).
      apply new_entries_In in Hr. cbn. apply in_map. tauto.
  - intros p Hp Hl. apply (pkgs_extract_incl _ _ _ Ex) in Hl. apply edit_queue_pkgs_In in Hl. tauto.
Qed.

(** * C21 *)
Lemma set_nth_length : forall A i (x : A) l, i < length l -> length (set_nth i x l) = length l.
Proof. intros. unfold set_nth. rewrite app_length, firstn_length. cbn [length]. rewrite skipn_length. lia. Qed.
Lemma nth_set_nth : forall A i j (x d : A) l, i < length l -> nth j (set_nth i x l) d = if Nat.eq_dec j i then x else nth j l d.
Proof.
  unfold set_nth. induction i as [|i IH]; intros j x d [|a l] Hl; cbn in Hl; try lia.
  - destruct j; reflexivity.
  - destruct j as [|j]; [reflexivity|]. change (nth j (firstn i l ++ x :: skipn (S i) l) d = if Nat.eq_dec (S j) (S i) then x else nth j l d).
    rewrite IH by lia. destruct (Nat.eq_dec j i), (Nat.eq_dec (S j) (S i)); congruence.
Qed.
Lemma fold_set_nth : forall (g : list entry -> list entry) (idx : nat -> nat) is q,
  NoDup (map idx is) -> (forall i, In i is -> idx i < length q) ->
  let q' := fold_left (fun q i => set_nth (idx i) (g (nth (idx i) q [])) q) is q in
  length q' = length q /\
  (forall i, In i is -> nth (idx i) q' [] = g (nth (idx i) q [])) /\
  (forall j, ~ In j (map idx is) -> nth j q' [] = nth j q []).
Proof.
  intros g idx. induction is as [|i is IH]; intros q ND HL; cbn [fold_left map] in *.
  - repeat split; auto. intros i [].
  - inversion ND; subst. assert (Hi : idx i < length q) by (apply HL; now left).
    destruct (IH (set_nth (idx i) (g (nth (idx i) q [])) q) H2) as (L & S1 & S2).
    { intros i0 Hi0. rewrite set_nth_length by assumption. apply HL. now right. }
    rewrite set_nth_length in L by assumption. split; [exact L|]. split.
    + intros i0 [<-|Hi0].
      * rewrite S2 by assumption. rewrite nth_set_nth by assumption. now destruct (Nat.eq_dec (idx i) (idx i)).
      * rewrite (S1 i0 Hi0). rewrite nth_set_nth by assumption. destruct (Nat.eq_dec (idx i0) (idx i)) as [Eq|]; [|reflexivity].
        exfalso. apply H1. rewrite <- Eq. now apply in_map.
    + intros j Hj. rewrite S2 by (intros X; apply Hj; now right). rewrite nth_set_nth by assumption.
      destruct (Nat.eq_dec j (idx i)) as [->|]; [|reflexivity]. exfalso. apply Hj. now left.
Qed.
Lemma circ_shift : forall E t i, (0 < E)%N -> circular E (Z.of_N (t mod E) - Z.of_nat i) = circular E (Z.of_N t - Z.of_nat i).
Proof.
  intros E t i HE. unfold circular. f_equal. rewrite N2Z.inj_mod. rewrite Zminus_mod_idemp_l. reflexivity.
Qed.
Lemma circ_inj : forall E x y, (0 < E)%N -> (Z.abs (x - y) < Z.of_N E)%Z -> circular E x = circular E y -> x = y.
Proof.
  intros E x y HE Hd Hc. unfold circular in Hc.
  pose proof (Z.mod_pos_bound x (Z.of_N E)) as Bx. pose proof (Z.mod_pos_bound y (Z.of_N E)) as By.
  assert (Em : (x mod Z.of_N E = y mod Z.of_N E)%Z) by lia. clear Hc.
  pose proof (Z.div_mod x (Z.of_N E)) as Dx. pose proof (Z.div_mod y (Z.of_N E)) as Dy.
  assert (Q : (x - y = Z.of_N E * (x / Z.of_N E - y / Z.of_N E))%Z) by lia.
  assert (x / Z.of_N E = y / Z.of_N E)%Z by nia. lia.
Qed.
Lemma circ_lt : forall E x, (0 < E)%N -> circular E x < N.to_nat E.
Proof. intros E x HE. unfold circular. pose proof (Z.mod_pos_bound x (Z.of_N E)). lia. Qed.
Lemma map_circ_NoDup : forall E t a n, (0 < E)%N -> a + n <= N.to_nat E ->
  NoDup (map (fun i => circular E (Z.of_N (t mod E) - Z.of_nat i)) (seq a n)).
Proof.
  intros E t a n HE. revert a. induction n as [|n IH]; intros a Hl; cbn; [constructor|]. constructor; [|apply IH; lia].
  intros Hin. apply in_map_iff in Hin. destruct Hin as (i & Eq & Hi). apply in_seq in Hi. apply circ_inj in Eq; lia.
Qed.
Lemma without_edit : forall acc es, without acc es (edit_queue es acc).
Proof.
  intros acc es. eexists. split; [|reflexivity]. unfold edit_queue.
  rewrite (filter_ext (fun e => negb (mem (rp_pkg (fst e)) acc)) (fun e => if in_dec N.eq_dec (rp_pkg (fst e)) acc then false else true))
    by (intros; apply mem_dec).
  apply map_ext. intros e. f_equal. apply filter_ext. intros; apply mem_dec.
Qed.
Lemma queue_step : forall E queued prior curr h acc queue queue', (0 < E)%N -> (prior < curr)%N ->
  transition_accumulate_queue E queued prior curr (h ++ [acc]) queue = Ok queue' ->
  N.of_nat (length queue) = E /\ N.of_nat (length queue') = E /\
  forall x : Z, (Z.of_N curr - Z.of_N E < x <= Z.of_N curr)%Z ->
    entry_at E queue' x = if Z.eq_dec x (Z.of_N curr) then edit_queue queued acc
                          else if Z_lt_dec (Z.of_N prior) x then [] else edit_queue (entry_at E queue x) acc.
Proof.
  intros E queued prior curr h acc queue queue' HE Hlt T. unfold transition_accumulate_queue in T. rewrite rev_unit in T.
  destruct (N.ltb_spec curr prior); [lia|]. destruct (N.eqb_spec (N.of_nat (length queue)) E) as [HL|]; [|discriminate].
  cbn [negb] in T. injection T as T. split; [assumption|].
  set (sk := N.to_nat (N.min (curr - prior) E)) in T.
  assert (Hsk : 1 <= sk <= N.to_nat E) by (subst sk; lia).
  assert (Hskm : sk = N.to_nat (N.min (curr - prior) E)) by reflexivity. clearbody sk.
  set (idx := fun i => circular E (Z.of_N (curr mod E) - Z.of_nat i)) in *.
  assert (Hidx : forall i, idx i < length queue) by (intros i; pose proof (circ_lt E (Z.of_N (curr mod E) - Z.of_nat i) HE); unfold idx; lia).
  change (fold_left (fun q i => set_nth (circular E (Z.of_N (curr mod E) - Z.of_nat i)) [] q) (seq 1 (sk - 1)) queue)
    with (fold_left (fun q i => set_nth (idx i) ((fun _ => []) (nth (idx i) q [])) q) (seq 1 (sk - 1)) queue) in T.
  destruct (fold_set_nth (fun _ => []) idx (seq 1 (sk - 1)) queue (map_circ_NoDup E curr 1 (sk - 1) HE ltac:(lia)) (fun i _ => Hidx i)) as (L1 & A1 & B1).
  set (q1 := fold_left _ (seq 1 (sk - 1)) queue) in *. clearbody q1.
  change (fold_left (fun q i => let k := circular E (Z.of_N (curr mod E) - Z.of_nat i) in set_nth k (edit_queue (nth k q []) acc) q) (seq sk (N.to_nat E - sk)) q1)
    with (fold_left (fun q i => set_nth (idx i) ((fun es => edit_queue es acc) (nth (idx i) q [])) q) (seq sk (N.to_nat E - sk)) q1) in T.
  destruct (fold_set_nth (fun es => edit_queue es acc) idx (seq sk (N.to_nat E - sk)) q1 (map_circ_NoDup E curr sk (N.to_nat E - sk) HE ltac:(lia))) as (L2 & A2 & B2).
  { intros i _. rewrite L1. apply Hidx. }
  set (q2 := fold_left _ (seq sk (N.to_nat E - sk)) q1) in *. clearbody q2.
  assert (E0 : circular E (Z.of_N (curr mod E)) = idx 0) by (unfold idx; f_equal; lia). rewrite E0 in T.
  assert (Hl0 : idx 0 < length q2) by (rewrite L2, L1; apply Hidx).
  assert (Inj : forall i j, i < N.to_nat E -> j < N.to_nat E -> idx i = idx j -> i = j).
  { intros i j Hi Hj Eq. unfold idx in Eq. apply circ_inj in Eq; lia. }
  split; [rewrite <- T, set_nth_length by assumption; lia|].
  intros x Hx. set (i := Z.to_nat (Z.of_N curr - x)). assert (Hi : i < N.to_nat E) by (subst i; lia).
  assert (Ex : Z.to_nat (x mod Z.of_N E) = idx i).
  { unfold idx. rewrite circ_shift by assumption. unfold circular, i. f_equal. f_equal. lia. }
  unfold entry_at. rewrite Ex, <- T, nth_set_nth by assumption.
  destruct (Nat.eq_dec (idx i) (idx 0)) as [Eq|Ne].
  - apply Inj in Eq; [|lia|lia]. destruct (Z.eq_dec x (Z.of_N curr)); [reflexivity|lia].
  - destruct (Z.eq_dec x (Z.of_N curr)) as [->|Nx]; [exfalso; apply Ne; f_equal; lia|].
    destruct (Z_lt_dec (Z.of_N prior) x) as [Hp|Hp].
    + rewrite B2.
      * rewrite A1; [reflexivity|]. apply in_seq. lia.
      * intros Hin. apply in_map_iff in Hin. destruct Hin as (k & Ek & Hk). apply in_seq in Hk. apply Inj in Ek; lia.
    + rewrite A2 by (apply in_seq; lia). f_equal. apply B1. intros Hin. apply in_map_iff in Hin.
      destruct Hin as (k & Ek & Hk). apply in_seq in Hk. apply Inj in Ek; lia.
Qed.
Lemma content_snoc : forall x es log es1 t queued acc, content x es log es1 ->
  (Z.of_N t <> x -> content x es (log ++ [(t, queued, acc)]) (edit_queue es1 acc)) /\
  (Z.of_N t = x -> content x es (log ++ [(t, queued, acc)]) (edit_queue queued acc)).
Proof.
  intros x es log es1 t queued acc C. induction C as [es|es es1 es' t0 queued0 acc0 log Hne W C IH|es es1 es' t0 queued0 acc0 log He W C IH]; cbn [app].
  - split; intros H; [eapply co_other|eapply co_self]; eauto using without_edit, co_nil.
  - destruct IH as [I1 I2]. split; intros H; (eapply co_other; [assumption|exact W|]); auto.
  - destruct IH as [I1 I2]. split; intros H; (eapply co_self; [assumption|exact W|]); auto.
Qed.
Lemma qchain_slots : forall E t0 q0 log t q, qchain E t0 q0 log t q -> (t0 <= t)%N /\ forall t1 qd acc, In (t1, qd, acc) log -> (t1 <= t)%N.
Proof.
  intros E t0 q0 log t q C. induction C as [|log t q t' queued h acc q' C IH Hlt T]; [split; [lia|intros ? ? ? []]|].
  destruct IH as [I1 I2]. split; [lia|]. intros t1 qd acc1 Hin. apply in_app_or in Hin.
  destruct Hin as [Hin|[[= <- <- <-]|[]]]; [apply I2 in Hin; lia|lia].
Qed.
Lemma content_fresh : forall x log t, (forall t1 qd acc, In (t1, qd, acc) log -> (t1 <= t)%N) -> (Z.of_N t < x)%Z -> content x [] log [].
Proof.
  intros x log t. induction log as [|[[t1 qd] acc] log IH]; intros Hl Hx; [apply co_nil|].
  eapply co_other; [|apply without_edit|].
  - specialize (Hl t1 qd acc (or_introl eq_refl)). lia.
  - apply IH; [|assumption]. intros. eapply Hl. right. eauto.
Qed.
Lemma qchain_content : forall E t0 q0 log t q, (0 < E)%N -> N.of_nat (length q0) = E -> qchain E t0 q0 log t q ->
  N.of_nat (length q) = E /\
  forall x : Z, (Z.of_N t - Z.of_N E < x <= Z.of_N t)%Z ->
    content x (if Z_le_dec x (Z.of_N t0) then entry_at E q0 x else []) log (entry_at E q x).
Proof.
  intros E t0 q0 log t q HE HL C. induction C as [|log t q t' queued h acc q' C IH Hlt T].
  - split; [assumption|]. intros x Hx. destruct (Z_le_dec x (Z.of_N t0)); [apply co_nil|lia].
  - destruct IH as [L IH]. destruct (qchain_slots _ _ _ _ _ _ C) as [H0 Hlog].
    destruct (queue_step _ _ _ _ _ _ _ _ HE Hlt T) as (_ & L' & S). split; [assumption|].
    intros x Hx. rewrite (S x Hx). destruct (Z.eq_dec x (Z.of_N t')) as [->|Nx].
    + destruct (Z_le_dec (Z.of_N t') (Z.of_N t0)); [lia|].
      apply (content_snoc (Z.of_N t') [] log [] t' queued acc); [|reflexivity]. eapply content_fresh; [exact Hlog|lia].
    + destruct (Z_lt_dec (Z.of_N t) x) as [Hp|Hp].
      * destruct (Z_le_dec x (Z.of_N t0)); [lia|].
        change (@nil entry) with (edit_queue [] acc) at 2. apply (content_snoc x [] log [] t' queued acc); [|lia].
        eapply content_fresh; [exact Hlog|lia].
      * apply (content_snoc x _ log (entry_at E q x) t' queued acc); [|lia]. apply IH. lia.
Qed.

(** * C22 *)
Lemma history_add_spec : forall E h x, (0 < E)%N -> N.of_nat (length h) = E ->
  history_add E h x = Ok (lastn (N.to_nat E) (h ++ [x])).
Proof.
  intros E h x HE HL. unfold history_add, rotate_left. destruct (Nat.leb_spec 1 (length h)); [|lia]. cbn [bind].
  destruct h as [|a h]; [cbn in HL; lia|]. cbn [skipn firstn]. rewrite app_length. cbn [length].
  destruct (N.ltb_spec (N.of_nat (length h + 1)) E); [cbn [length] in HL; lia|].
  f_equal. unfold set_nth, lastn. cbn [length] in HL. replace (N.to_nat (E - 1)) with (length h) by lia.
  rewrite firstn_app_exact. rewrite skipn_all2 by (rewrite app_length; cbn; lia). rewrite app_length. cbn [length app].
  replace (S (length h) + 1 - N.to_nat E) with 1 by lia. reflexivity.
Qed.
Fixpoint history_adds (E : N) (h : list (list N)) (xs : list (list N)) : result unit (list (list N)) :=
  match xs with [] => Ok h | x :: xs' => let! h' := history_add E h x in history_adds E h' xs' end.
Lemma history_adds_spec : forall E xs h, (0 < E)%N -> N.of_nat (length h) = E ->
  history_adds E h xs = Ok (lastn (N.to_nat E) (h ++ xs)).
Proof.
  intros E xs h HE. revert h. induction xs as [|x xs IH]; intros h HL; cbn [history_adds].
  - rewrite app_nil_r, lastn_all; [reflexivity|lia].
  - rewrite history_add_spec by assumption. cbn [bind]. rewrite IH.
    + rewrite lastn_app_lastn, <- app_assoc. reflexivity.
    + rewrite lastn_length, app_length. lia.
Qed.

(** * Chains *)
Lemma bind_ok' : forall E A B (r : result E A) (f : A -> result E B) b, bind r f = Ok b -> exists a, r = Ok a /\ f a = Ok b.
Proof. intros E A B [a|e|] f b; cbn; intros H; try discriminate. eauto. Qed.
Lemma lift_ok : forall A (r : result unit A) a, lift r = Ok a -> r = Ok a.
Proof. intros A [a0|e|] a; cbn; intros H; inversion H; reflexivity. Qed.
Definition wf_state (E : N) (s : astate) : Prop := N.of_nat (length (as_queue s)) = E /\ N.of_nat (length (as_hist s)) = E.
Lemma astep_inv : forall E s b s' acc, (0 < E)%N -> wf_state E s -> astep E s b = Ok (s', acc) ->
  exists full newq, collect_accumulatable_reports E (ab_available b) (as_queue s) (as_hist s) (ab_slot b) = Ok (full, newq) /\
    acc = firstn (ab_count b) full /\ ab_count b <= length full /\
    as_hist s' = lastn (N.to_nat E) (as_hist s ++ [bset_of (pkgs acc)]) /\ as_slot s' = ab_slot b /\
    exists h0, transition_accumulate_queue E newq (as_slot s) (ab_slot b) (h0 ++ [bset_of (pkgs acc)]) (as_queue s) = Ok (as_queue s').
Proof.
  intros E s b s' acc HE [WQ WH] A. unfold astep in A. apply bind_ok' in A. destruct A as ([full newq] & C & A).
  apply lift_ok in C. apply bind_ok' in A. destruct A as (h' & Hh & A). apply bind_ok' in A. destruct A as (q' & Hq & A).
  injection A as <- <-. cbn [fst snd] in *. unfold transition_accumulate_history in Hh.
  destruct (Nat.ltb_spec (length full) (ab_count b)); [discriminate|]. rewrite history_add_spec in Hh by assumption.
  cbn in Hh. injection Hh as <-. exists full, newq. cbn [as_hist as_slot as_queue]. repeat split; auto.
  destruct (as_hist s) as [|a h]; [cbn in WH; lia|].
  exists h. unfold lastn in Hq. cbn [app] in Hq. rewrite <- app_comm_cons in Hq || idtac. cbn [length] in Hq, WH.
  rewrite app_length in Hq. cbn [length] in Hq.
  replace (S (length h + 1) - N.to_nat E) with 1 in Hq by lia. exact Hq.
Qed.
Lemma In_nth_entry : forall (q : list (list entry)) e, In e (concat q) <-> exists j, j < length q /\ In e (nth j q []).
Proof.
  intros q e. rewrite in_concat. split.
  - intros (se & H & He). apply (In_nth _ _ []) in H. destruct H as (j & Hj & <-). eauto.
  - intros (j & Hj & He). exists (nth j q []). split; [now apply nth_In|assumption].
Qed.
(** Every index of the ring is the place of exactly one slot of the window ending at [t]. *)
Lemma ring_index : forall E t j, (0 < E)%N -> j < N.to_nat E ->
  exists x, (Z.of_N t - Z.of_N E < x <= Z.of_N t)%Z /\ Z.to_nat (x mod Z.of_N E) = j.
Proof.
  intros E t j HE Hj. exists (Z.of_N t - (Z.of_N t - Z.of_nat j) mod Z.of_N E)%Z.
  pose proof (Z.mod_pos_bound (Z.of_N t - Z.of_nat j) (Z.of_N E)) as B. split; [lia|].
  rewrite Zminus_mod_idemp_r. replace (Z.of_N t - (Z.of_N t - Z.of_nat j))%Z with (Z.of_nat j) by lia.
  rewrite Z.mod_small by lia. lia.
Qed.
Lemma queue_entries_from : forall E queued prior curr h acc queue queue', (0 < E)%N -> (prior < curr)%N ->
  transition_accumulate_queue E queued prior curr (h ++ [acc]) queue = Ok queue' ->
  forall r ds', In (r, ds') (concat queue') ->
    exists ds, (In (r, ds) queued \/ In (r, ds) (concat queue)) /\ ~ In (rp_pkg r) acc /\ ds' = filter (fun d => negb (mem d acc)) ds.
Proof.
  intros E queued prior curr h acc queue queue' HE Hlt T r ds' Hin.
  destruct (queue_step _ _ _ _ _ _ _ _ HE Hlt T) as (L & L' & S). apply In_nth_entry in Hin. destruct Hin as (j & Hj & Hin).
  destruct (ring_index E curr j HE ltac:(lia)) as (x & Hx & Ex). specialize (S x Hx). unfold entry_at in S. rewrite Ex in S. rewrite S in Hin.
  destruct (Z.eq_dec x (Z.of_N curr)).
  - apply edit_queue_In in Hin. destruct Hin as (ds & A & B & C). exists ds. auto.
  - destruct (Z_lt_dec (Z.of_N prior) x); [destruct Hin|]. apply edit_queue_In in Hin. destruct Hin as (ds & A & B & C).
    exists ds. repeat split; auto. right. apply In_nth_entry. exists j. split; [lia|assumption].
Qed.

(** ** Dependencies are accumulated first, over whole histories *)
Definition dep_inv (s : astate) (done : list N) : Prop :=
  incl (concat (as_hist s)) done /\
  (forall r ds, In (r, ds) (concat (as_queue s)) -> forall d, In d (rp_pre r ++ rp_look r) -> In d ds \/ In d done).
Definition ordered_log (done0 : list N) (l : list report) : Prop :=
  forall l1 r l2, l = l1 ++ r :: l2 -> forall d, In d (rp_pre r ++ rp_look r) -> In d (done0 ++ pkgs l1).
Lemma concat_lastn_incl : forall n (h : list (list N)) x, incl (concat (lastn n (h ++ [x]))) (concat h ++ x).
Proof.
  intros n h x y Hy. apply in_concat in Hy. destruct Hy as (l & Hl & Hy). apply lastn_incl in Hl. apply in_app_or in Hl.
  apply in_or_app. destruct Hl as [Hl|[<-|[]]]; [left; apply in_concat; eauto|now right].
Qed.
Lemma dep_step : forall E s b s' acc done, (0 < E)%N -> wf_state E s -> (as_slot s < ab_slot b)%N -> dep_inv s done ->
  astep E s b = Ok (s', acc) -> wf_state E s' /\ dep_inv s' (done ++ pkgs acc) /\ ordered_log done acc.
Proof.
  intros E s b s' acc done HE W Hlt [D1 D2] A. destruct (astep_inv _ _ _ _ _ HE W A) as (full & newq & C & -> & Hc & Hh & Hs & h0 & Hq).
  destruct (queue_step _ _ _ _ _ _ _ _ HE Hlt Hq) as (L & L' & _).
  set (acc := firstn (ab_count b) full) in *.
  assert (Hnew : newq = new_entries (ab_available b) (as_hist s)) by (apply collect_inv in C; tauto).
  split; [|split].
  - split; [assumption|]. rewrite Hh, lastn_length, app_length. destruct W as [_ W2]. cbn. lia.
  - split.
    + rewrite Hh. intros y Hy. apply concat_lastn_incl in Hy. apply in_app_or in Hy. apply in_or_app.
      destruct Hy as [Hy|Hy]; [left; now apply D1|right; now apply (proj1 (bset_of_In _ _))].
    + intros r ds' Hin d Hd. destruct (queue_entries_from _ _ _ _ _ _ _ _ HE Hlt Hq r ds' Hin) as (ds & Hfrom & _ & ->).
      rewrite edit_filter_In. rewrite bset_of_In, in_app_iff.
      destruct (in_dec N.eq_dec d (pkgs acc)) as [Ha|Ha]; [auto|].
      destruct Hfrom as [Hf|Hf].
      * subst newq. apply new_entries_In in Hf. destruct Hf as (_ & _ & _ & Hf).
        destruct (in_dec N.eq_dec d (concat (as_hist s))) as [Hi|Hi]; [right; left; now apply D1|]. left. split; [|assumption]. apply Hf. auto.
      * destruct (D2 r ds Hf d Hd) as [X|X]; auto.
  - intros l1 r l2 El d Hd.
    assert (Ef : full = l1 ++ r :: (l2 ++ skipn (ab_count b) full)).
    { rewrite <- (firstn_skipn (ab_count b) full) at 1. fold acc. rewrite El, <- app_assoc. reflexivity. }
    apply in_or_app. destruct (collect_order _ _ _ _ _ _ _ C _ _ _ Ef) as [[_ X]|(ds & Wt & Hds)]; [rewrite X in Hd; destruct Hd|].
    destruct Wt as [se Hse Hin|_ _ _ Hw].
    + assert (Hq' : In (r, ds) (concat (as_queue s))) by (apply in_concat; eauto). destruct (D2 r ds Hq' d Hd) as [X|X]; [right; now apply Hds|now left].
    + destruct (in_dec N.eq_dec d (concat (as_hist s))) as [Hi|Hi]; [left; now apply D1|]. right. apply Hds, Hw. auto.
Qed.
Lemma accumulated_snoc : forall log x, accumulated (log ++ [x]) = accumulated log ++ snd x.
Proof. intros. unfold accumulated. rewrite map_app, concat_app. cbn. now rewrite app_nil_r. Qed.
Lemma achain_dep : forall E s0 done0 log s, (0 < E)%N -> wf_state E s0 -> dep_inv s0 done0 ->
  achain E s0 log s -> wf_state E s /\ dep_inv s (done0 ++ pkgs (accumulated log)) /\ ordered_log done0 (accumulated log).
Proof.
  intros E s0 done0 log s HE W D C. induction C as [|log s b s' acc C IH Hlt A].
  - cbn. rewrite app_nil_r. split; [assumption|]. split; [assumption|]. intros [|] ? ?; discriminate.
  - destruct IH as (W1 & D1 & O1). destruct (dep_step _ _ _ _ _ _ HE W1 Hlt D1 A) as (W2 & D2 & O2).
    rewrite accumulated_snoc. cbn [snd]. unfold pkgs in *. rewrite map_app. rewrite app_assoc. split; [assumption|]. split; [assumption|].
    intros l1 r l2 E1 d Hd. destruct (app_split_left _ _ _ _ _ _ E1) as [[a2 E2]|(l1' & -> & E2)].
    + exact (O1 _ _ _ E2 d Hd).
    + unfold pkgs. rewrite map_app, app_assoc. exact (O2 _ _ _ E2 d Hd).
Qed.
Lemma genesis_wf : forall E t, wf_state E (agenesis E t).
Proof. intros. split; cbn; rewrite repeat_length; lia. Qed.
Lemma concat_repeat_nil : forall A n, concat (repeat (@nil A) n) = [].
Proof. induction n; cbn; auto. Qed.
Lemma genesis_dep : forall E t, dep_inv (agenesis E t) [].
Proof. intros. split; cbn; rewrite concat_repeat_nil; [intros x []|intros r ds []]. Qed.

(** ** No package accumulated twice within the history window *)
Definition uniq_inv (s : astate) : Prop :=
  NoDup (concat (as_hist s)) /\ NoDup (pkgs (map fst (concat (as_queue s)))) /\
  (forall p, In p (pkgs (map fst (concat (as_queue s)))) -> ~ In p (concat (as_hist s))).
Lemma NoDup_concat_lastn : forall n (h : list (list N)), NoDup (concat h) -> NoDup (concat (lastn n h)).
Proof.
  intros n h. unfold lastn. rewrite <- (firstn_skipn (length h - n) h) at 1. rewrite concat_app. generalize (concat (firstn (length h - n) h)).
  intros l ND. induction l; [assumption|]. inversion ND; auto.
Qed.
Lemma bset_insert_NoDup : forall x l, StronglySorted N.lt l -> StronglySorted N.lt (bset_insert x l).
Proof.
  intros x l S. induction S as [|y l S IH F]; cbn; [constructor; constructor|].
  destruct (N.compare_spec x y) as [->|Hl|Hl].
  - now constructor.
  - constructor; [now constructor|]. constructor; [assumption|]. eapply Forall_impl; [|exact F]. cbn. intros; lia.
  - constructor; [assumption|]. apply Forall_forall. intros z Hz. apply bset_insert_In in Hz. rewrite Forall_forall in F. destruct Hz as [->|Hz]; auto.
Qed.
Lemma bset_of_sorted : forall xs, StronglySorted N.lt (bset_of xs).
Proof.
  intros xs. unfold bset_of, bset_extend. assert (S0 : StronglySorted N.lt []) by constructor. revert S0. generalize (@nil N).
  induction xs as [|x xs IH]; intros l S; cbn; auto using bset_insert_NoDup.
Qed.
Lemma sorted_NoDup : forall l, StronglySorted N.lt l -> NoDup l.
Proof.
  intros l S. induction S as [|y l S IH F]; constructor; auto. intros Hin. rewrite Forall_forall in F. apply F in Hin. lia.
Qed.
(** Slot-wise: the new queue has unique packages because each entry is an edited old entry, or the new one. *)
Lemma nth_entry_unique : forall (q : list (list entry)) i j e1 e2, NoDup (pkgs (map fst (concat q))) -> i < length q -> j < length q ->
  In e1 (nth i q []) -> In e2 (nth j q []) -> rp_pkg (fst e1) = rp_pkg (fst e2) -> i = j.
Proof.
  induction q as [|a q IH]; intros i j e1 e2 ND Hi Hj H1 H2 E; [cbn in Hi; lia|].
  unfold pkgs in ND. cbn in ND. rewrite !map_app in ND.
  assert (ND2 : NoDup (pkgs (map fst (concat q)))) by (eapply NoDup_app_r; eauto).
  assert (D : forall e e', In e a -> In e' (concat q) -> rp_pkg (fst e) <> rp_pkg (fst e')).
  { clear - ND. intros e e' He He' Eq. apply (in_map fst), (in_map rp_pkg) in He. apply (in_map fst), (in_map rp_pkg) in He'. rewrite Eq in He.
    exact (NoDup_app_disj _ _ _ ND _ He He'). }
  destruct i as [|i], j as [|j]; cbn in *; auto.
  - exfalso. apply (D e1 e2); auto. apply In_nth_entry. exists j. split; [lia|assumption].
  - exfalso. apply (D e2 e1); auto. apply In_nth_entry. exists i. split; [lia|assumption].
  - f_equal. eapply IH; eauto; lia.
Qed.
Lemma concat_entries_NoDup : forall (q : list (list entry)),
  (forall i, i < length q -> NoDup (pkgs (map fst (nth i q [])))) ->
  (forall i j e1 e2, i < length q -> j < length q -> In e1 (nth i q []) -> In e2 (nth j q []) -> rp_pkg (fst e1) = rp_pkg (fst e2) -> i = j) ->
  NoDup (pkgs (map fst (concat q))).
Proof.
  induction q as [|a q IH]; intros H1 H2; [constructor|]. unfold pkgs. cbn. rewrite !map_app. apply NoDup_app_intro.
  - exact (H1 0 ltac:(cbn; lia)).
  - apply IH.
    + intros i Hi. exact (H1 (S i) ltac:(cbn; lia)).
    + intros i j e1 e2 Hi Hj A B E. assert (X : S i = S j) by (apply (H2 (S i) (S j) e1 e2); cbn; auto; lia). lia.
  - intros p Hp Hq. rewrite map_map in Hp, Hq. apply in_map_iff in Hp. apply in_map_iff in Hq. destruct Hp as (e1 & E1 & He1), Hq as (e2 & E2 & He2).
    apply In_nth_entry in He2. destruct He2 as (j & Hj & He2). assert (X : 0 = S j) by (apply (H2 0 (S j) e1 e2); cbn; auto; try lia; congruence). lia.
Qed.
Lemma uniq_step : forall E s b s' acc, (0 < E)%N -> wf_state E s -> (as_slot s < ab_slot b)%N -> uniq_inv s -> fresh_available s b ->
  astep E s b = Ok (s', acc) ->
  wf_state E s' /\ uniq_inv s' /\ NoDup (pkgs acc) /\ forall p, In p (pkgs acc) -> ~ In p (concat (as_hist s)).
Proof.
  intros E s b s' acc HE W Hlt (U1 & U2 & U3) [F1 F2] A.
  destruct (astep_inv _ _ _ _ _ HE W A) as (full & newq & C & -> & Hc & Hh & Hs & h0 & Hq).
  destruct (queue_step _ _ _ _ _ _ _ _ HE Hlt Hq) as (L & L' & S).
  set (acc := firstn (ab_count b) full) in *.
  assert (Hnew : newq = new_entries (ab_available b) (as_hist s)) by (apply collect_inv in C; tauto).
  assert (NDf : NoDup (pkgs full)).
  { apply (collect_NoDup _ _ _ _ _ _ _ C). apply NoDup_app_intro; auto. intros p Hp. exact (proj2 (F2 p Hp)). }
  assert (NDa : NoDup (pkgs acc)).
  { unfold acc, pkgs in *. rewrite <- (firstn_skipn (ab_count b) full), map_app in NDf. eapply NoDup_app_l; eauto. }
  assert (Hfh : forall p, In p (pkgs full) -> ~ In p (concat (as_hist s))).
  { intros p Hp. unfold pkgs in Hp. apply in_map_iff in Hp. destruct Hp as (r & <- & Hr). apply in_split in Hr. destruct Hr as (l1 & l2 & E2).
    destruct (collect_order _ _ _ _ _ _ _ C _ _ _ E2) as [[X _]|(ds & Wt & _)].
    - apply F2. unfold pkgs. now apply in_map.
    - destruct Wt as [se Hse Hin|X _ Y _]; [|exact Y]. apply U3. unfold pkgs. rewrite map_map. apply in_map_iff. exists (r, ds). split; [reflexivity|].
      apply in_concat. eauto. }
  assert (Hah : forall p, In p (pkgs acc) -> ~ In p (concat (as_hist s))).
  { intros p Hp. apply Hfh. unfold acc, pkgs in *. rewrite <- (firstn_skipn (ab_count b) full), map_app. apply in_or_app. now left. }
  split; [split; [assumption|rewrite Hh, lastn_length, app_length; destruct W as [_ W2]; cbn; lia]|]. split; [|split; assumption].
  split; [|split].
  - rewrite Hh. apply NoDup_concat_lastn. rewrite concat_app. cbn. rewrite app_nil_r. apply NoDup_app_intro; auto.
    + apply sorted_NoDup, bset_of_sorted.
    + intros p Hp Hb. apply (Hah p); [now apply (proj1 (bset_of_In _ _))|assumption].
  - (* packages of the new queue are distinct *)
    assert (Hent : forall j, j < length (as_queue s') -> exists x, (Z.of_N (ab_slot b) - Z.of_N E < x <= Z.of_N (ab_slot b))%Z /\ Z.to_nat (x mod Z.of_N E) = j /\
       ((x = Z.of_N (ab_slot b) /\ nth j (as_queue s') [] = edit_queue newq (bset_of (pkgs acc))) \/
        (x <> Z.of_N (ab_slot b) /\ exists old, (old = [] \/ old = nth j (as_queue s) []) /\ nth j (as_queue s') [] = edit_queue old (bset_of (pkgs acc))))).
    { intros j Hj. destruct (ring_index E (ab_slot b) j HE ltac:(lia)) as (x & Hx & Ex). exists x. split; [assumption|]. split; [assumption|].
      specialize (S x Hx). unfold entry_at in S. rewrite Ex in S. destruct (Z.eq_dec x (Z.of_N (ab_slot b))); [now left|]. right. split; [assumption|].
      destruct (Z_lt_dec (Z.of_N (as_slot s)) x); [exists []|exists (nth j (as_queue s) [])]; auto. }
    assert (NDn : NoDup (pkgs (map fst newq))).
    { subst newq. unfold new_entries, extract_queued_reports. apply edit_queue_NoDup. unfold pkgs in *. rewrite !map_map. cbn. now apply NoDup_map_filter. }
    assert (NDold : forall j, NoDup (pkgs (map fst (nth j (as_queue s) [])))).
    { intros j. destruct (lt_dec j (length (as_queue s))) as [Hj|Hj]; [|rewrite nth_overflow by lia; constructor].
      clear - U2 Hj. revert j Hj. induction (as_queue s) as [|a q IH]; intros j Hj; [cbn in Hj; lia|]. unfold pkgs in U2. cbn in U2. rewrite !map_app in U2.
      destruct j as [|j]; cbn.
      - eapply NoDup_app_l; eauto.
      - apply IH; [|cbn in Hj; lia]. eapply NoDup_app_r; eauto. }
    assert (Fresh : forall e1 e2, In e1 newq -> In e2 (concat (as_queue s)) -> rp_pkg (fst e1) <> rp_pkg (fst e2)).
    { intros [r1 ds1] [r2 ds2] H1 H2 Eq. subst newq. apply new_entries_In in H1. destruct H1 as [H1 _]. cbn in Eq.
      destruct (F2 (rp_pkg r1)) as [_ X]; [unfold pkgs; now apply in_map|]. apply X. rewrite Eq. unfold pkgs. rewrite map_map. apply in_map_iff. exists (r2, ds2). auto. }
    assert (EIn : forall es e, In e (edit_queue es (bset_of (pkgs acc))) -> exists e0, In e0 es /\ rp_pkg (fst e0) = rp_pkg (fst e)).
    { intros es [r ds] He. apply edit_queue_In in He. destruct He as (ds0 & He & _ & _). exists (r, ds0). auto. }
    apply concat_entries_NoDup.
    + intros j Hj. destruct (Hent j Hj) as (x & Hx & Ex & [[_ ->]|(_ & old & [->| ->] & ->)]); apply edit_queue_NoDup; auto. constructor.
    + intros i j e1 e2 Hi Hj H1 H2 Eq.
      destruct (Hent i Hi) as (x & Hx & Ex & [[X Ei]|(X & old & O & Eo)] ), (Hent j Hj) as (y & Hy & Ey & [[Y Ej]|(Y & old' & O' & Eo')]); try (rewrite Ei in H1); try (rewrite Ej in H2); try (rewrite Eo in H1); try (rewrite Eo' in H2).
      * subst x y. congruence.
      * exfalso. apply EIn in H1. apply EIn in H2. destruct H1 as (a & Ha & Ea), H2 as (c & Hc' & Ec). apply (Fresh a c); auto; [|congruence].
        destruct O' as [->| ->]; [destruct Hc'|]. apply In_nth_entry. exists j. split; [lia|assumption].
      * exfalso. apply EIn in H1. apply EIn in H2. destruct H1 as (a & Ha & Ea), H2 as (c & Hc' & Ec). apply (Fresh c a); auto; [|congruence].
        destruct O as [->| ->]; [destruct Ha|]. apply In_nth_entry. exists i. split; [lia|assumption].
      * apply EIn in H1. apply EIn in H2. destruct H1 as (a & Ha & Ea), H2 as (c & Hc' & Ec).
        destruct O as [->| ->]; [destruct Ha|]. destruct O' as [->| ->]; [destruct Hc'|].
        apply (nth_entry_unique (as_queue s) i j a c); auto; lia.
  - intros p Hp Hh'. rewrite Hh in Hh'. apply concat_lastn_incl in Hh'. unfold pkgs in Hp. rewrite map_map in Hp. apply in_map_iff in Hp.
    destruct Hp as ([r ds'] & <- & Hr). cbn in Hh'. destruct (queue_entries_from _ _ _ _ _ _ _ _ HE Hlt Hq r ds' Hr) as (ds & Hfrom & Hna & _).
    apply in_app_or in Hh'. destruct Hh' as [Hh'|Hh']; [|contradiction]. revert Hh'.
    destruct Hfrom as [Hf|Hf].
    + subst newq. apply new_entries_In in Hf. tauto.
    + apply U3. unfold pkgs. rewrite map_map. apply in_map_iff. exists (r, ds). auto.
Qed.
Lemma fresh_chain_uniq : forall E s0 s, (0 < E)%N -> wf_state E s0 -> uniq_inv s0 -> fresh_chain E s0 s -> wf_state E s /\ uniq_inv s.
Proof.
  intros E s0 s HE W U C. induction C as [|s b s' acc C IH Hlt F A]; [auto|]. destruct IH as [W1 U1].
  destruct (uniq_step _ _ _ _ _ HE W1 Hlt U1 F A) as (W2 & U2 & _). auto.
Qed.
Lemma genesis_uniq : forall E t, uniq_inv (agenesis E t).
Proof.
  intros. unfold uniq_inv, agenesis. cbn. rewrite !concat_repeat_nil. repeat split; try constructor. intros p [].
Qed.
Lemma achain_history : forall E s0 log s, (0 < E)%N -> wf_state E s0 -> achain E s0 log s ->
  wf_state E s /\ as_hist s = lastn (N.to_nat E) (as_hist s0 ++ map (fun x => bset_of (pkgs (snd x))) log).
Proof.
  intros E s0 log s HE W C. induction C as [|log s b s' acc C IH Hlt A].
  - split; [assumption|]. cbn. rewrite app_nil_r, lastn_all; [reflexivity|]. destruct W. lia.
  - destruct IH as [W1 H1]. destruct (astep_inv _ _ _ _ _ HE W1 A) as (full & newq & C1 & Ea & Hc & Hh & Hs & h0 & Hq).
    destruct (queue_step _ _ _ _ _ _ _ _ HE Hlt Hq) as (L & L' & _).
    split; [split; [assumption|rewrite Hh, lastn_length, app_length; destruct W1; cbn; lia]|].
    rewrite Hh, H1, lastn_app_lastn, map_app, app_assoc. reflexivity.
Qed.
