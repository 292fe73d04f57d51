(** The validators', cores' and services' statistics of a block. *)
From Verif Require Import Base Base_Proofs Stats_Model Stats_Spec Stats_Proofs Stats2_Proofs.
From Coq Require Import Sorted Lia.
Open Scope N_scope.

(** ** Numbers as counters *)
Lemma n_algebra : forall w, algebra (fun chk x d => plus chk w x d) (fun x d => x + d) (fun x => x mod 2 ^ w) (fun x => x < 2 ^ w) (fun _ => True) (fun _ : N => True).
Proof.
  intro w. constructor; intros; auto.
  - apply plus_release.
  - apply plus_exact; auto.
  - apply plus_debug in H2. destruct H2. auto.
  - apply mod_add_l.
  - apply N.mod_small. auto.
  - apply mod_lt.
  - lia.
Qed.
Lemma fold_add : forall l x, fold_left N.add l x = x + sum (fun y => y) l.
Proof. induction l; simpl; intros; [lia|]. rewrite IHl. lia. Qed.
Lemma sum_map : forall (A B : Type) (g : A -> B) (f : B -> N) l, sum f (map g l) = sum (fun a => f (g a)) l.
Proof. induction l; simpl; auto. rewrite IHl. auto. Qed.
Lemma sum_cons : forall (A : Type) (f : A -> N) a l, sum f (a :: l) = f a + sum f l.
Proof. reflexivity. Qed.
Lemma sum_app : forall (A : Type) (f : A -> N) l1 l2, sum f (l1 ++ l2) = sum f l1 + sum f l2.
Proof. induction l1; simpl; intros; auto. rewrite IHl1. lia. Qed.
Lemma sum_filter : forall (A : Type) (f : A -> N) (g : A -> bool) l, sum f (filter g l) <= sum f l.
Proof. induction l; simpl; [lia|]. destruct (g a); simpl; lia. Qed.
Lemma sum_in : forall (A : Type) (f : A -> N) l x, In x l -> f x <= sum f l.
Proof. induction l; simpl; intros x H; [destruct H|]. destruct H as [<-|H]; [lia|]. apply IHl in H. lia. Qed.
Lemma sum_one : forall (A : Type) (l : list A), sum (fun _ => 1) l = N.of_nat (length l).
Proof. induction l as [|a l IH]; auto. change (1 + sum (fun _ => 1) l = N.of_nat (S (length l))). rewrite IH. lia. Qed.

(** ** Arrays, index by index *)
Lemma fold_alter : forall (R D : Type) (add : R -> D -> R) evs l i,
  nth_error (fold_left (fun l d => alter (fst d) (fun x => add x (snd d)) l) evs l) i =
  option_map (fun x => fold_left add (map snd (filter (fun e => Nat.eqb (fst e) i) evs)) x) (nth_error l i).
Proof.
  induction evs as [|[j d] evs IH]; simpl; intros l i.
  - destruct (nth_error l i); auto.
  - rewrite IH, alter_nth. destruct (Nat.eqb j i); simpl; destruct (nth_error l i); auto.
Qed.
Lemma fold_alter_length : forall (R D : Type) (add : R -> D -> R) evs l,
  length (fold_left (fun l d => alter (fst d) (fun x => add x (snd d)) l) evs l) = length l.
Proof. induction evs as [|e evs IH]; simpl; intros; auto. rewrite IH, alter_length. auto. Qed.
Lemma nth_ext : forall (A : Type) (l1 l2 : list A), length l1 = length l2 -> (forall i, (i < length l1)%nat -> nth_error l1 i = nth_error l2 i) -> l1 = l2.
Proof.
  induction l1; destruct l2; simpl; intros L H; try discriminate; auto.
  f_equal.
  - specialize (H 0%nat ltac:(lia)). simpl in H. congruence.
  - apply IHl1; [lia|]. intros i Hi. apply (H (S i)). lia.
Qed.
Lemma nth_error_map_seq : forall (A : Type) (f : nat -> A) n i, (i < n)%nat -> nth_error (map f (seq 0 n)) i = Some (f i).
Proof.
  intros. rewrite nth_error_map. assert (E : nth_error (seq 0 n) i = Some i).
  { rewrite (nth_error_nth' _ 0%nat) by (rewrite seq_length; auto). rewrite seq_nth; auto. }
  rewrite E. auto.
Qed.
Lemma array_total : forall (R D : Type) (add : R -> D -> R) evs z n,
  fold_left (fun l d => alter (fst d) (fun x => add x (snd d)) l) evs (repeat z n) =
  map (fun i => fold_left add (map snd (filter (fun e => Nat.eqb (fst e) i) evs)) z) (seq 0 n).
Proof.
  intros. apply nth_ext.
  - rewrite fold_alter_length, repeat_length, map_length, seq_length. auto.
  - intros i Hi. rewrite fold_alter_length, repeat_length in Hi. rewrite fold_alter, nth_error_map_seq by auto.
    rewrite nth_error_repeat; auto.
Qed.
Lemma filter_seq : forall (A : Type) (f : nat -> A) n k v, (k <= v < k + n)%nat ->
  filter (fun e : nat * A => Nat.eqb (fst e) v) (map (fun i => (i, f i)) (seq k n)) = [(v, f v)].
Proof.
  induction n; simpl; intros k v H; [lia|]. destruct (Nat.eqb k v) eqn:E.
  - apply Nat.eqb_eq in E. subst. f_equal. clear. assert (G : forall m j, (v < j)%nat -> filter (fun e : nat * A => Nat.eqb (fst e) v) (map (fun i => (i, f i)) (seq j m)) = []).
    { induction m as [|m IH]; simpl; intros j Hj; auto. destruct (Nat.eqb j v) eqn:E; [apply Nat.eqb_eq in E; lia|]. apply IH. lia. }
    apply G. lia.
  - apply Nat.eqb_neq in E. apply IHn. lia.
Qed.
Lemma at_index_app : forall (A : Type) (f : A -> result unit A) done x l,
  at_index (length done) f (done ++ x :: l) = let! y := f x in Ok (done ++ y :: l).
Proof.
  induction done; simpl; intros; auto. rewrite IHdone. destruct (f x); auto.
Qed.

(** ** Validators *)
Definition vevents (V : nat) (b : sblock) : list (nat * vevent) :=
  (b_author b, EAuthor (b_tickets b) (N.of_nat (length (b_preimages b))) (sum snd (b_preimages b))) ::
  map (fun i => (i, EValid (reported i b) (assured i b))) (seq 0 V).
Definition varray (chk : bool) (l : list vstat) (d : nat * vevent) : result unit (list vstat) :=
  at_index (fst d) (fun x => vstep chk x (snd d)) l.

Lemma total_len_exact : forall chk ps, sum snd ps < 2 ^ 64 -> total_len chk ps = Ok (sum snd ps).
Proof.
  intros chk ps. unfold total_len. intro H.
  assert (G : forall ps a, a + sum snd ps < 2 ^ 64 -> each (fun a p => plus chk 64 a (snd p)) a ps = Ok (a + sum (@snd N N) ps)).
  { clear. induction ps as [|[s n] ps IH]; simpl; intros a H; [rewrite N.add_0_r; auto|]. rewrite plus_exact by lia. simpl. rewrite IH by lia. f_equal. lia. }
  apply (G ps 0). auto.
Qed.
Lemma credit_all_each : forall chk b xs keys pre done, length xs = length keys -> b_keys b = pre ++ keys -> length done = length pre ->
  each (varray chk) (done ++ xs) (map (fun i => (i, EValid (reported i b) (assured i b))) (seq (length pre) (length xs))) =
  let! r := credit_all chk b (length pre) xs keys in Ok (done ++ r).
Proof.
  intros chk b. induction xs as [|x xs IH]; destruct keys as [|k keys]; simpl; intros pre don L E D; try discriminate L; auto.
  unfold varray at 1. simpl. rewrite <- D, at_index_app.
  assert (R : reported (length don) b = existsb (N.eqb k) (b_reporters b)).
  { unfold reported. rewrite E, D, nth_error_app2, Nat.sub_diag by lia. auto. }
  rewrite R. unfold assured at 1. destruct (credit_validator _ _ _ x) as [y| |]; simpl; auto.
  specialize (IH keys (pre ++ [k]) (don ++ [y])). rewrite !app_length in IH. simpl in IH.
  rewrite D. replace (S (length pre)) with (length pre + 1)%nat by lia. replace (don ++ y :: xs) with ((don ++ [y]) ++ xs) by (rewrite <- app_assoc; auto). rewrite IH; [|lia|rewrite <- app_assoc; auto|lia].
  destruct (credit_all chk b (length pre + 1) xs keys); simpl; auto. rewrite <- app_assoc. auto.
Qed.
Lemma validator_stats_each : forall V C chk b xs, good V C b -> length xs = V -> validator_stats chk b xs = each (varray chk) xs (vevents V b).
Proof.
  intros V C chk b xs (G1 & G2 & G3 & G4 & G5 & _) L. unfold validator_stats, vevents.
  rewrite total_len_exact. 2:{ eapply N.lt_trans; [exact G5|reflexivity]. }
  cbn [bind each]. unfold varray at 1. cbn [fst snd vstep].
  destruct (at_index _ _ xs) as [ys| |] eqn:E; cbn [bind]; auto.
  assert (L' : length ys = V).
  { rewrite <- L. clear - E. revert E. generalize (b_author b). revert ys. induction xs as [|x xs IH]; intros ys i E; destruct i; simpl in E; try discriminate E.
    - destruct (credit_author _ _ _ _ x); try discriminate E. inversion E. auto.
    - destruct (at_index i _ xs) eqn:E1; try discriminate E. inversion E. simpl. f_equal. eauto. }
  pose proof (credit_all_each chk b ys (b_keys b) [] [] ltac:(lia) eq_refl eq_refl) as H. cbn [app length] in H. rewrite L' in H. rewrite H.
  destruct (credit_all _ _ _ _ _); auto.
Qed.
Lemma validator_algebra : forall V C, algebra (fun chk l b => validator_stats chk b l)
  (fun l b => fold_left (fun l d => alter (fst d) (fun x => vadd x (snd d)) l) (vevents V b) l)
  (map kept_v) (Forall fits_v) (fun l => length l = V /\ Forall (fun _ => True) l) (good V C).
Proof.
  intros V C. refine (via_algebra _ _ _ _ _ _ _ _ _ (vevents V) (fun chk l b => validator_stats chk b l) (good V C) (loop_algebra (array_algebra v_algebra V)) _ _).
  - intros chk x d [L _] G. rewrite (validator_stats_each V C) by auto. reflexivity.
  - intros b (G1 & G2 & G3 & G4 & G5 & _). unfold vevents. constructor; [repeat split; auto|].
    apply Forall_forall. intros e He. apply in_map_iff in He. destruct He as (i & <- & Hi). apply in_seq in Hi. simpl. split; auto. lia.
Qed.

Definition vplus (x y : vstat) : vstat := mk_vstat (v_blocks x + v_blocks y) (v_tickets x + v_tickets y) (v_preimages x + v_preimages y)
  (v_octets x + v_octets y) (v_guarantees x + v_guarantees y) (v_assurances x + v_assurances y).
Lemma block_activity : forall V b v x, (v < V)%nat ->
  fold_left vadd (map snd (filter (fun e => Nat.eqb (fst e) v) (vevents V b))) x = vplus x (activity v [b]).
Proof.
  intros V b v x H. unfold vevents. cbn [filter fst]. rewrite (filter_seq _ (fun i => EValid (reported i b) (assured i b)) V 0 v) by lia.
  unfold activity, by_author, count. cbn [filter].
  destruct (Nat.eqb (b_author b) v), (reported v b), (assured v b); cbn; unfold vplus; cbn;
    rewrite ?N.add_0_r; reflexivity.
Qed.
Lemma activity_cons : forall v b bs, activity v (b :: bs) = vplus (activity v [b]) (activity v bs).
Proof.
  intros. unfold activity, by_author, count. cbn [filter]. destruct (Nat.eqb (b_author b) v), (reported v b), (assured v b);
    unfold vplus; cbn [length sum fold_right v_blocks v_tickets v_preimages v_octets v_guarantees v_assurances]; f_equal; try lia; unfold sum; lia.
Qed.
Lemma vplus_assoc : forall x y z, vplus (vplus x y) z = vplus x (vplus y z).
Proof. intros. unfold vplus. cbn. f_equal; lia. Qed.
Lemma vplus_0 : forall x, vplus no_v x = x.
Proof. intros [b t p o g a]. unfold vplus. cbn. auto. Qed.
Lemma epoch_activity : forall V bs l, length l = V ->
  fold_left (fun l b => fold_left (fun l d => alter (fst d) (fun x => vadd x (snd d)) l) (vevents V b) l) bs l =
  map (fun v => vplus (nth v l no_v) (activity v bs)) (seq 0 V).
Proof.
  intros V. induction bs as [|b bs IH]; intros l L; cbn [fold_left].
  - apply nth_ext; [rewrite map_length, seq_length; auto|]. intros i Hi. rewrite nth_error_map_seq by lia.
    rewrite (nth_error_nth' l no_v) by auto. f_equal. destruct (nth i l no_v). unfold vplus, activity. cbn. rewrite !N.add_0_r. auto.
  - rewrite IH by (rewrite fold_alter_length; auto). apply map_ext_in. intros v Hv. apply in_seq in Hv.
    rewrite activity_cons, <- vplus_assoc. f_equal.
    apply nth_error_nth. rewrite fold_alter. rewrite (nth_error_nth' l no_v) by lia. cbn [option_map]. f_equal. apply block_activity. lia.
Qed.

(** ** Cores *)
Definition cevents (b : sblock) : list (nat * list cevent) :=
  map (fun r => (r_core r, EBundle (r_bundle r) :: map EDigest (r_digests r))) (b_guarantees b) ++
  map (fun r => (r_core r, [EAvail r])) (b_available b).
Definition carray (chk : bool) (l : list cstat) (d : nat * list cevent) : result unit (list cstat) :=
  at_index (fst d) (fun x => each (cstep chk) x (snd d)) l.
Lemma at_index_ext : forall (A : Type) (f g : A -> result unit A) l i, (forall x, f x = g x) -> at_index i f l = at_index i g l.
Proof. induction l; destruct i; simpl; intros; auto. - rewrite H. auto. - rewrite (IHl i); auto. Qed.
Lemma core_each : forall chk cs b,
  (let! a := each (core_report chk) cs (b_guarantees b) in each (core_available chk) a (b_available b)) = each (carray chk) cs (cevents b).
Proof.
  intros. unfold cevents. rewrite each_app, !each_map.
  assert (E1 : forall s r, core_report chk s r = carray chk s (r_core r, EBundle (r_bundle r) :: map EDigest (r_digests r))).
  { intros. unfold core_report, carray. cbn [fst snd]. apply at_index_ext. intro x. cbn [each cstep]. destruct (plus _ _ _ _); cbn [bind]; auto.
    rewrite each_map. reflexivity. }
  assert (E2 : forall s r, core_available chk s r = carray chk s (r_core r, [EAvail r])).
  { intros. unfold core_available, carray. cbn [fst snd]. apply at_index_ext. intro x. cbn [each cstep]. unfold avail_step.
    repeat match goal with |- context [bind ?t _] => destruct t; cbn [bind]; auto end. }
  rewrite (each_ext _ _ _ _ _ _ (fun s a _ => E1 s a)). destruct (each _ cs _); cbn [bind]; auto. rewrite each_map.
  apply each_ext. auto.
Qed.
Definition core_algebra (C : nat) := loop_algebra (array_algebra (loop_algebra c_algebra) C).
Lemma cevents_ok : forall V C b, good V C b -> Forall (fun d => (fst d < C)%nat /\ Forall cok (snd d)) (cevents b).
Proof.
  intros V C b (_ & _ & _ & _ & _ & _ & _ & G1 & G2 & _). unfold cevents. apply Forall_app. split; apply Forall_forall; intros e He;
    apply in_map_iff in He; destruct He as (r & <- & Hr); cbn [fst snd].
  - rewrite Forall_forall in G1. destruct (G1 r Hr) as (A & _). split; auto. constructor; [exact I|].
    apply Forall_forall. intros d Hd. apply in_map_iff in Hd. destruct Hd as (x & <- & _). exact I.
  - rewrite Forall_forall in G2. destruct (G2 r Hr) as (A & B & D). split; auto. constructor; auto. split; auto.
Qed.
(** without the assurers *)
Definition core_work (c : nat) (b : sblock) : cstat :=
  let x := core_activity c b in mk_cstat (c_da x) 0 (c_imports x) (c_xts x) (c_octets x) (c_exports x) (c_bundle x) (c_gas x).
Definition cplus (x y : cstat) : cstat := mk_cstat (c_da x + c_da y) (c_assurers x + c_assurers y) (c_imports x + c_imports y) (c_xts x + c_xts y)
  (c_octets x + c_octets y) (c_exports x + c_exports y) (c_bundle x + c_bundle y) (c_gas x + c_gas y).
Definition cdigests (ds : list digest) : cstat := mk_cstat 0 0 (sum (fun d => u_imports (d_stats d)) ds) (sum (fun d => u_xts (d_stats d)) ds)
  (sum (fun d => u_octets (d_stats d)) ds) (sum (fun d => u_exports (d_stats d)) ds) 0 (sum (fun d => u_gas (d_stats d)) ds).
Lemma cplus_assoc : forall x y z, cplus (cplus x y) z = cplus x (cplus y z).
Proof. intros. unfold cplus. cproj. f_equal; lia. Qed.
Lemma fold_digests : forall ds x, fold_left cadd (map EDigest ds) x = cplus x (cdigests ds).
Proof.
  induction ds as [|d ds IH]; intros x; cbn [map fold_left].
  - destruct x. unfold cplus, cdigests, sum. cproj. cbn. rewrite !N.add_0_r. auto.
  - rewrite IH. unfold cplus, cdigests, cadd, sum. cproj. cbn [fold_right]. f_equal; lia.
Qed.
Definition bundle_of (n : N) : cstat := mk_cstat 0 0 0 0 0 0 n 0.
Definition avail_of (n : N) : cstat := mk_cstat n 0 0 0 0 0 0 0.
Lemma fold_reports : forall c rs x,
  fold_left (fun x ds => fold_left cadd ds x) (map snd (filter (fun e => Nat.eqb (fst e) c) (map (fun r => (r_core r, EBundle (r_bundle r) :: map EDigest (r_digests r))) rs))) x =
  cplus x (cplus (bundle_of (sum r_bundle (on_core c rs))) (cdigests (digests (on_core c rs)))).
Proof.
  intros c. induction rs as [|r rs IH]; intros x; cbn [map filter fst].
  - destruct x. unfold cplus, cdigests, bundle_of, sum. cproj. cbn. rewrite !N.add_0_r. auto.
  - unfold on_core. cbn [filter]. destruct (Nat.eqb (r_core r) c); fold (on_core c rs).
    + cbn [map snd fold_left]. rewrite IH, fold_digests. unfold digests. cbn [flat_map].
      unfold cplus, cdigests, bundle_of, cadd. cproj. rewrite !sum_app, !sum_cons.
      f_equal; lia.
    + rewrite IH. auto.
Qed.
Lemma fold_avail : forall c rs x,
  fold_left (fun x ds => fold_left cadd ds x) (map snd (filter (fun e => Nat.eqb (fst e) c) (map (fun r => (r_core r, [EAvail r])) rs))) x =
  cplus x (avail_of (sum da_size (on_core c rs))).
Proof.
  intros c. induction rs as [|r rs IH]; intros x; cbn [map filter fst].
  - destruct x. unfold cplus, avail_of, sum. cproj. cbn. rewrite !N.add_0_r. auto.
  - unfold on_core. cbn [filter]. destruct (Nat.eqb (r_core r) c); fold (on_core c rs).
    + cbn [map snd fold_left]. rewrite IH. unfold cplus, avail_of, cadd. cproj. rewrite !sum_cons.
      f_equal; lia.
    + rewrite IH. auto.
Qed.
Lemma cores_total : forall C b,
  fold_left (fun l d => alter (fst d) (fun x => fold_left cadd (snd d) x) l) (cevents b) (repeat no_c C) = map (fun c => core_work c b) (seq 0 C).
Proof.
  intros. rewrite (array_total _ _ (fun x ds => fold_left cadd ds x)). apply map_ext. intro c. unfold cevents. rewrite filter_app, map_app, fold_left_app.
  rewrite fold_reports, fold_avail. unfold core_work, core_activity, cplus, no_c, bundle_of, cdigests, avail_of. cproj. f_equal; lia.
Qed.

(** Assurers. *)
Lemma count_bits_ok : forall chk bits counts don, length counts = length bits ->
  (forall c, In c counts -> c + 1 < 2 ^ 64) ->
  count_bits chk (length don) (don ++ counts) bits = Ok (don ++ map (fun p : N * bool => fst p + bit (snd p)) (combine counts bits)).
Proof.
  intros chk bits. induction bits as [|t bits IH]; intros [|c counts] don L B; simpl in *; try discriminate L; auto.
  rewrite at_index_app, plus_exact. 2:{ specialize (B c (or_introl eq_refl)). destruct t; lia. }
  cbn [bind]. specialize (IH counts (don ++ [c + bit t])). rewrite !app_length in IH. simpl in IH.
  replace (S (length don)) with (length don + 1)%nat by lia. fold (bit t). replace (don ++ c + bit t :: counts) with ((don ++ [c + bit t]) ++ counts) by (rewrite <- app_assoc; auto). rewrite IH; auto; try lia.
  rewrite <- app_assoc. auto.
Qed.
Lemma counts_ok : forall chk C l, Forall (fun a : nat * list bool => length (snd a) = C) l -> N.of_nat (length l) < 2 ^ 16 ->
  cores_assurances_counts chk C l = Ok (map (fun c => count (fun a => nth c (snd a) false) l) (seq 0 C)).
Proof.
  intros chk C l F B. unfold cores_assurances_counts.
  assert (G : forall l k don, Forall (fun a : nat * list bool => length (snd a) = C) l -> N.of_nat (length (don : list (nat * list bool)) + length l) < 2 ^ 16 ->
    k = map (fun c => count (fun a : nat * list bool => nth c (snd a) false) don) (seq 0 C) ->
    each (fun counts a => count_bits chk 0 counts (snd a)) k l = Ok (map (fun c => count (fun a : nat * list bool => nth c (snd a) false) (don ++ l)) (seq 0 C))).
  { clear l F B. induction l as [|a l IH]; intros k don F B K; cbn [each].
    - rewrite app_nil_r, K. auto.
    - inversion F; subst. clear F.
      pose proof (count_bits_ok chk (snd a) (map (fun c => count (fun a : nat * list bool => nth c (snd a) false) don) (seq 0 (length (snd a)))) []) as H.
      cbn [length app] in H. rewrite H; auto; [|rewrite map_length, seq_length; auto|].
      + cbn [bind]. rewrite (IH _ (don ++ [a])); auto.
        * rewrite <- app_assoc. auto.
        * rewrite app_length. cbn [length] in *. lia.
        * apply nth_ext; [rewrite !map_length, combine_length, map_length, !seq_length; lia|].
          intros i Hi. rewrite map_length, combine_length, map_length, seq_length in Hi.
          rewrite nth_error_map_seq by lia. rewrite nth_error_map.
          assert (E : nth_error (combine (map (fun c => count (fun a : nat * list bool => nth c (snd a) false) don) (seq 0 (length (snd a)))) (snd a)) i =
            Some (count (fun a : nat * list bool => nth i (snd a) false) don, nth i (snd a) false)).
          { rewrite (nth_error_nth' _ (0, false)) by (rewrite combine_length, map_length, seq_length; lia).
            rewrite combine_nth by (rewrite map_length, seq_length; auto). f_equal. f_equal.
            apply nth_error_nth. apply (nth_error_map_seq _ (fun c => count (fun a : nat * list bool => nth c (snd a) false) don)). lia. }
          rewrite E. cbn [option_map fst snd]. f_equal. unfold count. rewrite filter_app, app_length. cbn [filter]. destruct (nth i (snd a) false); cbn [bit length]; lia.
      + intros c Hc. apply in_map_iff in Hc. destruct Hc as (j & <- & _). unfold count.
        assert (length (filter (fun a : nat * list bool => nth j (snd a) false) don) <= length don)%nat.
        { clear. induction don; simpl; auto. destruct (nth j (snd a) false); simpl; lia. }
        change (2 ^ 16) with 65536 in B. change (2 ^ 64) with 18446744073709551616. cbn [length] in B. lia. }
  apply (G l (repeat 0 C) []); auto.
  clear. apply nth_ext; [rewrite repeat_length, map_length, seq_length; auto|]. intros i Hi. rewrite repeat_length in Hi. rewrite nth_error_map_seq, nth_error_repeat; auto.
Qed.
Definition with_assurers (x : cstat) (n : N) : cstat := mk_cstat (c_da x) n (c_imports x) (c_xts x) (c_octets x) (c_exports x) (c_bundle x) (c_gas x).
Lemma core_assured_ok : forall counts cs don, length counts = length cs ->
  core_assured (length don) (don ++ cs) counts = Ok (don ++ map (fun p => with_assurers (fst p) (cast 16 (snd p))) (combine cs counts)).
Proof.
  induction counts as [|n counts IH]; intros [|x cs] don L; simpl in *; try discriminate L; auto.
  rewrite at_index_app. cbn [bind]. specialize (IH cs (don ++ [with_assurers x (cast 16 n)])). rewrite app_length in IH. cbn [length] in IH.
  replace (S (length don)) with (length don + 1)%nat by lia.
  replace (don ++ mk_cstat (c_da x) (cast 16 n) (c_imports x) (c_xts x) (c_octets x) (c_exports x) (c_bundle x) (c_gas x) :: cs) with ((don ++ [with_assurers x (cast 16 n)]) ++ cs) by (rewrite <- app_assoc; auto).
  rewrite IH by lia. rewrite <- app_assoc. auto.
Qed.
Lemma combine_map_seq : forall (A B : Type) (f : nat -> A) (g : nat -> B) n k, combine (map f (seq k n)) (map g (seq k n)) = map (fun i => (f i, g i)) (seq k n).
Proof. induction n; simpl; intros; auto. rewrite IHn. auto. Qed.
Lemma core_stats_work : forall V C chk b, good V C b -> core_stats chk C b =
  let! d := each (carray chk) (repeat no_c C) (cevents b) in
  core_assured 0 d (map (fun c => count (fun a => nth c (snd a) false) (b_assurances b)) (seq 0 C)).
Proof.
  intros V C chk b G. unfold core_stats. rewrite <- core_each.
  destruct (each (core_report chk) _ _); cbn [bind]; auto. destruct (each (core_available chk) _ _); cbn [bind]; auto.
  destruct G as (_ & _ & _ & _ & _ & G1 & G2 & _). rewrite counts_ok by auto. auto.
Qed.
Lemma count_le : forall (A : Type) (f : A -> bool) l, count f l <= N.of_nat (length l).
Proof. intros. unfold count. assert (length (filter f l) <= length l)%nat by (induction l; simpl; auto; destruct (f a); simpl; lia). lia. Qed.
Lemma core_stats_release : forall V C b, good V C b -> core_stats false C b = Ok (map (fun c => kept_c (core_activity c b)) (seq 0 C)).
Proof.
  intros V C b G. rewrite (core_stats_work V) by auto.
  pose proof (a_release _ _ _ _ _ _ (core_algebra C) (repeat no_c C) (cevents b)) as H. cbv beta in H.
  unfold carray. rewrite H; clear H.
  - cbn [bind]. rewrite cores_total. rewrite map_map.
    pose proof (core_assured_ok (map (fun c => count (fun a => nth c (snd a) false) (b_assurances b)) (seq 0 C)) (map (fun c => kept_c (core_work c b)) (seq 0 C)) []) as H.
    cbn [app length] in H. rewrite H by (rewrite !map_length; auto). rewrite combine_map_seq, map_map. f_equal.
  - split; [apply repeat_length|]. apply Forall_forall. auto.
  - apply Forall_forall. intros x Hx. apply repeat_spec in Hx. subst. repeat split; reflexivity.
  - eapply cevents_ok; eauto.
Qed.
Lemma core_stats_exact : forall V C chk b, good V C b -> (forall c, (c < C)%nat -> fits_c (core_activity c b)) ->
  core_stats chk C b = Ok (map (fun c => core_activity c b) (seq 0 C)).
Proof.
  intros V C chk b G F. rewrite (core_stats_work V) by auto.
  pose proof (a_exact _ _ _ _ _ _ (core_algebra C) chk (repeat no_c C) (cevents b)) as H. cbv beta in H.
  unfold carray. rewrite H; clear H.
  - cbn [bind]. rewrite cores_total.
    pose proof (core_assured_ok (map (fun c => count (fun a => nth c (snd a) false) (b_assurances b)) (seq 0 C)) (map (fun c => core_work c b) (seq 0 C)) []) as H.
    cbn [app length] in H. rewrite H by (rewrite !map_length; auto). rewrite combine_map_seq, map_map. f_equal.
    apply map_ext. intro c. cbn [fst snd]. unfold with_assurers, core_work. cproj. rewrite cast_small; auto.
    destruct G as (_ & _ & _ & _ & _ & _ & G2 & _). eapply N.le_lt_trans; [apply count_le|]. auto.
  - split; [apply repeat_length|]. apply Forall_forall. auto.
  - eapply cevents_ok; eauto.
  - rewrite cores_total. apply Forall_forall. intros x Hx. apply in_map_iff in Hx. destruct Hx as (c & <- & Hc). apply in_seq in Hc.
    specialize (F c ltac:(lia)). unfold fits_c, core_work in *. cproj. destruct F as (F1 & F2 & F3 & F4 & F5 & F6 & F7 & F8). repeat split; auto.
Qed.
Lemma core_stats_debug : forall V C b cs, good V C b -> core_stats true C b = Ok cs -> forall c, (c < C)%nat -> fits_c (core_activity c b).
Proof.
  intros V C b cs G H c Hc. rewrite (core_stats_work V) in H by auto.
  destruct (each (carray true) (repeat no_c C) (cevents b)) as [d| |] eqn:E; try discriminate H.
  pose proof (a_debug _ _ _ _ _ _ (core_algebra C) (repeat no_c C) (cevents b) d) as D. cbv beta in D.
  assert (F : Forall fits_c (map (fun c => core_work c b) (seq 0 C))).
  { rewrite <- cores_total. apply D; auto.
    - split; [apply repeat_length|]. apply Forall_forall. auto.
    - apply Forall_forall. intros x Hx. apply repeat_spec in Hx. subst. repeat split; reflexivity.
    - eapply cevents_ok; eauto. }
  rewrite Forall_forall in F. specialize (F (core_work c b)). specialize (F ltac:(apply in_map_iff; exists c; split; auto; apply in_seq; lia)).
  unfold fits_c, core_work in F. cproj_in F. destruct F as (F1 & F2 & F3 & F4 & F5 & F6 & F7 & F8).
  unfold fits_c. repeat split; auto. unfold core_activity. cproj.
  destruct G as (_ & _ & _ & _ & _ & _ & G2 & _). eapply N.le_lt_trans; [apply count_le|]. auto.
Qed.
