(** The components are written in the Graypaper's octets and read back. *)
From Verif Require Import Base Base_Proofs Codec_Model Codec_Spec Codec_Proofs Codec2_Proofs Codec3_Proofs Block_Model Stats_Model Stats_Spec StatsCodec_Model StatsCodec_Proofs Comp_Model Comp_Spec.
From Coq Require Import Sorted Lia.
Open Scope N_scope.

(** ** Shapes determine the octets *)
Definition uniq (s : shape) : Prop := forall a b, s a -> s b -> a = b.
Lemma uniq_as_is : forall b, uniq (as_is b).
Proof. intros b x y -> ->. reflexivity. Qed.
Lemma uniq_natural : forall x, uniq (natural x).
Proof. intros x a b A B. rewrite (gp_int_fun _ _ A), (gp_int_fun _ _ B). reflexivity. Qed.
Lemma uniq_octets : forall n x, uniq (octets n x).
Proof. intros n x a b -> ->. reflexivity. Qed.
Lemma uniq_in_turn : forall A (w : A -> shape) l, Forall (fun a => uniq (w a)) l -> uniq (in_turn w l).
Proof.
  intros A w l F a b (xs & X & ->) (ys & Y & ->). f_equal. revert xs ys X Y.
  induction F as [|v l U F IH]; intros xs ys X Y; inversion X; inversion Y; subst; auto. f_equal; [eapply U; eauto|auto].
Qed.
Lemma uniq_all : forall A (w : A -> shape) l, (forall a, uniq (w a)) -> uniq (in_turn w l).
Proof. intros A w l U. apply uniq_in_turn. apply Forall_forall. intros. apply U. Qed.
Lemma uniq_parts : forall l, Forall uniq l -> uniq (parts l).
Proof. intros. apply uniq_in_turn. auto. Qed.
Lemma uniq_counted : forall A (w : A -> shape) l, (forall a, uniq (w a)) -> uniq (counted w l).
Proof. intros. apply uniq_parts. repeat constructor; [apply uniq_natural|apply uniq_all; auto]. Qed.
Lemma uniq_maybe : forall A (w : A -> shape) o, (forall a, uniq (w a)) -> uniq (maybe w o).
Proof. intros A w [a|] U; [|apply uniq_as_is]. apply uniq_parts. repeat constructor; [apply uniq_as_is|apply U]. Qed.
Ltac uniq := repeat first
  [ apply uniq_as_is | apply uniq_natural | apply uniq_octets | apply uniq_parts; repeat (apply Forall_cons || apply Forall_nil)
  | apply uniq_counted; intro | apply uniq_all; intro | apply uniq_maybe; intro ].
Lemma uniq_report : forall P (r : interp (t_report P)), uniq (gp_report r).
Proof.
  intros P r. destruct r as ((pk & ln & er & sg & ct) & (an & st & bf & lk & sl & pr) & core & au & gas & tr & lu & ds). unfold gp_report. uniq.
  destruct a as (sv & cd & py & gs & rs & us & im & xs & sz & ex). unfold gp_digest. uniq. destruct rs; unfold gp_result; uniq.
Qed.
Lemma uniq_entry : forall P (e : entry P), uniq (gp_entry e).
Proof.
  intros P e. destruct e; unfold gp_entry; uniq; try (unfold gp_vk, gp_tkt, gp_vstat, gp_cstat, gp_sstat; uniq; fail); try apply uniq_report.
  destruct (sf_sealers s); uniq.
Qed.

(** ** What the codec writes has the shape *)
Lemma parts_one : forall (s : shape) x, s x -> parts [s] x.
Proof. intros s x H. exists [x]. split; [repeat constructor; auto|]. cbn. rewrite app_nil_r. reflexivity. Qed.
Lemma parts_more : forall (s : shape) l x y, s x -> parts l y -> parts (s :: l) (x ++ y).
Proof. intros s l x y H (bs & F & ->). exists (x :: bs). split; [constructor; auto|reflexivity]. Qed.
Lemma in_turn_one : forall A (w : A -> shape) a x, w a x -> in_turn w [a] x.
Proof. intros A w a x H. exists [x]. split; [repeat constructor; auto|]. cbn. rewrite app_nil_r. reflexivity. Qed.
Lemma in_turn_more : forall A (w : A -> shape) a l x y, w a x -> in_turn w l y -> in_turn w (a :: l) (x ++ y).
Proof. intros A w a l x y H (bs & F & ->). exists (x :: bs). split; [constructor; auto|reflexivity]. Qed.
Lemma in_turn_nil : forall A (w : A -> shape), in_turn w [] [].
Proof. intros. exists []. split; constructor. Qed.
Lemma in_turn_impl : forall A (Q : A -> Prop) (v w : A -> shape) l o, Forall Q l -> (forall a x, Q a -> v a x -> w a x) -> in_turn v l o -> in_turn w l o.
Proof.
  intros A Q v w l o F I (bs & X & ->). exists bs. split; auto. clear - F I X. induction X; inversion F; subst; constructor; auto.
Qed.
Lemma in_turn_map : forall A B (f : A -> B) (w : B -> shape) l o, in_turn w (map f l) o -> in_turn (fun a => w (f a)) l o.
Proof.
  intros A B f w l o (bs & X & ->). exists bs. split; auto. revert bs X. induction l as [|a l IH]; intros bs X; inversion X; subst; constructor; auto.
Qed.
Lemma seq_in_turn : forall A (enc : A -> result cerr bytes) l o, encode_seq enc l = Ok o -> in_turn (fun a x => enc a = Ok x) l o.
Proof.
  intros A enc l. induction l as [|a l IH]; intros o H; cbn in H.
  - inversion H; subst. apply in_turn_nil.
  - destruct (enc a) as [x| |] eqn:Ea; try discriminate H. cbn [bind] in H. destruct (encode_seq enc l) as [y| |] eqn:El; try discriminate H.
    cbn [bind] in H. inversion H; subst. apply in_turn_more; auto.
Qed.

Lemma ok_inj : forall E A (a b : A), Ok (E := E) a = Ok b -> a = b.
Proof. intros. congruence. Qed.
Definition writes (t : ty) (v : interp t) : shape := fun o => encode t v = Ok o.
Lemma w_pair : forall a b p o, writes (TPair a b) p o -> exists x y, o = x ++ y /\ writes a (fst p) x /\ writes b (snd p) y.
Proof.
  intros a b p o H. unfold writes in *. cbn [encode] in H. destruct (encode a (fst p)) as [x| |] eqn:A; try discriminate H. cbn [bind] in H.
  destruct (encode b (snd p)) as [y| |] eqn:B; try discriminate H. cbn [bind] in H. apply ok_inj in H; subst. eauto 6.
Qed.
Lemma w_bytes : forall n b o, writes (TByteArr n) b o -> as_is b o.
Proof. intros n b o H. unfold writes in H. cbn in H. apply ok_inj in H; subst. reflexivity. Qed.
Lemma w_uint : forall w x o, w <= 64 -> x < 2 ^ w -> writes (TUint w) x o -> natural x o.
Proof.
  intros w x o L R H. unfold writes in H. cbn in H. apply ok_inj in H; subst. apply integer_encode_spec.
  eapply N.lt_le_trans; [exact R|]. apply N.pow_le_mono_r; [discriminate|exact L].
Qed.
Lemma w_fix : forall w k x o, writes (TFix w k) x o -> octets k x o.
Proof. intros w k x o H. unfold writes in H. cbn [encode] in H. apply encode_fixed_ok_iff in H. destruct H as (H1 & H2 & H3). subst. unfold octets. reflexivity. Qed.
Lemma w_arr : forall n t l o, writes (TArr n t) l o -> in_turn (writes t) l o.
Proof. intros n t l o H. exact (seq_in_turn _ _ _ _ H). Qed.
Lemma counted_enc : forall A (w : A -> shape) l x, N.of_nat (length l) < 2 ^ 64 -> in_turn w l x ->
  counted w l (integer_encode (N.of_nat (length l)) ++ x).
Proof. intros A w l x L H. apply parts_more; [apply integer_encode_spec; auto|]. apply parts_one. exact H. Qed.
Lemma w_vec : forall esz t l o, N.of_nat (length l) < 2 ^ 64 -> writes (TVec esz t) l o -> counted (writes t) l o.
Proof.
  intros esz t l o L H. unfold writes in H. cbn [encode] in H.
  destruct (encode_seq (encode t) l) as [x| |] eqn:E; try discriminate H. cbn [bind] in H. apply ok_inj in H; subst. apply counted_enc; auto. apply seq_in_turn. exact E.
Qed.
Lemma w_lim : forall esz m t l o, N.of_nat (length l) < 2 ^ 64 -> writes (TLim esz m t) l o -> counted (writes t) l o.
Proof. intros esz m t l o L H. exact (w_vec esz t l o L H). Qed.
Lemma w_set : forall t l o, N.of_nat (length l) < 2 ^ 64 -> writes (TSet t) l o -> counted (writes t) l o.
Proof. intros t l o L H. exact (w_vec 0 t l o L H). Qed.
Lemma w_map : forall k v m o, N.of_nat (length m) < 2 ^ 64 -> writes (TMap k v) m o -> counted (writes (TPair k v)) m o.
Proof. intros k v m o L H. exact (w_vec 0 (TPair k v) m o L H). Qed.
Lemma w_option : forall t v o, writes (TOption t) v o -> maybe (writes t) v o.
Proof.
  intros t [v|] o H; unfold writes in H; cbn [encode] in H.
  - destruct (encode t v) as [x| |] eqn:E; try discriminate H. cbn [bind] in H. apply ok_inj in H; subst.
    change (integer_encode 1) with [1]. apply parts_more; [reflexivity|]. apply parts_one. exact E.
  - apply ok_inj in H; subst. reflexivity.
Qed.
Lemma in_turn_bytes : forall b, in_turn (fun x => as_is [x]) b b.
Proof. induction b as [|x b IH]; [apply in_turn_nil|]. change (x :: b) with ([x] ++ b) at 2. apply in_turn_more; [reflexivity|exact IH]. Qed.
Lemma w_octets : forall b o, N.of_nat (length b) < 2 ^ 64 -> writes TOctets b o -> counted (fun x => as_is [x]) b o.
Proof. intros b o L H. unfold writes in H. cbn [encode] in H. apply ok_inj in H; subst. apply counted_enc; auto. apply in_turn_bytes. Qed.
Lemma w_tagged : forall r o, wf t_exec_result r -> writes t_exec_result r o -> gp_result r o.
Proof.
  intros [b|i] o W H; unfold writes in H.
  - change (encode t_exec_result (inl b)) with (let! x := encode TOctets b in Ok (integer_encode 0 ++ x)) in H. cbn [encode bind] in H. apply ok_inj in H; subst.
    destruct W as (B & L). unfold gp_result. apply parts_more; [apply (integer_encode_spec 0); reflexivity|]. apply parts_one.
    apply counted_enc; [|apply in_turn_bytes]. eapply N.le_lt_trans; [exact L|reflexivity].
  - change (encode t_exec_result (inr i)) with (Ok (E := cerr) (integer_encode i)) in H. apply ok_inj in H; subst. destruct W as (A & B).
    apply integer_encode_spec. eapply N.le_lt_trans; [exact B|reflexivity].
Qed.
Lemma counted_impl : forall A (Q : A -> Prop) (v w : A -> shape) l o, Forall Q l -> (forall a x, Q a -> v a x -> w a x) -> counted v l o -> counted w l o.
Proof.
  intros A Q v w l o F I (bs & X & ->). inversion X as [|s1 x1 ss1 xs1 N1 X1]; subst. inversion X1 as [|s2 x2 ss2 xs2 N2 X2]; subst. inversion X2; subst.
  exists [x1; x2]. split; [|reflexivity]. constructor; [exact N1|]. constructor; [|constructor]. eapply in_turn_impl; eauto.
Qed.
Lemma counted_map : forall A B (f : A -> B) (w : B -> shape) l o, counted w (map f l) o -> counted (fun a => w (f a)) l o.
Proof.
  intros A B f w l o (bs & X & ->). inversion X as [|s1 x1 ss1 xs1 N1 X1]; subst. inversion X1 as [|s2 x2 ss2 xs2 N2 X2]; subst. inversion X2; subst.
  exists [x1; x2]. split; [|reflexivity]. constructor; [rewrite map_length in N1; exact N1|]. constructor; [|constructor]. apply in_turn_map. exact N2.
Qed.
Lemma maybe_impl : forall A (v w : A -> shape) x o, (forall a y, x = Some a -> v a y -> w a y) -> maybe v x o -> maybe w x o.
Proof.
  intros A v w [a|] o I H; [|exact H]. destruct H as (bs & X & ->). inversion X as [|s1 x1 ss1 xs1 N1 X1]; subst. inversion X1 as [|s2 x2 ss2 xs2 N2 X2]; subst. inversion X2; subst.
  exists [x1; x2]. split; [|reflexivity]. constructor; [exact N1|]. constructor; [auto|constructor].
Qed.
Ltac pair_ H := let x := fresh "x" in let y := fresh "y" in let A := fresh "A" in let B := fresh "B" in
  apply w_pair in H; destruct H as (x & y & -> & A & B); cbn [fst snd] in A, B.
Ltac pair_as H A B := apply w_pair in H; destruct H as (? & ? & -> & A & B); cbn [fst snd] in A, B.
Ltac leaf := first [eapply w_bytes; eassumption | eapply w_fix; eassumption | idtac].
Lemma counted_hashes : forall n l o, in_memory 0 l -> writes (TVec n (TByteArr 32)) l o -> counted as_is l o.
Proof.
  intros n l o (L & _) H. apply w_vec in H; auto. eapply (counted_impl _ (fun _ => True)); [apply Forall_forall; auto| |exact H].
  intros a x _. apply w_bytes.
Qed.
Lemma mem0 : forall A n (l : list A), in_memory n l -> in_memory 0 l.
Proof. intros A n l (L & _). split; auto. rewrite N.mul_0_r. discriminate. Qed.
Lemma hashes_set : forall l o, N.of_nat (length l) < 2 ^ 64 -> writes (TSet t_hash) l o -> counted as_is l o.
Proof. intros l o L H. apply (counted_hashes 0); [split; auto; lia|exact H]. Qed.
Lemma hashes_seq : forall n k l o, writes (TArr n (TByteArr k)) l o -> in_turn as_is l o.
Proof. intros n k l o H. apply w_arr in H. eapply (in_turn_impl _ (fun _ => True)); [apply Forall_forall; auto| |exact H]. intros a x _. apply w_bytes. Qed.
Lemma pairs_hash : forall (p : bytes * bytes) x, writes (t_hash ** t_hash) p x -> parts [as_is (fst p); as_is (snd p)] x.
Proof. intros p x H. pair_ H. apply parts_more; [eapply w_bytes; eauto|]. apply parts_one. eapply w_bytes; eauto. Qed.

Lemma digest_writes : forall d o, wf t_digest d -> writes t_digest d o -> gp_digest d o.
Proof.
  intros (sv & cd & py & gs & rs & us & im & xs & sz & ex) o W H.
  destruct W as (W1 & W2 & W3 & W4 & W5 & W6 & W7 & W8 & W9 & W10). unfold t_digest, t_refine_stats in H. do 9 (pair_ H; rename B into H; cbn [fst snd] in H).
  unfold gp_digest. repeat (apply parts_more; [|]); try (apply parts_one); eauto using w_fix, w_bytes, w_tagged; eapply w_uint; eauto; discriminate.
Qed.
Lemma report_writes : forall P (r : interp (t_report P)) o, wf (t_report P) r -> writes (t_report P) r o -> gp_report r o.
Proof.
  intros P ((pk & ln & er & sg & ct) & (an & st & bf & lk & sl & pr) & core & au & gas & tr & lu & ds) o W H.
  destruct W as (W1 & W2 & W3 & W4 & W5 & W6 & W7 & W8). unfold t_report in H. do 7 (pair_ H; rename B into H; cbn [fst snd] in H).
  unfold gp_report. apply parts_more; [|apply parts_more; [|apply parts_more; [|apply parts_more; [|apply parts_more; [|apply parts_more; [|apply parts_more; [|apply parts_one]]]]]]].
  - unfold t_avail_specs in A. do 4 (pair_ A; rename B into A; cbn [fst snd] in A).
    unfold gp_specs. repeat (apply parts_more; [|]); try (apply parts_one); leaf.
  - unfold t_refine_ctx in A0. do 5 (pair_ A0; rename B into A0; cbn [fst snd] in A0).
    unfold gp_context. repeat (apply parts_more; [|]); try (apply parts_one); leaf.
    apply hashes_set; auto. destruct W2 as (_ & _ & _ & _ & _ & _ & L & _). exact L.
  - eapply w_uint; [| |exact A1]; [discriminate|exact W3].
  - eapply w_bytes; eauto.
  - eapply w_uint; [| |exact A3]; [discriminate|exact W5].
  - apply w_octets; auto. destruct W6 as (_ & L). eapply N.le_lt_trans; [exact L|reflexivity].
  - destruct W7 as (F & L & _). apply w_map in A5; auto. eapply (counted_impl _ (fun _ => True)); [apply Forall_forall; auto| |exact A5].
    intros p q _. apply pairs_hash.
  - destruct W8 as (F & L & _). apply w_lim in H; auto. eapply counted_impl; [exact F| |exact H]. intros d q. apply digest_writes.
Qed.
Lemma vk_writes : forall k o, writes t_vk (of_vk k) o -> gp_vk k o.
Proof.
  intros k o H. unfold t_vk, of_vk in H. do 3 (pair_ H; rename B into H; cbn [fst snd of_vk] in H). unfold gp_vk.
  repeat (apply parts_more; [|]); try (apply parts_one); leaf.
Qed.
Lemma validators_writes : forall P l o, writes (t_validators P) (map of_vk l) o -> in_turn gp_vk l o.
Proof.
  intros P l o H. apply w_arr in H. apply in_turn_map in H. eapply (in_turn_impl _ (fun _ => True)); [apply Forall_forall; auto| |exact H]. intros a x _. apply vk_writes.
Qed.
Lemma tkt_writes : forall t o, tkt_held t -> writes t_ticket (of_tkt t) o -> gp_tkt t o.
Proof.
  intros t o (W1 & W2) H. unfold t_ticket, of_tkt in H. pair_ H. unfold gp_tkt. apply parts_more; [eapply w_bytes; eauto|]. apply parts_one. eapply w_uint; [| |exact B]; [discriminate|exact W2].
Qed.
Lemma u32s_writes : forall n l o, writes (TArr n t_u32_4) l o -> in_turn (octets 4) l o.
Proof. intros n l o H. apply w_arr in H. eapply (in_turn_impl _ (fun _ => True)); [apply Forall_forall; auto| |exact H]. intros a x _. apply w_fix. Qed.
Lemma bind_ok : forall E A B (r : result E A) (k : A -> result E B) y, bind r k = Ok y -> exists x, r = Ok x /\ k x = Ok y.
Proof. intros E A B [x| |] k y H; cbn in H; try discriminate H. eauto. Qed.

Section Written.
  Variable P : params.
  Variable Z : msizes.
  Variable POOL HISTORY QUEUE : nat.
  Notation wr := (write_entry P Z POOL HISTORY QUEUE).
  Notation hd := (entry_held P Z POOL HISTORY QUEUE).
  Lemma safrole_writes : forall s o, hd (ESafrole P s) -> write_safrole P Z s = Ok o -> gp_entry (ESafrole P s) o.
  Proof.
    intros s o (L1 & F1 & R & S & L2 & F2 & (M & _) & _) H. unfold write_safrole in H.
    apply bind_ok in H. destruct H as (a & Ha & H). apply bind_ok in H. destruct H as (b & Hb & H). apply bind_ok in H. destruct H as (c & Hc & H).
    apply bind_ok in H. destruct H as (d & Hd & H). apply ok_inj in H; subst. unfold gp_entry.
    apply parts_more; [eapply validators_writes; exact Ha|]. apply parts_more; [eapply w_bytes; exact Hb|]. apply parts_more; [|apply parts_one].
    - destruct (sf_sealers s) as [l|l]; unfold write_sealers in Hc; apply bind_ok in Hc; destruct Hc as (x & Hx & Hc); apply ok_inj in Hc; subst.
      + apply parts_more; [reflexivity|]. apply parts_one. apply w_arr in Hx. apply in_turn_map in Hx. destruct S as (_ & S).
        eapply in_turn_impl; [exact S| |exact Hx]. intros t y. apply tkt_writes.
      + apply parts_more; [reflexivity|]. apply parts_one. eapply hashes_seq. exact Hx.
    - unfold write_tickets in Hd. apply w_vec in Hd; [|rewrite map_length; exact M]. apply counted_map in Hd. eapply counted_impl; [exact F2| |exact Hd]. intros t y. apply tkt_writes.
  Qed.
  Lemma stats_writes : forall s o, hd (EStatistics P s) -> store (validator_count P) (N.to_nat (core_count P)) s = Ok o -> gp_entry (EStatistics P s) o.
  Proof.
    intros s o Hs H. pose proof (held_wf _ _ _ Hs) as W. destruct W as (_ & _ & (_ & LM & _)). destruct Hs as (_ & F1 & _ & F2 & _ & F3 & _ & F4). unfold store, t_stats in H.
    change (writes ((TArr (validator_count P) t_vstat ** TArr (validator_count P) t_vstat) ** TArr (N.to_nat (core_count P)) t_cstat ** TMap (TFix 32 4) t_sstat) (of_stats (validator_count P) (N.to_nat (core_count P)) s) o) in H.
    unfold of_stats in H. pair_as H S1 S2. pair_as S1 V1 V2. pair_as S2 C1 M1.
    assert (VS : forall l x, writes (TArr (validator_count P) t_vstat) (map of_v l) x -> in_turn gp_vstat l x).
    { intros l z Hz. apply w_arr in Hz. apply in_turn_map in Hz. eapply (in_turn_impl _ (fun _ => True)); [apply Forall_forall; auto| |exact Hz].
      intros v q _ Hq. unfold t_vstat, of_v in Hq. do 5 (pair_ Hq; rename B into Hq; cbn [fst snd of_v] in Hq). unfold gp_vstat.
      repeat (apply in_turn_more; [|]); try (apply in_turn_one); leaf. }
    unfold gp_entry. rewrite <- app_assoc. apply parts_more; [apply VS; auto|]. apply parts_more; [apply VS; auto|]. apply parts_more; [|apply parts_one].
    - apply w_arr in C1. apply in_turn_map in C1. eapply in_turn_impl; [exact F3| |exact C1]. intros c q (D1 & D2 & D3 & D4 & D5 & D6 & D7 & D8) Hq.
      unfold t_cstat, of_c in Hq. do 7 (pair_ Hq; rename B into Hq; cbn [fst snd of_c] in Hq). unfold gp_cstat.
      repeat (apply in_turn_more; [|]); try (apply in_turn_one); eapply w_uint; eauto; discriminate.
    - apply w_map in M1; [|exact LM]. apply counted_map in M1.
      eapply counted_impl; [exact F4| |exact M1]. intros [k c] q (D0 & D1 & D2 & D3 & D4 & D5 & D6 & D7 & D8 & D9 & D10) Hq. cbn [fst snd] in *.
      pair_ Hq. apply parts_more; [eapply w_fix; eauto|]. apply parts_one. unfold t_sstat, of_s in B. do 9 (pair_ B; cbn [fst snd of_s] in *; match goal with X : writes (TPair _ _) _ _ |- _ => rename X into B | X : writes (TUint 64) (s_acc_gas _) _ |- _ => idtac end).
      unfold gp_sstat. repeat (apply in_turn_more; [|]); try (apply in_turn_one); eapply w_uint; eauto; discriminate.
  Qed.
  Lemma entry_writes : forall e o, hd e -> wr e = Ok o -> gp_entry e o.
  Proof.
    intros e o He H. destruct e; cbn [write_entry] in H.
    - destruct He as (_ & F). apply (w_arr _ (TLim 32 (N.of_nat POOL) t_hash)) in H. eapply in_turn_impl; [exact F| |exact H].
      intros q x (_ & (L & _) & _) Hq. apply w_lim in Hq; auto. eapply (counted_impl _ (fun _ => True)); [apply Forall_forall; auto| |exact Hq]. intros a y _. apply w_bytes.
    - apply (w_arr _ (TArr QUEUE t_hash)) in H. eapply (in_turn_impl _ (fun _ => True)); [apply Forall_forall; auto| |exact H]. intros q x _. apply hashes_seq.
    - destruct He as (F1 & (M1 & _) & _ & F2 & (M2 & _)). change (writes (TLim (sz_recent Z) (N.of_nat HISTORY) (t_recent Z) ** TVec (sz_peak Z) (TOption t_hash)) (map (of_recent Z) l, peaks) o) in H.
      pair_ H. apply parts_more; [|apply parts_one].
      + apply w_lim in A; [|rewrite map_length; exact M1]. apply counted_map in A. eapply counted_impl; [exact F1| |exact A].
        intros r z (_ & _ & _ & _ & (L & _)) Hr. unfold t_recent, of_recent in Hr. do 3 (pair_ Hr; cbn [fst snd of_recent] in *; match goal with X : writes (TPair _ _) _ _ |- _ => rename X into Hr | X : writes (TVec _ _) (re_packages _) _ |- _ => rename X into Hr end).
        repeat (apply parts_more; [|]); try (apply parts_one); leaf. apply w_vec in Hr; auto.
        eapply (counted_impl _ (fun _ => True)); [apply Forall_forall; auto| |exact Hr]. intros p q _. apply pairs_hash.
      + apply w_vec in B; auto. eapply (counted_impl _ (fun _ => True)); [apply Forall_forall; auto| |exact B]. intros p q _ Hp. apply w_option in Hp.
        eapply maybe_impl; [|exact Hp]. intros h z _. apply w_bytes.
    - apply safrole_writes; auto.
    - cbn [entry_held] in He. inversion He as [|g1 l1 (_ & G1) F1]; subst. inversion F1 as [|g2 l2 (_ & G2) F2]; subst. inversion F2 as [|g3 l3 (_ & G3) F3]; subst. inversion F3 as [|g4 l4 (_ & G4) F4]; subst.
      change (writes (TVec 32 t_hash ** TVec 32 t_hash ** TVec 32 t_hash ** TVec 32 t_hash) (good, (bad, (wonky, offenders))) o) in H.
      pair_as H K1 H. pair_as H K2 H. pair_as H K3 K4. unfold gp_entry.
      apply parts_more; [eapply (counted_hashes 32); [eapply mem0; exact G1|exact K1]|]. apply parts_more; [eapply (counted_hashes 32); [eapply mem0; exact G2|exact K2]|].
      apply parts_more; [eapply (counted_hashes 32); [eapply mem0; exact G3|exact K3]|]. apply parts_one. eapply (counted_hashes 32); [eapply mem0; exact G4|exact K4].
    - eapply hashes_seq. exact H.
    - eapply validators_writes. exact H.
    - eapply validators_writes. exact H.
    - eapply validators_writes. exact H.
    - destruct He as (_ & F). apply (w_arr _ (TOption (t_report P ** t_u32_4))) in H. eapply in_turn_impl; [exact F| |exact H]. intros x z Hx Hz. apply w_option in Hz.
      eapply maybe_impl; [|exact Hz]. intros [r t] q -> Hq. destruct (Hx r t eq_refl) as (W & _). pair_ Hq. apply parts_more; [apply report_writes; auto|].
      apply parts_one. eapply w_fix; eauto.
    - eapply w_fix. exact H.
    - destruct He as (_ & _ & F & L & _). change (writes (t_u32_4 ** TArr (N.to_nat (core_count P)) t_u32_4 ** t_u32_4 ** t_u32_4 ** TMap (TUint 32) (TUint 64)) (of_privileged P p) o) in H. unfold of_privileged in H.
      pair_as H K1 H. pair_as H K2 H. pair_as H K3 H. pair_as H K4 K5. unfold gp_entry.
      repeat (apply parts_more; [|]); try (apply parts_one); leaf; try (eapply u32s_writes; eassumption). apply w_map in K5; auto. eapply counted_impl; [exact F| |exact K5].
      intros [a b] q (D1 & D2) Hq. pair_ Hq. cbn [fst snd] in *. apply parts_more; [|apply parts_one]; eapply w_uint; eauto; discriminate.
    - apply stats_writes; auto.
    - destruct He as (_ & F). apply (w_arr _ (TVec (sz_queued Z) (t_report P ** TSet t_hash))) in H. eapply in_turn_impl; [exact F| |exact H].
      intros q z (Fq & L & _) Hq. apply w_vec in Hq; auto. eapply counted_impl; [exact Fq| |exact Hq]. intros [r d] x (W & _ & Ld & _) Hx. pair_ Hx. cbn [fst snd] in *.
      apply parts_more; [apply report_writes; auto|]. apply parts_one. apply hashes_set; auto.
    - destruct He as (_ & F). apply (w_arr _ (TSet t_hash)) in H. eapply in_turn_impl; [exact F| |exact H]. intros q z (_ & L & _). apply hashes_set; auto.
    - destruct He as (F & L & _). apply w_vec in H; auto. eapply (counted_impl _ (fun _ => True)); [apply Forall_forall; auto| |exact H].
      intros p z _ Hz. pair_ Hz. apply parts_more; [eapply w_fix; eauto|]. apply parts_one. eapply w_bytes; eauto.
    - destruct He as (W1 & W2 & _ & _). change (writes t_account (of_account a) o) in H. unfold t_account, of_account in H.
      do 10 (pair_ H; cbn [fst snd of_account] in *; match goal with X : writes (TPair _ _) _ _ |- _ => rename X into H | X : writes t_u32_4 (at_parent _) _ |- _ => rename X into H end).
      assert (EQ : forall a b c d e f g h i j k : bytes, a ++ b ++ c ++ d ++ e ++ f ++ g ++ h ++ i ++ j ++ k = a ++ b ++ (c ++ d ++ e ++ f ++ g) ++ (h ++ i ++ j ++ k))
        by (intros; rewrite !app_assoc; reflexivity). rewrite EQ. unfold gp_entry.
      apply parts_more; [eapply w_uint; eauto; discriminate|]. apply parts_more; [eapply w_bytes; eauto|]. apply parts_more; [|apply parts_one];
      repeat (apply in_turn_more; [|]); try (apply in_turn_one); eapply w_fix; eauto.
    - apply ok_inj in H; subst. reflexivity.
    - destruct He as (L & F). unfold write_lookup in H. apply bind_ok in H. destruct H as (x & Hx & H). apply ok_inj in H; subst. apply counted_enc; [lia|].
      apply seq_in_turn in Hx. eapply (in_turn_impl _ (fun _ => True)); [apply Forall_forall; auto| |exact Hx]. intros t y _ Ht. apply (w_fix 32 4 t y Ht).
    - apply ok_inj in H; subst. reflexivity.
  Qed.
End Written.
