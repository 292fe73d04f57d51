(** Proofs about the auditable bundle: it can be read back, and how long it is. *)
From Verif Require Import Base Base_Proofs PvmMem_Model PvmProg_Model PvmStep_Model PvmInit_Model Refine_Model Codec_Model Codec_Spec Codec_Proofs Codec2_Proofs Codec3_Proofs Block_Model
  Package_Model Package_Spec Package_Proofs.
Open Scope N_scope.

Lemma nth_Forall2 {A B} (R : A -> B -> Prop) l : forall m, length m = length l ->
  (forall j a, nth_error l j = Some a -> exists b, nth_error m j = Some b /\ R a b) -> Forall2 R l m.
Proof.
  induction l as [|a l IH]; intros [|b m] L F; try discriminate; constructor.
  - destruct (F 0%nat a eq_refl) as (b' & E & Rb). injection E as <-. exact Rb.
  - apply IH; [now injection L|]. intros j x E. exact (F (S j) x E).
Qed.
Lemma Forall2_nth {A B} (R : A -> B -> Prop) l m : Forall2 R l m -> length m = length l /\ forall j a, nth_error l j = Some a -> exists b, nth_error m j = Some b /\ R a b.
Proof.
  induction 1 as [|a b l m Rab F [L IH]]; [split; [reflexivity|]; intros [|j] a E; discriminate|]. split; [cbn; now rewrite L|]. intros [|j] x E.
  - injection E as <-. exists b. auto.
  - exact (IH j x E).
Qed.
Lemma concat_concat {A} (l : list (list (list A))) : concat (map (@concat A) l) = concat (concat l).
Proof. induction l as [|x l IH]; [reflexivity|]. cbn [map concat]. now rewrite IH, concat_app. Qed.

(** * One decoder after another *)
Lemma each_ok {A B} (ok : B -> A -> Prop) (enc : A -> result cerr bytes) (d : B -> dec A) :
  (forall w x, ok w x -> exists bs, enc x = Ok bs /\ Bytes bs /\ forall rest, d w (bs ++ rest) = Ok (x, rest)) ->
  forall ws xs, Forall2 ok ws xs -> exists s, encode_seq enc xs = Ok s /\ Bytes s /\ forall rest, decode_each (map d ws) (s ++ rest) = Ok (xs, rest).
Proof.
  intros R ws xs F. induction F as [|w x ws xs O F (s & E & Bs & D)].
  - exists []. split; [reflexivity|]. split; [constructor|]. reflexivity.
  - destruct (R w x O) as (bs & Ex & Bx & Dx). exists (bs ++ s). cbn [encode_seq]. rewrite Ex. cbn [bind]. rewrite E. cbn [bind]. split; [reflexivity|].
    split; [apply Forall_app; split; assumption|]. intros rest. cbn [map decode_each]. rewrite <- app_assoc, Dx. cbn [bind]. now rewrite D.
Qed.
Lemma each_local {A B} (ok : B -> A -> Prop) (d : B -> dec A) :
  (forall w inp x rest, Bytes inp -> d w inp = Ok (x, rest) -> ok w x /\ exists used, inp = used ++ rest) ->
  forall ws inp xs rest, Bytes inp -> decode_each (map d ws) inp = Ok (xs, rest) -> Forall2 ok ws xs /\ exists used, inp = used ++ rest.
Proof.
  intros R ws. induction ws as [|w ws IH]; intros inp xs rest Bi E; cbn [map decode_each] in E.
  - injection E as <- <-. split; [constructor|]. exists []. reflexivity.
  - destruct (d w inp) as [[x r]|er|] eqn:Ed; cbn [bind] in E; try discriminate. destruct (R w inp x r Bi Ed) as (O & u & ->). apply Forall_app in Bi as [Bu Br].
    destruct (decode_each (map d ws) r) as [[l r']|er|] eqn:Er; cbn [bind] in E; try discriminate. injection E as <- <-.
    destruct (IH r l r' Br Er) as (F & u' & ->). split; [constructor; assumption|]. exists (u ++ u'). now rewrite app_assoc.
Qed.

(** Blobs of given lengths. *)
Lemma blob_ok (x : bytes * N) (b : bytes) : N.of_nat (length b) = snd x /\ Bytes b -> exists bs, Ok (E := cerr) b = Ok bs /\ Bytes bs /\ forall rest, read_exact_N (snd x) (bs ++ rest) = Ok (b, rest).
Proof.
  intros [L Bb]. exists b. split; [reflexivity|]. split; [exact Bb|]. intros rest. rewrite <- L, read_exact_N_eq, Nat2N.id. apply read_exact_ok.
Qed.
Lemma seq_plain (l : list bytes) : encode_seq (fun b => Ok (E := cerr) b) l = Ok (concat l).
Proof. induction l as [|x l IH]; [reflexivity|]. cbn [encode_seq bind concat]. rewrite IH. reflexivity. Qed.
Lemma seq_concat (l : list (list bytes)) : encode_seq (fun b => Ok (E := cerr) (concat b)) l = Ok (concat (concat l)).
Proof. induction l as [|x l IH]; [reflexivity|]. cbn [encode_seq bind concat]. rewrite IH. cbn [bind]. now rewrite concat_app. Qed.

Section Bundle.
  Variable P : params.
  Variable size : nat.

  Lemma package_ok : ty_ok (t_package P).
  Proof. cbn. repeat split; try lia. Qed.
  Lemma segment_ok : ty_ok (t_segment size). Proof. cbn. lia. Qed.
  Lemma path_ok : ty_ok t_path. Proof. exact Logic.I. Qed.

  Definition segment (s : bytes) : Prop := Bytes s /\ length s = size.
  Definition path (p : list bytes) : Prop := N.of_nat (length p) < 2 ^ 58 /\ forall h, In h p -> Bytes h /\ length h = 32%nat.
  Lemma segment_wf s : segment s <-> wf (t_segment size) s.
  Proof. reflexivity. Qed.
  Lemma path_wf p : path p -> wf t_path p.
  Proof.
    intros [L F]. cbn [t_path wf]. split; [apply Forall_forall; intros h I; exact (F h I)|]. unfold isize_max.
    change (2 ^ 58) with 288230376151711744 in L. change (2 ^ 64) with 18446744073709551616. change (2 ^ 63 - 1) with 9223372036854775807. 
    assert (G : forall n, n < 288230376151711744 -> n < 18446744073709551616 /\ n * 32 <= 9223372036854775807) by (intros; lia). exact (G _ L).
  Qed.

  Definition x_ok (w : item P) (xs : list bytes) : Prop := map (fun x => N.of_nat (length x)) xs = map snd (i_xts P w) /\ Forall Bytes xs.
  Definition s_ok (w : item P) (l : list bytes) : Prop := length l = length (i_imports P w) /\ Forall segment l.
  Definition p_ok (w : item P) (l : list (list bytes)) : Prop := length l = length (i_imports P w) /\ Forall path l.

  Lemma blobs_ok (w : item P) xs : x_ok w xs ->
    exists bs, Ok (E := cerr) (concat xs) = Ok bs /\ Bytes bs /\ forall rest, decode_each (map (fun x => read_exact_N (snd x)) (i_xts P w)) (bs ++ rest) = Ok (xs, rest).
  Proof.
    intros [M F]. assert (F2 : Forall2 (fun (x : bytes * N) b => N.of_nat (length b) = snd x /\ Bytes b) (i_xts P w) xs).
    { revert M F. generalize (i_xts P w). induction xs as [|b xs IH]; intros [|x l] M F; try discriminate; constructor.
      - cbn [map] in M. injection M as Ml _. inversion F; subst. auto.
      - apply IH; [cbn [map] in M; now injection M|]. inversion F; auto. }
    destruct (each_ok _ (fun b => Ok b) (fun x : bytes * N => read_exact_N (snd x)) blob_ok _ _ F2) as (s & E & Bs & D). rewrite seq_plain in E. injection E as <-. exists (concat xs). auto.
  Qed.
  Lemma segments_ok (w : item P) l : s_ok w l ->
    exists bs, encode_seq (encode (t_segment size)) l = Ok bs /\ Bytes bs /\ forall rest, decode_seq (decode (t_segment size)) (length (i_imports P w)) (bs ++ rest) = Ok (l, rest).
  Proof. intros [L F]. rewrite <- L. apply (RT_seq _ _ _ _ (codec_RT _ segment_ok)). exact F. Qed.
  Lemma paths_ok (w : item P) l : p_ok w l ->
    exists bs, encode_seq (encode t_path) l = Ok bs /\ Bytes bs /\ forall rest, decode_seq (decode t_path) (length (i_imports P w)) (bs ++ rest) = Ok (l, rest).
  Proof. intros [L F]. rewrite <- L. apply (RT_seq _ _ _ _ (codec_RT _ path_ok)). eapply Forall_impl; [|exact F]. exact path_wf. Qed.

  Lemma brings_parts (b : bundle P) : brings b -> well_made size b ->
    Forall2 x_ok (p_items P (b_package P b)) (b_xts P b) /\ Forall2 s_ok (p_items P (b_package P b)) (b_imports P b) /\ Forall2 p_ok (p_items P (b_package P b)) (b_paths P b).
  Proof.
    intros (Lx & Li & Lp & F) (_ & Bx & Bi & Bp). split; [|split]; apply nth_Forall2; try assumption; intros j w E; destruct (F j w E) as (xs & is & ps & Ex & Ei & Ep & Mx & Mi & Mp).
    - exists xs. split; [exact Ex|]. split; [exact Mx|]. apply Forall_forall. intros x I. eapply Bx; [eapply nth_error_In; exact Ex|exact I].
    - exists is. split; [exact Ei|]. split; [exact Mi|]. apply Forall_forall. intros x I. eapply Bi; [eapply nth_error_In; exact Ei|exact I].
    - exists ps. split; [exact Ep|]. split; [exact Mp|]. apply Forall_forall. intros x I. eapply Bp; [eapply nth_error_In; exact Ep|exact I].
  Qed.

  Theorem bundle_back (b : bundle P) : brings b -> well_made size b ->
    exists bs, encode_bundle P size b = Ok bs /\ forall rest, decode_bundle P size (bs ++ rest) = Ok (b, rest).
  Proof.
    intros S W. destruct (brings_parts b S W) as (Fx & Fi & Fp). destruct W as (Wk & _). destruct b as [k xts imports paths]. cbn [b_package b_xts b_imports b_paths] in *.
    destruct (codec_roundtrip _ _ package_ok Wk) as (p & Ep & _ & Dp).
    destruct (each_ok _ (fun b => Ok (concat b)) (fun w => decode_each (map (fun x => read_exact_N (snd x)) (i_xts P w))) blobs_ok _ _ Fx) as (x & Ex & _ & Dx). rewrite seq_concat in Ex. injection Ex as <-.
    destruct (each_ok _ (encode_seq (encode (t_segment size))) (fun w => decode_seq (decode (t_segment size)) (length (i_imports P w))) segments_ok _ _ Fi) as (s & Es & _ & Ds).
    destruct (each_ok _ (encode_seq (encode t_path)) (fun w => decode_seq (decode t_path) (length (i_imports P w))) paths_ok _ _ Fp) as (j & Ej & _ & Dj).
    exists (p ++ concat (concat xts) ++ s ++ j). unfold encode_bundle. cbn [b_package b_xts b_imports b_paths]. rewrite Ep. cbn [bind]. rewrite Es. cbn [bind]. rewrite Ej. cbn [bind].
    split; [reflexivity|]. intros rest. unfold decode_bundle. rewrite <- !app_assoc, Dp. cbn [bind]. rewrite Dx. cbn [bind]. rewrite Ds. cbn [bind]. rewrite Dj. reflexivity.
  Qed.

  Lemma blobs_local (w : item P) inp xs rest : Bytes inp -> decode_each (map (fun x => read_exact_N (snd x)) (i_xts P w)) inp = Ok (xs, rest) -> x_ok w xs /\ exists used, inp = used ++ rest.
  Proof.
    intros Bi E. destruct (each_local (fun (x : bytes * N) b => N.of_nat (length b) = snd x /\ Bytes b) (fun x => read_exact_N (snd x))) with (3 := E) as [F U]; [|exact Bi|].
    - intros x i b r Bb Eb. rewrite read_exact_N_eq in Eb. apply read_exact_inv in Eb as [-> L]. apply Forall_app in Bb as [Bb _]. split; [split; [lia|exact Bb]|]. exists b. reflexivity.
    - split; [|exact U]. unfold x_ok. clear E U. induction F as [|x b l m [L Bb] F [IH1 IH2]]; [split; constructor|]. cbn [map]. split; [now rewrite L, IH1|now constructor].
  Qed.
  Lemma seq_local {A} (Q : A -> Prop) (d : dec A) (n : item P -> nat) : LOC Q d -> forall w inp l rest, Bytes inp -> decode_seq d (n w) inp = Ok (l, rest) ->
    (length l = n w /\ Forall Q l) /\ exists used, inp = used ++ rest.
  Proof. intros L w inp l rest Bi E. destruct (LOC_seq _ _ _ L _ _ _ _ Bi E) as (F & N & u & E' & _). eauto. Qed.

  Theorem bundle_local inp (b : bundle P) rest : Bytes inp -> decode_bundle P size inp = Ok (b, rest) ->
    wf (t_package P) (b_package P b) /\ Forall2 x_ok (p_items P (b_package P b)) (b_xts P b) /\ Forall2 s_ok (p_items P (b_package P b)) (b_imports P b) /\
    Forall2 (fun w l => length l = length (i_imports P w)) (p_items P (b_package P b)) (b_paths P b) /\ exists used, inp = used ++ rest.
  Proof.
    intros Bi E. unfold decode_bundle in E. destruct (decode (t_package P) inp) as [[k r]|er|] eqn:Ek; cbn [bind] in E; try discriminate.
    destruct (codec_local _ _ _ _ package_ok Bi Ek) as (Wk & u1 & -> & _). apply Forall_app in Bi as [_ Bi].
    match type of E with bind (decode_each ?ds r) _ = _ => destruct (decode_each ds r) as [[xts r2]|er|] eqn:Ex end; cbn [bind] in E; try discriminate.
    destruct (each_local x_ok _ blobs_local _ _ _ _ Bi Ex) as (Fx & u2 & ->). apply Forall_app in Bi as [_ Bi].
    match type of E with bind (decode_each ?ds r2) _ = _ => destruct (decode_each ds r2) as [[imp r3]|er|] eqn:Es end; cbn [bind] in E; try discriminate.
    destruct (each_local s_ok _ (seq_local segment _ (fun w => length (i_imports P w)) (codec_LOC _ segment_ok)) _ _ _ _ Bi Es) as (Fs & u3 & ->). apply Forall_app in Bi as [_ Bi].
    match type of E with bind (decode_each ?ds r3) _ = _ => destruct (decode_each ds r3) as [[pa r4]|er|] eqn:Ep end; cbn [bind] in E; try discriminate.
    destruct (each_local (fun w l => length l = length (i_imports P w) /\ Forall (wf t_path) l) _ (seq_local (wf t_path) _ (fun w => length (i_imports P w)) (codec_LOC _ path_ok)) _ _ _ _ Bi Ep) as (Fp & u4 & ->).
    injection E as <- <-. cbn [b_package b_xts b_imports b_paths]. split; [exact Wk|]. split; [exact Fx|]. split; [exact Fs|]. split.
    - clear -Fp. induction Fp as [|w l ws ls [L _] F IH]; constructor; auto.
    - exists (u1 ++ u2 ++ u3 ++ u4). now rewrite !app_assoc.
  Qed.
  Theorem bundle_brings inp (b : bundle P) rest : Bytes inp -> decode_bundle P size inp = Ok (b, rest) ->
    brings b /\ (forall is s, In is (b_imports P b) -> In s is -> Bytes s /\ length s = size) /\ exists used, inp = used ++ rest.
  Proof.
    intros Bi E. destruct (bundle_local inp b rest Bi E) as (_ & Fx & Fs & Fp & U). destruct (Forall2_nth _ _ _ Fx) as [Lx Gx]. destruct (Forall2_nth _ _ _ Fs) as [Ls Gs].
    destruct (Forall2_nth _ _ _ Fp) as [Lp Gp]. split; [|split; [|exact U]].
    - split; [exact Lx|]. split; [exact Ls|]. split; [exact Lp|]. intros j w Ew. destruct (Gx j w Ew) as (xs & E1 & X & _). destruct (Gs j w Ew) as (is & E2 & I & _). destruct (Gp j w Ew) as (ps & E3 & Q).
      exists xs, is, ps. auto 10.
    - intros is s I Is. clear -Fs I Is. induction Fs as [|w l ws ls [_ F] _ IH]; [destruct I|]. destruct I as [<-|I]; [|auto]. rewrite Forall_forall in F. exact (F s Is).
  Qed.

  (** * How long a bundle is *)
  Lemma octet_short x : x < 128 -> integer_encode x = [x].
  Proof.
    intros L. symmetry. destruct (N.eq_dec x 0) as [->|Z]; [reflexivity|]. apply (gp_int_fun x). replace [x] with ((2 ^ 8 - 2 ^ (8 - 0) + x / 2 ^ (8 * 0)) :: le_bytes (N.to_nat 0) (x mod 2 ^ (8 * 0))).
    - constructor; [lia|]. change (2 ^ (7 * 0)) with 1. change (2 ^ (7 * (0 + 1))) with 128. lia.
    - change (2 ^ (8 * 0)) with 1. rewrite N.div_1_r. change (2 ^ 8 - 2 ^ (8 - 0)) with 0. reflexivity.
  Qed.
  Lemma octet_long x : 128 <= x < 256 -> length (integer_encode x) = 2%nat.
  Proof.
    intros L. assert (E : gp_int_len x (N.of_nat (length (integer_encode x)))) by (apply integer_encode_len; change (2 ^ 64) with 18446744073709551616; lia).
    assert (E2 : gp_int_len x 2). { change 2 with (1 + 1). constructor; [lia|]. change (2 ^ (7 * 1)) with 128. change (2 ^ (7 * (1 + 1))) with 16384. lia. }
    pose proof (gp_int_len_fun _ _ _ E E2). lia.
  Qed.
  Lemma segment_encoded s : encode (t_segment size) s = Ok (concat (map integer_encode s)).
  Proof.
    unfold t_segment. cbn [encode]. change (interp (TUint 8)) with N. induction s as [|x s IH]; [reflexivity|]. cbn [encode_seq]. cbn [encode bind]. cbn [encode] in IH. rewrite IH. reflexivity.
  Qed.
  Definition high (l : bytes) : N := N.of_nat (length (filter (fun x => 128 <=? x) l)).
  Lemma high_app l m : high (l ++ m) = high l + high m.
  Proof. unfold high. rewrite filter_app, app_length. lia. Qed.
  Lemma ints_length l : Bytes l -> N.of_nat (length (concat (map integer_encode l))) = N.of_nat (length l) + high l.
  Proof.
    induction 1 as [|x l Bx Bl IH]; [reflexivity|]. cbn [map concat]. rewrite app_length. change (x :: l) with ([x] ++ l). rewrite high_app. cbn [app length]. unfold high at 1. cbn [filter].
    destruct (N.leb_spec 128 x) as [L|L].
    - rewrite octet_long by (unfold is_byte in Bx; lia). cbn [length]. lia.
    - rewrite octet_short by lia. cbn [length]. lia.
  Qed.
  Lemma ints_low l : high l = 0 -> concat (map integer_encode l) = l.
  Proof.
    induction l as [|x l IH]; intros Z; [reflexivity|]. change (x :: l) with ([x] ++ l) in Z. rewrite high_app in Z. unfold high at 1 in Z. cbn [filter] in Z. cbn [map concat].
    destruct (N.leb_spec 128 x) as [L|L]; [cbn [length] in Z; lia|]. rewrite octet_short, IH by lia. reflexivity.
  Qed.
  Lemma segments_encoded l : encode_seq (encode (t_segment size)) l = Ok (concat (map integer_encode (concat l))).
  Proof.
    induction l as [|s l IH]; [reflexivity|]. cbn [encode_seq]. rewrite segment_encoded. cbn [bind]. rewrite IH. cbn [bind concat]. now rewrite map_app, concat_app.
  Qed.
  Lemma all_segments_encoded l : encode_seq (encode_seq (encode (t_segment size))) l = Ok (concat (map integer_encode (concat (concat l)))).
  Proof.
    induction l as [|s l IH]; [reflexivity|]. cbn [encode_seq]. rewrite segments_encoded. cbn [bind]. rewrite IH. cbn [bind concat]. now rewrite concat_app, map_app, concat_app.
  Qed.
  Lemma path_encoded p : encode t_path p = Ok (integer_encode (N.of_nat (length p)) ++ concat p).
  Proof.
    assert (E : encode_seq (encode t_hash) p = Ok (concat p)).
    { change (interp t_hash) with bytes in *. clear. induction p as [|h p IH]; [reflexivity|]. cbn [encode_seq]. rewrite IH. reflexivity. }
    change (encode t_path p) with (bind (encode_seq (encode t_hash) p) (fun x => Ok (integer_encode (N.of_nat (length p)) ++ x))). rewrite E. reflexivity.
  Qed.
  Definition framed (p : list bytes) : bytes := integer_encode (N.of_nat (length p)) ++ concat p.
  Lemma paths_encoded l : encode_seq (encode t_path) l = Ok (concat (map framed l)).
  Proof. induction l as [|p l IH]; [reflexivity|]. cbn [encode_seq]. rewrite path_encoded. cbn [bind]. rewrite IH. reflexivity. Qed.
  Lemma all_paths_encoded l : encode_seq (encode_seq (encode t_path)) l = Ok (concat (map framed (concat l))).
  Proof. induction l as [|p l IH]; [reflexivity|]. cbn [encode_seq]. rewrite paths_encoded. cbn [bind]. rewrite IH. cbn [bind concat]. now rewrite map_app, concat_app. Qed.

  Theorem bundle_octets_of (b : bundle P) bs : encode_bundle P size b = Ok bs -> exists p, encode (t_package P) (b_package P b) = Ok p /\
    bs = p ++ concat (concat (b_xts P b)) ++ concat (map integer_encode (concat (concat (b_imports P b)))) ++ concat (map framed (concat (b_paths P b))).
  Proof.
    unfold encode_bundle. rewrite all_segments_encoded, all_paths_encoded. destruct (encode (t_package P) (b_package P b)) as [p|er|]; cbn [bind]; try discriminate.
    intros E. injection E as <-. eauto.
  Qed.
  Lemma all_octets (b : bundle P) : well_made size b -> Bytes (concat (concat (b_imports P b))).
  Proof.
    intros (_ & _ & Bi & _). unfold Bytes. rewrite Forall_forall. intros x I. apply in_concat in I as (s & Is & Ix). apply in_concat in Is as (is & Ii & Is).
    destruct (Bi is s Ii Is) as [F _]. unfold Bytes in F. rewrite Forall_forall in F. exact (F x Ix).
  Qed.
  Theorem bundle_length (b : bundle P) bs gp : well_made size b -> encode_bundle P size b = Ok bs -> gp_bundle b gp ->
    N.of_nat (length bs) = N.of_nat (length gp) + high_octets b /\ (high_octets b = 0 -> bs = gp).
  Proof.
    intros W E (p & Ep & ->). destruct (bundle_octets_of b bs E) as (p' & Ep' & ->). rewrite Ep in Ep'. injection Ep' as <-. pose proof (ints_length _ (all_octets b W)) as L.
    split; [rewrite !app_length; change (high_octets b) with (high (concat (concat (b_imports P b)))); unfold framed, bytes in *; lia|].
    intros Z. rewrite ints_low by exact Z. reflexivity.
  Qed.
End Bundle.
