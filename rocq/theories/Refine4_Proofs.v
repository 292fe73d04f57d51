(** Refinements, authorizations and the items of a report. *)
From Verif Require Import Base Base_Proofs PvmMem_Model PvmMem_Spec PvmMem_Proofs PvmProg_Model PvmStep_Model PvmRun_Spec PvmRun_Proofs PvmInit_Model PvmInit_Proofs Codec_Model Host_Model Acc_Model Refine_Model Refine_Spec Refine_Proofs Refine2_Proofs Refine3_Proofs.
Open Scope N_scope.

(** ** A run is a history of calls *)
Section Run.
  Context (e : renv) (a : rargs) (self : N).
  Lemma run_is_calls : forall t p f s c x s' c', invoke_extended (refine_host e a self) f t p s c = Some (Ok (x, s', c')) ->
    exists l hs, refine_calls e a self l c = Ok (hs, c') /\ Forall (fun q => host_allowed t (fst q) = true) l.
  Proof.
    intros t p. induction f as [|f IH]; intros s c x s' c' H; [discriminate|]. cbn [invoke_extended] in H.
    destruct (invoke_general (S f) p s) as [[[x0 s1]|z|]|]; try discriminate.
    destruct x0; try (inversion H; subst; exists [], []; split; [reflexivity | constructor]).
    unfold execute_host in H. match type of H with context [host_allowed t ?h] => destruct (host_allowed t h) eqn:Al end; [|change (255 =? 255) with true in H; cbv iota in H].
    - match type of H with context [if ?a =? 255 then _ else _] => rename a into h; destruct (N.eqb_spec h 255) as [->|D] end.
      { destruct t; discriminate. }
      destruct (refine_host e a self h s1 c) as [[hc c1]| |] eqn:E; try discriminate.
      assert (One : forall l hs, refine_calls e a self l c1 = Ok (hs, c') -> Forall (fun q => host_allowed t (fst q) = true) l ->
        exists l hs, refine_calls e a self l c = Ok (hs, c') /\ Forall (fun q => host_allowed t (fst q) = true) l).
      { intros l hs X Y. exists ((h, s1) :: l), (hc :: hs). split; [|constructor; assumption]. cbn [refine_calls]. rewrite E. cbn [bind]. rewrite X. reflexivity. }
      assert (Z : c1 = c' -> exists l hs, refine_calls e a self l c = Ok (hs, c') /\ Forall (fun q => host_allowed t (fst q) = true) l).
      { intros ->. apply (One [] []); [reflexivity | constructor]. }
      destruct (h_exit hc); try discriminate; destruct (apply_host s1 hc) as [s2| |]; try discriminate; try (inversion H; subst; apply Z; reflexivity).
      destruct (v_gas s2 <? 0)%Z; [inversion H; subst; apply Z; reflexivity|]. destruct (IH _ _ _ _ _ H) as [l [hs [X Y]]]. eapply One; eassumption.
    - cbn [h_exit what_result] in H. destruct (apply_host s1 what_result) as [s2| |]; try discriminate.
      destruct (v_gas s2 <? 0)%Z; [inversion H; subst; exists [], []; split; [reflexivity | constructor]|]. apply (IH _ _ _ _ _ H).
  Qed.
End Run.
(** What a refinement returns *)
Lemma of_output_not o : of_output o <> WError WBad /\ of_output o <> WError WBig.
Proof. destruct o; split; discriminate. Qed.
Lemma refine_refused fuel e H a used r segs : refine fuel e H a = Some (Ok (used, r, segs)) ->
  (r = WError WBad <-> forall w, nth_error (k_items (ra_pkg a)) (ra_item a) = Some w -> re_exists e (w_service w) = true -> re_lookup e (w_service w) (k_anchor (ra_pkg a)) (w_code w) = None) /\
  (r = WError WBig <-> exists w b code, nth_error (k_items (ra_pkg a)) (ra_item a) = Some w /\ re_exists e (w_service w) = true /\
     re_lookup e (w_service w) (k_anchor (ra_pkg a)) (w_code w) = Some b /\ split_code b = Ok code /\ 4000000 < N.of_nat (length code)).
Proof.
  unfold refine. destruct (nth_error (k_items (ra_pkg a)) (ra_item a)) as [w|] eqn:Ew.
  2:{ intros E. injection E as <- <- <-. split; [split; [intros _ w X; discriminate|reflexivity]|]. split; [discriminate|]. intros (w & b & code & X & _). discriminate. }
  destruct (re_exists e (w_service w)) eqn:Ex; cbn [negb].
  2:{ intros E. injection E as <- <- <-. split; [split; [intros _ w' X Y; injection X as <-; congruence|reflexivity]|]. split; [discriminate|]. intros (w' & b & code & X & Y & _). injection X as <-. congruence. }
  destruct (re_lookup e (w_service w) (k_anchor (ra_pkg a)) (w_code w)) as [b|] eqn:El.
  2:{ intros E. injection E as <- <- <-. split; [split; [intros _ w' X Y; injection X as <-; exact El|reflexivity]|]. split; [discriminate|]. intros (w' & b & code & X & Y & Z & _). injection X as <-. congruence. }
  assert (NB : ~ (forall w', Some w = Some w' -> re_exists e (w_service w') = true -> re_lookup e (w_service w') (k_anchor (ra_pkg a)) (w_code w') = None)) by (intros Q; specialize (Q w eq_refl Ex); congruence).
  destruct (split_code b) as [code| |] eqn:Es; cbn [lift]; try discriminate.
  destruct (N.ltb_spec 4000000 (N.of_nat (length code))) as [L|L].
  - intros E. injection E as <- <- <-. split; [split; [discriminate|intros Q; contradiction]|]. split; [|reflexivity]. intros _. exists w, b, code. auto.
  - intros E. destruct (invoke_with_args _ _ _ _ _ _ _ _) as [[[[g o] c]| |]|]; cbn [bind] in E; try discriminate. injection E as <- <- <-. destruct (of_output_not o) as [O1 O2].
    split; [split; [intros Q; contradiction|intros Q; contradiction]|]. split; [intros Q; contradiction|]. intros (w' & b' & code' & X & Y & Z & V & Q). injection X as <-. rewrite El in Z. injection Z as <-. rewrite Es in V. injection V as <-. lia.
Qed.
Lemma refine_exports fuel e H a used r segs : refine fuel e H a = Some (Ok (used, r, segs)) ->
  Forall (fun b => N.of_nat (length b) = 4104) segs /\ (segs = [] \/ ra_offset a + N.of_nat (length segs) <= 3072) /\ (is_output r = false -> segs = []) /\
  (forall w, nth_error (k_items (ra_pkg a)) (ra_item a) = Some w -> w_refine_gas w < 2 ^ 64 -> used <= w_refine_gas w) /\
  (is_output r = true -> exists w l hs c, nth_error (k_items (ra_pkg a)) (ra_item a) = Some w /\ refine_calls e a (w_service w) l new_rctx = Ok (hs, c) /\
     Forall (fun q => In (fst q) [0; 1; 6; 7; 8; 9; 10; 11; 12; 13; 100]) l /\ segs = rx_exports c).
Proof.
  unfold refine. assert (Z : forall x, is_output x = false -> Some (Ok (0, x, [])) = Some (Ok (used, r, segs)) :> option (result verr (N * wresult * list bytes)) ->
    Forall (fun b => N.of_nat (length b) = 4104) segs /\ (segs = [] \/ ra_offset a + N.of_nat (length segs) <= 3072) /\ (is_output r = false -> segs = []) /\
    (forall w, nth_error (k_items (ra_pkg a)) (ra_item a) = Some w -> w_refine_gas w < 2 ^ 64 -> used <= w_refine_gas w) /\
    (is_output r = true -> exists w l hs c, nth_error (k_items (ra_pkg a)) (ra_item a) = Some w /\ refine_calls e a (w_service w) l new_rctx = Ok (hs, c) /\
       Forall (fun q => In (fst q) [0; 1; 6; 7; 8; 9; 10; 11; 12; 13; 100]) l /\ segs = rx_exports c)).
  { intros x X E. injection E as <- <- <-. split; [constructor|]. split; [auto|]. split; [auto|]. split; [lia|congruence]. }
  destruct (nth_error (k_items (ra_pkg a)) (ra_item a)) as [w|] eqn:Ew; [|now apply Z].
  destruct (re_exists e (w_service w)); cbn [negb]; [|now apply Z]. destruct (re_lookup _ _ _ _) as [b|]; [|now apply Z].
  destruct (split_code b) as [code| |]; cbn [lift]; try discriminate. destruct (_ <? _); [now apply Z|]. clear Z.
  destruct (invoke_with_args _ _ _ _ _ _ _ _) as [[[[g o] c]| |]|] eqn:E; cbn [bind]; try discriminate. intros K. injection K as <- <- <-.
  unfold invoke_with_args in E. destruct (prepare code) as [fp| |]; try discriminate.
  assert (G := fun L => invocation_gas _ _ _ _ _ _ _ _ _ _ _ L E). apply run_prepared_inv in E.
  assert (HI : exists l hs, refine_calls e a (w_service w) l new_rctx = Ok (hs, c) /\ Forall (fun q => host_allowed Refine (fst q) = true) l).
  { destruct E as [(_ & _ & _ & ->)|(s0 & x & s & _ & E & _)]; [exists [], []; split; [reflexivity|constructor]|]. eapply run_is_calls; exact E. }
  destruct HI as (l & hs & Hc & Al). assert (I := inv_calls e a (w_service w) l new_rctx hs c (inv_new a) Hc). destruct I as (_ & _ & I1 & I2).
  split; [destruct o; auto|]. split; [destruct o; auto|]. split; [destruct o; (discriminate || reflexivity)|]. split; [intros w' X L; injection X as <-; auto|].
  intros Q. exists w, l, hs, c. split; [reflexivity|]. split; [exact Hc|]. split; [|destruct o; (discriminate || reflexivity)].
  eapply Forall_impl; [|exact Al]. intros [n s] Q'. cbn [fst] in *. unfold host_allowed in Q'. apply existsb_exists in Q' as (x & Hx & Q'). apply N.eqb_eq in Q'. subst x. exact Hx.
Qed.

(** ** Authorizations *)
Lemma package_finds e k id i j : Forall item_ok (k_items k) -> 7 <= id <= 13 -> id <> 11 ->
  match package_data k id i with Some d => finds e (of_package k) i j id d | None => forall d, ~ finds e (of_package k) i j id d end.
Proof.
  intros FI Hi Ne. assert (S : forall l k w, th l k = Some w -> Forall item_ok l -> item_ok w) by (intros l q w E F; rewrite Forall_forall in F; apply F; eapply nth_error_In; exact E).
  assert (Hd : id = 7 \/ id = 8 \/ id = 9 \/ id = 10 \/ id = 12 \/ id = 13) by lia.
  destruct Hd as [->|[->|[->|[->|[->| ->]]]]]; cbn [package_data]; try (match goal with |- finds _ (of_package ?k) _ _ _ _ => constructor end).
  - rewrite item_th. destruct (th (k_items k) i) as [w|] eqn:E1; [|intros d F; inversion F; cbn in *; congruence]. rewrite summary_ok by eauto. cbn. econstructor; exact E1.
  - rewrite item_th. destruct (th (k_items k) i) as [w|] eqn:E1; [|intros d F; inversion F; cbn in *; congruence]. cbn. econstructor; exact E1.
Qed.
Lemma auth_sound e k n s h : guest s -> Forall item_ok (k_items k) -> ~ (n = 1 /\ r_ s 10 = 11) -> auth_host e k n s tt = Ok (h, tt) -> gp_auth e k s n h.
Proof.
  intros G FI NF H. unfold auth_host in H. destruct (N.eqb_spec n 100) as [->|N100]; [injection H as <-; constructor|].
  destruct (Z.ltb_spec (v_gas s) 10) as [Lg|Hg]; [injection H as <-; now constructor|].
  assert (D : n = 0 \/ n = 1 \/ (n <> 0 /\ n <> 1)) by lia. destruct D as [->|[->|[N0 N1]]].
  - injection H as <-. apply A_gas; [exact Hg|lia].
  - injection H as <-. unfold fetch_auth. change (Host_Model.reg s 10) with (r_ s 10). change (Host_Model.reg s 11) with (r_ s 11).
    assert (F : match (if r_ s 10 =? 0 then Some (re_consts e) else if (7 <=? r_ s 10) && (r_ s 10 <=? 13) then package_data k (r_ s 10) (r_ s 11) else None) with
      | Some d => offered_to_auth (r_ s 10) /\ finds e (of_package k) (r_ s 11) (r_ s 12) (r_ s 10) d
      | None => ~ (offered_to_auth (r_ s 10) /\ exists d, finds e (of_package k) (r_ s 11) (r_ s 12) (r_ s 10) d) end).
    { destruct (N.eqb_spec (r_ s 10) 0) as [E|E]; [rewrite E; split; [left; reflexivity|constructor]|].
      destruct (N.leb_spec 7 (r_ s 10)) as [L|L]; cbn [andb]; [|intros [[Q|Q] _]; lia]. destruct (N.leb_spec (r_ s 10) 13) as [L'|L']; [|intros [[Q|Q] _]; lia].
      pose proof (package_finds e k (r_ s 10) (r_ s 11) (r_ s 12) FI (conj L L') ltac:(tauto)) as P. destruct (package_data _ _ _); [split; [right; auto|exact P]|]. intros [_ [d Q]]. exact (P d Q). }
    destruct (if r_ s 10 =? 0 then _ else _) as [d|]; cbn [answer_fetch].
    + destruct F as [F1 F2]. assert (P := part_exists d (r_ s 8) (r_ s 9)). set (b := firstn _ _) in P. clearbody b.
      change (Host_Model.reg s 7) with (r_ s 7). change (Host_Model.reg s 8) with (r_ s 8). change (Host_Model.reg s 9) with (r_ s 9).
      destruct (copied_cases s d (r_ s 7) (r_ s 8) (r_ s 9) b G P) as [[A ->]|[A ->]]; [eapply A_fetch|eapply A_fetch_panic]; eassumption.
    + now apply A_fetch_none.
  - assert (K : Ok (what_result, tt) = Ok (h, tt) :> result verr (hchange * unit)). { destruct n as [|p]; [lia|]. destruct p; try exact H. lia. }
    injection K as <-. apply A_unknown; [exact Hg|]. cbn [In]. intros [Q|[Q|[Q|[]]]]; auto.
Qed.
Lemma is_authorized_refused fuel e k core used r : is_authorized fuel e k core = Some (Ok (used, r)) ->
  (r = WError WBad <-> re_lookup e (k_host k) (k_anchor k) (k_auth k) = None) /\
  (r = WError WBig <-> exists b code, re_lookup e (k_host k) (k_anchor k) (k_auth k) = Some b /\ split_code b = Ok code /\ 64000 < N.of_nat (length code)) /\
  used <= 50000000.
Proof.
  unfold is_authorized. destruct (re_lookup e (k_host k) (k_anchor k) (k_auth k)) as [b|] eqn:El.
  2:{ intros E. injection E as <- <-. split; [tauto|]. split; [|lia]. split; [discriminate|]. intros (b & code & X & _). discriminate. }
  destruct (split_code b) as [code| |] eqn:Es; cbn [lift]; try discriminate.
  destruct (N.ltb_spec 64000 (N.of_nat (length code))) as [L|L].
  - intros E. injection E as <- <-. split; [split; discriminate|]. split; [|lia]. split; [|reflexivity]. intros _. exists b, code. auto.
  - intros E. destruct (invoke_with_args _ _ _ _ _ _ _ _) as [[[[g o] c]| |]|] eqn:Ei; cbn [bind] in E; try discriminate. injection E as <- <-. destruct (of_output_not o) as [O1 O2].
    split; [split; [intros Q; contradiction|discriminate]|]. split.
    + split; [intros Q; contradiction|]. intros (b' & code' & X & Y & Q). injection X as <-. rewrite Es in Y. injection Y as <-. lia.
    + unfold invoke_with_args in Ei. destruct (prepare code) as [fp| |]; try discriminate. eapply invocation_gas; [|exact Ei]. reflexivity.
Qed.
