(** C117: the typed view of the pool of extrinsics. *)
From Verif Require Import Base Base_Proofs Codec_Model Codec_Spec Codec2_Proofs Codec3_Proofs Codec_Props Block_Model Pool_Model Pool_Spec Pool_Proofs Intake_Model Intake_Spec Intake_Proofs.
Local Open Scope N_scope.

Ltac projection := let x := fresh in intro x; destruct x;
  first [ split; [intro; first [discriminate | eexists; reflexivity] | intros [? E]; first [discriminate E | reflexivity]]
        | intros ? E; first [discriminate E | injection E as <-; first [reflexivity | intro; assumption]] ].
(** For each slot and kind, the getters return the values that were submitted and accepted, in order, whatever else the pool holds; if there are no more guarantees than cores and no more assurances
    than validators.
    Missing: any answer when there are more of these, and entries that were not made from a value, see below. *)
Theorem getters_partial : forall P H max l p bs slot, core_count P <= bitvec_max_bits -> Forall (fun x => xt_wf P (fst x)) l -> hashes_apart P H l -> submissions P H max l empty_pool = Ok (p, bs) ->
  get_tickets slot p = Ok (values P (ticket_of P) slot (accepted l bs)) /\
  get_preimages slot p = Ok (values P (preimage_of P) slot (accepted l bs)) /\
  get_disputes P slot p = Ok (values P (verdict_of P) slot (accepted l bs), (values P (culprit_of P) slot (accepted l bs), values P (fault_of P) slot (accepted l bs))) /\
  (let g := values P (guarantee_of P) slot (accepted l bs) in get_guarantees P slot p = if N.of_nat (length g) <=? core_count P then Ok g else Err tt) /\
  (let a := values P (assurance_of P) slot (accepted l bs) in get_assurances P slot p = if Nat.leb (length a) (validator_count P) then Ok a else Err tt).
Proof.
  intros P H max l p bs slot C W NC S.
  assert (TO := block_ok P C). unfold t_block, t_extrinsics in TO. cbn [ty_ok] in TO. destruct TO as [_ [Tt [Tp [Tg [Ta [Tv [Tc Tf]]]]]]].
  assert (G : forall t (k : N) (f : xt P -> option (interp t)), ty_ok t -> (forall x, kind_of P x = k <-> exists v, f x = Some v) -> (forall x v, f x = Some v -> encode_xt P x = encode t v) ->
    (forall x v, f x = Some v -> xt_wf P x -> wf t v) -> decoded t (get k slot p) = Ok (values P f slot (accepted l bs))).
  { intros t k f A1 A2 A3 A4. eapply getter; eassumption. }
  split; [|split; [|split; [|split]]].
  - apply G; [exact Tt| | |]; projection.
  - apply G; [exact Tp| | |]; projection.
  - unfold get_disputes. rewrite (G (t_verdict P) 4 (verdict_of P)), (G t_culprit 5 (culprit_of P)), (G t_fault 6 (fault_of P)); try reflexivity; try assumption;
      projection.
  - unfold get_guarantees. rewrite (G (t_guarantee P) 1 (guarantee_of P)); try assumption;
      [|projection..].
    cbn [bind]. unfold at_most. rewrite N.ltb_antisym. destruct (N.of_nat _ <=? core_count P); reflexivity.
  - unfold get_assurances. rewrite (G (t_assurance P) 2 (assurance_of P)); try assumption;
      [|projection..].
    cbn [bind]. unfold at_most. destruct (N.ltb_spec (N.of_nat (validator_count P)) (N.of_nat (length (values P (assurance_of P) slot (accepted l bs))))), (Nat.leb_spec (length (values P (assurance_of P) slot (accepted l bs))) (validator_count P)); try reflexivity; lia.
Qed.
Print Assumptions getters_partial.

(** Three guarantees of two cores, a ticket, a preimage; the hash is the sum of the octets with the length. *)
Definition ex_sum (b : bytes) : N := fold_left (fun a x => a * 256 + x) b 1.
Definition ex_g (slot : N) : interp (t_guarantee ex_params) := (ex_report, (slot, [(4, repeat 7 64)])).
Definition ex_subs : list (xt ex_params * N) :=
  [(XGuarantee ex_params (ex_g 8), 5); (XTicket ex_params (1, repeat 3 784), 5); (XGuarantee ex_params (ex_g 9), 5); (XPreimage ex_params (9, [1; 2; 3]), 6); (XPreimage ex_params (9, [4]), 5)].
Lemma ex_sum_inj : forall x y, Forall is_byte x -> Forall is_byte y -> ex_sum x = ex_sum y -> x = y.
Proof.
  assert (L : forall x, 1 <= ex_sum x). { induction x as [|b x IH] using rev_ind; [unfold ex_sum; cbn; lia|]. unfold ex_sum in *. rewrite fold_left_app. cbn [fold_left]. lia. }
  induction x as [|a x IH] using rev_ind; intros y X Y E.
  - destruct y as [|b y] using rev_ind; [reflexivity|]. clear IHy. unfold ex_sum in E. rewrite fold_left_app in E. cbn [fold_left] in E. pose proof (L y) as Z. unfold ex_sum in Z. lia.
  - destruct y as [|b y] using rev_ind; [|clear IHy].
    + unfold ex_sum in E. rewrite fold_left_app in E. cbn [fold_left] in E. pose proof (L x) as Z. unfold ex_sum in Z. lia.
    + apply Forall_app in X, Y. destruct X as [X1 X2], Y as [Y1 Y2]. inversion X2; inversion Y2; subst. unfold is_byte in *. unfold ex_sum in E. rewrite !fold_left_app in E. cbn [fold_left] in E.
      fold (ex_sum x) (ex_sum y) in E. assert (Q : ex_sum x = ex_sum y /\ a = b) by lia. destruct Q as [Q ->]. rewrite (IH y X1 Y1 Q). reflexivity.
Qed.
Lemma ex_apart : forall P l, core_count P <= bitvec_max_bits -> Forall (fun x => xt_wf P (fst x)) l -> hashes_apart P ex_sum l.
Proof.
  intros P l C W x y bx byt X Y Ex Ey E. rewrite Forall_forall in W. apply W in X. apply W in Y. apply ex_sum_inj; [| |exact E].
  all: assert (TO := block_ok P C); unfold t_block, t_extrinsics in TO; cbn [ty_ok] in TO; destruct TO as [_ [Tt [Tp [Tg [Ta [Tv [Tc Tf]]]]]]].
  - destruct x as [[] ?]; cbn [fst xt_wf encode_xt] in X, Ex; match type of Ex with encode ?t ?v = _ => destruct (codec_roundtrip t v ltac:(assumption) X) as [b [B1 [B2 _]]]; rewrite B1 in Ex; injection Ex as <-; exact B2 end.
  - destruct y as [[] ?]; cbn [fst xt_wf encode_xt] in Y, Ey; match type of Ey with encode ?t ?v = _ => destruct (codec_roundtrip t v ltac:(assumption) Y) as [b [B1 [B2 _]]]; rewrite B1 in Ey; injection Ey as <-; exact B2 end.
Qed.
Lemma ex_subs_wf : Forall (fun x => xt_wf ex_params (fst x)) ex_subs.
Proof. unfold ex_subs. repeat (apply Forall_cons; [apply wfb_sound; vm_compute; reflexivity|]). constructor. Qed.
Example getters_case : exists p, submissions ex_params ex_sum 4 ex_subs empty_pool = Ok (p, [true; true; true; true; false]) /\
  Forall (fun x => xt_wf ex_params (fst x)) ex_subs /\ hashes_apart ex_params ex_sum ex_subs /\
  get_guarantees ex_params 5 p = Ok [ex_g 8; ex_g 9] /\ get_tickets 5 p = Ok [(1, repeat 3 784)] /\ get_preimages 6 p = Ok [(9, [1; 2; 3])] /\ get_preimages 5 p = Ok [].
Proof.
  eexists. split; [vm_compute; reflexivity|]. split; [exact ex_subs_wf|]. split; [apply ex_apart; [vm_compute; discriminate|exact ex_subs_wf]|]. repeat split; vm_compute; reflexivity.
Qed.

Lemma submissions_app P H max : forall a b q q1 bs1 q2 bs2, submissions P H max a q = Ok (q1, bs1) -> submissions P H max b q1 = Ok (q2, bs2) -> submissions P H max (a ++ b) q = Ok (q2, bs1 ++ bs2).
Proof.
  induction a as [|[x s] a IH]; intros b q q1 bs1 q2 bs2 E1 E2; cbn [submissions app] in *; [injection E1 as <- <-; exact E2|].
  destruct (submit P H max x s q) as [[q3 b3]| |]; cbn [bind] in *; try discriminate. destruct (submissions P H max a q3) as [[q4 bs4]| |] eqn:E4; cbn [bind] in E1; try discriminate. injection E1 as <- <-.
  rewrite (IH b q3 q4 bs4 q2 bs2 E4 E2). reflexivity.
Qed.
Lemma values_app P A (f : xt P -> option A) slot (a b : list (xt P * N)) : forall c d, length c = length a ->
  values P f slot (accepted (a ++ b) (c ++ d)) = values P f slot (accepted a c) ++ values P f slot (accepted b d).
Proof.
  induction a as [|x a IH]; intros [|y c] d Ln; try discriminate; [reflexivity|]. injection Ln as Ln. cbn [app accepted]. destruct y; [|apply IH, Ln]. unfold values in *. cbn [flat_map]. rewrite IH by exact Ln. apply app_assoc.
Qed.
(** One guarantee more than there are cores, each well formed, and from then on there is none to be had for the slot, whatever is submitted later. *)
Theorem getters_flood_refuted : exists P H max l slot p, core_count P <= bitvec_max_bits /\ Forall (fun x => xt_wf P (fst x)) l /\
  submissions P H max l empty_pool = Ok (p, map (fun _ => true) l) /\ N.of_nat (length l) = core_count P + 1 /\
  forall l' p' bs', Forall (fun x => xt_wf P (fst x)) l' -> submissions P H max l' p = Ok (p', bs') -> get_guarantees P slot p' = Err tt.
Proof.
  set (l := [(XGuarantee ex_params (ex_g 8), 5); (XGuarantee ex_params (ex_g 9), 5); (XGuarantee ex_params (ex_g 10), 5)]).
  assert (C : core_count ex_params <= bitvec_max_bits) by (vm_compute; discriminate).
  assert (W : Forall (fun x => xt_wf ex_params (fst x)) l) by (unfold l; repeat (apply Forall_cons; [apply wfb_sound; vm_compute; reflexivity|]); constructor).
  destruct (submissions ex_params ex_sum 9 l empty_pool) as [[p bs]| |] eqn:S; [|vm_compute in S; discriminate|vm_compute in S; discriminate].
  exists ex_params, ex_sum, 9%nat, l, 5, p. split; [exact C|]. split; [exact W|].
  assert (B : bs = map (fun _ => true) l). { vm_compute in S. injection S as _ <-. reflexivity. }
  split; [rewrite S, B; reflexivity|]. split; [reflexivity|]. intros l' p' bs' W' S'.
  assert (Wb : Forall (fun x => xt_wf ex_params (fst x)) (l ++ l')) by (apply Forall_app; split; assumption).
  pose proof (submissions_app _ _ _ _ _ _ _ _ _ _ S S') as Sb. destruct (getters_partial ex_params ex_sum 9 (l ++ l') p' (bs ++ bs') 5 C Wb (ex_apart _ _ C Wb) Sb) as [_ [_ [_ [G _]]]]. cbv zeta in G. rewrite G.
  rewrite values_app by (rewrite B, map_length; reflexivity). rewrite app_length, B. change (length (values ex_params (guarantee_of ex_params) 5 (accepted l (map (fun _ => true) l)))) with 3%nat.
  destruct (N.leb_spec (N.of_nat (3 + length (values ex_params (guarantee_of ex_params) 5 (accepted l' bs')))) (core_count ex_params)) as [K|]; [|reflexivity]. change (core_count ex_params) with 2 in K. lia.
Qed.
Print Assumptions getters_flood_refuted.

(** The pool also takes octets that were not made from a value. Some are dropped without a word, trailing ones are ignored; thirteen octets that announce a huge preimage stop every later reader of the slot. *)
Theorem getters_raw_refuted : exists slot e1 e2 e3, let add1 e p := fst (add 9 e slot p) in
  snd (add 9 e1 slot empty_pool) = true /\ snd (add 9 e2 slot (add1 e1 empty_pool)) = true /\ snd (add 9 e3 slot (add1 e2 (add1 e1 empty_pool))) = true /\
  get_preimages slot (add1 e1 empty_pool) = Ok [] /\ get_preimages slot (add1 e2 (add1 e1 empty_pool)) = Ok [(9, [4])] /\ encode t_preimage_xt (9, [4]) <> Ok (e_data e2) /\
  length (e_data e3) = 13%nat /\ get_preimages slot (add1 e3 (add1 e2 (add1 e1 empty_pool))) = Panic.
Proof.
  exists 5, (mk_entry 1 [9; 9] 3), (mk_entry 2 [9; 0; 0; 0; 1; 4; 7] 3), (mk_entry 3 ([9; 0; 0; 0] ++ repeat 255 9) 3). cbv zeta. repeat split; try (vm_compute; reflexivity). vm_compute. discriminate.
Qed.
Print Assumptions getters_raw_refuted.
