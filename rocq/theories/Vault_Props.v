(** The state seen through its typed accessors (C120). *)
From Verif Require Import Base StateKeys_Model StateKeys_Spec Trie_Model Trie_Spec StateCache_Model Block_Model Codec_Model Codec2_Proofs Codec_Props Comp_Model Comp_Spec Comp_Proofs Comp2_Proofs Comp_Props Vault_Model Vault_Spec Vault_Proofs.
From Coq Require Import Lia Permutation.
Open Scope N_scope.

(** ** C120 *)
Theorem typed_state_partial : forall (H : bytes -> bytes) P Z POOL HISTORY QUEUE (l : list (call P)), (forall x, length (H x) = 32%nat /\ Bytes (H x)) ->
  separate H P l -> all_proper P Z POOL HISTORY QUEUE (blank P) l -> no_collision H (long_octets P l) ->
  faithful H P (blank P) l (calls H P Z POOL HISTORY QUEUE start l).
Proof.
  intros H P Z POOL HISTORY QUEUE l H32 (S1 & S2) A N. apply (vault_ok H H32 P Z POOL HISTORY QUEUE (items_in P l)); auto.
  - intros i I. apply S1, items_named, I.
  - intros i j I J. apply S2; apply items_named; assumption.
  - apply Forall_forall. intros c C i I. apply items_named. exists c. auto.
Qed.

(** ** A case *)
Definition hash (x : bytes) : bytes := firstn 32 (map (fun b => b mod 256) x ++ repeat 7 32).
Lemma hash_ok : forall x, length (hash x) = 32%nat /\ Bytes (hash x).
Proof.
  intro x. unfold hash. split; [rewrite firstn_length, app_length, map_length, repeat_length; lia|]. apply Base_Proofs.Forall_firstn, Forall_app. split.
  - apply Forall_forall. intros y Y. apply in_map_iff in Y. destruct Y as (b & <- & _). apply N.mod_lt. discriminate.
  - apply Forall_forall. intros y Y. apply repeat_spec in Y. subst y. reflexivity.
Qed.
Definition other_account := mk_account 0 (repeat 8 32) (10 ^ 12) 300 40 1234 0 4 77 99 5.
Definition E1 := ESlot ex_params 5.
Definition E2 := ESlot ex_params 6.
Definition E3 := EAccount ex_params some_account.
Definition E4 := EAccount ex_params other_account.
Definition E5 := EStorage ex_params [9; 9].
Definition E6 := EStorage ex_params (repeat 4 40).
Definition same_order (l : list path) : list path := l.
Definition story : list (call ex_params) :=
  [ New _ (Chapter 11) E1; New _ (Account 7) E3; New _ (Storage 7 [1; 2]) E5; Save _ same_order; Look _ (Storage 7 [1; 2]); New _ (Storage 7 [1; 3]) E6;
    Change _ (Chapter 11) (fun _ => Some E2); Change _ (Account 7) (fun _ => Some E4); LookClean _ (Account 7); Look _ (Account 7); Drop _ (Storage 7 [1; 2]);
    Stage _ same_order; Look _ (Account 7); Land _; Look _ (Account 7); Forget _ (Account 7); Look _ (Account 7); Look _ (Storage 7 [1; 2]); Change _ (Chapter 11) (fun _ => Some E1); Undo _;
    Look _ (Chapter 11); Look _ (Chapter 1); Digest _ ].
Definition told (l : list (call ex_params)) := calls hash ex_params szs 8 8 80 start l.
Example story_answers : map (fun a => match a with Root _ => Done | x => x end) (told story) =
  [Done; Done; Done; Done; Value (Some E5); Done; Done; Done; Value (Some E3); Value (Some E4); Done; Done; Value (Some E3); Done; Value (Some E4); Done; Value (Some E4); Value None; Done; Done; Value (Some E2); Failed; Done].
Proof. vm_compute. reflexivity. Qed.
(** The values of a history are those it writes. *)
Section Writes.
  Variable P : params.
  Variable Q : entry P -> Prop.
  Definition puts_only (c : call P) : Prop := match c with New _ _ e => Q e | Change _ _ f => forall x y, f x = Some y -> Q y | _ => True end.
  Definition all_q (m : imap P) : Prop := forall i e, m i = Some e -> Q e.
  Definition book_q (b : book P) : Prop := all_q (b_kept P b) /\ all_q (b_now P b) /\ forall m, b_staged P b = Some m -> all_q m.
  Lemma with_item_q : forall m i o, all_q m -> (forall e, o = Some e -> Q e) -> all_q (with_item P m i o).
  Proof. intros m i o A B j e. unfold with_item. destruct (item_eq_dec j i); eauto. Qed.
  Lemma after_q : forall b c, puts_only c -> book_q b -> book_q (after P b c).
  Proof.
    intros b c W (A & B & C). assert (CH : forall i o, (forall e, o = Some e -> Q e) -> book_q (change P b i o)). { intros i o O. split; [exact A|]. split; [apply with_item_q; auto|exact C]. }
    destruct c; cbn [after]; try (split; [|split]; assumption).
    - destruct (b_now P b i); [split; [|split]; assumption|]. apply CH. intros x X. injection X as <-. exact W.
    - destruct (b_now P b i) as [x|]; [|split; [|split]; assumption]. destruct (f x) as [y|] eqn:F; [|split; [|split]; assumption]. apply CH. intros z X. injection X as <-. exact (W x y F).
    - destruct (b_now P b i); [|split; [|split]; assumption]. apply CH. discriminate.
    - split; [exact A|]. split; [exact A|]. cbn. destruct (b_touched P b); [discriminate|]. intros m M. injection M as <-. exact B.
    - destruct (b_staged P b) as [m|] eqn:E; [|split; [exact A|split; [exact B|rewrite E; discriminate]]]. specialize (C m eq_refl). split; [exact C|]. split; [exact C|]. discriminate.
  Qed.
  Lemma books_q : forall l b, Forall puts_only l -> book_q b -> forall b' i e, In b' (books P b l) -> b_now P b' i = Some e -> Q e.
  Proof.
    induction l as [|c l IH]; intros b F B b' i e I E; cbn in I; destruct I as [<-|I]; try (destruct B as (_ & B & _); exact (B i e E)); try (destruct I; fail).
    apply Forall_cons_iff in F. destruct F as (F1 & F2). apply (IH (after P b c) F2 (after_q b c F1 B) b' i e I E).
  Qed.
End Writes.
Lemma belongs_slot : forall n, n < 2 ^ 32 -> belongs ex_params szs 8 8 80 (Chapter 11) (ESlot ex_params n).
Proof. intros n B. split; [exact B|reflexivity]. Qed.
Lemma belongs_other : belongs ex_params szs 8 8 80 (Account 7) E4.
Proof. split; [|reflexivity]. unfold E4. cbn [entry_held]. refine (conj _ (conj _ (conj _ _))); repeat constructor; held1. Qed.
Lemma belongs_storage : forall k b, Bytes b -> belongs ex_params szs 8 8 80 (Storage 7 k) (EStorage ex_params b).
Proof. intros k b B. split; [exact B|reflexivity]. Qed.
Ltac part := lazymatch goal with
  | |- True => exact I
  | |- ~ In _ _ => let X := fresh in intro X; vm_compute in X; repeat (destruct X as [X|X]; [discriminate X|]); exact X
  | |- belongs _ _ _ _ _ (Chapter _) _ => apply belongs_slot; reflexivity
  | |- belongs _ _ _ _ _ (Account _) E3 => split; [apply account_case|reflexivity]
  | |- belongs _ _ _ _ _ (Storage _ _) _ => apply belongs_storage; apply bytesb_sound; vm_compute; reflexivity
  | |- forall l, Permutation l _ => intro; apply Permutation_refl
  | |- some_stay _ _ => first [left; intros k X; exfalso; apply X; reflexivity|right; exists (Account 7); split; vm_compute; discriminate]
  | |- forall x y, _ -> _ = Some y -> belongs _ _ _ _ _ (Chapter _) _ => let Y := fresh in intros x y _ Y; injection Y as <-; apply belongs_slot; reflexivity
  | |- forall x y, _ -> _ = Some y -> belongs _ _ _ _ _ (Account _) _ => let Y := fresh in intros x y _ Y; injection Y as <-; apply belongs_other
  | |- _ = None -> _ = None => vm_compute; solve [discriminate|reflexivity]
  | |- _ <> None -> _ <> None => vm_compute; solve [intros _; discriminate|intros X; exfalso; apply X; reflexivity]
  | |- _ <> [] -> _ = None => intros _; reflexivity
  | |- _ = [] => reflexivity
  end.
Example story_case : separate hash ex_params story /\ all_proper ex_params szs 8 8 80 (blank ex_params) story /\ no_collision hash (long_octets ex_params story).
Proof.
  split; [|split].
  - assert (N : forall i, named ex_params story i -> In i [Chapter 11; Account 7; Storage 7 [1; 2]; Storage 7 [1; 3]; Chapter 1]).
    { intros i (c & C & E). unfold story in C. repeat (destruct C as [<-|C]; [try discriminate E; injection E as <-; cbn; tauto|]). destruct C. }
    split.
    + intros i I. apply N in I. repeat (destruct I as [<-|I]; [split; cbn; try exact Logic.I; lia|]). destruct I.
    + intros i j I J. apply N in I, J. intros [(s & x & y & X & Y & D & E)|(s & x & X & E)].
      * repeat (destruct I as [<-|I]; [try discriminate X; injection X as <- <-; repeat (destruct J as [<-|J]; [try discriminate Y; injection Y as <-; first [destruct D; reflexivity|vm_compute in E; discriminate E]|]); destruct J|]). destruct I.
      * assert (K : In x [[255; 255; 255; 255; 1; 2]; [255; 255; 255; 255; 1; 3]]).
        { destruct X as [X|X]; [clear J|clear I; rename J into I]; repeat (destruct I as [<-|I]; [try discriminate X; injection X as <- <-; cbn; tauto|]); destruct I. }
        repeat (destruct K as [<-|K]; [vm_compute in E; discriminate E|]). destruct K.
  - unfold story. repeat (split; [cbn [proper]; repeat lazymatch goal with |- belongs _ _ _ _ _ _ _ => fail | |- _ /\ _ => split end; part|]). exact I.
  - assert (Q : forall o, long_octets ex_params story o -> In o (map (octets_of ex_params szs 8 8 80) [E3; E4; E6])).
    { intros o (b & i & e & B & E & G & LN).
      apply (books_q ex_params (fun e => In e [E1; E2; E3; E4; E5; E6]) story (blank ex_params)) in E; [| |split; [|split]; discriminate|exact B].
      - assert (W : forall e, In e [E1; E2; E3; E4; E5; E6] -> gp_entry e (octets_of ex_params szs 8 8 80 e)).
        { intros e0 I0. assert (Y : exists i, item_ok i /\ belongs ex_params szs 8 8 80 i e0).
          { repeat (destruct I0 as [<-|I0]; [first [exists (Chapter 11); split; [cbn; lia|part]|exists (Account 7); split; [reflexivity|part]|exists (Account 7); split; [reflexivity|apply belongs_other]|exists (Storage 7 []); split; [reflexivity|part]]|]). destruct I0. }
          destruct Y as (i0 & O & Y). destruct (belongs_enc ex_params szs 8 8 80 i0 e0 O Y) as (o' & -> & _ & G' & _). exact G'. }
        assert (Z0 : o = octets_of ex_params szs 8 8 80 e) by (apply (uniq_entry _ e); [exact G|apply W; exact E]). subst o. clear G B W.
        repeat (destruct E as [<-|E]; [try (vm_compute in LN; lia); cbn [map In]; tauto|]). destruct E.
      - unfold story. repeat (apply Forall_cons; [cbn [puts_only]; try exact I; try (intros x y F; injection F as <-); cbn; tauto|]). apply Forall_nil. }
    intros a b A B E. apply Q in A. apply Q in B. cbn [map In] in A, B.
    repeat (destruct A as [<-|A]; [repeat (destruct B as [<-|B]; [first [reflexivity|vm_compute in E; discriminate E]|]); destruct B|]). destruct A.
Qed.
(** Missing in the theorem: the calls [proper] leaves out. A clean read of an entry added since the last commit gives it, though it is not committed. *)
Theorem typed_state_refuted : exists l, l = [New ex_params (Chapter 11) E1; LookClean _ (Chapter 11)] /\ told l = [Done; Value (Some E1)] /\
  separate hash ex_params l /\ no_collision hash (long_octets ex_params l) /\ ~ faithful hash ex_params (blank ex_params) l (told l).
Proof.
  eexists. split; [reflexivity|]. split; [vm_compute; reflexivity|]. split; [|split].
  - assert (N : forall i, named ex_params [New ex_params (Chapter 11) E1; LookClean _ (Chapter 11)] i -> i = Chapter 11). { intros i (c & [<-|[<-|[]]] & E); injection E as <-; reflexivity. }
    split; [intros i I; apply N in I; subst i; split; cbn; [lia|exact Logic.I]|]. intros i j I J. apply N in I, J. subst i j. intros [(s & x & y & X & _)|(s & x & [X|X] & _)]; discriminate X.
  - intros a b (bk & i & e & B & E & G & LN) _ _. exfalso. apply (books_q ex_params (fun e => e = E1) [New ex_params (Chapter 11) E1; LookClean _ (Chapter 11)] (blank ex_params)) in E; [| |split; [|split]; discriminate|exact B].
    + subst e. assert (Z0 : a = octets_of ex_params szs 8 8 80 E1).
      { apply (uniq_entry _ E1); [exact G|]. destruct (belongs_enc ex_params szs 8 8 80 (Chapter 11) E1) as (o & -> & _ & G' & _); [cbn; lia|part|exact G']. }
      subst a. vm_compute in LN. lia.
    + repeat (apply Forall_cons; [cbn [puts_only]; try exact I; reflexivity|]). apply Forall_nil.
  - intro F. assert (T : told [New ex_params (Chapter 11) E1; LookClean _ (Chapter 11)] = [Done; Value (Some E1)]) by (vm_compute; reflexivity). rewrite T in F. destruct F as (_ & F & _). vm_compute in F. discriminate F.
Qed.

Print Assumptions typed_state_partial.
Print Assumptions typed_state_refuted.
