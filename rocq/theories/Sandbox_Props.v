(** Properties of the accounts sandbox of an accumulation (C40). *)
From Verif Require Import Base Sandbox_Model Sandbox_Spec Sandbox_Proofs.
From Coq Require Import Permutation.

(** For every sequence of operations on a sandbox of accounts [G]: every answer is the one the operations give when done at once to the accounts themselves, and
    applying the sandbox to [G], whatever order its maps are iterated in, succeeds and gives the accounts so reached.
    Missing: the sequences [allowed] excludes; the theorems below show what happens in them. *)
Theorem sandbox_overlay_partial : forall G os, proper G -> all_allowed G [] G os ->
  snd (run G [] os) = snd (runs G os) /\
  forall sb, reordered (fst (run G [] os)) sb -> exists G', apply G sb = Ok G' /\ same G' (fst (runs G os)).
Proof. exact sandbox_ok. Qed.

(** Two accounts: 1 with a storage entry, and 2, which has nothing but the code preimage [8] and its request. *)
Definition md (b : N) : meta := mk_meta [8%N] b 0 0 0 0 0 0 0 0.
Definition two : gstate :=
  mk_g (fun s => if (s =? 1)%N then Some (md 100) else if (s =? 2)%N then Some (md 50) else None)
       (fun s k => if (s =? 1)%N then if ekey_eq k (KStorage [5%N]) then Some [7%N] else None
                   else if (s =? 2)%N then if ekey_eq k (KPreimage [8%N]) then Some [1%N; 1%N] else if ekey_eq k (KLookup [8%N] 2) then Some [3%N; 4%N] else None
                   else None).
Lemma two_proper : proper two.
Proof. intros s E k. simpl in *. destruct (s =? 1)%N; [discriminate|]. destruct (s =? 2)%N; [discriminate | reflexivity]. Qed.
Definition add (x : N) (m : meta) : option meta := Some (set_balance m (m_balance m + x)).
(** Reads, replaced, removed and restored entries, a request opened, answered and dropped, a new account, an ejected one and one made and ejected again. *)
Definition busy : list sop :=
  [ Get 1 (KStorage [5%N]); Put 1 (KStorage [5%N]) [9%N]; Get 1 (KStorage [5%N]); Del 1 (KStorage [5%N]); Put 1 (KStorage [6%N]) [1%N]; Del 1 (KStorage [6%N]); Get 1 (KStorage [6%N]);
    Put 1 (KStorage [5%N]) [2%N]; New 77 (md 10) [9%N] 3; Push 77 [9%N] 3 [12%N]; Get 77 (KLookup [9%N] 3); Push 77 [9%N] 3 [1%N; 2%N; 3%N]; Drain 77 [9%N] 3;
    Exists 2; Meta 2; Eject 2 [8%N] 2; Exists 2; Meta 2; Get 2 (KPreimage [8%N]); Change 1 (add 50); Meta 1; Change 2 (add 1); New 78 (md 5) [9%N] 3; Change 78 (add 1); Eject 78 [9%N] 3; Active 78;
    Put 1 (KPreimage [4%N]) [4%N]; Put 1 (KLookup [4%N] 1) []; Push 1 [4%N] 1 [6%N]; Change 1 (fun _ => None) ].
Example busy_allowed : all_allowed two [] two busy.
Proof.
  unfold busy. cbn [all_allowed allowed changes app]. repeat match goal with |- _ /\ _ => split end; try exact I; try (vm_compute; discriminate).
  all: try (intro X; vm_compute in X; tauto).
  - intros k N1 N2. unfold busy. simpl g_ent. destruct (ekey_eq k (KPreimage [8%N])); [congruence|]. destruct (ekey_eq k (KLookup [8%N] 2)); [congruence | reflexivity].
  - intros k N1 N2. simpl g_ent. destruct (ekey_eq k (KLookup [9%N] 3)); [congruence | reflexivity].
Qed.
Example busy_answers : snd (run two [] busy) =
  [ ValueIs (Some [7%N]); ValueIs (Some [7%N]); ValueIs (Some [9%N]); Done; ValueIs None; Done; ValueIs None;
    ValueIs None; Done; Done; ValueIs (Some [12%N]); Failed; Done;
    Bool true; MetaIs (Some (md 50)); Done; Bool false; MetaIs None; ValueIs None; Done; MetaIs (Some (md 150)); Failed; Done; Done; Done; Bool false;
    ValueIs None; ValueIs None; Done; Failed ].
Proof. vm_compute. reflexivity. Qed.
Example busy_reordered : exists G', apply two (rev (fst (run two [] busy))) = Ok G' /\ g_meta G' 1 = Some (md 150) /\ g_meta G' 2 = None /\ g_ent G' 2 (KPreimage [8%N]) = None /\
  g_ent G' 1 (KStorage [5%N]) = Some [2%N] /\ g_ent G' 1 (KLookup [4%N] 1) = Some [6%N] /\ g_meta G' 77 = Some (md 10).
Proof. eexists. split; [vm_compute; reflexivity|]. vm_compute. repeat split. Qed.

(** Refuted when an account of the state is ejected after a change of its metadata (such as a transfer received in an earlier round): the account comes back as
    it is in the state, and so does its balance. *)
Theorem sandbox_eject_changed_refuted : exists G s f h len, proper G /\ has G s /\ (forall k, k <> KLookup h len -> k <> KPreimage h -> g_ent G s k = None) /\
  snd (run G [] [Change s f; Eject s h len; Exists s; Meta s]) = [Done; Done; Bool true; MetaIs (g_meta G s)] /\
  exists G', apply G (fst (run G [] [Change s f; Eject s h len])) = Ok G' /\ g_meta G' s = g_meta G s.
Proof.
  exists two, 2%N, (add 5), [8%N], 2%N. split; [exact two_proper|]. split; [vm_compute; discriminate|]. split.
  { intros k N1 N2. simpl g_ent. destruct (ekey_eq k (KPreimage [8%N])); [congruence|]. destruct (ekey_eq k (KLookup [8%N] 2)); [congruence | reflexivity]. }
  split; [vm_compute; reflexivity|]. eexists. split; vm_compute; reflexivity.
Qed.

(** Refuted when an id of the state is ejected and then given to a new account: what the old account had is there again, and the result cannot be applied. *)
Theorem sandbox_recreate_refuted : exists G s m h len h' len', proper G /\ has G s /\ (forall k, k <> KLookup h len -> k <> KPreimage h -> g_ent G s k = None) /\ h' <> h /\
  (exists v, snd (run G [] [Eject s h len; New s m h' len'; Get s (KPreimage h)]) = [Done; Done; ValueIs (Some v)]) /\
  apply G (fst (run G [] [Eject s h len; New s m h' len'])) = Err tt.
Proof.
  exists two, 2%N, (md 1), [8%N], 2%N, [9%N], 2%N. split; [exact two_proper|]. split; [vm_compute; discriminate|]. split.
  { intros k N1 N2. simpl g_ent. destruct (ekey_eq k (KPreimage [8%N])); [congruence|]. destruct (ekey_eq k (KLookup [8%N] 2)); [congruence | reflexivity]. }
  split; [discriminate|]. split; [eexists; vm_compute; reflexivity | vm_compute; reflexivity].
Qed.

(** Refuted for what a removal answers: removing an entry that only the sandbox has answers that there was none. *)
Theorem sandbox_remove_answer_refuted : exists G s k v, proper G /\ has G s /\
  let sb := fst (run G [] [Put s k v]) in snd (get_entry G sb s k) = Some v /\ snd (remove_entry G sb s k) = None.
Proof. exists two, 1%N, (KStorage [6%N]), [1%N]. split; [exact two_proper|]. split; [vm_compute; discriminate|]. vm_compute. split; reflexivity. Qed.
