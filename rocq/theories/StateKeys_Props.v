(** C35: state keys. *)
From Verif Require Import Base StateKeys_Model StateKeys_Spec StateKeys_Proofs.

(** Each entry's key has the specified bytes. *)
Theorem state_keys_exact : forall H, (forall x, length (H x) = 32) ->
  (forall i, item_ok (Chapter i) -> key_bytes H (Chapter i) (simple_key i)) /\
  (forall s, item_ok (Account s) -> key_bytes H (Account s) (metadata_key s)) /\
  (forall s k, item_ok (Storage s k) -> key_bytes H (Storage s k) (storage_key H s k)) /\
  (forall s h, item_ok (Preimage s h) -> key_bytes H (Preimage s h) (preimage_key H s h)) /\
  (forall s h l, item_ok (Lookup s h l) -> key_bytes H (Lookup s h l) (lookups_key H s h l)).
Proof.
  intros H Hh. split; [intro i; exact (keys_exact H Hh (Chapter i))|]. split; [intro s; exact (keys_exact H Hh (Account s))|].
  split; [intros s k; exact (keys_exact H Hh (Storage s k))|]. split; [intros s h; exact (keys_exact H Hh (Preimage s h))|intros s h l; exact (keys_exact H Hh (Lookup s h l))].
Qed.
(** Entries with the same key are the same, or their hashed strings clash. Missing: requests of length 2^32-2 and 2^32-1. *)
Theorem state_keys_distinct_partial : forall H, (forall x, length (H x) = 32) -> forall a b, item_ok a -> item_ok b -> plain a -> plain b ->
  key_of H a = key_of H b -> a = b \/ clash H a b.
Proof. exact keys_distinct. Qed.
(** Keys of service items agree exactly if the service and the first 27 bytes of the hash do. *)
Theorem item_keys_agree : forall H, (forall x, length (H x) = 32) -> forall s t x y, (s < 2 ^ 32)%N -> (t < 2 ^ 32)%N ->
  item_key H s x = item_key H t y <-> s = t /\ firstn 27 (H x) = firstn 27 (H y).
Proof. exact item_key_inj. Qed.
(** A request of length 2^32-2 has the key of the preimage with its hash, and one of length 2^32-1 the key of the storage item named by its hash. *)
Theorem state_keys_distinct_refuted : forall H s h,
  key_of H (Lookup s h (2 ^ 32 - 2)) = key_of H (Preimage s h) /\ key_of H (Lookup s h (2 ^ 32 - 1)) = key_of H (Storage s h).
Proof. intros. split; reflexivity. Qed.
Example state_keys_case : let H := fun x : bytes => firstn 32 (x ++ repeat 1%N 32) in (forall x, length (H x) = 32) /\
  item_ok (Lookup 7 (repeat 9%N 32) 100) /\ plain (Lookup 7 (repeat 9%N 32) 100) /\ item_ok (Storage 300 [1%N]) /\ item_ok (Account 4294967295) /\
  key_of H (Storage 300 [1%N]) <> key_of H (Storage 301 [1%N]) /\ key_of H (Storage 300 [1%N]) <> key_of H (Storage 300 [2%N]).
Proof.
  intro H. split; [intro x; unfold H; rewrite firstn_length, app_length, repeat_length; lia|].
  repeat split; try reflexivity; vm_compute; discriminate.
Qed.
