(** What state keys should be (Graypaper D.1): which entries there are, and what each key holds. *)
From Verif Require Import Base.

(** Every entry of the state. *)
Inductive item := Chapter (i : N) | Account (s : N) | Storage (s : N) (k : bytes) | Preimage (s : N) (h : bytes) | Lookup (s : N) (h : bytes) (l : N).
Definition item_ok (a : item) : Prop :=
  match a with
  | Chapter i => (1 <= i <= 16)%N
  | Account s => (s < 2 ^ 32)%N
  | Storage s k => (s < 2 ^ 32)%N
  | Preimage s h => (s < 2 ^ 32)%N /\ length h = 32
  | Lookup s h l => (s < 2 ^ 32)%N /\ length h = 32 /\ (l < 2 ^ 32)%N
  end.
(** The announced length of a request is none of the two that serve as prefixes. *)
Definition plain (a : item) : Prop := match a with Lookup _ _ l => (l < 2 ^ 32 - 2)%N | _ => True end.
(** The service and the string that is hashed for an entry of a service. *)
Definition hashed (a : item) : option (N * bytes) :=
  match a with
  | Chapter _ | Account _ => None
  | Storage s k => Some (s, [255; 255; 255; 255]%N ++ k)
  | Preimage s h => Some (s, [254; 255; 255; 255]%N ++ h)
  | Lookup s h l => Some (s, le_bytes 4 l ++ h)
  end.
(** Two different strings of the same service whose hashes agree in their first 27 bytes, or a string whose hash has only zeros from the fifth to the 27th byte. *)
Definition clash (H : bytes -> bytes) (a b : item) : Prop :=
  (exists s x y, hashed a = Some (s, x) /\ hashed b = Some (s, y) /\ x <> y /\ firstn 27 (H x) = firstn 27 (H y)) \/
  (exists s x, (hashed a = Some (s, x) \/ hashed b = Some (s, x)) /\ firstn 23 (skipn 4 (H x)) = repeat 0%N 23).
(** The bytes of a key. *)
Definition at_ (k : bytes) (i : nat) : N := nth i k 0%N.
Definition service_byte (s : N) (i : nat) : N := (s / 256 ^ N.of_nat i mod 256)%N.
Definition key_bytes (H : bytes -> bytes) (a : item) (k : bytes) : Prop :=
  length k = 31 /\
  match a, hashed a with
  | Chapter i, _ => at_ k 0 = i /\ forall j, 1 <= j -> at_ k j = 0%N
  | Account s, _ => at_ k 0 = 255%N /\ (forall j, j < 4 -> at_ k (2 * j + 1) = service_byte s j /\ at_ k (2 * j + 2) = 0%N) /\ forall j, 8 <= j -> at_ k j = 0%N
  | _, Some (s, x) => (forall j, j < 4 -> at_ k (2 * j) = service_byte s j /\ at_ k (2 * j + 1) = at_ (H x) j) /\ forall j, 4 <= j < 27 -> at_ k (j + 4) = at_ (H x) j
  | _, None => False
  end.
