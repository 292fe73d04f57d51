(** The texts that stand for octets, written apart from the code. *)
From Verif Require Import Base.
From Coq Require Import Ascii String.
Local Open Scope N_scope.

(** The octets of an ASCII string *)
Definition ascii_bytes (s : string) : bytes := List.map (fun c => N_of_ascii c) (list_ascii_of_string s).
(** The place of an octet in a list, from 0 *)
Fixpoint place_in (l : bytes) (c : N) : option N :=
  match l with [] => None | x :: r => if x =? c then Some 0 else match place_in r c with Some k => Some (N.succ k) | None => None end end.
(** A hexadecimal digit and its value *)
Definition hex_means (c v : N) : Prop := place_in (ascii_bytes "0123456789abcdef") c = Some v \/ place_in (ascii_bytes "0123456789ABCDEF") c = Some v.
(** A text of digits in pairs that stands for octets *)
Inductive hex_text : bytes -> bytes -> Prop :=
| hex_nil : hex_text [] []
| hex_cons : forall c d x y s l, hex_means c x -> hex_means d y -> hex_text s l -> hex_text (c :: d :: s) (16 * x + y :: l).
(** With or without the prefix 0x *)
Definition prefixed (s t : bytes) : Prop := s = t \/ s = ascii_bytes "0x" ++ t.

(** The bits of octets, the most significant first *)
Definition bits_of (l : bytes) : list bool := flat_map (fun b => List.map (N.testbit b) [7; 6; 5; 4; 3; 2; 1; 0]) l.
(** Five bits as a number, the most significant first *)
Definition five (a b c d e : bool) : N := 16 * N.b2n a + 8 * N.b2n b + 4 * N.b2n c + 2 * N.b2n d + N.b2n e.
(** Bits in groups of five, the last filled with zeros *)
Fixpoint fives (l : list bool) : list N :=
  match l with
  | a :: b :: c :: d :: e :: r => five a b c d e :: fives r
  | [a; b; c; d] => [five a b c d false]
  | [a; b; c] => [five a b c false false]
  | [a; b] => [five a b false false false]
  | [a] => [five a false false false false]
  | [] => []
  end.
(** RFC 4648's alphabet of 32 characters, in lower case *)
Definition b32_alphabet : bytes := ascii_bytes "abcdefghijklmnopqrstuvwxyz234567".
(** The name of a key: the letter e, then the key in base 32 *)
Definition name_of (k : bytes) : bytes := ascii_bytes "e" ++ List.map (fun v => nth (N.to_nat v) b32_alphabet 0) (fives (bits_of k)).
