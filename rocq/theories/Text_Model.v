(** Model of the texts that stand for octets: hexadecimal strings (common/src/types/mod.rs, common/src/utils/serde.rs) and the names that validators have on the network
    (crypto/src/types/public_keys.rs).
    Simplifications: a text is the list of its octets; names are ASCII. The crates hex 0.4.3 and base32 0.5.1 are not in the repository: [hex_encode], [hex_decode], [b32_encode] and [b32_decode]
    follow their published sources, without base32's padding sign, which [as_dns_name] never writes. *)
From Verif Require Import Base.
Local Open Scope N_scope.

(** hex::encode, used at common/src/types/mod.rs:103, 288 and utils/serde.rs:94, 103: the two digits of an octet, in lower case *)
Definition hex_digit (n : N) : N := if n <? 10 then 48 + n else 87 + n.
(** hex::encode, used at common/src/types/mod.rs:103, 288 and utils/serde.rs:94, 103 *)
Fixpoint hex_encode (l : bytes) : bytes := match l with [] => [] | b :: r => hex_digit (N.shiftr b 4) :: hex_digit (N.land b 15) :: hex_encode r end.
(** hex::decode, used at common/src/types/mod.rs:112, 311 and utils/serde.rs:52, 78: the value of a digit in either case *)
Definition hex_value (c : N) : option N :=
  if (65 <=? c) && (c <=? 70) then Some (c - 65 + 10) else if (97 <=? c) && (c <=? 102) then Some (c - 97 + 10) else if (48 <=? c) && (c <=? 57) then Some (c - 48) else None.
(** hex::decode, used at common/src/types/mod.rs:112, 311 and utils/serde.rs:52, 78; an odd number of digits is an error *)
Fixpoint hex_decode (l : bytes) : option bytes :=
  match l with
  | [] => Some []
  | [_] => None
  | a :: b :: r => match hex_value a, hex_value b with
                   | Some x, Some y => match hex_decode r with Some t => Some (N.lor (N.shiftl x 4) y :: t) | None => None end
                   | _, _ => None
                   end
  end.
(** str::strip_prefix("0x") and unwrap_or, common/src/types/mod.rs:111, 299 and utils/serde.rs:51, 77 *)
Definition strip_0x (l : bytes) : bytes := match l with 48 :: 120 :: r => r | _ => l end.

(** common/src/utils/serde.rs:90-97 and 100-106, and the Display of mod.rs:238: what JSON files hold *)
Definition to_json (l : bytes) : bytes := 48 :: 120 :: hex_encode l.
(** common/src/utils/serde.rs:35-62: an array of [n] octets *)
Definition array_of_json (n : nat) (s : bytes) : option bytes :=
  match hex_decode (strip_0x s) with Some l => if Nat.eqb (length l) n then Some l else None | None => None end.
(** common/src/utils/serde.rs:65-88: octets of any number; the same as common/src/types/mod.rs:110-114 *)
Definition vec_of_json (s : bytes) : option bytes := hex_decode (strip_0x s).
(** common/src/types/mod.rs:287-289 *)
Definition to_hex (l : bytes) : bytes := hex_encode l.
(** common/src/types/mod.rs:298-314: a short text is filled with zeros on the left; the width counts characters, which makes no difference as texts with others than digits are errors *)
Definition from_hex (n : nat) (s : bytes) : option bytes :=
  let h := strip_0x s in
  if Nat.ltb (n * 2) (length h) then None
  else match hex_decode (if Nat.ltb (length h) (n * 2) then repeat 48 (n * 2 - length h) ++ h else h) with
       | Some l => if Nat.eqb (length l) n then Some l else None
       | None => None
       end.

(** ** Names on the network *)
(** The alphabet of RFC 4648 in lower case: base32::encode and to_lowercase, crypto/src/types/public_keys.rs:37-38 *)
Definition b32_char (n : N) : N := if n <? 26 then 97 + n else 24 + n.
(** base32::decode after to_uppercase, crypto/src/types/public_keys.rs:45-48: the value of a character in either case *)
Definition b32_value (c : N) : option N :=
  if (97 <=? c) && (c <=? 122) then Some (c - 97) else if (65 <=? c) && (c <=? 90) then Some (c - 65) else if (50 <=? c) && (c <=? 55) then Some (c - 24) else None.
(** base32::encode of five octets, used at crypto/src/types/public_keys.rs:38 *)
Definition b32_group (a b c d e : N) : list N :=
  [ N.shiftr (N.land a 248) 3; N.lor (N.shiftl (N.land a 7) 2) (N.shiftr (N.land b 192) 6); N.shiftr (N.land b 62) 1; N.lor (N.shiftl (N.land b 1) 4) (N.shiftr (N.land c 240) 4);
    N.lor (N.shiftl (N.land c 15) 1) (N.shiftr d 7); N.shiftr (N.land d 124) 2; N.lor (N.shiftl (N.land d 3) 3) (N.shiftr (N.land e 224) 5); N.land e 31 ].
(** base32::encode, used at crypto/src/types/public_keys.rs:38; a last group is filled with zero octets, and its characters that hold no bit of the data are dropped *)
Fixpoint b32_values (l : bytes) : list N :=
  match l with
  | a :: b :: c :: d :: e :: r => b32_group a b c d e ++ b32_values r
  | [a; b; c; d] => firstn 7 (b32_group a b c d 0)
  | [a; b; c] => firstn 5 (b32_group a b c 0 0)
  | [a; b] => firstn 4 (b32_group a b 0 0 0)
  | [a] => firstn 2 (b32_group a 0 0 0 0)
  | [] => []
  end.
(** base32::encode and to_lowercase, crypto/src/types/public_keys.rs:37-38 *)
Definition b32_encode (l : bytes) : bytes := map b32_char (b32_values l).
(** base32::decode of eight values, used at crypto/src/types/public_keys.rs:45; shifts are on u8 *)
Definition b32_octets (a b c d e f g h : N) : list N :=
  map (fun x => N.land x 255)
    [ N.lor (N.shiftl a 3) (N.shiftr b 2); N.lor (N.lor (N.shiftl b 6) (N.shiftl c 1)) (N.shiftr d 4); N.lor (N.shiftl d 4) (N.shiftr e 1);
      N.lor (N.lor (N.shiftl e 7) (N.shiftl f 2)) (N.shiftr g 3); N.lor (N.shiftl g 5) h ].
(** base32::decode, used at crypto/src/types/public_keys.rs:45; missing values of a last group are zero, and the result is cut to five octets for eight characters *)
Fixpoint b32_join (l : list N) : bytes :=
  match l with
  | a :: b :: c :: d :: e :: f :: g :: h :: r => b32_octets a b c d e f g h ++ b32_join r
  | [a; b; c; d; e; f; g] => firstn 4 (b32_octets a b c d e f g 0)
  | [a; b; c; d; e; f] => firstn 3 (b32_octets a b c d e f 0 0)
  | [a; b; c; d; e] => firstn 3 (b32_octets a b c d e 0 0 0)
  | [a; b; c; d] => firstn 2 (b32_octets a b c d 0 0 0 0)
  | [a; b; c] => firstn 1 (b32_octets a b c 0 0 0 0 0)
  | [a; b] => firstn 1 (b32_octets a b 0 0 0 0 0 0)
  | _ => []
  end.
(** base32::decode, used at crypto/src/types/public_keys.rs:45: every character must be of the alphabet *)
Fixpoint b32_read (l : bytes) : option (list N) :=
  match l with [] => Some [] | c :: r => match b32_value c, b32_read r with Some v, Some t => Some (v :: t) | _, _ => None end end.
(** crypto/src/types/public_keys.rs:35-41; also the server name given to the transport, network/src/endpoint.rs:49-53 *)
Definition as_dns_name (k : bytes) : bytes := 101 :: b32_encode k.
(** crypto/src/types/public_keys.rs:43-50; a key has 32 octets *)
Definition from_dns_name (s : bytes) : option bytes :=
  match s with
  | 101 :: r => match b32_read r with Some v => if Nat.eqb (length (b32_join v)) 32 then Some (b32_join v) else None | None => None end
  | _ => None
  end.
