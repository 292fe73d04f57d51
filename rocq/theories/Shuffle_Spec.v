(** The Graypaper's Fisher-Yates recursion, on lists. *)
From Verif Require Import Base.

(** Take the element at position r mod |s|; the last element takes its place; continue with one element fewer. *)
Inductive fisher_yates {T} : list T -> list N -> list T -> Prop :=
| fy_nil : forall rs, fisher_yates [] rs []
| fy_last : forall s x r rs out,                       (* the chosen position is the last one *)
    N.to_nat (r mod N.of_nat (S (length s))) = length s ->
    fisher_yates s rs out -> fisher_yates (s ++ [x]) (r :: rs) (x :: out)
| fy_mid : forall a x b y r rs out,                    (* a proper inner position: y, the last, replaces x *)
    N.to_nat (r mod N.of_nat (S (S (length a + length b)))) = length a ->
    fisher_yates (a ++ y :: b) rs out -> fisher_yates (a ++ x :: b ++ [y]) (r :: rs) (x :: out).

(** The numbers drawn from a hash (Graypaper F.2): hash the seed with the block's number in four octets, little endian; each hash gives eight numbers, of four octets each, little endian. *)
Definition drawn (H : bytes -> bytes) (seed : bytes) (rs : list N) : Prop :=
  forall block j x, j < 8 -> nth_error rs (8 * block + j) = Some x ->
    let b := N.of_nat block in
    let h := H (seed ++ [b mod 256; b / 256 mod 256; b / 65536 mod 256; b / 16777216 mod 256]%N) in
    x = (nth (4 * j) h 0 + 256 * nth (4 * j + 1) h 0 + 65536 * nth (4 * j + 2) h 0 + 16777216 * nth (4 * j + 3) h 0)%N.
