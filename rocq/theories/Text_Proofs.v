From Coq Require Import String.
From Coq Require Import List.
From Verif Require Import Base Base_Proofs Text_Model Text_Spec.
From Coq Require Import Lia.
Local Open Scope N_scope.

(** ** Octets, bit by bit *)
Lemma low_bits a k : a < 2 ^ k -> forall i, k <= i -> N.testbit a i = false.
Proof. intros H i Hi. destruct (N.eq_dec a 0) as [->|Z]; [apply N.bits_0|]. apply N.bits_above_log2. apply N.log2_lt_pow2; [lia|]. eapply N.lt_le_trans; [exact H|]. apply N.pow_le_mono_r; lia. Qed.
Lemma eight a b : a < 256 -> b < 256 -> (forall i, i < 8 -> N.testbit a i = N.testbit b i) -> a = b.
Proof. intros A B H. apply N.bits_inj. intro i. destruct (N.ltb i 8) eqn:L; [apply H; apply N.ltb_lt in L; exact L|]. apply N.ltb_ge in L. rewrite !(low_bits _ 8); [reflexivity|exact B|exact L|exact A|exact L]. Qed.
Lemma to_eight (Q : N -> Prop) : Q 0 -> Q 1 -> Q 2 -> Q 3 -> Q 4 -> Q 5 -> Q 6 -> Q 7 -> forall i, i < 8 -> Q i.
Proof. intros q0 q1 q2 q3 q4 q5 q6 q7 i H. assert (C : i = 0 \/ i = 1 \/ i = 2 \/ i = 3 \/ i = 4 \/ i = 5 \/ i = 6 \/ i = 7) by lia.
  destruct C as [->|[->|[->|[->|[->|[->|[->| ->]]]]]]]; assumption. Qed.
Lemma land_255 x : N.land x 255 < 256.
Proof. change 255 with (N.ones 8). rewrite N.land_ones. apply N.mod_lt. discriminate. Qed.

Ltac bit1 :=
  match goal with
  | |- context [N.testbit (N.lor ?a ?b) ?i] => rewrite (N.lor_spec a b i)
  | |- context [N.testbit (N.land ?a ?b) ?i] => rewrite (N.land_spec a b i)
  | |- context [N.testbit (N.shiftr ?a ?k) ?i] => rewrite (N.shiftr_spec' a k i); let j := eval compute in (i + k) in change (i + k) with j
  | |- context [N.testbit (N.shiftl ?a ?k) ?i] => let c := eval compute in (i <? k) in
      match c with true => rewrite (N.shiftl_spec_low a k i) by reflexivity
                 | false => rewrite (N.shiftl_spec_high' a k i) by (vm_compute; discriminate); let j := eval compute in (i - k) in change (i - k) with j end
  end.
Ltac consts := repeat match goal with
  | |- context [N.testbit (Npos ?p) ?i] => let v := eval compute in (N.testbit (Npos p) i) in change (N.testbit (Npos p) i) with v
  | |- context [N.testbit 0 ?i] => rewrite (N.bits_0 i) end.
Ltac highs := repeat match goal with H : ?a < 256 |- context [N.testbit ?a ?i] => is_var a;
    let c := eval compute in (8 <=? i) in match c with true => rewrite (low_bits a 8 H i) by (vm_compute; discriminate) end end.
Ltac bools := rewrite ?Bool.andb_true_r, ?Bool.andb_false_r, ?Bool.orb_false_r, ?Bool.orb_false_l, ?Bool.andb_false_l.
Ltac bitwise := repeat bit1; consts; highs; bools; try reflexivity.

Lemma octets_of_group a b c d e : a < 256 -> b < 256 -> c < 256 -> d < 256 -> e < 256 ->
  match b32_group a b c d e with [p; q; r; s; t; u; v; w] => b32_octets p q r s t u v w | _ => [] end = [a; b; c; d; e].
Proof.
  intros A B C D E. unfold b32_group, b32_octets. cbn [map].
  assert (J : forall (x1 x2 x3 x4 x5 : N), x1 = a -> x2 = b -> x3 = c -> x4 = d -> x5 = e -> [x1; x2; x3; x4; x5] = [a; b; c; d; e]) by (intros; subst; reflexivity).
  apply J; (apply eight; [apply land_255|assumption|]); apply to_eight; bitwise.
Qed.

Definition spread (l : bytes) : list N := b32_values l.
Ltac grp a b c d e := let H := fresh in
  assert (H := octets_of_group a b c d e); unfold b32_group in H; rewrite ?H; cbn beta iota in H.

Lemma b32_join_values : forall n l, (length l <= n)%nat -> Forall is_byte l -> b32_join (b32_values l) = l.
Proof.
  induction n as [|n IH]; intros l L F; [destruct l; [reflexivity|cbn in L; lia]|].
  assert (Z : 0 < 256) by reflexivity.
  destruct l as [|a [|b [|c [|d [|e r]]]]]; [reflexivity| | | | |].
  all: repeat match goal with H : Forall is_byte (_ :: _) |- _ => inversion H; subst; clear H end; unfold is_byte in *.
  - pose proof (octets_of_group a 0 0 0 0 ltac:(assumption) Z Z Z Z) as G. unfold b32_group in G. cbv beta iota in G. unfold b32_values, b32_group. cbn [firstn b32_join].
    change (N.shiftr (N.land 0 62) 1) with 0 in G. change (N.lor (N.shiftl (N.land 0 1) 4) (N.shiftr (N.land 0 240) 4)) with 0 in G. change (N.lor (N.shiftl (N.land 0 15) 1) (N.shiftr 0 7)) with 0 in G.
    change (N.shiftr (N.land 0 124) 2) with 0 in G. change (N.lor (N.shiftl (N.land 0 3) 3) (N.shiftr (N.land 0 224) 5)) with 0 in G. change (N.land 0 31) with 0 in G.
    rewrite G. reflexivity.
  - pose proof (octets_of_group a b 0 0 0 ltac:(assumption) ltac:(assumption) Z Z Z) as G. unfold b32_group in G. cbv beta iota in G. unfold b32_values, b32_group. cbn [firstn b32_join].
    change (N.lor (N.shiftl (N.land 0 15) 1) (N.shiftr 0 7)) with 0 in G.
    change (N.shiftr (N.land 0 124) 2) with 0 in G. change (N.lor (N.shiftl (N.land 0 3) 3) (N.shiftr (N.land 0 224) 5)) with 0 in G. change (N.land 0 31) with 0 in G.
    rewrite G. reflexivity.
  - pose proof (octets_of_group a b c 0 0 ltac:(assumption) ltac:(assumption) ltac:(assumption) Z Z) as G. unfold b32_group in G. cbv beta iota in G. unfold b32_values, b32_group. cbn [firstn b32_join].
    change (N.shiftr (N.land 0 124) 2) with 0 in G. change (N.lor (N.shiftl (N.land 0 3) 3) (N.shiftr (N.land 0 224) 5)) with 0 in G. change (N.land 0 31) with 0 in G.
    rewrite G. reflexivity.
  - pose proof (octets_of_group a b c d 0 ltac:(assumption) ltac:(assumption) ltac:(assumption) ltac:(assumption) Z) as G. unfold b32_group in G. cbv beta iota in G. unfold b32_values, b32_group. cbn [firstn b32_join].
    change (N.land 0 31) with 0 in G. rewrite G. reflexivity.
  - pose proof (octets_of_group a b c d e ltac:(assumption) ltac:(assumption) ltac:(assumption) ltac:(assumption) ltac:(assumption)) as G. unfold b32_group in G. cbv beta iota in G.
    cbn [b32_values]. unfold b32_group. cbn [app b32_join]. rewrite G. cbn [app]. rewrite IH; [reflexivity|cbn in L; lia|assumption].
Qed.

(** ** The alphabet *)
Lemma group_values a b c d e : a < 256 -> b < 256 -> c < 256 -> d < 256 -> e < 256 ->
  b32_group a b c d e = fives (bits_of [a; b; c; d; e]).
Proof.
  intros A B C D E. unfold bits_of. cbn [flat_map map app fives]. unfold b32_group.
  assert (J : forall (x1 x2 x3 x4 x5 x6 x7 x8 y1 y2 y3 y4 y5 y6 y7 y8 : N), x1 = y1 -> x2 = y2 -> x3 = y3 -> x4 = y4 -> x5 = y5 -> x6 = y6 -> x7 = y7 -> x8 = y8 ->
    [x1; x2; x3; x4; x5; x6; x7; x8] = [y1; y2; y3; y4; y5; y6; y7; y8]) by (intros; subst; reflexivity).
  assert (V : forall p q r s t i, N.testbit (five p q r s t) i = if i =? 0 then t else if i =? 1 then s else if i =? 2 then r else if i =? 3 then q else if i =? 4 then p else false).
  { intros p q r s t i. assert (Lo : five p q r s t < 2 ^ 5) by (destruct p, q, r, s, t; reflexivity).
    destruct (5 <=? i) eqn:I.
    - apply N.leb_le in I. rewrite (low_bits _ 5 Lo i I). repeat (match goal with |- context [?x =? ?y] => destruct (N.eqb_spec x y); [lia|] end). reflexivity.
    - apply N.leb_gt in I. assert (K : i = 0 \/ i = 1 \/ i = 2 \/ i = 3 \/ i = 4) by lia. destruct K as [->|[->|[->|[->| ->]]]]; destruct p, q, r, s, t; reflexivity. }
  assert (B5 : forall x, x < 256 -> forall p q r s t, (forall i, i < 8 -> N.testbit x i = if i =? 0 then t else if i =? 1 then s else if i =? 2 then r else if i =? 3 then q else if i =? 4 then p else false) -> x = five p q r s t).
  { intros x X p q r s t H. apply eight; [exact X|destruct p, q, r, s, t; reflexivity|]. intros i I. rewrite V. apply H, I. }
  assert (W : forall x, (forall i, 8 <= i -> N.testbit x i = false) -> x < 256).
  { intros x H. destruct (N.eq_dec x 0) as [->|Z]; [reflexivity|]. change 256 with (2 ^ 8). apply N.log2_lt_pow2; [lia|]. destruct (N.ltb (N.log2 x) 8) eqn:L; [apply N.ltb_lt, L|]. apply N.ltb_ge in L. pose proof (H _ L) as Q. rewrite N.bit_log2 in Q by exact Z. discriminate. }
  assert (LA : forall x y, y < 256 -> N.land x y < 256). { intros x y Hy. apply W. intros i I. rewrite N.land_spec, (low_bits y 8 Hy i I). apply Bool.andb_false_r. }
  assert (SR : forall x k, x < 256 -> N.shiftr x k < 256). { intros x k Hx. apply W. intros i I. rewrite N.shiftr_spec'. apply (low_bits x 8 Hx). lia. }
  assert (LO : forall x y, x < 256 -> y < 256 -> N.lor x y < 256). { intros x y Hx Hy. apply W. intros i I. rewrite N.lor_spec, (low_bits x 8 Hx i I), (low_bits y 8 Hy i I). reflexivity. }
  assert (SL : forall x m k, m < 2 ^ (8 - k) -> k <= 8 -> N.shiftl (N.land x m) k < 256).
  { intros x m k Hm K. apply W. intros i I. rewrite N.shiftl_spec_high' by lia. rewrite N.land_spec, (low_bits m (8 - k) Hm) by lia. apply Bool.andb_false_r. }
  apply J; (apply B5; [repeat first [apply LO | apply SL; [reflexivity|discriminate] | apply SR | apply LA; reflexivity | apply LA]; try assumption; try reflexivity | apply to_eight; cbn [N.eqb Pos.eqb]; bitwise ]).
Qed.

Lemma fives_app8 a b c d e l : fives (bits_of [a; b; c; d; e] ++ l) = fives (bits_of [a; b; c; d; e]) ++ fives l.
Proof. reflexivity. Qed.
Lemma values_are_fives : forall n l, (length l <= n)%nat -> Forall is_byte l -> b32_values l = fives (bits_of l).
Proof.
  induction n as [|n IH]; intros l L F; [destruct l; [reflexivity|cbn in L; lia]|].
  assert (Z : 0 < 256) by reflexivity.
  destruct l as [|a [|b [|c [|d [|e r]]]]]; [reflexivity| | | | |].
  all: repeat match goal with H : Forall is_byte (_ :: _) |- _ => inversion H; subst; clear H end; unfold is_byte in *.
  - unfold b32_values. rewrite (group_values a 0 0 0 0) by assumption. reflexivity.
  - unfold b32_values. rewrite (group_values a b 0 0 0) by assumption. reflexivity.
  - unfold b32_values. rewrite (group_values a b c 0 0) by assumption. reflexivity.
  - unfold b32_values. rewrite (group_values a b c d 0) by assumption. reflexivity.
  - cbn [b32_values]. rewrite group_values by assumption. rewrite IH by (try assumption; cbn in L; lia).
    change (a :: b :: c :: d :: e :: r) with ([a; b; c; d; e] ++ r). unfold bits_of at 3. rewrite flat_map_app. fold (bits_of [a; b; c; d; e]) (bits_of r). rewrite fives_app8. reflexivity.
Qed.
Lemma five_lt a b c d e : five a b c d e < 32. Proof. destruct a, b, c, d, e; reflexivity. Qed.
Lemma fives_lt : forall n l, (length l <= n)%nat -> Forall (fun v => v < 32) (fives l).
Proof.
  induction n as [|n IH]; intros l L; [destruct l; [constructor|cbn in L; lia]|].
  destruct l as [|a [|b [|c [|d [|e r]]]]]; cbn [fives]; repeat (constructor; [apply five_lt|]); try constructor. apply IH. cbn in L. lia.
Qed.
Lemma below_32 (Q : N -> bool) : forallb Q (map N.of_nat (seq 0 32)) = true -> forall v, v < 32 -> Q v = true.
Proof. intros H v V. rewrite forallb_forall in H. apply H. apply in_map_iff. exists (N.to_nat v). split; [apply N2Nat.id|]. apply in_seq. lia. Qed.
Lemma value_char v : v < 32 -> b32_value (b32_char v) = Some v.
Proof. intro V. pose proof (below_32 (fun v => match b32_value (b32_char v) with Some w => w =? v | None => false end) ltac:(vm_compute; reflexivity) v V) as H. cbv beta in H.
  destruct (b32_value (b32_char v)) as [w|]; [|discriminate]. apply N.eqb_eq in H. subst. reflexivity. Qed.
Lemma char_alphabet v : v < 32 -> b32_char v = nth (N.to_nat v) b32_alphabet 0.
Proof. intro V. apply N.eqb_eq. apply (below_32 (fun v => b32_char v =? nth (N.to_nat v) b32_alphabet 0)); [vm_compute; reflexivity|exact V]. Qed.
Lemma read_chars : forall l, Forall (fun v => v < 32) l -> b32_read (map b32_char l) = Some l.
Proof. induction 1 as [|v l V _ IH]; [reflexivity|]. cbn [map b32_read]. rewrite value_char, IH by exact V. reflexivity. Qed.

Lemma name_spec k : Forall is_byte k -> as_dns_name k = name_of k.
Proof.
  intro F. unfold as_dns_name, name_of, b32_encode. rewrite (values_are_fives _ k (le_n _) F). cbn [ascii_bytes]. change (ascii_bytes "e"%string) with [101]. cbn [app]. f_equal.
  apply map_ext_in. intros v I. apply char_alphabet. pose proof (fives_lt _ (bits_of k) (le_n _)) as G. rewrite Forall_forall in G. apply G, I.
Qed.
Lemma read_name k : Forall is_byte k -> b32_read (b32_encode k) = Some (b32_values k).
Proof. intro F. apply read_chars. rewrite (values_are_fives _ k (le_n _) F). exact (fives_lt _ _ (le_n _)). Qed.
Lemma dns_round k : Forall is_byte k -> length k = 32%nat -> from_dns_name (as_dns_name k) = Some k.
Proof. intros F L. unfold from_dns_name, as_dns_name. rewrite read_name by exact F. rewrite (b32_join_values _ k (le_n _) F), L. reflexivity. Qed.

Lemma fives_length : forall n l, (length l <= n)%nat -> length (fives l) = Nat.div (length l + 4) 5.
Proof.
  induction n as [|n IH]; intros l L; [destruct l; [reflexivity|cbn in L; lia]|].
  destruct l as [|a [|b [|c [|d [|e r]]]]]; try reflexivity. cbn [fives length]. rewrite IH by (cbn in L; lia).
  replace (S (S (S (S (S (length r))))) + 4)%nat with (length r + 4 + 1 * 5)%nat by lia. rewrite Nat.div_add by discriminate. lia.
Qed.
Lemma bits_length l : length (bits_of l) = (8 * length l)%nat.
Proof. induction l as [|b l IH]; [reflexivity|]. unfold bits_of in *. cbn [flat_map]. rewrite app_length, IH. cbn [map length]. lia. Qed.

(** ** Hexadecimal *)
Lemma lor_hex x y : y < 16 -> N.lor (N.shiftl x 4) y = 16 * x + y.
Proof.
  intro Y. rewrite <- N.lxor_lor.
  - rewrite <- N.add_nocarry_lxor; [rewrite N.shiftl_mul_pow2; change (2 ^ 4) with 16; lia|]. apply N.bits_inj. intro i. rewrite N.land_spec, N.bits_0. destruct (i <? 4) eqn:I.
    + apply N.ltb_lt in I. rewrite N.shiftl_spec_low by exact I. reflexivity.
    + apply N.ltb_ge in I. rewrite (low_bits y 4 Y i I). apply Bool.andb_false_r.
  - apply N.bits_inj. intro i. rewrite N.land_spec, N.bits_0. destruct (i <? 4) eqn:I.
    + apply N.ltb_lt in I. rewrite N.shiftl_spec_low by exact I. reflexivity.
    + apply N.ltb_ge in I. rewrite (low_bits y 4 Y i I). apply Bool.andb_false_r.
Qed.
Lemma below_256 (Q : N -> bool) : forallb Q (map N.of_nat (seq 0 256)) = true -> forall v, v < 256 -> Q v = true.
Proof. intros H v V. rewrite forallb_forall in H. apply H. apply in_map_iff. exists (N.to_nat v). split; [apply N2Nat.id|]. apply in_seq. lia. Qed.

Definition oeq (a b : option N) : bool := match a, b with Some x, Some y => x =? y | None, None => true | _, _ => false end.
Lemma oeq_eq a b : oeq a b = true -> a = b.
Proof. destruct a, b; cbn; try discriminate; [|reflexivity]. intro H. apply N.eqb_eq in H. subst. reflexivity. Qed.
Definition lower : bytes := ascii_bytes "0123456789abcdef"%string.
Definition upper : bytes := ascii_bytes "0123456789ABCDEF"%string.
Lemma place_big l c : Forall (fun x => x < 256) l -> 256 <= c -> place_in l c = None.
Proof. induction 1 as [|x l X _ IH]; intro H; [reflexivity|]. cbn [place_in]. destruct (N.eqb_spec x c); [lia|]. rewrite IH by exact H. reflexivity. Qed.
Lemma hex_value_spec c v : hex_value c = Some v <-> hex_means c v.
Proof.
  unfold hex_means. fold lower upper. destruct (c <? 256) eqn:C.
  - apply N.ltb_lt in C. pose proof (below_256 (fun c => oeq (hex_value c) (match place_in lower c with Some v => Some v | None => place_in upper c end)) ltac:(vm_compute; reflexivity) c C) as A.
    pose proof (below_256 (fun c => match place_in lower c, place_in upper c with Some v, Some w => v =? w | _, _ => true end) ltac:(vm_compute; reflexivity) c C) as B. cbv beta in A, B. apply oeq_eq in A. rewrite A.
    destruct (place_in lower c) as [x|], (place_in upper c) as [y|]; try apply N.eqb_eq in B; subst; (split; [intro H; injection H as ->; auto|intros [H|H]; congruence]) || (split; [discriminate|intros [H|H]; discriminate]).
  - apply N.ltb_ge in C. rewrite (place_big lower c) by (exact C || (vm_compute; repeat constructor)). rewrite (place_big upper c) by (exact C || (vm_compute; repeat constructor)).
    split; [|intros [H|H]; discriminate]. unfold hex_value. destruct (N.leb_spec c 70); [lia|]. destruct (N.leb_spec c 102); [lia|]. destruct (N.leb_spec c 57); [lia|]. rewrite !Bool.andb_false_r. discriminate.
Qed.
Lemma hex_value_lt c v : hex_value c = Some v -> v < 16.
Proof.
  unfold hex_value. intro H. repeat match type of H with (if (?a <=? ?b) && (?c <=? ?d) then _ else _) = _ => destruct (N.leb_spec a b), (N.leb_spec c d); cbn [andb] in H end;
  try discriminate; injection H as <-; lia.
Qed.
Lemma hex_decode_spec : forall n s l, (length s <= n)%nat -> hex_decode s = Some l <-> hex_text s l.
Proof.
  induction n as [|n IH]; intros s l L; [destruct s; [|cbn in L; lia]; cbn; split; [intro H; injection H as <-; constructor|intro H; inversion H; reflexivity]|].
  destruct s as [|c [|d s]]; [cbn; split; [intro H; injection H as <-; constructor|intro H; inversion H; reflexivity]|cbn; split; [discriminate|intro H; inversion H]|].
  cbn [hex_decode]. split.
  - destruct (hex_value c) as [x|] eqn:X, (hex_value d) as [y|] eqn:Y; try discriminate. destruct (hex_decode s) as [t|] eqn:T; [|discriminate]. intro H. injection H as <-.
    rewrite lor_hex by (eapply hex_value_lt; exact Y). constructor; [apply hex_value_spec, X|apply hex_value_spec, Y|]. apply IH; [cbn in L; lia|exact T].
  - intro H. inversion H as [|c' d' x y s' l' X Y T]; subst. apply hex_value_spec in X, Y. rewrite X, Y. apply IH in T; [|cbn in L; lia]. rewrite T. rewrite lor_hex by (eapply hex_value_lt; exact Y). reflexivity.
Qed.
Lemma hex_round l : Forall is_byte l -> hex_decode (hex_encode l) = Some l.
Proof.
  induction 1 as [|b l B _ IH]; [reflexivity|]. cbn [hex_encode hex_decode]. rewrite IH.
  pose proof (below_256 (fun b => match hex_value (hex_digit (N.shiftr b 4)), hex_value (hex_digit (N.land b 15)) with Some x, Some y => N.lor (N.shiftl x 4) y =? b | _, _ => false end) ltac:(vm_compute; reflexivity) b B) as H. cbv beta in H.
  destruct (hex_value (hex_digit (N.shiftr b 4))); [|discriminate]. destruct (hex_value (hex_digit (N.land b 15))); [|discriminate]. apply N.eqb_eq in H. rewrite H. reflexivity.
Qed.
Lemma hex_encode_length l : length (hex_encode l) = (length l * 2)%nat. Proof. induction l as [|b l IH]; [reflexivity|]. cbn [hex_encode length]. rewrite IH. lia. Qed.
Lemma strip_spec s l : hex_decode (strip_0x s) = Some l <-> exists t, prefixed s t /\ hex_text t l.
Proof.
  split.
  - intro H. exists (strip_0x s). split; [|eapply hex_decode_spec; [apply le_n|exact H]]. unfold prefixed. change (ascii_bytes "0x"%string) with [48; 120].
    destruct s as [|c s]; [left; reflexivity|]. destruct (N.eq_dec c 48) as [->|C]; [destruct s as [|d s]; [left; reflexivity|destruct (N.eq_dec d 120) as [->|D]; [right; reflexivity|]]|].
    + left. unfold strip_0x. destruct d as [|p]; [reflexivity|]. repeat (destruct p as [p|p|]; try reflexivity). congruence.
    + left. unfold strip_0x. destruct c as [|p]; [reflexivity|]. repeat (destruct p as [p|p|]; try reflexivity). congruence.
  - intros [t [P T]]. assert (E : strip_0x s = t); [|rewrite E; eapply hex_decode_spec; [apply le_n|exact T]].
    unfold prefixed in P. change (ascii_bytes "0x"%string) with [48; 120] in P. destruct P as [->| ->]; [|reflexivity].
    destruct T as [|c d x y s l' X Y T]; [reflexivity|]. apply hex_value_spec in Y. unfold strip_0x. destruct c as [|p]; [reflexivity|]. repeat (destruct p as [p|p|]; try reflexivity).
    destruct d as [|p]; [reflexivity|]. repeat (destruct p as [p|p|]; try reflexivity). vm_compute in Y. discriminate.
Qed.
Lemma hex_text_length s l : hex_text s l -> length s = (length l * 2)%nat.
Proof. induction 1; [reflexivity|]. cbn [length]. lia. Qed.
