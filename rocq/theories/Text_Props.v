(** C115, C116: octets as hexadecimal texts, and the names of validators on the network. *)
From Coq Require Import String.
From Coq Require Import List.
From Verif Require Import Base Base_Proofs Text_Model Text_Spec Text_Proofs.
Local Open Scope N_scope.

(** ** C115 *)
(** What is written to a JSON file is read back, whether as octets of a fixed or of any number; what [to_hex] writes is read back by [from_hex]. *)
Theorem hex_written_is_read : forall l, Forall is_byte l ->
  array_of_json (length l) (to_json l) = Some l /\ vec_of_json (to_json l) = Some l /\ from_hex (length l) (to_hex l) = Some l /\ from_hex (length l) (to_json l) = Some l.
Proof.
  intros l F. assert (S : forall s, strip_0x (48 :: 120 :: s) = s) by reflexivity.
  assert (T : strip_0x (hex_encode l) = hex_encode l).
  { destruct F as [|b l B F]; [reflexivity|]. cbn [hex_encode]. pose proof (below_256 (fun b => negb (hex_digit (N.land b 15) =? 120)) ltac:(vm_compute; reflexivity) b B) as H. cbv beta in H.
    apply Bool.negb_true_iff, N.eqb_neq in H. unfold strip_0x. destruct (hex_digit (N.shiftr b 4)) as [|p]; [reflexivity|]. repeat (destruct p as [p|p|]; try reflexivity).
    destruct (hex_digit (N.land b 15)) as [|p]; [reflexivity|]. repeat (destruct p as [p|p|]; try reflexivity). congruence. }
  split; [|split; [|split]].
  - unfold array_of_json, to_json. rewrite S, hex_round by exact F. rewrite Nat.eqb_refl. reflexivity.
  - unfold vec_of_json, to_json. rewrite S. apply hex_round, F.
  - unfold from_hex, to_hex. rewrite T. rewrite !hex_encode_length, Nat.ltb_irrefl, hex_round by exact F. rewrite Nat.eqb_refl. reflexivity.
  - unfold from_hex, to_json. rewrite S. rewrite !hex_encode_length, Nat.ltb_irrefl, hex_round by exact F. rewrite Nat.eqb_refl. reflexivity.
Qed.
Print Assumptions hex_written_is_read.

(** The text that is written for octets: two digits of lower case for each, the one of the greater weight first; in a JSON file after 0x. *)
Theorem hex_texts_written : forall l, Forall is_byte l ->
  to_hex l = flat_map (fun b => [nth (N.to_nat (b / 16)) (ascii_bytes "0123456789abcdef"%string) 0; nth (N.to_nat (b mod 16)) (ascii_bytes "0123456789abcdef"%string) 0]) l /\
  to_json l = ascii_bytes "0x"%string ++ to_hex l.
Proof.
  intros l F. split; [|reflexivity]. unfold to_hex. induction F as [|b l B F IH]; [reflexivity|]. cbn [hex_encode flat_map app]. rewrite IH.
  pose proof (below_256 (fun b => (hex_digit (N.shiftr b 4) =? nth (N.to_nat (b / 16)) (ascii_bytes "0123456789abcdef"%string) 0) && (hex_digit (N.land b 15) =? nth (N.to_nat (b mod 16)) (ascii_bytes "0123456789abcdef"%string) 0))
    ltac:(vm_compute; reflexivity) b B) as H. cbv beta in H. apply Bool.andb_true_iff in H. destruct H as [H1 H2]. apply N.eqb_eq in H1, H2. rewrite H1, H2. reflexivity.
Qed.
Print Assumptions hex_texts_written.
Example hex_written_case : to_json [0; 171; 255] = ascii_bytes "0x00abff"%string.
Proof. reflexivity. Qed.

(** The texts that a JSON file may hold for octets: pairs of digits of either case, after 0x or not; for an array, exactly as many pairs as it has octets. *)
Theorem json_hex_texts : forall s l,
  (vec_of_json s = Some l <-> exists t, prefixed s t /\ hex_text t l) /\
  (forall n, array_of_json n s = Some l <-> length l = n /\ exists t, prefixed s t /\ hex_text t l).
Proof.
  intros s l. split; [apply strip_spec|]. intro n. unfold array_of_json. split.
  - destruct (hex_decode (strip_0x s)) as [k|] eqn:K; [|discriminate]. destruct (Nat.eqb_spec (length k) n) as [E|]; [|discriminate]. intro H. injection H as <-. split; [exact E|]. apply strip_spec, K.
  - intros [E T]. apply strip_spec in T. rewrite T, E, Nat.eqb_refl. reflexivity.
Qed.
Print Assumptions json_hex_texts.

(** [from_hex]: the digits with zeros before them.
    Missing: that a text of fewer digits is refused, see below. *)
Theorem from_hex_partial : forall n s l,
  from_hex n s = Some l <-> exists t, prefixed s t /\ (length t <= 2 * n)%nat /\ hex_text (repeat 48 (2 * n - length t) ++ t) l.
Proof.
  intros n s l.
  assert (P : exists t, prefixed s t /\ strip_0x s = t /\ forall u k m, prefixed s u -> hex_text (repeat 48 m ++ u) k -> u = t).
  { unfold prefixed. change (ascii_bytes "0x"%string) with [48; 120]. exists (strip_0x s). split; [|split; [reflexivity|]].
    - destruct s as [|c s]; [left; reflexivity|]. destruct (N.eq_dec c 48) as [->|C]; [destruct s as [|d s]; [left; reflexivity|destruct (N.eq_dec d 120) as [->|D]; [right; reflexivity|]]|].
      + left. unfold strip_0x. destruct d as [|p]; [reflexivity|]. repeat (destruct p as [p|p|]; try reflexivity). congruence.
      + left. unfold strip_0x. destruct c as [|p]; [reflexivity|]. repeat (destruct p as [p|p|]; try reflexivity). congruence.
    - intros u k m [<-| ->] T; [|reflexivity]. assert (D : forall r w, hex_text r w -> ~ In 120 r).
      { induction 1 as [|c d x y r w X Y _ IH]; [intros []|]. apply hex_value_spec in X, Y. intros [->|[->|I]]; [vm_compute in X; discriminate|vm_compute in Y; discriminate|exact (IH I)]. }
      apply D in T. unfold strip_0x. destruct s as [|c r]; [reflexivity|]. destruct c as [|p]; [reflexivity|]. repeat (destruct p as [p|p|]; try reflexivity).
      destruct r as [|d r]; [reflexivity|]. destruct d as [|p]; [reflexivity|]. repeat (destruct p as [p|p|]; try reflexivity). exfalso. apply T. apply in_or_app. right. right. left. reflexivity. }
  destruct P as [t [P1 [P2 P3]]]. unfold from_hex. rewrite P2. cbv zeta. clear P2. replace (n * 2)%nat with (2 * n)%nat by lia. split.
  - destruct (Nat.ltb_spec (2 * n) (length t)) as [|L]; [discriminate|]. intro H. exists t. split; [exact P1|]. split; [exact L|].
    assert (E : (if Nat.ltb (length t) (2 * n) then repeat 48 (2 * n - length t) ++ t else t) = repeat 48 (2 * n - length t) ++ t).
    { destruct (Nat.ltb_spec (length t) (2 * n)) as [|G]; [reflexivity|]. replace (2 * n - length t)%nat with 0%nat by lia. reflexivity. }
    unfold bytes in *. rewrite E in H. destruct (hex_decode _) as [k|] eqn:K; [|discriminate]. destruct (Nat.eqb (length k) n); [|discriminate]. injection H as <-. eapply hex_decode_spec; [apply le_n|exact K].
  - intros [u [U [L T]]]. assert (u = t) by (eapply P3; eassumption). subst u. destruct (Nat.ltb_spec (2 * n) (length t)) as [|_]; [lia|].
    assert (E : (if Nat.ltb (length t) (2 * n) then repeat 48 (2 * n - length t) ++ t else t) = repeat 48 (2 * n - length t) ++ t).
    { destruct (Nat.ltb_spec (length t) (2 * n)) as [|G]; [reflexivity|]. replace (2 * n - length t)%nat with 0%nat by lia. reflexivity. }
    unfold bytes in *. rewrite E. pose proof (hex_text_length _ _ T) as Q. eapply hex_decode_spec in T; [|apply le_n]. rewrite T. rewrite app_length, repeat_length in Q.
    destruct (Nat.eqb_spec (length l) n) as [|Z]; [reflexivity|lia].
Qed.
Print Assumptions from_hex_partial.

(** A digit lost at the front of a key or a hash is not noticed: the rest is read as another value, which is not the one the same text has in a JSON file (there it is an error). *)
Theorem from_hex_refuted : exists k k' : bytes, length k = 32%nat /\ length k' = 32%nat /\ Forall is_byte k /\ k' <> k /\
  from_hex 32 (ascii_bytes "0x"%string ++ tl (hex_encode k)) = Some k' /\ array_of_json 32 (ascii_bytes "0x"%string ++ tl (hex_encode k)) = None /\ from_hex 32 [] = Some (repeat 0 32).
Proof. exists (repeat 171 32), (11 :: repeat 171 31). repeat split; try reflexivity; [repeat constructor|discriminate]. Qed.
Print Assumptions from_hex_refuted.

Example hex_case :
  array_of_json 3 (ascii_bytes "0x00aBfF"%string) = Some [0; 171; 255] /\ hex_text (ascii_bytes "00aBfF"%string) [0; 171; 255] /\ array_of_json 4 (ascii_bytes "0x00aBfF"%string) = None /\
  to_json [0; 171; 255] = ascii_bytes "0x00abff"%string /\ vec_of_json (ascii_bytes "0x0x00"%string) = None /\ from_hex 3 (ascii_bytes "aBfF"%string) = Some [0; 171; 255].
Proof. split; [reflexivity|]. split; [|repeat split; reflexivity]. apply (hex_decode_spec 6); [apply le_n|reflexivity]. Qed.

(** ** C116 *)
(** A validator's name: the letter e and its key in base 32, 53 characters that a domain name may have; read back, it is the key; different keys have different names. *)
Theorem dns_names : forall k, Forall is_byte k -> length k = 32%nat ->
  as_dns_name k = name_of k /\ length (as_dns_name k) = 53%nat /\ (forall c, In c (as_dns_name k) -> In c b32_alphabet) /\ from_dns_name (as_dns_name k) = Some k /\
  (forall k', Forall is_byte k' -> length k' = 32%nat -> as_dns_name k' = as_dns_name k -> k' = k).
Proof.
  intros k F L. split; [apply name_spec, F|]. split; [|split; [|split; [apply dns_round; assumption|]]].
  - rewrite name_spec by exact F. unfold name_of. rewrite app_length, map_length, (fives_length _ _ (le_n _)), bits_length, L. reflexivity.
  - rewrite name_spec by exact F. intros c I. unfold name_of in I. apply in_app_or in I. destruct I as [I|I].
    + change (ascii_bytes "e"%string) with [101] in I. destruct I as [<-|[]]. vm_compute. tauto.
    + apply in_map_iff in I. destruct I as [v [<- I]]. apply nth_In. pose proof (fives_lt _ (bits_of k) (le_n _)) as G. rewrite Forall_forall in G. apply G in I. change (length b32_alphabet) with 32%nat. lia.
  - intros k' F' L' E. pose proof (dns_round k F L) as A. rewrite <- E, dns_round in A by assumption. injection A as ->. reflexivity.
Qed.
Print Assumptions dns_names.

(** The key of the repository's own test; an upper-case name, and one whose last character has bits that no key has, are read as the same key. *)
Definition ex_key : bytes := match array_of_json 32 (ascii_bytes "0x3b6a27bcceb6a42d62a3a8d02a6f0d73653215771de243a63ac048a18b59da29"%string) with Some k => k | None => [] end.
Example dns_case : Forall is_byte ex_key /\ length ex_key = 32%nat /\ as_dns_name ex_key = ascii_bytes "ehnvcppgow2sc2yvdvdicu3ynonsteflxdxrehjr2ybekdc2z3iuq"%string /\
  from_dns_name (ascii_bytes "eHNVCPPGOW2SC2YVDVDICU3YNONSTEFLXDXREHJR2YBEKDC2Z3IUQ"%string) = Some ex_key /\
  from_dns_name (ascii_bytes "ehnvcppgow2sc2yvdvdicu3ynonsteflxdxrehjr2ybekdc2z3iur"%string) = Some ex_key /\
  from_dns_name (ascii_bytes "ehnvcppgow2sc2yvdvdicu3ynonsteflxdxrehjr2ybekdc2z3iu"%string) = None /\ from_dns_name (ascii_bytes "hnvcppgow2sc2yvdvdicu3ynonsteflxdxrehjr2ybekdc2z3iuqe"%string) = None.
Proof. split; [|repeat split; vm_compute; reflexivity]. apply Forall_forall. intros x I. vm_compute in I. intuition (subst; reflexivity). Qed.
