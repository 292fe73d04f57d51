(** General lemmas used by every area. *)
From Verif Require Export Base.
Ltac Zify.zify_post_hook ::= Z.div_mod_to_equations.

Lemma le_bytes_length : forall n x, length (le_bytes n x) = n.
Proof. induction n; simpl; intros; [reflexivity|]. now rewrite IHn. Qed.

Lemma le_bytes_Bytes : forall n x, Bytes (le_bytes n x).
Proof.
  induction n; simpl; intros x; constructor.
  - unfold is_byte. lia.
  - apply IHn.
Qed.

Lemma pow256_S : forall n : nat, (256 ^ N.of_nat (S n) = 256 * 256 ^ N.of_nat n)%N.
Proof. intros. rewrite Nat2N.inj_succ, N.pow_succ_r'. reflexivity. Qed.

Lemma pow2_8 : forall n : N, (2 ^ (8 * n) = 256 ^ n)%N.
Proof. intros. rewrite N.pow_mul_r. reflexivity. Qed.

Lemma le_val_le_bytes : forall n x, le_val (le_bytes n x) = (x mod 256 ^ N.of_nat n)%N.
Proof.
  induction n; intros x.
  - simpl. symmetry. apply N.mod_1_r.
  - cbn [le_bytes le_val]. rewrite IHn, pow256_S.
    rewrite N.mod_mul_r by (try lia; apply N.pow_nonzero; lia). reflexivity.
Qed.

Lemma le_val_le_bytes_small : forall n x, (x < 256 ^ N.of_nat n)%N -> le_val (le_bytes n x) = x.
Proof. intros. rewrite le_val_le_bytes. now apply N.mod_small. Qed.

Lemma le_val_bound : forall bs, Bytes bs -> (le_val bs < 256 ^ N.of_nat (length bs))%N.
Proof.
  induction 1 as [|b bs Hb HB IH].
  - simpl. lia.
  - cbn [le_val length]. rewrite pow256_S. unfold is_byte in Hb. lia.
Qed.

Lemma le_bytes_le_val : forall bs, Bytes bs -> le_bytes (length bs) (le_val bs) = bs.
Proof.
  induction 1 as [|b bs Hb HB IH]; [reflexivity|].
  unfold is_byte in Hb. cbn [length le_bytes le_val].
  replace ((b + 256 * le_val bs) mod 256)%N with b by lia.
  replace ((b + 256 * le_val bs) / 256)%N with (le_val bs) by lia.
  now rewrite IH.
Qed.

Lemma le_bytes_inj : forall n x y, (x < 256 ^ N.of_nat n)%N -> (y < 256 ^ N.of_nat n)%N ->
  le_bytes n x = le_bytes n y -> x = y.
Proof.
  intros n x y Hx Hy H. rewrite <- (le_val_le_bytes_small n x Hx), <- (le_val_le_bytes_small n y Hy).
  now rewrite H.
Qed.

Lemma firstn_app_exact : forall A (l1 l2 : list A), firstn (length l1) (l1 ++ l2) = l1.
Proof. intros. rewrite firstn_app, Nat.sub_diag, firstn_all. simpl. now rewrite app_nil_r. Qed.

Lemma skipn_app_exact : forall A (l1 l2 : list A), skipn (length l1) (l1 ++ l2) = l2.
Proof. intros. rewrite skipn_app, Nat.sub_diag, skipn_all. reflexivity. Qed.

Lemma firstn_app_len : forall A n (l1 l2 : list A), length l1 = n -> firstn n (l1 ++ l2) = l1.
Proof. intros; subst; apply firstn_app_exact. Qed.

Lemma skipn_app_len : forall A n (l1 l2 : list A), length l1 = n -> skipn n (l1 ++ l2) = l2.
Proof. intros; subst; apply skipn_app_exact. Qed.

Lemma Forall_firstn : forall A (P : A -> Prop) n l, Forall P l -> Forall P (firstn n l).
Proof. intros A P n l H. revert n. induction H; intros [|n]; simpl; constructor; auto. Qed.

Lemma Forall_skipn : forall A (P : A -> Prop) n l, Forall P l -> Forall P (skipn n l).
Proof. intros A P n l H. revert n. induction H; intros [|n]; simpl; try constructor; auto. Qed.

(** Lifting a finite sweep over [0..n-1] (as [N]) to a universally quantified statement. *)
Definition Nrange (n : nat) : list N := map N.of_nat (seq 0 n).
Lemma Nrange_In : forall n x, (x < N.of_nat n)%N -> In x (Nrange n).
Proof.
  intros n x H. unfold Nrange. apply in_map_iff. exists (N.to_nat x). split; [lia|].
  apply in_seq. lia.
Qed.
Lemma Nrange_forallb : forall n (f : N -> bool), forallb f (Nrange n) = true ->
  forall x, (x < N.of_nat n)%N -> f x = true.
Proof. intros n f H x Hx. rewrite forallb_forall in H. apply H. now apply Nrange_In. Qed.
