(** The three kinds of entries as counters. *)
From Verif Require Import Base Base_Proofs Stats_Model Stats_Spec Stats_Proofs.
From Coq Require Import Sorted Lia.
Open Scope N_scope.

Lemma cast_small : forall w a, a < 2 ^ w -> cast w a = a.
Proof. intros. apply N.mod_small. auto. Qed.
Lemma pow_nz : forall w, 2 ^ w <> 0.
Proof. intro. apply N.pow_nonzero. lia. Qed.
Lemma mod_lt : forall a w, a mod 2 ^ w < 2 ^ w.
Proof. intros. apply N.mod_lt. apply pow_nz. Qed.
Lemma mod_add_l : forall a b w, (a mod 2 ^ w + b) mod 2 ^ w = (a + b) mod 2 ^ w.
Proof. intros. apply N.add_mod_idemp_l. apply pow_nz. Qed.
Lemma mod_add_r : forall a b w, (a + b mod 2 ^ w) mod 2 ^ w = (a + b) mod 2 ^ w.
Proof. intros. apply N.add_mod_idemp_r. apply pow_nz. Qed.
Lemma mod_mod : forall a w, (a mod 2 ^ w) mod 2 ^ w = a mod 2 ^ w.
Proof. intros. apply N.mod_mod. apply pow_nz. Qed.

Ltac debug_step H :=
  match type of H with
  | context [plus true ?w ?a ?b] =>
      let E := fresh "E" in destruct (plus true w a b) eqn:E; [apply plus_debug in E; destruct E; subst; cbn [bind] in H | discriminate H | discriminate H]
  end.

(** ** Validators *)
Inductive vevent := EAuthor (t p o : N) | EValid (r a : bool).
Definition vstep (chk : bool) (x : vstat) (e : vevent) : result unit vstat :=
  match e with EAuthor t p o => credit_author chk t p o x | EValid r a => credit_validator chk r a x end.
Definition bit (b : bool) : N := if b then 1 else 0.
Definition vadd (x : vstat) (e : vevent) : vstat :=
  match e with
  | EAuthor t p o => mk_vstat (v_blocks x + 1) (v_tickets x + t) (v_preimages x + p) (v_octets x + o) (v_guarantees x) (v_assurances x)
  | EValid r a => mk_vstat (v_blocks x) (v_tickets x) (v_preimages x) (v_octets x) (v_guarantees x + bit r) (v_assurances x + bit a)
  end.
Definition vok (e : vevent) : Prop := match e with EAuthor t p o => t < 2 ^ 32 /\ p < 2 ^ 32 /\ o < 2 ^ 32 | EValid _ _ => True end.

Lemma v_algebra : algebra vstep vadd kept_v fits_v (fun _ => True) vok.
Proof.
  constructor.
  - intros [b t p o g a] [dt dp d_o|r s] _ F O; cbn in F; destruct F as (F1 & F2 & F3 & F4 & F5 & F6).
    + destruct O as (O1 & O2 & O3). cbn [vstep]. unfold credit_author. cbn [v_blocks v_tickets v_preimages v_octets v_guarantees v_assurances].
      rewrite !cast_small, !plus_release by auto. cbn [bind]. unfold kept_v, vadd. cbn [v_blocks v_tickets v_preimages v_octets v_guarantees v_assurances].
      rewrite (N.mod_small g), (N.mod_small a) by auto. auto.
    + cbn [vstep]. unfold credit_validator. cbn [v_blocks v_tickets v_preimages v_octets v_guarantees v_assurances].
      unfold kept_v, vadd. cbn [v_blocks v_tickets v_preimages v_octets v_guarantees v_assurances].
      rewrite (N.mod_small b), (N.mod_small t), (N.mod_small p), (N.mod_small o) by auto.
      destruct r, s; rewrite ?plus_release; cbn [bind bit]; rewrite ?N.add_0_r, ?(N.mod_small g), ?(N.mod_small a) by auto; auto.
  - intros chk [b t p o g a] [dt dp d_o|r s] _ O F; cbn in F; destruct F as (F1 & F2 & F3 & F4 & F5 & F6).
    + destruct O as (O1 & O2 & O3). cbn [vstep]. unfold credit_author. cbn [v_blocks v_tickets v_preimages v_octets v_guarantees v_assurances].
      rewrite !cast_small, !plus_exact by auto. auto.
    + cbn [vstep]. unfold credit_validator. cbn [v_blocks v_tickets v_preimages v_octets v_guarantees v_assurances].
      unfold vadd. cbn [v_blocks v_tickets v_preimages v_octets v_guarantees v_assurances].
      destruct r, s; cbn [bit] in *; rewrite ?plus_exact by auto; cbn [bind]; rewrite ?N.add_0_r; auto.
  - intros [b t p o g a] [dt dp d_o|r s] y _ F O H; cbn in F; destruct F as (F1 & F2 & F3 & F4 & F5 & F6).
    + destruct O as (O1 & O2 & O3). cbn [vstep] in H. unfold credit_author in H.
      cbn [v_blocks v_tickets v_preimages v_octets v_guarantees v_assurances] in H. rewrite !cast_small in H by auto.
      repeat debug_step H. cbn. repeat split; auto.
    + cbn [vstep] in H. unfold credit_validator in H. cbn [v_blocks v_tickets v_preimages v_octets v_guarantees v_assurances] in H.
      destruct r, s; cbn [bit bind] in *; repeat debug_step H; cbn; rewrite ?N.add_0_r; repeat split; auto.
  - intros [b t p o g a] [dt dp d_o|r s] _ _; unfold kept_v, vadd; cbn [v_blocks v_tickets v_preimages v_octets v_guarantees v_assurances];
      rewrite ?mod_add_l, ?mod_mod; auto.
  - intros [b t p o g a] F; cbn in F; destruct F as (F1 & F2 & F3 & F4 & F5 & F6). unfold kept_v.
    cbn [v_blocks v_tickets v_preimages v_octets v_guarantees v_assurances]. rewrite !N.mod_small; auto.
  - intros [b t p o g a] _. unfold fits_v, kept_v. cbn [v_blocks v_tickets v_preimages v_octets v_guarantees v_assurances].
    repeat split; apply mod_lt.
  - intros [b t p o g a] [dt dp d_o|r s] _ _ F; unfold fits_v, vadd in *; cbn [v_blocks v_tickets v_preimages v_octets v_guarantees v_assurances] in *;
      repeat split; lia.
  - auto.
  - auto.
Qed.

(** ** Cores *)
Inductive cevent := EBundle (l : N) | EDigest (d : digest) | EAvail (r : report).
Definition avail_step (chk : bool) (x : cstat) (r : report) : result unit cstat :=
  let! k := times chk 32 4104 65 in
  let! s := times chk 32 k ((r_segments r + 63) / 64) in
  let! n := plus chk 32 (r_bundle r) s in
  let! d := plus chk 32 (c_da x) n in
  Ok (mk_cstat d (c_assurers x) (c_imports x) (c_xts x) (c_octets x) (c_exports x) (c_bundle x) (c_gas x)).
Definition cstep (chk : bool) (x : cstat) (e : cevent) : result unit cstat :=
  match e with
  | EBundle n => let! l := plus chk 32 (c_bundle x) n in
      Ok (mk_cstat (c_da x) (c_assurers x) (c_imports x) (c_xts x) (c_octets x) (c_exports x) l (c_gas x))
  | EDigest d => core_refine chk x d
  | EAvail r => avail_step chk x r
  end.
Definition cadd (x : cstat) (e : cevent) : cstat :=
  match e with
  | EBundle n => mk_cstat (c_da x) (c_assurers x) (c_imports x) (c_xts x) (c_octets x) (c_exports x) (c_bundle x + n) (c_gas x)
  | EDigest d => let u := d_stats d in
      mk_cstat (c_da x) (c_assurers x) (c_imports x + u_imports u) (c_xts x + u_xts u) (c_octets x + u_octets u)
        (c_exports x + u_exports u) (c_bundle x) (c_gas x + u_gas u)
  | EAvail r => mk_cstat (c_da x + da_size r) (c_assurers x) (c_imports x) (c_xts x) (c_octets x) (c_exports x) (c_bundle x) (c_gas x)
  end.
Definition cok (e : cevent) : Prop := match e with EAvail r => r_bundle r < 2 ^ 32 /\ r_segments r < 2 ^ 16 | _ => True end.

Lemma times_segments : forall chk n, n < 2 ^ 16 ->
  (let! k := times chk 32 4104 65 in times chk 32 k ((n + 63) / 64)) = Ok (4104 * 65 * ((n + 63) / 64)).
Proof.
  intros chk n H. assert (L : (n + 63) / 64 < 1025) by (apply N.div_lt_upper_bound; [lia|change (2 ^ 16) with 65536 in H; lia]).
  change (times chk 32 4104 65) with (@Ok unit N 266760). cbn [bind]. unfold times.
  change (4104 * 65) with 266760. destruct (_ <? _) eqn:E; auto. apply N.ltb_ge in E. change (2 ^ 32) with 4294967296 in E. lia.
Qed.
Lemma avail_step_eq : forall chk x r, r_segments r < 2 ^ 16 -> avail_step chk x r =
  let! n := plus chk 32 (r_bundle r) (4104 * 65 * ((r_segments r + 63) / 64)) in
  let! d := plus chk 32 (c_da x) n in
  Ok (mk_cstat d (c_assurers x) (c_imports x) (c_xts x) (c_octets x) (c_exports x) (c_bundle x) (c_gas x)).
Proof.
  intros. pose proof (times_segments chk (r_segments r) H) as T. unfold avail_step.
  destruct (times chk 32 4104 65) as [k| |]; cbn [bind] in *; try discriminate T.
  rewrite T. auto.
Qed.

Ltac cproj := cbn [c_da c_assurers c_imports c_xts c_octets c_exports c_bundle c_gas].
Ltac cproj_in H := cbn [c_da c_assurers c_imports c_xts c_octets c_exports c_bundle c_gas] in H.
Lemma c_algebra : algebra cstep cadd kept_c fits_c (fun _ => True) cok.
Proof.
  constructor.
  - intros [a b c d e f g h] v _ F O; unfold fits_c in F; cproj_in F; destruct F as (F1 & F2 & F3 & F4 & F5 & F6 & F7 & F8).
    destruct v as [n|u|r]; cbn [cstep].
    + cproj. rewrite plus_release. cbn [bind]. unfold kept_c, cadd. cproj. rewrite ?(N.mod_small a), ?(N.mod_small b), ?(N.mod_small c), ?(N.mod_small d), ?(N.mod_small e), ?(N.mod_small f), ?(N.mod_small h) by auto. auto.
    + unfold core_refine. cproj. rewrite !plus_release. cbn [bind]. unfold kept_c, cadd. cproj.
      rewrite ?(N.mod_small a), ?(N.mod_small b), ?(N.mod_small g) by auto. auto.
    + destruct O as [O1 O2]. rewrite avail_step_eq by auto. cproj. rewrite !plus_release. cbn [bind]. rewrite plus_release. cbn [bind].
      unfold kept_c, cadd, da_size. cproj. rewrite mod_add_r.
      rewrite ?(N.mod_small h), ?(N.mod_small b), ?(N.mod_small c), ?(N.mod_small d), ?(N.mod_small e), ?(N.mod_small f), ?(N.mod_small g) by auto. auto.
  - intros chk [a b c d e f g h] v _ O F; unfold fits_c in F. destruct v as [n|u|r]; cbn [cadd cstep] in *; cproj_in F; destruct F as (F1 & F2 & F3 & F4 & F5 & F6 & F7 & F8).
    + cproj. rewrite plus_exact by auto. auto.
    + unfold core_refine. cproj. rewrite !plus_exact by auto. auto.
    + destruct O as [O1 O2]. rewrite avail_step_eq by auto. cproj. unfold da_size in *. rewrite (plus_exact _ _ (r_bundle r)) by lia. cbn [bind].
      rewrite plus_exact by auto. auto.
  - intros [a b c d e f g h] v y _ F O H; unfold fits_c in F; cproj_in F; destruct F as (F1 & F2 & F3 & F4 & F5 & F6 & F7 & F8).
    destruct v as [n|u|r]; cbn [cstep] in H.
    + cproj_in H. repeat debug_step H. unfold fits_c, cadd. cproj. repeat split; auto.
    + unfold core_refine in H. cproj_in H. repeat debug_step H. unfold fits_c, cadd. cproj. repeat split; auto.
    + destruct O as [O1 O2]. rewrite avail_step_eq in H by auto. cproj_in H. repeat debug_step H. unfold fits_c, cadd, da_size. cproj. repeat split; auto.
  - intros [a b c d e f g h] [n|u|r] _ _; unfold kept_c, cadd; cproj; rewrite ?mod_add_l, ?mod_mod; auto.
  - intros [a b c d e f g h] F; unfold fits_c in F; cproj_in F; destruct F as (F1 & F2 & F3 & F4 & F5 & F6 & F7 & F8). unfold kept_c. cproj.
    rewrite !N.mod_small; auto.
  - intros [a b c d e f g h] _. unfold fits_c, kept_c. cproj. repeat split; apply mod_lt.
  - intros [a b c d e f g h] [n|u|r] _ _ F; unfold fits_c, cadd in *; cproj_in F; cproj; repeat split; lia.
  - auto.
  - auto.
Qed.

(** ** Services *)
Inductive sevent := ERefine (u : rstats) | EPreimage (l : N) | EAcc (g n : N).
Definition sstep (chk : bool) (x : sstat) (e : sevent) : result unit sstat :=
  match e with ERefine u => service_refine chk u x | EPreimage l => service_preimage chk l x | EAcc g n => service_acc chk g n x end.
Definition sadd (x : sstat) (e : sevent) : sstat :=
  match e with
  | ERefine u => mk_sstat (s_preimages x) (s_blobs x) (s_digests x + 1) (s_gas x + u_gas u) (s_imports x + u_imports u) (s_xts x + u_xts u)
      (s_octets x + u_octets u) (s_exports x + u_exports u) (s_acc_digests x) (s_acc_gas x)
  | EPreimage l => mk_sstat (s_preimages x + 1) (s_blobs x + l) (s_digests x) (s_gas x) (s_imports x) (s_xts x) (s_octets x) (s_exports x)
      (s_acc_digests x) (s_acc_gas x)
  | EAcc g n => mk_sstat (s_preimages x) (s_blobs x) (s_digests x) (s_gas x) (s_imports x) (s_xts x) (s_octets x) (s_exports x)
      (s_acc_digests x + n) (s_acc_gas x + g)
  end.
Definition sok (e : sevent) : Prop := match e with EPreimage l => l < 2 ^ 32 | _ => True end.
Ltac sproj := cbn [s_preimages s_blobs s_digests s_gas s_imports s_xts s_octets s_exports s_acc_digests s_acc_gas].
Ltac sproj_in H := cbn [s_preimages s_blobs s_digests s_gas s_imports s_xts s_octets s_exports s_acc_digests s_acc_gas] in H.
Lemma s_algebra : algebra sstep sadd kept_s fits_s (fun _ => True) sok.
Proof.
  constructor.
  - intros [a b c d e f g h i j] v _ F O; unfold fits_s in F; sproj_in F; destruct F as (F1 & F2 & F3 & F4 & F5 & F6 & F7 & F8 & F9 & F10).
    destruct v as [u|l|x n]; cbn [sstep]; cbn [sok] in O.
    + unfold service_refine. sproj. rewrite !plus_release. cbn [bind]. unfold kept_s, sadd. sproj.
      rewrite ?(N.mod_small a), ?(N.mod_small b), ?(N.mod_small i), ?(N.mod_small j) by auto. auto.
    + unfold service_preimage. sproj. rewrite cast_small, !plus_release by auto. cbn [bind]. unfold kept_s, sadd. sproj.
      rewrite ?(N.mod_small c), ?(N.mod_small d), ?(N.mod_small e), ?(N.mod_small f), ?(N.mod_small g), ?(N.mod_small h), ?(N.mod_small i), ?(N.mod_small j) by auto. auto.
    + unfold service_acc. sproj. rewrite !plus_release. cbn [bind]. unfold kept_s, sadd. sproj.
      rewrite ?(N.mod_small a), ?(N.mod_small b), ?(N.mod_small c), ?(N.mod_small d), ?(N.mod_small e), ?(N.mod_small f), ?(N.mod_small g), ?(N.mod_small h) by auto. auto.
  - intros chk [a b c d e f g h i j] v _ O F; unfold fits_s in F. destruct v as [u|l|x n]; cbn [sadd sstep sok] in *; sproj_in F;
      destruct F as (F1 & F2 & F3 & F4 & F5 & F6 & F7 & F8 & F9 & F10).
    + unfold service_refine. sproj. rewrite !plus_exact by auto. auto.
    + unfold service_preimage. sproj. rewrite cast_small, !plus_exact by auto. auto.
    + unfold service_acc. sproj. rewrite !plus_exact by auto. auto.
  - intros [a b c d e f g h i j] v y _ F O H; unfold fits_s in F; sproj_in F; destruct F as (F1 & F2 & F3 & F4 & F5 & F6 & F7 & F8 & F9 & F10).
    destruct v as [u|l|x n]; cbn [sstep sok] in *.
    + unfold service_refine in H. sproj_in H. repeat debug_step H. unfold fits_s, sadd. sproj. repeat split; auto.
    + unfold service_preimage in H. sproj_in H. rewrite cast_small in H by auto. repeat debug_step H. unfold fits_s, sadd. sproj. repeat split; auto.
    + unfold service_acc in H. sproj_in H. repeat debug_step H. unfold fits_s, sadd. sproj. repeat split; auto.
  - intros [a b c d e f g h i j] [u|l|x n] _ _; unfold kept_s, sadd; sproj; rewrite ?mod_add_l, ?mod_mod; auto.
  - intros [a b c d e f g h i j] F; unfold fits_s in F; sproj_in F; destruct F as (F1 & F2 & F3 & F4 & F5 & F6 & F7 & F8 & F9 & F10). unfold kept_s. sproj.
    rewrite !N.mod_small; auto.
  - intros [a b c d e f g h i j] _. unfold fits_s, kept_s. sproj. repeat split; apply mod_lt.
  - intros [a b c d e f g h i j] [u|l|x n] _ _ F; unfold fits_s, sadd in *; sproj_in F; sproj; repeat split; lia.
  - auto.
  - auto.
Qed.
