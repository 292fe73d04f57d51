(** Specification of package limits, auditable bundles, protocol constants and reports, after the Graypaper. *)
From Verif Require Import Base PvmMem_Model PvmProg_Model PvmStep_Model PvmInit_Model Refine_Model Codec_Model Codec_Spec Block_Model Package_Model.
Open Scope N_scope.

(** A sum of natural numbers, which does not wrap. *)
Definition total (l : list N) : N := fold_right N.add 0 l.
(** What the items of a package declare in all. *)
Definition all_of {P} (f : item P -> N) (k : package P) : N := total (map f (p_items P k)).
Definition exports_in {P} : package P -> N := all_of (i_exports P).
Definition imports_in {P} : package P -> N := all_of (fun w => N.of_nat (length (i_imports P w))).
Definition xts_in {P} : package P -> N := all_of (fun w => N.of_nat (length (i_xts P w))).
Definition acc_gas_in {P} : package P -> N := all_of (i_acc_gas P).
Definition refine_gas_in {P} : package P -> N := all_of (i_refine_gas P).
(** Graypaper (14.6): the token, the configuration, and for each item its payload, 4488 octets for each import and the lengths of its extrinsics. *)
Definition footprint {P} (k : package P) : N :=
  N.of_nat (length (p_token P k)) + N.of_nat (length (p_config P k)) +
  all_of (fun w => N.of_nat (length (i_payload P w)) + 4488 * N.of_nat (length (i_imports P w)) + total (map snd (i_xts P w))) k.
(** A package a machine can hold: what it is made of does not exceed the address space of a process. *)
Definition held {P} (k : package P) : Prop :=
  N.of_nat (length (p_token P k)) + N.of_nat (length (p_config P k)) +
  all_of (fun w => N.of_nat (length (i_payload P w)) + N.of_nat (length (i_imports P w)) + N.of_nat (length (i_xts P w))) k <= 2 ^ 47.
(** The prerequisites a package names. *)
Definition prerequisites {P} (k : package P) : N := N.of_nat (length (snd (snd (snd (snd (snd (p_context P k))))))).

(** A bundle that brings what its package declares: for each item its blobs, of their lengths, and a segment and a path for each import. *)
Definition brings {P} (b : bundle P) : Prop :=
  let items := p_items P (b_package P b) in
  length (b_xts P b) = length items /\ length (b_imports P b) = length items /\ length (b_paths P b) = length items /\
  forall j w, nth_error items j = Some w -> exists xs is ps,
    nth_error (b_xts P b) j = Some xs /\ nth_error (b_imports P b) j = Some is /\ nth_error (b_paths P b) j = Some ps /\
    map (fun x => N.of_nat (length x)) xs = map snd (i_xts P w) /\ length is = length (i_imports P w) /\ length ps = length (i_imports P w).
(** The parts of a bundle are octets; segments have the size of a segment and the nodes of a path 32 octets. *)
Definition well_made {P} (size : nat) (b : bundle P) : Prop :=
  wf (t_package P) (b_package P b) /\ (forall xs x, In xs (b_xts P b) -> In x xs -> Bytes x) /\
  (forall is s, In is (b_imports P b) -> In s is -> Bytes s /\ length s = size) /\
  (forall ps p, In ps (b_paths P b) -> In p ps -> N.of_nat (length p) < 2 ^ 58 /\ forall h, In h p -> Bytes h /\ length h = 32%nat).
(** Graypaper (14.16): the package, then the blobs and the segments as they are, then each path with its length. *)
Definition gp_bundle {P} (b : bundle P) (octets : bytes) : Prop := exists p,
  encode (t_package P) (b_package P b) = Ok p /\
  octets = p ++ concat (concat (b_xts P b)) ++ concat (concat (b_imports P b)) ++
           concat (map (fun path => integer_encode (N.of_nat (length path)) ++ concat path) (concat (b_paths P b))).
(** The octets of the segments that are 128 or more. *)
Definition high_octets {P} (b : bundle P) : N := N.of_nat (length (filter (fun x => 128 <=? x) (concat (concat (b_imports P b))))).

(** Graypaper, FETCH of 0: where each constant is, and in how many octets. *)
Definition gp_constants : list ((constants -> N) * nat * nat) :=
  [(c_BI, 0, 8); (c_BL, 8, 8); (c_BS, 16, 8); (c_C, 24, 2); (c_D, 26, 4); (c_E, 30, 4); (c_GA, 34, 8); (c_GI, 42, 8); (c_GR, 50, 8); (c_GT, 58, 8);
   (c_H, 66, 2); (c_I, 68, 2); (c_J, 70, 2); (c_K, 72, 2); (c_L, 74, 4); (c_N, 78, 2); (c_O, 80, 2); (c_P, 82, 2); (c_Q, 84, 2); (c_R, 86, 2);
   (c_T, 88, 2); (c_U, 90, 2); (c_V, 92, 2); (c_WA, 94, 4); (c_WB, 98, 4); (c_WC, 102, 4); (c_WE, 106, 4); (c_WM, 110, 4); (c_WP, 114, 4);
   (c_WR, 118, 4); (c_WT, 122, 4); (c_WX, 126, 4); (c_Y, 130, 4)]%nat.
(** A constant fits the octets it is written in. *)
Definition fits (c : constants) : Prop := forall f o n, In (f, o, n) gp_constants -> f c < 2 ^ (8 * N.of_nat n).

(** The packages the imports of a package name. *)
Definition named (k : pkg) : list bytes := nodup (list_eq_dec N.eq_dec) (concat (map (fun w => map (fun x => snd (fst x)) (filter (fun x => fst (fst x)) (w_imports w))) (k_items k))).
(** No part of a guarantor's work is left out. *)
Definition complete (s : stubs) : Prop := (exists x, st_imports s = Ok x) /\ (exists x, st_xts s = Ok x) /\ (exists x, st_bundle s = Ok x) /\ exists x, st_lookup s = Ok x.
