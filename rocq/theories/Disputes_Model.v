(** Disputes: the extrinsic (block/src/types/extrinsics/disputes.rs), its validator (extrinsics/src/validation/disputes.rs) and
    the judged sets (state/src/types/disputes.rs, transition/src/state/disputes.rs). A 32-byte hash or key is a number whose
    order is that of the bytes; a signature is a number. *)
From Verif Require Import Base Queue_Model.
From Coq Require Import String Ascii.
Open Scope N_scope.

(** A byte-string literal of common/src/constants/mod.rs:119-146. *)
Definition str (s : string) : bytes := map N_of_ascii (list_ascii_of_string s).
(** common/src/constants/mod.rs:119-146. *)
Definition X_A : bytes := str "jam_available".
(** common/src/constants/mod.rs:119-146. *)
Definition X_B : bytes := str "jam_beefy".
(** common/src/constants/mod.rs:119-146. *)
Definition X_E : bytes := str "jam_entropy".
(** common/src/constants/mod.rs:119-146. *)
Definition X_F : bytes := str "jam_fallback_seal".
(** common/src/constants/mod.rs:119-146. *)
Definition X_G : bytes := str "jam_guarantee".
(** common/src/constants/mod.rs:119-146. *)
Definition X_I : bytes := str "jam_announce".
(** common/src/constants/mod.rs:119-146. *)
Definition X_T : bytes := str "jam_ticket_seal".
(** common/src/constants/mod.rs:119-146. *)
Definition X_U : bytes := str "jam_audit".
(** common/src/constants/mod.rs:119-146. *)
Definition X_1 : bytes := str "jam_valid".
(** common/src/constants/mod.rs:119-146. *)
Definition X_0 : bytes := str "jam_invalid".
(** The 32 bytes of a hash. common/src/types/mod.rs:20; hashes are numbers in this model. *)
Definition hbytes (h : N) : bytes := rev (le_bytes 32 h).

(** disputes.rs:122-131, 212-221, 277-286, 319-330. *)
Record judgment := mk_judgment { j_valid : bool; j_voter : N; j_sig : N }.
(** block/src/types/extrinsics/disputes.rs:124-131. *)
Record verdict := mk_verdict { v_report : N; v_epoch : N; v_judgments : list judgment }.
(** block/src/types/extrinsics/disputes.rs:258-265. *)
Record culprit := mk_culprit { c_report : N; c_key : N; c_sig : N }.
(** block/src/types/extrinsics/disputes.rs:293-302. *)
Record fault := mk_fault { f_report : N; f_valid : bool; f_key : N; f_sig : N }.
(** block/src/types/extrinsics/disputes.rs:35-43. *)
Record disputes_xt := mk_xt { x_verdicts : list verdict; x_culprits : list culprit; x_faults : list fault }.

(** block/src/types/extrinsics/disputes.rs:14-19. *)
Inductive evaluation := IsGood | IsBad | IsWonky | Invalid (n : N).
(** The variants of extrinsics/src/validation/error.rs:10-194 the validator of disputes returns. *)
Inductive dxt_err := VerdictsNotSorted | CulpritsNotSorted | FaultsNotSorted | DuplicateVerdict | InvalidJudgmentsAge
  | InvalidVotesCount (n : N) | NotEnoughFault | NotEnoughCulprit | VerdictAlreadyExists | JudgmentsNotSorted | DuplicateJudgment
  | InvalidValidatorIndex | InvalidJudgmentSignature | DuplicateCulprit | DuplicateFault | AlreadyReported | NoVerdict | NotOffender
  | InvalidOffenderKey | InvalidOffenderSignature.

(** [slice::is_sorted] for a key order, and duplicate detection with a HashSet. Used by extrinsics/src/validation/disputes.rs:53-145. *)
Fixpoint sorted_by {A} (key : A -> N) (l : list A) : bool :=
  match l with a :: ((b :: _) as r) => (key a <=? key b) && sorted_by key r | _ => true end.
(** Used by extrinsics/src/validation/disputes.rs:53-145. *)
Fixpoint no_dup (l : list N) : bool :=
  match l with [] => true | a :: r => negb (mem a r) && no_dup r end.

(** [?] and [return Err] of extrinsics/src/validation/disputes.rs:53-327. *)
Fixpoint first_err {Er A} (f : A -> result Er unit) (l : list A) : result Er unit :=
  match l with [] => Ok tt | a :: r => bind (f a) (fun _ => first_err f r) end.
(** [?] and [return Err] of extrinsics/src/validation/disputes.rs:53-327. *)
Definition check {Er} (b : bool) (e : Er) : result Er unit := if b then Ok tt else Err e.

Section Disputes.
  (** common/src/chain_spec: V = VALIDATOR_COUNT; constants/mod.rs: FLOOR_ONE_THIRDS, VALIDATORS_SUPER_MAJORITY. E = EPOCH_LENGTH. *)
  Variables (V E : N).
  (** Ed25519 verification: key, message, signature. *)
  Variable verify : N -> bytes -> N -> bool.
  (** common/src/constants/mod.rs:8-10. *)
  Definition super_majority : N := 2 * V / 3 + 1.
  (** common/src/constants/mod.rs:8-10. *)
  Definition one_third : N := V / 3.

  (** disputes.rs:184-197. *)
  Definition votes (v : verdict) : N := N.of_nat (List.length (filter j_valid (v_judgments v))).
  (** Part of disputes.rs:184-197. *)
  Definition evaluate_verdict (v : verdict) : evaluation :=
    let n := votes v in
    if n =? super_majority then IsGood else if n =? 0 then IsBad else if n =? one_third then IsWonky else Invalid n.
  (** Part of disputes.rs:184-197. *)
  Definition is_eval (e : evaluation) (v : verdict) : bool :=
    match e, evaluate_verdict v with IsGood, IsGood | IsBad, IsBad | IsWonky, IsWonky => true | _, _ => false end.

  (** disputes.rs:64-120. *)
  Definition count_culprits (x : disputes_xt) (h : N) : N := N.of_nat (List.length (filter (fun c => c_report c =? h) (x_culprits x))).
  (** Part of disputes.rs:64-120. *)
  Definition count_faults (x : disputes_xt) (h : N) : N := N.of_nat (List.length (filter (fun f => f_report f =? h) (x_faults x))).
  (** Part of disputes.rs:64-120. *)
  Definition get_verdict (x : disputes_xt) (h : N) : option verdict := find (fun v => v_report v =? h) (x_verdicts x).
  (** Part of disputes.rs:64-120. *)
  Definition split_report_set (x : disputes_xt) : list N * list N * list N :=
    (map v_report (filter (is_eval IsGood) (x_verdicts x)), map v_report (filter (is_eval IsBad) (x_verdicts x)),
     map v_report (filter (is_eval IsWonky) (x_verdicts x))).
  (** Part of disputes.rs:64-120. *)
  Definition collect_offender_keys (x : disputes_xt) : list N := (map c_key (x_culprits x) ++ map f_key (x_faults x))%list.

  (** state/src/types/disputes.rs:14-23. *)
  Record judged := mk_judged { good : list N; bad : list N; wonky : list N; punish : list N }.
  (** state/src/types/disputes.rs:54-87. *)
  Definition all_report_hashes (d : judged) : list N := (good d ++ bad d ++ wonky d)%list.

  (** validation/disputes.rs:163-247. [active], [past]: the Ed25519 keys of the clean sets. The u32 addition wraps (release build). *)
  Definition validate_verdict (d : judged) (active past : list N) (prior_slot : N) (x : disputes_xt) (v : verdict) : result dxt_err unit :=
    let epoch := prior_slot / E in
    let! _ := check (negb ((v_epoch v + 1) mod 2 ^ 32 <? epoch)) InvalidJudgmentsAge in
    let! _ := (match evaluate_verdict v with
               | Invalid n => Err (InvalidVotesCount n)
               | IsGood => check (1 <=? count_faults x (v_report v)) NotEnoughFault
               | IsBad => check (2 <=? count_culprits x (v_report v)) NotEnoughCulprit
               | IsWonky => Ok tt
               end) in
    let! _ := check (negb (mem (v_report v) (all_report_hashes d))) VerdictAlreadyExists in
    let! _ := check (sorted_by j_voter (v_judgments v)) JudgmentsNotSorted in
    let! _ := check (no_dup (map j_voter (v_judgments v))) DuplicateJudgment in
    let set := if v_epoch v =? epoch then active else past in
    first_err (fun j =>
      match nth_error set (N.to_nat (j_voter j)) with
      | None => Err InvalidValidatorIndex
      | Some k => check (verify k (if j_valid j then X_1 ++ hbytes (v_report v) else X_0 ++ hbytes (v_report v)) (j_sig j)) InvalidJudgmentSignature
      end) (v_judgments v).

  (** validation/disputes.rs:147-161, 250-327: [valid]: active and past keys without the punished ones. *)
  Definition valid_keys (d : judged) (active past : list N) : list N := filter (fun k => negb (mem k (punish d))) (active ++ past).
  (** extrinsics/src/validation/disputes.rs:254-292. *)
  Definition validate_culprit (d : judged) (active past : list N) (x : disputes_xt) (c : culprit) : result dxt_err unit :=
    let! _ := check (negb (mem (c_key c) (punish d))) AlreadyReported in
    match get_verdict x (c_report c) with
    | None => Err NoVerdict
    | Some v =>
        let! _ := check (is_eval IsBad v) NotOffender in
        let! _ := check (mem (c_key c) (valid_keys d active past)) InvalidOffenderKey in
        check (verify (c_key c) (X_G ++ hbytes (c_report c)) (c_sig c)) InvalidOffenderSignature
    end.
  (** extrinsics/src/validation/disputes.rs:295-341. *)
  Definition validate_fault (d : judged) (active past : list N) (x : disputes_xt) (f : fault) : result dxt_err unit :=
    let! _ := check (negb (mem (f_key f) (punish d))) AlreadyReported in
    match get_verdict x (f_report f) with
    | None => Err NoVerdict
    | Some v =>
        let! _ := check (match evaluate_verdict v with IsGood => negb (f_valid f) | IsBad => f_valid f | _ => false end) NotOffender in
        let! _ := check (mem (f_key f) (valid_keys d active past)) InvalidOffenderKey in
        check (verify (f_key f) (if f_valid f then X_1 ++ hbytes (f_report f) else X_0 ++ hbytes (f_report f)) (f_sig f)) InvalidOffenderSignature
    end.

  (** validation/disputes.rs:53-145. [d], [active], [past]: the clean state. *)
  Definition validate_disputes (d : judged) (active past : list N) (prior_slot : N) (x : disputes_xt) : result dxt_err unit :=
    match x_verdicts x, x_culprits x, x_faults x with
    | [], [], [] => Ok tt
    | _, _, _ =>
        let! _ := check (sorted_by v_report (x_verdicts x)) VerdictsNotSorted in
        let! _ := check (sorted_by c_key (x_culprits x)) CulpritsNotSorted in
        let! _ := check (sorted_by f_key (x_faults x)) FaultsNotSorted in
        let! _ := check (no_dup (map v_report (x_verdicts x))) DuplicateVerdict in
        let! _ := first_err (validate_verdict d active past prior_slot x) (x_verdicts x) in
        match x_culprits x, x_faults x with
        | [], [] => Ok tt
        | _, _ =>
            let! _ := check (no_dup (map c_key (x_culprits x))) DuplicateCulprit in
            let! _ := first_err (validate_culprit d active past x) (x_culprits x) in
            let! _ := check (no_dup (map f_key (x_faults x))) DuplicateFault in
            first_err (validate_fault d active past x) (x_faults x)
        end
    end.

  (** [Vec::sort]: on numbers, the ascending arrangement. Used by state/src/types/disputes.rs:59-77. *)
  Fixpoint insert_sorted (a : N) (l : list N) : list N :=
    match l with [] => [a] | b :: r => if a <=? b then a :: l else b :: insert_sorted a r end.
  (** Used by state/src/types/disputes.rs:59-77. *)
  Definition vec_sort (l : list N) : list N := fold_right insert_sorted [] l.

  (** state/src/types/disputes.rs:59-77, transition/src/state/disputes.rs:16-40. The offenders are
      collect_offender_keys (node/src/roles/executor.rs:98-113), and the header marker must be equal to them (importer.rs:501-504). *)
  Definition transition_disputes (d : judged) (active past : list N) (prior_slot : N) (x : disputes_xt) : result dxt_err judged :=
    let! _ := validate_disputes d active past prior_slot x in
    let '(g, b, w) := split_report_set x in
    Ok (mk_judged (vec_sort (good d ++ g)) (vec_sort (bad d ++ b)) (vec_sort (wonky d ++ w)) (vec_sort (punish d ++ collect_offender_keys x))).
End Disputes.
