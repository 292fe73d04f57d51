(** What an acceptable disputes extrinsic is, and a chain of accepted ones. *)
From Verif Require Import Base Disputes_Model.
Open Scope N_scope.

(** Strictly ascending. *)
Fixpoint ascending (l : list N) : Prop :=
  match l with a :: ((b :: _) as r) => a < b /\ ascending r | _ => True end.

(** The octets that a signature's message begins with, in ASCII: "jam_valid", "jam_invalid", "jam_guarantee" and "jam_available". *)
Definition says_valid : bytes := [106; 97; 109; 95; 118; 97; 108; 105; 100].
Definition says_invalid : bytes := [106; 97; 109; 95; 105; 110; 118; 97; 108; 105; 100].
Definition says_guarantee : bytes := [106; 97; 109; 95; 103; 117; 97; 114; 97; 110; 116; 101; 101].
Definition says_available : bytes := [106; 97; 109; 95; 97; 118; 97; 105; 108; 97; 98; 108; 101].

Section Spec.
  Variables (V E : N).
  Variable verify : N -> bytes -> N -> bool.
  (** [set] member [i] has signed judgment [valid] of the report. *)
  Definition signed_judgment (set : list N) (report : N) (valid : bool) (i sig : N) : Prop :=
    exists key, nth_error set (N.to_nat i) = Some key /\ verify key ((if valid then says_valid else says_invalid) ++ hbytes report)%list sig = true.
  Definition positive (v : verdict) : N := N.of_nat (length (filter j_valid (v_judgments v))).
  Definition settled_good (v : verdict) : Prop := positive v = 2 * V / 3 + 1.
  Definition settled_bad (v : verdict) : Prop := positive v = 0.
  Definition settled_wonky (v : verdict) : Prop := positive v = V / 3 /\ positive v <> 0.

  (** [recent]: which epochs a verdict may name; the two versions below differ in it. *)
  Definition acceptable_verdict (recent : N -> Prop) (d : judged) (active past : list N) (epoch : N) (x : disputes_xt) (v : verdict) : Prop :=
    recent (v_epoch v) /\
    (settled_good v \/ settled_bad v \/ settled_wonky v) /\
    (settled_good v -> exists f, In f (x_faults x) /\ f_report f = v_report v) /\
    (settled_bad v -> (2 <= length (filter (fun c => N.eqb (c_report c) (v_report v)) (x_culprits x)))%nat) /\
    (~ In (v_report v) (good d) /\ ~ In (v_report v) (bad d) /\ ~ In (v_report v) (wonky d)) /\
    ascending (map j_voter (v_judgments v)) /\
    (forall j, In j (v_judgments v) ->
       signed_judgment (if v_epoch v =? epoch then active else past) (v_report v) (j_valid j) (j_voter j) (j_sig j)).
  Definition known_unpunished (d : judged) (active past : list N) (key : N) : Prop :=
    (In key active \/ In key past) /\ ~ In key (punish d).
  (** A culprit guaranteed a report that this extrinsic judges bad; a fault voted against the verdict. *)
  Definition acceptable_culprit (d : judged) (active past : list N) (x : disputes_xt) (c : culprit) : Prop :=
    known_unpunished d active past (c_key c) /\
    (exists v, In v (x_verdicts x) /\ v_report v = c_report c /\ settled_bad v) /\
    verify (c_key c) (says_guarantee ++ hbytes (c_report c))%list (c_sig c) = true.
  Definition acceptable_fault (d : judged) (active past : list N) (x : disputes_xt) (f : fault) : Prop :=
    known_unpunished d active past (f_key f) /\
    (exists v, In v (x_verdicts x) /\ v_report v = f_report f /\ (if f_valid f then settled_bad v else settled_good v)) /\
    verify (f_key f) ((if f_valid f then says_valid else says_invalid) ++ hbytes (f_report f))%list (f_sig f) = true.
  Definition acceptable (recent : N -> Prop) (d : judged) (active past : list N) (epoch : N) (x : disputes_xt) : Prop :=
    ascending (map v_report (x_verdicts x)) /\ ascending (map c_key (x_culprits x)) /\ ascending (map f_key (x_faults x)) /\
    (forall v, In v (x_verdicts x) -> acceptable_verdict recent d active past epoch x v) /\
    (forall c, In c (x_culprits x) -> acceptable_culprit d active past x c) /\
    (forall f, In f (x_faults x) -> acceptable_fault d active past x f).
  (** The documented rule: a verdict is of the current or the previous epoch. *)
  Definition current_or_previous (epoch e : N) : Prop := e = epoch \/ e + 1 = epoch.
  (** What is checked. *)
  Definition not_older (epoch e : N) : Prop := epoch <= e + 1.

  (** A chain of accepted extrinsics, whatever validator sets and slots the blocks have. *)
  Inductive dchain (d0 : judged) : list disputes_xt -> judged -> Prop :=
  | dchain_nil : dchain d0 [] d0
  | dchain_snoc : forall xs d active past slot x d', dchain d0 xs d ->
      transition_disputes V E verify d active past slot x = Ok d' -> dchain d0 (xs ++ [x]) d'.
End Spec.
