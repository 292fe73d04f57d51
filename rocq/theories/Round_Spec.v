(** What a round of accumulation does to the privileges and the accounts: the Graypaper's equations for Delta*. *)
From Verif Require Import Base PvmMem_Model PvmProg_Model PvmStep_Model PvmInit_Model Sandbox_Model Sandbox_Spec Host_Model Host_Spec Acc_Model.
Open Scope N_scope.

(** ** Privileges *)
(** The privileges in the result of [t]; those at the start of the round if it did not accumulate. *)
Definition own (rs : list (N * priv)) (q : priv) (t : N) : priv := match aget rs t with Some p => p | None => q end.
(** The manager's choice if it is a change, else the choice of the incumbent. *)
Definition R (o a b : N) : N := if a =? o then b else a.
(** The privileges [q'] after a round that began with [q], for the core at which the assigner is [a] and for everything else. *)
Definition assigner_after (q : priv) (rs : list (N * priv)) (q' : priv) (c : nat) (a : N) : Prop :=
  nth_error (p_assign q') c = Some (R a (assigner (own rs q (p_manager q)) (N.of_nat c)) (assigner (own rs q a) (N.of_nat c))).
Record others_after (q : priv) (rs : list (N * priv)) (q' : priv) : Prop := mk_after {
  af_manager : p_manager q' = p_manager (own rs q (p_manager q));
  af_always : p_always q' = p_always (own rs q (p_manager q));
  af_designate : p_designate q' = mk_role (let v := ro_last (p_designate q) in R v (holder (p_designate (own rs q (p_manager q)))) (holder (p_designate (own rs q v)))) None None;
  af_registrar : p_registrar q' = mk_role (let v := ro_last (p_registrar q) in R v (holder (p_registrar (own rs q (p_manager q)))) (holder (p_registrar (own rs q v)))) None None;
  af_queues : length (p_queues q') = length (p_queues q) /\
              forall c a, nth_error (p_assign q) c = Some a -> nth_error (p_queues q') c = nth_error (p_queues (own rs q a)) c;
  af_staging : p_staging q' = p_staging (own rs q (ro_last (p_designate q)));
  af_cores : length (p_assign q') = length (p_assign q) /\ p_assign_bless q' = None /\ p_assign_self q' = [] }.
(** No change is pending. *)
Definition confirmed (q : priv) : Prop :=
  p_assign_bless q = None /\ p_assign_self q = [] /\ p_designate q = mk_role (ro_last (p_designate q)) None None /\ p_registrar q = mk_role (ro_last (p_registrar q)) None None /\
  length (p_queues q) = length (p_assign q).
(** The privileges [p] can come out of an accumulation of [t] that began with [q]. *)
Definition from_calls (q : priv) (t : N) (p : priv) : Prop :=
  exists A (do : A -> sop -> A * sout) e l a i hs c', e_cores e = N.of_nat (length (p_assign q)) /\
    host_calls do e l ((a, mk_rest t q i [] None []), (a, mk_rest t q i [] None [])) = Ok (hs, c') /\ (p = r_priv (snd (fst c')) \/ p = r_priv (snd (snd c'))).
