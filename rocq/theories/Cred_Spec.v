(** Which of the signatures that arrive go into a guarantee: one per validator, the first, and the first three validators. *)
From Verif Require Import Base Reports_Model Cred_Model.
Open Scope N_scope.

(** The first signature of each validator, in the order of arrival. *)
Definition first_of_each (cs : list credential) (c : credential) : Prop :=
  exists before after, cs = (before ++ c :: after)%list /\ ~ In (cr_index c) (map cr_index before).
(** [ix] are the first three validators (or all, if fewer) that a signature came from. *)
Definition first_three (cs : list credential) (ix : list N) : Prop :=
  NoDup ix /\ exists before after, cs = (before ++ after)%list /\ (forall i, In i ix <-> In i (map cr_index before)) /\
    ((length ix = 3)%nat \/ (length ix < 3)%nat /\ after = []).
(** The answer to the signature [c] that comes after [before]. *)
Definition reply (before : list credential) (c : credential) (a : option cred_err) : Prop :=
  exists ix, first_three before ix /\
    ((length ix = 3)%nat /\ a = Some InvalidCredentialCount \/
     (length ix < 3)%nat /\ In (cr_index c) ix /\ a = Some DuplicateValidatorIndex \/
     (length ix < 3)%nat /\ ~ In (cr_index c) ix /\ a = None).
