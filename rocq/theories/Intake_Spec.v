(** What the typed view of the pool should answer: the values of the accepted submissions. *)
From Verif Require Import Base Codec_Model Codec_Spec Block_Model Pool_Model Intake_Model.
Local Open Scope N_scope.

Section Intake.
  Variable P : params.
  (** Values that exist in the program *)
  Definition xt_wf (x : xt P) : Prop :=
    match x with
    | XTicket _ v => wf t_ticket_xt v | XGuarantee _ v => wf (t_guarantee P) v | XAssurance _ v => wf (t_assurance P) v | XPreimage _ v => wf t_preimage_xt v
    | XVerdict _ v => wf (t_verdict P) v | XCulprit _ v => wf t_culprit v | XFault _ v => wf t_fault v
    end.
  (** The value of an entry, if it is of the kind *)
  Definition ticket_of (x : xt P) := match x with XTicket _ v => Some v | _ => None end.
  (** The value of an entry, if it is of the kind *)
  Definition guarantee_of (x : xt P) := match x with XGuarantee _ v => Some v | _ => None end.
  (** The value of an entry, if it is of the kind *)
  Definition assurance_of (x : xt P) := match x with XAssurance _ v => Some v | _ => None end.
  (** The value of an entry, if it is of the kind *)
  Definition preimage_of (x : xt P) := match x with XPreimage _ v => Some v | _ => None end.
  (** The value of an entry, if it is of the kind *)
  Definition verdict_of (x : xt P) := match x with XVerdict _ v => Some v | _ => None end.
  (** The value of an entry, if it is of the kind *)
  Definition culprit_of (x : xt P) := match x with XCulprit _ v => Some v | _ => None end.
  (** The value of an entry, if it is of the kind *)
  Definition fault_of (x : xt P) := match x with XFault _ v => Some v | _ => None end.
  (** The submissions that were answered yes *)
  Fixpoint accepted {A} (l : list A) (bs : list bool) : list A := match l, bs with x :: r, b :: t => if b then x :: accepted r t else accepted r t | _, _ => [] end.
  (** The values of a kind submitted for a slot, in order *)
  Definition values {A} (f : xt P -> option A) (slot : N) (l : list (xt P * N)) : list A :=
    flat_map (fun x => if snd x =? slot then match f (fst x) with Some v => [v] | None => [] end else []) l.
  (** Different encodings have different hashes. Entries of two kinds may have one encoding. *)
  Definition hashes_apart (H : bytes -> N) (l : list (xt P * N)) : Prop :=
    forall x y bx byt, In x l -> In y l -> encode_xt P (fst x) = Ok bx -> encode_xt P (fst y) = Ok byt -> H bx = H byt -> bx = byt.
End Intake.
