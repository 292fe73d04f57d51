(** Putting a guarantee together from the guarantors' signatures: block/src/types/extrinsics/guarantees.rs. Signatures are numbers, as in Reports_Model. *)
From Verif Require Import Base Reports_Model.
Open Scope N_scope.

(** block/src/types/extrinsics/mod.rs:21-30. *)
Inductive cred_err := InvalidCredentialCount | DuplicateValidatorIndex.
(** block/src/types/extrinsics/guarantees.rs:48: the derived order, by index and then by signature. *)
Definition cred_le (a b : credential) : bool := (cr_index a <? cr_index b) || ((cr_index a =? cr_index b) && (cr_sig a <=? cr_sig b)).
(** Part of sorting, guarantees.rs:173. *)
Fixpoint put_cred (c : credential) (l : list credential) : list credential :=
  match l with [] => [c] | x :: r => if cred_le c x then c :: l else x :: put_cred c r end.
(** guarantees.rs:173: any sorting gives the same list, the order being total. *)
Definition sort_creds (l : list credential) : list credential := fold_right put_cred [] l.
(** guarantees.rs:148-176 *)
Definition add_credential (g : guarantee) (index sig : N) : result cred_err guarantee :=
  if (3 <=? length (gu_creds g))%nat then Err InvalidCredentialCount
  else if existsb (fun c => cr_index c =? index) (gu_creds g) then Err DuplicateValidatorIndex
  else Ok (mk_g (gu_report g) (gu_slot g) (sort_creds (gu_creds g ++ [mk_cr index sig])%list)).
(** guarantees.rs:138-145 *)
Definition new_guarantee (w : wreport) (slot : N) : guarantee := mk_g w slot [].
(** Signatures as they arrive, each offered to guarantees.rs:148-176; an error leaves the entry as it was. *)
Fixpoint gather (g : guarantee) (cs : list credential) : guarantee * list (option cred_err) :=
  match cs with
  | [] => (g, [])
  | c :: r => match add_credential g (cr_index c) (cr_sig c) with
              | Ok g' => let (g2, a) := gather g' r in (g2, None :: a)
              | Err e => let (g2, a) := gather g r in (g2, Some e :: a)
              | Panic => (g, [])
              end
  end.
