(** What authoring and accepting a block should mean. From the model only the data types, the environment and the three phases of execution are used. *)
From Coq Require Import Strings.String.
From Verif Require Import Base Safrole_Model Disputes_Model Author_Model.
Open Scope list_scope.
Open Scope N_scope.

Section Spec.
  Context {Xt R O : Type} (z : env Xt R O).
  (** Signatures made with a key of the keystore verify; the output of a signature depends on the key and the context, not on the message. *)
  Definition vrf_complete : Prop := forall pk sk c m g, z_keystore z pk = Some sk -> z_sign z sk c m = Some g ->
    z_verify z c m g pk = true /\ z_out z g <> None /\ forall m' g', z_sign z sk c m' = Some g' -> z_out z g' = z_out z g.
  (** All signatures of one key that verify in one context have the same output. *)
  Definition vrf_unique : Prop := forall pk c m1 m2 g1 g2, z_verify z c m1 g1 pk = true -> z_verify z c m2 g2 pk = true -> z_out z g1 = z_out z g2.

  (** No changes are pending in the node's cache. *)
  Definition settled (n : node R) : Prop := nd_work n = nd_db n.
  (** The node's state is the one after its best block, and its root is on record. *)
  Definition consistent (n : node R) : Prop :=
    nd_roots n (z_hash z (nd_best n)) = Some (z_root z (nd_db n)) /\ s_slot (saf (nd_db n)) = h_slot (h_data (nd_best n)).
  (** Two nodes with the same best block and state. *)
  Definition same_chain (a b : node R) : Prop := nd_db a = nd_db b /\ nd_best a = nd_best b /\ settled a /\ settled b /\ consistent a /\ consistent b.

  (** The time (unix seconds) from which a slot's block may be imported: the beginning of the slot before it. *)
  Definition begun (now slot : N) : Prop := 1735732800 + (slot - 1) * 6 <= now.
  (** The block goes on top of the node's best block. *)
  Definition extends (n : node R) (b : blk Xt) : Prop :=
    let d := h_data (k_header b) in
    h_parent d = z_hash z (nd_best n) /\ nd_roots n (h_parent d) = Some (h_root d) /\ h_slot (h_data (nd_best n)) < h_slot d /\ h_xt d = z_xt_hash z (k_xts b).
  (** The header was sealed by the validator at its author index, in a state where that validator holds the slot: by the ticket with the seal's output, or by a fallback key;
      the seal is over the whole unsealed header, and the VRF signature over the seal's output. *)
  Definition rightly_sealed (s : sstate) (h : header) : Prop :=
    let d := h_data h in
    exists v, nth_error (s_active s) (N.to_nat (h_author d)) = Some v /\ h_author d < N.of_nat (z_V z) /\
      match s_sealers s with
      | Tickets l => exists t, nth_error l (N.to_nat (h_slot d mod z_E z)) = Some t /\ z_out z (h_seal h) = Some (tid t) /\
                               z_verify z (str "jam_ticket_seal"%string ++ s_e3 s ++ [tattempt t]) (z_enc z d) (h_seal h) (kband v) = true
      | Keys l => nth_error l (N.to_nat (h_slot d mod z_E z)) = Some (kband v) /\
                  z_verify z (str "jam_fallback_seal"%string ++ s_e3 s) (z_enc z d) (h_seal h) (kband v) = true
      end /\
      exists o, z_out z (h_seal h) = Some o /\ z_verify z (str "jam_entropy"%string ++ hbytes o) [] (h_vrf d) (kband v) = true.
  Definition rightly_marked (h : header) (m : markers) (off : list N) : Prop :=
    h_epoch (h_data h) = m_epoch m /\ h_winning (h_data h) = m_winning m /\ h_offenders (h_data h) = off.

  (** The node after the block with this header, in the state after the block; the root of the state is filed later. *)
  Definition accepted (n : node R) (h : header) (s : st R) : node R := mk_node s s h (nd_roots n) (nd_index n) (nd_key n).
  (** The node after receiving blocks, each at some time. *)
  Fixpoint deliver_all (n : node R) (l : list (N * blk Xt)) : option (node R) :=
    match l with [] => Some n | (now, b) :: r => match deliver z now n b with Some n' => deliver_all n' r | None => None end end.

  (** Nodes taking turns: one authors a block, every other one receives it. *)
  Inductive turns : (nat -> node R) -> (nat -> node R) -> Prop :=
  | no_turn : forall ns, turns ns ns
  | a_turn : forall ns i slot now a k ns1 ns2,
      now_jam_timeslot now = Some slot -> 0 < slot -> z_hash z (nd_best (ns i)) <> 0 ->
      (forall x, nd_index (ns i) = Some x -> key_at z (predict_active_set (z_E z) (saf (nd_db (ns i))) slot) x = Some (nd_key (ns i))) ->
      extend_chain z slot now true (ns i) = Ok (Some (a, k)) ->
      ns1 i = a -> (forall j, j <> i -> exists now', now <= now' /\ deliver z now' (ns j) k = Some (ns1 j)) ->
      turns ns1 ns2 -> turns ns ns2.
End Spec.
