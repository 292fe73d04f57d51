(** Runs of the importer, and what the recent block history should say about them. *)
From Verif Require Import Base LVec_Model Merkle_Model Import_Model.
From Coq Require Import Permutation Sorted.
Open Scope N_scope.

(** Among the latest [cap] of the entries [es]. *)
Definition ent_lt (a b : N * N) : Prop := fst a < fst b \/ (fst a = fst b /\ snd a < snd b).
Definition among_latest (cap : nat) (es : list (N * N)) (e : N * N) : Prop :=
  In e es /\ forall l, NoDup l -> (forall x, In x l -> In x es /\ ent_lt e x) -> (length l < cap)%nat.

Section Spec.
  Variable HL : nat.
  Variable K : bytes -> bytes.
  Variables (S0 Xt Mk : Type).
  Variable stf1 : S0 -> iblock Xt -> option (S0 * Mk).
  Variable header_ok : S0 -> iblock Xt -> Mk -> bool.
  Variable stf2 : S0 -> bhistory -> iblock Xt -> option (S0 * list (N * bytes)).
  Variable genesis : S0 -> iblock Xt -> option S0.
  Variable root : S0 -> bhistory -> N.
  Variable xt_hash : Xt -> N.
  Local Notation submit := (submit HL K S0 Xt Mk stf1 header_ok stf2 genesis root xt_hash).

  (** An accepted block with its accumulation outputs and the root of the state after it. *)
  Record accepted := mk_acc { ac_block : iblock Xt; ac_outs : list (N * bytes); ac_root : N }.
  (** The accumulation outputs of a block applied to a node. *)
  Definition outputs (n : node_st S0) (b : iblock Xt) (outs : list (N * bytes)) : Prop :=
    exists s1 m s2, stf1 (n_state n) b = Some (s1, m) /\ stf2 s1 (set_parent_root (n_hist n) (ib_root b)) b = Some (s2, outs).
  (** Any blocks in any order are submitted, at any time; none claims a zero parent hash. *)
  Inductive imports (n0 : node_st S0) : list accepted -> node_st S0 -> Prop :=
  | im_start : imports n0 [] n0
  | im_reject : forall log n now b n', imports n0 log n -> ib_parent b <> 0 -> submit now n b = (false, n') -> imports n0 log n'
  | im_accept : forall log n now b n' outs, imports n0 log n -> ib_parent b <> 0 -> submit now n b = (true, n') -> outputs n b outs ->
      imports n0 (log ++ [mk_acc b outs (root (n_state n') (n_hist n'))]) n'.

  Definition pkg_le (a b : N * N) : Prop := fst a < fst b \/ (fst a = fst b /\ snd a <= snd b).
  (** The root of a block's outputs: the leaves are the service in four octets, least first, and the output. *)
  Definition outs_root (outs : list (N * bytes)) : bytes := wb_root K (map (fun o => (le_bytes 4 (fst o) ++ snd o)%list) outs).
  Definition belt_after (belt0 : list (option bytes)) (l : list accepted) : list (option bytes) :=
    fold_left (mmr_append K) (map (fun a => outs_root (ac_outs a)) l) belt0.
  (** What the entry of the i-th accepted block says; its own state root is known once the next block came. *)
  Definition entry_for (belt0 : list (option bytes)) (log : list accepted) (i : nat) (e : bentry) : Prop :=
    exists a, nth_error log i = Some a /\
    be_hash e = ib_hash (ac_block a) /\
    be_beefy e = super_peak K (belt_after belt0 (firstn (S i) log)) /\
    be_state e = (if (S i =? length log)%nat then 0 else ac_root a) /\
    StronglySorted pkg_le (be_reported e) /\ Permutation (be_reported e) (ib_reported (ac_block a)).

  (** The block before, or the node at the start. *)
  Definition last_hash (n0 : node_st S0) (log : list accepted) : N := match rev log with [] => n_best n0 | a :: _ => ib_hash (ac_block a) end.
  Definition last_slot (n0 : node_st S0) (log : list accepted) : N := match rev log with [] => n_best_slot n0 | a :: _ => ib_slot (ac_block a) end.
  Definition last_root (n0 : node_st S0) (log : list accepted) : N := match rev log with [] => root (n_state n0) (n_hist n0) | a :: _ => ac_root a end.
  (** The history at the start, its last entry completed with the state root once a block was accepted. *)
  Definition old_entries (n0 : node_st S0) (log : list accepted) : list bentry :=
    match log, rev (bh_entries (n_hist n0)) with
    | [], _ | _, [] => bh_entries (n_hist n0)
    | _, e :: b => rev b ++ [mk_be (be_hash e) (be_beefy e) (root (n_state n0) (n_hist n0)) (be_reported e)]
    end.
End Spec.
Arguments mk_acc {Xt}. Arguments ac_block {Xt}. Arguments ac_outs {Xt}. Arguments ac_root {Xt}.
