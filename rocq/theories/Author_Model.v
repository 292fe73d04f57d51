(** Model of block authoring (node/src/roles/author.rs, node/src/scheduler/chain_extension.rs, node/src/roles/manager.rs) and of the checks a block
    header goes through on import (node/src/roles/importer.rs), with its seal and VRF signature.
    Simplifications: the Safrole part of the state is that of Safrole_Model; the rest [R] and its transitions are parameters, split at the points where
    the header is involved; a phase that fails leaves the working state as it was before the phase (the code may leave part of it); the header,
    extrinsics and ring caches are left out, nothing here reads them; importing with a zero parent hash (genesis) is a parameter, see Import_Model;
    [with_ancestors] is false for both roles. A 32-byte hash or key is a number. *)
From Verif Require Import Base Safrole_Model Disputes_Model.
Open Scope N_scope.

(** block/src/types/block.rs:77-96 *)
Record hdata := mk_hd {
  h_parent : N; h_root : N; h_xt : N; h_slot : N; h_epoch : option epoch_marker; h_winning : option (list ticket); h_author : N; h_vrf : bytes; h_offenders : list N }.
(** block/src/types/block.rs:98-104 *)
Record header := mk_hdr { h_data : hdata; h_seal : bytes }.
(** node/src/roles/importer.rs:40-95, node/src/roles/author.rs:37-63 and node/src/scheduler/chain_extension.rs:14-30, those that matter here *)
Inductive aerr := BadSlot | FutureSlot | BadParent | NoRoot | BadRoot | BadXtHash | ExecFailed | BadAuthorIndex | BadFallbackKey | BadSealOutput | BadSignature
  | BadEpochMarker | BadWinningMarker | BadOffendersMarker | BadClock | NoAuthorKey | NoIndex | NotAnnounced.
(** [?] and [return Err] of node/src/roles/importer.rs:354-504 *)
Definition check (b : bool) (e : aerr) : result aerr unit := if b then Ok tt else Err e.
(** [ok_or] and [?] of node/src/roles/importer.rs:305-330 and node/src/roles/author.rs:80-90 *)
Definition demand {A} (o : option A) (e : aerr) : result aerr A := match o with Some a => Ok a | None => Err e end.
(** [From] conversions of errors, node/src/roles/importer.rs:85-94 *)
Definition lift {A} (r : result unit A) : result aerr A := match r with Ok a => Ok a | Err _ => Err ExecFailed | Panic => Panic end.

(** The state (state/src/manager.rs:120-150): Safrole's part and the rest. *)
Record st (R : Type) := mk_st { saf : sstate; rest : R }.
Arguments mk_st {R}. Arguments saf {R}. Arguments rest {R}.
(** block/src/types/block.rs:31-34 *)
Record blk (Xt : Type) := mk_blk { k_header : header; k_xts : Xt }.
Arguments mk_blk {Xt}. Arguments k_header {Xt}. Arguments k_xts {Xt}.
(** What the model is a function of: Safrole_Model's parameters; the VRF (crypto/src/vrf/bandersnatch_vrf.rs:15-54, crypto/src/types/signatures.rs:20-40): signing with a
    context and a message, verifying, the output hash of a signature; the keystore (node/src/keystore/mod.rs:18-22); the encoding of the unsealed header (C06), the hashes of a
    header and of the extrinsics (C46); of the first phase (node/src/roles/executor.rs:70-180) the validated tickets, the punish set after the disputes extrinsic, the offenders it
    names and the rest of the state, which takes the parent's state root; of the second (executor.rs:183-315, with parent hash and author index) the rest of the state, a new
    staging set and outputs; of the third (executor.rs:400-412, with outputs and header hash) the rest of the state; the state's Merkle root (C33); the genesis path; the
    extrinsics collected for a new block (node/src/roles/author.rs:225-228: none). *)
Record env (Xt R O : Type) := mk_env {
  z_E : N; z_D : N; z_H : bytes -> bytes; z_ring : list vkey -> bytes; z_V : nat;
  z_sign : N -> bytes -> bytes -> option bytes; z_verify : bytes -> bytes -> bytes -> N -> bool; z_out : bytes -> option N; z_keystore : N -> option N;
  z_enc : hdata -> bytes; z_hash : header -> N; z_xt_hash : Xt -> N;
  z_tickets : sstate -> R -> N -> Xt -> option (list ticket); z_punish : sstate -> R -> Xt -> option (list N); z_offenders : Xt -> list N; z_rest1 : sstate -> R -> N -> Xt -> option R;
  z_rest2 : sstate -> R -> N -> N -> Xt -> option (R * option (list vkey) * O); z_rest3 : sstate -> R -> O -> N -> option R;
  z_root : st R -> N; z_genesis : st R -> blk Xt -> option (st R); z_no_xts : Xt }.
Arguments z_E {Xt R O}. Arguments z_D {Xt R O}. Arguments z_H {Xt R O}. Arguments z_ring {Xt R O}. Arguments z_V {Xt R O}. Arguments z_sign {Xt R O}. Arguments z_verify {Xt R O}.
Arguments z_out {Xt R O}. Arguments z_keystore {Xt R O}. Arguments z_enc {Xt R O}. Arguments z_hash {Xt R O}. Arguments z_xt_hash {Xt R O}. Arguments z_tickets {Xt R O}.
Arguments z_punish {Xt R O}. Arguments z_offenders {Xt R O}. Arguments z_rest1 {Xt R O}. Arguments z_rest2 {Xt R O}. Arguments z_rest3 {Xt R O}. Arguments z_root {Xt R O}.
Arguments z_genesis {Xt R O}. Arguments z_no_xts {Xt R O}.

(** Equality of tickets, derived at common/src/types/ticket.rs:10-16 *)
Definition ticket_eq : forall a b : ticket, {a = b} + {a <> b}. Proof. repeat decide equality. Defined.
(** Equality of epoch markers, derived at block/src/types/block.rs:56-61 *)
Definition marker_eq : forall a b : option epoch_marker, {a = b} + {a <> b}. Proof. repeat decide equality. Defined.
(** Equality of winning-ticket markers, derived at common/src/types/ticket.rs:10-16 *)
Definition winning_eq : forall a b : option (list ticket), {a = b} + {a <> b}. Proof. repeat decide equality. Defined.

Section Author.
  Context {Xt R O : Type} (z : env Xt R O).
  Notation st := (st R). Notation blk := (blk Xt).
  (** A node: committed state, working state in the cache (state/src/cache.rs:65-70), best header (block/src/header_db.rs:66), post-state roots
      (block/src/post_state_root_db.rs:23-26), its validator index (node/src/jam_node/mod.rs:17) and public key. *)
  Record node := mk_node { nd_db : st; nd_work : st; nd_best : header; nd_roots : N -> option N; nd_index : option N; nd_key : N }.
  (** state/src/manager.rs:888-890 *)
  Definition rollback (n : node) : node := mk_node (nd_db n) (nd_db n) (nd_best n) (nd_roots n) (nd_index n) (nd_key n).
  (** state/src/manager.rs, commit_dirty_cache:818-860 *)
  Definition commit (n : node) : node := mk_node (nd_work n) (nd_work n) (nd_best n) (nd_roots n) (nd_index n) (nd_key n).
  (** The cache's working state after transitions, state/src/cache.rs:122-162 *)
  Definition with_work (n : node) (s : st) : node := mk_node (nd_db n) s (nd_best n) (nd_roots n) (nd_index n) (nd_key n).
  (** block/src/header_db.rs:112-115 *)
  Definition with_best (n : node) (h : header) : node := mk_node (nd_db n) (nd_work n) h (nd_roots n) (nd_index n) (nd_key n).
  (** block/src/post_state_root_db.rs:44-50, the root of the committed state *)
  Definition with_root (n : node) (k : N) : node :=
    mk_node (nd_db n) (nd_work n) (nd_best n) (fun j => if j =? k then Some (z_root z (nd_db n)) else nd_roots n j) (nd_index n) (nd_key n).

  (** node/src/roles/executor.rs:73-180 *)
  Definition exec1 (now : N) (s : st) (slot root : N) (x : Xt) : result aerr (st * markers * list N) :=
    let! ts := demand (z_tickets z (saf s) (rest s) slot x) ExecFailed in
    let! pu := demand (z_punish z (saf s) (rest s) x) ExecFailed in
    let! r := demand (z_rest1 z (saf s) (rest s) root x) ExecFailed in
    let! p := lift (phase1 (z_E z) (z_D z) (z_H z) (z_ring z) (z_V z) now (saf s) (mk_b slot ts pu [] None)) in
    Ok (mk_st (fst p) r, snd p, z_offenders z x).
  (** transition/src/state/privileges.rs:11-31 *)
  Definition with_staging (s : sstate) (o : option (list vkey)) : sstate :=
    mk_s (s_slot s) (s_e0 s) (s_e1 s) (s_e2 s) (s_e3 s) (match o with Some l => l | None => s_staging s end) (s_active s) (s_past s) (s_pending s) (s_ring s) (s_sealers s) (s_acc s) (s_punish s).
  (** node/src/roles/executor.rs:183-315: the VRF output goes into the entropy first (executor.rs:221-227, transition/src/state/entropy.rs:41-60) *)
  Definition exec2 (s : st) (d : hdata) (x : Xt) : result aerr (st * O) :=
    let! o := demand (z_out z (h_vrf d)) ExecFailed in
    let e := phase2 (z_H z) (saf s) (mk_b (s_slot (saf s)) [] [] (hbytes o) None) in
    let! r := demand (z_rest2 z e (rest s) (h_parent d) (h_author d) x) ExecFailed in
    Ok (mk_st (with_staging e (snd (fst r))) (fst (fst r)), snd r).
  (** node/src/roles/executor.rs:400-412 *)
  Definition exec3 (s : st) (o : O) (k : N) : result aerr st :=
    let! r := demand (z_rest3 z (saf s) (rest s) o k) ExecFailed in Ok (mk_st (saf s) r).

  (** ** Import *)
  (** node/src/roles/importer.rs:354-417 *)
  Definition check_before (now : N) (n : node) (b : blk) : result aerr unit :=
    let d := h_data (k_header b) in
    let! _ := check (h_slot (h_data (nd_best n)) <? h_slot d) BadSlot in
    let! _ := check (negb (is_in_future now (h_slot d))) FutureSlot in
    let! _ := check (h_parent d =? z_hash z (nd_best n)) BadParent in
    let! r := demand (nd_roots n (h_parent d)) NoRoot in
    let! _ := check (r =? h_root d) BadRoot in
    check (h_xt d =? z_xt_hash z (k_xts b)) BadXtHash.
  (** node/src/roles/importer.rs:419-458: the context of the seal, after the checks on who sealed *)
  Definition seal_context (s : sealer) (e3 : bytes) : bytes :=
    match s with STicket t => X_T ++ e3 ++ [tattempt t] | SKey _ => X_F ++ e3 end.
  (** node/src/roles/importer.rs:419-458, node/src/roles/author.rs:386-396 *)
  Definition verify_block_seal (h : header) (s : sealer) (key : N) (e3 : bytes) : result aerr unit :=
    let! _ := match s with
              | STicket t => match z_out z (h_seal h) with Some o => check (o =? tid t) BadSealOutput | None => Err BadSealOutput end
              | SKey k => check (k =? key) BadFallbackKey
              end in
    check (z_verify z (seal_context s e3) (z_enc z (h_data h)) (h_seal h) key) BadSignature.
  (** node/src/roles/importer.rs:460-481 *)
  Definition verify_vrf_output (h : header) (key : N) : result aerr unit :=
    let! o := demand (z_out z (h_seal h)) BadSignature in
    check (z_verify z (X_E ++ hbytes o) [] (h_vrf (h_data h)) key) BadSignature.
  (** node/src/roles/importer.rs:483-507 *)
  Definition check_markers (d : hdata) (m : markers) (off : list N) : result aerr unit :=
    let! _ := check (if marker_eq (h_epoch d) (m_epoch m) then true else false) BadEpochMarker in
    let! _ := check (if winning_eq (h_winning d) (m_winning m) then true else false) BadWinningMarker in
    check (if list_eq_dec N.eq_dec (h_offenders d) off then true else false) BadOffendersMarker.
  (** crypto/src/types/validator_keys.rs:135-148 *)
  Definition key_at (l : list vkey) (i : N) : option N := if i <? N.of_nat (z_V z) then option_map kband (nth_error l (N.to_nat i)) else None.
  (** node/src/roles/importer.rs:292-352 *)
  Definition check_after (s : st) (h : header) (m : markers) (off : list N) : result aerr unit :=
    let! sl := lift (get_slot_sealer (z_E z) (s_sealers (saf s)) (h_slot (h_data h))) in
    let! key := demand (key_at (s_active (saf s)) (h_author (h_data h))) BadAuthorIndex in
    let! _ := verify_block_seal h sl key (s_e3 (saf s)) in
    let! _ := verify_vrf_output h key in
    check_markers (h_data h) m off.
  (** node/src/roles/importer.rs:152-203 and 509-579, in Immediate mode *)
  Definition import (now : N) (n : node) (b : blk) : result aerr node :=
    let d := h_data (k_header b) in
    if h_parent d =? 0 then let! s := demand (z_genesis z (nd_work n) b) ExecFailed in Ok (commit (with_work n s))
    else
      let! _ := check_before now n b in
      let! p := exec1 now (nd_work n) (h_slot d) (h_root d) (k_xts b) in
      let! _ := check_after (fst (fst p)) (k_header b) (snd (fst p)) (snd p) in
      let! q := exec2 (fst (fst p)) d (k_xts b) in
      let! s := exec3 (fst q) (snd q) (z_hash z (k_header b)) in
      Ok (with_best (commit (with_work n s)) (k_header b)).
  (** node/src/roles/importer.rs:114-150: one block from the channel; an import that panics stops the importer (None) *)
  Definition deliver (now : N) (n : node) (b : blk) : option node :=
    match import now n b with
    | Ok n' => Some (with_root n' (z_hash z (k_header b)))
    | Err _ => Some (rollback n)
    | Panic => None
    end.

  (** ** Authoring *)
  (** node/src/roles/author.rs:434-464 *)
  Definition sign_vrf (s : sealer) (e3 : bytes) (sk : N) : result aerr bytes :=
    let! o := match s with
              | STicket t => Ok (tid t)
              | SKey _ => let! g := demand (z_sign z sk (X_F ++ e3) []) BadSignature in demand (z_out z g) BadSignature
              end in
    demand (z_sign z sk (X_E ++ hbytes o) []) BadSignature.
  (** node/src/roles/author.rs:310-334, 398-432 *)
  Definition sign_seal (d : hdata) (s : sealer) (e3 : bytes) (sk : N) : result aerr bytes :=
    let! g := demand (z_sign z sk (seal_context s e3) (z_enc z d)) BadSignature in
    match s with
    | STicket t => match z_out z g with Some o => let! _ := check (o =? tid t) BadSealOutput in Ok g | None => Err BadSealOutput end
    | SKey _ => Ok g
    end.
  (** node/src/roles/author.rs:113-147: the header is made, the working state has gone through the first phase; [now] is the clock at author.rs:248 *)
  Definition author_header (now : N) (n : node) (index sk : N) : result aerr (node * blk) :=
    let! slot := demand (now_jam_timeslot now) BadClock in
    let parent := z_hash z (nd_best n) in
    let root := z_root z (nd_db n) in
    let! p := exec1 now (nd_work n) slot root (z_no_xts z) in
    let s := fst (fst p) in let m := snd (fst p) in
    let! sl := lift (get_slot_sealer (z_E z) (s_sealers (saf s)) (s_slot (saf s))) in
    let! v := sign_vrf sl (s_e3 (saf s)) sk in
    let d := mk_hd parent root (z_xt_hash z (z_no_xts z)) slot (m_epoch m) (m_winning m) index v (snd p) in
    let! g := sign_seal d sl (s_e3 (saf s)) sk in
    Ok (with_work n s, mk_blk (mk_hdr d g) (z_no_xts z)).
  (** node/src/roles/author.rs:149-187 *)
  Definition author_state (n : node) (b : blk) : result aerr node :=
    let! q := exec2 (nd_work n) (h_data (k_header b)) (k_xts b) in
    let! s := exec3 (fst q) (snd q) (z_hash z (k_header b)) in
    Ok (with_root (commit (with_work n s)) (z_hash z (k_header b))).
  (** node/src/roles/manager.rs:22-37; [unimplemented!] in ticket mode *)
  Definition is_author_of_slot (n : node) (slot : N) : result aerr bool :=
    let! sl := lift (predict_slot_sealer (z_E z) (z_D z) (z_H z) (z_V z) (saf (nd_db n)) slot) in
    match sl with STicket _ => Panic | SKey k => Ok (nd_key n =? k) end.
  (** The author's first half: node/src/scheduler/chain_extension.rs:33-61, up to the announcement. [slot] is what the scheduler passed, [now] the clock when the header is made.
      None: the node is not the author of the slot. *)
  Definition extend1 (slot now : N) (n : node) : result aerr (option (node * blk)) :=
    let! mine := is_author_of_slot n slot in
    if mine then
      let! i := demand (nd_index n) NoIndex in
      let! sk := demand (z_keystore z (nd_key n)) NoAuthorKey in
      let! r := author_header now n i sk in
      Ok (Some (with_best (fst r) (k_header (snd r)), snd r))
    else Ok None.
  (** The second half: chain_extension.rs:63-90; [announced]: the announcement to the peers succeeded *)
  Definition extend2 (announced : bool) (n : node) (b : blk) : result aerr node :=
    let! _ := check announced NotAnnounced in author_state n b.
  (** node/src/scheduler/chain_extension.rs:33-91 with nothing in between *)
  Definition extend_chain (slot now : N) (announced : bool) (n : node) : result aerr (option (node * blk)) :=
    let! o := extend1 slot now n in
    match o with
    | Some (n1, b) => let! n2 := extend2 announced n1 b in Ok (Some (n2, b))
    | None => Ok None
    end.
End Author.
Arguments node R : clear implicits. Arguments mk_node {R}. Arguments nd_db {R}. Arguments nd_work {R}. Arguments nd_best {R}. Arguments nd_roots {R}. Arguments nd_index {R}. Arguments nd_key {R}.
