(** Model of the accounts sandbox of an accumulation, pvm/pvm-host/src/context/partial_state.rs, and of its application to the state,
    transition/src/state/services.rs.
    Simplifications: the state provider answers every read (its errors are not modelled); hash maps are association lists, and an order of iteration is an
    order of such a list; the three maps of an account (storage, preimages, lookups: three copies of the same code) are one map over tagged keys. A stored
    value is a list of numbers: octets for storage and preimages, time slots for lookups. *)
From Verif Require Import Base.

Section Map.
  Context {K V : Type} (eqK : forall a b : K, {a = b} + {a <> b}).
  (** A HashMap's get, remove and insert, as used in pvm/pvm-host/src/context/partial_state.rs:181-1081. *)
  Definition mget (m : list (K * V)) (k : K) : option V := option_map snd (find (fun e => if eqK (fst e) k then true else false) m).
  (** A HashMap's get, remove and insert, as used in pvm/pvm-host/src/context/partial_state.rs:181-1081. *)
  Definition mdel (m : list (K * V)) (k : K) : list (K * V) := filter (fun e => if eqK (fst e) k then false else true) m.
  (** A HashMap's get, remove and insert, as used in pvm/pvm-host/src/context/partial_state.rs:181-1081. *)
  Definition mset (m : list (K * V)) (k : K) (v : V) : list (K * V) := (k, v) :: mdel m k.
End Map.

(** state/src/types/services.rs:110-140 (the version octet is constant) *)
Record meta := mk_meta {
  m_code : bytes; m_balance : N; m_gas_acc : N; m_gas_xfer : N; m_octets : N; m_gratis : N; m_items : N; m_created : N; m_last_acc : N; m_parent : N }.
(** Assignments to fields of state/src/types/services.rs:117-140. *)
Definition set_balance (m : meta) (b : N) : meta :=
  mk_meta (m_code m) b (m_gas_acc m) (m_gas_xfer m) (m_octets m) (m_gratis m) (m_items m) (m_created m) (m_last_acc m) (m_parent m).
(** Assignments to fields of state/src/types/services.rs:117-140. *)
Definition set_usage (m : meta) (items octets : N) : meta :=
  mk_meta (m_code m) (m_balance m) (m_gas_acc m) (m_gas_xfer m) octets (m_gratis m) items (m_created m) (m_last_acc m) (m_parent m).
(** Assignments to fields of state/src/types/services.rs:117-140. *)
Definition set_code (m : meta) (c : bytes) (g x : N) : meta :=
  mk_meta c (m_balance m) g x (m_octets m) (m_gratis m) (m_items m) (m_created m) (m_last_acc m) (m_parent m).

(** common/src: StorageKey, PreimagesKey, LookupsKey. common/src/types/mod.rs:20-120 (StorageKey, PreimagesKey, LookupsKey). *)
Inductive ekey := KStorage (k : bytes) | KPreimage (h : bytes) | KLookup (h : bytes) (len : N).
(** Equality of keys; derived (common/src/types/mod.rs:20-120). *)
Definition ekey_eq : forall a b : ekey, {a = b} + {a <> b}.
Proof. decide equality; try apply N.eq_dec; apply (list_eq_dec N.eq_dec). Defined.

(** The accounts part of the state, as the state manager shows it. The account accessors of state/src/manager.rs:612-1019. *)
Record gstate := mk_g { g_meta : N -> option meta; g_ent : N -> ekey -> option (list N) }.

(** partial_state.rs:40-62, 93-101 *)
Inductive status := Clean | Added | Updated | Removed.
(** pvm/pvm-host/src/context/partial_state.rs:40-62, 93-101. *)
Record sentry {A : Type} := mk_se { se_val : option A; se_status : status; se_clean : option A }.
Arguments sentry : clear implicits.
Arguments mk_se {A} _ _ _.
(** context/partial_state.rs:107-115, 134-153 *)
Definition from_clean {A} (v : A) : sentry A := mk_se (Some v) Clean None.
(** Part of context/partial_state.rs:107-115, 134-153. *)
Definition new_added {A} (v : A) : sentry A := mk_se (Some v) Added None.
(** Part of context/partial_state.rs:107-115, 134-153. *)
Definition new_updated {A} (v c : A) : sentry A := mk_se (Some v) Updated (Some c).
(** Part of context/partial_state.rs:107-115, 134-153. *)
Definition new_removed {A} (c : A) : sentry A := mk_se None Removed (Some c).
(** context/partial_state.rs:155-163 *)
Definition mark_updated {A} (e : sentry A) : sentry A :=
  match se_status e with Added | Updated => e | _ => mk_se (se_val e) Updated (se_clean e) end.
(** context/partial_state.rs:390-406, 557-576, 697-716, 838-857 *)
Definition clean_of {A} (e : sentry A) : option A := match se_status e with Clean => se_val e | _ => se_clean e end.

(** context/partial_state.rs:181-187 *)
Record asb := mk_asb { b_md : sentry meta; b_ent : list (ekey * sentry (list N)) }.
Notation accounts := (list (N * asb)).
Notation aget := (mget N.eq_dec). Notation aset := (mset N.eq_dec). Notation adel := (mdel N.eq_dec).
Notation eget := (mget ekey_eq). Notation eset := (mset ekey_eq). Notation edel := (mdel ekey_eq).

(** context/partial_state.rs:202-222, 263-275 *)
Definition ensure (G : gstate) (sb : accounts) (s : N) : accounts :=
  match aget sb s with
  | Some _ => sb
  | None => match g_meta G s with Some m => aset sb s (mk_asb (from_clean m) []) | None => sb end
  end.
(** pvm/pvm-host/src/context/partial_state.rs:297-344. *)
Definition is_removed {A} (e : sentry A) : bool := match se_status e with Removed => true | _ => false end.
(** context/partial_state.rs:297-316 *)
Definition exists_effective (G : gstate) (sb : accounts) (s : N) : bool :=
  match aget sb s with Some b => negb (is_removed (b_md b)) | None => match g_meta G s with Some _ => true | None => false end end.
(** context/partial_state.rs:321-344 *)
Definition exists_active (G : gstate) (sb : accounts) (s : N) : accounts * bool :=
  let sb := ensure G sb s in (sb, match aget sb s with Some b => negb (is_removed (b_md b)) | None => false end).
(** context/partial_state.rs:368-376 *)
Definition get_meta (G : gstate) (sb : accounts) (s : N) : accounts * option meta :=
  let sb := ensure G sb s in (sb, match aget sb s with Some b => se_val (b_md b) | None => None end).
(** context/partial_state.rs:390-406 *)
Definition get_meta_clean (G : gstate) (sb : accounts) (s : N) : accounts * option meta :=
  let sb := ensure G sb s in (sb, match aget sb s with Some b => clean_of (b_md b) | None => None end).
(** context/partial_state.rs:379-388 with 408-420: the metadata is changed in place and marked; [f] is the check and change made in between
    (1339-1384, context/mod.rs:465-490). [None]: an error is returned and nothing is changed. *)
Definition change_meta (G : gstate) (sb : accounts) (s : N) (f : meta -> option meta) : accounts * bool :=
  let sb := ensure G sb s in
  match aget sb s with
  | Some b =>
      match se_val (b_md b) with
      | Some m => match f m with
                  | Some m' => (aset sb s (mk_asb (mark_updated (mk_se (Some m') (se_status (b_md b)) (se_clean (b_md b)))) (b_ent b)), true)
                  | None => (sb, false)
                  end
      | None => (sb, false)
      end
  | None => (sb, false)
  end.

(** context/partial_state.rs:495-528: an entry of the sandbox, or loaded from the state into it *)
Definition get_or_load (m : list (ekey * sentry (list N))) (k : ekey) (g : option (list N)) : list (ekey * sentry (list N)) * option (sentry (list N)) :=
  match eget m k with
  | Some e => (m, Some e)
  | None => match g with Some v => (eset m k (from_clean v), Some (from_clean v)) | None => (m, None) end
  end.
(** pvm/pvm-host/src/context/partial_state.rs:118-130. *)
Definition val_of {A} (o : option (sentry A)) : option A := match o with Some e => se_val e | None => None end.
(** context/partial_state.rs:530-555, 668-695, 806-836 *)
Definition get_entry (G : gstate) (sb : accounts) (s : N) (k : ekey) : accounts * option (list N) :=
  let sb := ensure G sb s in
  match aget sb s with
  | None => (sb, None)
  | Some b => let '(m, o) := get_or_load (b_ent b) k (g_ent G s k) in (aset sb s (mk_asb (b_md b) m), val_of o)
  end.
(** context/partial_state.rs:579-606, 719-746, 860-887: the replaced value, or an error if there is no sandbox of the account *)
Definition insert_entry (G : gstate) (sb : accounts) (s : N) (k : ekey) (v : list N) : accounts * result unit (option (list N)) :=
  let sb := ensure G sb s in
  match aget sb s with
  | None => (sb, Err tt)
  | Some b =>
      let '(m, o) := get_or_load (b_ent b) k (g_ent G s k) in
      let e := match o with
               | Some e => match clean_of e with Some c => new_updated v c | None => new_added v end
               | None => new_added v
               end in
      (aset sb s (mk_asb (b_md b) (eset m k e)), Ok (val_of (eget m k)))
  end.
(** context/partial_state.rs:610-666, 750-804, 891-947 *)
Definition remove_entry (G : gstate) (sb : accounts) (s : N) (k : ekey) : accounts * option (list N) :=
  let sb := ensure G sb s in
  match aget sb s with
  | None => (sb, None)
  | Some b =>
      let '(m, o) := get_or_load (b_ent b) k (g_ent G s k) in
      match o with
      | Some e =>
          match se_val e with
          | Some v => match clean_of e with
                      | Some c => (aset sb s (mk_asb (b_md b) (eset m k (new_removed c))), Some v)
                      | None => (aset sb s (mk_asb (b_md b) (edel m k)), None)
                      end
          | None => (aset sb s (mk_asb (b_md b) m), None)
          end
      | None => (aset sb s (mk_asb (b_md b) m), None)
      end
  end.
(** context/partial_state.rs:952-1000: new slots at the end of a record, of which there are at most three; [false] if that fails *)
Definition extend_slots (G : gstate) (sb : accounts) (s : N) (h : bytes) (len : N) (ts : list N) : accounts * bool :=
  match get_entry G sb s (KLookup h len) with
  | (sb, Some l) => if (length (l ++ ts) <=? 3)%nat then (fst (insert_entry G sb s (KLookup h len) (l ++ ts)), true) else (sb, false)
  | (sb, None) => (sb, false)
  end.
(** context/partial_state.rs:1003-1016 *)
Definition drain_slots (G : gstate) (sb : accounts) (s : N) (h : bytes) (len : N) : accounts * bool :=
  match get_entry G sb s (KLookup h len) with
  | (sb, Some _) => (fst (insert_entry G sb s (KLookup h len) []), true)
  | (sb, None) => (sb, false)
  end.
(** context/partial_state.rs:1018-1081; the [unreachable!] of a missing account is the panic *)
Definition eject_account (G : gstate) (sb : accounts) (s : N) (h : bytes) (len : N) : accounts * result unit unit :=
  match get_meta G sb s with
  | (sb, None) => (sb, Panic)
  | (sb, Some _) =>
      match get_meta_clean G sb s with
      | (sb, None) => (adel sb s, Ok tt)
      | (sb, Some c) =>
          let '(sb, _) := remove_entry G sb s (KPreimage h) in
          let '(sb, _) := remove_entry G sb s (KLookup h len) in
          match aget (ensure G sb s) s with
          | Some b => (aset (ensure G sb s) s (mk_asb (new_removed c) (b_ent b)), Ok tt)
          | None => (sb, Err tt)
          end
      end
  end.
(** context/mod.rs:414-463: a new sandbox replaces any there is, and gets the request for its code *)
Definition new_account (G : gstate) (sb : accounts) (s : N) (m : meta) (h : bytes) (len : N) : accounts * result unit (option (list N)) :=
  insert_entry G (aset sb s (mk_asb (new_added m) [])) s (KLookup h len) [].

(** services.rs:159-200 and 202-390: what is done to the state manager for one entry of a sandbox. Adding something that is there, or changing or
    removing something that is not, is an error of the state manager (state/src/manager.rs:954-1019). *)
Definition put {A : Type} (now : option A) (e : sentry A) : result unit (option A) :=
  match se_status e with
  | Clean => Ok now
  | Added => match se_val e, now with Some v, None => Ok (Some v) | _, _ => Err tt end
  | Updated => match se_val e, now with Some v, Some _ => Ok (Some v) | _, _ => Err tt end
  | Removed => match now with Some _ => Ok None | None => Err tt end
  end.
(** Writing to the state manager, transition/src/state/services.rs:159-390. *)
Definition upd {A : Type} (f : N -> A) (s : N) (v : A) : N -> A := fun x => if N.eqb x s then v else f x.
(** Writing to the state manager, transition/src/state/services.rs:159-390. *)
Definition upd_ent (f : N -> ekey -> option (list N)) (s : N) (k : ekey) (v : option (list N)) : N -> ekey -> option (list N) :=
  fun x y => if N.eqb x s then (if ekey_eq y k then v else f x y) else f x y.
(** transition/src/state/services.rs:202-390. *)
Definition apply_entry (s : N) (gone : bool) (r : result unit gstate) (x : ekey * sentry (list N)) : result unit gstate :=
  let! G := r in
  if gone && negb (is_removed (snd x)) then Ok G
  else let! v := put (g_ent G s (fst x)) (snd x) in Ok (mk_g (g_meta G) (upd_ent (g_ent G) s (fst x) v)).
(** transition/src/state/services.rs:141-200. *)
Definition apply_account (r : result unit gstate) (x : N * asb) : result unit gstate :=
  let! G := r in
  let! v := put (g_meta G (fst x)) (b_md (snd x)) in
  fold_left (apply_entry (fst x) (is_removed (b_md (snd x)))) (b_ent (snd x)) (Ok (mk_g (upd (g_meta G) (fst x) v) (g_ent G))).
(** services.rs:130-140 *)
Definition apply (G : gstate) (sb : accounts) : result unit gstate := fold_left apply_account sb (Ok G).

(** The operations on a sandbox as the host functions and the merge use them, with their answers. The accessors of pvm/pvm-host/src/context/partial_state.rs:189-1081 as operations; not in the code. *)
Inductive sop :=
| Exists (s : N) | Active (s : N) | Meta (s : N) | Change (s : N) (f : meta -> option meta)
| Get (s : N) (k : ekey) | Put (s : N) (k : ekey) (v : list N) | Del (s : N) (k : ekey)
| Push (s : N) (h : bytes) (len : N) (ts : list N) | Drain (s : N) (h : bytes) (len : N)
| Eject (s : N) (h : bytes) (len : N) | New (s : N) (m : meta) (h : bytes) (len : N).
(** The accessors of pvm/pvm-host/src/context/partial_state.rs:189-1081 as operations; not in the code. *)
Inductive sout := Bool (b : bool) | MetaIs (o : option meta) | ValueIs (o : option (list N)) | Done | Failed.
(** The accessors of pvm/pvm-host/src/context/partial_state.rs:189-1081 as operations; not in the code. *)
Definition ok_out (b : bool) : sout := if b then Done else Failed.
(** The accessors of pvm/pvm-host/src/context/partial_state.rs:189-1081 as operations; not in the code. *)
Definition step (G : gstate) (sb : accounts) (o : sop) : accounts * sout :=
  match o with
  | Exists s => (sb, Bool (exists_effective G sb s))
  | Active s => let '(sb, b) := exists_active G sb s in (sb, Bool b)
  | Meta s => let '(sb, m) := get_meta G sb s in (sb, MetaIs m)
  | Change s f => let '(sb, b) := change_meta G sb s f in (sb, ok_out b)
  | Get s k => let '(sb, v) := get_entry G sb s k in (sb, ValueIs v)
  | Put s k v => match insert_entry G sb s k v with (sb, Ok v) => (sb, ValueIs v) | (sb, _) => (sb, Failed) end
  | Del s k => let '(sb, _) := remove_entry G sb s k in (sb, Done)
  | Push s h len ts => let '(sb, b) := extend_slots G sb s h len ts in (sb, ok_out b)
  | Drain s h len => let '(sb, b) := drain_slots G sb s h len in (sb, ok_out b)
  | Eject s h len => match eject_account G sb s h len with (sb, Ok _) => (sb, Done) | (sb, _) => (sb, Failed) end
  | New s m h len => match new_account G sb s m h len with (sb, Ok _) => (sb, Done) | (sb, _) => (sb, Failed) end
  end.
(** The accessors of pvm/pvm-host/src/context/partial_state.rs:189-1081 as operations; not in the code. *)
Fixpoint run (G : gstate) (sb : accounts) (os : list sop) : accounts * list sout :=
  match os with
  | [] => (sb, [])
  | o :: os => let '(sb, r) := step G sb o in let '(sb, rs) := run G sb os in (sb, r :: rs)
  end.
