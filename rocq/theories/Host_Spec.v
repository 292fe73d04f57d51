(** What the host calls of an accumulation do, on plain accounts: the tables of the Graypaper's appendix B.7 and B.8, case by case in their order.
    [rd] (the octets at an address, if they may be read), [reg], [named], [holder], [assigner], [bless] and the return codes are those of the model. *)
From Verif Require Import Base PvmMem_Model PvmProg_Model PvmStep_Model Sandbox_Model Sandbox_Spec Host_Model.
From Coq Require Import Permutation.
Open Scope N_scope.

(** ** Accounts *)
(** What an account must hold: 100, 10 for each item, 1 for each octet, less its gratis allowance. *)
Definition least (m : meta) : N := 100 + 10 * m_items m + m_octets m - m_gratis m.
(** What an entry counts for. *)
Definition items_of (k : ekey) : N := match k with KStorage _ => 1 | KPreimage _ => 0 | KLookup _ _ => 2 end.
Definition octets_of (k : ekey) (v : list N) : N :=
  match k with KStorage k => 34 + N.of_nat (length k) + N.of_nat (length v) | KPreimage _ => 0 | KLookup _ len => 81 + len end.
(** The account after one of its entries is replaced by [v]. *)
Definition recount (m : meta) (k : ekey) (old new : option (list N)) : meta :=
  let i o := match o with Some _ => items_of k | None => 0 end in
  let c o := match o with Some v => octets_of k v | None => 0 end in
  set_usage m (m_items m - i old + i new) (m_octets m - c old + c new).
Definition replace (w : gstate) (s : N) (m : meta) (k : ekey) (new : option (list N)) : gstate :=
  with_meta (with_ent w s k new) s (Some (recount m k (g_ent w s k) new)).

(** ** The calls. The outcome: the answer to the machine, the accounts, the rest of the context. *)
Definition world : Type := gstate * rest.
Definition outcome : Type := hchange * world.
Definition says (c : N) (x : world) : outcome := (code c, x).
(** Data for the machine: [n] octets from [o] on, as far as there are, if that part of its memory is writable; the panic otherwise. *)
Definition gives (s : vm) (x : world) (data : bytes) (addr off len : N) : outcome :=
  let size := N.of_nat (length data) in
  let part := firstn (N.to_nat (N.min len (size - N.min off size))) (skipn (N.to_nat (N.min off size)) data) in
  if (addr <? 2 ^ 32) && is_address_range_writable (v_mem s) addr (N.of_nat (length part))
  then (mk_hchange Continue 10 (Some size) None (Some (addr, part)), x) else (panicked, x).

Definition gp_fetch (e : env) (s : vm) (x : world) : outcome :=
  match (if existsb (N.eqb (reg s 10)) [0; 1; 14; 15] then e_fetch e (reg s 10) (reg s 11) else None) with
  | Some data => gives s x data (reg s 7) (reg s 8) (reg s 9)
  | None => says NONE x
  end.
Definition gp_lookup (s : vm) (x : world) : outcome :=
  match rd s (reg s 8) 32 with
  | None => (panicked, x)
  | Some h => match named s (snd x) with
              | Some t => match g_ent (fst x) t (KPreimage h) with Some v => gives s x v (reg s 9) (reg s 10) (reg s 11) | None => says NONE x end
              | None => says NONE x
              end
  end.
Definition gp_read (s : vm) (x : world) : outcome :=
  match rd s (reg s 8) (reg s 9) with
  | None => (panicked, x)
  | Some k => match named s (snd x) with
              | Some t => match g_ent (fst x) t (KStorage k) with Some v => gives s x v (reg s 10) (reg s 11) (reg s 12) | None => says NONE x end
              | None => says NONE x
              end
  end.
Definition gp_info (s : vm) (x : world) : outcome :=
  match named s (snd x) with
  | Some t => match g_meta (fst x) t with
              | Some m =>
                  gives s x (m_code m ++ le_bytes 8 (m_balance m) ++ le_bytes 8 (least m) ++ le_bytes 8 (m_gas_acc m) ++ le_bytes 8 (m_gas_xfer m) ++
                             le_bytes 8 (m_octets m) ++ le_bytes 4 (m_items m) ++ le_bytes 8 (m_gratis m) ++ le_bytes 4 (m_created m) ++ le_bytes 4 (m_last_acc m) ++
                             le_bytes 4 (m_parent m)) (reg s 8) (reg s 9) (reg s 10)
              | None => says NONE x
              end
  | None => says NONE x
  end.
Definition gp_write (m : meta) (s : vm) (x : world) : outcome :=
  let '(w, r) := x in
  match rd s (reg s 7) (reg s 8), (if reg s 10 =? 0 then if reg s 9 <? 2 ^ 32 then Some [] else None else rd s (reg s 9) (reg s 10)) with
  | Some k, Some v =>
      let new := if reg s 10 =? 0 then None else Some v in
      let old := g_ent w (r_host r) (KStorage k) in
      if m_balance m <? least (recount m (KStorage k) old new) then says FULL x
      else says (match old with Some o => N.of_nat (length o) | None => NONE end) (replace w (r_host r) m (KStorage k) new, r)
  | _, _ => (panicked, x)
  end.
Definition gp_bless (e : env) (s : vm) (x : world) : outcome :=
  match rd s (reg s 8) (4 * e_cores e), (if reg s 11 <? 2 ^ 32 then if reg s 12 * 12 <? 2 ^ 64 then rd s (reg s 11) (reg s 12 * 12) else None else None) with
  | Some a, Some z =>
      if (reg s 7 <? 2 ^ 32) && (reg s 9 <? 2 ^ 32) && (reg s 10 <? 2 ^ 32)
      then says OK (fst x, bless (snd x) (reg s 7) (map le_val (chunks (N.to_nat (e_cores e)) 4 a)) (reg s 9) (reg s 10)
                     (fold_left (fun m c => aset m (le_val (firstn 4 c)) (le_val (skipn 4 c))) (chunks (N.to_nat (reg s 12)) 12 z) []))
      else says WHO x
  | _, _ => (panicked, x)
  end.
Definition with_queue (p : priv) (core a : N) (q : list bytes) : priv :=
  mk_priv (p_manager p) (p_assign p) (option_map (fun l => set_at l (N.to_nat core) a) (p_assign_bless p)) (aset (p_assign_self p) core a)
    (p_designate p) (p_registrar p) (p_always p) (set_at (p_queues p) (N.to_nat core) q) (p_staging p).
Definition with_staging (p : priv) (v : list bytes) : priv :=
  mk_priv (p_manager p) (p_assign p) (p_assign_bless p) (p_assign_self p) (p_designate p) (p_registrar p) (p_always p) (p_queues p) (Some v).
Definition gp_assign (e : env) (s : vm) (x : world) : outcome :=
  let '(w, r) := x in
  match rd s (reg s 8) (80 * 32) with
  | None => (panicked, x)
  | Some q =>
      if e_cores e <=? reg s 7 then says CORE x
      else if negb (assigner (r_priv r) (reg s 7) =? r_host r) then says HUH x
      else if 2 ^ 32 <=? reg s 9 then says WHO x
      else says OK (w, set_priv r (with_queue (r_priv r) (reg s 7) (reg s 9) (chunks 80 32 q)))
  end.
Definition gp_designate (e : env) (s : vm) (x : world) : outcome :=
  let '(w, r) := x in
  match rd s (reg s 7) (336 * e_vals e) with
  | None => (panicked, x)
  | Some v => if negb (holder (p_designate (r_priv r)) =? r_host r) then says HUH x
              else says OK (w, set_priv r (with_staging (r_priv r) (chunks (N.to_nat (e_vals e)) 336 v)))
  end.

(** The first id that is free, going up from [i] and around in 2^16 .. 2^32 - 2^8 - 1. *)
Definition in_cycle (i : N) : Prop := 65536 <= i < 2 ^ 32 - 256.
Definition cyc (i k : N) : N := 65536 + (i - 65536 + k) mod (2 ^ 32 - 2 ^ 16 - 2 ^ 8).
Definition first_free (w : gstate) (i j : N) : Prop :=
  exists k, j = cyc i k /\ g_meta w j = None /\ forall l, l < k -> g_meta w (cyc i l) <> None.

(** NEW leaves the next id open: that is for [new_next] below. *)
Definition gp_new (e : env) (m : meta) (s : vm) (x : world) : outcome :=
  let '(w, r) := x in
  match rd s (reg s 7) 32 with
  | None => (panicked, x)
  | Some h =>
      let len := reg s 8 in
      let gratis := reg s 11 in
      let cost := least (mk_meta h 0 0 0 (81 + len) gratis 2 0 0 0) in
      let special := (reg s 12 <? 65536) && (holder (p_registrar (r_priv r)) =? r_host r) in
      let id := if special then reg s 12 else r_next r in
      if 2 ^ 32 <=? len then (panicked, x)
      else if negb (gratis =? 0) && negb (p_manager (r_priv r) =? r_host r) then says HUH x
      else if m_balance m <? least m + cost then says CASH x
      else if special && is_some (g_meta w id) then says FULL x
      else says id (with_ent (with_meta (with_meta w (r_host r) (Some (set_balance m (m_balance m - cost)))) id
                               (Some (mk_meta h cost (reg s 9) (reg s 10) (81 + len) gratis 2 (e_now e) 0 (r_host r)))) id (KLookup h len) (Some []), r)
  end.
Definition gp_upgrade (m : meta) (s : vm) (x : world) : outcome :=
  match rd s (reg s 7) 32 with
  | None => (panicked, x)
  | Some h => says OK (with_meta (fst x) (r_host (snd x)) (Some (set_code m h (reg s 8) (reg s 9))), snd x)
  end.
Definition gp_transfer (m : meta) (s : vm) (x : world) : outcome :=
  let '(w, r) := x in
  match rd s (reg s 10) 128 with
  | None => (panicked, x)
  | Some memo =>
      match (if reg s 7 <? 2 ^ 32 then g_meta w (reg s 7) else None) with
      | None => says WHO x
      | Some d =>
          if reg s 9 <? m_gas_xfer d then says LOW x
          else if m_balance m <? least m + reg s 8 then says CASH x
          else let g := N.min (10 + reg s 9) (2 ^ 64 - 1) in
               if (v_gas s <? Z.of_N g)%Z then (starved g, x)
               else (mk_hchange Continue g (Some OK) None None,
                     (with_meta w (r_host r) (Some (set_balance m (m_balance m - reg s 8))), add_xfer r (mk_xfer (r_host r) (reg s 7) (reg s 8) memo (reg s 9))))
      end
  end.
(** The code hash that gives an account up to [host]. *)
Definition given_to (host : N) : bytes := le_bytes 4 host ++ repeat 0 28.
Definition gp_eject (e : env) (m : meta) (s : vm) (x : world) : outcome :=
  let '(w, r) := x in
  match rd s (reg s 8) 32 with
  | None => (panicked, x)
  | Some h =>
      let t := reg s 7 in
      match (if (t <? 2 ^ 32) && negb (t =? r_host r) then g_meta w t else None) with
      | None => says WHO x
      | Some d =>
          if list_eq_dec N.eq_dec (m_code d) (given_to (r_host r)) then
            match g_ent w t (KLookup h (m_octets d - 81)) with
            | Some [_; y] => if (m_items d =? 2) && (y + e_expiry e <? e_now e)
                             then says OK (without (with_meta w (r_host r) (Some (set_balance m (m_balance m + m_balance d)))) t, r) else says HUH x
            | _ => says HUH x
            end
          else says WHO x
      end
  end.
Definition gp_query (s : vm) (x : world) : outcome :=
  let reply a b : outcome := (mk_hchange Continue 10 (Some a) (Some b) None, x) in
  match rd s (reg s 7) 32 with
  | None => (panicked, x)
  | Some h => match g_ent (fst x) (r_host (snd x)) (KLookup h (reg s 8)) with
              | Some [] => reply 0 0
              | Some [a] => reply (1 + 2 ^ 32 * a) 0
              | Some [a; b] => reply (2 + 2 ^ 32 * a) b
              | Some (a :: b :: c :: _) => reply (3 + 2 ^ 32 * a) (b + 2 ^ 32 * c)
              | None => reply NONE 0
              end
  end.
Definition gp_solicit (e : env) (m : meta) (s : vm) (x : world) : outcome :=
  let '(w, r) := x in
  match rd s (reg s 7) 32 with
  | None => (panicked, x)
  | Some h =>
      let k := KLookup h (reg s 8) in
      match g_ent w (r_host r) k with
      | None => if (2 ^ 32 <=? reg s 8) || (m_balance m <? least (recount m k None (Some []))) then says FULL x else says OK (replace w (r_host r) m k (Some []), r)
      | Some [a; b] => says OK (with_ent w (r_host r) k (Some [a; b; e_now e]), r)
      | Some _ => says HUH x
      end
  end.
Definition gp_forget (e : env) (m : meta) (s : vm) (x : world) : outcome :=
  let '(w, r) := x in
  match rd s (reg s 7) 32 with
  | None => (panicked, x)
  | Some h =>
      let k := KLookup h (reg s 8) in
      let old y := y + e_expiry e <? e_now e in
      let gone := says OK (with_ent (replace w (r_host r) m k None) (r_host r) (KPreimage h) None, r) in
      match g_ent w (r_host r) k with
      | Some [] => gone
      | Some [a] => says OK (with_ent w (r_host r) k (Some [a; e_now e]), r)
      | Some [_; b] => if old b then gone else says HUH x
      | Some [_; b; c] => if old b then says OK (with_ent w (r_host r) k (Some [c; e_now e]), r) else says HUH x
      | _ => says HUH x
      end
  end.
Definition gp_yield (s : vm) (x : world) : outcome :=
  match rd s (reg s 7) 32 with None => (panicked, x) | Some h => says OK (fst x, set_yield (snd x) h) end.
Definition gp_provide (e : env) (s : vm) (x : world) : outcome :=
  let '(w, r) := x in
  match rd s (reg s 8) (reg s 9) with
  | None => (panicked, x)
  | Some data =>
      match named s r with
      | None => says WHO x
      | Some t =>
          if is_some (g_meta w t) then
            match g_ent w t (KLookup (e_hash e data) (N.of_nat (length data))) with
            | Some [] => if in_dec (fun a b : N * bytes => ltac:(repeat decide equality)) (t, data) (r_prov r) then says HUH x else says OK (w, add_prov r t data)
            | _ => says HUH x
            end
          else says WHO x
      end
  end.
(** All of them; [m] is the host's own account. *)
Definition gp (e : env) (n : N) (s : vm) (m : meta) (x : world) : outcome :=
  if (v_gas s <? 10)%Z && negb (n =? 100) then (starved 10, x)
  else match n with
       | 0 => (mk_hchange Continue 10 (Some (Z.to_N (v_gas s - 10))) None None, x)
       | 1 => gp_fetch e s x | 2 => gp_lookup s x | 3 => gp_read s x | 4 => gp_write m s x | 5 => gp_info s x
       | 14 => gp_bless e s x | 15 => gp_assign e s x | 16 => gp_designate e s x | 18 => gp_new e m s x | 19 => gp_upgrade m s x
       | 20 => gp_transfer m s x | 21 => gp_eject e m s x | 22 => gp_query s x | 23 => gp_solicit e m s x | 24 => gp_forget e m s x
       | 25 => gp_yield s x | 26 => gp_provide e s x
       | _ => (what_result, x)
       end.

(** One call: when it takes the next id, the next one after that is the first free id from 42 further on. *)
Definition gp_step (e : env) (n : N) (s : vm) (x : world) (h : hchange) (x' : world) : Prop :=
  exists m, g_meta (fst x) (r_host (snd x)) = Some m /\
    let '(h0, (w0, r0)) := gp e n s m x in
    h = h0 /\ fst x' = w0 /\
    if negb (is_some (g_meta (fst x) (r_next (snd x)))) && is_some (g_meta w0 (r_next (snd x)))
    then exists j, first_free w0 (cyc (r_next (snd x)) 42) j /\ snd x' = set_next r0 j
    else snd x' = r0.
(** The pair of contexts: only CHECKPOINT changes the second. *)
Definition gp_pair (e : env) (n : N) (s : vm) (c : world * world) (h : hchange) (c' : world * world) : Prop :=
  if (n =? 17) && (10 <=? v_gas s)%Z then h = mk_hchange Continue 10 (Some (Z.to_N (v_gas s - 10))) None None /\ c' = (fst c, fst c)
  else if n =? 17 then h = starved 10 /\ c' = c
  else gp_step e n s (fst c) h (fst c') /\ snd c' = snd c.
Fixpoint gp_calls (e : env) (l : list (N * vm)) (c : world * world) (hs : list hchange) (c' : world * world) : Prop :=
  match l, hs with
  | [], [] => c' = c
  | (n, s) :: l, h :: hs => exists d, gp_pair e n s c h d /\ gp_calls e l d hs c'
  | _, _ => False
  end.

(** ** Worlds in order *)
Fixpoint sum (l : list N) : N := match l with [] => 0 | x :: l => x + sum l end.
(** The counts of an account are those of its entries. *)
Definition counted (w : gstate) (s : N) (m : meta) : Prop :=
  exists ks, NoDup ks /\ (forall k, In k ks <-> g_ent w s k <> None) /\
    m_items m = sum (map items_of ks) /\
    m_octets m = sum (map (fun k => match g_ent w s k with Some v => octets_of k v | None => 0 end) ks).
(** Every preimage was asked for; a request has at most three slots, none in the future. *)
Definition requested (w : gstate) (s : N) : Prop := forall h, g_ent w s (KPreimage h) <> None -> exists len, g_ent w s (KLookup h len) <> None.
Definition slotted (now : N) (w : gstate) (s : N) : Prop := forall h len l, g_ent w s (KLookup h len) = Some l -> (length l <= 3)%nat /\ Forall (fun t => t <= now) l.
(** Requests are for less than 2^32 octets. *)
Definition short (w : gstate) (s : N) : Prop := forall h len, g_ent w s (KLookup h len) <> None -> len < 2 ^ 32.
Record tidy (e : env) (x : world) : Prop := mk_tidy {
  td_proper : proper (fst x);
  td_counted : forall s m, g_meta (fst x) s = Some m -> counted (fst x) s m;
  td_requested : forall s, requested (fst x) s;
  td_slotted : forall s, slotted (e_now e) (fst x) s;
  td_short : forall s, short (fst x) s;
  td_host : exists m, g_meta (fst x) (r_host (snd x)) = Some m /\ least m <= m_balance m;
  td_next : in_cycle (r_next (snd x)) /\ g_meta (fst x) (r_next (snd x)) = None }.

(** ** The use of the calls
    [G] are the accounts of the state, [ch] the accounts changed before this accumulation. The machine has its 2^32 octets of memory. No count comes near its limit.
    An account ejected is not one of the state changed before; an account made is not one of the state ejected before. Some id is left. *)
Definition permitted (G : gstate) (ch : list N) (x : world) (n : N) (s : vm) : Prop :=
  m_len (v_mem s) <= 2 ^ 32 /\ (v_gas s < 2 ^ 63 - 1)%Z /\
  (forall t m, g_meta (fst x) t = Some m -> m_items m + 2 < 2 ^ 32 /\ m_octets m + 2 ^ 34 < 2 ^ 63 /\ m_balance m < 2 ^ 64) /\
  (n = 21 -> reg s 7 <> r_host (snd x) -> has G (reg s 7) -> has (fst x) (reg s 7) -> ~ In (reg s 7) ch) /\
  (n = 21 -> forall t m h, t <> r_host (snd x) -> g_meta (fst x) t = Some m -> g_meta (fst x) (r_host (snd x)) = Some h -> m_balance m + m_balance h < 2 ^ 64) /\
  (n = 18 -> forall i, i = reg s 12 \/ i = r_next (snd x) -> ~ has (fst x) i -> ~ has G i) /\
  (n = 18 -> exists i, in_cycle i /\ i <> r_next (snd x) /\ g_meta (fst x) i = None).

(** ** The contexts of the code, and the accounts they show *)
Definition seen (G : gstate) (c : accounts * rest) : world := (view G (fst c), snd c).
(** A pair of contexts to start from: both in order, of the same host, which is among the accounts that may change. *)
Definition ready (G : gstate) (ch : list N) (e : env) (c : (accounts * rest) * (accounts * rest)) : Prop :=
  proper G /\ e_now e + e_expiry e < 2 ^ 32 /\ In (r_host (snd (fst c))) ch /\
  sb_ok G ch (fst (fst c)) /\ tidy e (seen G (fst c)) /\ sb_ok G ch (fst (snd c)) /\ tidy e (seen G (snd c)) /\ r_host (snd (snd c)) = r_host (snd (fst c)).
(** Each call of a history is permitted in the context it is made in. *)
Fixpoint permitted_run (G : gstate) (ch : list N) (e : env) (l : list (N * vm)) (c : (accounts * rest) * (accounts * rest)) : Prop :=
  match l with
  | [] => True
  | (n, s) :: l => permitted G ch (seen G (fst c)) n s /\ forall h c', host (Sandbox_Model.step G) e n s c = Ok (h, c') -> permitted_run G ch e l c'
  end.
(** A context of the code and a world that are the same. *)
Definition stands (G : gstate) (c : accounts * rest) (x : world) : Prop := snd c = snd x /\ same (view G (fst c)) (fst x).
(** The total of the balances is [v]. *)
Definition holds (w : gstate) (v : N) : Prop :=
  exists ids, NoDup ids /\ (forall i, In i ids <-> has w i) /\ v = sum (map (fun i => match g_meta w i with Some m => m_balance m | None => 0 end) ids).
(** What is on its way. *)
Definition deferred (r : rest) : N := sum (map t_amount (r_xfers r)).
(** An account as a whole. *)
Definition account_eq (a b : gstate) (t : N) : Prop := g_meta a t = g_meta b t /\ forall k, g_ent a t k = g_ent b t k.
(** An answer that refuses: the machine stops, or register 7 gets one of these codes. *)
Definition refused (h : hchange) : Prop := h_exit h <> Continue \/ exists c, In c [WHO; FULL; CORE; CASH; LOW; HUH] /\ h_r7 h = Some c.
(** What the accounts a context shows hold, together with what is on its way. *)
Definition worth (G : gstate) (c : accounts * rest) (v : N) : Prop := exists b, holds (view G (fst c)) b /\ v = b + deferred (snd c).
(** The accounts two contexts show are the same, and so is the rest. *)
Definition looks (G : gstate) (c c' : accounts * rest) : Prop := snd c = snd c' /\ same (view G (fst c)) (view G (fst c')).
