(** Specification vocabulary for C19-C22. *)
From Verif Require Import Base Queue_Model.

(** The last [n] elements. *)
Definition lastn {A} (n : nat) (l : list A) : list A := skipn (length l - n) l.

(** ** C19 *)
Fixpoint remove_first (x : N) (l : list N) : list N :=
  match l with [] => [] | y :: l' => if N.eq_dec y x then l' else y :: remove_first x l' end.
(** The pool without the authorizer the block used on the core, if it used one. *)
Definition after_use (guarantees : list guar) (core : nat) (pool : list N) : list N :=
  match filter (fun g => Nat.eqb (g_core g) core) guarantees with
  | g :: _ => remove_first (g_auth g) pool
  | [] => pool
  end.
(** The queue entry of the slot, as a list of at most one element. *)
Definition queue_entry (Q : nat) (queue : list (list N)) (core : nat) (slot : N) : list N :=
  match nth_error queue core with
  | Some cq => match nth_error cq (N.to_nat slot mod Q) with Some x => [x] | None => [] end
  | None => []
  end.
(** A history of blocks: guarantees, queue and slot of each. *)
Inductive pool_chain (P Q : nat) (pools0 : list (list N)) : list (list guar * list (list N) * N) -> list (list N) -> Prop :=
| pc_nil : pool_chain P Q pools0 [] pools0
| pc_snoc : forall bs pools g q slot pools', pool_chain P Q pools0 bs pools ->
    transition_auth_pool P Q g q slot pools = Ok pools' -> pool_chain P Q pools0 (bs ++ [(g, q, slot)]) pools'.

(** ** C20 *)
(** [waiting available queue hist r ds]: report r waits for exactly the packages ds, either since an earlier block (it is in
    the queue) or from this block on (it is newly available, has dependencies and was not accumulated recently). *)
Inductive waiting (available : list report) (queue : list (list entry)) (hist : list (list N)) (r : report) (ds : list N) : Prop :=
| w_queued : forall slot_entries, In slot_entries queue -> In (r, ds) slot_entries -> waiting available queue hist r ds
| w_new : In r available -> rp_pre r ++ rp_look r <> [] -> ~ In (rp_pkg r) (concat hist) ->
    (forall d, In d ds <-> In d (rp_pre r ++ rp_look r) /\ ~ In d (concat hist)) ->
    waiting available queue hist r ds.

(** Chains of blocks, with the reports each one accumulated. *)
Inductive achain (E : N) (s0 : astate) : list (ablock * list report) -> astate -> Prop :=
| ac_nil : achain E s0 [] s0
| ac_snoc : forall log s b s' acc, achain E s0 log s -> (as_slot s < ab_slot b)%N -> astep E s b = Ok (s', acc) -> achain E s0 (log ++ [(b, acc)]) s'.
(** All reports accumulated by a chain, in order. *)
Definition accumulated (log : list (ablock * list report)) : list report := concat (map snd log).
(** A newly available package is neither queued nor recently accumulated, and comes once (what guarantee validation checks). *)
Definition fresh_available (s : astate) (b : ablock) : Prop :=
  NoDup (pkgs (ab_available b)) /\
  forall p, In p (pkgs (ab_available b)) ->
    ~ In p (concat (as_hist s)) /\ ~ In p (pkgs (map fst (concat (as_queue s)))).
Inductive fresh_chain (E : N) (s0 : astate) : astate -> Prop :=
| fc_nil : fresh_chain E s0 s0
| fc_snoc : forall s b s' acc, fresh_chain E s0 s -> (as_slot s < ab_slot b)%N -> fresh_available s b -> astep E s b = Ok (s', acc) -> fresh_chain E s0 s'.

(** ** C21 *)
(** The queue entry of an absolute slot. *)
Definition entry_at (E : N) (queue : list (list entry)) (x : Z) : list entry := nth (Z.to_nat (x mod Z.of_N E)) queue [].
(** [e] with accumulated packages gone: reports accumulated, and dependencies on accumulated packages. *)
Definition without (acc : list N) (es es' : list entry) : Prop :=
  exists kept, es' = map (fun e => (fst e, filter (fun d => if in_dec N.eq_dec d acc then false else true) (snd e))) kept /\
    kept = filter (fun e => if in_dec N.eq_dec (rp_pkg (fst e)) acc then false else true) es.
(** A chain of queue updates: slot, newly queued reports and accumulated packages of each block. *)
Inductive qchain (E : N) (t0 : N) (q0 : list (list entry)) : list (N * list entry * list N) -> N -> list (list entry) -> Prop :=
| qc_nil : qchain E t0 q0 [] t0 q0
| qc_snoc : forall log t q t' queued h acc q', qchain E t0 q0 log t q -> (t < t')%N ->
    transition_accumulate_queue E queued t t' (h ++ [acc]) q = Ok q' -> qchain E t0 q0 (log ++ [(t', queued, acc)]) t' q'.
(** What slot [x] should hold after the updates [log], when it held [es] before them. *)
Inductive content (x : Z) : list entry -> list (N * list entry * list N) -> list entry -> Prop :=
| co_nil : forall es, content x es [] es
| co_other : forall es es1 es' t queued acc log, Z.of_N t <> x -> without acc es es1 -> content x es1 log es' ->
    content x es ((t, queued, acc) :: log) es'
| co_self : forall es es1 es' t queued acc log, Z.of_N t = x -> without acc queued es1 -> content x es1 log es' ->
    content x es ((t, queued, acc) :: log) es'.
