(** What one service's accumulation is, in terms of its host calls. *)
From Verif Require Import Base PvmMem_Model PvmProg_Model PvmStep_Model PvmInit_Model Codec_Model Sandbox_Model Sandbox_Spec Host_Model Host_Spec Acc_Model.
Open Scope N_scope.

(** A call that sets the checkpoint. *)
Definition is_point (x : N * vm) : bool := (fst x =? 17) && (10 <=? v_gas (snd x))%Z.
(** The context to go back to after the calls [l] from [c]: the one at the last checkpoint, or [c]. *)
Definition fallback {A} (do : A -> sop -> A * sout) (e : env) (l : list (N * vm)) (c y : A * rest) : Prop :=
  (existsb is_point l = false /\ y = c) \/
  exists l1 s l2 hs z, l = l1 ++ (17, s) :: l2 /\ is_point (17, s) = true /\ existsb is_point l2 = false /\ host_calls do e l1 (c, c) = Ok (hs, (y, z)).
(** The accounts with the received transfers. *)
Definition received (w : gstate) (t recv : N) : gstate :=
  with_meta w t (option_map (fun m => set_balance m (m_balance m + recv)) (g_meta w t)).
(** The code of a service: what follows the metadata in the preimage of its code hash. *)
Definition has_code (w : gstate) (t : N) (code : bytes) : Prop :=
  exists m md, g_meta w t = Some m /\ g_ent w t (KPreimage (m_code m)) = Some (integer_encode (N.of_nat (length md)) ++ md ++ code).

(** The program's run with its host calls written down. *)
Definition noted {C} (h : N -> vm -> C -> result verr (hchange * C)) (n : N) (s : vm) (c : C * list (N * vm)) : result verr (hchange * (C * list (N * vm))) :=
  let! (r, d) := h n s (fst c) in Ok (r, (d, snd c ++ [(n, s)])).
(** Where the search for the first id starts. *)
Definition first (e : env) (t : N) (entropy : bytes) : N :=
  65536 + le_val (firstn 4 (e_hash e (integer_encode t ++ entropy ++ integer_encode (e_now e)))) mod (2 ^ 32 - 2 ^ 16 - 2 ^ 8).
(** Everything in order, and some id left. *)
Definition settled (e : env) (w : gstate) (t : N) : Prop := exists p i, tidy e (w, mk_rest t p i [] None []).
(** A fresh context for [t] over the accounts [w]. *)
Definition fresh (G : gstate) (e : env) (w : gstate) (t : N) (p : priv) (entropy : bytes) (c : accounts * rest) : Prop :=
  same (view G (fst c)) w /\ exists i, first_free w (first e t entropy) i /\ snd c = mk_rest t p i [] None [].
(** What an accumulation that ended with [o] and contexts [x] and [y] gives: [x] after a regular end, [y] otherwise. *)
Definition result_from (o : output) (x y : accounts * rest) : accounts * rest := match o with Output _ | OutputUnavailable => x | _ => y end.
Definition yield_from (o : output) (x y : accounts * rest) : option bytes :=
  match o with Output b => if (length b =? 32)%nat then Some b else r_yield (snd x) | _ => r_yield (snd (result_from o x y)) end.
(** The sandbox and the context in which the program [code] of [t] starts: after the lookup of [t], the receipt and the lookup of the code. *)
Definition opening (G : gstate) (sb : accounts) (t recv : N) : accounts * result verr (option bytes) :=
  let sb := fst (exec (Sandbox_Model.step G) (active_of t) sb) in
  let sb := if 0 <? recv then fst (exec (Sandbox_Model.step G) (try (Change t (fun m => if m_balance m + recv <? 2 ^ 64 then Some (set_balance m (m_balance m + recv)) else None))) sb) else sb in
  exec (Sandbox_Model.step G) (code_prog t) sb.
Definition begun (G : gstate) (e : env) (sb : accounts) (p : priv) (t recv : N) (entropy code : bytes) (c0 : accounts * rest) : Prop :=
  exists sb', opening G sb t recv = (sb', Ok (Some code)) /\ new_context G e sb' p t entropy = Ok c0.
