(** What a sandbox stands for: every operation done at once to the accounts themselves. *)
From Verif Require Import Base Sandbox_Model.
From Coq Require Import Permutation.

Definition same (a b : gstate) : Prop := (forall s, g_meta a s = g_meta b s) /\ (forall s k, g_ent a s k = g_ent b s k).
Definition has (w : gstate) (s : N) : Prop := g_meta w s <> None.
(** No account, no entries. *)
Definition proper (w : gstate) : Prop := forall s, g_meta w s = None -> forall k, g_ent w s k = None.

Definition with_meta (w : gstate) (s : N) (m : option meta) : gstate := mk_g (fun x => if N.eqb x s then m else g_meta w x) (g_ent w).
Definition with_ent (w : gstate) (s : N) (k : ekey) (v : option (list N)) : gstate :=
  mk_g (g_meta w) (fun x y => if N.eqb x s then if ekey_eq y k then v else g_ent w x y else g_ent w x y).
(** Everything of [s] away. *)
Definition without (w : gstate) (s : N) : gstate := mk_g (fun x => if N.eqb x s then None else g_meta w x) (fun x y => if N.eqb x s then None else g_ent w x y).
Definition is_some {A} (o : option A) : bool := match o with Some _ => true | None => false end.

Definition next (w : gstate) (o : sop) : gstate * sout :=
  match o with
  | Exists s | Active s => (w, Bool (is_some (g_meta w s)))
  | Meta s => (w, MetaIs (g_meta w s))
  | Change s f => match g_meta w s with
                  | Some m => match f m with Some m' => (with_meta w s (Some m'), Done) | None => (w, Failed) end
                  | None => (w, Failed)
                  end
  | Get s k => (w, ValueIs (g_ent w s k))
  | Put s k v => (with_ent w s k (Some v), ValueIs (g_ent w s k))
  | Del s k => (with_ent w s k None, Done)
  | Push s h len ts => match g_ent w s (KLookup h len) with
                       | Some l => if (length l + length ts <=? 3)%nat then (with_ent w s (KLookup h len) (Some (l ++ ts)), Done) else (w, Failed)
                       | None => (w, Failed)
                       end
  | Drain s h len => match g_ent w s (KLookup h len) with Some _ => (with_ent w s (KLookup h len) (Some []), Done) | None => (w, Failed) end
  | Eject s h len => (without w s, Done)
  | New s m h len => (with_ent (with_meta (without w s) s (Some m)) s (KLookup h len) (Some []), Done)
  end.
Fixpoint runs (w : gstate) (os : list sop) : gstate * list sout :=
  match os with [] => (w, []) | o :: os => let '(w, r) := next w o in let '(w, rs) := runs w os in (w, r :: rs) end.

(** The use of a sandbox. Only accounts that are there are written to. An account is ejected when its only entries are the named request and the preimage of that
    hash, and, unless it is new, before its metadata is changed ([changed] lists the accounts whose metadata was). A new account's id is not one of [G]. *)
Definition allowed (G : gstate) (changed : list N) (w : gstate) (o : sop) : Prop :=
  match o with
  | Put s _ _ => has w s
  | Eject s h len => has w s /\ (forall k, k <> KLookup h len -> k <> KPreimage h -> g_ent w s k = None) /\ (has G s -> ~ In s changed)
  | New s _ _ _ => ~ has G s
  | _ => True
  end.
Definition changes (o : sop) : list N := match o with Change s _ => [s] | _ => [] end.
Fixpoint all_allowed (G : gstate) (changed : list N) (w : gstate) (os : list sop) : Prop :=
  match os with [] => True | o :: os => allowed G changed w o /\ all_allowed G (changes o ++ changed) (fst (next w o)) os end.

(** The same sandbox with its maps iterated in another order *)
Definition reordered (a b : accounts) : Prop :=
  exists c, Permutation a c /\ Forall2 (fun x y => fst x = fst y /\ b_md (snd x) = b_md (snd y) /\ Permutation (b_ent (snd x)) (b_ent (snd y))) c b.

(** ** The accounts a sandbox shows *)
Definition vmeta (G : gstate) (sb : accounts) (s : N) : option meta := match aget sb s with Some b => se_val (b_md b) | None => g_meta G s end.
Definition vent_in (m : list (ekey * sentry (list N))) (g : ekey -> option (list N)) (k : ekey) : option (list N) :=
  match eget m k with Some e => se_val e | None => g k end.
Definition vent (G : gstate) (sb : accounts) (s : N) (k : ekey) : option (list N) :=
  match aget sb s with Some b => vent_in (b_ent b) (g_ent G s) k | None => g_ent G s k end.
Definition view (G : gstate) (sb : accounts) : gstate := mk_g (vmeta G sb) (vent G sb).

(** A sandbox over [G] as the operations leave it: what an entry remembers of the state is what the state holds, a changed account is one of [ch], and so on. *)
Definition ent_ok (g : option (list N)) (e : sentry (list N)) : Prop :=
  clean_of e = g /\
  match se_status e with
  | Clean => se_val e <> None
  | Added => se_val e <> None /\ g = None
  | Updated => se_val e <> None /\ g <> None
  | Removed => se_val e = None /\ g <> None
  end.
Definition ents_ok (g : ekey -> option (list N)) (m : list (ekey * sentry (list N))) : Prop :=
  NoDup (map fst m) /\ forall k e, eget m k = Some e -> ent_ok (g k) e.
Definition md_ok (ch : list N) (s : N) (g : option meta) (e : sentry meta) : Prop :=
  match se_status e with
  | Clean => se_val e = g /\ g <> None
  | Added => se_val e <> None /\ g = None /\ se_clean e = None
  | Updated => se_val e <> None /\ g <> None /\ In s ch
  | Removed => se_val e = None /\ g <> None
  end.
Definition asb_ok (G : gstate) (ch : list N) (s : N) (b : asb) : Prop := md_ok ch s (g_meta G s) (b_md b) /\ ents_ok (g_ent G s) (b_ent b).
Definition sb_ok (G : gstate) (ch : list N) (sb : accounts) : Prop :=
  NoDup (map fst sb) /\ forall s b, aget sb s = Some b -> asb_ok G ch s b.

