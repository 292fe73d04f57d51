(** What the state manager should be: a committed map, a working map over it, and possibly one prepared map waiting to be applied.
    From the model only the operations, the answers and the trie's [smap], [lists] and [state_root] are used. *)
From Verif Require Import Base Trie_Model Trie_Spec StateCache_Model.
From Coq Require Import Permutation.

Section Spec.
  Context (H : bytes -> bytes) {V : Type} (enc : V -> bytes) (dec : path -> bytes -> option V).
  Notation vmap := (path -> option V).
  (** [touched]: the keys changed since the last commit, rollback or preparation; [raws]: those changed through the raw accessors; [reads]: reads in flight. *)
  Record view := mk_view { committed : vmap; working : vmap; staged : option vmap; touched : list path; raws : list path; reads : list (path * option V) }.
  Definition fresh : view := mk_view (fun _ => None) (fun _ => None) None [] [] [].
  Definition put (m : vmap) (k : path) (o : option V) : vmap := fun x => if list_eq_dec Bool.bool_dec x k then o else m x.
  Definition change (v : view) (k : path) (o : option V) : view := mk_view (committed v) (put (working v) k o) (staged v) (k :: touched v) (raws v) (reads v).
  Definition change_raw (v : view) (k : path) (o : option V) : view := mk_view (committed v) (put (working v) k o) (staged v) (k :: touched v) (k :: raws v) (reads v).
  Definition read_of (l : list (path * option V)) (k : path) : option (option V) := option_map snd (find (fun e => path_eqb (fst e) k) l).
  Definition unread (l : list (path * option V)) (k : path) := filter (fun e => negb (path_eqb (fst e) k)) l.

  Definition next (v : view) (o : op (V := V)) : view :=
    match o with
    | Get _ | GetClean _ | GetRaw _ | ReadRoot | Evict _ => v
    | Add k x => match working v k with None => change v k (Some x) | Some _ => v end
    | Update k f => match working v k with Some x => match f x with Some y => change v k (Some y) | None => v end | None => v end
    | Remove k => match working v k with Some _ => change v k None | None => v end
    | AddRaw k b => match working v k with None => change_raw v k (dec k b) | Some _ => v end
    | UpdateRaw k b => match working v k with Some _ => change_raw v k (dec k b) | None => v end
    | RemoveRaw k => match working v k with Some _ => change_raw v k None | None => v end
    | Commit _ => mk_view (working v) (working v) (staged v) [] [] (reads v)
    | Rollback => mk_view (committed v) (committed v) (staged v) [] [] (reads v)
    | Prepare _ => mk_view (committed v) (committed v) (match touched v with [] => None | _ => Some (working v) end) [] [] (reads v)
    | Apply => match staged v with Some m => mk_view m m None [] [] (reads v) | None => v end
    | Fetch k => mk_view (committed v) (working v) (staged v) (touched v) (raws v) ((k, working v k) :: unread (reads v) k)
    | Fill k => mk_view (committed v) (working v) (staged v) (touched v) (raws v) (unread (reads v) k)
    end.

  Definition encoded (m : vmap) : smap := fun k => option_map enc (m k).
  (** [r] is the Merkle root of the map. *)
  Definition root_of (m : vmap) (r : bytes) : Prop := exists d, lists d (encoded m) /\ r = state_root H d.
  Definition done_if (b : bool) : answer (V := V) := if b then Done else Failed.
  Definition present (o : option V) : bool := match o with Some _ => true | None => false end.
  (** The answer an operation must give. *)
  Definition expects (v : view) (o : op (V := V)) (a : answer (V := V)) : Prop :=
    match o with
    | Get k => a = Value (working v k)
    | GetClean k => a = Value (committed v k)
    | GetRaw k => a = Octets (encoded (working v) k)
    | Add k _ | AddRaw k _ => a = done_if (negb (present (working v k)))
    | Update k f => a = done_if (match working v k with Some x => present (f x) | None => false end)
    | Remove k | UpdateRaw k _ | RemoveRaw k => a = done_if (present (working v k))
    | Commit _ | Rollback | Evict _ | Fetch _ => a = Done
    | Prepare _ => match touched v with [] => a = Root None | _ => exists r, a = Root (Some r) /\ root_of (working v) r end
    | Apply => a = done_if (match staged v with Some _ => true | None => false end)
    | ReadRoot => exists r, a = Root (Some r) /\ root_of (committed v) r
    | Fill k => a = match read_of (reads v) k with Some x => Value x | None => Failed end
    end.
  Fixpoint conforms (v : view) (l : list (op (V := V))) (ans : list (answer (V := V))) : Prop :=
    match l, ans with
    | [], [] => True
    | o :: l', a :: ans' => expects v o a /\ conforms (next v o) l' ans'
    | _, _ => False
    end.

  Definition ok (k : path) (x : V) : Prop := dec k (enc x) = Some x.
  (** A commit of the working map that does not remove every committed key. *)
  Definition keeps (v : view) : Prop := (forall k, committed v k <> None -> working v k <> None) \/ exists k, committed v k <> None /\ working v k <> None.
  Definition a_key (k : path) : Prop := length k = KEY_BITS.
  (** The uses that are covered. Where a use is excluded although callers may make it, a [_refuted] theorem or an example beside the theorem says what happens. *)
  Definition tidy (v : view) (o : op (V := V)) : Prop :=
    match o with
    | Get k => ~ In k (raws v)
    | GetClean k => ~ In k (raws v) /\ (committed v k = None -> working v k = None)
    | Add k x => ~ In k (raws v) /\ a_key k /\ ok k x /\ (committed v k <> None -> working v k <> None)
    | Update k f => ~ In k (raws v) /\ a_key k /\ (forall x y, working v k = Some x -> f x = Some y -> ok k y)
    | Remove k => ~ In k (raws v) /\ a_key k /\ (committed v k = None -> working v k = None)
    | GetRaw k => In k (touched v) -> In k (raws v) /\ working v k <> None
    | AddRaw k b => a_key k /\ (working v k = None <-> committed v k = None) /\ (exists x, dec k b = Some x /\ enc x = b)
    | UpdateRaw k b => a_key k /\ (working v k = None <-> committed v k = None) /\ (exists x, dec k b = Some x /\ enc x = b)
    | RemoveRaw k => a_key k /\ (working v k = None <-> committed v k = None)
    | Commit ord => (forall l, Permutation l (ord l)) /\ keeps v /\ (touched v <> [] -> staged v = None)
    | Prepare ord => (forall l, Permutation l (ord l)) /\ keeps v
    | Apply => touched v = []
    | Evict k => ~ In k (touched v)
    | Fetch k => ~ In k (raws v)
    | Fill k => match read_of (reads v) k with Some x => ~ In k (touched v) /\ working v k = x | None => True end
    | Rollback | ReadRoot => True
    end.
  Fixpoint tidy_run (v : view) (l : list (op (V := V))) : Prop := match l with [] => True | o :: l' => tidy v o /\ tidy_run (next v o) l' end.
  Fixpoint views (v : view) (l : list (op (V := V))) : list view := v :: match l with [] => [] | o :: l' => views (next v o) l' end.
  (** The encodings too long for a leaf that the working map ever holds. *)
  Definition long_values (l : list (op (V := V))) (b : bytes) : Prop :=
    exists v k x, In v (views fresh l) /\ working v k = Some x /\ b = enc x /\ 32 < length b.
End Spec.
