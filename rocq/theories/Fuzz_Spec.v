(** What a fuzz target should answer: the root, or the entries, of the state a block leads to from its own parent's state.
    From the model only the messages, the replies, the outcome of a transition and the maps' [get], [put], [del] are used. *)
From Coq Require Import Sorted.
From Verif Require Import Base Import_Model Fuzz_Model.
Open Scope N_scope.

(** The state after a transition: its changes one after the other. *)
Definition write_one (s : state) (e : N * option bytes) : state := match snd e with Some v => put s (fst e) v | None => del s (fst e) end.
Definition after_changes (s : state) (l : list (N * change)) : state := fold_left (fun s c => write_one s (fst c, value_of (snd c))) l s.
Definition after_accounts (s : state) (o : outcome) : state := after_changes s (concat (o_accounts o)).
Definition after_rest (s : state) (o : outcome) : state := fold_left (fun s e => put s (fst e) (snd e)) (o_rest o) (after_accounts s o).
Definition after (s : state) (o : outcome) : state := after_changes (after_rest s o) (o_preimages o).

(** Changes are what they say: something absent is added, something present is updated or removed. *)
Definition change_fits (s : state) (c : N * change) : Prop :=
  match snd c with Added _ => get s (fst c) = None | Updated _ | Removed => get s (fst c) <> None end.
Fixpoint changes_fit (s : state) (l : list (N * change)) : Prop :=
  match l with [] => True | c :: l' => change_fits s c /\ changes_fit (write_one s (fst c, value_of (snd c))) l' end.
Definition outcome_fits (s : state) (o : outcome) : Prop :=
  NoDup (map fst (concat (o_accounts o))) /\ changes_fit s (concat (o_accounts o)) /\
  (forall e, In e (o_rest o) -> get (after_accounts s o) (fst e) <> None) /\
  changes_fit (after_rest s o) (o_preimages o).
(** The preimages extrinsic adds no entry. *)
Definition no_new_preimage (o : outcome) : Prop := forall c, In c (o_preimages o) -> exists v, snd c = Updated v.
Definition ascending (s : state) : Prop := StronglySorted N.lt (map fst s).

Section Spec.
  Context {R B : Type} (cap : nat) (root : state -> N).
  Notation fblock := (@fblock B).
  Context (exec : R -> option aset -> state -> fblock -> R * option outcome) (ring0 : R).

  (** What is known of a block: the state it leads to, the ring cache and the ancestors its children are checked with, its slot. *)
  Record post := mk_post { p_state : state; p_ring : R; p_anc : aset; p_slot : N }.
  (** The latest block without rivals, the blocks over it, and all that is known, by header hash. *)
  Record forest := mk_forest { tip : N; kids : list N; posts : N -> option post }.
  Definition learn (f : N -> option post) (h : N) (p : post) : N -> option post := fun x => if x =? h then Some p else f x.

  (** Executing a block over its parent. *)
  Definition child (ancestors : bool) (q : post) (b : fblock) : option post :=
    if (p_slot q <? fb_slot b) && (fb_root b =? root (p_state q)) && fb_xt b then
      match exec (p_ring q) (if ancestors then Some (p_anc q) else None) (p_state q) b with
      | (r, Some o) => Some (mk_post (after (p_state q) o) r (an_add cap (p_anc q) (fb_slot b, fb_hash b)) (fb_slot b))
      | _ => None
      end
    else None.
  (** A block over the tip, or over one of the blocks above it, which then becomes the tip. *)
  Definition settle (f : forest) (p : N) : forest := if existsb (N.eqb p) (kids f) then mk_forest p [] (posts f) else f.
  Definition grow (forking ancestors : bool) (f : forest) (b : fblock) : forest * reply :=
    let f := settle f (fb_parent b) in
    match (if fb_parent b =? tip f then match posts f (tip f) with Some q => child ancestors q b | None => None end else None) with
    | None => (f, Failed)
    | Some q => ((if forking then mk_forest (tip f) (fb_hash b :: kids f) (learn (posts f) (fb_hash b) q)
                  else mk_forest (fb_hash b) [] (learn (posts f) (fb_hash b) q)), Root (root (p_state q)))
    end.
  Definition known (f : forest) (h : N) : Prop := h = tip f \/ In h (kids f).

  Definition planted (ancestors : bool) (hash slot : N) (kvs : list (N * bytes)) (ancestry : list (N * N)) : forest :=
    let s := fold_left (fun s e => put s (fst e) (snd e)) kvs [] in
    mk_forest hash [] (fun x => if x =? hash then Some (mk_post s ring0 (if ancestors then fold_left (an_add cap) ancestry (mk_aset [] []) else mk_aset [] []) slot) else None).
  Inductive request := Import (b : fblock) | Get (h : N).
  Definition message_of (q : request) : message := match q with Import b => ImportBlock b | Get h => GetState h end.
  (** The states of the forest along a list of requests. *)
  Fixpoint grown (forking ancestors : bool) (f : forest) (l : list request) : forest :=
    match l with [] => f | Import b :: l' => grown forking ancestors (fst (grow forking ancestors f b)) l' | Get _ :: l' => grown forking ancestors f l' end.

  (** The replies to imports are right whatever is said to the other requests. *)
  Fixpoint imports_right (forking ancestors : bool) (f : forest) (l : list request) (rs : list reply) : Prop :=
    match l, rs with
    | [], [] => True
    | Import b :: l', r :: rs' => r = snd (grow forking ancestors f b) /\ imports_right forking ancestors (fst (grow forking ancestors f b)) l' rs'
    | Get _ :: l', State _ :: rs' => imports_right forking ancestors f l' rs'
    | _, _ => False
    end.
  (** Each state told of a known block satisfies a relation to that block's state. *)
  Fixpoint states_are (is : state -> state -> Prop) (forking ancestors : bool) (f : forest) (l : list request) (rs : list reply) : Prop :=
    match l, rs with
    | [], [] => True
    | Import b :: l', _ :: rs' => states_are is forking ancestors (fst (grow forking ancestors f b)) l' rs'
    | Get h :: l', State s :: rs' => (forall p, known f h -> posts f h = Some p -> is s (p_state p)) /\ states_are is forking ancestors f l' rs'
    | _, _ => False
    end.
  Definition proper (q : request) : Prop := match q with Import b => fb_parent b <> 0 /\ fb_hash b <> fb_parent b | Get _ => True end.
  Definition lawful : Prop := forall r a s b r' o, ascending s -> exec r a s b = (r', Some o) -> outcome_fits s o.
  Definition adds_no_preimage (l : list request) : Prop := forall b, In (Import b) l -> forall r a s r' o, exec r a s b = (r', Some o) -> no_new_preimage o.
End Spec.
Arguments Import {B}. Arguments Get {B}.
Definition exactly (s s' : state) : Prop := s = s'.
(** Entries of the state, in order, but perhaps not all. *)
Definition part_of (s s' : state) : Prop := ascending s /\ forall k v, In (k, v) s -> get s' k = Some v.
