(** What concurrent execution should amount to: tasks run one after the other over a map of components.
    From the model only the programs of tasks and the store they share are used. *)
From Verif Require Import Base Sched_Model.

Section Spec.
  Context {K V A : Type} (eqk : forall a b : K, {a = b} + {a <> b}).
  (** What a block has done to a component so far. *)
  Inductive change := Kept | Added (v : V) | Updated (v : V) | Removed.
  (** [prior]: the component as the block found it (for one the block itself added: as it was added); [so_far]: what the block has done to it. *)
  Record view := mk_view { prior : K -> option V; so_far : K -> change }.
  Definition now (v : view) (k : K) : option V :=
    match so_far v k with Kept => prior v k | Added x | Updated x => Some x | Removed => None end.
  Definition set {B} (m : K -> B) (k : K) (x : B) : K -> B := fun j => if eqk j k then x else m j.
  Definition update (v : view) (k : K) (x : V) : view :=
    mk_view (prior v) (set (so_far v) k match so_far v k with Added _ => Added x | _ => Updated x end).
  Definition remove (v : view) (k : K) : view := mk_view (prior v) (set (so_far v) k Removed).
  Definition create (v : view) (k : K) (x : V) : view := mk_view (set (prior v) k (Some x)) (set (so_far v) k (Added x)).

  (** A task running with nothing beside it. *)
  Fixpoint alone (p : prog K V A) (v : view) : view * A :=
    match p with
    | Ret a => (v, a)
    | Get k c => alone (c (now v k)) v
    | GetClean k c => alone (c (prior v k)) v
    | Mut k r f c =>
        match now v k with
        | None => alone (c false) v
        | Some x => match f x with
                    | None => alone (c false) v
                    | Some y => alone (c true) (if r then remove v k else update v k y)
                    end
        end
    | Add k x c => match now v k with Some _ => alone (c false) v | None => alone (c true) (create v k x) end
    end.
  (** Tasks one after the other, in the order they are written. *)
  Fixpoint in_order (l : list (prog K V A)) (v : view) : view * list A :=
    match l with
    | [] => (v, [])
    | p :: l' => let (v1, a) := alone p v in let (v2, r) := in_order l' v1 in (v2, a :: r)
    end.
  Fixpoint stages_in_order (f : flow K V A) (v : view) : view * list (list A) :=
    match f with
    | End => (v, [])
    | Stage l next => let (v1, r) := in_order l v in let (v2, rs) := stages_in_order (next r) v1 in (v2, r :: rs)
    end.

  (** The manager holds this view over this database: what it would answer, and what it would commit. *)
  Definition represents (db : K -> option V) (s : store K V) (v : view) : Prop :=
    forall k,
      match cached s k with
      | None => so_far v k = Kept /\ prior v k = db k
      | Some e => prior v k = Some (e_snap e) /\
                  match e_kind e with
                  | KClean => so_far v k = Kept /\ e_value e = e_snap e /\ db k = Some (e_snap e)
                  | KAdd => so_far v k = Added (e_value e)
                  | KUpdate => so_far v k = Updated (e_value e)
                  | KRemove => so_far v k = Removed
                  end
      end /\ (dirty s k = true <-> so_far v k <> Kept).

  (** The accesses a task can come to make. *)
  Inductive within : prog K V A -> prog K V A -> Prop :=
  | in_here : forall p, within p p
  | in_get : forall q k c o, within q (c o) -> within q (Get k c)
  | in_clean : forall q k c o, within q (c o) -> within q (GetClean k c)
  | in_mut : forall q k r f c b, within q (c b) -> within q (Mut k r f c)
  | in_add : forall q k x c b, within q (c b) -> within q (Add k x c).
  Definition adds (p : prog K V A) (k : K) : Prop := exists x c, within (Add k x c) p.
  Definition changes (p : prog K V A) (k : K) : Prop := (exists r f c, within (Mut k r f c) p) \/ adds p k.
  Definition reads (p : prog K V A) (k : K) : Prop := exists c, within (Get k c) p.
  Definition reads_clean (p : prog K V A) (k : K) : Prop := exists c, within (GetClean k c) p.
  (** A task that changes [k] only by updates that leave this part of it alone; a task whose reads of [k] use only that part. *)
  Definition keeps_part {P} (part : V -> P) (p : prog K V A) (k : K) : Prop :=
    forall r f c, within (Mut k r f c) p -> r = false /\ forall x y, f x = Some y -> part y = part x.
  Definition uses_part {P} (part : V -> P) (p : prog K V A) (k : K) : Prop :=
    forall c, within (Get k c) p -> forall x y, part x = part y -> c (Some x) = c (Some y).

  (** Tasks that do not disturb each other: every component has at most one task that changes it, and another task only reads it as the block found
      it, or uses only a part that does not change; and then the component is one the manager has in its cache before the tasks start ([ready]). *)
  Definition apart {P} (part : K -> V -> P) (owner : K -> option nat) (tasks : list (prog K V A)) (ready : K -> Prop) : Prop :=
    (forall i p k, nth_error tasks i = Some p -> changes p k -> owner k = Some i) /\
    (forall i j p q k, nth_error tasks i = Some p -> nth_error tasks j = Some q -> i <> j -> owner k = Some i -> reads q k ->
       keeps_part (part k) p k /\ uses_part (part k) q k /\ ~ adds p k /\ ready k) /\
    (forall i j p q k, nth_error tasks i = Some p -> nth_error tasks j = Some q -> i <> j -> owner k = Some i -> reads_clean q k -> ~ adds p k /\ ready k).
  (** The cache drops nothing the tasks change while they run. *)
  Definition calm (tasks : list (prog K V A)) (l : list (event K)) : Prop := forall k p, In (Evict k) l -> In p tasks -> ~ changes p k.

  (** Stages whose tasks do not disturb each other; from the second on, what is shared is something the block has already changed. *)
  Fixpoint apart_from {P} (part : K -> V -> P) (f : flow K V A) (v : view) : Prop :=
    match f with
    | End => True
    | Stage l next => (exists owner, apart part owner l (fun k => so_far v k <> Kept)) /\ apart_from part (next (snd (in_order l v))) (fst (in_order l v))
    end.
End Spec.
Arguments change V : clear implicits.
Arguments view K V : clear implicits.
