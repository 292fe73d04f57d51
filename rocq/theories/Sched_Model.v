(** Model of the concurrent execution of state transitions: tokio tasks sharing one state manager (node/src/roles/executor.rs),
    each access to the manager's cache (state/src/manager.rs:894-1019, state/src/cache.rs:110-162) split into the steps between which another
    task can run: a lookup in the cache, a read of the database, an insertion into the dirty-key set, an insertion into the cache.
    Simplifications: a task's own computation between accesses takes no step (it touches nothing shared); the database does not change while a
    block executes (it is written at the commit) and its reads succeed; all components have one type of values [V]; the raw entries of the
    test harness are left out; a closure that fails leaves no trace (it works on a clone, cache.rs:136-146). *)
From Verif Require Import Base.

Section Sched.
  Context {K V A : Type} (eqk : forall a b : K, {a = b} + {a <> b}).

  (** cache.rs:19-34; [Clean], or [Dirty] with the kind of change *)
  Inductive kind := KClean | KAdd | KUpdate | KRemove.
  (** state/src/cache.rs:26-33. *)
  Record entry := mk_entry { e_snap : V; e_value : V; e_kind : kind }.
  (** cache.rs:65-70: the cache and the dirty keys; the database is a parameter of [step] *)
  Record store := mk_store { cached : K -> option entry; dirty : K -> bool }.
  (** A write to the concurrent map of state/src/cache.rs:65-70. *)
  Definition upd {B} (m : K -> B) (k : K) (x : B) : K -> B := fun j => if eqk j k then x else m j.

  (** What a task does with the manager: manager.rs get, get_clean, with_mut (update or remove), add; then it goes on with the answer. [false] is any error. The accessors at state/src/manager.rs:612-623, 894-1019. *)
  Inductive prog :=
  | Ret (a : A)
  | Get (k : K) (c : option V -> prog)
  | GetClean (k : K) (c : option V -> prog)
  | Mut (k : K) (remove : bool) (f : V -> option V) (c : bool -> prog)
  | Add (k : K) (v : V) (c : bool -> prog).

  (** The same, as steps that nothing can interrupt. The awaits and map accesses of state/src/manager.rs:894-1019 and state/src/cache.rs:110-162. *)
  Inductive micro :=
  | Done (a : A)
  | Look (k : K) (c : option entry -> micro)
  | Read (k : K) (c : option V -> micro)
  | Mark (k : K) (c : micro)
  | Put (k : K) (e : entry) (c : micro).

  (** cache.rs:36-43 *)
  Definition clean_entry (v : V) : entry := mk_entry v v KClean.
  (** manager.rs:910-914 and 947-951: after a miss, read the database and insert what it holds as a clean entry *)
  Definition fill (k : K) (c : option V -> micro) (o : option V) : micro := match o with None => c None | Some v => Put k (clean_entry v) (c (Some v)) end.
  (** manager.rs:917-952 *)
  Definition get_steps (k : K) (c : option V -> micro) : micro :=
    Look k (fun o => match o with
                     | Some e => match e_kind e with KRemove => c None | _ => c (Some (e_value e)) end
                     | None => Read k (fill k c)
                     end).
  (** manager.rs:612-623, 894-915 *)
  Definition get_clean_steps (k : K) (c : option V -> micro) : micro :=
    Look k (fun o => match o with Some e => c (Some (e_snap e)) | None => Read k (fill k c) end).
  (** cache.rs:122-162 *)
  Definition mut_entry_steps (k : K) (remove : bool) (f : V -> option V) (c : bool -> micro) : micro :=
    Look k (fun o => match o with
                     | None => c false
                     | Some e =>
                         match f (e_value e) with
                         | None => c false
                         | Some v =>
                             match e_kind e, remove with
                             | KAdd, false => Put k (mk_entry (e_snap e) v KAdd) (c true)
                             | _, _ => Mark k (Put k (mk_entry (e_snap e) v (if remove then KRemove else KUpdate)) (c true))
                             end
                         end
                     end).
  (** manager.rs:954-982 *)
  Definition mut_steps (k : K) (remove : bool) (f : V -> option V) (c : bool -> micro) : micro :=
    get_steps k (fun o => match o with None => c false | Some _ => mut_entry_steps k remove f c end).
  (** manager.rs:984-1019, cache.rs:110-115 *)
  Definition add_steps (k : K) (v : V) (c : bool -> micro) : micro :=
    get_steps k (fun o => match o with Some _ => c false | None => Mark k (Put k (mk_entry v v KAdd) (c true)) end).
  (** state/src/manager.rs:894-1019. *)
  Fixpoint steps (p : prog) : micro :=
    match p with
    | Ret a => Done a
    | Get k c => get_steps k (fun o => steps (c o))
    | GetClean k c => get_clean_steps k (fun o => steps (c o))
    | Mut k r f c => mut_steps k r f (fun b => steps (c b))
    | Add k v c => add_steps k v (fun b => steps (c b))
    end.

  (** One step of one task. state/src/manager.rs:894-1019, state/src/cache.rs:110-162. *)
  Definition micro_step (db : K -> option V) (s : store) (m : micro) : store * micro :=
    match m with
    | Done a => (s, Done a)
    | Look k c => (s, c (cached s k))
    | Read k c => (s, c (db k))
    | Mark k c => (mk_store (cached s) (upd (dirty s) k true), c)
    | Put k e c => (mk_store (upd (cached s) k (Some e)) (dirty s), c)
    end.
  (** The tasks of node/src/roles/executor.rs:104-330 in a list; the model's own. *)
  Fixpoint replace (l : list micro) (i : nat) (x : micro) : list micro :=
    match l, i with
    | [], _ => []
    | _ :: l', O => x :: l'
    | y :: l', S i' => y :: replace l' i' x
    end.
  (** What the scheduler and the cache library may do: let a task take a step, or drop a clean entry (cache.rs:74-82: dirty entries weigh nothing and stay). *)
  Inductive event := Run (i : nat) | Evict (k : K).
  (** state/src/cache.rs:45-47. *)
  Definition is_clean (o : option entry) : bool := match o with Some e => match e_kind e with KClean => true | _ => false end | None => false end.
  (** The runtime of the tasks of node/src/roles/executor.rs:104-330. *)
  Definition event_step (db : K -> option V) (w : store * list micro) (e : event) : store * list micro :=
    let (s, ts) := w in
    match e with
    | Run i => match nth_error ts i with Some m => let (s', m') := micro_step db s m in (s', replace ts i m') | None => (s, ts) end
    | Evict k => (if is_clean (cached s k) then mk_store (upd (cached s) k None) (dirty s) else s, ts)
    end.
  (** The runtime of the tasks of node/src/roles/executor.rs:104-330. *)
  Definition run (db : K -> option V) (w : store * list micro) (l : list event) : store * list micro := fold_left (event_step db) l w.
  (** All tasks have returned; their answers. Joining the tasks: node/src/roles/executor.rs:152, 233, 317. *)
  Fixpoint results (ts : list micro) : option (list A) :=
    match ts with
    | [] => Some []
    | Done a :: l => option_map (cons a) (results l)
    | _ => None
    end.

  (** executor.rs: a block executes as stages; a stage spawns its tasks and joins them, and what comes next may depend on what they returned. node/src/roles/executor.rs:104-330. *)
  Inductive flow := End | Stage (tasks : list prog) (next : list A -> flow).
  (** [executes db s f s' rs]: some schedule runs the stages of [f] from [s] to [s'], with these answers. The runtime of the stages of node/src/roles/executor.rs:104-330. *)
  Inductive executes (db : K -> option V) (allowed : list prog -> list event -> Prop) : store -> flow -> store -> list (list A) -> Prop :=
  | ex_end : forall s, executes db allowed s End s []
  | ex_stage : forall s tasks next l s1 ts r s2 rs,
      allowed tasks l -> run db (s, map steps tasks) l = (s1, ts) -> results ts = Some r -> executes db allowed s1 (next r) s2 rs ->
      executes db allowed s (Stage tasks next) s2 (r :: rs).
End Sched.
Arguments prog K V A : clear implicits.
Arguments micro K V A : clear implicits.
Arguments entry V : clear implicits.
Arguments store K V : clear implicits.
Arguments event K : clear implicits.
Arguments flow K V A : clear implicits.
