(** The driver that replays a directory of test cases against a fuzz target: fuzz/src/fuzzer.rs. The target at the other end of the socket is any machine that answers messages; a reply
    that does not come (timeout, closed connection, octets that are no message) is [NoReply]. The codecs of the files are parameters; C92 is about those of the messages.
    Not modelled: starting the target and waiting for its socket (fuzzer.rs:252-277), durations, what is printed. *)
From Verif Require Import Base.

Section Trace.
  Context {Hdr Blk St Root T : Type} (root_eqb : Root -> Root -> bool) (hdr : Blk -> Hdr).
  (** test-utils/src/importer_harness.rs:47-51: GenesisBlockTestCase (the states with their roots). *)
  Record gcase := mk_gcase { gc_header : Hdr; gc_state : St; gc_root : Root }.
  (** test-utils/src/importer_harness.rs:40-45: TestCase. *)
  Record tcase := mk_tcase { tc_pre_root : Root; tc_block : Blk; tc_post : St; tc_post_root : Root }.
  Context (dec_genesis : bytes -> option gcase) (dec_case : bytes -> option tcase).
  (** fuzz/src/types.rs:239-247: what the driver sends. *)
  Inductive tmsg := SendPeerInfo | SendInit (h : Hdr) (s : St) | SendBlock (b : Blk) | SendGetState (b : Blk).
  (** fuzz/src/types.rs:239-247: what comes back, fuzzer.rs:115-159. *)
  Inductive trep := GotPeerInfo | GotRoot (r : Root) | GotState | GotError (e : bytes) | NoReply.
  Context (tgt : T -> tmsg -> T * trep).
  (** fuzzer.rs:42-92 *)
  Inductive trerr := BadFile (name : bytes) | TooFewCases | BadHandshake | BadInit | InitRootDiffers | BadReply (name : bytes) | Rejected (name : bytes) | RootDiffers (name : bytes).

  (** fuzzer.rs:174-177: [Path::extension] is "bin": the name ends in ".bin" and has something before it. *)
  Definition is_bin (n : bytes) : bool := if list_eq_dec N.eq_dec (skipn (length n - 4) n) [46; 98; 105; 110]%N then Nat.ltb 4 (length n) else false.
  (** "genesis.bin", fuzzer.rs:183 *)
  Definition genesis_name : bytes := [103; 101; 110; 101; 115; 105; 115; 46; 98; 105; 110]%N.
  (** Byte order of file names in one directory, as [PathBuf] orders them: fuzzer.rs:178. *)
  Fixpoint name_leb (a b : bytes) : bool :=
    match a, b with [], _ => true | _ :: _, [] => false | x :: a', y :: b' => if (x <? y)%N then true else if (y <? x)%N then false else name_leb a' b' end.
  (** A directory entry: its name and its octets, if it can be read. fuzzer.rs:174-176 *)
  Definition file : Type := (bytes * option bytes)%type.
  (** bin_files.sort(), fuzzer.rs:178 *)
  Fixpoint file_insert (f : file) (l : list file) : list file := match l with [] => [f] | g :: r => if name_leb (fst f) (fst g) then f :: l else g :: file_insert f r end.
  (** fuzzer.rs:178 *)
  Definition file_sort (l : list file) : list file := fold_right file_insert [] l.
  (** fuzzer.rs:180-195 *)
  Fixpoint load_files (l : list file) (g : option (bytes * gcase)) (cs : list (bytes * tcase)) : result trerr (option (bytes * gcase) * list (bytes * tcase)) :=
    match l with
    | [] => Ok (g, cs)
    | (n, c) :: r =>
        if list_eq_dec N.eq_dec n genesis_name
        then match c with Some b => match dec_genesis b with Some x => load_files r (Some (n, x)) cs | None => Err (BadFile n) end | None => Err (BadFile n) end
        else match c with Some b => match dec_case b with Some x => load_files r g (cs ++ [(n, x)]) | None => Err (BadFile n) end | None => Err (BadFile n) end
    end.
  (** fuzzer.rs:173-198; [dir]: the entries in the order the file system lists them. *)
  Definition load_trace_suite (dir : list file) : result trerr (option (bytes * gcase) * list (bytes * tcase)) :=
    load_files (file_sort (filter (fun f : file => is_bin (fst f)) dir)) None [].
  (** fuzzer.rs:321-383: one block after the other; [log]: the calls of the import hook. *)
  Fixpoint import_cases (t : T) (cs : list (bytes * tcase)) (log : list bytes) : T * result trerr (list bytes) :=
    match cs with
    | [] => (t, Ok log)
    | (n, c) :: r =>
        match tgt t (SendBlock (tc_block c)) with
        | (t1, GotRoot x) => if root_eqb x (tc_post_root c) then import_cases t1 r (log ++ [n])
                             else (fst (tgt t1 (SendGetState (tc_block c))), Err (RootDiffers n))
        | (t1, GotError _) => if root_eqb (tc_pre_root c) (tc_post_root c) then import_cases t1 r (log ++ [n]) else (t1, Err (Rejected n))
        | (t1, _) => (t1, Err (BadReply n))
        end
    end.
  (** fuzzer.rs:286-319: what the target is initialized with, and the cases to import. *)
  Definition initial (s : option (bytes * gcase) * list (bytes * tcase)) : option (Hdr * St * Root * list (bytes * tcase)) :=
    match s with
    | (Some (_, g), cs) => Some (gc_header g, gc_state g, gc_root g, cs)
    | (None, (_, c) :: cs) => Some (hdr (tc_block c), tc_post c, tc_post_root c, cs)
    | (None, []) => None
    end.
  (** fuzzer.rs:240-391 *)
  Definition run_trace (dir : list file) (t : T) : T * result trerr (list bytes) :=
    match load_trace_suite dir with
    | Err e => (t, Err e)
    | Panic => (t, Panic)
    | Ok s =>
        if Nat.ltb (length (snd s)) (match fst s with Some _ => 1 | None => 2 end) then (t, Err TooFewCases)
        else match tgt t SendPeerInfo with
             | (t1, GotPeerInfo) =>
                 match initial s with
                 | None => (t1, Panic)
                 | Some (h, st, r, cs) =>
                     match tgt t1 (SendInit h st) with
                     | (t2, GotRoot x) => if root_eqb x r then import_cases t2 cs [] else (t2, Err InitRootDiffers)
                     | (t2, _) => (t2, Err BadInit)
                     end
                 end
             | (t1, _) => (t1, Err BadHandshake)
             end
    end.
End Trace.
