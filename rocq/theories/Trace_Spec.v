(** When a target agrees with a directory of test cases. *)
From Verif Require Import Base Trace_Model.
Require Import Permutation Sorted.

(** Order of names: a proper prefix comes first, otherwise the first difference decides. *)
Definition name_lt (a b : bytes) : Prop := exists p x b', b = p ++ x :: b' /\ (a = p \/ exists y a', a = p ++ y :: a' /\ (y < x)%N).
(** The octets of ".bin" and "genesis.bin", and the names of case files: something before ".bin". *)
Definition dot_bin : bytes := [46; 98; 105; 110]%N.
Definition genesis_bin : bytes := [103; 101; 110; 101; 115; 105; 115]%N ++ dot_bin.
Definition bin_name (n : bytes) : Prop := exists stem, stem <> [] /\ n = stem ++ dot_bin.
Section Spec.
  Context {Hdr Blk St Root T : Type} (hdr : Blk -> Hdr) (dec_genesis : bytes -> option (@gcase Hdr St Root)) (dec_case : bytes -> option (@tcase Blk St Root)) (tgt : T -> @tmsg Hdr Blk St -> T * @trep Root).
  (** The test cases of a directory in the order of their names, without the genesis case. *)
  Definition cases_of (dir : list file) (cs : list (bytes * tcase)) : Prop :=
    StronglySorted (fun a b => name_lt (fst a) (fst b)) cs /\
    (forall n c, In (n, c) cs <-> n <> genesis_bin /\ bin_name n /\ exists b, In (n, Some b) dir /\ dec_case b = Some c) /\
    (forall n o, In (n, o) dir -> bin_name n -> n <> genesis_bin -> exists c, In (n, c) cs).
  (** What the target must be started from and must agree with: the genesis case and all others, or the first case's outcome and all others. *)
  Definition suite (dir : list file) (h : Hdr) (s : St) (r : Root) (cs : list (bytes * tcase)) : Prop :=
    (exists b g, In (genesis_bin, Some b) dir /\ dec_genesis b = Some g /\ h = gc_header g /\ s = gc_state g /\ r = gc_root g /\ cases_of dir cs /\ cs <> []) \/
    ((forall o, ~ In (genesis_bin, o) dir) /\ exists n c, cases_of dir ((n, c) :: cs) /\ h = hdr (tc_block c) /\ s = tc_post c /\ r = tc_post_root c /\ cs <> []).
  (** One reply agrees with a case: the root is the expected one, or the block was refused and the case expects no change. *)
  Definition agrees (c : @tcase Blk St Root) (a : @trep Root) : Prop := match a with GotRoot x => x = tc_post_root c | GotError _ => tc_pre_root c = tc_post_root c | _ => False end.
  (** The target's replies to the blocks, one after the other. *)
  Inductive replies (t : T) : list (bytes * @tcase Blk St Root) -> list trep -> T -> Prop :=
  | rp_nil : replies t [] [] t
  | rp_cons : forall n c cs a al t1 t2, tgt t (SendBlock (tc_block c)) = (t1, a) -> replies t1 cs al t2 -> replies t ((n, c) :: cs) (a :: al) t2.
End Spec.
