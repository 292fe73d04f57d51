(** Small blocks to try the theorems on: accounts with programs made of a few instructions. *)
From Verif Require Import Base PvmMem_Model PvmProg_Model PvmStep_Model PvmInit_Model PvmInit_Spec PvmProg_Spec Gas_Model Sandbox_Model Host_Model Host_Spec Finite_Proofs Delta_Model.
Open Scope N_scope.

(** A program whose entry for accumulation is at 5, with read-only data at 65536. *)
Definition entry : list bytes := [[0]; [0]; [0]; [0]; [0]].
Definition program (ro : bytes) (l : list bytes) : bytes :=
  standard ro [4; 5] (program_blob 0 [] (concat (entry ++ l)) (concat (map (fun i => true :: map (fun _ => false) (skipn 1 i)) (entry ++ l)))) 1 5000.
Definition put (r v : N) : bytes := [51; r; v].
Definition data (r : N) : bytes := [51; r; 0; 0; 1].
Definition ecall (n : N) : bytes := [10; n].
Definition halt : bytes := [50; 0].
Definition hash_of (b : N) : bytes := repeat b 32.
(** An account with the program [p], 100000 of balance and the requests [asked]. *)
Definition account (p : bytes) (asked : list (ekey * list N)) : meta * list (ekey * list N) :=
  let v := [2; 65; 66] ++ p in
  let es := [(KPreimage (hash_of 1), v); (KLookup (hash_of 1) (N.of_nat (length v)), [5])] ++ asked in
  (mk_meta (hash_of 1) 100000 10 10 (sum (map (fun y => octets_of (fst y) (snd y)) es)) 0 (sum (map items_of (map fst es))) 5 5 0, es).
(** One without code. *)
Definition plain (asked : list (ekey * list N)) : meta * list (ekey * list N) :=
  (mk_meta (hash_of 2) 100000 10 10 (sum (map (fun y => octets_of (fst y) (snd y)) asked)) 0 (sum (map items_of (map fst asked))) 5 5 0, asked).
Definition benv : env := mk_env 100 (fun _ => hash_of 9) 2 6 32 (fun _ _ => None).
Definition block (l : listed) : setting := mk_setting 100 (accounts_of l) benv (repeat 3 32) (fun _ _ _ _ _ => None).
Definition bpriv : priv := mk_priv 7 [9; 2] None [] (mk_role 3 None None) (mk_role 4 None None) [] [[]; []] None.
Definition work7 : list greport := [[mk_digest 7 1000]].
Definition work79 : list greport := [[mk_digest 7 1000]; [mk_digest 9 1000]].

(** The manager 7 BLESSes, leaving the assigner of core 0 and changing that of core 1, makes an account and pays 9. *)
Definition bless7 : list bytes := [put 7 7; data 8; put 9 3; put 10 4; put 11 0; put 12 0; ecall 14].
Definition busy7 : bytes := program [9; 0; 0; 0; 6; 0; 0; 0]
  (bless7 ++ [ data 7; put 8 20; put 9 1; put 10 1; put 11 0; data 12; ecall 18; put 7 9; put 8 100; put 9 50; data 10; ecall 20; halt ]).
(** 9 ASSIGNs core 0 to [a], asks for a preimage, and PROVIDEs one to 7. *)
Definition busy9 (a : N) : bytes := program [1; 2; 3]
  [ put 7 0; data 8; put 9 a; ecall 15; data 7; put 8 3; ecall 23; put 7 7; data 8; put 9 3; ecall 26; put 7 0; halt ].
Definition busy (a : N) : listed := [(7, account busy7 [(KLookup (hash_of 9) 3, [])]); (9, account (busy9 a) [])].
(** 7 PROVIDEs to 9. *)
Definition late : listed := [(7, account (program [1; 2; 3] [put 7 9; data 8; put 9 3; ecall 26; put 7 0; halt]) []); (9, plain [(KLookup (hash_of 9) 3, [])])].
(** A service that BLESSes itself registrar, for the time of its accumulation, and makes the account 100. *)
Definition grab (s : N) : bytes := program [1; 2; 3]
  [ put 7 s; data 8; put 9 3; put 10 s; put 11 0; put 12 0; ecall 14; data 7; put 8 20; put 9 1; put 10 1; put 11 0; put 12 100; ecall 18; put 7 0; halt ].
Definition clash : listed := [(7, account (grab 7) []); (9, account (grab 9) [])].
(** A TRANSFER with 2^63 of gas. *)
Definition greedy : listed := [(7, account (program [1; 2; 3] [put 7 9; put 8 100; [20; 9; 0; 0; 0; 0; 0; 0; 0; 128]; data 10; ecall 20; halt]) []); (9, plain [])].
(** A PROVIDE that is refused, and then the end, with the refusal still in register 7. *)
Definition refusal : listed := [(7, account (program [1; 2; 3] [put 7 9; data 8; put 9 3; ecall 26; halt]) []); (9, plain [])].
