(** Proofs about the host functions of a refinement. *)
From Verif Require Import Base Base_Proofs PvmMem_Model PvmMem_Spec PvmMem_Proofs PvmProg_Model PvmStep_Model PvmRun_Spec PvmRun_Proofs PvmInit_Model Codec_Model Host_Model Acc_Model Refine_Model Refine_Spec.
Open Scope N_scope.

Lemma reg_is s i : Host_Model.reg s i = r_ s i. Proof. reflexivity. Qed.
Lemma r_lt s i : machine_ok s -> r_ s i < 2 ^ 64.
Proof.
  intros (L & F & _). unfold r_. destruct (Nat.lt_ge_cases i (length (v_regs s))) as [H|H].
  - rewrite Forall_forall in F. apply F, nth_In, H.
  - rewrite nth_overflow by exact H. reflexivity.
Qed.
Lemma as_u32_some x a : as_u32 x = Some a <-> x = a /\ x < 2 ^ 32.
Proof.
  unfold as_u32. destruct (N.ltb_spec x (2 ^ 32)) as [L|L]; split; intros E; try discriminate.
  - injection E as ->. auto.
  - destruct E as [-> _]. reflexivity.
  - destruct E as [_ E]. lia.
Qed.
Lemma as_u32_none x : as_u32 x = None <-> 2 ^ 32 <= x.
Proof. unfold as_u32. destruct (N.ltb_spec x (2 ^ 32)); split; try discriminate; try lia; auto. Qed.

(** ** Reading and writing *)
Lemma range_ok_empty ok m a n : m_len m = 0 -> range_ok ok m a n = true <-> n = 0.
Proof.
  intros L. unfold range_ok. destruct (N.eqb_spec n 0); [tauto|]. destruct (2 ^ 64 <=? a + n); [easy|]. rewrite L. destruct (N.leb_spec 0 (a + n - 1)); [easy|lia].
Qed.
Lemma reads_empty m a n d : m_len m = 0 -> reads m a n d <-> a < 2 ^ 32 /\ n = 0 /\ d = [].
Proof.
  intros L. unfold reads. split.
  - intros (A & B & C). destruct d as [|x d]; [cbn in B; auto|]. exfalso. destruct (C 0%nat) as [[P _] _]; [cbn; lia|]. lia.
  - intros (A & -> & ->). split; [exact A|]. split; [reflexivity|]. intros k Hk. cbn in Hk. lia.
Qed.
Lemma reads_fun m a n d d' : reads m a n d -> reads m a n d' -> d = d'.
Proof.
  intros (_ & L & P) (_ & L' & P'). apply nth_ext with (d := 0) (d' := 0); [lia|]. intros i Hi. destruct (P i Hi) as [_ ->]. destruct (P' i) as [_ ->]; [lia|reflexivity].
Qed.
Lemma low_page m x : (forall i, i < 16 -> m_acc m i = Inaccessible) -> can_read m x -> 65536 <= x.
Proof. intros L [_ H]. destruct (N.le_gt_cases 65536 x) as [G|G]; [exact G|]. exfalso. apply H, L. apply N.div_lt_upper_bound; lia. Qed.
Lemma write_read m x : can_write m x -> can_read m x.
Proof. intros [A B]. split; [exact A|]. rewrite B. discriminate. Qed.

Definition rdm (m : mem) (addr len : N) : option bytes :=
  match as_u32 addr with
  | Some a => if is_address_range_readable m a len then match read_bytes m a len with Ok b => Some b | _ => None end else None
  | None => None
  end.
Lemma rd_rdm s a n : rd s a n = rdm (v_mem s) a n. Proof. reflexivity. Qed.
Lemma rdm_some m a n d : sound m -> n < 2 ^ 64 -> rdm m a n = Some d <-> reads m a n d.
Proof.
  intros [[M Low]|[L _]] Hn; unfold rdm.
  - destruct (as_u32 a) as [o|] eqn:Ea.
    2:{ apply as_u32_none in Ea. split; [discriminate|intros (A & _)]. lia. }
    apply as_u32_some in Ea as [<- Ha]. destruct (is_address_range_readable m a n) eqn:Er.
    + rewrite range_readable_spec in Er by assumption. destruct (N.eq_dec n 0) as [->|Hz].
      * rewrite read_bytes_nil. split.
        -- intros E. injection E as <-. split; [exact Ha|]. split; [reflexivity|]. intros k Hk. cbn in Hk. lia.
        -- intros (_ & B & _). destruct d; [reflexivity|cbn in B; lia].
      * destruct (read_bytes_spec m a n M Ha ltac:(lia)) as (R & _). split.
        -- destruct (read_bytes m a n) as [b|x|] eqn:E; [|discriminate|discriminate]. intros F. injection F as ->. destruct (proj1 (R d) eq_refl) as (_ & A & B). split; [exact Ha|]. split; [lia|].
           intros i Hi. split; [apply Er; lia|apply B; lia].
        -- intros (A & B & C). assert (E : read_bytes m a n = Ok d); [|now rewrite E]. apply R. split; [|split; [lia|intros i Hi; apply C; lia]]. split; [|exact Er]. apply (low_page m); [exact Low|apply Er; lia].
    + split; [discriminate|]. intros (A & B & C). exfalso. assert (T : is_address_range_readable m a n = true); [|congruence]. rewrite range_readable_spec by assumption.
      intros x Hx. destruct (C (N.to_nat (x - a))) as [P _]; [lia|]. replace (a + N.of_nat (N.to_nat (x - a))) with x in P by lia. exact P.
  - rewrite reads_empty by exact L. destruct (as_u32 a) as [o|] eqn:Ea.
    2:{ apply as_u32_none in Ea. split; [discriminate|intros (A & _)]. lia. }
    apply as_u32_some in Ea as [<- Ha]. destruct (is_address_range_readable m a n) eqn:Er.
    + apply range_ok_empty in Er; [|exact L]. subst n. rewrite read_bytes_nil. split; [intros E; injection E as <-; auto|intros (_ & _ & ->); reflexivity].
    + split; [discriminate|]. intros (_ & -> & _). assert (T := proj2 (range_ok_empty page_readable m a 0 L) eq_refl). unfold is_address_range_readable in Er. congruence.
Qed.
Lemma rdm_none m a n : sound m -> n < 2 ^ 64 -> rdm m a n = None <-> forall d, ~ reads m a n d.
Proof.
  intros S Hn. split.
  - intros E d R. apply (rdm_some m a n d S Hn) in R. congruence.
  - intros R. destruct (rdm m a n) as [d|] eqn:E; [|reflexivity]. apply rdm_some in E; try assumption. now apply R in E.
Qed.
Lemma writable_iff m a n : sound m -> a < 2 ^ 32 -> is_address_range_writable m a n = true <-> forall x, a <= x < a + n -> can_write m x.
Proof.
  intros S Ha. destruct (N.lt_ge_cases n (2 ^ 64)) as [Hn|Hn].
  - destruct S as [[M Low]|[L _]]; [now apply range_writable_spec|]. unfold is_address_range_writable. rewrite range_ok_empty by exact L. split; [lia|].
    intros H. destruct (N.eq_dec n 0) as [E|E]; [exact E|]. destruct (H a ltac:(lia)) as [P _]. lia.
  - assert (L : m_len m <= 2 ^ 32) by (destruct S as [[(_ & _ & L) _]|[L _]]; lia). unfold is_address_range_writable, range_ok.
    destruct (N.eqb_spec n 0); [lia|]. destruct (N.leb_spec (2 ^ 64) (a + n)); [|lia]. split; [discriminate|]. intros H'. destruct (H' (2 ^ 32)) as [P _]; lia.
Qed.
Lemma stores_dec m a n : sound m -> (exists o, as_u32 a = Some o /\ o = a /\ is_address_range_writable m a n = true /\ stores_at m a n) \/
  ((as_u32 a = None \/ as_u32 a = Some a /\ is_address_range_writable m a n = false) /\ ~ stores_at m a n).
Proof.
  intros S. destruct (as_u32 a) as [o|] eqn:Ea.
  - apply as_u32_some in Ea as [<- Ha]. destruct (is_address_range_writable m a n) eqn:Ew.
    + left. exists a. split; [reflexivity|]. split; [reflexivity|]. split; [reflexivity|]. split; [exact Ha|]. apply writable_iff; assumption.
    + right. split; [auto|]. intros [_ H]. apply writable_iff in H; try assumption. congruence.
  - apply as_u32_none in Ea. right. split; [auto|]. intros [H _]. lia.
Qed.
Lemma guest_sound s : guest s -> sound (v_mem s).
Proof. intros ((_ & _ & M & _) & L). left. auto. Qed.

(** ** Parts *)
Lemma part_exists d off len : part_of d off len (firstn (N.to_nat (N.min len (N.of_nat (length d) - N.min off (N.of_nat (length d))))) (skipn (N.to_nat (N.min off (N.of_nat (length d)))) d)).
Proof.
  set (o := N.min off (N.of_nat (length d))). set (n := N.min len (N.of_nat (length d) - o)).
  exists (firstn (N.to_nat o) d), (skipn (N.to_nat n) (skipn (N.to_nat o) d)). split; [now rewrite !firstn_skipn|]. rewrite !firstn_length, skipn_length. split; lia.
Qed.
Lemma part_fun d off len b b' : part_of d off len b -> part_of d off len b' -> b = b'.
Proof.
  intros (p & q & E & A & B) (p' & q' & E' & A' & B'). assert (L : length p = length p') by lia. assert (L' : length b = length b') by lia.
  rewrite E in E'. clear A A' B B' E.
  revert p' L E'. induction p as [|x p IH]; intros [|x' p'] L E'; cbn in *; try lia.
  - clear L. revert b' L' E'. induction b as [|x b IH]; intros [|x' b'] L' E'; cbn in *; try lia; [reflexivity|]. injection E' as -> E'. f_equal. apply IH; [lia|exact E'].
  - injection E' as -> E'. apply (IH p'); [lia|exact E'].
Qed.

(** ** Machines of a context *)
Lemma nodup_find l : NoDup (map fst l) -> forall i (v : inner), In (i, v) l <-> option_map snd (find (fun x => fst x =? i) l) = Some v.
Proof.
  induction l as [|[j w] l IH]; intros D i v; cbn in *; [split; [tauto|discriminate]|]. apply NoDup_cons_iff in D as [D1 D2]. destruct (N.eqb_spec j i) as [->|Ne]; cbn.
  - split.
    + intros [E|H]; [congruence|]. exfalso. apply D1. apply in_map_iff. exists (i, v). auto.
    + intros E. injection E as ->. auto.
  - rewrite <- IH by exact D2. split; [intros [E|H]; [congruence|exact H]|auto].
Qed.
Lemma get_has c i v : in_order c -> get_vm c i = Some v <-> has c i v.
Proof. intros [D _]. unfold get_vm, has. now rewrite (nodup_find _ D). Qed.
Lemma get_unknown c i : in_order c -> get_vm c i = None <-> unknown c i.
Proof.
  intros O. split.
  - intros E v H. apply get_has in H; [congruence|exact O].
  - intros U. destruct (get_vm c i) as [v|] eqn:E; [|reflexivity]. apply get_has in E; [|exact O]. now apply U in E.
Qed.
Lemma put_keys l i (v : inner) : map fst (map (fun x : N * inner => if fst x =? i then (i, v) else x) l) = map fst l.
Proof. rewrite map_map. apply map_ext. intros [j w]. cbn. destruct (N.eqb_spec j i); cbn; congruence. Qed.
Lemma put_has l i (v : inner) j w :
  In (j, w) (map (fun x : N * inner => if fst x =? i then (i, v) else x) l) <-> (j <> i /\ In (j, w) l) \/ (j = i /\ w = v /\ exists u, In (i, u) l).
Proof.
  rewrite in_map_iff. split.
  - intros ((k, u) & E & H). cbn in E. destruct (N.eqb_spec k i) as [->|Ne]; injection E as <- <-; [right; eauto|left; auto].
  - intros [[Ne H]|(-> & -> & u & H)].
    + exists (j, w). cbn. destruct (N.eqb_spec j i); [contradiction|auto].
    + exists (i, u). cbn. rewrite N.eqb_refl. auto.
Qed.
Lemma put_order c i v : in_order c -> in_order (put_vm c i v).
Proof.
  intros [D O]. split; unfold put_vm, has; cbn [rx_vms rx_next]; [now rewrite put_keys|]. intros j w H. apply put_has in H as [[_ H]|(-> & _ & u & H)]; eapply O; exact H.
Qed.
Lemma put_only c i v w : has c i w -> only c i (Some v) (put_vm c i v).
Proof.
  intros H. unfold only, has, put_vm; cbn [rx_vms rx_exports]. split; [|split; [|reflexivity]].
  - intros j u Ne. rewrite put_has. intuition.
  - intros u. rewrite put_has. split; [intros [[Ne _]|(_ & -> & _)]; [congruence|reflexivity]|]. intros E. injection E as ->. right. eauto.
Qed.
Lemma filter_has l i j (w : inner) : In (j, w) (filter (fun x => negb (fst x =? i)) l) <-> In (j, w) l /\ j <> i.
Proof. rewrite filter_In. cbn. destruct (N.eqb_spec j i); cbn; intuition congruence. Qed.
Lemma filter_nodup l i : NoDup (map fst l) -> NoDup (map fst (filter (fun x : N * inner => negb (fst x =? i)) l)).
Proof.
  induction l as [|[j w] l IH]; intros D; cbn in *; [constructor|]. apply NoDup_cons_iff in D as [D1 D2]. destruct (N.eqb_spec j i); cbn; [auto|].
  constructor; [|auto]. intros H. apply in_map_iff in H as ([k u] & E & H). apply filter_has in H as [H _]. cbn in E. subst k. apply D1, in_map_iff. exists (j, u). auto.
Qed.
Lemma remove_order c i : in_order c -> in_order (remove_vm c i).
Proof.
  intros [D O]. split; unfold remove_vm, has; cbn [rx_vms rx_next]; [now apply filter_nodup|]. intros j w H. apply filter_has in H as [H _]. eapply O; exact H.
Qed.
Lemma remove_only c i : only c i None (remove_vm c i).
Proof. unfold only, has, remove_vm; cbn [rx_vms rx_exports]. split; [|split; [|reflexivity]]; intros; rewrite filter_has; intuition congruence. Qed.
Lemma next_unknown c : in_order c -> unknown c (rx_next c).
Proof. intros [_ O] v H. apply O in H. lia. Qed.
Lemma add_order c v : in_order c -> in_order (add_vm c v).
Proof.
  intros [D O]. split; unfold add_vm, has; cbn [rx_vms rx_next map fst].
  - constructor; [|now apply filter_nodup]. intros H. apply in_map_iff in H as ([k u] & E & H). apply filter_has in H as [_ H]. cbn in E. congruence.
  - intros j w [E|H]; [injection E as <- _; lia|]. apply filter_has in H as [H _]. apply O in H. lia.
Qed.
Lemma add_only c v : in_order c -> only c (rx_next c) (Some v) (add_vm c v).
Proof.
  intros O. unfold only, has, add_vm; cbn [rx_vms rx_exports]. split; [|split; [|reflexivity]].
  - intros j w Ne. cbn [In]. rewrite filter_has. intuition congruence.
  - intros w. cbn [In]. rewrite filter_has. split; [intros [E|[_ E]]; [congruence|contradiction]|]. intros E. injection E as ->. auto.
Qed.

(** ** FETCH *)
Lemma item_th {A} (l : list A) i : item_at l i = th l i.
Proof. unfold item_at, th. destruct (N.ltb_spec i (N.of_nat (length l))); [reflexivity|]. symmetry. apply nth_error_None. lia. Qed.
Lemma summary_ok w : item_ok w -> summary w = Ok (summary_of w).
Proof.
  intros (A & B & C & D & E & F & G). assert (K : forall x n, (n <= 8)%nat -> x < 2 ^ (8 * N.of_nat n) -> encode_fixed x n = Ok (le_bytes n x)).
  { intros x n Hn Hx. apply Codec_Proofs.encode_fixed_ok_iff. auto. }
  unfold summary. rewrite !K by (auto || lia). reflexivity.
Qed.
Lemma fetch_finds e a s : args_ok a -> r_ s 10 <> 11 -> exists o, fetch_refine e a s = Ok o /\
  match o with Some d => finds e a (r_ s 11) (r_ s 12) (r_ s 10) d | None => forall d, ~ finds e a (r_ s 11) (r_ s 12) (r_ s 10) d end.
Proof.
  intros (FI & Li & Lm & _) Ne. unfold fetch_refine. change (Host_Model.reg s 10) with (r_ s 10). change (Host_Model.reg s 11) with (r_ s 11). change (Host_Model.reg s 12) with (r_ s 12).
  set (id := r_ s 10) in *. set (i := r_ s 11). set (j := r_ s 12). clearbody id i j.
  assert (S : forall l k w, th l k = Some w -> Forall item_ok l -> item_ok w) by (intros l k w E F; rewrite Forall_forall in F; apply F; eapply nth_error_In; exact E).
  destruct (N.eqb_spec id 0) as [->|N0]; [eexists; split; [reflexivity|constructor]|].
  destruct (N.eqb_spec id 1) as [->|N1]; [eexists; split; [reflexivity|constructor]|].
  destruct (N.eqb_spec id 2) as [->|N2]; [eexists; split; [reflexivity|constructor]|].
  assert (Hd : id = 3 \/ id = 4 \/ id = 5 \/ id = 6 \/ id = 7 \/ id = 8 \/ id = 9 \/ id = 10 \/ id = 12 \/ id = 13 \/ 13 < id) by lia.
  assert (T : forall A (l : list A) k, (k < length l)%nat -> exists x, nth_error l k = Some x) by (intros A l k Hk; destruct (nth_error l k) eqn:E; [eauto|apply nth_error_None in E; lia]).
  assert (TN : forall A (l : list A) (k : nat), th l (N.of_nat k) = nth_error l k) by (intros; unfold th; now rewrite Nat2N.id).
  destruct Hd as [->|[->|[->|[->|[->|[->|[->|[->|[->|[->|Hd]]]]]]]]]]; cbn [N.leb N.compare Pos.compare Pos.compare_cont andb data_of_item package_data]; rewrite ?item_th, ?TN.
  - eexists; split; [reflexivity|]. destruct (th (k_items (ra_pkg a)) i) as [w|] eqn:E1; [|intros d F; inversion F; congruence]. rewrite item_th. destruct (th (w_xts w) j) as [x|] eqn:E2; [|intros d F; inversion F; congruence].
    destruct (ra_xt a x) as [d|] eqn:E3; [econstructor; eassumption|intros d F; inversion F; congruence].
  - destruct (T _ (k_items (ra_pkg a)) (ra_item a) Li) as [w E1]. rewrite E1. rewrite item_th. eexists; split; [reflexivity|].
    destruct (th (w_xts w) i) as [x|] eqn:E2; [|intros d F; inversion F; congruence].
    destruct (ra_xt a x) as [d|] eqn:E3; [econstructor; eassumption|intros d F; inversion F; congruence].
  - eexists; split; [reflexivity|]. destruct (th (ra_imports a) i) as [l|] eqn:E1; [|intros d F; inversion F; congruence]. rewrite item_th.
    destruct (th l j) as [d|] eqn:E3; [econstructor; eassumption|intros d F; inversion F; congruence].
  - destruct (T _ (ra_imports a) (ra_item a)) as [l E1]; [lia|]. rewrite E1, item_th. eexists; split; [reflexivity|].
    destruct (th l i) as [d|] eqn:E3; [econstructor; eassumption|intros d F; inversion F; congruence].
  - eexists; split; [reflexivity|constructor].
  - eexists; split; [reflexivity|constructor].
  - eexists; split; [reflexivity|constructor].
  - eexists; split; [reflexivity|constructor].
  - eexists; split; [reflexivity|]. destruct (th (k_items (ra_pkg a)) i) as [w|] eqn:E1; [|intros d F; inversion F; congruence].
    rewrite summary_ok by eauto. cbn. econstructor; eassumption.
  - eexists; split; [reflexivity|]. destruct (th (k_items (ra_pkg a)) i) as [w|] eqn:E1; [|intros d F; inversion F; congruence]. econstructor; eassumption.
  - replace ((3 <=? id) && (id <=? 6)) with false by (destruct (N.leb_spec 3 id), (N.leb_spec id 6); cbn; lia).
    replace ((7 <=? id) && (id <=? 13)) with false by (destruct (N.leb_spec 7 id), (N.leb_spec id 13); cbn; lia).
    eexists; split; [reflexivity|]. intros d F. inversion F; subst; lia.
Qed.
Lemma copied_cases s d addr off len b : guest s -> part_of d off len b ->
  (stores_at (v_mem s) addr (N.of_nat (length b)) /\ copied s d addr off len = delivers (N.of_nat (length d)) addr b) \/
  (~ stores_at (v_mem s) addr (N.of_nat (length b)) /\ copied s d addr off len = panics).
Proof.
  intros G P. unfold copied. assert (P' := part_exists d off len). apply (part_fun _ _ _ _ _ P) in P' as E. rewrite <- E.
  destruct P as (p & q & _ & Lp & Lb). rewrite <- Lp, <- Lb.
  destruct (stores_dec (v_mem s) addr (N.of_nat (length b)) (guest_sound _ G)) as [(o & Eo & -> & Ew & St)|[[Eo|[Eo Ew]] St]].
  - left. split; [exact St|]. rewrite Eo, Ew. reflexivity.
  - right. split; [exact St|]. now rewrite Eo.
  - right. split; [exact St|]. now rewrite Eo, Ew.
Qed.

(** ** INVOKE *)
Lemma set_nth_len {A} (x : A) : forall l n, length (set_nth n x l) = length l.
Proof. induction l as [|y l IH]; intros [|n]; cbn; auto. Qed.
Lemma step_regs p s o : step p s = Ok o -> length (v_regs (match o with Cont t => t | Stop _ t => t end)) = length (v_regs s).
Proof.
  unfold step. destruct (instruction_at p (v_pc s)) as [i|]; [|intros E; injection E as <-; reflexivity].
  destruct (PvmStep_Model.exec p s i) as [[[m x] c]| |]; cbn [bind]; try discriminate.
  destruct (charge (set_mem s m) 1) as [s1| |] eqn:Ec; cbn [bind]; try discriminate.
  assert (L1 : length (v_regs s1) = length (v_regs s)).
  { unfold charge in Ec. destruct (2 ^ 63 <=? 1); [discriminate|]. destruct (_ <? _)%Z; [discriminate|]. injection Ec as <-. reflexivity. }
  destruct (v_gas s1 <? 0)%Z; [intros E; injection E as <-; exact L1|].
  assert (F : forall s2, length (v_regs s2) = length (v_regs s) -> forall o',
    (let s3 := set_pc s2 (c_pc c) in let! s4 := (match c_reg c with Some (r, v) => if 13 <=? r then Err EInvalidRegIndex else Ok (set_reg s3 r v) | None => Ok s3 end) in
     Ok (match x with Continue => Cont s4 | _ => Stop x s4 end)) = Ok o' -> length (v_regs (match o' with Cont t => t | Stop _ t => t end)) = length (v_regs s)).
  { intros s2 L2 o' E. cbn zeta in E. destruct (c_reg c) as [[r v]|].
    - destruct (13 <=? r); cbn [bind] in E; [discriminate|]. injection E as <-. destruct x; cbn; rewrite set_nth_len; exact L2.
    - cbn [bind] in E. injection E as <-. destruct x; exact L2. }
  destruct x; try (intros E; injection E as <-; exact L1).
  all: destruct (c_mem c) as [[a bs]|]; [|intros E; eapply F; [exact L1|exact E]].
  all: destruct (a <? INIT_ZONE_SIZE); [intros E; injection E as <-; exact L1|].
  all: destruct (write_bytes (v_mem s1) a bs) as [m'|[]|]; try discriminate; intros E.
  all: try (eapply F; [|exact E]; exact L1).
  all: injection E as <-; exact L1.
Qed.
Lemma invoke_regs p : forall f s x t, invoke_general f p s = Some (Ok (x, t)) -> length (v_regs t) = length (v_regs s).
Proof.
  induction f as [|f IH]; intros s x t H; cbn in H; [discriminate|]. destruct (step p s) as [[s'|y s']| |] eqn:E; try discriminate; apply step_regs in E.
  - apply IH in H. congruence.
  - injection H as _ <-. exact E.
Qed.
(** One step more than the gas suffices. *)
Lemma invoke_enough p gas regs m pc : exists r, invoke_general (S (N.to_nat gas)) p (mk_vm regs m pc (Z.of_N gas)) = Some r.
Proof. apply invoke_ends; cbn [v_gas]; lia. Qed.

Lemma firstn_le {A} (l : list A) n k : (k + n <= length l)%nat -> length (firstn n (skipn k l)) = n.
Proof. rewrite firstn_length, skipn_length. lia. Qed.
Lemma nth_firstn_lt {A} (l : list A) n i d : (i < n)%nat -> nth i (firstn n l) d = nth i l d.
Proof. revert n i. induction l as [|x l IH]; intros [|n] [|i] H; cbn; try lia; auto. apply IH. lia. Qed.
Lemma nth_skip {A} (l : list A) k i d : nth i (skipn k l) d = nth (k + i) l d.
Proof. revert l. induction k as [|k IH]; intros [|x l]; cbn; auto. destruct i; reflexivity. Qed.
Lemma read_eight m o n d k : mem_ok m -> (forall i, i < 16 -> m_acc m i = Inaccessible) -> reads m o n d -> (k + 8 <= length d)%nat ->
  read_bytes m (o + N.of_nat k) 8 = Ok (firstn 8 (skipn k d)).
Proof.
  intros M Low (Ho & Ld & P) Hk. assert (Hlt : o + N.of_nat k < 2 ^ 32). { destruct (P k ltac:(lia)) as [[Q _] _]. destruct M as (_ & _ & Q'). lia. }
  destruct (read_bytes_spec m (o + N.of_nat k) 8 M Hlt ltac:(lia)) as (R & _). apply R. clear R.
  assert (Rd : forall x, o + N.of_nat k <= x < o + N.of_nat k + 8 -> can_read m x).
  { intros x Hx. destruct (P (N.to_nat (x - o)) ltac:(lia)) as [Q _]. replace (o + N.of_nat (N.to_nat (x - o))) with x in Q by lia. exact Q. }
  split; [split; [apply (low_page m); [exact Low|apply Rd; lia]|exact Rd]|]. split; [rewrite firstn_le by lia; reflexivity|].
  intros i Hi. change (N.to_nat 8) with 8%nat in Hi. rewrite nth_firstn_lt, nth_skip by exact Hi. destruct (P (k + i)%nat ltac:(lia)) as [_ ->]. f_equal. lia.
Qed.
Lemma read_regs_is m o n d : mem_ok m -> (forall i, i < 16 -> m_acc m i = Inaccessible) -> reads m o n d ->
  forall j k, (k + 8 * j <= length d)%nat -> read_regs m (o + N.of_nat k) j = Some (map (fun i => le_val (firstn 8 (skipn (k + 8 * i) d))) (seq 0 j)).
Proof.
  intros M Low R. induction j as [|j IH]; intros k Hk; [reflexivity|]. cbn [read_regs]. rewrite (read_eight m o n d k M Low R) by lia.
  replace (o + N.of_nat k + 8) with (o + N.of_nat (k + 8)) by lia. rewrite IH by lia. cbn [seq map]. rewrite <- seq_shift, map_map.
  replace (k + 8 * 0)%nat with k by lia. do 2 f_equal. apply map_ext. intros i. do 3 f_equal. lia.
Qed.
Lemma bytes_part d n k : Bytes d -> Bytes (firstn n (skipn k d)).
Proof. intros F. apply Forall_firstn, Forall_skipn, F. Qed.
Lemma reads_bytes m a n d : (forall x, m_data m x < 256) -> reads m a n d -> Bytes d.
Proof. intros M (_ & _ & P). apply Forall_forall. intros x H. destruct (In_nth d x 0 H) as (i & Hi & <-). destruct (P i Hi) as [_ ->]. apply M. Qed.
Lemma eight_lt d k : Bytes d -> (k + 8 <= length d)%nat -> le_val (firstn 8 (skipn k d)) < 2 ^ 64.
Proof. intros B Hk. pose proof (le_val_bound _ (bytes_part d 8 k B)) as H. rewrite firstn_le in H by exact Hk. exact H. Qed.
Lemma record_in d : Bytes d -> length d = 112%nat ->
  record_of (Z.of_N (le_val (firstn 8 d))) (map (fun i => le_val (firstn 8 (skipn (8 + 8 * i) d))) (seq 0 13)) d /\
  Forall (fun x => x < 2 ^ 64) (map (fun i => le_val (firstn 8 (skipn (8 + 8 * i) d))) (seq 0 13)).
Proof.
  intros B L. split.
  - split; [exact L|]. split; [reflexivity|]. split.
    + pose proof (eight_lt d 0 B ltac:(lia)) as H. change (skipn 0 d) with d in H. rewrite Z.mod_small; [reflexivity|lia].
    + intros i Hi. set (f := fun i => le_val (firstn 8 (skipn (8 + 8 * i) d))). rewrite (nth_indep _ 0 (f 0%nat)) by (rewrite map_length, seq_length; exact Hi).
      rewrite map_nth, seq_nth by exact Hi. unfold f. rewrite N.mod_small; [reflexivity|]. apply eight_lt; [exact B|lia].
  - apply Forall_forall. intros x H. apply in_map_iff in H as (i & <- & H). apply in_seq in H. apply eight_lt; [exact B|lia].
Qed.
Lemma chunk8 : forall (l : list bytes) i, Forall (fun b => length b = 8%nat) l -> firstn 8 (skipn (8 * i) (concat l)) = nth i l [].
Proof.
  induction l as [|b l IH]; intros i F; cbn [concat].
  - rewrite skipn_nil. destruct i; reflexivity.
  - pose proof (Forall_inv F) as Lb. pose proof (Forall_inv_tail F) as Fl. destruct i as [|i].
    + cbn [nth]. change (8 * 0)%nat with 0%nat. cbn [skipn]. rewrite <- Lb, firstn_app, Nat.sub_diag, firstn_all. cbn. apply app_nil_r.
    + cbn [nth]. rewrite <- (IH i Fl). rewrite skipn_app. rewrite skipn_all2 by (unfold bytes in *; lia). cbn [app]. do 2 f_equal. unfold bytes in *. lia.
Qed.
Lemma concat8_len (l : list bytes) : Forall (fun b => length b = 8%nat) l -> length (concat l) = (8 * length l)%nat.
Proof. induction 1 as [|b l Hb F IH]; cbn [concat length]; [reflexivity|]. rewrite app_length. unfold bytes in *. lia. Qed.
Lemma record_out t : length (v_regs t) = 13%nat -> record_of (v_gas t) (v_regs t) (written t) /\ Bytes (written t).
Proof.
  intros L. unfold written. set (g := le_bytes 8 (as_unsigned (v_gas t))). set (rs := map (le_bytes 8) (v_regs t)).
  assert (Lg : length g = 8%nat) by apply le_bytes_length.
  assert (F : Forall (fun b => length b = 8%nat) rs) by (apply Forall_forall; intros b H; apply in_map_iff in H as (x & <- & _); apply le_bytes_length).
  assert (Lr : length rs = 13%nat) by (unfold rs; now rewrite map_length).
  split; [split; [|split; [exact L|split]]|].
  - rewrite app_length, (concat8_len rs F). unfold bytes in *. lia.
  - rewrite <- Lg, firstn_app, Nat.sub_diag, firstn_all. cbn [firstn]. rewrite app_nil_r. unfold g. rewrite le_val_le_bytes. unfold as_unsigned.
    change (256 ^ N.of_nat 8) with (2 ^ 64). assert (0 <= v_gas t mod 2 ^ 64 < 2 ^ 64)%Z by (apply Z.mod_pos_bound; lia). rewrite N.mod_small by lia. lia.
  - intros i Hi. rewrite skipn_app. rewrite skipn_all2 by lia. cbn [app]. replace (8 + 8 * i - length g)%nat with (8 * i)%nat by lia.
    rewrite (chunk8 rs i F). unfold rs. rewrite (nth_indep _ [] (le_bytes 8 0)) by (rewrite map_length; lia). rewrite map_nth, le_val_le_bytes. reflexivity.
  - apply Forall_app. split; [apply le_bytes_Bytes|]. apply Forall_concat. apply Forall_forall. intros b H. apply in_map_iff in H as (x & <- & _). apply le_bytes_Bytes.
Qed.

(** ** Every answer is the Graypaper's *)
Lemma write_stored m a n d : sound m -> N.of_nat (length d) = n -> stores_at m a n -> exists m', write_bytes m a d = Ok m' /\ stored m a d m'.
Proof.
  intros S L [Ha W]. destruct d as [|x d].
  - exists m. split; [reflexivity|]. unfold stored. cbn. split; [lia|auto].
  - destruct S as [[M Low]|[E _]]; [|destruct (W a) as [Q _]; [cbn [length] in L; lia|]; exfalso; lia].
    assert (Hd : x :: d <> []) by discriminate. destruct (write_bytes_ok_iff m a (x :: d) M Ha Hd) as (A & B & _).
    destruct A as [_ A]. destruct A as [m' Hm'].
    { rewrite L. split; [|exact W]. apply (low_page m); [exact Low|]. apply write_read, W. cbn [length] in L. lia. }
    exists m'. split; [exact Hm'|]. destruct (B m' Hm') as (C & D & E & _). split; [|split; [|auto]].
    + intros i Hi. rewrite C. replace ((a <=? a + N.of_nat i) && (a + N.of_nat i <? a + N.of_nat (length (x :: d)))) with true.
      * f_equal. lia.
      * symmetry. apply andb_true_intro. split; [apply N.leb_le; lia|apply N.ltb_lt; lia].
    + intros y Hy. rewrite C. destruct ((a <=? y) && (y <? a + N.of_nat (length (x :: d)))) eqn:Q; [|reflexivity]. apply andb_prop in Q as [Q1 Q2].
      apply N.leb_le in Q1. apply N.ltb_lt in Q2. exfalso. apply Hy. auto.
Qed.
Lemma write_sound m a d m' : sound m -> write_bytes m a d = Ok m' -> sound m'.
Proof.
  intros S W. destruct d as [|x d]; [injection W as <-; exact S|]. unfold write_bytes in W. destruct (validate _ _ _ _) as [[]| |] eqn:V; cbn [bind] in W; try discriminate.
  injection W as <-. destruct S as [[M Low]|E]; [left|right; exact E]. split; [exact M|exact Low].
Qed.

Lemma peer_cases e self s t : (r_ s 7 = t /\ t < 2 ^ 32 \/ r_ s 7 = 2 ^ 64 - 1 /\ t = self) -> re_exists e t = true ->
  (if (r_ s 7 =? 2 ^ 64 - 1) && re_exists e self then Some self else match as_u32 (r_ s 7) with Some t => if re_exists e t then Some t else None | None => None end) = Some t.
Proof.
  intros [[E L]|[E ->]] X.
  - rewrite E. assert (Ne : t =? 2 ^ 64 - 1 = false) by (apply N.eqb_neq; intros ->; revert L; discriminate). rewrite Ne. cbn [andb].
    replace (as_u32 t) with (Some t) by (symmetry; apply as_u32_some; auto). now rewrite X.
  - rewrite E, N.eqb_refl, X. reflexivity.
Qed.
Lemma peer_back e self s t :
  (if (r_ s 7 =? 2 ^ 64 - 1) && re_exists e self then Some self else match as_u32 (r_ s 7) with Some t => if re_exists e t then Some t else None | None => None end) = Some t ->
  (r_ s 7 = t /\ t < 2 ^ 32 \/ r_ s 7 = 2 ^ 64 - 1 /\ t = self) /\ re_exists e t = true.
Proof.
  destruct (N.eqb_spec (r_ s 7) (2 ^ 64 - 1)) as [E|E]; cbn [andb].
  - destruct (re_exists e self) eqn:X; [intros H; injection H as <-; auto|]. rewrite E. change (as_u32 (2 ^ 64 - 1)) with (@None N). discriminate.
  - destruct (as_u32 (r_ s 7)) as [u|] eqn:A; [|discriminate]. apply as_u32_some in A as [A B]. destruct (re_exists e u) eqn:X; [|discriminate]. intros H. injection H as <-.
    rewrite A in *. auto.
Qed.
Lemma refine_other e a self n s c : ~ In n [0; 1; 6; 7; 8; 9; 10; 11; 12; 13; 100] -> (10 <= v_gas s)%Z -> refine_host e a self n s c = Ok (what_result, c).
Proof.
  intros H G. unfold refine_host. destruct (n =? 100); [reflexivity|]. destruct (Z.ltb_spec (v_gas s) 10); [lia|].
  destruct n as [|p]; [exfalso; apply H; cbn; auto|].
  do 4 (destruct p as [p|p|]; try reflexivity; try (exfalso; apply H; cbn; tauto)).
Qed.

(** the pages of a range *)
Lemma pages_readable m first n : sound m -> first + n < 2 ^ 20 ->
  (if forallb (page_readable m) (range first (first + n)) then forall i, first <= i < first + n -> can_read m (4096 * i)
   else exists i, first <= i < first + n /\ ~ can_read m (4096 * i)) /\
  (forallb (page_readable m) (range first (first + n)) = true -> forall acc, exists m', set_pages m (range first (first + n)) acc = Ok m' /\ m_data m' = m_data m /\
     forall x, (4096 * first <= x < 4096 * (first + n) -> (can_read m' x <-> acc <> Inaccessible) /\ (can_write m' x <-> acc = ReadWrite)) /\
       (~ 4096 * first <= x < 4096 * (first + n) -> (can_read m' x <-> can_read m x) /\ (can_write m' x <-> can_write m x))).
Proof.
  intros S Hb. destruct S as [[M _]|[L P]].
  - assert (PR : forall i, page_readable m i = true <-> can_read m (4096 * i)). { intros i. rewrite <- page_readable_spec by exact M. rewrite N.mul_comm, N.div_mul by lia. reflexivity. }
    split.
    + destruct (forallb _ _) eqn:F.
      * intros i Hi. apply PR. rewrite forallb_forall in F. apply F, range_In, Hi.
      * apply not_true_iff_false in F. destruct (find (fun i => negb (page_readable m i)) (range first (first + n))) as [i|] eqn:Ef.
        -- apply find_some in Ef as [Hi Ef]. apply range_In in Hi. exists i. split; [exact Hi|]. rewrite <- PR. intros Q. now rewrite Q in Ef.
        -- exfalso. apply F. apply forallb_forall. intros i Hi. eapply find_none in Ef; [|exact Hi]. now apply negb_false_iff in Ef.
    + intros F acc. rewrite forallb_forall in F. destruct M as (Mp & Ml & M32). destruct (set_pages_spec (range first (first + n)) m acc) as (m' & E & A & D & Lm & _).
      { intros i Hi. apply F, PR in Hi as [Q _]. lia. }
      exists m'. split; [exact E|]. split; [exact D|]. intros x. unfold can_read, can_write. rewrite Lm, A.
      assert (X : existsb (N.eqb (x / 4096)) (range first (first + n)) = true <-> 4096 * first <= x < 4096 * (first + n)).
      { rewrite existsb_exists. split.
        - intros (i & Hi & Q). apply N.eqb_eq in Q. subst i. apply range_In in Hi. pose proof (N.mul_div_le x 4096 ltac:(lia)). pose proof (N.mul_succ_div_gt x 4096 ltac:(lia)). lia.
        - intros Hx. exists (x / 4096). rewrite N.eqb_refl. split; [|reflexivity]. apply range_In. split; [apply N.div_le_lower_bound; lia|apply N.div_lt_upper_bound; lia]. }
      split; intros Hx.
      * apply X in Hx as Hx'. rewrite Hx'. assert (Q : x < m_len m). { assert (Hi : In (x / 4096) (range first (first + n))). { apply existsb_exists in Hx' as (i & Hi & Q). apply N.eqb_eq in Q. now subst i. } apply F in Hi. apply PR in Hi as [Q _]. pose proof (N.mul_succ_div_gt x 4096 ltac:(lia)). rewrite Ml in Q |- *. nia. }
        tauto.
      * destruct (existsb _ _) eqn:Q; [exfalso; apply Hx, X; reflexivity|]. tauto.
  - assert (PR : forall i, page_readable m i = false). { intros i. unfold page_readable. rewrite P. destruct (N.ltb_spec i 0); [lia|reflexivity]. }
    destruct (N.eq_dec n 0) as [->|Hn].
    + unfold range. replace (N.to_nat (first + 0 - first)) with 0%nat by lia. cbn [nrange forallb set_pages]. split; [lia|]. intros _ acc. exists m. split; [reflexivity|]. split; [reflexivity|]. intros x. split; [lia|tauto].
    + destruct (forallb (page_readable m) (range first (first + n))) eqn:F.
      * exfalso. rewrite forallb_forall in F. specialize (F first ltac:(apply range_In; lia)). rewrite PR in F. discriminate.
      * split; [|discriminate]. exists first. split; [lia|]. intros [Q _]. lia.
Qed.

Lemma refine_sound e a self n s c h c' :
  guest s -> in_order c -> (forall i v, has c i v -> sound (in_mem v)) -> args_ok a -> (n = 8 -> no_gaps c) -> (n = 11 -> r_ s 8 + r_ s 9 < 2 ^ 64 /\ (2 < r_ s 10 \/ r_ s 9 = 0 \/ r_ s 8 < 16 \/ 2 ^ 20 <= r_ s 8 + r_ s 9)) -> ~ (n = 1 /\ r_ s 10 = 11) ->
  refine_host e a self n s c = Ok (h, c') -> gp_call e a self s c n h c'.
Proof.
  intros G O SI AO NG N11 NF H. assert (GS := guest_sound _ G). destruct G as [MO Low]. assert (G : guest s) by (split; assumption).
  assert (RL := fun i => r_lt s i MO).
  destruct (N.eq_dec n 100) as [->|N100]; [unfold refine_host in H; cbn in H; injection H as <- <-; constructor|].
  destruct (Z.lt_ge_cases (v_gas s) 10) as [Lg|Hg].
  { unfold refine_host in H. apply N.eqb_neq in N100 as N100'. rewrite N100' in H. apply Z.ltb_lt in Lg as Lg'. rewrite Lg' in H. injection H as <- <-. now apply C_starved. }
  destruct (in_dec N.eq_dec n [0; 1; 6; 7; 8; 9; 10; 11; 12; 13; 100]) as [Hi|Hi].
  2:{ rewrite refine_other in H by assumption. injection H as <- <-. now apply C_unknown. }
  unfold refine_host in H. apply Z.ltb_ge in Hg as Hg'. rewrite Hg' in H. cbn [In] in Hi.
  destruct Hi as [<-|[<-|[<-|[<-|[<-|[<-|[<-|[<-|[<-|[<-|[<-|[]]]]]]]]]]]]; try contradiction; cbn [N.eqb Pos.eqb] in H.
  - (* GAS *) injection H as <- <-. apply C_gas; [exact Hg|lia].
  - (* FETCH *) destruct (fetch_finds e a s AO) as (o & Eo & Fo); [tauto|]. rewrite Eo in H. cbn [bind] in H. injection H as <- <-. destruct o as [d|].
    + unfold answer_fetch. assert (P := part_exists d (r_ s 8) (r_ s 9)). set (b := firstn _ _) in P. clearbody b.
      change (Host_Model.reg s 7) with (r_ s 7). change (Host_Model.reg s 8) with (r_ s 8). change (Host_Model.reg s 9) with (r_ s 9).
      destruct (copied_cases s d (r_ s 7) (r_ s 8) (r_ s 9) b G) as [[A ->]|[A ->]]; [exact P| |]; [eapply C_fetch|eapply C_fetch_panic]; eassumption.
    + now apply C_fetch_none.
  - (* HISTORICAL_LOOKUP *) unfold historical_lookup in H. rewrite rd_rdm in H. change (Host_Model.reg s 7) with (r_ s 7) in H. change (Host_Model.reg s 8) with (r_ s 8) in H.
    destruct (rdm (v_mem s) (r_ s 8) 32) as [hash|] eqn:Eh.
    2:{ injection H as <- <-. apply C_hist_panic; [exact Hg|]. now apply rdm_none. }
    apply rdm_some in Eh; [|exact GS|reflexivity]. cbn zeta in H.
    destruct (if (r_ s 7 =? 2 ^ 64 - 1) && re_exists e self then _ else _) as [t|] eqn:Et.
    + apply peer_back in Et as Et'. destruct Et' as [T1 T2]. destruct (re_lookup e t (k_anchor (ra_pkg a)) hash) as [d|] eqn:El.
      * injection H as <- <-. assert (P := part_exists d (r_ s 10) (r_ s 11)). set (b := firstn _ _) in P. clearbody b.
        change (Host_Model.reg s 9) with (r_ s 9). change (Host_Model.reg s 10) with (r_ s 10). change (Host_Model.reg s 11) with (r_ s 11).
        destruct (copied_cases s d (r_ s 9) (r_ s 10) (r_ s 11) b G) as [[A ->]|[A ->]]; [exact P| |]; [eapply C_hist|eapply C_hist_write]; eassumption.
      * injection H as <- <-. eapply C_hist_none; [exact Hg|exact Eh|]. intros t' T' X'. pose proof (peer_cases e self s t' T' X') as Q. rewrite Et in Q. injection Q as <-. exact El.
    + injection H as <- <-. eapply C_hist_none; [exact Hg|exact Eh|]. intros t' T' X'. pose proof (peer_cases e self s t' T' X') as Q. rewrite Et in Q. discriminate.
  - (* EXPORT *) unfold export in H. rewrite rd_rdm in H. change (Host_Model.reg s 7) with (r_ s 7) in H. change (Host_Model.reg s 8) with (r_ s 8) in H.
    assert (Hm : N.min (r_ s 8) SEGMENT_SIZE < 2 ^ 64) by (specialize (RL 8%nat); lia). change SEGMENT_SIZE with 4104 in H, Hm.
    destruct (rdm (v_mem s) (r_ s 7) (N.min (r_ s 8) 4104)) as [d|] eqn:Ed.
    2:{ injection H as <- <-. apply C_export_panic; [exact Hg|]. now apply rdm_none. }
    apply rdm_some in Ed; [|exact GS|exact Hm]. cbn zeta in H. change MAX_EXPORTS with 3072 in H.
    destruct (N.leb_spec 3072 (N.of_nat (length (rx_exports c)) + ra_offset a)) as [F|F]; injection H as <- <-.
    + eapply C_export_full; [exact Hg|exact Ed|lia].
    + rewrite N.add_comm. eapply C_export with (seg := pad_segment d); [exact Hg|exact Ed|lia| | |reflexivity|reflexivity|reflexivity].
      * destruct Ed as (_ & Ld & _). unfold pad_segment. rewrite app_length, repeat_length. unfold SEGMENT_SIZE. lia.
      * intros i. unfold pad_segment. destruct (Nat.lt_ge_cases i (length d)) as [L|L]; [now rewrite app_nth1|]. rewrite app_nth2, nth_overflow with (l := d) by exact L.
        apply nth_repeat.
  - (* MACHINE *) unfold machine in H. rewrite rd_rdm in H. change (Host_Model.reg s 7) with (r_ s 7) in H. change (Host_Model.reg s 8) with (r_ s 8) in H. change (Host_Model.reg s 9) with (r_ s 9) in H.
    destruct (rdm (v_mem s) (r_ s 7) (r_ s 8)) as [d|] eqn:Ed.
    2:{ injection H as <- <-. apply C_machine_panic; [exact Hg|]. apply rdm_none; auto. }
    apply rdm_some in Ed; [|exact GS|apply RL]. destruct (deblob d) as [x|x|] eqn:Eb; [| |discriminate]; injection H as <- <-.
    + eapply C_machine with (v := mk_inner d mem_default (r_ s 9)); [exact Hg|exact Ed|exact Eb|reflexivity|reflexivity| |now apply next_unknown|now apply NG|now apply add_only|now apply add_order].
      intros y [Q _]. cbn in Q. lia.
    + eapply C_machine_huh; [exact Hg|exact Ed|congruence].
  - (* PEEK *) unfold peek in H. change (Host_Model.reg s 7) with (r_ s 7) in H. change (Host_Model.reg s 8) with (r_ s 8) in H. change (Host_Model.reg s 9) with (r_ s 9) in H.
    change (Host_Model.reg s 10) with (r_ s 10) in H. cbn [v_mem] in H.
    destruct (stores_dec (v_mem s) (r_ s 8) (r_ s 10) GS) as [(o & Eo & -> & Ew & St)|[[Eo|[Eo Ew]] St]]; rewrite Eo in H.
    2:{ injection H as <- <-. now apply C_peek_panic. }
    2:{ rewrite Ew in H. injection H as <- <-. now apply C_peek_panic. }
    rewrite Ew in H. cbn [negb] in H. destruct (get_vm c (r_ s 7)) as [v|] eqn:Ev.
    + apply get_has in Ev; [|exact O]. rewrite rd_rdm in H. cbn [v_mem] in H. assert (Sv := SI _ _ Ev). destruct (rdm (in_mem v) (r_ s 9) (r_ s 10)) as [d|] eqn:Ed; injection H as <- <-.
      * apply rdm_some in Ed; [|exact Sv|apply RL]. eapply C_peek; eassumption.
      * eapply C_peek_oob; [exact Hg|exact St|exact Ev|]. apply rdm_none; auto.
    + injection H as <- <-. apply C_peek_who; [exact Hg|exact St|]. now apply get_unknown.
  - (* POKE *) unfold poke in H. rewrite rd_rdm in H. change (Host_Model.reg s 7) with (r_ s 7) in H. change (Host_Model.reg s 8) with (r_ s 8) in H. change (Host_Model.reg s 9) with (r_ s 9) in H.
    change (Host_Model.reg s 10) with (r_ s 10) in H.
    destruct (rdm (v_mem s) (r_ s 8) (r_ s 10)) as [d|] eqn:Ed.
    2:{ injection H as <- <-. apply C_poke_panic; [exact Hg|]. apply rdm_none; auto. }
    apply rdm_some in Ed; [|exact GS|apply RL]. destruct (get_vm c (r_ s 7)) as [v|] eqn:Ev.
    2:{ injection H as <- <-. eapply C_poke_who; [exact Hg|exact Ed|]. now apply get_unknown. }
    apply get_has in Ev; [|exact O]. assert (Sv := SI _ _ Ev).
    destruct (stores_dec (in_mem v) (r_ s 9) (r_ s 10) Sv) as [(o & Eo & -> & Ew & St)|[[Eo|[Eo Ew]] St]]; rewrite Eo in H.
    2:{ injection H as <- <-. eapply C_poke_oob; eassumption. }
    2:{ rewrite Ew in H. injection H as <- <-. eapply C_poke_oob; eassumption. }
    rewrite Ew in H. cbn [negb] in H. assert (Ld : N.of_nat (length d) = r_ s 10) by apply Ed. destruct (write_stored (in_mem v) (r_ s 9) (r_ s 10) d Sv Ld St) as (m' & Em & Sm). rewrite Em in H. injection H as <- <-.
    eapply C_poke with (v' := mk_inner (in_code v) m' (in_pc v)); [exact Hg|exact Ed|exact Ev|exact St|exact Sm|reflexivity|reflexivity|]. eapply put_only; exact Ev.
  - (* PAGES *) destruct (N11 eq_refl) as [NW NM]. clear N11. unfold pages in H. change (Host_Model.reg s 7) with (r_ s 7) in H. change (Host_Model.reg s 8) with (r_ s 8) in H.
    change (Host_Model.reg s 9) with (r_ s 9) in H. change (Host_Model.reg s 10) with (r_ s 10) in H. destruct (get_vm c (r_ s 7)) as [v|] eqn:Ev.
    2:{ injection H as <- <-. apply C_pages_who; [exact Hg|]. now apply get_unknown. }
    apply get_has in Ev; [|exact O]. assert (Sv := SI _ _ Ev). cbn zeta in H. assert (U : u64 (r_ s 8 + r_ s 9) = r_ s 8 + r_ s 9) by (apply N.mod_small; exact NW). rewrite U in H. change (2 ^ 32 / PAGE_SIZE) with (2 ^ 20) in H.
    destruct ((4 <? r_ s 10) || (r_ s 8 <? 16) || (2 ^ 20 <=? r_ s 8 + r_ s 9)) eqn:Eb.
    { injection H as <- <-. eapply C_pages_huh; [exact Hg|exact Ev|]. apply orb_true_iff in Eb as [Eb|Eb]; [apply orb_true_iff in Eb as [Eb|Eb]|].
      - left. now apply N.ltb_lt. - right; left. now apply N.ltb_lt. - right; right; left. now apply N.leb_le. }
    apply orb_false_iff in Eb as [Eb E3]. apply orb_false_iff in Eb as [E1 E2]. apply N.ltb_ge in E1, E2. apply N.leb_gt in E3.
    destruct (pages_readable (in_mem v) (r_ s 8) (r_ s 9) Sv E3) as [PR PR'].
    destruct (N.ltb_spec 2 (r_ s 10)) as [E4|E4]; cbn [andb] in H.
    + destruct (forallb (page_readable (in_mem v)) (range (r_ s 8) (r_ s 8 + r_ s 9))) eqn:Ef; cbn [negb] in H.
      2:{ injection H as <- <-. eapply C_pages_huh; [exact Hg|exact Ev|]. do 3 right. auto. }
      assert (KK : forall acc, (acc = ReadOnly /\ r_ s 10 = 3 \/ acc = ReadWrite /\ r_ s 10 = 4) ->
        match set_pages (in_mem v) (range (r_ s 8) (r_ s 8 + r_ s 9)) acc with Ok m => Ok (code OK, put_vm c (r_ s 7) (mk_inner (in_code v) m (in_pc v))) | _ => Ok (code HUH, c) end = Ok (h, c') :> rans ->
        gp_call e a self s c 11 h c').
      { intros acc Hacc K. destruct (PR' eq_refl acc) as (m' & Em & Dm & Am). rewrite Em in K. injection K as <- <-.
        eapply C_pages with (v := v) (v' := mk_inner (in_code v) m' (in_pc v)); [exact Hg|exact Ev|exact E1|exact E2|exact E3|intros _; now apply PR| | |reflexivity|reflexivity|eapply put_only; exact Ev]; cbn [in_mem].
        - intros x Hx. rewrite Dm. split; [reflexivity|]. now apply Am.
        - intros x Hx. rewrite Dm. split; [destruct (N.ltb_spec (r_ s 10) 3); [lia|reflexivity]|]. destruct (Am x) as [Am' _]. destruct (Am' Hx) as [A1 A2]. rewrite A1, A2.
          destruct Hacc as [[-> ->]|[-> ->]]; intuition (try discriminate). }
      assert (Q : r_ s 10 = 3 \/ r_ s 10 = 4) by lia. destruct Q as [Q|Q]; rewrite Q in H; [apply (KK ReadOnly); [auto|exact H]|apply (KK ReadWrite); [auto|exact H]].
    + assert (Z0 : r_ s 9 = 0) by lia. rewrite Z0 in *. rewrite N.add_0_r in H. unfold range, set_page_range_access, range in H. rewrite N.sub_diag in H. cbn [N.to_nat nrange forallb set_pages] in H.
      change (u64 (0 * PAGE_SIZE)) with 0 in H. change (2 ^ 63 <=? 0) with false in H. cbn [N.to_nat repeat write_bytes] in H.
      assert (K : Ok (code OK, put_vm c (r_ s 7) (mk_inner (in_code v) (in_mem v) (in_pc v))) = Ok (h, c') :> rans).
      { destruct (r_ s 10 <? 3); exact H. }
      injection K as <- <-. eapply C_pages with (v := v) (v' := mk_inner (in_code v) (in_mem v) (in_pc v)); rewrite ?Z0;
        [exact Hg|exact Ev|exact E1|exact E2|exact E3|lia|intros x _; cbn [in_mem]; intuition|intros x Hx; exfalso; lia|reflexivity|reflexivity|eapply put_only; exact Ev].
  - (* INVOKE *) unfold invoke in H. change (Host_Model.reg s 7) with (r_ s 7) in H. change (Host_Model.reg s 8) with (r_ s 8) in H.
    destruct (stores_dec (v_mem s) (r_ s 8) 112 GS) as [(o & Eo & -> & Ew & St)|[[Eo|[Eo Ew]] St]]; rewrite Eo in H.
    2:{ injection H as <- <-. now apply C_invoke_panic. }
    2:{ rewrite Ew in H. injection H as <- <-. now apply C_invoke_panic. }
    rewrite Ew in H. cbn [negb] in H. destruct MO as (L13 & F13 & M & ML & MB).
    assert (RD : exists d, reads (v_mem s) (r_ s 8) 112 d).
    { exists (map (m_data (v_mem s)) (nrange (r_ s 8) 112)).
      split; [apply St|]. rewrite map_length, nrange_length. split; [reflexivity|]. intros i Hi. split; [apply write_read, St; lia|].
      rewrite nth_indep with (d' := m_data (v_mem s) 0) by (rewrite map_length, nrange_length; exact Hi). rewrite map_nth. f_equal. now rewrite nrange_nth by exact Hi. }
    destruct RD as [d Rd]. assert (Ld : length d = 112%nat) by (destruct Rd as (_ & Q & _); lia). assert (Bd := reads_bytes _ _ _ _ MB Rd).
    pose proof (read_eight (v_mem s) (r_ s 8) 112 d 0 M Low Rd ltac:(lia)) as E8. change (N.of_nat 0) with 0 in E8. rewrite N.add_0_r in E8. change (skipn 0 d) with d in E8. rewrite E8 in H.
    pose proof (read_regs_is (v_mem s) (r_ s 8) 112 d M Low Rd 13 8 ltac:(lia)) as ER. change (N.of_nat 8) with 8 in ER. rewrite ER in H.
    destruct (record_in d Bd Ld) as [RI RF]. set (regs := map _ (seq 0 13)) in *. set (gas := le_val (firstn 8 d)) in *.
    destruct (get_vm c (r_ s 7)) as [v|] eqn:Ev.
    2:{ injection H as <- <-. apply C_invoke_who; [exact Hg|exact St|]. now apply get_unknown. }
    apply get_has in Ev; [|exact O]. cbn zeta in H. destruct (N.leb_spec (2 ^ 63) gas) as [Lg|Lg]; [discriminate|].
    destruct (load_program (in_code v)) as [p| |] eqn:Ep; cbn [bind] in H; try discriminate.
    destruct (invoke_general (S (N.to_nat gas)) p (mk_vm regs (in_mem v) (in_pc v) (Z.of_N gas))) as [[[x t]| |]|] eqn:Er; cbn [bind] in H; try discriminate.
    destruct (reported x) as [[r7 r8]|] eqn:Ex; [|discriminate]. injection H as <- <-.
    assert (Lt : length (v_regs t) = 13%nat) by (apply invoke_regs in Er; exact Er). destruct (record_out t Lt) as [RO BO].
    eapply C_invoke with (v := v) (v' := mk_inner (in_code v) (v_mem t) _) (p := p) (gas := Z.of_N gas) (regs := regs) (x := x) (t := t);
      [exact Hg|exact St|exact Ev|exact Rd|exact RI|lia|exact RF|exact Ep|eexists; exact Er| |exact RO|exact BO|reflexivity|reflexivity|reflexivity|eapply put_only; exact Ev].
    destruct x; cbn in Ex; try discriminate; injection Ex as <- <-; cbn; auto.
  - (* EXPUNGE *) unfold expunge in H. change (Host_Model.reg s 7) with (r_ s 7) in H. destruct (get_vm c (r_ s 7)) as [v|] eqn:Ev; injection H as <- <-.
    + apply get_has in Ev; [|exact O]. eapply C_expunge; [exact Hg|exact Ev|apply remove_only].
    + apply C_expunge_who; [exact Hg|]. now apply get_unknown.
Qed.
