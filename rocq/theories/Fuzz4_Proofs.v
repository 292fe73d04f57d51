From Coq Require Import Sorted.
From Verif Require Import Base Base_Proofs Import_Model Fuzz_Model Fuzz_Spec Fuzz_Proofs Fuzz2_Proofs Fuzz3_Proofs.
Open Scope N_scope.

Section Sessions.
  Context {R B : Type} (cap : nat) (root : state -> N).
  Notation fblock := (@fblock B).
  Context (exec : R -> option aset -> state -> fblock -> R * option outcome) (gen : R -> state -> fblock -> R * option (list (N * option bytes))).
  Context (default_hash : N) (ring0 : R).
  Notation msgs := (messages cap root exec gen default_hash ring0).
  Notation opening a f h sl kvs anc l := (PeerInfo a f :: Initialize h sl kvs anc :: map message_of l).
  Notation first_root kvs := (root (fold_left (fun (s : state) (e : N * bytes) => put s (fst e) (snd e)) kvs [])).

  Lemma session_ok full an fk h sl kvs anc l : Forall (fine exec full) l ->
    exists rs, sessions cap root exec gen default_hash ring0 [opening an fk h sl kvs anc l] = [Peer :: Root (first_root kvs) :: rs] /\
      imports_right cap root exec fk an (planted cap ring0 an h sl kvs anc) l rs /\
      states_are cap root exec part_of fk an (planted cap ring0 an h sl kvs anc) l rs /\
      (full -> states_are cap root exec exactly fk an (planted cap ring0 an h sl kvs anc) l rs).
  Proof.
    intro F. set (t0 := mk_target (new_node default_hash ring0) 0 [] None [] an fk false false : @target R).
    destruct (planted_inv cap root exec gen default_hash ring0 full an fk t0 h sl kvs anc eq_refl eq_refl eq_refl eq_refl eq_refl) as [I1 E].
    exists (snd (msgs (fst (initialize cap root default_hash ring0 t0 h sl kvs anc)) (map message_of l))).
    split; [|destruct (run_ok cap root exec gen default_hash ring0 full fk an l _ _ I1 F) as (A & A1 & A2 & _); auto].
    unfold sessions, session. cbn [new_target t_node t_hash t_keys t_final t_staged t_state_init]. fold t0. cbn [messages process].
    change (t_session t0) with false. cbn iota. destruct (initialize cap root default_hash ring0 t0 h sl kvs anc) as [t r]. cbn [fst snd] in *. subst r.
    destruct (msgs t (map message_of l)) as [t' rs]. reflexivity.
  Qed.

  Lemma grow_rival an (f : @forest R) b c : fb_parent c = fb_parent b -> fb_hash c <> fb_parent c ->
    snd (grow cap root exec true an (fst (grow cap root exec true an f c)) b) = snd (grow cap root exec true an f b).
  Proof.
    intros EP NH. unfold grow. rewrite EP. set (p := fb_parent b) in *. set (f1 := settle f p).
    assert (K : existsb (N.eqb p) (kids f1) = false).
    { unfold f1, settle. destruct (existsb (N.eqb p) (kids f)) eqn:E; auto. }
    assert (S1 : settle f1 p = f1) by (unfold settle; rewrite K; auto).
    destruct (if p =? tip f1 then match posts f1 (tip f1) with Some q => child cap root exec an q c | None => None end else None) as [q|] eqn:C; cbn [fst].
    - assert (S2 : settle (mk_forest (tip f1) (fb_hash c :: kids f1) (learn (posts f1) (fb_hash c) q)) p = mk_forest (tip f1) (fb_hash c :: kids f1) (learn (posts f1) (fb_hash c) q)).
      { unfold settle. cbn [kids existsb]. rewrite K. rewrite EP in NH. rewrite (proj2 (N.eqb_neq p (fb_hash c))) by congruence. reflexivity. }
      rewrite S2. cbn [tip posts kids]. destruct (p =? tip f1) eqn:Et; [|reflexivity]. apply N.eqb_eq in Et. unfold learn.
      rewrite (proj2 (N.eqb_neq (tip f1) (fb_hash c))) by congruence. destruct (match posts f1 (tip f1) with Some q0 => child cap root exec an q0 b | None => None end); reflexivity.
    - rewrite S1. destruct (if p =? tip f1 then match posts f1 (tip f1) with Some q => child cap root exec an q b | None => None end else None); reflexivity.
  Qed.
  Lemma msgs_app l1 l2 : forall t, snd (msgs t (map message_of (l1 ++ l2))) = (snd (msgs t (map message_of l1)) ++ snd (msgs (fst (msgs t (map message_of l1))) (map message_of l2)))%list.
  Proof.
    induction l1 as [|q l1 IH]; intro t; [reflexivity|]. cbn [app map messages].
    assert (E : exists x, process cap root exec gen default_hash ring0 t (message_of q) = Some x) by (destruct q; cbn; eauto).
    destruct E as [[t' r] E]. rewrite E. specialize (IH t'). destruct (msgs t' (map message_of (l1 ++ l2))) as [u us]. destruct (msgs t' (map message_of l1)) as [v vs]. cbn [fst snd] in *. rewrite IH. reflexivity.
  Qed.
  Lemma rivals_ok an h sl kvs anc (l : list (@request B)) b c : Forall proper (l ++ [Import c; Import b]) -> fb_parent c = fb_parent b ->
    exists rs x r, sessions cap root exec gen default_hash ring0 [opening an true h sl kvs anc (l ++ [Import b])] = [(rs ++ [r])%list] /\
      sessions cap root exec gen default_hash ring0 [opening an true h sl kvs anc (l ++ [Import c; Import b])] = [(rs ++ [x; r])%list].
  Proof.
    intros P EP. 
    assert (T : forall l', Forall proper l' -> Forall (fine exec False) l').
    { intros l' F. eapply Forall_impl; [|eassumption]. intros [y|g]; cbn; [|auto]. intros [P1 P2]. split; auto. split; auto. intros []. }
    apply Forall_app in P. destruct P as [P1 P2]. apply T in P1. pose proof P2 as P3. apply T in P2.
    set (t0 := mk_target (new_node default_hash ring0) 0 [] None [] an true false false : @target R).
    destruct (planted_inv cap root exec gen default_hash ring0 False an true t0 h sl kvs anc eq_refl eq_refl eq_refl eq_refl eq_refl) as [J E].
    set (u := fst (initialize cap root default_hash ring0 t0 h sl kvs anc)) in *.
    assert (SE : forall l', sessions cap root exec gen default_hash ring0 [opening an true h sl kvs anc l'] = [Peer :: Root (first_root kvs) :: snd (msgs u (map message_of l'))]).
    { intro l'. unfold sessions, session. cbn [new_target t_node t_hash t_keys t_final t_staged t_state_init]. fold t0. cbn [messages process].
      change (t_session t0) with false. cbn iota. unfold u. destruct (initialize cap root default_hash ring0 t0 h sl kvs anc) as [y r]. cbn [fst snd] in *. subst r.
      destruct (msgs y (map message_of l')) as [z rs]. reflexivity. }
    rewrite !SE, !msgs_app. destruct (run_ok cap root exec gen default_hash ring0 False true an l u _ J P1) as (_ & _ & _ & V).
    set (w := fst (msgs u (map message_of l))) in *. set (f := grown cap root exec true an (planted cap ring0 an h sl kvs anc) l) in *.
    apply Forall_cons_iff in P2. destruct P2 as [Fc P2]. apply Forall_cons_iff in P2. destruct P2 as [Fb _].
    destruct (import_inv cap root exec gen False true an w f b V Fb) as [_ Rb]. destruct (import_inv cap root exec gen False true an w f c V Fc) as [Vc Rc].
    destruct (import_inv cap root exec gen False true an _ _ b Vc Fb) as [_ Rcb]. apply Forall_cons_iff in P3. destruct P3 as [[_ NH] _].
    rewrite grow_rival in Rcb by auto.
    exists (Peer :: Root (first_root kvs) :: snd (msgs u (map message_of l))), (snd (grow cap root exec true an f c)), (snd (grow cap root exec true an f b)).
    cbn [map message_of messages process]. destruct (process_import cap root exec gen w b) as [wb rb]. destruct (process_import cap root exec gen w c) as [wc rc]. cbn [fst snd] in *.
    destruct (process_import cap root exec gen wc b) as [wcb rcb]. cbn [fst snd] in *. subst. split; reflexivity.
  Qed.

  Lemma refused_ok (t : @target R) (b : fblock) : snd (process_import cap root exec gen t b) = Failed ->
    find_staged (t_staged t) (fb_parent b) = None -> fst (process_import cap root exec gen t b) = t.
  Proof.
    intros S F. unfold process_import in *. unfold finalize_parent in *. rewrite F in *. destruct (import_block cap root exec gen t (commit_mode t b) b) as [n [[[r cs] art]|]] eqn:E.
    - destruct (commit_mode t b); discriminate S.
    - cbn [fst]. unfold import_block in E. destruct (run_block exec gen t b) as [r' [[d cs]|]].
      + destruct (commit_mode t b); [discriminate|]. destruct d; discriminate.
      + injection E as <-. destruct t as [[ns nr nb nrt na] th tk tf ts ta tfo ti tse]. reflexivity.
  Qed.

  Lemma later_ok ls : forall t, later_sessions cap root exec gen default_hash ring0 t ls = map (fun l => snd (session cap root exec gen default_hash ring0 (new_target default_hash ring0) l)) ls.
  Proof.
    induction ls as [|l ls IH]; intro t; [reflexivity|]. cbn [later_sessions map].
    assert (E : snd (session cap root exec gen default_hash ring0 (reset default_hash ring0 t) l) = snd (session cap root exec gen default_hash ring0 (new_target default_hash ring0) l)).
    { unfold session. destruct l as [|[a f|? ? ? ?|?|?|] l]; reflexivity. }
    destruct (session cap root exec gen default_hash ring0 (reset default_hash ring0 t) l) as [t' rs]. cbn [snd] in E. rewrite E, IH. reflexivity.
  Qed.
  Lemma sessions_ok ls : sessions cap root exec gen default_hash ring0 ls = map (fun l => snd (session cap root exec gen default_hash ring0 (new_target default_hash ring0) l)) ls.
  Proof.
    destruct ls as [|l ls]; [reflexivity|]. cbn [sessions map]. destruct (session cap root exec gen default_hash ring0 (new_target default_hash ring0) l) as [t rs]. cbn [snd]. rewrite later_ok. reflexivity.
  Qed.
  (** ** The order of messages *)
  Notation proc := (process cap root exec gen default_hash ring0).
  Lemma keeps_session t m t' r : proc t m = Some (t', r) -> t_session t = true -> t_session t' = true.
  Proof.
    destruct m as [a f|h sl kvs anc|b|h|]; cbn [process]; try discriminate.
    - intros E S. rewrite S in E. discriminate E.
    - intros E S. injection E as E. unfold process_import in E.
      assert (Q : t_session (finalize_parent cap t (fb_parent b)) = true) by (unfold finalize_parent; destruct (find_staged (t_staged t) (fb_parent b)); exact S).
      set (u := finalize_parent cap t (fb_parent b)) in *. destruct (import_block cap root exec gen u (commit_mode u b) b) as [n [[[x cs] art]|]].
      + destruct (commit_mode u b); injection E as <- _; exact Q.
      + injection E as <- _. exact Q.
    - intros E S. injection E as <- _. exact S.
  Qed.
  Lemma stops t l1 m l2 : (forall t', t_session t = true -> t_session t' = true -> proc t' m = None) -> t_session t = true -> snd (msgs t (l1 ++ m :: l2)%list) = snd (msgs t l1).
  Proof.
    revert t. induction l1 as [|x l1 IH]; intros t N S; cbn [app messages].
    - rewrite (N t S S). reflexivity.
    - destruct (proc t x) as [[t' r]|] eqn:E; [|reflexivity]. pose proof (keeps_session _ _ _ _ E S) as S'.
      specialize (IH t' (fun u _ Su => N u S Su) S'). destruct (msgs t' (l1 ++ m :: l2)%list). destruct (msgs t' l1). cbn [snd] in *. congruence.
  Qed.
  Lemma stops_any t l1 m l2 : (forall t', proc t' m = None) -> snd (msgs t (l1 ++ m :: l2)%list) = snd (msgs t l1).
  Proof.
    intro N. revert t. induction l1 as [|x l1 IH]; intro t; cbn [app messages].
    - rewrite N. reflexivity.
    - destruct (proc t x) as [[t' r]|]; [|reflexivity]. specialize (IH t'). destruct (msgs t' (l1 ++ m :: l2)%list). destruct (msgs t' l1). cbn [snd] in *. congruence.
  Qed.
  Lemma second_initialize t l1 h sl kvs anc l2 h' sl' kvs' anc' l3 :
    snd (msgs t (l1 ++ Initialize h sl kvs anc :: l2 ++ Initialize h' sl' kvs' anc' :: l3)%list) = snd (msgs t (l1 ++ Initialize h sl kvs anc :: l2)%list).
  Proof.
    revert t. induction l1 as [|x l1 IH]; intro t; cbn [app].
    - cbn [messages]. destruct (proc t (Initialize h sl kvs anc)) as [[t' r]|] eqn:E; [|reflexivity].
      assert (S : t_session t' = true) by (cbn [process] in E; destruct (t_session t); [discriminate E|]; unfold initialize in E; cbv zeta in E; injection E as E1 E2; rewrite <- E1; reflexivity).
      pose proof (stops t' l2 (Initialize h' sl' kvs' anc') l3) as X. specialize (X (fun u _ Su => ltac:(cbn [process]; rewrite Su; reflexivity)) S).
      destruct (msgs t' (l2 ++ Initialize h' sl' kvs' anc' :: l3)%list). destruct (msgs t' l2). cbn [snd] in *. congruence.
    - cbn [messages]. destruct (proc t x) as [[t' r]|]; [|reflexivity]. specialize (IH t').
      destruct (msgs t' (l1 ++ Initialize h sl kvs anc :: l2 ++ Initialize h' sl' kvs' anc' :: l3)%list). destruct (msgs t' (l1 ++ Initialize h sl kvs anc :: l2)%list). cbn [snd] in *. congruence.
  Qed.
End Sessions.
