(** Proofs about announcing. *)
From Verif Require Import Base Announce_Model Announce_Spec.
From Coq Require Import Lia.

Lemma put_at_same : forall A (l : list A) i x y, nth_error l i = Some y -> nth_error (put_at l i x) i = Some x.
Proof. intros A l. induction l as [|z l IH]; intros [|i] x y H; try discriminate H; cbn in *; eauto. Qed.
Lemma put_at_other : forall A (l : list A) i j x, i <> j -> nth_error (put_at l i x) j = nth_error l j.
Proof. intros A l. induction l as [|z l IH]; intros [|i] [|j] x H; cbn; auto; try congruence. Qed.
Lemma put_at_length : forall A (l : list A) i x, length (put_at l i x) = length l.
Proof. intros A l. induction l as [|z l IH]; intros [|i] x; cbn; auto. Qed.
Lemma set_link_same : forall p a l, set_link p a l a = Some l.
Proof. intros. unfold set_link. rewrite N.eqb_refl. reflexivity. Qed.
Lemma set_link_other : forall p a l x, x <> a -> set_link p a l x = p x.
Proof. intros. unfold set_link. destruct (N.eqb_spec x a); congruence. Qed.
Lemma given_app : forall c a b, given_to c (a ++ b) = given_to c a ++ given_to c b.
Proof. intros. apply flat_map_app. Qed.
Lemma wire_app : forall c a b, on_wire c (a ++ b) = on_wire c a ++ on_wire c b.
Proof. intros. apply flat_map_app. Qed.
Lemma told_app : forall i a b, told_by i (a ++ b) = told_by i a ++ told_by i b.
Proof. intros. apply flat_map_app. Qed.
Lemma run_app : forall es1 es2 s, run s (es1 ++ es2) = (fst (run (fst (run s es1)) es2), snd (run s es1) ++ snd (run (fst (run s es1)) es2)).
Proof.
  induction es1 as [|e es1 IH]; intros es2 s; cbn [run app].
  - cbn [fst snd app]. destruct (run s es2); reflexivity.
  - destruct (happens s e) as [s1 o1]. rewrite IH. destruct (run s1 es1) as [s2 o2]. cbn [fst snd]. rewrite app_assoc. reflexivity.
Qed.
Lemma run_snoc : forall es e s, run s (es ++ [e]) = (fst (happens (fst (run s es)) e), snd (run s es) ++ snd (happens (fst (run s es)) e)).
Proof.
  intros es e s. rewrite run_app. cbn [run]. destruct (happens (fst (run s es)) e) as [s2 o2]. cbn [fst snd]. rewrite app_nil_r. reflexivity.
Qed.

(** ** What one event does to a channel *)
Lemma chan_step : forall s e c ch, nth_error (chans s) c = Some ch ->
  exists ch', nth_error (chans (fst (happens s e))) c = Some ch' /\
    ((c_open ch' = true /\ c_open ch = true /\ pending ch ++ given_to c (snd (happens s e)) = on_wire c (snd (happens s e)) ++ pending ch') \/
     (c_open ch' = false /\ given_to c (snd (happens s e)) = [] /\ on_wire c (snd (happens s e)) = [])).
Proof.
  intros s e c ch H. destruct e as [a|a|d|d ok|b order|i]; cbn [happens].
  - exists ch. unfold store_connection. destruct (peers s a); cbn [fst snd chans]; (split; [exact H|]); (destruct (c_open ch) eqn:O; [left; split; [auto|split; [auto|cbn; rewrite app_nil_r; reflexivity]]|right; auto]).
  - exists ch. cbn [fst snd open_stream chans]. split; [rewrite nth_error_app1 by (apply nth_error_Some; congruence); exact H|].
    destruct (c_open ch) eqn:O; [left; split; [auto|split; [auto|cbn; rewrite app_nil_r; reflexivity]]|right; auto].
  - unfold take. destruct (nth_error (chans s) d) as [x|] eqn:D;
      [|exists ch; split; [exact H|]; destruct (c_open ch) eqn:O; [left; split; [auto|split; [auto|cbn; rewrite app_nil_r; reflexivity]]|right; auto]].
    assert (Stay : exists ch', nth_error (chans s) c = Some ch' /\ ((c_open ch' = true /\ c_open ch = true /\ pending ch ++ given_to c [] = on_wire c [] ++ pending ch') \/ (c_open ch' = false /\ given_to c [] = [] /\ on_wire c [] = []))).
    { exists ch. split; [exact H|]. destruct (c_open ch) eqn:O; [left; split; [auto|split; [auto|cbn; rewrite app_nil_r; reflexivity]]|right; auto]. }
    destruct x as [[|] [|m q] [w|]]; try exact Stay. cbn [fst snd with_chan chans]. destruct (Nat.eq_dec d c) as [->|N].
    + rewrite H in D. injection D as ->. eexists. split; [eapply put_at_same; exact H|]. left. cbn. split; [auto|]. split; [auto|]. rewrite app_nil_r. reflexivity.
    + rewrite put_at_other by exact N. exact Stay.
  - assert (Stay : exists ch', nth_error (chans s) c = Some ch' /\ ((c_open ch' = true /\ c_open ch = true /\ pending ch ++ given_to c [] = on_wire c [] ++ pending ch') \/ (c_open ch' = false /\ given_to c [] = [] /\ on_wire c [] = []))).
    { exists ch. split; [exact H|]. destruct (c_open ch) eqn:O; [left; split; [auto|split; [auto|cbn; rewrite app_nil_r; reflexivity]]|right; auto]. }
    unfold write. destruct (nth_error (chans s) d) as [x|] eqn:D; [|exact Stay]. destruct x as [[|] q [w|]]; try exact Stay. destruct ok; cbn [fst snd with_chan chans].
    + destruct (Nat.eq_dec d c) as [->|N].
      * rewrite H in D. injection D as ->. eexists. split; [eapply put_at_same; exact H|]. left. cbn. rewrite Nat.eqb_refl. cbn. split; [auto|]. split; [auto|]. rewrite app_nil_r. reflexivity.
      * rewrite put_at_other by exact N. destruct Stay as (ch' & E & S). exists ch'. split; [exact E|]. cbn. destruct (Nat.eqb_spec d c); [contradiction|]. exact S.
    + destruct (Nat.eq_dec d c) as [->|N].
      * eexists. split; [eapply put_at_same; exact H|]. right. auto.
      * rewrite put_at_other by exact N. exact Stay.
  - exists ch. cbn [fst snd chans]. split; [exact H|]. destruct (c_open ch) eqn:O; [left; split; [auto|split; [auto|cbn; rewrite app_nil_r; reflexivity]]|right; auto].
  - assert (Stay : exists ch', nth_error (chans s) c = Some ch' /\ ((c_open ch' = true /\ c_open ch = true /\ pending ch ++ given_to c [] = on_wire c [] ++ pending ch') \/ (c_open ch' = false /\ given_to c [] = [] /\ on_wire c [] = []))).
    { exists ch. split; [exact H|]. destruct (c_open ch) eqn:O; [left; split; [auto|split; [auto|cbn; rewrite app_nil_r; reflexivity]]|right; auto]. }
    unfold goes_on. destruct (nth_error (calls s) i) as [[b p]|]; [|exact Stay]. destruct p as [[|a rest]| |]; try exact Stay.
    destruct (peers s a) as [[|[d|]]|]; try exact Stay. destruct (nth_error (chans s) d) as [x|] eqn:D; [|exact Stay].
    destruct (c_open x) eqn:O; [|exact Stay]. destruct (Nat.ltb (length (c_queue x)) buffer); [|exact Stay]. cbn [fst snd with_call with_chan chans].
    destruct (Nat.eq_dec d c) as [->|N].
    + rewrite H in D. injection D as <-. eexists. split; [eapply put_at_same; exact H|]. left. cbn. rewrite Nat.eqb_refl. cbn. split; [auto|]. split; [auto|].
      unfold pending. cbn [c_writing c_queue]. destruct (c_writing ch); reflexivity.
    + rewrite put_at_other by exact N. destruct Stay as (ch' & E & S). exists ch'. split; [exact E|]. cbn. destruct (Nat.eqb_spec d c); [contradiction|]. exact S.
Qed.
Lemma chan_none : forall s e c, nth_error (chans s) c = None -> given_to c (snd (happens s e)) = [] /\ on_wire c (snd (happens s e)) = [] /\
  (forall ch, nth_error (chans (fst (happens s e))) c = Some ch -> c_open ch = true /\ pending ch = []).
Proof.
  intros s e c H. assert (K : forall n x, nth_error (put_at (chans s) n x) c = None) by (intros; apply nth_error_None; rewrite put_at_length; apply nth_error_None; exact H).
  destruct e as [a|a|d|d ok|b order|i]; cbn [happens].
  - unfold store_connection. destruct (peers s a); cbn; (split; [auto|]); (split; [auto|]); intros; congruence.
  - cbn [fst snd open_stream chans]. split; [auto|]. split; [auto|]. intros ch E. destruct (Nat.eq_dec c (length (chans s))) as [->|N].
    + rewrite nth_error_app2, Nat.sub_diag in E by lia. cbn in E. injection E as <-. auto.
    + apply nth_error_None in H. assert (X : nth_error (chans s ++ [{| c_open := true; c_queue := []; c_writing := None |}]) c = None) by (apply nth_error_None; rewrite app_length; cbn; lia). congruence.
  - unfold take. destruct (nth_error (chans s) d) as [[[|] [|m q] [w|]]|] eqn:D; cbn; (split; [auto|]); (split; [auto|]); intros ch E; congruence.
  - unfold write. destruct (nth_error (chans s) d) as [[[|] q [w|]]|] eqn:D; try (cbn; split; [auto|split; [auto|intros; congruence]]).
    assert (d <> c) by (intro; subst; congruence). destruct ok; cbn; [destruct (Nat.eqb_spec d c); [contradiction|]|]; (split; [auto|]); (split; [auto|]); intros ch E; rewrite K in E; discriminate E.
  - cbn. split; [auto|]. split; [auto|]. intros; congruence.
  - assert (Stay : given_to c [] = [] /\ on_wire c [] = [] /\ (forall ch, nth_error (chans s) c = Some ch -> c_open ch = true /\ pending ch = [])) by (split; [auto|split; [auto|intros; congruence]]).
    unfold goes_on. destruct (nth_error (calls s) i) as [[b p]|]; [|exact Stay]. destruct p as [[|a rest]| |]; try exact Stay.
    destruct (peers s a) as [[|[d|]]|]; try exact Stay. destruct (nth_error (chans s) d) as [x|] eqn:D; [|exact Stay].
    destruct (c_open x); [|exact Stay]. destruct (Nat.ltb (length (c_queue x)) buffer); [|exact Stay]. assert (d <> c) by (intro; subst; congruence).
    cbn. destruct (Nat.eqb_spec d c); [contradiction|]. split; [auto|]. split; [auto|]. intros ch E; rewrite K in E; discriminate E.
Qed.
Lemma in_order : forall l es c, exists tail, given_to c (snd (run (loaded l) es)) = on_wire c (snd (run (loaded l) es)) ++ tail /\
  (forall ch, nth_error (chans (fst (run (loaded l) es))) c = Some ch -> c_open ch = true -> tail = pending ch) /\
  (nth_error (chans (fst (run (loaded l) es))) c = None -> tail = [] /\ on_wire c (snd (run (loaded l) es)) = []).
Proof.
  intros l es c. induction es as [|e es IH] using rev_ind.
  - exists []. cbn. split; [auto|]. split; [|auto]. intros ch E. destruct c; discriminate E.
  - rewrite run_snoc. cbn [fst snd]. destruct IH as (tail & G & Op & No). set (s := fst (run (loaded l) es)) in *. set (o := snd (run (loaded l) es)) in *.
    rewrite given_app, wire_app, G. destruct (nth_error (chans s) c) as [ch|] eqn:C.
    + destruct (chan_step s e c ch C) as (ch' & C' & [(O' & O & E)|(O' & E1 & E2)]).
      * exists (pending ch'). rewrite (Op ch eq_refl O). split; [rewrite <- app_assoc, E, app_assoc; reflexivity|]. split; [intros; congruence|intros; congruence].
      * exists tail. rewrite E1, E2, !app_nil_r. split; [auto|]. split; intros; congruence.
    + destruct (No eq_refl) as (-> & W). destruct (chan_none s e c C) as (E1 & E2 & E3). exists []. rewrite E1, E2, W. cbn. split; [auto|]. split; [|auto].
      intros ch Ch _. symmetry. apply (E3 ch Ch).
Qed.

(** ** What one event does to a call *)
Lemma call_step : forall s e i b p, nth_error (calls s) i = Some (b, p) ->
  (nth_error (calls (fst (happens s e))) i = Some (b, p) /\ told_by i (snd (happens s e)) = []) \/
  (p = Going [] /\ nth_error (calls (fst (happens s e))) i = Some (b, Finished) /\ told_by i (snd (happens s e)) = []) \/
  exists a rest, p = Going (a :: rest) /\
    (((forall c, peers s a <> Some (Joined (Some c))) /\ nth_error (calls (fst (happens s e))) i = Some (b, Going rest) /\ told_by i (snd (happens s e)) = []) \/
     (exists c ch, peers s a = Some (Joined (Some c)) /\ nth_error (chans s) c = Some ch /\ c_open ch = true /\ (length (c_queue ch) < buffer)%nat /\
        nth_error (calls (fst (happens s e))) i = Some (b, Going rest) /\ told_by i (snd (happens s e)) = [(a, c)]) \/
     (exists c ch, peers s a = Some (Joined (Some c)) /\ nth_error (chans s) c = Some ch /\ c_open ch = false /\
        nth_error (calls (fst (happens s e))) i = Some (b, Failed) /\ told_by i (snd (happens s e)) = [])).
Proof.
  intros s e i b p H. destruct e as [a|a|d|d ok|b' order|j]; cbn [happens].
  - left. unfold store_connection. destruct (peers s a); auto.
  - left. auto.
  - left. unfold take. destruct (nth_error (chans s) d) as [[[|] [|m q] [w|]]|]; auto.
  - left. unfold write. destruct (nth_error (chans s) d) as [[[|] q [w|]]|]; auto. destruct ok; auto.
  - left. cbn. split; [rewrite nth_error_app1 by (apply nth_error_Some; congruence); exact H|reflexivity].
  - unfold goes_on. destruct (nth_error (calls s) j) as [[b' p']|] eqn:J; [|left; auto].
    destruct (Nat.eq_dec j i) as [->|N].
    + rewrite H in J. injection J as <- <-. destruct p as [[|a rest]| |]; try (left; split; [exact H|reflexivity]).
      * right. left. cbn. split; [auto|]. split; [eapply put_at_same; exact H|reflexivity].
      * destruct (peers s a) as [[|[d|]]|] eqn:Pa.
        -- right. right. exists a, rest. split; [auto|]. left. cbn. split; [intros; congruence|]. split; [eapply put_at_same; exact H|reflexivity].
        -- destruct (nth_error (chans s) d) as [x|] eqn:D; [|left; auto]. destruct (c_open x) eqn:O.
           ++ destruct (Nat.ltb_spec (length (c_queue x)) buffer); [|left; auto]. right. right. exists a, rest. split; [auto|]. right. left. exists d, x. cbn. rewrite Nat.eqb_refl.
              repeat split; auto. eapply put_at_same; exact H.
           ++ right. right. exists a, rest. split; [auto|]. right. right. exists d, x. cbn. repeat split; auto. eapply put_at_same; exact H.
        -- right. right. exists a, rest. split; [auto|]. left. cbn. split; [intros; congruence|]. split; [eapply put_at_same; exact H|reflexivity].
        -- right. right. exists a, rest. split; [auto|]. left. cbn. split; [intros; congruence|]. split; [eapply put_at_same; exact H|reflexivity].
    + left. destruct p' as [[|a rest]| |]; try (split; [exact H|reflexivity]).
      * cbn. split; [rewrite put_at_other by exact N; exact H|reflexivity].
      * destruct (peers s a) as [[|[d|]]|]; try (cbn; split; [rewrite put_at_other by exact N; exact H|reflexivity]).
        destruct (nth_error (chans s) d) as [x|]; [|auto]. destruct (c_open x); [|cbn; split; [rewrite put_at_other by exact N; exact H|reflexivity]].
        destruct (Nat.ltb (length (c_queue x)) buffer); [|auto]. cbn. destruct (Nat.eqb_spec j i); [contradiction|]. split; [rewrite put_at_other by exact N; exact H|reflexivity].
Qed.
Lemma link_step : forall s e a, leaves a e -> peers (fst (happens s e)) a = peers s a.
Proof.
  intros s e a (L1 & L2). destruct e as [x|x|d|d ok|b' order|j]; cbn [happens].
  - unfold store_connection. destruct (peers s x); [|reflexivity]. cbn. apply set_link_other. congruence.
  - cbn. destruct (peers s x) as [[|]|]; try reflexivity. apply set_link_other. congruence.
  - unfold take. destruct (nth_error (chans s) d) as [[[|] [|m q] [w|]]|]; reflexivity.
  - unfold write. destruct (nth_error (chans s) d) as [[[|] q [w|]]|]; try reflexivity. destruct ok; reflexivity.
  - reflexivity.
  - unfold goes_on. destruct (nth_error (calls s) j) as [[b p]|]; [|reflexivity]. destruct p as [[|y rest]| |]; try reflexivity.
    destruct (peers s y) as [[|[d|]]|]; try reflexivity. destruct (nth_error (chans s) d) as [x|]; [|reflexivity]. destruct (c_open x); [|reflexivity].
    destruct (Nat.ltb (length (c_queue x)) buffer); reflexivity.
Qed.
(** A channel that is closed stays so; one that is full stays full or closes, unless a message is taken. *)
Definition jammed (s : net) (c : nat) : Prop := exists ch, nth_error (chans s) c = Some ch /\ (c_open ch = false \/ (buffer <= length (c_queue ch))%nat).
Definition shut (s : net) (c : nat) : Prop := exists ch, nth_error (chans s) c = Some ch /\ c_open ch = false.
Lemma shut_step : forall s e c, shut s c -> shut (fst (happens s e)) c.
Proof.
  intros s e c (ch & C & O). destruct (chan_step s e c ch C) as (ch' & C' & [(_ & O2 & _)|(O' & _)]); [congruence|]. exists ch'. auto.
Qed.
Lemma jam_step : forall s e c, e <> Taken c -> jammed s c -> jammed (fst (happens s e)) c.
Proof.
  intros s e c Ne (ch & C & K). assert (Stay : jammed s c) by (exists ch; auto). destruct e as [a|a|d|d ok|b order|i]; cbn [happens].
  - unfold store_connection. destruct (peers s a); exact Stay.
  - exists ch. cbn. split; [rewrite nth_error_app1 by (apply nth_error_Some; congruence); exact C|exact K].
  - unfold take. destruct (nth_error (chans s) d) as [[[|] [|m q] [w|]]|] eqn:D; try exact Stay. exists ch. cbn. split; [rewrite put_at_other by congruence; exact C|exact K].
  - unfold write. destruct (nth_error (chans s) d) as [[[|] q [w|]]|] eqn:D; try exact Stay. destruct (Nat.eq_dec d c) as [->|N].
    + rewrite C in D. injection D as ->. destruct ok; eexists; (split; [eapply put_at_same; exact C|]); [|left; reflexivity]. cbn in *. exact K.
    + destruct ok; exists ch; (split; [cbn; rewrite put_at_other by exact N; exact C|exact K]).
  - exact Stay.
  - unfold goes_on. destruct (nth_error (calls s) i) as [[b p]|]; [|exact Stay]. destruct p as [[|y rest]| |]; try exact Stay.
    destruct (peers s y) as [[|[d|]]|]; try exact Stay. destruct (nth_error (chans s) d) as [x|] eqn:D; [|exact Stay]. destruct (c_open x) eqn:O; [|exact Stay].
    destruct (Nat.ltb_spec (length (c_queue x)) buffer) as [L|L]; [|exact Stay]. cbn. destruct (Nat.eq_dec d c) as [->|N].
    + exfalso. rewrite C in D. injection D as ->. destruct K as [K|K]; [congruence|lia].
    + exists ch. cbn. split; [rewrite put_at_other by exact N; exact C|exact K].
Qed.

(** ** A peer nothing can be given to *)
Lemma stuck : forall (ok : net -> Prop) (fine : event -> Prop) a c,
  (forall s e, fine e -> ok s -> ok (fst (happens s e))) -> (forall e, fine e -> leaves a e) -> (forall s, ok s -> jammed s c) ->
  forall pre post b i es s, Forall fine es -> ok s -> peers s a = Some (Joined (Some c)) -> ~ In a pre ->
  forall pre', incl pre' pre -> (nth_error (calls s) i = Some (b, Going (pre' ++ a :: post)) \/ nth_error (calls s) i = Some (b, Failed)) ->
  (exists p, nth_error (calls (fst (run s es))) i = Some (b, p) /\ p <> Finished) /\ (forall x, In x (told_by i (snd (run s es))) -> In (fst x) pre).
Proof.
  intros ok fine a c Keep Lv Jm pre post b i es. induction es as [|e es IH]; intros s F K Pa Na pre' Inc St.
  - cbn. split; [|intros x []]. destruct St as [St|St]; eexists; (split; [exact St|discriminate]).
  - inversion F as [|? ? Fe Fes]; subst. cbn [run]. destruct (happens s e) as [s1 o1] eqn:He. destruct (run s1 es) as [s2 o2] eqn:R. cbn [fst snd]. rewrite told_app.
    assert (K1 : ok s1) by (replace s1 with (fst (happens s e)) by (rewrite He; reflexivity); apply Keep; assumption).
    assert (P1 : peers s1 a = Some (Joined (Some c))) by (replace s1 with (fst (happens s e)) by (rewrite He; reflexivity); rewrite link_step by (apply Lv; exact Fe); exact Pa).
    assert (Goal1 : exists pre'', incl pre'' pre /\ (nth_error (calls s1) i = Some (b, Going (pre'' ++ a :: post)) \/ nth_error (calls s1) i = Some (b, Failed)) /\ (forall x, In x (told_by i o1) -> In (fst x) pre)).
    { destruct St as [St|St]; pose proof (call_step s e i _ _ St) as X; rewrite He in X; cbn [fst snd] in X.
      - destruct X as [(X1 & X2)|[(X0 & _)|(a' & rest & X0 & X)]].
        + exists pre'. rewrite X2. split; [exact Inc|]. split; [left; exact X1|intros x []].
        + destruct pre'; discriminate X0.
        + destruct pre' as [|y pre']; cbn [app] in X0; injection X0 as <- <-.
          * destruct X as [(X1 & _)|[(c' & ch & X1 & X2 & X3 & X4 & _)|(c' & ch & X1 & X2 & X3 & X4 & X5)]].
            -- exfalso. exact (X1 _ Pa).
            -- exfalso. assert (c' = c) by congruence. subst c'. destruct (Jm s K) as (ch' & C1 & C2). assert (ch' = ch) by congruence. subst ch'. destruct C2; [congruence|lia].
            -- exists []. rewrite X5. split; [intros x []|]. split; [right; exact X4|intros x []].
          * assert (Inc' : incl pre' pre) by (intros z Z; apply Inc; right; exact Z).
            destruct X as [(X1 & X2 & X3)|[(c' & ch & X1 & X2 & X3 & X4 & X5 & X6)|(c' & ch & X1 & X2 & X3 & X4 & X5)]]; exists pre'; (split; [exact Inc'|]).
            -- split; [left; exact X2|]. rewrite X3. intros x [].
            -- split; [left; exact X5|]. rewrite X6. intros x [<-|[]]. apply Inc. left. reflexivity.
            -- split; [right; exact X4|]. rewrite X5. intros x [].
      - destruct X as [(X1 & X2)|[(X0 & _)|(a' & rest & X0 & X)]]; try discriminate X0. exists pre'. rewrite X2. split; [exact Inc|]. split; [right; exact X1|intros x []]. }
    destruct Goal1 as (pre'' & I2 & St2 & T1). specialize (IH s1 Fes K1 P1 Na pre'' I2 St2). rewrite R in IH. cbn [fst snd] in IH. destruct IH as (IH1 & IH2).
    split; [exact IH1|]. intros x Hx. apply in_app_or in Hx. destruct Hx; auto.
Qed.

(** ** A peer that stays connected is told *)
Lemma keeps_link : forall es s a, Forall (leaves a) es -> peers (fst (run s es)) a = peers s a.
Proof.
  induction es as [|e es IH]; intros s a F; [reflexivity|]. inversion F; subst. cbn [run]. destruct (happens s e) as [s1 o1] eqn:He. destruct (run s1 es) as [s2 o2] eqn:R. cbn [fst].
  replace s2 with (fst (run s1 es)) by (rewrite R; reflexivity). rewrite IH by assumption. replace s1 with (fst (happens s e)) by (rewrite He; reflexivity). apply link_step. assumption.
Qed.
Lemma call_stays : forall es s i b p, nth_error (calls s) i = Some (b, p) -> exists p', nth_error (calls (fst (run s es))) i = Some (b, p').
Proof.
  induction es as [|e es IH]; intros s i b p H; [exists p; exact H|]. cbn [run]. destruct (happens s e) as [s1 o1] eqn:He. destruct (run s1 es) as [s2 o2] eqn:R. cbn [fst].
  pose proof (call_step s e i _ _ H) as X. rewrite He in X. cbn [fst snd] in X.
  assert (exists p1, nth_error (calls s1) i = Some (b, p1)) as (p1 & H1).
  { destruct X as [(X1 & _)|[(_ & X1 & _)|(a & r & _ & [(_ & X1 & _)|[(c & ch & _ & _ & _ & _ & X1 & _)|(c & ch & _ & _ & _ & X1 & _)]])]]; eauto. }
  specialize (IH s1 i b p1 H1). rewrite R in IH. exact IH.
Qed.
Lemma visited : forall es s a c i b rest, Forall (leaves a) es -> peers s a = Some (Joined (Some c)) -> In a rest -> nth_error (calls s) i = Some (b, Going rest) ->
  nth_error (calls (fst (run s es))) i = Some (b, Finished) -> In (a, c) (told_by i (snd (run s es))).
Proof.
  induction es as [|e es IH]; intros s a c i b rest F Pa Ia Ci Fi; [cbn in Fi; congruence|]. inversion F as [|? ? Fe Fes]; subst.
  cbn [run] in *. destruct (happens s e) as [s1 o1] eqn:He. destruct (run s1 es) as [s2 o2] eqn:R. cbn [fst snd] in *. rewrite told_app. apply in_or_app.
  assert (P1 : peers s1 a = Some (Joined (Some c))) by (replace s1 with (fst (happens s e)) by (rewrite He; reflexivity); rewrite link_step by exact Fe; exact Pa).
  pose proof (call_step s e i _ _ Ci) as X. rewrite He in X. cbn [fst snd] in X.
  destruct X as [(X1 & X2)|[(X0 & _)|(a' & r & X0 & X)]].
  - right. specialize (IH s1 a c i b rest Fes P1 Ia X1). rewrite R in IH. apply IH. exact Fi.
  - injection X0 as ->. destruct Ia.
  - injection X0 as ->. destruct X as [(X1 & X2 & X3)|[(c' & ch & X1 & X2 & X3 & X4 & X5 & X6)|(c' & ch & X1 & X2 & X3 & X4 & X5)]].
    + destruct Ia as [->|Ia]; [exfalso; exact (X1 _ Pa)|]. right. specialize (IH s1 a c i b r Fes P1 Ia X2). rewrite R in IH. apply IH. exact Fi.
    + destruct Ia as [->|Ia]; [left; rewrite X6; left; congruence|]. right. specialize (IH s1 a c i b r Fes P1 Ia X5). rewrite R in IH. apply IH. exact Fi.
    + exfalso. assert (D : forall es s, nth_error (calls s) i = Some (b, Failed) -> nth_error (calls (fst (run s es))) i = Some (b, Failed)).
      { clear. induction es as [|e es IH]; intros s H; [exact H|]. cbn [run]. destruct (happens s e) as [s1 o1] eqn:He. destruct (run s1 es) as [s2 o2] eqn:R. cbn [fst].
        pose proof (call_step s e i _ _ H) as X. rewrite He in X. cbn [fst snd] in X. destruct X as [(X1 & _)|[(X0 & _)|(a & r & X0 & _)]]; try discriminate X0. specialize (IH s1 X1). rewrite R in IH. exact IH. }
      specialize (D es s1 X4). rewrite R in D. cbn [fst] in D. congruence.
Qed.
(** Whatever happens, a call tells the peers of its order at most once each, in this order. *)
Lemma told_within : forall es s i b rest, nth_error (calls s) i = Some (b, Going rest) -> within (map fst (told_by i (snd (run s es)))) rest.
Proof.
  assert (Dead : forall es s i b p, (p = Finished \/ p = Failed) -> nth_error (calls s) i = Some (b, p) -> told_by i (snd (run s es)) = []).
  { induction es as [|e es IH]; intros s i b p Hp H; [reflexivity|]. cbn [run]. destruct (happens s e) as [s1 o1] eqn:He. destruct (run s1 es) as [s2 o2] eqn:R. cbn [snd].
    rewrite told_app. pose proof (call_step s e i _ _ H) as X. rewrite He in X. cbn [fst snd] in X.
    destruct X as [(X1 & X2)|[(X0 & _)|(a & r & X0 & _)]]; try (subst p; destruct Hp; discriminate). rewrite X2. specialize (IH s1 i b p Hp X1). rewrite R in IH. exact IH. }
  induction es as [|e es IH]; intros s i b rest H; [constructor|]. cbn [run]. destruct (happens s e) as [s1 o1] eqn:He. destruct (run s1 es) as [s2 o2] eqn:R. cbn [snd]. rewrite told_app, map_app.
  pose proof (call_step s e i _ _ H) as X. rewrite He in X. cbn [fst snd] in X.
  destruct X as [(X1 & X2)|[(X0 & X1 & X2)|(a & r & X0 & X)]].
  - rewrite X2. specialize (IH s1 i b rest X1). rewrite R in IH. exact IH.
  - rewrite X2. specialize (Dead es s1 i b Finished (or_introl eq_refl) X1). rewrite R in Dead. cbn [snd] in Dead. rewrite Dead. constructor.
  - injection X0 as ->. destruct X as [(X1 & X2 & X3)|[(c' & ch & X1 & X2 & X3 & X4 & X5 & X6)|(c' & ch & X1 & X2 & X3 & X4 & X5)]].
    + rewrite X3. apply w_skip. specialize (IH s1 i b r X2). rewrite R in IH. exact IH.
    + rewrite X6. cbn. apply w_take. specialize (IH s1 i b r X5). rewrite R in IH. exact IH.
    + rewrite X5. specialize (Dead es s1 i b Failed (or_intror eq_refl) X4). rewrite R in Dead. cbn [snd] in Dead. rewrite Dead. constructor.
Qed.

(** ** All at once *)
Definition own (s : net) : Prop := forall a c, peers s a = Some (Joined (Some c)) -> (c < length (chans s))%nat /\ forall a', peers s a' = Some (Joined (Some c)) -> a' = a.
Lemma own_same : forall s s', (forall a, peers s' a = peers s a) -> length (chans s') = length (chans s) -> own s -> own s'.
Proof. intros s s' P L O a c H. rewrite P in H. destruct (O a c H) as (O1 & O2). rewrite L. split; [exact O1|]. intros a'. rewrite P. apply O2. Qed.
Lemma own_step : forall s e, own s -> own (fst (happens s e)).
Proof.
  intros s e O. destruct e as [x|x|d|d ok|b' order|j]; cbn [happens].
  - unfold store_connection. destruct (peers s x) eqn:X; [|exact O]. intros a c H. cbn in *. unfold set_link in *. destruct (N.eqb_spec a x); [discriminate H|].
    destruct (O a c H) as (O1 & O2). split; [exact O1|]. intros a' H'. destruct (N.eqb_spec a' x); [discriminate H'|]. apply O2. exact H'.
  - intros a c H. cbn in *. rewrite app_length. cbn. destruct (peers s x) as [[|u]|] eqn:X; try (destruct (O a c H) as (O1 & O2); split; [lia|exact O2]).
    unfold set_link in *. destruct (N.eqb_spec a x).
    + injection H as <-. split; [lia|]. intros a' H'. destruct (N.eqb_spec a' x); [congruence|]. destruct (O a' _ H') as (O1 & _). lia.
    + destruct (O a c H) as (O1 & O2). split; [lia|]. intros a' H'. destruct (N.eqb_spec a' x); [|apply O2; exact H']. injection H' as H'. lia.
  - unfold take. destruct (nth_error (chans s) d) as [[[|] [|m q] [w|]]|]; try exact O. apply (own_same s); [reflexivity|cbn; apply put_at_length|exact O].
  - unfold write. destruct (nth_error (chans s) d) as [[[|] q [w|]]|]; try exact O. destruct ok; (apply (own_same s); [reflexivity|cbn; apply put_at_length|exact O]).
  - apply (own_same s); [reflexivity|reflexivity|exact O].
  - unfold goes_on. destruct (nth_error (calls s) j) as [[b p]|]; [|exact O]. destruct p as [[|y rest]| |]; try exact O.
    destruct (peers s y) as [[|[d|]]|]; try exact O. destruct (nth_error (chans s) d) as [x|]; [|exact O]. destruct (c_open x); [|exact O].
    destruct (Nat.ltb (length (c_queue x)) buffer); [|exact O]. apply (own_same s); [reflexivity|cbn; apply put_at_length|exact O].
Qed.
Lemma own_reached : forall l s, reached l s -> own s.
Proof.
  intros l s (es & <-). induction es as [|e es IH] using rev_ind.
  - intros a c H. cbn in H. destruct (existsb (N.eqb a) l); discriminate H.
  - rewrite run_snoc. apply own_step. exact IH.
Qed.
Lemma conn_same : forall s s' l, (forall a, peers s' a = peers s a) -> connected s' l = connected s l.
Proof. intros s s' l H. unfold connected. apply flat_map_ext. intro a. rewrite H. reflexivity. Qed.
Lemma conn_in : forall s l a c, In (a, c) (connected s l) -> In a l /\ peers s a = Some (Joined (Some c)).
Proof.
  intros s l a c H. apply in_flat_map in H. destruct H as (x & Hx & H). destruct (peers s x) as [[|[d|]]|] eqn:E; try destruct H. 
  - injection H as <- <-. auto.
  - destruct H.
Qed.
Lemma at_once : forall order s i b, NoDup order -> own s -> roomy s order -> nth_error (calls s) i = Some (b, Going order) ->
  exists s', run s (repeat (Goes_on i) (S (length order))) = (s', map (fun x => Given i (fst x) (snd x) b) (connected s order)) /\ nth_error (calls s') i = Some (b, Finished).
Proof.
  induction order as [|a order IH]; intros s i b Nd O Ro Ci.
  - cbn [repeat length run happens connected flat_map map]. unfold goes_on. rewrite Ci. eexists. split; [reflexivity|]. eapply put_at_same. exact Ci.
  - change (repeat (Goes_on i) (S (length (a :: order)))) with (Goes_on i :: repeat (Goes_on i) (S (length order))).
    cbn [run happens]. inversion Nd as [|? ? Na Nd']; subst. unfold goes_on. rewrite Ci.
    assert (Cn : connected s (a :: order) = (match peers s a with Some (Joined (Some c)) => [(a, c)] | _ => [] end) ++ connected s order) by reflexivity.
    assert (Skip : (match peers s a with Some (Joined (Some c)) => [(a, c)] | _ => [] end) = [] ->
      exists s', (let '(s2, o2) := run (with_call s i (b, Going order)) (repeat (Goes_on i) (S (length order))) in (s2, [] ++ o2)) = (s', map (fun x => Given i (fst x) (snd x) b) (connected s (a :: order))) /\ nth_error (calls s') i = Some (b, Finished)).
    { intro E. rewrite E in Cn. cbn [app] in Cn.
      destruct (IH (with_call s i (b, Going order)) i b Nd') as (s' & R & F).
      - apply (own_same s); [reflexivity|reflexivity|exact O].
      - intros a' c' H. rewrite (conn_same s) in H by reflexivity. apply (Ro a' c'). rewrite Cn. exact H.
      - eapply put_at_same. exact Ci.
      - rewrite R. exists s'. split; [|exact F]. rewrite Cn. rewrite (conn_same s) by reflexivity. reflexivity. }
    destruct (peers s a) as [[|[c|]]|] eqn:Pa; try (apply Skip; reflexivity).
    destruct (Ro a c) as (ch & C1 & C2 & C3); [rewrite Cn; left; reflexivity|]. rewrite C1, C2. destruct (Nat.ltb_spec (length (c_queue ch)) buffer) as [_|L]; [|lia].
    set (s1 := with_call (with_chan s c {| c_open := true; c_queue := c_queue ch ++ [b]; c_writing := c_writing ch |}) i (b, Going order)).
    destruct (IH s1 i b Nd') as (s' & R & F).
    + apply (own_same s); [reflexivity|cbn; apply put_at_length|exact O].
    + intros a' c' H. rewrite (conn_same s) in H by reflexivity. destruct (Ro a' c') as (ch' & D1 & D2 & D3); [rewrite Cn; right; exact H|].
      exists ch'. split; [|auto]. cbn. rewrite put_at_other; [exact D1|]. intros <-. destruct (conn_in _ _ _ _ H) as (Ha & Pa'). destruct (O a c Pa) as (_ & U). specialize (U a' Pa'). congruence.
    + cbn. eapply put_at_same. exact Ci.
    + rewrite R. exists s'. split; [|exact F]. rewrite Cn. rewrite (conn_same s s1) by reflexivity. reflexivity.
Qed.
(** What a call gives is its own message. *)
Lemma given_blob : forall es s i a c b b' p, In (Given i a c b') (snd (run s es)) -> nth_error (calls s) i = Some (b, p) -> b' = b.
Proof.
  induction es as [|e es IH]; intros s i a c b b' p Hin H; [destruct Hin|]. cbn [run] in Hin. destruct (happens s e) as [s1 o1] eqn:He. destruct (run s1 es) as [s2 o2] eqn:R. cbn [snd] in Hin.
  apply in_app_or in Hin. destruct Hin as [Hin|Hin].
  - destruct e as [x|x|d|d ok|b2 order|j]; cbn [happens] in He; try (injection He as _ <-; destruct Hin).
    + unfold write in He. destruct (nth_error (chans s) d) as [[[|] q [w|]]|]; try (injection He as _ <-; destruct Hin).
      destruct ok; injection He as _ <-; [destruct Hin as [Hin|[]]; discriminate Hin|destruct Hin].
    + unfold goes_on in He. destruct (nth_error (calls s) j) as [[b2 p2]|] eqn:J; [|injection He as _ <-; destruct Hin]. destruct p2 as [[|y rest]| |]; try (injection He as _ <-; destruct Hin).
      destruct (peers s y) as [[|[d|]]|]; try (injection He as _ <-; destruct Hin). destruct (nth_error (chans s) d) as [x|]; [|injection He as _ <-; destruct Hin]. destruct (c_open x); [|injection He as _ <-; destruct Hin].
      destruct (Nat.ltb (length (c_queue x)) buffer); injection He as _ <-; [|destruct Hin]. destruct Hin as [Hin|[]]. congruence.
  - destruct (call_stays [e] s i b p H) as (p1 & H1). cbn [run] in H1. rewrite He in H1. cbn [fst] in H1. apply (IH s1 i a c b b' p1); [rewrite R; exact Hin|exact H1].
Qed.
