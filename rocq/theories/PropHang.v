(** Property theorems C32 and C99: exactly which calls return. *)
From Verif Require Import Base BaseFacts GoStrings Utils Buffer SpecBuffer BufferFacts Types Transforms Operators Transaction Variables Rules Engine
  SpecText NumFacts SpecVars VarText VarFacts SpecRules PropText RuleFacts TxnFacts SpecTxn LoopFacts PropPhases PropTxn PropRules Witness SpecData PropData SpecGate PropGate PropLog SpecBody PropBody PropSafe SpecHang.
From Coq Require Import ZifyBool.

(** ** Positions *)
Definition pos (t : txn) : Z * Z * Z := (t_phase t, t_cur t, t_next t).
Lemma effect_pos : forall rs a t u, pos t = pos u -> pos (effect rs a t) = pos (effect rs a u).
Proof.
  intros rs a t u H. unfold pos in *. injection H as H1 H2 H3. destruct a; simpl; try congruence.
  - unfold do_allow. destruct (bs_eqb arg []); [reflexivity|]. destruct (bs_eqb arg _); [simpl; unfold next_phase; now rewrite H1|].
    destruct (bs_eqb arg _); [reflexivity|congruence].
  - unfold jump_to. rewrite H1, H2. destruct (nrules rs (t_phase u) <=? t_cur u + 2); simpl; congruence.
Qed.
Lemma effects_pos_eq : forall rs l t u, pos t = pos u -> pos (effects rs l t) = pos (effects rs l u).
Proof.
  intros rs l. induction l as [|a l IH]; intros t u H; [exact H|]. change (pos (effects rs l (effect rs a t)) = pos (effects rs l (effect rs a u))).
  apply IH, effect_pos, H.
Qed.
(** A pending denial never keeps a call going longer. *)
Lemma effect_flag : forall rs a t u, (i_disruptive (get_iv u) = true -> i_disruptive (get_iv t) = true) ->
  i_disruptive (get_iv (effect rs a u)) = true -> i_disruptive (get_iv (effect rs a t)) = true.
Proof.
  intros rs a t u H. destruct a; simpl; auto.
  - unfold do_allow. destruct (bs_eqb arg []); [exact H|]. destruct (bs_eqb arg _); [exact H|]. now destruct (bs_eqb arg _).
  - unfold jump_to. now destruct (nrules rs (t_phase t) <=? t_cur t + 2), (nrules rs (t_phase u) <=? t_cur u + 2).
Qed.
Lemma effects_flag : forall rs l t u, (i_disruptive (get_iv u) = true -> i_disruptive (get_iv t) = true) ->
  i_disruptive (get_iv (effects rs l u)) = true -> i_disruptive (get_iv (effects rs l t)) = true.
Proof.
  intros rs l. induction l as [|a l IH]; intros t u H; [exact H|].
  change (i_disruptive (get_iv (effects rs l (effect rs a u))) = true -> i_disruptive (get_iv (effects rs l (effect rs a t))) = true).
  apply IH, effect_flag, H.
Qed.
(** The position stays inside the rules of the phase. *)
Definition placed (rs : ruleset) (t : txn) : Prop :=
  -1 <= t_cur t /\ (t_next t = StatusEndOfRules \/ (0 <= t_next t /\ (t_next t = 0 \/ t_next t < nrules rs (t_phase t)))).
Lemma effect_placed : forall rs a t, placed rs t -> placed rs (effect rs a t).
Proof.
  intros rs a t [H1 H2]. destruct a; try (split; assumption); simpl.
  - unfold do_allow. destruct (bs_eqb arg []); [split; simpl; [unfold StatusNotStarted; lia|right; lia]|].
    destruct (bs_eqb arg _); [split; simpl; [unfold StatusNotStarted; lia|right; lia]|].
    destruct (bs_eqb arg _); [split; simpl; [unfold StatusNotStarted; lia|right; lia]|]. split; assumption.
  - unfold jump_to. destruct (nrules rs (t_phase t) <=? t_cur t + 2) eqn:E; split; simpl; auto. right. lia.
Qed.
Lemma effects_placed : forall rs l t, placed rs t -> placed rs (effects rs l t).
Proof.
  intros rs l. induction l as [|a l IH]; intros t H; [exact H|]. change (placed rs (effects rs l (effect rs a t))). apply IH, effect_placed, H.
Qed.
Lemma touches_placed : forall rs t u, touches t u -> placed rs t -> placed rs u.
Proof. intros rs t u H. destruct (frame_position _ _ (touches_frame _ _ H)) as (A & C & D & _). unfold placed. now rewrite A, C, D. Qed.

Lemma rule_turn : forall d O e rs p i t t1, process_rule d O e rs p i t = Ret t1 -> turn O e rs p i t t1.
Proof. intros d O e rs p i t t1 H. exact (process_rule_cases _ _ _ _ _ _ _ _ H). Qed.
Lemma turn_placed : forall O e rs p i t t1, turn O e rs p i t t1 -> placed rs t -> placed rs t1.
Proof.
  intros O e rs p i t t1 [[_ ->]|[_ [(r & _ & _ & M)|(l & r & u & _ & _ & M & _ & ->)]]] P; [exact P| |].
  - eapply touches_placed; [eapply some_miss_touches; eauto|exact P].
  - apply effects_placed. eapply touches_placed; [eapply all_match_touches; eauto|exact P].
Qed.
(** At the evaluation of rule [i] the position is the one [i] stands for. *)
Definition stands (rs : ruleset) (p i : Z) (t : txn) : Prop :=
  t_phase t = p -> i <> StatusEndOfRules -> 0 <= i /\ (i = 0 \/ i < nrules rs p) /\ t_cur t = i /\ t_next t = after rs p i.
Lemma stands_placed : forall rs p i t, t_phase t = p -> i <> StatusEndOfRules -> stands rs p i t -> placed rs t.
Proof.
  intros rs p i t E N H. destruct (H E N) as (A & _ & C & D). split; [lia|]. rewrite D. unfold after, skipped_to. rewrite E.
  destruct (nrules rs p <=? i + 1) eqn:L; [now left|right; lia].
Qed.
Lemma next_stands : forall rs p t n t', placed rs t -> next_rule rs t = (n, t') -> stands rs p n t'.
Proof.
  intros rs p t n t' [_ G] H E N. assert (Q : t_phase t = p) by (unfold next_rule in H; destruct (t_next t =? StatusEndOfRules); injection H as _ <-; exact E).
  destruct (next_at rs p t n t' Q ltac:(tauto) H) as (-> & _ & A). destruct (A E N) as (A1 & A2 & A3). split; [exact A1|]. split; [|auto].
  rewrite Q in G. destruct G as [G|G]; [easy|tauto].
Qed.
Lemma stands_pos : forall rs p i t u, t_phase t = p -> t_phase u = p -> i <> StatusEndOfRules -> stands rs p i t -> stands rs p i u -> pos t = pos u.
Proof.
  intros rs p i t u E F N A C. destruct (A E N) as (_ & _ & A1 & A2). destruct (C F N) as (_ & _ & C1 & C2). unfold pos. congruence.
Qed.

(** ** Runs *)
Lemma goes_end : forall O e rs p i t l k u, goes O e rs p i t l k u -> t_phase u = p /\ k <> StatusEndOfRules.
Proof. intros O e rs p i t l k u H. induction H; auto. Qed.
Lemma goes_app : forall O e rs p i t l k u m j v, goes O e rs p i t l k u -> goes O e rs p k u m j v -> goes O e rs p i t (l ++ m) j v.
Proof. intros O e rs p i t l k u m j v H K. induction H as [|i t t1 j' t2 l k u E N T D X H IH]; [exact K|]. cbn [app]. econstructor; eauto. Qed.
Lemma goes_stands : forall O e rs p i t l k u, goes O e rs p i t l k u -> stands rs p i t -> stands rs p k u /\ forall j, In j l -> 0 <= j /\ (j = 0 \/ j < nrules rs p).
Proof.
  intros O e rs p i t l k u H. induction H as [i t E N|i t t1 j t2 l k u E N T D X H IH]; intro S; [split; [exact S|intros j []]|].
  assert (P : placed rs (touch_iv t1)) by exact (turn_placed _ _ _ _ _ _ _ T (stands_placed _ _ _ _ E N S)).
  destruct (IH (next_stands _ p _ _ _ P X)) as [S1 S2]. split; [exact S1|]. intros m [<-|I]; [|auto]. destruct (S E N) as (A & B' & _). auto.
Qed.
Lemma entered_stands : forall rs p t, 1 <= p <= 6 -> stands rs p 0 (entered rs p t).
Proof. intros rs p t P. destruct (entered_at rs p t ltac:(lia)) as (_ & _ & A). intros E N. destruct (A E N) as (A1 & A2 & A3). auto. Qed.

(** ** A rule evaluated twice *)
Section Twice.
Variables (O : oracles) (e : engine) (rs : ruleset) (p : Z) (t0 : txn) (ok : txn -> Prop).
Hypothesis ok_abort : forall t, ok t -> t_abort t = false.
Hypothesis ok_same : forall t u, ok t -> same t u -> ok u.
Hypothesis ok_all : forall r t t', In r (phase_rules rs p) -> ok t -> all_match O e (r :: r_subs r) t t' -> ok t' /\ chain_matches O e t0 r.
Hypothesis ok_miss : forall r t t', In r (phase_rules rs p) -> ok t -> some_miss O e (r :: r_subs r) t t' -> ok t' /\ ~ chain_matches O e t0 r.

Lemma turn_ok : forall i t t1, ok t -> turn O e rs p i t t1 -> ok t1.
Proof.
  intros i t t1 K [[_ ->]|[_ [(r & _ & N & M)|(l & r & u & _ & N & M & _ & ->)]]]; [exact K| |].
  - eapply ok_miss; [eapply nth_error_In; eauto|exact K|exact M].
  - eapply ok_same; [|apply effects_samebody]. eapply ok_all; [eapply nth_error_In; eauto|exact K|exact M].
Qed.
(** The same rule from the same position leads to the same position. *)
Lemma turn_again : forall i t t1 u u1, ok t -> ok u -> pos t = pos u -> turn O e rs p i t t1 -> turn O e rs p i u u1 ->
  i_disruptive (get_iv t1) = false -> i_disruptive (get_iv u) = false -> pos t1 = pos u1 /\ i_disruptive (get_iv u1) = false.
Proof.
  intros i t t1 u u1 K1 K2 P T1 T2 D1 D2.
  assert (PT : forall a b, touches a b -> pos b = pos a) by (intros a b H; destruct (frame_position _ _ (touches_frame _ _ H)) as (A & C & D & _); unfold pos; congruence).
  destruct T1 as [[L1 ->]|[L1 T1]], T2 as [[L2 ->]|[L2 T2]]; try lia; [auto|].
  destruct T1 as [(r & _ & N & M)|(l & r & v & _ & N & M & CA & ->)], T2 as [(r' & _ & N' & M')|(l' & r' & v' & _ & N' & M' & CA' & ->)];
    assert (r' = r) by congruence; subst r'; assert (I : In r (phase_rules rs p)) by (eapply nth_error_In; eauto).
  - destruct (ok_miss _ _ _ I K2 M') as [K3 _]. split; [rewrite (PT _ _ (some_miss_touches _ _ _ _ _ M)), (PT _ _ (some_miss_touches _ _ _ _ _ M')); exact P|].
    now rewrite (iv_miss _ _ _ _ _ (ok_abort _ K3) M').
  - destruct (ok_miss _ _ _ I K1 M) as [_ X]. destruct (ok_all _ _ _ I K2 M') as [_ Y]. easy.
  - destruct (ok_all _ _ _ I K1 M) as [_ X]. destruct (ok_miss _ _ _ I K2 M') as [_ Y]. easy.
  - destruct (ok_all _ _ _ I K2 M') as [K3 _]. rewrite (chain_fun _ _ _ _ CA' CA) in *. split.
    + apply effects_pos_eq. rewrite (PT _ _ (all_match_touches _ _ _ _ _ M)), (PT _ _ (all_match_touches _ _ _ _ _ M')). exact P.
    + destruct (i_disruptive (get_iv (effects rs l v'))) eqn:Q; [|reflexivity]. rewrite <- D1. symmetry. revert Q. apply effects_flag.
      rewrite (iv_all _ _ _ _ _ (ok_abort _ K3) M'), D2. discriminate.
Qed.
Lemma next_again : forall t t1 u u1 i j, pos t = pos u -> next_rule rs t = (i, t1) -> next_rule rs u = (j, u1) -> i = j /\ pos t1 = pos u1.
Proof.
  intros t t1 u u1 i j P H K. unfold pos in *. injection P as P1 P2 P3. unfold next_rule in *. rewrite P1, P3 in H.
  destruct (t_next u =? StatusEndOfRules); injection H as <- <-; injection K as <- <-; auto.
Qed.
Lemma next_ok : forall t n u, ok t -> next_rule rs (touch_iv t) = (n, u) -> ok u /\ get_iv u = get_iv t.
Proof.
  intros t n u K H. split.
  - eapply ok_same; [exact K|]. eapply same_trans; [|eapply next_samebody; eauto]. repeat split.
  - unfold next_rule in H. destruct (t_next (touch_iv t) =? StatusEndOfRules); injection H as _ <-; reflexivity.
Qed.
Lemma goes_ok : forall i t l k u, goes O e rs p i t l k u -> ok t -> ok u.
Proof.
  intros i t l k u H. induction H as [|i t t1 j t2 l k u E N T D X H IH]; intro K; [exact K|]. apply IH. eapply next_ok; [eapply turn_ok; eauto|exact X].
Qed.
Lemma goes_inv : forall i t l k u, goes O e rs p i t l k u -> t_phase t = p /\ i <> StatusEndOfRules /\
  ((l = [] /\ k = i /\ u = t) \/
   exists t1 j t2 m, l = i :: m /\ turn O e rs p i t t1 /\ i_disruptive (get_iv t1) = false /\ next_rule rs (touch_iv t1) = (j, t2) /\ goes O e rs p j t2 m k u).
Proof. intros i t l k u H. destruct H as [i t E N|i t t1 j t2 l k u E N T D X H]; (split; [exact E|]; split; [exact N|]); [left; auto|right; exists t1, j, t2, l; auto 10]. Qed.
(** [w] is about to repeat the part of the circle that [x] went. *)
Lemma circle_runs : forall i u l v, goes O e rs p i u l i v -> l <> [] -> stands rs p i u -> ok u ->
  forall d f j w x m t', goes O e rs p j x m i v -> m <> [] -> pos x = pos w -> ok x -> ok w -> i_disruptive (get_iv w) = false ->
  phase_loop f d O e rs p j w <> Ret t'.
Proof.
  intros i u l v C NE ST KU d f. induction f as [|f IH]; intros j w x m t' G NM P KX KW DW H; [discriminate|]. cbn [phase_loop] in H.
  apply goes_inv in G as (E & N & [(-> & _)|(t1 & b & t2 & m' & _ & T & D & X & G)]); [easy|].
  assert (PW : t_phase w = p) by (unfold pos in P; congruence). rewrite PW, Z.eqb_refl in H.
  destruct (Z.eqb_spec j StatusEndOfRules) as [Q|_]; [easy|]. cbn [andb negb] in H. apply bind_Ret in H as (w1 & R & H).
  apply rule_turn in R. destruct (turn_again _ _ _ _ _ KX KW P T R D DW) as [P1 D1].
  change (get_iv (touch_iv w1)) with (get_iv w1) in H. rewrite D1 in H. destruct (next_rule rs (touch_iv w1)) as [n w2] eqn:X2.
  destruct (next_again (touch_iv t1) t2 (touch_iv w1) w2 _ _ P1 X X2) as [<- P2].
  destruct (next_ok _ _ _ (turn_ok _ _ _ KX T) X) as [K2 _]. destruct (next_ok _ _ _ (turn_ok _ _ _ KW R) X2) as [K3 IV].
  assert (D3 : i_disruptive (get_iv w2) = false) by (rewrite IV; exact D1).
  destruct m' as [|y m'].
  - apply goes_inv in G as (E2 & N2 & [(_ & EI & EV)|(? & ? & ? & ? & Q & _)]); [|discriminate]. subst b t2.
    destruct (goes_stands _ _ _ _ _ _ _ _ _ C ST) as [SV _]. pose proof (goes_inv _ _ _ _ _ C) as (EU & NU & _).
    eapply IH; [exact C|exact NE| |exact KU|exact K3|exact D3|exact H]. rewrite <- P2. eapply stands_pos; eauto.
  - eapply IH; [exact G|discriminate|exact P2|exact K2|exact K3|exact D3|exact H].
Qed.
Lemma turn_fun : forall i t t1 t2, turn O e rs p i t t1 -> turn O e rs p i t t2 -> t2 = t1.
Proof.
  intros i t t1 w1 T R. destruct T as [[L1 ->]|[L1 T]], R as [[L2 ->]|[L2 R]]; try lia; [reflexivity|].
  assert (AF : forall rr a b c, all_match O e rr a b -> all_match O e rr a c -> b = c).
  { clear. intros rr a b c M. revert c. induction M as [|r rr a a1 b E M IH]; intros c C; inversion C; subst; [reflexivity|]. apply IH. unfold evals in *. congruence. }
  assert (SF : forall rr a b c, some_miss O e rr a b -> some_miss O e rr a c -> b = c).
  { clear. intros rr a b c M. revert c. induction M as [r rr a b E|r rr a a1 b E M IH]; intros c C; inversion C; subst; unfold evals in *; try congruence.
    apply IH. congruence. }
  destruct T as [(r & _ & NT & M)|(al & r & v & _ & NT & M & CA & ->)], R as [(r' & _ & NT' & M')|(al' & r' & v' & _ & NT' & M' & CA' & ->)];
    assert (r' = r) by congruence; subst r'.
  - eapply SF; eauto.
  - elim (match_exclusive _ _ _ _ _ _ M' M).
  - elim (match_exclusive _ _ _ _ _ _ M M').
  - rewrite (chain_fun _ _ _ _ CA' CA), (AF _ _ _ _ M M'). reflexivity.
Qed.
Lemma loop_follows : forall d i t l k u, goes O e rs p i t l k u -> forall f t', phase_loop f d O e rs p i t = Ret t' ->
  exists f', phase_loop f' d O e rs p k u = Ret t'.
Proof.
  intros d i t l k u G. induction G as [i t E N|i t t1 j t2 l k u E N T D X G IH]; intros f t' H; [eauto|].
  destruct f as [|f]; [discriminate|]. cbn [phase_loop] in H. rewrite E, Z.eqb_refl in H. destruct (Z.eqb_spec i StatusEndOfRules) as [Q|_]; [easy|].
  cbn [andb negb] in H. apply bind_Ret in H as (w1 & R & H). apply rule_turn in R. rewrite (turn_fun _ _ _ _ T R) in H.
  change (get_iv (touch_iv t1)) with (get_iv t1) in H. rewrite D, X in H. eapply IH; eauto.
Qed.
Lemma goes_flag : forall i t l k u, goes O e rs p i t l k u -> l <> [] -> i_disruptive (get_iv u) = false.
Proof.
  intros i t l k u G. induction G as [i t E N|i t t1 j t2 l k u E N T D X G IH]; intro NE; [easy|].
  destruct l as [|y l]; [|apply IH; discriminate]. apply goes_inv in G as (_ & _ & [(_ & _ & ->)|(? & ? & ? & ? & Q & _)]); [|discriminate].
  unfold next_rule in X. destruct (t_next (touch_iv t1) =? StatusEndOfRules); injection X as _ <-; exact D.
Qed.
Lemma goes_split : forall i t l k u x, goes O e rs p i t l k u -> In x l -> exists l1 l2 v, l = l1 ++ x :: l2 /\ goes O e rs p i t l1 x v /\ goes O e rs p x v (x :: l2) k u.
Proof.
  intros i t l k u x G. induction G as [i t E N|i t t1 j t2 l k u E N T D X G IH]; intro I; [easy|]. destruct (Z.eq_dec i x) as [->|NX].
  - exists [], l, t. split; [reflexivity|]. split; [now constructor|]. econstructor; eauto.
  - destruct I as [I|I]; [easy|]. destruct (IH I) as (l1 & l2 & v & -> & G1 & G2). exists (i :: l1), l2, v. split; [reflexivity|]. split; [econstructor; eauto|exact G2].
Qed.
Lemma twice_never : forall d f t l i u t', goes O e rs p 0 t l i u -> In i l -> stands rs p 0 t -> ok t -> phase_loop f d O e rs p 0 t <> Ret t'.
Proof.
  intros d f t l i u t' G I S K H. destruct (goes_split _ _ _ _ _ _ G I) as (l1 & l2 & v & _ & G1 & G2).
  destruct (loop_follows _ _ _ _ _ _ G _ _ H) as (f' & H').
  destruct (goes_stands _ _ _ _ _ _ _ _ _ G1 S) as [SV _]. destruct (goes_stands _ _ _ _ _ _ _ _ _ G S) as [SU _].
  pose proof (goes_ok _ _ _ _ _ G1 K) as KV. pose proof (goes_ok _ _ _ _ _ G K) as KU.
  destruct (goes_end _ _ _ _ _ _ _ _ _ G1) as [EV NV]. destruct (goes_end _ _ _ _ _ _ _ _ _ G) as [EU _].
  revert H'. eapply (circle_runs i v (i :: l2) u G2 ltac:(discriminate) SV KV d f' i u v (i :: l2)); [exact G2|discriminate|eapply stands_pos; eauto|exact KV|exact KU|].
  eapply goes_flag; [exact G|]. intros ->. easy.
Qed.
End Twice.

(** ** No rule evaluated twice *)
Lemma NoDup_app_snoc : forall (l : list Z) x, NoDup l -> ~ In x l -> NoDup (l ++ [x]).
Proof.
  intros l x ND N. apply NoDup_rev in ND. rewrite <- (rev_involutive (l ++ [x])). apply NoDup_rev. rewrite rev_app_distr. cbn. constructor; [|exact ND]. now rewrite <- in_rev.
Qed.
Lemma nodup_bound : forall l n, NoDup l -> (forall j, In j l -> 0 <= j < Z.of_nat n) -> (length l <= n)%nat.
Proof.
  intros l n ND B'. rewrite <- (map_length Z.to_nat l). rewrite <- (seq_length n 0). apply NoDup_incl_length.
  - clear -ND B'. induction ND as [|x l N ND IH]; [constructor|]. cbn [map]. constructor; [|apply IH; intros j J; apply B'; now right].
    intro I. apply in_map_iff in I as (y & Q & I). apply N. assert (x = y); [|congruence].
    pose proof (B' x (or_introl eq_refl)). pose proof (B' y (or_intror I)). lia.
  - intros m I. apply in_map_iff in I as (y & <- & I). apply in_seq. specialize (B' y I). lia.
Qed.
Lemma timeout_twice : forall d O e rs p t0, 1 <= p <= 6 -> (forall i t, process_rule (S (S d)) O e rs p i t <> Timeout) ->
  forall f l i t, goes O e rs p 0 (entered rs p t0) l i t \/ (l = [] /\ i = 0 /\ t = entered rs p t0) \/ (t_phase t <> p \/ i = StatusEndOfRules) ->
  NoDup l -> (1 <= f)%nat -> (length (phase_rules rs p) + 2 <= f + length l)%nat ->
  phase_loop f (S (S d)) O e rs p i t = Timeout -> evaluates_twice O e rs p t0.
Proof.
  intros d O e rs p t0 P M f. induction f as [|f IH]; intros l i t G ND F1 L H; [lia|]. cbn [phase_loop] in H.
  destruct (Z.eqb_spec (t_phase t) p) as [E|E]; [|discriminate]. destruct (Z.eqb_spec i StatusEndOfRules) as [N|N]; [discriminate|]. cbn [andb negb] in H.
  assert (G' : goes O e rs p 0 (entered rs p t0) l i t).
  { destruct G as [G|[(-> & -> & ->)|[G|G]]]; [exact G|now constructor|easy|easy]. }
  clear G. destruct (in_dec Z.eq_dec i l) as [I|I]; [exists l, i, t; auto|].
  pose proof (M i t) as NT. destruct (process_rule _ O e rs p i t) as [t1| |] eqn:R; cbn [bind] in H; [|discriminate|easy].
  change (get_iv (touch_iv t1)) with (get_iv t1) in H. destruct (i_disruptive (get_iv t1)) eqn:D; [discriminate|].
  destruct (next_rule rs (touch_iv t1)) as [j t2] eqn:X.
  destruct (goes_stands _ _ _ _ _ _ _ _ _ G' (entered_stands rs p t0 P)) as [SI SL]. destruct (SI E N) as (Z0 & ZI & _).
  assert (LE : (length (l ++ [i]) <= length (phase_rules rs p) + 1)%nat).
  { apply nodup_bound.
    - apply NoDup_app_snoc; assumption.
    - intros y J. apply in_app_iff in J as [J|[<-|[]]]; [destruct (SL y J) as [A [C|C]]|destruct ZI as [C|C]]; unfold nrules in *; lia. }
  rewrite app_length in LE. cbn [length] in LE.
  eapply (IH (l ++ [i]) j t2); [| | | |exact H].
  - destruct (Z.eq_dec (t_phase t2) p) as [E2|E2]; [|right; right; now left]. destruct (Z.eq_dec j StatusEndOfRules) as [N2|N2]; [right; right; now right|].
    left. eapply goes_app; [exact G'|]. econstructor; [exact E|exact N|eapply rule_turn; exact R|exact D|exact X|]. now constructor.
  - apply NoDup_app_snoc; assumption.
  - lia.
  - rewrite app_length. cbn [length]. lia.
Qed.

(** ** C32 *)
(** A call that evaluates a rule twice never returns, if what the rules look at
    stays as it is. *)
Theorem C32_rule_twice_never_returns : forall O e rs p t, ord_valid O -> 1 <= p <= 6 -> settled O e rs p t -> t_phase t < p -> t_abort t = false ->
  evaluates_twice O e rs p t -> forall f t', process_phase f O e rs p t <> Ret t'.
Proof.
  intros O e rs p t V P ST L A (l & i & u & G & I) f t' H.
  destruct (entered_at rs p t ltac:(lia)) as (NX & E & _). destruct (next_phase_same _ _ _ _ NX) as (_ & _ & AB).
  assert (SE : same t (entered rs p t)) by (eapply same_trans; [|eapply next_samebody; eauto]; repeat split).
  unfold process_phase in H. replace (p <=? t_phase t) with false in H by lia. unfold process_phase_inner in H.
  change (t_abort (jump_to_phase p t)) with (t_abort t) in H. rewrite A, NX in H. revert H.
  destruct ST as [GG|((t1 & r0 & P0 & E1 & A1 & NF) & S0 & R0)].
  - assert (MA : forall r u w, In r (phase_rules rs p) -> alike u w -> chain_matches O e u r -> chain_matches O e w r).
    { intros r x y Ir K M q Q. eapply matches_alike; [exact V|intros v; eapply GG; eauto|exact K|]. now apply M. }
    eapply (twice_never O e rs p t (fun u => alike t u /\ t_abort u = false)); [| | | |exact G|exact I|now apply entered_stands|].
    + intros x [_ Q]. exact Q.
    + intros x w [Q1 Q2] S. split; [eapply alike_trans; [exact Q1|now apply same_alike']|]. destruct S as ((_ & _ & Q) & _). congruence.
    + intros r x w Ir [Q1 Q2] M. destruct (steady_all _ _ _ _ _ V (fun q v => GG r q v Ir) Q2 M) as (A' & X).
      split; [split; [eapply alike_trans; [exact Q1|]; apply touches_alike; eapply all_match_touches; eauto|exact A']|].
      eapply MA; [exact Ir|apply alike_sym; exact Q1|exact X].
    + intros r x w Ir [Q1 Q2] M. destruct (steady_miss _ _ _ _ _ V (fun q v => GG r q v Ir) Q2 M) as (A' & q & Iq & X).
      split; [split; [eapply alike_trans; [exact Q1|]; apply touches_alike; eapply some_miss_touches; eauto|exact A']|].
      intro C. apply X. eapply MA in C; [|exact Ir|exact Q1]. now apply C.
    + split; [now apply same_alike'|]. rewrite AB. exact A.
  - eapply (twice_never O e rs p t (fine t t1)); [| | | |exact G|exact I|now apply entered_stands|].
    + intros x. apply (fine_abort O e t t1 r0 P0 E1 A1).
    + intros x w. apply fine_same.
    + intros r x w Ir F M. apply (fine_all O e t t1 r0 V P0 E1 A1 NF S0 R0 _ _ _ F M).
    + intros r x w Ir F M. destruct (fine_miss O e t t1 r0 V P0 E1 A1 NF S0 R0 _ _ _ F M) as (F' & q & Iq & X). split; [exact F'|]. intro C. apply X, C, Iq.
    + now left.
Qed.
Lemma timeout_twice_phase : forall f O e rs p t, 1 <= p <= 6 -> (forall d i t, process_rule (S (S d)) O e rs p i t <> Timeout) ->
  (length (phase_rules rs p) + 2 <= f)%nat -> process_phase f O e rs p t = Timeout -> evaluates_twice O e rs p t.
Proof.
  intros f O e rs p t P M L H. unfold process_phase in H. destruct (p <=? t_phase t); [discriminate|]. unfold process_phase_inner in H.
  destruct (t_abort _); [discriminate|]. destruct (entered_at rs p t ltac:(lia)) as (NX & E & _). rewrite NX in H.
  destruct f as [|[|f]]; try lia.
  eapply (timeout_twice f O e rs p t P (M f) (S (S f)) [] 0); [right; left; auto|constructor|lia|cbn [length]; lia|exact H].
Qed.
(** A call that does not return evaluates a rule twice, if block is not a default
    action and reading a form ends. *)
Theorem C32_timeout_evaluates_twice : forall f O e rs p t, 1 <= p <= 6 -> forms_end O e -> ~ In ABlock (rs_default rs) ->
  (length (phase_rules rs p) + 2 <= f)%nat -> process_phase f O e rs p t = Timeout -> evaluates_twice O e rs p t.
Proof. intros f O e rs p t P M NB L H. eapply timeout_twice_phase; eauto. intros d i u. now apply process_rule_ends. Qed.
(** So a call in a history is answered exactly if it evaluates no rule twice. *)
Theorem C32_answered_iff_no_rule_twice : forall f g O e rs os o p t bl,
  ord_valid O -> armed rs -> forms_harmless O e rs -> 0 <= e_reqmem e \/ e_reqlimit e < 0 -> forms_end O e -> ~ In ABlock (rs_default rs) ->
  steps g O e rs os (new_txn e) = Ret (t, bl) -> op_phase o = Some p -> t_phase t < p -> t_abort t = false -> settled O e rs p (given o t) ->
  (length (phase_rules rs p) + 2 <= f)%nat ->
  (exists t', step f O e rs o t = Ret (t', ObsNone)) <-> ~ evaluates_twice O e rs p (given o t).
Proof.
  intros f g O e rs os o p t bl V AR FH L1 M NB H P L A ST F. pose proof (op_phase_range _ _ P) as PR.
  assert (S : sane O t).
  { assert (S0 : sane O (new_txn e)).
    { split; [split; [unfold StatusNotStarted; simpl; unfold StatusNotStarted; lia|right; simpl; lia]|]. split; [|intros _; discriminate].
      intros b [->| ->] _; unfold bounded; simpl; lia. }
    clear -AR FH H S0. revert S0 t bl H. generalize (new_txn e) as t0. induction os as [|x os IH]; intros t0 S0 t bl H; cbn [steps] in H.
    - apply Ret_inj in H. injection H as <- _. exact S0.
    - apply bind_Ret in H as ([t1 b] & H1 & H). apply bind_Ret in H as ([t2 bl2] & H2 & H). apply Ret_inj in H. injection H as <- _.
      destruct (step_safe g O e rs x t0 AR FH S0) as [_ S1]. eapply IH; [eapply S1; exact H1|exact H2]. }
  destruct (given_same o t) as (GP & GA & _). rewrite (step_phase _ _ _ _ _ _ p P). split.
  - intros (t' & H') T. apply bind_Ret in H' as (t1 & H1 & _). revert H1. apply C32_rule_twice_never_returns; auto; [rewrite GP; exact L|rewrite GA; exact A].
  - intro N. destruct (step_safe f O e rs o t AR FH S) as [NP _]. rewrite (step_phase _ _ _ _ _ _ p P) in NP.
    destruct (process_phase f O e rs p (given o t)) as [t1| |] eqn:Q; cbn [bind] in *; [eauto|easy|].
    elim N. eapply C32_timeout_evaluates_twice; eauto.
Qed.

(** ** Where allow leads *)
Lemma lands_ex : forall ws p, exists q, lands p ws q.
Proof.
  induction ws as [|w ws IH]; intro p; [exists p; constructor|].
  destruct (bs_eqb_spec w []) as [->|N1]; [destruct (IH 6) as (q & H); exists q; now constructor|].
  destruct (bs_eqb_spec w (B "phase")) as [->|N2]; [destruct (IH (Z.min 7 (p + 1))) as (q & H); exists q; now constructor|].
  destruct (bs_eqb_spec w (B "request")) as [->|N3]; [destruct (IH 4) as (q & H); exists q; now constructor|].
  destruct (IH p) as (q & H). exists q. constructor; [|exact H]. intros [X|[X|[X|[]]]]; congruence.
Qed.
Lemma lands_fun : forall p ws q, lands p ws q -> forall q', lands p ws q' -> q' = q.
Proof.
  intros p ws q H. induction H as [p|p ws q H IH|p ws q H IH|p ws q H IH|p w ws q N H IH]; intros q' K; inversion K; subst; auto;
  try (match goal with X : ~ In _ _ |- _ => elim X; simpl; tauto end).
Qed.
Lemma allow_jumps : forall a, jumps a <-> exists w, a = AAllow w /\ In w [[]; B "phase"; B "request"].
Proof. intro a. reflexivity. Qed.
Lemma effects_lands : forall rs l t q, 0 <= t_phase t -> lands (t_phase t) (allows l) q -> t_phase (effects rs l t) = q.
Proof.
  intros rs l. induction l as [|a l IH]; intros t q P H; [inversion H; reflexivity|].
  change (effects rs (a :: l) t) with (effects rs l (effect rs a t)).
  assert (K : (forall w, a <> AAllow w) -> lands (t_phase t) (allows l) q /\ t_phase (effect rs a t) = t_phase t).
  { intro N. destruct a; try (split; [exact H|reflexivity]); [now elim (N arg)|]. split; [exact H|]. simpl. unfold jump_to. now destruct (nrules rs (t_phase t) <=? t_cur t + 2). }
  assert (AC : (exists w, a = AAllow w) \/ forall w, a <> AAllow w) by (destruct a; try (right; discriminate); left; eauto).
  destruct AC as [(w & ->)|N]; [|destruct (K N) as [K1 K2]; apply IH; [rewrite K2; exact P|rewrite K2; exact K1]].
  clear K. cbn [allows flat_map app] in H. fold (allows l) in H. simpl effect. unfold do_allow.
  destruct (bs_eqb_spec w []) as [->|N1].
  { apply IH; [simpl; unfold PhaseLogging; simpl; lia|]. inversion H; subst; [assumption|match goal with X : ~ In _ _ |- _ => elim X; simpl; tauto end]. }
  destruct (bs_eqb_spec w (B "phase")) as [->|N2].
  { assert (Q : t_phase (next_phase t) = Z.min 7 (t_phase t + 1)).
    { unfold next_phase, jump_to_phase, PhaseBegin, PhaseEnd. cbn [t_phase with_pos]. destruct (t_phase t + 1 <? 0) eqn:E1; [lia|]. destruct (7 <=? t_phase t + 1) eqn:E2; lia. }
    apply IH; rewrite Q; [lia|]. inversion H; subst; [assumption|match goal with X : ~ In _ _ |- _ => elim X; simpl; tauto end]. }
  destruct (bs_eqb_spec w (B "request")) as [->|N3].
  { apply IH; [simpl; unfold PhaseResponseHeaders; simpl; lia|]. inversion H; subst; [assumption|match goal with X : ~ In _ _ |- _ => elim X; simpl; tauto end]. }
  apply IH; [exact P|]. inversion H; subst; easy.
Qed.
Lemma allows_jumps : forall l w, In w (allows l) <-> In (AAllow w) l.
Proof.
  intros l w. unfold allows. rewrite in_flat_map. split.
  - intros (a & I & J). destruct a; try easy. destruct J as [<-|[]]. exact I.
  - intro I. exists (AAllow w). split; [exact I|now left].
Qed.
Lemma effects_stays : forall rs p l t, t_phase t = p -> (forall a, In a l -> ~ jumps a) ->
  t_phase (effects rs l t) = p /\ t_cur (effects rs l t) = t_cur t /\
  (t_next (effects rs l t) = t_next t \/ t_next (effects rs l t) = skipped_to rs p (t_cur t + 2)).
Proof.
  intros rs p l. induction l as [|a l IH]; intros t P N; [auto|].
  change (effects rs (a :: l) t) with (effects rs l (effect rs a t)).
  assert (N' : forall b, In b l -> ~ jumps b) by (intros b I; apply N; now right).
  assert (D : a = ASkip \/ a <> ASkip) by (destruct a; try (right; discriminate); now left). destruct D as [->|S].
  - assert (Q : t_phase (effect rs ASkip t) = p /\ t_cur (effect rs ASkip t) = t_cur t /\ t_next (effect rs ASkip t) = skipped_to rs p (t_cur t + 2)).
    { simpl. unfold jump_to, skipped_to. rewrite P. destruct (nrules rs p <=? t_cur t + 2); simpl; auto. }
    destruct Q as (Q1 & Q2 & Q3). destruct (IH (effect rs ASkip t) Q1 N') as (R1 & R2 & R3). rewrite Q2, Q3 in *. split; [exact R1|]. split; [exact R2|]. right. tauto.
  - destruct (effect_stay rs a t (N a (or_introl eq_refl)) S) as (Q1 & Q2 & Q3). destruct (IH (effect rs a t) ltac:(congruence) N') as (R1 & R2 & R3).
    rewrite Q2, Q3 in *. auto.
Qed.
(** Chains that do not lead back to the phase never make a call evaluate a rule
    twice. *)
Lemma no_return_no_twice : forall O e rs p t, 1 <= p <= 6 ->
  (forall r l, In r (phase_rules rs p) -> chain_actions (rs_default rs) (r :: r_subs r) l -> ~ leads_back p (allows l)) ->
  ~ evaluates_twice O e rs p t.
Proof.
  intros O e rs p t P NB (l & i & u & G & I).
  assert (ORD : forall i t l k u, goes O e rs p i t l k u -> stands rs p i t -> i <= k /\ forall j, In j l -> j < k).
  { clear -P NB. intros i t l k u G. induction G as [i t E N|i t t1 j t2 l k u E N T D X G IH]; intro S; [split; [lia|intros j []]|].
    assert (PL : placed rs (touch_iv t1)) by exact (turn_placed _ _ _ _ _ _ _ T (stands_placed _ _ _ _ E N S)).
    destruct (IH (next_stands _ p _ _ _ PL X)) as [L1 L2]. destruct (S E N) as (Z0 & _ & C & NX).
    pose proof (goes_inv _ _ _ _ _ _ _ _ _ G) as (E2 & N2 & _).
    assert (JX : j = t_next t1 /\ t_phase t1 = p).
    { unfold next_rule in X. destruct (Z.eqb_spec (t_next (touch_iv t1)) StatusEndOfRules) as [Q|Q]; injection X as <- <-; [now elim N2|]. split; [reflexivity|exact E2]. }
    destruct JX as [JX E1].
    assert (LT : i < j).
    { assert (AF : forall x, x = after rs p i \/ x = skipped_to rs p (i + 2) -> x <> StatusEndOfRules -> i < x).
      { clear -Z0. intros x [->| ->]; unfold after, skipped_to; destruct (nrules rs p <=? _); intro; try easy; lia. }
      destruct T as [[_ ->]|[_ [(r & _ & NT & M)|(al & r & v & _ & NT & M & CA & ->)]]].
      - apply AF; [left; congruence|exact N2].
      - destruct (frame_position _ _ (touches_frame _ _ (some_miss_touches _ _ _ _ _ M))) as (_ & _ & Q & _). apply AF; [left; congruence|exact N2].
      - destruct (frame_position _ _ (touches_frame _ _ (all_match_touches _ _ _ _ _ M))) as (Q1 & Q2 & Q3 & _).
        assert (NJ : forall a, In a al -> ~ jumps a).
        { intros a Ia (w & -> & J). apply (NB r al (nth_error_In _ _ NT) CA). split.
          - destruct (lands_ex (allows al) p) as (q & L). assert (PH : t_phase v = p) by congruence. rewrite <- PH in L.
            rewrite (effects_lands rs al v q ltac:(lia) L) in E1. subst q. now rewrite PH in L.
          - exists w. split; [now apply allows_jumps|exact J]. }
        destruct (effects_stays rs p al v ltac:(congruence) NJ) as (_ & _ & R). rewrite JX in *. apply AF; [|exact N2].
        destruct R as [R|R]; [left; congruence|right]. rewrite R. do 2 f_equal. congruence. }
    split; [lia|]. intros m [<-|J]; [lia|auto]. }
  destruct (ORD _ _ _ _ _ G (entered_stands rs p t P)) as [_ L]. specialize (L i I). lia.
Qed.
(** So every call returns (or panics) if no chain leads back to its own phase. *)
Theorem C32_no_way_back_terminates_partial : forall f O e rs os t,
  (forall p r l, 1 <= p <= 6 -> In r (phase_rules rs p) -> chain_actions (rs_default rs) (r :: r_subs r) l -> ~ leads_back p (allows l)) ->
  ~ In ABlock (rs_default rs) -> forms_end O e -> (forall p, 1 <= p <= 6 -> (length (phase_rules rs p) + 2 <= f)%nat) ->
  steps f O e rs os t <> Timeout.
Proof.
  intros f O e rs os t NB D M L. revert t. induction os as [|o os IH]; intro t; cbn [steps]; [discriminate|].
  assert (S : step f O e rs o t <> Timeout).
  { destruct (op_phase o) as [p|] eqn:Q.
    - rewrite (step_phase _ _ _ _ _ _ p Q). pose proof (op_phase_range _ _ Q) as P.
      destruct (process_phase f O e rs p (given o t)) eqn:H; cbn [bind]; try discriminate.
      exfalso. apply (no_return_no_twice O e rs p (given o t) P (fun r l => NB p r l P)). exact (C32_timeout_evaluates_twice f O e rs p _ P M D (L p P) H).
    - assert (W : forall ft x b, buf_write ft x b <> Timeout).
      { intros ft x b. unfold buf_write. repeat match goal with |- context [if ?c then _ else _] => destruct c | |- context [match ?c with _ => _ end] => destruct c end; try discriminate. }
      destruct o; try discriminate; cbn [step].
      + specialize (W ft p (t_reqbody t)). destruct (buf_write ft p (t_reqbody t)) as [[[b n] er]| |]; easy.
      + specialize (W ft p (t_resbody t)). destruct (buf_write ft p (t_resbody t)) as [[[b n] er]| |]; easy. }
  destruct (step f O e rs o t) as [[t1 b]| |]; cbn [bind]; try easy. specialize (IH t1).
  destruct (steps f O e rs os t1) as [[t2 bl]| |]; cbn [bind]; easy.
Qed.
(** A rule that is reached, matches and leads back, without a denial or skip, hangs
    the call. *)
Theorem C32_way_back_never_returns : forall O e rs p t l i u u1 acts, ord_valid O -> 1 <= p <= 6 -> settled O e rs p t -> t_phase t < p -> t_abort t = false ->
  goes O e rs p 0 (entered rs p t) l i u -> fires O e rs p i u u1 acts -> i_disruptive (get_iv u1) = false -> leads_back p (allows acts) -> ~ In ASkip acts ->
  forall f t', process_phase f O e rs p t <> Ret t'.
Proof.
  intros O e rs p t l i u u1 acts V P ST L A G FI D [LB (w & Iw & Jw)] NS. apply C32_rule_twice_never_returns; auto.
  destruct (goes_end _ _ _ _ _ _ _ _ _ G) as [E N].
  assert (TN : turn O e rs p i u u1).
  { right. split; [|right; eauto]. destruct FI as (r & v & Z0 & NT & _). apply nth_error_Some_lt in NT. unfold nrules. lia. }
  assert (E1 : t_phase u1 = p /\ t_next u1 = 0).
  { destruct FI as (r & v & _ & _ & M & _ & ->). destruct (frame_position _ _ (touches_frame _ _ (all_match_touches _ _ _ _ _ M))) as (Q1 & _).
    split; [apply effects_lands; [lia|]; replace (t_phase v) with p by congruence; exact LB|].
    assert (J : exists a, In a acts /\ jumps a) by (exists (AAllow w); split; [now apply allows_jumps|]; exists w; auto). clear -J NS. revert v J NS.
    assert (Z : forall l v, t_next v = 0 -> ~ In ASkip l -> t_next (effects rs l v) = 0).
    { induction l as [|a l IH]; intros v Z NS; [exact Z|]. change (t_next (effects rs l (effect rs a v)) = 0). apply IH; [|intro I; apply NS; now right].
      destruct a; simpl; auto; [|elim NS; now left]. unfold do_allow. destruct (bs_eqb arg []); [reflexivity|]. destruct (bs_eqb arg _); [reflexivity|]. now destruct (bs_eqb arg _). }
    induction acts as [|a acts IH]; intros v (b & I & J) NS; [easy|]. change (t_next (effects rs acts (effect rs a v)) = 0). destruct I as [->|I].
    - apply Z; [|intro I; apply NS; now right]. destruct J as (w & -> & J). simpl. unfold do_allow.
      destruct (bs_eqb_spec w []); [reflexivity|]. destruct (bs_eqb_spec w (B "phase")); [reflexivity|]. destruct (bs_eqb_spec w (B "request")); [reflexivity|].
      destruct J as [J|[J|[J|[]]]]; congruence.
    - apply IH; [eauto|]. intro X. apply NS. now right. }
  destruct E1 as [E1 NX].
  destruct (next_rule rs (touch_iv u1)) as [j u2] eqn:X. assert (Q : j = 0 /\ t_phase u2 = p).
  { unfold next_rule in X. change (t_next (touch_iv u1)) with (t_next u1) in X. rewrite NX in X. cbn in X. injection X as <- <-. split; [reflexivity|exact E1]. }
  destruct Q as [-> E2].
  exists (l ++ [i]), 0, u2. split; [eapply goes_app; [exact G|]; econstructor; eauto; constructor; [exact E2|discriminate]|].
  destruct (goes_inv _ _ _ _ _ _ _ _ _ G) as (_ & _ & [(-> & -> & _)|(? & ? & ? & m & -> & _)]); now left.
Qed.
Example C32_twice_example :
  let r a := demo_rule 4 [VScalar SRequestMethod] (OpRx (B "post")) a false [] in
  let rs := RuleSet [(4, [r [ASkip]; r [ADeny]; r [AAllow (B "request")]])] [] in
  let O := demo MpErr in let e := demo_engine rs in
  let t := demo_post "text/plain" "x" in
  t_phase t < 4 /\ t_abort t = false /\
    settled O e rs 4 t /\ evaluates_twice O e rs 4 t /\ leads_back 4 (allows [AAllow (B "request")]) /\
    (forall t', process_phase 9 O e rs 4 t <> Ret t') /\ ~ leads_back 5 (allows [AAllow (B "request")]) /\ ~ leads_back 4 (allows [AAllow (B "request"); AAllow []]).
Proof.
  intros r rs O e t. split; [reflexivity|]. split; [reflexivity|].
  match goal with |- ?a /\ ?b /\ _ => assert (S : a); [|assert (T : b)] end.
  - left. intros q r' v Q1 Q2 Q3. cbn in Q1. destruct Q1 as [<-|[<-|[<-|[]]]]; destruct Q2 as [<-|[]]; destruct Q3 as [<-|[]]; reflexivity.
  - apply (C32_timeout_evaluates_twice 9); [lia| | | |vm_compute; reflexivity].
    + right. intros b bd m. vm_compute. discriminate.
    + intros [].
    + vm_compute. repeat constructor.
  - split; [exact S|]. split; [exact T|]. split; [|split; [|split]].
    + split; [|exists (B "request"); split; [now left|right; right; now left]]. apply la_request. constructor.
    + intro t'. apply C32_rule_twice_never_returns; auto; try reflexivity; [apply demo_ord|lia].
    + intros [L _]. cbn in L. inversion L as [| | |? ? ? H|? ? ? ? N H]; subst; [inversion H|]. elim N. right. right. now left.
    + intros [L _]. cbn in L. inversion L as [| | |? ? ? H|? ? ? ? N H]; subst; [|elim N; right; right; now left].
      inversion H as [|? ? ? H'| | |? ? ? ? N H']; subst; [inversion H'|]. elim N. now left.
Qed.
Print Assumptions C32_rule_twice_never_returns.
Print Assumptions C32_timeout_evaluates_twice.
Print Assumptions C32_answered_iff_no_rule_twice.
Print Assumptions C32_no_way_back_terminates_partial.
Print Assumptions C32_way_back_never_returns.
