(** C94 and C95 for rules with any actions and for any history: every answer is the one the rules spell out. *)
From Verif Require Import Base BaseFacts GoStrings Utils Buffer BufferFacts SpecBuffer Types Transforms Operators Transaction Variables Rules Engine
  SpecText NumFacts SpecVars VarText VarFacts BodyFacts SpecRules PropText PropVars RuleFacts Scanner Loader SpecParse ParseFacts ParseLists ParseFiles ParsePrint
  SpecLoad LoadFacts SpecTxn TxnFacts LoopFacts Witness PropRules PropPhases PropTxn PropLoad PropEnd SpecData PropData SpecGate PropGate PropLog SpecBody PropBody PropSafe PropFile SpecVerdict PropVerdict
  SpecHang PropHang SpecAnswer PropAnswer SpecReply PropReply SpecAccount.
From Coq Require Import ZifyBool.

(** ** One action *)
Definition number_of (x : option nat) : Z := match x with Some i => Z.of_nat i | None => StatusEndOfRules end.
(** The account [k] describes [t], which works on phase [p]. *)
Definition tracks (p : Z) (k : account) (t : txn) : Prop :=
  k_phase k = t_phase t /\ 0 <= t_phase t /\ k_rule k = t_cur t /\ -1 <= t_cur t /\ k_reply k = reply_of t /\
  (t_phase t = p -> number_of (k_next k) = t_next t).
Lemma upto_number : forall n i, number_of (upto n i) = if Z.of_nat n <=? Z.of_nat i then StatusEndOfRules else Z.of_nat i.
Proof. intros n i. unfold upto. destruct (i <? n)%nat eqn:E, (Z.of_nat n <=? Z.of_nat i) eqn:F; try reflexivity; apply Nat.ltb_lt in E || apply Nat.ltb_ge in E; lia. Qed.
Lemma clamp_up : forall p, 0 <= p -> t_phase (next_phase (jump_to_phase 0 (new_txn new_engine))) = 1 /\
  (let i := p + 1 in (if i <? PhaseBegin then PhaseBegin else if PhaseEnd <=? i then PhaseEnd else i) = Z.min 7 (p + 1)).
Proof. intros p P. split; [reflexivity|]. cbv zeta. unfold PhaseBegin, PhaseEnd. destruct (p + 1 <? 0) eqn:E; [lia|]. destruct (7 <=? p + 1) eqn:F; lia. Qed.
Lemma effect_tells : forall rs p a k t, tracks p k t ->
  tracks p (tells (t_srcip t) (t_srcport t) (length (phase_rules rs p)) k a) (effect rs a t) /\
  t_srcip (effect rs a t) = t_srcip t /\ t_srcport (effect rs a t) = t_srcport t.
Proof.
  intros rs p a [kp ki kx ky] t (T1 & T2 & T3 & T4 & T5 & T6). cbn [k_phase k_rule k_next k_reply] in *. subst kp ki ky.
  destruct a as [|w| | | | |s].
  - split; [|split; reflexivity]. cbn [effect tells]. unfold do_deny. repeat (split; [first [reflexivity|assumption]|]). split; [|exact T6].
    unfold reply_of. cbn [k_reply y_next y_code y_denied y_lines]. rewrite asked_code_deny, <- line_prefix. reflexivity.
  - cbn [effect tells]. unfold do_allow, led.
    destruct (bs_eqb w []); [split; [|split; reflexivity]; repeat split; cbn; auto; unfold PhaseLogging, StatusNotStarted; try lia|].
    destruct (bs_eqb w (B "phase")).
    { split; [|split; reflexivity]. unfold next_phase, jump_to_phase. rewrite (proj2 (clamp_up _ T2)).
      repeat split; cbn [k_phase k_rule k_next k_reply with_pos t_phase t_cur t_next number_of]; unfold StatusNotStarted; try lia. }
    destruct (bs_eqb w (B "request")); [split; [|split; reflexivity]; repeat split; cbn; auto; unfold PhaseResponseHeaders, StatusNotStarted; try lia|].
    split; [|split; reflexivity]. repeat split; assumption.
  - split; [|split; reflexivity]. repeat split; assumption.
  - split; [|split; reflexivity]. cbn [effect tells]. unfold do_log. repeat (split; [first [reflexivity|assumption]|]). split; [|exact T6].
    unfold reply_of. cbn [k_reply y_next y_code y_denied y_lines]. rewrite <- line_prefix. reflexivity.
  - split; [|split; reflexivity]. cbn [effect tells]. repeat (split; [first [reflexivity|assumption]|]). exact T6.
  - cbn [effect tells]. unfold jump_to. destruct (nrules rs (t_phase t) <=? t_cur t + 2) eqn:E; (split; [|split; reflexivity]);
    (repeat (split; [first [reflexivity|assumption]|]); cbn [with_pos snd t_phase t_next]; intro Q;
     cbn [k_next]; rewrite upto_number; unfold nrules in E; rewrite Q in E; rewrite Z2Nat.id by lia; now rewrite E).
  - split; [|split; reflexivity]. cbn [effect tells]. repeat (split; [first [reflexivity|assumption]|]). exact T6.
Qed.
Lemma effects_tells : forall rs p l k t, tracks p k t ->
  tracks p (fold_left (tells (t_srcip t) (t_srcport t) (length (phase_rules rs p))) l k) (effects rs l t).
Proof.
  intros rs p l. induction l as [|a l IH]; intros k t T; [exact T|].
  destruct (effect_tells rs p a k t T) as (T' & E1 & E2). change (effects rs (a :: l) t) with (effects rs l (effect rs a t)). cbn [fold_left].
  rewrite <- E1, <- E2. rewrite <- E1, <- E2 in T'. now apply IH.
Qed.

(** ** A phase, given that evaluating rules leaves what they see alone *)
Section Phase.
Variables (O : oracles) (e : engine) (rs : ruleset) (p : Z) (t0 : txn) (ok : txn -> Prop).
Hypothesis P : 1 <= p <= 6.
Hypothesis ok_abort : forall t, ok t -> t_abort t = false.
Hypothesis ok_who : forall t, ok t -> t_srcip t = t_srcip t0 /\ t_srcport t = t_srcport t0.
Hypothesis ok_same : forall t u, ok t -> same t u -> ok u.
Hypothesis ok_all : forall r t t', In r (phase_rules rs p) -> ok t -> all_match O e (r :: r_subs r) t t' -> ok t' /\ chain_matches O e t0 r.
Hypothesis ok_miss : forall r t t', In r (phase_rules rs p) -> ok t -> some_miss O e (r :: r_subs r) t t' -> ok t' /\ ~ chain_matches O e t0 r.
Let S := fun r => chain_actions (rs_default rs) (r :: r_subs r).
Let HT := has_turn (chain_matches O e t0) S (t_srcip t0) (t_srcport t0) (phase_rules rs p).
Lemma turn_tracks : forall d n t s1 r k, process_rule d O e rs p n t = Ret s1 -> 0 <= n -> nth_error (phase_rules rs p) (Z.to_nat n) = Some r ->
  ok t -> tracks p k t -> exists k1, HT r k k1 /\ tracks p k1 s1 /\ ok s1.
Proof.
  intros d n t s1 r k R Z0 NT K T. assert (I : In r (phase_rules rs p)) by (eapply nth_error_In; eauto).
  assert (LN : n < nrules rs p).
  { assert (NE : nth_error (phase_rules rs p) (Z.to_nat n) <> None) by congruence. apply nth_error_Some in NE. unfold nrules. lia. }
  apply process_rule_cases in R as [[LE _]|[_ [(r' & _ & NT' & M)|(acts & r' & u & _ & NT' & M & CA & ->)]]]; [lia| |]; assert (r' = r) by congruence; subst r'.
  - destruct (ok_miss _ _ _ I K M) as (K1 & NM). exists k. split; [right; auto|]. split; [|exact K1].
    destruct (frame_position _ _ (touches_frame _ _ (some_miss_touches _ _ _ _ _ M))) as (F1 & F2 & F3 & F4).
    destruct (touches_iv _ _ (some_miss_touches _ _ _ _ _ M)) as [[_ V]|(X & _)]; [|rewrite (ok_abort _ K1) in X; discriminate].
    unfold tracks, reply_of, get_iv in *. rewrite F1, F2, F3, F4, V. exact T.
  - destruct (ok_all _ _ _ I K M) as (K1 & NM). destruct (ok_who _ K1) as [W1 W2].
    destruct (PropTxn.all_match_iv _ _ _ _ _ M ltac:(discriminate)) as [Q1 Q2].
    destruct (frame_position _ _ (touches_frame _ _ (all_match_touches _ _ _ _ _ M))) as (F1 & F2 & F3 & F4).
    assert (TU : tracks p k u) by (unfold tracks, reply_of in *; rewrite F1, F2, F3, F4, Q1; exact T).
    exists (fold_left (tells (t_srcip t0) (t_srcport t0) (length (phase_rules rs p))) acts k). split; [left; split; [exact NM|]; exists acts; split; [exact CA|reflexivity]|].
    split; [|eapply ok_same; [exact K1|apply effects_samebody]]. rewrite <- W1, <- W2. now apply effects_tells.
Qed.
Lemma arrive_tracks : forall n t k, t_phase t = p -> 0 <= n -> t_cur t = n -> t_next t = after rs p n -> k_reply k = reply_of t ->
  tracks p (arrive p (phase_rules rs p) (Z.to_nat n) k) t.
Proof.
  intros n t k E Z0 C N Y. unfold arrive, tracks. cbn [k_phase k_rule k_next k_reply]. rewrite E, C, N, Z2Nat.id by exact Z0.
  repeat (split; [first [reflexivity|lia|exact Y]|]). intros _. rewrite upto_number. unfold after, skipped_to, nrules.
  replace (Z.of_nat (1 + Z.to_nat n)) with (n + 1) by lia. reflexivity.
Qed.
Lemma visits_plays : forall d n t l t', visits d O e rs p n t l t' -> ok t -> at_rule rs p n t -> 
  forall k, k_phase k = t_phase t -> k_reply k = reply_of t -> (t_phase t = p -> number_of (k_next k) = n) ->
  exists k', plays (chain_matches O e t0) S (t_srcip t0) (t_srcport t0) p (phase_rules rs p) k k' /\
    k_phase k' = t_phase t' /\ k_reply k' = reply_of t' /\ ok t' /\ (0 <= t_phase t -> 0 <= t_phase t').
Proof.
  intros d n t l t' V. induction V as [n t X|n t s1 E N R D|n t s1 m s2 l t' E N R D NX V IH]; intros K A k KP KY KN.
  - exists k. split; [|auto]. destruct (Z.eq_dec (t_phase t) p) as [E|E]; [|apply pl_away; congruence].
    destruct X as [X|X]; [contradiction|]. apply pl_end. specialize (KN E). destruct (k_next k); [cbn in KN; unfold StatusEndOfRules in *; lia|reflexivity].
  - destruct (A E N) as (Z0 & C & NN). specialize (KN E).
    assert (KX : k_next k = Some (Z.to_nat n)) by (destruct (k_next k) as [i|]; cbn in KN; [f_equal; lia|unfold StatusEndOfRules in *; lia]).
    destruct (nth_error (phase_rules rs p) (Z.to_nat n)) as [r|] eqn:NT.
    + destruct (turn_tracks _ _ _ _ _ _ R Z0 NT K (arrive_tracks n t k E Z0 C NN KY)) as (k1 & H & (T1 & T2 & _ & _ & T5 & _) & K1).
      exists k1. split; [eapply pl_stop; [congruence|exact KX|exact NT|exact H|]|].
      * rewrite T5. exact D.
      * split; [exact T1|]. split; [exact T5|]. split; [|auto]. eapply ok_same; [exact K1|repeat split].
    + exists k. split; [eapply pl_none; eauto|]. apply process_rule_cases in R as [[LE ->]|[LT _]]; [|apply nth_error_None in NT; unfold nrules in LT; lia].
      split; [exact KP|]. split; [exact KY|]. split; [|auto]. eapply ok_same; [exact K|repeat split].
  - destruct (A E N) as (Z0 & C & NN). specialize (KN E).
    assert (KX : k_next k = Some (Z.to_nat n)) by (destruct (k_next k) as [i|]; cbn in KN; [f_equal; lia|unfold StatusEndOfRules in *; lia]).
    assert (KS : ok s1 -> ok s2) by (intro K1; eapply ok_same; [exact K1|]; eapply same_trans; [|eapply next_samebody; eauto]; repeat split).
    assert (RP : reply_of s2 = reply_of s1) by (rewrite (next_reply _ _ _ _ NX); reflexivity).
    destruct (next_phase_same _ _ _ _ NX) as (PH & _). change (t_phase (touch_iv s1)) with (t_phase s1) in PH.
    destruct (nth_error (phase_rules rs p) (Z.to_nat n)) as [r|] eqn:NT.
    + destruct (turn_tracks _ _ _ _ _ _ R Z0 NT K (arrive_tracks n t k E Z0 C NN KY)) as (k1 & H & (T1 & T2 & _ & _ & T5 & T6) & K1).
      assert (NN2 : t_phase s1 = p -> m = number_of (k_next k1) /\ at_rule rs p m s2).
      { intro Q. specialize (T6 Q). assert (GE : t_next (touch_iv s1) = StatusEndOfRules \/ 0 <= t_next (touch_iv s1)).
        { change (t_next (touch_iv s1)) with (t_next s1). rewrite <- T6. destruct (k_next k1); cbn; [right; lia|now left]. }
        destruct (next_at rs p (touch_iv s1) m s2 Q GE NX) as (-> & _ & AR). split; [symmetry; exact T6|exact AR]. }
      destruct (IH (KS K1)) with (k := k1) as (k' & PL & Q1 & Q2 & Q3 & Q4).
      * intros Q X. apply NN2; [congruence|exact Q|exact X].
      * congruence.
      * congruence.
      * intro Q. symmetry. apply NN2. congruence.
      * exists k'. split; [eapply pl_on; [congruence|exact KX|exact NT|exact H| |exact PL]; rewrite T5; exact D|].
        split; [exact Q1|]. split; [exact Q2|]. split; [exact Q3|]. intros _. apply Q4. congruence.
    + exists k. split; [eapply pl_none; eauto|]. apply process_rule_cases in R as [[LE ->]|[LT _]]; [|apply nth_error_None in NT; unfold nrules in LT; lia].
      assert (XE : t' = s2).
      { destruct (next_at rs p (touch_iv t) m s2 E) as (EM & _ & _); [|exact NX|].
        - change (t_next (touch_iv t)) with (t_next t). rewrite NN. unfold after. apply skipped_ok. lia.
        - change (t_next (touch_iv t)) with (t_next t) in EM. rewrite NN in EM. unfold after, skipped_to in EM. destruct (nrules rs p <=? n + 1) eqn:LL; [|lia].
          subst m. inversion V; subst; try easy. }
      subst t'. split; [congruence|]. split; [congruence|]. split; [now apply KS|]. intro Q. congruence.
Qed.
End Phase.

(** What the rules of the phase look at stays as it is. *)
Lemma settled_ok : forall O e rs p t, ord_valid O -> settled O e rs p t -> t_abort t = false ->
  exists ok : txn -> Prop, (forall u, ok u -> t_abort u = false) /\ (forall u, ok u -> t_srcip u = t_srcip t /\ t_srcport u = t_srcport t) /\
    (forall u w, ok u -> same u w -> ok w) /\
    (forall r u w, In r (phase_rules rs p) -> ok u -> all_match O e (r :: r_subs r) u w -> ok w /\ chain_matches O e t r) /\
    (forall r u w, In r (phase_rules rs p) -> ok u -> some_miss O e (r :: r_subs r) u w -> ok w /\ ~ chain_matches O e t r) /\
    ok t.
Proof.
  intros O e rs p t V [GG|((t1 & r0 & P0 & E1 & A1 & NF) & S0 & R0)] A.
  - assert (MA : forall r u w, In r (phase_rules rs p) -> alike u w -> chain_matches O e u r -> chain_matches O e w r).
    { intros r x y Ir K M q Q. eapply matches_alike; [exact V|intros v; eapply GG; eauto|exact K|]. now apply M. }
    exists (fun u => alike t u /\ t_abort u = false). split; [|split; [|split; [|split; [|split]]]].
    + intros x [_ Q]. exact Q.
    + intros u [[Q _] _]. unfold request_part in Q. injection Q. auto.
    + intros x w [Q1 Q2] X. split; [eapply alike_trans; [exact Q1|now apply same_alike']|]. destruct X as ((_ & _ & Q) & _). congruence.
    + intros r x w Ir [Q1 Q2] M. destruct (steady_all _ _ _ _ _ V (fun q v => GG r q v Ir) Q2 M) as (A' & X).
      split; [split; [eapply alike_trans; [exact Q1|]; apply touches_alike; eapply all_match_touches; eauto|exact A']|].
      eapply MA; [exact Ir|apply alike_sym; exact Q1|exact X].
    + intros r x w Ir [Q1 Q2] M. destruct (steady_miss _ _ _ _ _ V (fun q v => GG r q v Ir) Q2 M) as (A' & q & Iq & X).
      split; [split; [eapply alike_trans; [exact Q1|]; apply touches_alike; eapply some_miss_touches; eauto|exact A']|].
      intro C. apply X. eapply MA in C; [|exact Ir|exact Q1]. now apply C.
    + split; [apply alike_refl|exact A].
  - exists (fine t t1). split; [|split; [|split; [|split; [|split]]]].
    + intros x. apply (fine_abort O e t t1 r0 P0 E1 A1).
    + intros u F. destruct (fine_alike O e t t1 r0 P0 u F) as [Q _]. unfold request_part in Q. injection Q. auto.
    + intros x w. apply fine_same.
    + intros r x w Ir F M. apply (fine_all O e t t1 r0 V P0 E1 A1 NF S0 R0 _ _ _ F M).
    + intros r x w Ir F M. destruct (fine_miss O e t t1 r0 V P0 E1 A1 NF S0 R0 _ _ _ F M) as (F' & q & Iq & X). split; [exact F'|]. intro C. apply X, C, Iq.
    + left. repeat split.
Qed.
(** A phase of any rules: whatever actions they take, the transaction stands afterwards where
    the rules that match tell it to. *)
Theorem C93_any_rules : forall f O e rs p t t' k,
  ord_valid O -> 1 <= p <= 6 -> settled O e rs p t -> t_phase t < p -> t_abort t = false -> k_reply k = reply_of t ->
  process_phase f O e rs p t = Ret t' ->
  exists k', set_plays O e rs p t (at_phase p k) k' /\ k_phase k' = t_phase t' /\ k_reply k' = reply_of t' /\ t_abort t' = false /\ 0 <= t_phase t'.
Proof.
  intros f O e rs p t t' k V P ST L A Y H.
  destruct (phase_run _ _ _ _ _ _ _ P L A H) as (l & VS).
  destruct (entered_at rs p t ltac:(lia)) as (NX & E & AT).
  assert (SE : same t (entered rs p t)) by (eapply same_trans; [|eapply next_samebody; eauto]; repeat split).
  assert (RE : reply_of (entered rs p t) = reply_of t) by (rewrite (next_reply _ _ _ _ NX); reflexivity).
  destruct (settled_ok O e rs p t V ST A) as (ok & K1 & K2 & K3 & K4 & K5 & K6).
  destruct (visits_plays O e rs p t ok P K1 K2 K3 K4 K5 _ _ _ _ _ VS (K3 _ _ K6 SE) AT (at_phase p k)) as (k' & PL & Q1 & Q2 & Q3 & Q4).
  - now rewrite E.
  - rewrite RE. exact Y.
  - reflexivity.
  - exists k'. split; [exact PL|]. split; [exact Q1|]. split; [exact Q2|]. split; [now apply K1|]. apply Q4. rewrite E. lia.
Qed.

(** ** C94 *)
Lemma answers_app : forall a b, answers (a ++ b) = answers a ++ answers b.
Proof. intros a b. unfold answers. apply flat_map_app. Qed.
Lemma story_steps : forall f O e rs os t bl, ord_valid O ->
  (forall a o b p s c, os = a ++ o :: b -> op_phase o = Some p -> steps f O e rs a (new_txn e) = Ret (s, c) -> t_phase s < p -> t_abort s = false ->
     settled O e rs p (given o s)) ->
  steps f O e rs os (new_txn e) = Ret (t, bl) ->
  steady t /\ 0 <= t_phase t /\
  exists k, story (in_run f O e rs) (set_plays O e rs) os k (t_abort t) (answers bl) /\ k_phase k = t_phase t /\ k_reply k = reply_of t.
Proof.
  intros f O e rs os. induction os as [|o os IH] using rev_ind; intros t bl V RD H.
  - apply Ret_inj in H. injection H as <- <-. split; [now split|]. split; [reflexivity|]. eexists. split; [constructor|]. split; reflexivity.
  - apply steps_app in H as (t1 & b1 & b2 & H1 & H2 & ->). apply steps_cons in H2 as (t2 & b & b3 & S & H2 & ->). apply Ret_inj in H2. injection H2 as <- <-.
    destruct (IH t1 b1 V) as (ST & PN & k & RA & KP & KY); [|exact H1|].
    { intros a x b' p s c -> P X. eapply RD; [|exact P|exact X]. rewrite <- app_assoc. reflexivity. }
    destruct (given_same o t1) as (GP & GA & GI).
    assert (GR : reply_of (given o t1) = reply_of t1) by (destruct o; reflexivity).
    rewrite answers_app. destruct (op_phase o) as [p|] eqn:P.
    + pose proof (op_phase_range _ _ P) as R. rewrite (step_phase _ _ _ _ _ _ p P) in S. apply bind_Ret in S as (t3 & S & Q). apply Ret_inj in Q. injection Q as -> <-.
      cbn [answers flat_map]. rewrite app_nil_r. split.
      { pose proof S as S'. apply phase_works in S' as [[_ ->]|(_ & W & _)]; [unfold steady, get_iv; now rewrite GI|]. eapply works_steady; [exact W|]. unfold steady, get_iv. cbn. now rewrite GI. }
      destruct (Z_lt_le_dec (t_phase t1) p) as [L|L].
      * destruct (t_abort t1) eqn:A.
        -- unfold process_phase in S. rewrite GP in S. replace (p <=? t_phase t1) with false in S by lia. unfold process_phase_inner in S.
           change (t_abort (jump_to_phase p (given o t1))) with (t_abort (given o t1)) in S. rewrite GA in S. apply Ret_inj in S. subst t2.
           assert (PE : t_phase (jump_to_phase p (given o t1)) = p) by (unfold jump_to_phase, PhaseBegin, PhaseEnd; cbn; destruct (p <? 0) eqn:E1; [lia|]; destruct (7 <=? p) eqn:E2; lia).
           split; [rewrite PE; lia|]. exists (at_phase p k). change (t_abort (jump_to_phase p (given o t1))) with (t_abort (given o t1)). rewrite GA.
           split; [eapply so_dead; [exact RA|exact P|congruence]|]. split; [now rewrite PE|]. cbn [at_phase k_reply]. rewrite KY, <- GR. reflexivity.
        -- destruct (C93_any_rules f O e rs p (given o t1) t2 k V R) as (k' & PL & Q1 & Q2 & Q3 & Q4); [|now rewrite GP|congruence|congruence|exact S|].
           { eapply RD; [reflexivity|exact P|exact H1|exact L|exact A]. }
           split; [exact Q4|]. exists k'. rewrite Q3. split; [|auto]. eapply so_phase; [exact RA|exact P|congruence|exists t1, b1; split; [exact H1|reflexivity]|exact PL].
      * apply phase_works in S as [[_ ->]|(X & _)]; [|clear -X L GP; lia]. rewrite GP, GA, GR. split; [exact PN|]. exists k.
        split; [eapply so_late; [exact RA|exact P|congruence]|auto].
    + assert (X : forall u, feeding o -> t_iv u = t_iv t1 -> t_status u = t_status t1 -> t_abort u = t_abort t1 -> t_phase u = t_phase t1 ->
        steady u /\ 0 <= t_phase u /\ exists k, story (in_run f O e rs) (set_plays O e rs) (os ++ [o]) k (t_abort u) (answers b1 ++ []) /\ k_phase k = t_phase u /\ k_reply k = reply_of u).
      { intros u FO X1 X2 X3 X4. split; [unfold steady, get_iv; now rewrite X1|]. split; [congruence|]. exists k. rewrite X3, app_nil_r.
        split; [apply so_data; auto|]. split; [congruence|]. rewrite KY. unfold reply_of, get_iv. now rewrite X1, X2. }
      destruct o; try discriminate; try easy; cbn [step] in S.
      * apply Ret_inj in S. injection S as <- <-. now apply X.
      * apply bind_Ret in S as ([[x n] er] & _ & S). apply Ret_inj in S. injection S as <- <-. now apply X.
      * apply bind_Ret in S as ([[x n] er] & _ & S). apply Ret_inj in S. injection S as <- <-. now apply X.
      * unfold result in S. apply Ret_inj in S. injection S as <- <-. change (get_iv (touch_iv t1)) with (get_iv t1). change (t_abort (touch_iv t1)) with (t_abort t1).
        split; [destruct (t_abort t1); [exact ST|now split]|]. split; [destruct (t_abort t1); exact PN|].
        exists (if t_abort t1 then k else fetched k). split.
        -- replace (t_abort (if t_abort t1 then touch_iv t1 else with_iv (touch_iv t1) reset_iv)) with (t_abort t1) by (destruct (t_abort t1) eqn:Q; [exact (eq_sym Q)|exact (eq_sym Q)]).
           cbn [answers flat_map app]. replace (get_iv t1) with (answer (k_reply k)); [now apply so_result|]. rewrite KY. unfold answer, reply_of. cbn [y_code y_lines y_denied].
           destruct ST as [S1 S2]. destruct (get_iv t1) as [a1 a2 a3 a4 a5]. cbn in S1, S2 |- *. now subst a2 a3.
        -- destruct (t_abort t1); [split; [exact KP|exact KY]|]. split; [exact KP|]. cbn [fetched k_reply]. rewrite KY. reflexivity.
      * apply Ret_inj in S. injection S as <- <-. cbn [answers flat_map]. rewrite app_nil_r. split; [exact ST|]. split; [exact PN|].
        eexists. split; [eapply so_abort; exact RA|]. split; [exact KP|]. cbn [ended k_reply]. rewrite KY. reflexivity.
Qed.
(** Every answer of every history: for rules with any actions (deny, block, pass, allow, skip, status, log) and
    callers that fetch results and put an end to transactions at any time. *)
Theorem C94_every_answer : forall f O e rs os t' bl, ord_valid O ->
  (forall a o b p t c, os = a ++ o :: b -> op_phase o = Some p -> steps f O e rs a (new_txn e) = Ret (t, c) -> t_phase t < p -> t_abort t = false ->
     settled O e rs p (given o t)) ->
  steps f O e rs os (new_txn e) = Ret (t', bl) ->
  exists k, story (in_run f O e rs) (set_plays O e rs) os k (t_abort t') (answers bl) /\ k_phase k = t_phase t'.
Proof.
  intros f O e rs os t' bl V RD H. destruct (story_steps _ _ _ _ _ _ _ V RD H) as (_ & _ & k & RA & KP & _). eauto.
Qed.
(** There is only one. *)
Lemma turn_one : forall A (M : A -> Prop) (S : A -> list action -> Prop) ip port (L : list A), (forall r a b, S r a -> S r b -> a = b) ->
  forall r k a b, has_turn M S ip port L r k a -> has_turn M S ip port L r k b -> a = b.
Proof.
  intros A M S ip port L FN r k a b [[M1 (x & X & ->)]|[M1 ->]] [[M2 (y & Y & ->)]|[M2 ->]]; try easy. now rewrite (FN _ _ _ X Y).
Qed.
Lemma plays_one : forall A (M : A -> Prop) (S : A -> list action -> Prop) ip port p (L : list A), (forall r a b, S r a -> S r b -> a = b) ->
  forall k a, plays M S ip port p L k a -> forall b, plays M S ip port p L k b -> a = b.
Proof.
  intros A M S ip port p L FN k a H. induction H as [k N|k N|k i N X|k i r k1 P N X T D|k i r k1 k' P N X T D H IH];
  intros b K; inversion K as [? N'|? N'|? i' N' X'|? i' r' k1' P' N' X' T' D'|? i' r' k1' k'' P' N' X' T' D' K']; subst; try reflexivity; try congruence;
  rewrite N in N'; injection N' as <-; rewrite X in X'; injection X' as <-.
  - eapply turn_one; eauto.
  - assert (Q : k1 = k1') by (eapply turn_one; eauto). subst. congruence.
  - assert (Q : k1 = b) by (eapply turn_one; eauto). subst. congruence.
  - assert (Q : k1 = k1') by (eapply turn_one; eauto). subst. now apply IH.
Qed.
Lemma set_plays_one : forall O e rs p t k a b, set_plays O e rs p t k a -> set_plays O e rs p t k b -> a = b.
Proof. intros O e rs p t k a b H. eapply plays_one; [|exact H]. intros r x y. apply chain_fun. Qed.
Lemma story_one : forall (D : list op -> op -> txn -> Prop) (R : Z -> txn -> account -> account -> Prop), (forall a o s t, D a o s -> D a o t -> s = t) ->
  (forall p t k a b, R p t k a -> R p t k b -> a = b) ->
  forall os k b l, story D R os k b l -> forall k' b' l', story D R os k' b' l' -> k' = k /\ b' = b /\ l' = l.
Proof.
  intros D R FD FR os k b l H. induction H as [|a o p t k k1 l H IH P L X Y|a o p k l H IH P L|a o p k b l H IH P L|a o k b l H IH P F|a s k b l H IH|a k b l H IH];
  intros k' b' l' K; inversion K as [Q|a' o' p' t' k0 k0' l0 H' P' L' X' Y' Q|a' o' p' k0 l0 H' P' L' Q|a' o' p' k0 b0 l0 H' P' L' Q|a' o' k0 b0 l0 H' P' F' Q|a' s' k0 b0 l0 H' Q|a' k0 b0 l0 H' Q]; subst; auto;
  try (exfalso; match goal with Q : [] = ?a ++ _ |- _ => now destruct a | Q : ?a ++ _ = [] |- _ => now destruct a end);
  apply app_inj_tail in Q as [Q1 Q2]; subst; try discriminate; try (elim F'; fail); try (elim F; fail); destruct (IH _ _ _ H') as (-> & E & ->); subst; try discriminate; auto;
  try (rewrite P in P'; first [discriminate P'|injection P' as <-]); try lia.
  - rewrite (FD _ _ _ _ X X') in Y. rewrite (FR _ _ _ _ _ Y' Y). auto.
  - auto.
  - injection Q2 as ->. auto.
Qed.
Theorem C94_every_answer_unique : forall f O e rs os k b l k' b' l',
  story (in_run f O e rs) (set_plays O e rs) os k b l -> story (in_run f O e rs) (set_plays O e rs) os k' b' l' -> k' = k /\ b' = b /\ l' = l.
Proof.
  intros f O e rs os k b l k' b' l' H K. eapply story_one; [| |exact H|exact K].
  - intros a o s t (u & c & X & ->) (u' & c' & X' & ->). rewrite X in X'. apply Ret_inj in X'. now injection X' as <- _.
  - intros p t x a c. apply set_plays_one.
Qed.

(** ** Stories carry over *)
Lemma turn_along : forall A B (M : A -> Prop) (S : A -> list action -> Prop) (M' : B -> Prop) (S' : B -> list action -> Prop) (R : B -> A -> Prop) ip port,
  (forall b a, R b a -> (M a <-> M' b)) -> (forall b a l, R b a -> S a l -> S' b l) ->
  forall L L' a b k k1, length L' = length L -> R b a -> has_turn M S ip port L a k k1 -> has_turn M' S' ip port L' b k k1.
Proof.
  intros A B M S M' S' R ip port RM RS L L' a b k k1 LE X [[Y (acts & Z & ->)]|[Y ->]].
  - left. split; [now apply (RM b a X)|]. exists acts. split; [eapply RS; eauto|now rewrite LE].
  - right. split; [intro Q; apply Y; now apply (RM b a X)|reflexivity].
Qed.
Lemma forall2_nth : forall A B (R : A -> B -> Prop) l l', Forall2 R l l' -> forall i b, nth_error l' i = Some b -> exists a, nth_error l i = Some a /\ R a b.
Proof. intros A B R l l' F. induction F as [|x y l l' X F IH]; intros [|i] b H; try discriminate; [injection H as <-; exists x; auto|now apply IH]. Qed.
Lemma plays_along : forall A B (M : A -> Prop) (S : A -> list action -> Prop) (M' : B -> Prop) (S' : B -> list action -> Prop) (R : B -> A -> Prop) ip port p,
  (forall b a, R b a -> (M a <-> M' b)) -> (forall b a l, R b a -> S a l -> S' b l) ->
  forall L L', Forall2 R L' L -> forall k k', plays M S ip port p L k k' -> plays M' S' ip port p L' k k'.
Proof.
  intros A B M S M' S' R ip port p RM RS L L' F. assert (LE : length L' = length L) by (clear -F; induction F; cbn; congruence).
  intros k k' H. induction H as [k N|k N|k i N X|k i r k1 P N X T D|k i r k1 k' P N X T D H IH].
  - now apply pl_away.
  - now apply pl_end.
  - eapply pl_none; [exact N|]. apply nth_error_None. rewrite LE. now apply nth_error_None.
  - destruct (forall2_nth _ _ _ _ _ F _ _ X) as (r' & X' & Q). eapply pl_stop; [exact P|exact N|exact X'| |exact D].
    unfold arrive in *. rewrite LE. eapply turn_along; eauto.
  - destruct (forall2_nth _ _ _ _ _ F _ _ X) as (r' & X' & Q). eapply pl_on; [exact P|exact N|exact X'| |exact D|exact IH].
    unfold arrive in *. rewrite LE. eapply turn_along; eauto.
Qed.
Lemma story_along : forall (D D' : list op -> op -> txn -> Prop) (R R' : Z -> txn -> account -> account -> Prop),
  (forall a o p s k k', op_phase o = Some p -> D a o s -> R p s k k' -> exists s', D' a o s' /\ R' p s' k k') ->
  forall os k b l, story D R os k b l -> story D' R' os k b l.
Proof.
  intros D D' R R' X os k b l H. induction H as [|a o p t k k1 l H IH P L Y Z|a o p k l H IH P L|a o p k b l H IH P L|a o k b l H IH P F|a s k b l H IH|a k b l H IH].
  - constructor.
  - destruct (X _ _ _ _ _ _ P Y Z) as (s' & Y' & Z'). eapply so_phase; eauto.
  - eapply so_dead; eauto.
  - eapply so_late; eauto.
  - now apply so_data.
  - now apply so_abort with (b := b).
  - now apply so_result.
Qed.
Lemma forall2_refl : forall A (l : list A), Forall2 eq l l.
Proof. intros A l. induction l; constructor; auto. Qed.
Lemma steps_alike : forall f O e rs os t bl, steps f O e rs os (new_txn e) = Ret (t, bl) -> alike (brought os (new_txn e)) t.
Proof.
  intros f O e rs os. induction os as [|o os IH] using rev_ind; intros t bl H.
  - apply Ret_inj in H. injection H as <- _. apply alike_refl.
  - apply steps_app in H as (t1 & b1 & b2 & H1 & H2 & ->). apply steps_cons in H2 as (t2 & b & b3 & S & H2 & ->). apply Ret_inj in H2. injection H2 as <- <-.
    rewrite brought_app. change (brought [o] (brought os (new_txn e))) with (given o (brought os (new_txn e))).
    assert (G : alike (given o (brought os (new_txn e))) (given o t1)) by (apply given_alike; eapply IH; eauto).
    eapply alike_trans; [exact G|]. destruct (op_phase o) as [p|] eqn:P.
    + rewrite (step_phase _ _ _ _ _ _ p P) in S. apply bind_Ret in S as (t3 & S & Q). apply Ret_inj in Q. injection Q as <- _. eapply phase_alike; eauto.
    + destruct o; try discriminate; cbn [step] in S.
      * apply Ret_inj in S. injection S as <- _. apply alike_refl.
      * apply bind_Ret in S as ([[x n] er] & _ & S). apply Ret_inj in S. injection S as <- _. now split.
      * apply bind_Ret in S as ([[x n] er] & _ & S). apply Ret_inj in S. injection S as <- _. now split.
      * unfold result in S. apply Ret_inj in S. injection S as <- _. destruct (t_abort t1); split; reflexivity.
      * apply Ret_inj in S. injection S as <- _. now split.
Qed.
(** If no rule looks at a body, the answers follow from the calls and the rules alone. *)
Theorem C94_every_answer_without_bodies : forall f O e rs os t' bl, ord_valid O -> (forall p, 1 <= p <= 6 -> no_body rs p) ->
  steps f O e rs os (new_txn e) = Ret (t', bl) ->
  exists k, story (as_called e) (set_plays O e rs) os k (t_abort t') (answers bl) /\ k_phase k = t_phase t'.
Proof.
  intros f O e rs os t' bl V NB H. destruct (C94_every_answer f O e rs os t' bl V) as (k & ST & KP); [|exact H|].
  { intros a o b p t c _ P _ _ _. left. apply NB. apply (op_phase_range _ _ P). }
  exists k. split; [|exact KP]. eapply story_along; [|exact ST]. intros a o p s x x' P (t & c & X & ->) PL.
  exists (brought (a ++ [o]) (new_txn e)). split; [reflexivity|]. rewrite brought_app. change (brought [o] (brought a (new_txn e))) with (given o (brought a (new_txn e))).
  assert (G : alike (given o (brought a (new_txn e))) (given o t)) by (apply given_alike; eapply steps_alike; eauto).
  assert (I : t_srcip (given o t) = t_srcip (given o (brought a (new_txn e))) /\ t_srcport (given o t) = t_srcport (given o (brought a (new_txn e)))).
  { destruct G as [G _]. unfold request_part in G. injection G. auto. }
  unfold set_plays in *. destruct I as [<- <-]. eapply (plays_along _ _ _ _ _ _ (fun r r' => r = r' /\ In r (phase_rules rs p))); [| | |exact PL].
  - intros r r' [<- Ir]. pose proof (NB p (op_phase_range _ _ P)) as N.
    split; intros M q Q; (eapply matches_alike; [exact V|intros v; eapply N; eauto| |apply M; exact Q]); [apply alike_sym; exact G|exact G].
  - intros r r' l [<- _] X'. exact X'.
  - clear. generalize (phase_rules rs p). intro l. assert (X : forall m, (forall r, In r l -> In r m) -> Forall2 (fun r r' => r = r' /\ In r m) l l).
    { induction l as [|r l IH]; intros m I; constructor; [split; [reflexivity|apply I; now left]|]. apply IH. intros x J. apply I. now right. }
    now apply X.
Qed.

(** ** C95 *)
Section Text.
Variables (fuel : nat) (O : oracles) (n : nat) (text : bs) (ds : list directive) (l : list dire).
Hypothesis OV : ord_valid O.
Hypothesis FT : file_text ds text.
Hypothesis LD : new_direset fuel O n text = Ret (Some l).
Let e := execute l new_engine.
Let rs := e_ruleset e.
Lemma text_no_body : forall p, 1 <= p <= 6 -> bodiless ds p -> no_body rs p.
Proof.
  intros p P B r q v I J K. pose proof (text_phase l p r P) as TP. apply TP in I as [I R].
  destruct (text_chains fuel O n text ds l FT LD) as [T1 _]. destruct (T1 r I) as (c & CI & CA). pose proof (chain_members O c r CA) as M.
  assert (X : exists q', In q' (alone r :: r_subs r) /\ In v (r_vars q')) by (destruct J as [<-|J]; [exists (alone r); split; [now left|exact K]|exists q; split; [now right|exact K]]).
  destruct X as (q' & J' & K'). destruct (forall2_right _ _ _ _ _ _ M J') as (w' & KW & LA). pose proof CA as (w & c' & -> & _).
  eapply loaded_bodiless; [exact OV|exact LA| |exact K']. intros x X. eapply B; [exact CI| |exact KW|exact X]. rewrite <- R. symmetry. eapply chain_phase; eauto.
Qed.
Lemma text_played : forall p t k k', 1 <= p <= 6 -> set_plays O e rs p t k k' -> text_plays O e ds p t k k'.
Proof.
  intros p t k k' P H.
  destruct (proj1 (C62_texts O n text l) (ex_intro _ fuel LD)) as (ds' & items & F & L & A). pose proof (file_text_fun _ _ _ FT F). subst ds'.
  destruct (assembled_chains _ _ _ A _ _ L) as (cs & C1 & C2). exists cs. split; [exact C1|].
  unfold set_plays in H. destruct (C65_execute l new_engine) as (_ & _ & _ & D & _). fold e in D. fold rs in D. rewrite D in H by exact P.
  change (phase_rules (e_ruleset new_engine) p) with (@nil rule) in H. cbn [app] in H. rewrite (text_default l : rs_default rs = []) in H.
  eapply plays_along; [| | |exact H].
  - intros c r CA. cbv beta in CA. pose proof (chain_members O c r CA) as M. rewrite Forall_forall. split.
    + intros CM w K. destruct (forall2_left _ _ _ _ _ _ M K) as (q' & J' & LA). apply (loaded_matches O e t w q' OV LA).
      destruct J' as [<-|J']; [exact (CM r (or_introl eq_refl))|apply CM; now right].
    + intros FA q [<-|J].
      * destruct (forall2_right _ _ _ _ _ (alone r) M) as (w' & K & LA); [now left|]. apply (loaded_matches O e t w' _ OV LA). now apply FA.
      * destruct (forall2_right _ _ _ _ _ q M) as (w' & K & LA); [now right|]. apply (loaded_matches O e t w' _ OV LA). now apply FA.
  - intros c r acts CA C. eapply takes_loaded; [exact OV|apply (chain_members O c r CA)|]. now apply alone_actions.
  - apply (forall2_filter _ _ (chain_as O)); [|exact C2]. intros c r CA. pose proof CA as (w & c' & -> & _). cbn [in_phase]. now rewrite <- (chain_phase O OV _ _ _ CA).
Qed.
End Text.
(** Every answer of every history, for an engine loaded from any text. *)
Theorem C95_every_answer : forall fuel O n text ds l, ord_valid O -> file_text ds text -> new_direset fuel O n text = Ret (Some l) ->
  let e := execute l new_engine in
  forall f os t' bl,
  (forall a o b p t c, os = a ++ o :: b -> op_phase o = Some p -> steps f O e (e_ruleset e) a (new_txn e) = Ret (t, c) -> t_phase t < p -> t_abort t = false ->
     bodiless ds p \/ readable O e (given o t)) ->
  steps f O e (e_ruleset e) os (new_txn e) = Ret (t', bl) ->
  exists k, story (in_run f O e (e_ruleset e)) (text_plays O e ds) os k (t_abort t') (answers bl) /\ k_phase k = t_phase t'.
Proof.
  intros fuel O n text ds l OV FT LD e f os t' bl RD H.
  destruct (C94_every_answer f O e (e_ruleset e) os t' bl OV) as (k & ST & KP); [|exact H|].
  - intros a o b p t c Q P X L A. destruct (RD a o b p t c Q P X L A) as [B|R]; [left|now right].
    exact (text_no_body fuel O n text ds l OV FT LD p (op_phase_range _ _ P) B).
  - exists k. split; [|exact KP]. eapply story_along; [|exact ST]. intros a o p s x x' P X Y. exists s. split; [exact X|].
    exact (text_played fuel O n text ds l OV FT LD p s x x' (op_phase_range _ _ P) Y).
Qed.
(** If no rule mentions a body, the answers follow from the calls and the text alone. *)
Theorem C95_every_answer_without_bodies : forall fuel O n text ds l, ord_valid O -> file_text ds text -> new_direset fuel O n text = Ret (Some l) ->
  (forall p, 1 <= p <= 6 -> bodiless ds p) ->
  let e := execute l new_engine in
  forall f os t' bl, steps f O e (e_ruleset e) os (new_txn e) = Ret (t', bl) ->
  exists k, story (as_called e) (text_plays O e ds) os k (t_abort t') (answers bl) /\ k_phase k = t_phase t'.
Proof.
  intros fuel O n text ds l OV FT LD B e f os t' bl H.
  destruct (C94_every_answer_without_bodies f O e (e_ruleset e) os t' bl OV) as (k & ST & KP); [|exact H|].
  - intros p P. exact (text_no_body fuel O n text ds l OV FT LD p P (B p P)).
  - exists k. split; [|exact KP]. eapply story_along; [|exact ST]. intros a o p s x x' P X Y. exists s. split; [exact X|].
    exact (text_played fuel O n text ds l OV FT LD p s x x' (op_phase_range _ _ P) Y).
Qed.
Theorem C95_every_answer_unique : forall (D : list op -> op -> txn -> Prop) O e ds os k b l k' b' l', (forall a o s t, D a o s -> D a o t -> s = t) ->
  story D (text_plays O e ds) os k b l -> story D (text_plays O e ds) os k' b' l' -> k' = k /\ b' = b /\ l' = l.
Proof.
  intros D O e ds os k b l k' b' l' FD H K. eapply story_one; [exact FD| |exact H|exact K].
  intros p t x a c (cs & C & X) (cs' & C' & X'). rewrite (chains_fun _ _ C _ C') in X'. eapply plays_one; [|exact X|exact X'].
  intros r y z Y Z. eapply takes_fun; eauto.
Qed.

(** ** Examples *)
Definition posts (p : Z) (acts : list action) : rule := demo_rule p [VScalar SRequestMethod] (OpRx (B "post")) acts false [].
Definition winding_rules : ruleset :=
  RuleSet [(2, [posts 2 [ASkip; ALog]; posts 2 [ADeny]; posts 2 [AAllow (B "phase"); AStatus 404; ALog]; posts 2 [ADeny]]); (3, [posts 3 [ADeny]]);
           (4, [posts 4 [ABlock; ALog]]); (5, [posts 5 [APass]; posts 5 [ALog]]); (6, [posts 6 [ADeny]])] [ADeny].
Definition winding_calls : list op :=
  [OpRequestURL None (B "POST") []; OpRequestHeader []; OpRequestBody; OpResponseHeaders 200 [] []; OpResult; OpResponseBody; OpResult; OpRequestBody;
   OpAbortWithStatus 503; OpLogging; OpResult; OpResult].
Example C94_every_answer_example : let O := demo MpErr in let e := demo_engine winding_rules in
  (forall p, 1 <= p <= 6 -> no_body winding_rules p) /\ ~ plain_actions winding_rules 2 /\
  exists t bl, steps 9 O e winding_rules winding_calls (new_txn e) = Ret (t, bl) /\
    answers bl =
      [Intervention 404 0 None [client_line [] [] 2 (B "running action in phase 2 rule 0"); client_line [] [] 2 (B "running action in phase 2 rule 2");
                                client_line [] [] 4 (B "running action in phase 4 rule 0"); client_line [] [] 4 (B "Access denied with code 403")] true;
       Intervention 200 0 None [client_line [] [] 5 (B "running action in phase 5 rule 1")] false;
       Intervention 503 0 None [] true; Intervention 503 0 None [] true].
Proof.
  cbv zeta. split; [|split].
  - intros p P r q v I J K. assert (C : p = 1 \/ p = 2 \/ p = 3 \/ p = 4 \/ p = 5 \/ p = 6) by lia.
    assert (G : exists a, r = posts p a).
    { destruct C as [->|[->|[->|[->|[->| ->]]]]]; cbn in I; intuition (subst; unfold posts; eauto). }
    destruct G as (a & ->). cbn in J. destruct J as [<-|[]]. cbn in K. destruct K as [<-|[]]. reflexivity.
  - intro G. destruct (G ASkip) as [X _]; [|now apply X]. left. exists (posts 2 [ASkip; ALog]), (posts 2 [ASkip; ALog]). cbn. auto.
  - eexists _, _. split; [vm_compute; reflexivity|]. vm_compute. reflexivity.
Qed.
Definition winding_text : bs :=
  B "SecRule REQUEST_METHOD ""@rx POST"" ""id:1,phase:2,log,skip:1""" ++ [LF] ++
  B "SecRule REQUEST_METHOD ""@rx POST"" ""id:2,phase:2,deny""" ++ [LF] ++
  B "SecRule REQUEST_METHOD ""@rx POST"" ""id:3,phase:2,status:404,allow:phase""" ++ [LF] ++
  B "SecRule REQUEST_METHOD ""@rx POST"" ""id:4,phase:3,deny""" ++ [LF] ++
  B "SecRule REQUEST_METHOD ""@rx POST"" ""id:5,phase:4,deny""".
Example C95_every_answer_example : let O := demo MpErr in
  exists ds l, file_text ds winding_text /\ ~ straight ds /\ (forall p, 1 <= p <= 6 -> bodiless ds p) /\
    new_direset 900 O 0 winding_text = Ret (Some l) /\ let e := execute l new_engine in
    exists t bl, steps 9 O e (e_ruleset e) winding_calls (new_txn e) = Ret (t, bl) /\
      answers bl = [Intervention 404 0 None [client_line [] [] 2 (B "running action in phase 2 rule 0"); client_line [] [] 4 (B "Access denied with code 403")] true;
        Intervention 200 0 None [] false; Intervention 503 0 None [] true; Intervention 503 0 None [] true].
Proof.
  cbv zeta. set (vs := [PVar KRequestMethod [] false false]). set (op := POper KRx false (B "POST")).
  set (ds := [DRule vs op (PActions 1 2 false [] [PAction KLog []; PAction KSkip (B "1")]); DRule vs op (PActions 2 2 false [] [PAction KDeny []]);
              DRule vs op (PActions 3 2 false [] [PAction KStatus (B "404"); PAction KAllow (B "phase")]); DRule vs op (PActions 4 3 false [] [PAction KDeny []]);
              DRule vs op (PActions 5 4 false [] [PAction KDeny []])]).
  eexists ds, _. split; [apply parse_text_iff; exists 900%nat; vm_compute; reflexivity|]. split; [|split; [|split]].
  - intro S. destruct (S _ (Written vs op (PActions 1 2 false [] [PAction KLog []; PAction KSkip (B "1")])) (PAction KSkip (B "1")) (or_introl eq_refl) eq_refl) as [X _]; [right; now left|]. now apply X.
  - intros p _ w c w' v CI _ I V. destruct (chain_in_lines _ _ CI _ I) as (d & D & W).
    assert (E : w_vars w' = vs).
    { unfold rule_line in W. cbn in D. destruct D as [<-|[<-|[<-|[<-|[<-|[]]]]]]; injection W; intros; congruence. }
    rewrite E in V. destruct V as [<-|[]]. cbn. intuition discriminate.
  - vm_compute. reflexivity.
  - eexists _, _. split; [vm_compute; reflexivity|]. vm_compute. reflexivity.
Qed.
Print Assumptions C93_any_rules.
Print Assumptions C94_every_answer.
Print Assumptions C94_every_answer_unique.
Print Assumptions C94_every_answer_without_bodies.
Print Assumptions C95_every_answer.
Print Assumptions C95_every_answer_without_bodies.
Print Assumptions C95_every_answer_unique.
