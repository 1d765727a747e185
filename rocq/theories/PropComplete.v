(** C94 and C95 read both ways: the answers of a history are exactly those the rules spell out, and there are answers exactly if the rules come to an end. *)
From Verif Require Import Base BaseFacts GoStrings Utils Buffer BufferFacts SpecBuffer Types Transforms Operators Transaction Variables Rules Engine
  SpecText NumFacts SpecVars VarText VarFacts BodyFacts SpecRules PropText PropVars RuleFacts Scanner Loader SpecParse ParseFacts ParseLists ParseFiles ParsePrint
  SpecLoad LoadFacts SpecTxn TxnFacts LoopFacts Witness PropRules PropPhases PropTxn PropLoad PropEnd SpecData PropData SpecGate PropGate PropLog SpecBody PropBody PropSafe PropFile SpecVerdict PropVerdict
  SpecHang PropHang SpecAnswer PropAnswer SpecReply PropReply SpecAccount PropAccount.
From Coq Require Import ZifyBool.

(** ** Rules that do not look at bodies come to an end *)
Definition rules_end (O : oracles) (e : engine) (rs : ruleset) (p : Z) : Prop := forall d i t, process_rule (S (S d)) O e rs p i t <> Timeout.
Lemma fetch_ends_plain : forall O e v, looks_at_body v = false -> forall t, fetch O e v t <> Timeout.
Proof.
  intros O e v. induction v as [c f|s|g p|g p|v IH]; intros L t; cbn [fetch].
  - destruct c; try discriminate L; cbn [fetch_coll]; try discriminate; destruct (t_url t); discriminate.
  - discriminate.
  - discriminate L.
  - discriminate L.
  - specialize (IH L t). destruct (fetch O e v t) as [[t1 a]| |]; cbn [bind]; easy.
Qed.
Lemma match_ends_plain : forall O e r, (forall v, In v (r_vars r) -> looks_at_body v = false) -> forall t, match_rule O e r t <> Timeout.
Proof.
  intros O e r L t. unfold match_rule.
  assert (FA : forall vs, (forall v, In v vs -> looks_at_body v = false) -> forall t, fetch_all O e r vs t <> Timeout).
  { intro vs. induction vs as [|v vs IH]; intros LV u; cbn [fetch_all]; [discriminate|]. unfold transform_variable.
    pose proof (fetch_ends_plain O e v (LV v (or_introl eq_refl)) u) as F. destruct (fetch O e v u) as [[u1 a]| |]; cbn [bind]; try easy.
    assert (LW : forall v, In v vs -> looks_at_body v = false) by (intros w I; apply LV; now right).
    specialize (IH LW u1). destruct (fetch_all O e r vs u1) as [[u2 b]| |]; cbn [bind]; easy. }
  specialize (FA (r_vars r) L t). destruct (fetch_all O e r (r_vars r) t) as [[t1 vs]| |]; cbn [bind]; try easy.
  pose proof (match_values_total O r vs (t_abort t1)) as V. destruct (match_values O (t_abort t1) r vs); cbn [bind]; easy.
Qed.
Lemma plain_rules_end : forall O e rs p, no_body rs p -> ~ In ABlock (rs_default rs) -> rules_end O e rs p.
Proof.
  intros O e rs p L NB d i t. unfold process_rule. destruct (i <? nrules rs p); [|discriminate]. destruct (i <? 0); [discriminate|].
  destruct (nth_error _ _) as [r|] eqn:N; [|discriminate]. apply nth_error_In in N.
  assert (LR : forall q, In q (r :: r_subs r) -> forall v, In v (r_vars q) -> looks_at_body v = false) by (intros q Q v V; eapply L; eauto).
  clear N. unfold do_rule. pose proof (match_ends_plain O e r (LR r (or_introl eq_refl)) t) as H.
  destruct (match_rule O e r t) as [[t1 []]| |]; cbn [bind]; try easy.
  assert (MS : forall subs, (forall q, In q subs -> forall v, In v (r_vars q) -> looks_at_body v = false) -> forall t, match_subs O e subs t <> Timeout).
  { intro subs. induction subs as [|s subs IH]; intros LS u; cbn [match_subs]; [discriminate|]. pose proof (match_ends_plain O e s (LS s (or_introl eq_refl)) u) as K.
    assert (LT : forall q, In q subs -> forall v, In v (r_vars q) -> looks_at_body v = false) by (intros q Q; apply LS; now right).
    destruct (match_rule O e s u) as [[u1 []]| |]; cbn [bind]; try easy; now apply IH. }
  specialize (MS (r_subs r) (fun q Q => LR q (or_intror Q)) t1). destruct (match_subs O e (r_subs r) t1) as [[t2 []]| |]; cbn [bind]; try easy.
  destruct (execute_ends d rs (r_acts r) t2 NB) as (t3 & E). rewrite E. cbn [bind]. clear -NB. revert t3.
  generalize (r_subs r) as subs. intro subs. induction subs as [|s subs IH]; intro t; cbn [subs_execute]; [discriminate|].
  destruct (execute_ends d rs (r_acts s) t NB) as (t4 & E). rewrite E. cbn [bind]. apply IH.
Qed.
Lemma plain_harmless : forall O e rs, (forall p, no_body rs p) -> forms_harmless O e rs.
Proof.
  intros O e rs L. left. intros p r q v I J K. pose proof (L p r q v I J K) as X.
  clear -X. induction v as [c f|s|g p|g p|v IH]; try discriminate X; try reflexivity; [|now apply IH]. destruct c; try reflexivity; discriminate X.
Qed.

(** More fuel changes nothing. *)
Lemma subs_mono : forall d d' rs subs t, (d <= d')%nat -> subs_execute d rs subs t <> Timeout -> subs_execute d' rs subs t = subs_execute d rs subs t.
Proof.
  intros d d' rs subs. induction subs as [|s subs IH]; intros t L H; cbn [subs_execute] in *; [reflexivity|].
  rewrite (execute_mono d d' rs (r_acts s) t L); [|intro Q; rewrite Q in H; now elim H]. destruct (actions_execute d rs (r_acts s) t); cbn [bind] in *; try reflexivity. now apply IH.
Qed.
Lemma process_rule_mono : forall d d' O e rs p i t, (d <= d')%nat -> process_rule d O e rs p i t <> Timeout ->
  process_rule d' O e rs p i t = process_rule d O e rs p i t.
Proof.
  intros d d' O e rs p i t L H. unfold process_rule in *. destruct (i <? nrules rs p); [|reflexivity]. destruct (i <? 0); [reflexivity|].
  destruct (nth_error _ _) as [r|]; [|reflexivity]. unfold do_rule in *. destruct (match_rule O e r t) as [[t1 []]| |]; cbn [bind] in *; try reflexivity.
  destruct (match_subs O e (r_subs r) t1) as [[t2 []]| |]; cbn [bind] in *; try reflexivity.
  rewrite (execute_mono d d' rs (r_acts r) t2 L); [|intro Q; rewrite Q in H; now elim H]. destruct (actions_execute d rs (r_acts r) t2); cbn [bind] in *; try reflexivity. now apply subs_mono.
Qed.

(** ** A phase comes to an end if the account does *)
Section Phase.
Variables (O : oracles) (e : engine) (rs : ruleset) (p : Z) (t0 : txn) (ok : txn -> Prop).
Hypothesis P : 1 <= p <= 6.
Hypothesis ok_abort : forall t, ok t -> t_abort t = false.
Hypothesis ok_who : forall t, ok t -> t_srcip t = t_srcip t0 /\ t_srcport t = t_srcport t0.
Hypothesis ok_same : forall t u, ok t -> same t u -> ok u.
Hypothesis ok_all : forall r t t', In r (phase_rules rs p) -> ok t -> all_match O e (r :: r_subs r) t t' -> ok t' /\ chain_matches O e t0 r.
Hypothesis ok_miss : forall r t t', In r (phase_rules rs p) -> ok t -> some_miss O e (r :: r_subs r) t t' -> ok t' /\ ~ chain_matches O e t0 r.
Hypothesis RE : rules_end O e rs p.
Lemma plays_ends : forall k k', set_plays O e rs p t0 k k' -> forall n t, ok t -> at_rule rs p n t ->
  k_phase k = t_phase t -> k_reply k = reply_of t -> (t_phase t = p -> number_of (k_next k) = n) ->
  exists m, forall f d, (m <= f)%nat -> phase_loop f (S (S d)) O e rs p n t <> Timeout.
Proof.
  intros k k' H. unfold set_plays in H. induction H as [k N|k N|k i N X|k i r k1 Q N X T D|k i r k1 k' Q N X T D H IH]; intros n t K A KP KY KN.
  - exists 1%nat. intros [|f] d F; [lia|]. cbn [phase_loop]. destruct (Z.eqb_spec (t_phase t) p); [congruence|discriminate].
  - exists 1%nat. intros [|f] d F; [lia|]. cbn [phase_loop]. destruct (Z.eqb_spec (t_phase t) p) as [E|E]; [|discriminate].
    specialize (KN E). rewrite N in KN. cbn [number_of] in KN. subst n. discriminate.
  - exists 2%nat. intros [|[|f]] d F; [lia|lia|]. remember (S f) as g. cbn [phase_loop]. destruct (Z.eqb_spec (t_phase t) p) as [E|E]; [|discriminate].
    destruct (Z.eqb_spec n StatusEndOfRules) as [Q|Q]; [discriminate|]. cbn [andb negb].
    specialize (KN E). rewrite N in KN. cbn [number_of] in KN. destruct (A E Q) as (Z0 & C & NN).
    assert (LE : nrules rs p <= n) by (apply nth_error_None in X; unfold nrules; lia).
    destruct (process_rule (S (S d)) O e rs p n t) as [t1| |] eqn:R; cbn [bind]; [|discriminate|now apply RE in R].
    apply process_rule_cases in R as [[_ ->]|[LT _]]; [|lia].
    destruct (i_disruptive _); [discriminate|]. destruct (next_rule rs (touch_iv t)) as [m t2] eqn:NX.
    destruct (next_at rs p (touch_iv t) m t2 E) as (EM & _ & _); [|exact NX|].
    + change (t_next (touch_iv t)) with (t_next t). rewrite NN. unfold after. apply skipped_ok. lia.
    + change (t_next (touch_iv t)) with (t_next t) in EM. rewrite NN in EM. unfold after, skipped_to in EM. destruct (nrules rs p <=? n + 1) eqn:LL; [|lia].
      subst m g. cbn [phase_loop]. destruct (t_phase t2 =? p); discriminate.
  - exists 1%nat. intros [|f] d F; [lia|]. cbn [phase_loop]. assert (E : t_phase t = p) by congruence. destruct (Z.eqb_spec (t_phase t) p) as [_|]; [|discriminate].
    specialize (KN E). rewrite N in KN. cbn [number_of] in KN. assert (NE : n <> StatusEndOfRules) by (unfold StatusEndOfRules; lia).
    destruct (Z.eqb_spec n StatusEndOfRules) as [|_]; [easy|]. cbn [andb negb]. destruct (A E NE) as (Z0 & C & NN).
    destruct (process_rule (S (S d)) O e rs p n t) as [t1| |] eqn:R; cbn [bind]; [|discriminate|now apply RE in R].
    assert (NI : Z.to_nat n = i) by lia.
    destruct (turn_tracks O e rs p t0 ok ok_abort ok_who ok_same ok_all ok_miss _ _ _ _ r _ R Z0 ltac:(rewrite NI; exact X) K (arrive_tracks rs p P n t k E Z0 C NN KY)) as (k2 & T2 & (_ & _ & _ & _ & T5 & _) & _).
    rewrite NI in T2. assert (k2 = k1) by (eapply turn_one; [|exact T2|exact T]; intros ? ? ?; apply chain_fun). subst k2.
    rewrite T5 in D. change (get_iv (touch_iv t1)) with (get_iv t1). cbn [reply_of y_denied] in D. now rewrite D.
  - assert (E : t_phase t = p) by congruence. specialize (KN E). rewrite N in KN. cbn [number_of] in KN. assert (NE : n <> StatusEndOfRules) by (unfold StatusEndOfRules; lia).
    destruct (A E NE) as (Z0 & C & NN). assert (NI : Z.to_nat n = i) by lia.
    assert (GO : forall d, process_rule (S (S d)) O e rs p n t = process_rule 2 O e rs p n t) by (intro d; apply process_rule_mono; [lia|apply RE]).
    destruct (process_rule 2 O e rs p n t) as [t1| |] eqn:R.
    2:{ exists 1%nat. intros [|f] d F; [lia|]. cbn [phase_loop]. rewrite GO. cbn [bind]. destruct (_ && _); discriminate. }
    2:{ now apply RE in R. }
    destruct (turn_tracks O e rs p t0 ok ok_abort ok_who ok_same ok_all ok_miss _ _ _ _ r _ R Z0 ltac:(rewrite NI; exact X) K (arrive_tracks rs p P n t k E Z0 C NN KY)) as (k2 & T2 & (T3 & _ & _ & _ & T5 & T6) & K1).
    rewrite NI in T2. assert (k2 = k1) by (eapply turn_one; [|exact T2|exact T]; intros ? ? ?; apply chain_fun). subst k2.
    assert (DD : i_disruptive (get_iv t1) = false) by (rewrite T5 in D; exact D).
    destruct (next_rule rs (touch_iv t1)) as [m t2] eqn:NX. destruct (next_phase_same _ _ _ _ NX) as (PH & _). change (t_phase (touch_iv t1)) with (t_phase t1) in PH.
    assert (RP : reply_of t2 = reply_of t1) by (rewrite (next_reply _ _ _ _ NX); reflexivity).
    assert (NN2 : t_phase t1 = p -> m = number_of (k_next k1) /\ at_rule rs p m t2).
    { intro Q'. specialize (T6 Q'). assert (GE : t_next (touch_iv t1) = StatusEndOfRules \/ 0 <= t_next (touch_iv t1)).
      { change (t_next (touch_iv t1)) with (t_next t1). rewrite <- T6. destruct (k_next k1); cbn; [right; lia|now left]. }
      destruct (next_at rs p (touch_iv t1) m t2 Q' GE NX) as (-> & _ & AR). split; [symmetry; exact T6|exact AR]. }
    destruct (IH m t2) as (g & G).
    + eapply ok_same; [exact K1|]. eapply same_trans; [|eapply next_samebody; eauto]. repeat split.
    + intros Q' X'. apply NN2; [congruence|exact Q'|exact X'].
    + congruence.
    + congruence.
    + intro Q'. symmetry. apply NN2. congruence.
    + exists (S g). intros [|f] d F; [lia|]. cbn [phase_loop]. destruct (_ && _); [|discriminate]. rewrite GO. cbn [bind].
      change (get_iv (touch_iv t1)) with (get_iv t1). rewrite DD, NX. apply G. lia.
Qed.
End Phase.
(** The call returns. *)
Lemma plays_returns : forall f O e rs p t k k', ord_valid O -> 1 <= p <= 6 -> settled O e rs p t -> rules_end O e rs p -> (forall g, process_phase g O e rs p t <> Panic) ->
  t_phase t < p -> t_abort t = false -> k_reply k = reply_of t -> set_plays O e rs p t (at_phase p k) k' -> (length (phase_rules rs p) + 2 <= f)%nat ->
  exists t', process_phase f O e rs p t = Ret t'.
Proof.
  intros f O e rs p t k k' V P ST RE NP L A Y H F.
  destruct (process_phase f O e rs p t) as [t'| |] eqn:Q; [eauto|now elim (NP f)|]. exfalso.
  pose proof (timeout_twice_phase f O e rs p t P RE F Q) as TW. pose proof (C32_rule_twice_never_returns O e rs p t V P ST L A TW) as NR.
  destruct (entered_at rs p t ltac:(lia)) as (NX & E & AT).
  assert (SE : same t (entered rs p t)) by (eapply same_trans; [|eapply next_samebody; eauto]; repeat split).
  assert (RR : reply_of (entered rs p t) = reply_of t) by (rewrite (next_reply _ _ _ _ NX); reflexivity).
  destruct (settled_ok O e rs p t V ST A) as (ok & K1 & K2 & K3 & K4 & K5 & K6).
  destruct (plays_ends O e rs p t ok P K1 K2 K3 K4 K5 RE _ _ H 0 (entered rs p t) (K3 _ _ K6 SE) AT) as (m & G).
  - now rewrite E.
  - rewrite RR. exact Y.
  - reflexivity.
  - specialize (G (S (S m)) m ltac:(lia)). specialize (NP (S (S m))). specialize (NR (S (S m))).
    destruct (process_phase (S (S m)) O e rs p t) as [t1| |] eqn:Q1; [now apply (NR t1)|easy|].
    unfold process_phase in Q1. replace (p <=? t_phase t) with false in Q1 by lia. unfold process_phase_inner in Q1.
    change (t_abort (jump_to_phase p t)) with (t_abort t) in Q1. rewrite A, NX in Q1. now apply G.
Qed.

(** ** Histories *)
Lemma sane_new : forall O e, 0 <= e_reqmem e \/ e_reqlimit e < 0 -> sane O (new_txn e).
Proof.
  intros O e L1. split; [split; [unfold StatusNotStarted; simpl; unfold StatusNotStarted; lia|right; simpl; lia]|]. split; [|intros _; discriminate].
  intros b [->| ->] _; unfold bounded; simpl; lia.
Qed.
Lemma steps_sane : forall f O e rs os t bl, armed rs -> forms_harmless O e rs -> 0 <= e_reqmem e \/ e_reqlimit e < 0 ->
  steps f O e rs os (new_txn e) = Ret (t, bl) -> sane O t.
Proof.
  intros f O e rs os t bl AR FH L1 H. pose proof (sane_new O e L1) as S0.
  clear -AR FH H S0. revert S0 t bl H. generalize (new_txn e) as t0. induction os as [|x os IH]; intros t0 S0 t bl H; cbn [steps] in H.
  - apply Ret_inj in H. injection H as <- _. exact S0.
  - apply bind_Ret in H as ([t1 b] & H1 & H). apply bind_Ret in H as ([t2 bl2] & H2 & H). apply Ret_inj in H. injection H as <- _.
    destruct (step_safe f O e rs x t0 AR FH S0) as [_ S1]. eapply IH; [eapply S1; exact H1|exact H2].
Qed.
Lemma steps_snoc : forall f O e rs a o t t1 b1 t2 b, steps f O e rs a t = Ret (t1, b1) -> Engine.step f O e rs o t1 = Ret (t2, b) ->
  steps f O e rs (a ++ [o]) t = Ret (t2, b1 ++ [b]).
Proof.
  intros f O e rs a o. induction a as [|x a IH]; intros t t1 b1 t2 b H S; cbn [steps app] in *.
  - apply Ret_inj in H. injection H as <- <-. rewrite S. reflexivity.
  - apply bind_Ret in H as ([t3 b3] & H1 & H). apply bind_Ret in H as ([t4 b4] & H2 & H). apply Ret_inj in H. injection H as <- <-.
    rewrite H1. cbn [bind]. rewrite (IH _ _ _ _ _ H2 S). reflexivity.
Qed.
Lemma other_ends : forall f O e rs o t, op_phase o = None -> Engine.step f O e rs o t <> Timeout.
Proof.
  intros f O e rs o t P. assert (W : forall ft x b, buf_write ft x b <> Timeout).
  { intros ft x b. unfold buf_write. destruct (b_readed b); [discriminate|]. destruct (_ <? _); [discriminate|]. destruct (b_file b); [discriminate|].
    destruct (_ <? _); [|discriminate]. destruct (_ <? _); [discriminate|]. destruct ft; discriminate. }
  destruct o; try discriminate P; cbn [Engine.step]; try discriminate.
  - specialize (W ft p (t_reqbody t)). destruct (buf_write _ _ _) as [[[]]| |]; cbn [bind]; easy.
  - specialize (W ft p (t_resbody t)). destruct (buf_write _ _ _) as [[[]]| |]; cbn [bind]; easy.
Qed.
Definition all_settled (f : nat) (O : oracles) (e : engine) (rs : ruleset) (os : list op) : Prop :=
  forall a o b p t c, os = a ++ o :: b -> op_phase o = Some p -> steps f O e rs a (new_txn e) = Ret (t, c) -> t_phase t < p -> t_abort t = false ->
     settled O e rs p (given o t).
Lemma all_settled_app : forall f O e rs a b, all_settled f O e rs (a ++ b) -> all_settled f O e rs a.
Proof. intros f O e rs a b H x o y p t c -> P X L A. eapply H; [|exact P|exact X|exact L|exact A]. rewrite <- app_assoc. reflexivity. Qed.
Lemma told : forall f O e rs os t bl k b l, ord_valid O -> all_settled f O e rs os -> steps f O e rs os (new_txn e) = Ret (t, bl) ->
  story (in_run f O e rs) (set_plays O e rs) os k b l -> k_phase k = t_phase t /\ k_reply k = reply_of t /\ b = t_abort t /\ l = answers bl.
Proof.
  intros f O e rs os t bl k b l V RD H S. destruct (story_steps _ _ _ _ _ _ _ V RD H) as (_ & _ & k0 & S0 & K1 & K2).
  destruct (C94_every_answer_unique _ _ _ _ _ _ _ _ _ _ _ S0 S) as (-> & -> & ->). auto.
Qed.
Lemma story_returns : forall f O e rs (D : list op -> op -> txn -> Prop) (R : Z -> txn -> account -> account -> Prop),
  ord_valid O -> armed rs -> forms_harmless O e rs -> 0 <= e_reqmem e \/ e_reqlimit e < 0 ->
  (forall p, 1 <= p <= 6 -> rules_end O e rs p) -> (forall p, 1 <= p <= 6 -> (length (phase_rules rs p) + 2 <= f)%nat) ->
  (forall a o p s t c k k', op_phase o = Some p -> D a o s -> steps f O e rs a (new_txn e) = Ret (t, c) -> R p s k k' -> set_plays O e rs p (given o t) k k') ->
  forall os, all_settled f O e rs os -> forall k b l, story D R os k b l ->
  exists t bl, steps f O e rs os (new_txn e) = Ret (t, bl) /\ story (in_run f O e rs) (set_plays O e rs) os k b l.
Proof.
  intros f O e rs D R V AR FH L1 RE LF XR os RD k b l H.
  induction H as [|a o p s k k1 l H IH P L X Y|a o p k l H IH P L|a o p k b l H IH P L|a o k b l H IH P F|a s k b l H IH|a k b l H IH].
  { eexists _, _. split; [reflexivity|constructor]. }
  all: pose proof (all_settled_app _ _ _ _ _ _ RD) as RA; destruct (IH RA) as (t1 & b1 & H1 & SO); clear IH; destruct (told _ _ _ _ _ _ _ _ _ _ V RA H1 SO) as (KP & KY & KA & KL).
  all: pose proof (steps_sane _ _ _ _ _ _ _ AR FH L1 H1) as SA.
  - destruct (given_same o t1) as (GP & GA & GI). pose proof (op_phase_range _ _ P) as PR.
    pose proof (XR _ _ _ _ _ _ _ _ P X H1 Y) as PL.
    assert (ST : settled O e rs p (given o t1)) by (eapply RD; [reflexivity|exact P|exact H1|congruence|congruence]).
    destruct (plays_returns f O e rs p (given o t1) k k1 V PR ST (RE p PR)) as (t2 & H2); [|congruence|congruence| |exact PL|now apply LF|].
    + intros g. apply phase_safe; auto. now apply sane_given.
    + rewrite KY. destruct o; reflexivity.
    + eexists t2, _. split.
      * eapply steps_snoc; [exact H1|]. rewrite (step_phase _ _ _ _ _ _ p P), H2. reflexivity.
      * eapply so_phase; [exact SO|exact P|exact L| |exact PL]. exists t1, b1. auto.
  - destruct (given_same o t1) as (GP & GA & GI). eexists _, _. split; [|eapply so_dead; eauto].
    eapply steps_snoc; [exact H1|]. rewrite (step_phase _ _ _ _ _ _ p P). unfold process_phase. rewrite GP. replace (p <=? t_phase t1) with false by lia. unfold process_phase_inner.
    change (t_abort (jump_to_phase p (given o t1))) with (t_abort (given o t1)). rewrite GA, <- KA. reflexivity.
  - destruct (given_same o t1) as (GP & GA & GI). eexists _, _. split; [|eapply so_late; eauto].
    eapply steps_snoc; [exact H1|]. rewrite (step_phase _ _ _ _ _ _ p P). unfold process_phase. rewrite GP. replace (p <=? t_phase t1) with true by lia. reflexivity.
  - destruct (step_safe f O e rs o t1 AR FH SA) as [NP _]. pose proof (other_ends f O e rs o t1 P) as NT.
    destruct (Engine.step f O e rs o t1) as [[t2 b2]| |] eqn:S; [|easy|easy]. eexists _, _. split; [eapply steps_snoc; eauto|now apply so_data].
  - eexists _, _. split; [eapply steps_snoc; [exact H1|reflexivity]|eapply so_abort; exact SO].
  - eexists _, _. split; [eapply steps_snoc; [exact H1|reflexivity]|eapply so_result; exact SO].
Qed.

(** ** C94 both ways *)
(** A history is answered, and with these answers, exactly if the rules spell them out. *)
Theorem C94_answers_exactly : forall f O e rs os l, ord_valid O -> armed rs -> forms_harmless O e rs -> 0 <= e_reqmem e \/ e_reqlimit e < 0 ->
  forms_end O e -> ~ In ABlock (rs_default rs) -> (forall p, 1 <= p <= 6 -> (length (phase_rules rs p) + 2 <= f)%nat) ->
  (forall a o b p t c, os = a ++ o :: b -> op_phase o = Some p -> steps f O e rs a (new_txn e) = Ret (t, c) -> t_phase t < p -> t_abort t = false ->
     settled O e rs p (given o t)) ->
  (exists t bl, steps f O e rs os (new_txn e) = Ret (t, bl) /\ answers bl = l) <->
  (exists k b, story (in_run f O e rs) (set_plays O e rs) os k b l).
Proof.
  intros f O e rs os l V AR FH L1 FE NB LF RD. split.
  - intros (t & bl & H & <-). destruct (C94_every_answer f O e rs os t bl V RD H) as (k & S & _). eauto.
  - intros (k & b & S). destruct (story_returns f O e rs (in_run f O e rs) (set_plays O e rs) V AR FH L1 (fun p _ d i t => process_rule_ends d O e rs p i t FE NB) LF) with (os := os) (k := k) (b := b) (l := l) as (t & bl & H & S'); [|exact RD|exact S|].
    + intros a o p s t c x x' _ (t' & c' & X & ->) X' PL. rewrite X in X'. apply Ret_inj in X'. injection X' as -> _. exact PL.
    + exists t, bl. split; [exact H|]. symmetry. now apply (told f O e rs os t bl k b l V RD H).
Qed.
(** If no rule looks at a body: exactly if the calls and the rules alone spell them out. *)
Lemma plays_seen : forall f O e rs a o p t c k k', ord_valid O -> op_phase o = Some p -> no_body rs p -> steps f O e rs a (new_txn e) = Ret (t, c) ->
  set_plays O e rs p (brought (a ++ [o]) (new_txn e)) k k' -> set_plays O e rs p (given o t) k k'.
Proof.
  intros f O e rs a o p t c k k' V P N X PL. rewrite brought_app in PL. change (brought [o] (brought a (new_txn e))) with (given o (brought a (new_txn e))) in PL.
  assert (G : alike (given o (brought a (new_txn e))) (given o t)) by (apply given_alike; eapply steps_alike; eauto).
  assert (I : t_srcip (given o t) = t_srcip (given o (brought a (new_txn e))) /\ t_srcport (given o t) = t_srcport (given o (brought a (new_txn e)))).
  { destruct G as [G _]. unfold request_part in G. injection G. auto. }
  unfold set_plays in *. destruct I as [-> ->]. eapply (plays_along _ _ _ _ _ _ (fun r r' => r = r' /\ In r (phase_rules rs p))); [| | |exact PL].
  - intros r r' [<- Ir].
    split; intros M q Q; (eapply matches_alike; [exact V|intros v; eapply N; eauto| |apply M; exact Q]); [exact G|apply alike_sym; exact G].
  - intros r r' l [<- _] X'. exact X'.
  - clear. generalize (phase_rules rs p). intro l. assert (X : forall m, (forall r, In r l -> In r m) -> Forall2 (fun r r' => r = r' /\ In r m) l l).
    { induction l as [|r l IH]; intros m I; constructor; [split; [reflexivity|apply I; now left]|]. apply IH. intros x J. apply I. now right. }
    now apply X.
Qed.
Theorem C94_answers_exactly_without_bodies : forall f O e rs os l, ord_valid O -> armed rs -> (forall p, no_body rs p) -> 0 <= e_reqmem e \/ e_reqlimit e < 0 ->
  ~ In ABlock (rs_default rs) -> (forall p, 1 <= p <= 6 -> (length (phase_rules rs p) + 2 <= f)%nat) ->
  (exists t bl, steps f O e rs os (new_txn e) = Ret (t, bl) /\ answers bl = l) <->
  (exists k b, story (as_called e) (set_plays O e rs) os k b l).
Proof.
  intros f O e rs os l V AR N L1 NB LF.
  assert (RD : all_settled f O e rs os) by (intros a o b p t c _ P _ _ _; left; apply N).
  split.
  - intros (t & bl & H & <-). destruct (C94_every_answer_without_bodies f O e rs os t bl V (fun p _ => N p) H) as (k & S & _). eauto.
  - intros (k & b & S). destruct (story_returns f O e rs (as_called e) (set_plays O e rs) V AR (plain_harmless O e rs N) L1 (fun p _ => plain_rules_end O e rs p (N p) NB) LF) with (os := os) (k := k) (b := b) (l := l) as (t & bl & H & S'); [|exact RD|exact S|].
    + intros a o p s t c x x' P -> X PL. eapply plays_seen; eauto.
    + exists t, bl. split; [exact H|]. symmetry. now apply (told f O e rs os t bl k b l V RD H).
Qed.

(** ** C95 both ways *)
Section Text.
Variables (fuel : nat) (O : oracles) (n : nat) (text : bs) (ds : list directive) (l : list dire).
Hypothesis OV : ord_valid O.
Hypothesis FT : file_text ds text.
Hypothesis LD : new_direset fuel O n text = Ret (Some l).
Let e := execute l new_engine.
Let rs := e_ruleset e.
Lemma loaded_takes : forall c qs acts, Forall2 (loaded_as O) c qs -> chain_takes c acts -> chain_actions [] qs acts.
Proof.
  intros c qs acts F. revert acts. induction F as [|w q c qs (m & ch & H) F IH]; intros acts C; inversion C as [|? ? x l1 l2 A' RA C']; subst; [constructor|].
  destruct (C70_rule_as_written _ _ _ _ _ _ _ OV H) as (_ & _ & _ & _ & _ & _ & A & _). rewrite (acts_mean_fun _ _ A _ A') in RA. constructor; [exact RA|now apply IH].
Qed.
Lemma played_text : forall p t k k', 1 <= p <= 6 -> text_plays O e ds p t k k' -> set_plays O e rs p t k k'.
Proof.
  intros p t k k' P (cs' & C1' & H).
  destruct (proj1 (C62_texts O n text l) (ex_intro _ fuel LD)) as (ds' & items & F & L & A). pose proof (file_text_fun _ _ _ FT F). subst ds'.
  destruct (assembled_chains _ _ _ A _ _ L) as (cs & C1 & C2). rewrite (chains_fun _ _ C1 _ C1') in H. clear cs' C1'.
  unfold set_plays. destruct (C65_execute l new_engine) as (_ & _ & _ & D & _). fold e in D. fold rs in D. rewrite D by exact P.
  change (phase_rules (e_ruleset new_engine) p) with (@nil rule). cbn [app]. rewrite (text_default l : rs_default rs = []).
  eapply (plays_along _ _ _ _ _ _ (fun r c => chain_as O c r)); [| | |exact H].
  - intros r c CA. cbv beta in CA. pose proof (chain_members O c r CA) as M. rewrite Forall_forall. split.
    + intros FA q [<-|J].
      * destruct (forall2_right _ _ _ _ _ (alone r) M) as (w' & K & LA); [now left|]. apply (loaded_matches O e t w' _ OV LA). now apply FA.
      * destruct (forall2_right _ _ _ _ _ q M) as (w' & K & LA); [now right|]. apply (loaded_matches O e t w' _ OV LA). now apply FA.
    + intros CM w K. destruct (forall2_left _ _ _ _ _ _ M K) as (q' & J' & LA). apply (loaded_matches O e t w q' OV LA).
      destruct J' as [<-|J']; [exact (CM r (or_introl eq_refl))|apply CM; now right].
  - intros r c acts CA C. pose proof (loaded_takes _ _ _ (chain_members O c r CA) C) as X. inversion X as [|? ? l1 l2 RA C']; subst. now constructor.
  - assert (FP : Forall2 (chain_as O) (List.filter (in_phase p) cs) (List.filter (fun r => r_phase r =? p) (rules_of l))).
    { apply (forall2_filter _ _ (chain_as O)); [|exact C2]. intros c r CA. pose proof CA as (w & c' & -> & _). cbn [in_phase]. now rewrite <- (chain_phase O OV _ _ _ CA). }
    clear -FP. induction FP; constructor; auto.
Qed.
Lemma text_fits : forall f, (length ds + 2 <= f)%nat -> forall p, 1 <= p <= 6 -> (length (phase_rules rs p) + 2 <= f)%nat.
Proof.
  intros f FU p P. destruct (proj1 (C62_texts O n text l) (ex_intro _ fuel LD)) as (ds' & items & F & L & A). pose proof (file_text_fun _ _ _ FT F). subst ds'.
  destruct (C62_nothing_lost _ _ _ _ _ L A) as (N1 & N2 & N3). destruct (C65_execute l new_engine) as (_ & _ & _ & P1 & _). fold e in P1. fold rs in P1.
  rewrite P1 by exact P. change (phase_rules (e_ruleset new_engine) p) with (@nil rule). cbn [app].
  pose proof (filter_length_le _ (fun r => r_phase r =? p) (rules_of l)) as H1. pose proof (rules_of_fewer l) as H2. pose proof (rules_of_length (map fst items)) as H3.
  rewrite N1 in H2. rewrite map_length in H3. clear -H1 H2 H3 N3 FU. lia.
Qed.
Lemma text_nowhere_body : (forall p, 1 <= p <= 6 -> bodiless ds p) -> forall p, no_body rs p.
Proof.
  intros B p. destruct (Z_le_dec 1 p) as [X|X]; [destruct (Z_le_dec p 6) as [Y|Y]|].
  - exact (text_no_body fuel O n text ds l OV FT LD p (conj X Y) (B p (conj X Y))).
  - destruct (C65_execute l new_engine) as (_ & _ & _ & _ & P2 & _). fold e in P2. fold rs in P2. intros r q v I. rewrite P2 in I by lia. easy.
  - destruct (C65_execute l new_engine) as (_ & _ & _ & _ & P2 & _). fold e in P2. fold rs in P2. intros r q v I. rewrite P2 in I by lia. easy.
Qed.
End Text.
(** For the engine a text configures, if none of its rules mentions a body: the history is answered, and with
    these answers, exactly if the text and the calls spell them out. *)
Theorem C95_answers_exactly_without_bodies : forall fuel O n text ds l, ord_valid O -> file_text ds text -> new_direset fuel O n text = Ret (Some l) ->
  (forall p, 1 <= p <= 6 -> bodiless ds p) ->
  let e := execute l new_engine in
  forall f os li, (length ds + 2 <= f)%nat ->
  (exists t bl, steps f O e (e_ruleset e) os (new_txn e) = Ret (t, bl) /\ answers bl = li) <->
  (exists k b, story (as_called e) (text_plays O e ds) os k b li).
Proof.
  intros fuel O n text ds l OV FT LD B e f os li FU.
  pose proof (C65_execute l new_engine) as (_ & _ & _ & _ & _ & DF & _ & MM & _). fold e in DF, MM.
  rewrite (C94_answers_exactly_without_bodies f O e (e_ruleset e) os li OV).
  - split; intros (k & b & S); exists k, b; (eapply story_along; [|exact S]); intros a o p s x x' P X Y; exists s; (split; [exact X|]).
    + exact (text_played fuel O n text ds l OV FT LD p s x x' (op_phase_range _ _ P) Y).
    + exact (played_text fuel O n text ds l OV FT LD p s x x' (op_phase_range _ _ P) Y).
  - apply (loaded_armed fuel O n text l new_engine LD). intros p r q [].
  - exact (text_nowhere_body fuel O n text ds l OV FT LD B).
  - left. rewrite MM. discriminate.
  - rewrite DF. easy.
  - exact (text_fits fuel O n text ds l FT LD f FU).
Qed.
(** With rules that look at bodies, if the bodies are readable when the rules are evaluated. *)
Theorem C95_answers_exactly : forall fuel O n text ds l, ord_valid O -> file_text ds text -> new_direset fuel O n text = Ret (Some l) ->
  last (body_switches ds) false = false \/ (forall b bd m, fst (multipart O b bd m) <> MpErr /\ fst (multipart O b bd m) <> MpHang) ->
  let e := execute l new_engine in
  forall f os li, (length ds + 2 <= f)%nat ->
  (forall a o b p t c, os = a ++ o :: b -> op_phase o = Some p -> steps f O e (e_ruleset e) a (new_txn e) = Ret (t, c) -> t_phase t < p -> t_abort t = false ->
     bodiless ds p \/ readable O e (given o t)) ->
  (exists t bl, steps f O e (e_ruleset e) os (new_txn e) = Ret (t, bl) /\ answers bl = li) <->
  (exists k b, story (in_run f O e (e_ruleset e)) (text_plays O e ds) os k b li).
Proof.
  intros fuel O n text ds l OV FT LD SW e f os li FU RD.
  destruct (proj1 (C62_texts O n text l) (ex_intro _ fuel LD)) as (ds' & items & F & L & A). pose proof (file_text_fun _ _ _ FT F). subst ds'.
  destruct (C62_nothing_lost _ _ _ _ _ L A) as (N1 & N2 & N3).
  pose proof (C65_execute l new_engine) as (A1 & _ & _ & _ & _ & DF & _ & MM & _). fold e in A1, DF, MM.
  assert (RA : e_reqaccess e = false \/ (forall b bd m, fst (multipart O b bd m) <> MpErr /\ fst (multipart O b bd m) <> MpHang)).
  { destruct SW as [SW|SW]; [left|now right]. rewrite A1, req_flags_filter, N2, <- req_flags_filter, (loaded_switches _ _ _ _ L). exact SW. }
  rewrite (C94_answers_exactly f O e (e_ruleset e) os li OV).
  - split; intros (k & b & S); exists k, b; (eapply story_along; [|exact S]); intros a o p s x x' P X Y; exists s; (split; [exact X|]).
    + exact (text_played fuel O n text ds l OV FT LD p s x x' (op_phase_range _ _ P) Y).
    + exact (played_text fuel O n text ds l OV FT LD p s x x' (op_phase_range _ _ P) Y).
  - apply (loaded_armed fuel O n text l new_engine LD). intros p r q [].
  - destruct RA as [RA|RA]; [right; left; exact RA|right; right; intros b bd m; apply RA].
  - left. rewrite MM. discriminate.
  - destruct RA as [RA|RA]; [left; exact RA|right; intros b bd m; apply RA].
  - rewrite DF. easy.
  - exact (text_fits fuel O n text ds l FT LD f FU).
  - intros a o b p t c Q P X LL AB. destruct (RD a o b p t c Q P X LL AB) as [B|R]; [left|now right].
    exact (text_no_body fuel O n text ds l OV FT LD p (op_phase_range _ _ P) B).
Qed.
(** ** C32 *)
(** So a history of calls never comes to an end exactly if the text spells out no answers for it: there is no other way
    to hang, and none to crash. *)
Theorem C32_text_hangs_exactly : forall fuel O n text ds l, ord_valid O -> file_text ds text -> new_direset fuel O n text = Ret (Some l) ->
  (forall p, 1 <= p <= 6 -> bodiless ds p) ->
  let e := execute l new_engine in
  forall os, (forall f, steps f O e (e_ruleset e) os (new_txn e) = Timeout) <->
             ~ exists k b li, story (as_called e) (text_plays O e ds) os k b li.
Proof.
  intros fuel O n text ds l OV FT LD B e os. split.
  - intros H (k & b & li & S). destruct (proj2 (C95_answers_exactly_without_bodies fuel O n text ds l OV FT LD B (length ds + 2) os li ltac:(lia))) as (t & bl & X & _); [eauto|].
    fold e in X. rewrite H in X. discriminate.
  - intros N f. destruct (steps f O e (e_ruleset e) os (new_txn e)) as [[t bl]| |] eqn:Q; [| |reflexivity]; exfalso.
    + destruct (C95_every_answer_without_bodies fuel O n text ds l OV FT LD B f os t bl Q) as (k & S & _). apply N. eauto.
    + revert Q. apply (C78_loaded_engines_never_panic_partial fuel O n text l LD). apply plain_harmless. exact (text_nowhere_body fuel O n text ds l OV FT LD B).
Qed.

(** ** Examples *)
(** [winding_text] and [winding_calls] meet the hypotheses of the theorems, see [C95_every_answer_example]; their answers are
    therefore spelt out by the text. *)
Example C95_answers_exactly_example : let O := demo MpErr in
  exists ds l k b, file_text ds winding_text /\ new_direset 900 O 0 winding_text = Ret (Some l) /\
    story (as_called (execute l new_engine)) (text_plays O (execute l new_engine) ds) winding_calls k b
      [Intervention 404 0 None [client_line [] [] 2 (B "running action in phase 2 rule 0"); client_line [] [] 4 (B "Access denied with code 403")] true;
       Intervention 200 0 None [] false; Intervention 503 0 None [] true; Intervention 503 0 None [] true].
Proof.
  cbv zeta. destruct C95_every_answer_example as (ds & l & FT & _ & BL & LD & t & bl & H & A).
  destruct (C95_every_answer_without_bodies 900 (demo MpErr) 0 winding_text ds l (demo_ord _) FT LD BL 9 winding_calls t bl H) as (k & S & _). rewrite A in S.
  exists ds, l, k, (t_abort t). auto.
Qed.
(** A rule that says allow:request in phase 4 leads back to its own phase. *)
Definition circling_text : bs := B "SecRule REQUEST_METHOD ""@rx POST"" ""id:1,phase:4,allow:request""".
Example C32_text_hangs_exactly_example : let O := demo MpErr in
  exists ds l, file_text ds circling_text /\ (forall p, 1 <= p <= 6 -> bodiless ds p) /\ new_direset 900 O 0 circling_text = Ret (Some l) /\
    let e := execute l new_engine in
    (forall f, steps f O e (e_ruleset e) [OpRequestURL None (B "POST") []; OpResponseHeaders 200 [] []; OpResult] (new_txn e) = Timeout) /\
    (exists t bl, steps 3 O e (e_ruleset e) [OpRequestURL None (B "GET") []; OpResponseHeaders 200 [] []; OpResult] (new_txn e) = Ret (t, bl) /\
       answers bl = [Intervention 200 0 None [] false]).
Proof.
  cbv zeta. set (vs := [PVar KRequestMethod [] false false]). set (op := POper KRx false (B "POST")).
  set (ds := [DRule vs op (PActions 1 4 false [] [PAction KAllow (B "request")])]).
  assert (FT : file_text ds circling_text) by (apply parse_text_iff; exists 900%nat; vm_compute; reflexivity).
  assert (BL : forall p, 1 <= p <= 6 -> bodiless ds p).
  { intros p _ w c w' v CI _ I V. destruct (chain_in_lines _ _ CI _ I) as (d & D & W).
    assert (E : w_vars w' = vs) by (unfold rule_line in W; cbn in D; destruct D as [<-|[]]; injection W; intros; congruence).
    rewrite E in V. destruct V as [<-|[]]. cbn. intuition discriminate. }
  assert (LD : exists l, new_direset 900 (demo MpErr) 0 circling_text = Ret (Some l)) by (eexists; vm_compute; reflexivity).
  destruct LD as (l & LD). exists ds, l. split; [exact FT|]. split; [exact BL|]. split; [exact LD|]. split.
  - apply (C32_text_hangs_exactly 900 (demo MpErr) 0 circling_text ds l (demo_ord _) FT LD BL). intros (k & b & li & S).
    destruct (proj2 (C95_answers_exactly_without_bodies 900 (demo MpErr) 0 circling_text ds l (demo_ord _) FT LD BL 3 [OpRequestURL None (B "POST") []; OpResponseHeaders 200 [] []; OpResult] li (le_n 3))) as (t & bl & X & _); [eauto|].
    vm_compute in LD. apply Ret_inj in LD. injection LD as <-. vm_compute in X. discriminate.
  - vm_compute in LD. apply Ret_inj in LD. injection LD as <-. eexists _, _. split; [vm_compute; reflexivity|reflexivity].
Qed.
Print Assumptions C94_answers_exactly.
Print Assumptions C94_answers_exactly_without_bodies.
Print Assumptions C95_answers_exactly.
Print Assumptions C95_answers_exactly_without_bodies.
Print Assumptions C32_text_hangs_exactly.
