(** Property theorems C93-C94: the whole answer. *)
From Verif Require Import Base BaseFacts GoStrings Utils Buffer SpecBuffer BufferFacts Types Transforms Operators Transaction Variables Rules Engine
  SpecText NumFacts SpecVars VarText VarFacts SpecRules PropText RuleFacts TxnFacts SpecTxn LoopFacts PropPhases PropTxn PropRules Witness SpecData PropData SpecGate PropGate PropLog SpecBody PropBody SpecAnswer.

Definition reply_of (t : txn) : reply := Reply (t_status t) (i_status (get_iv t)) (i_disruptive (get_iv t)) (i_log (get_iv t)).

Lemma nth_error_skipn_cons : forall A (l : list A) k r, nth_error l k = Some r -> skipn k l = r :: skipn (S k) l.
Proof. intros A l. induction l as [|x l IH]; intros [|k] r H; try discriminate; [now injection H as ->|]. cbn [nth_error] in H. now apply IH in H. Qed.

(** ** One action *)
Lemma asked_code_deny : forall s, asked_code s = deny_status s.
Proof. now intros [s|]. Qed.
Lemma line_prefix : forall t m, log_prefix t ++ B "ModSecurity: " ++ m = client_line (t_srcip t) (t_srcport t) (t_phase t) m.
Proof. intros t m. unfold log_prefix, client_line. rewrite <- !app_assoc. reflexivity. Qed.
Lemma effect_says : forall rs a t i, a <> APass -> a <> ASkip -> ~ leads_away a -> t_cur t = Z.of_nat i ->
  reply_of (effect rs a t) = says (t_srcip t) (t_srcport t) (t_phase t) i (reply_of t) a /\
  t_cur (effect rs a t) = t_cur t /\ t_phase (effect rs a t) = t_phase t /\ t_srcip (effect rs a t) = t_srcip t /\ t_srcport (effect rs a t) = t_srcport t.
Proof.
  intros rs a t i N1 N2 N3 C. destruct a as [|arg| | | | |s]; try easy.
  - split; [|repeat split]. cbn [effect says]. unfold do_deny, reply_of. cbn [y_next y_code y_lines]. rewrite asked_code_deny, <- line_prefix. reflexivity.
  - cbn [effect says]. unfold do_allow.
    destruct (bs_eqb_spec arg []) as [->|Q1]; [elim N3; exists 0; eexists; apply ld_all|].
    destruct (bs_eqb_spec arg (B "phase")) as [->|Q2]; [elim N3; exists 0; eexists; apply ld_phase|].
    destruct (bs_eqb_spec arg (B "request")) as [->|Q3]; [elim N3; exists 0; eexists; apply ld_request|]. repeat split.
  - split; [|repeat split]. cbn [effect says]. unfold do_log, reply_of. cbn [y_next y_code y_lines y_denied]. rewrite <- line_prefix, <- C. reflexivity.
Qed.
Lemma effects_says : forall rs l t i, (forall a, In a l -> a <> APass /\ a <> ASkip /\ ~ leads_away a) -> t_cur t = Z.of_nat i ->
  reply_of (effects rs l t) = fold_left (says (t_srcip t) (t_srcport t) (t_phase t) i) l (reply_of t) /\
  t_cur (effects rs l t) = t_cur t /\ t_phase (effects rs l t) = t_phase t /\ t_srcip (effects rs l t) = t_srcip t /\ t_srcport (effects rs l t) = t_srcport t.
Proof.
  intros rs l. induction l as [|a l IH]; intros t i N C; [repeat split|].
  destruct (N a (or_introl eq_refl)) as (N1 & N2 & N3). destruct (effect_says rs a t i N1 N2 N3 C) as (E1 & E2 & E3 & E4 & E5).
  change (effects rs (a :: l) t) with (effects rs l (effect rs a t)). cbn [fold_left].
  destruct (IH (effect rs a t) i (fun b I => N b (or_intror I)) ltac:(congruence)) as (F1 & F2 & F3 & F4 & F5).
  rewrite F1, E1, E3, E4, E5. repeat split; congruence.
Qed.

(** ** A phase, given that evaluating rules leaves what they see alone *)
Section Phase.
Variables (O : oracles) (e : engine) (rs : ruleset) (p : Z) (t0 : txn) (ok : txn -> Prop).
Hypothesis P : 1 <= p <= 6.
Hypothesis G : plain_actions rs p.
Hypothesis ok_abort : forall t, ok t -> t_abort t = false.
Hypothesis ok_who : forall t, ok t -> t_srcip t = t_srcip t0 /\ t_srcport t = t_srcport t0.
Hypothesis ok_same : forall t u, ok t -> same t u -> ok u.
Hypothesis ok_all : forall r t t', In r (phase_rules rs p) -> ok t -> all_match O e (r :: r_subs r) t t' -> ok t' /\ chain_matches O e t0 r.
Hypothesis ok_miss : forall r t t', In r (phase_rules rs p) -> ok t -> some_miss O e (r :: r_subs r) t t' -> ok t' /\ ~ chain_matches O e t0 r.
Let RX := reacts (chain_matches O e t0) (fun r => chain_actions (rs_default rs) (r :: r_subs r)) (t_srcip t0) (t_srcport t0) p.
Lemma plain_forward : all_forward rs p.
Proof.
  intros a X. apply G in X as (_ & _ & X). destruct a; simpl; auto.
  split; intros ->; elim X; exists p; eexists; constructor.
Qed.
Lemma visits_reacts : forall d n t l t', visits d O e rs p n t l t' -> ok t -> at_rule rs p n t -> t_phase t = p ->
  (n = StatusEndOfRules /\ t' = t) \/
  (0 <= n /\ RX (Z.to_nat n) (skipn (Z.to_nat n) (phase_rules rs p)) (reply_of t) (reply_of t')).
Proof.
  intros d n t l t' V. induction V as [n t X|n t s1 E N R D|n t s1 m s2 l t' E N R D NX V IH]; intros K A E0.
  - destruct X as [X|X]; [now elim X|]. left. auto.
  - right. destruct (A E N) as (Z0 & C & NN). split; [exact Z0|]. destruct (ok_who _ K) as [W1 W2].
    apply process_rule_cases in R as [[LE ->]|[RG [(r & Z1 & NT & M)|(acts & r & u & Z1 & NT & M & CA & ->)]]].
    + rewrite skipn_all2 by (unfold nrules in LE; lia). constructor.
    + assert (I : In r (phase_rules rs p)) by (eapply nth_error_In; eauto). destruct (ok_miss _ _ _ I K M) as (K1 & NM).
      rewrite (nth_error_skipn_cons _ _ _ _ NT).
      destruct (frame_position _ _ (touches_frame _ _ (some_miss_touches _ _ _ _ _ M))) as (_ & _ & _ & Q).
      destruct (touches_iv _ _ (some_miss_touches _ _ _ _ _ M)) as [[_ V]|(X & _)]; [|rewrite (ok_abort _ K1) in X; discriminate].
      assert (Y : reply_of (touch_iv s1) = reply_of t) by (unfold reply_of; change (get_iv (touch_iv s1)) with (get_iv s1); cbn [touch_iv with_iv t_status]; unfold get_iv; now rewrite V, Q).
      rewrite Y. apply rc_miss_stop; [exact NM|]. rewrite <- Y. exact D.
    + assert (I : In r (phase_rules rs p)) by (eapply nth_error_In; eauto). destruct (ok_all _ _ _ I K M) as (K1 & NM).
      rewrite (nth_error_skipn_cons _ _ _ _ NT).
      destruct (PropTxn.all_match_iv _ _ _ _ _ M ltac:(discriminate)) as [Q1 Q2].
      destruct (frame_position _ _ (touches_frame _ _ (all_match_touches _ _ _ _ _ M))) as (F1 & F2 & _).
      destruct (effects_says rs acts u (Z.to_nat n)) as (Y & _).
      { intros a Ia. destruct (G a ltac:(eapply chain_usable; eauto)) as (G1 & G2 & G3). auto. }
      { rewrite F2, C. lia. }
      destruct (ok_who _ K1) as [W3 W4]. rewrite F1, E, W3, W4 in Y.
      assert (U : reply_of u = reply_of t) by (unfold reply_of; now rewrite Q1, Q2). rewrite U in Y.
      change (reply_of (touch_iv (effects rs acts u))) with (reply_of (effects rs acts u)).
      eapply rc_fire_stop; [exact NM|exact CA|exact Y|exact D].
  - right. destruct (A E N) as (Z0 & C & NN). split; [exact Z0|].
    assert (POS : t_cur s1 = n /\ t_phase s1 = p /\ t_next s1 = t_next t).
    { pose proof R as R'. apply process_rule_cases in R' as [[LE ->]|[RG [(r & Z1 & NT & M)|(acts & r & u & Z1 & NT & M & CA & ->)]]].
      - auto.
      - destruct (frame_position _ _ (touches_frame _ _ (some_miss_touches _ _ _ _ _ M))) as (F1 & F2 & F3 & _). repeat split; congruence.
      - destruct (frame_position _ _ (touches_frame _ _ (all_match_touches _ _ _ _ _ M))) as (F1 & F2 & F3 & _).
        assert (GG : forall a, In a acts -> a <> APass /\ a <> ASkip /\ ~ leads_away a).
        { intros a Ia. destruct (G a ltac:(eapply chain_usable; eauto; eapply nth_error_In; eauto)) as (G1 & G2 & G3). auto. }
        destruct (effects_says rs acts u (Z.to_nat n) GG) as (_ & Y1 & Y2 & _); [rewrite F2, C; lia|].
        split; [congruence|]. split; [congruence|]. clear -GG F3. rewrite <- F3. clear F3. revert u. induction acts as [|a acts IHa]; intro u; [reflexivity|].
        change (effects rs (a :: acts) u) with (effects rs acts (effect rs a u)). rewrite IHa by (intros b I; apply GG; now right).
        destruct (GG a (or_introl eq_refl)) as (N1 & N2 & N3). destruct a as [|arg| | | | |s]; try easy.
        cbn [effect]. unfold do_allow.
        destruct (bs_eqb_spec arg []) as [->|Q1]; [elim N3; exists 0; eexists; apply ld_all|].
        destruct (bs_eqb_spec arg (B "phase")) as [->|Q2]; [elim N3; exists 0; eexists; apply ld_phase|].
        destruct (bs_eqb_spec arg (B "request")) as [->|Q3]; [elim N3; exists 0; eexists; apply ld_request|]. reflexivity. }
    destruct POS as (PC & PP & PN). assert (TN : t_next (touch_iv s1) = after rs p n) by (cbn; congruence).
    assert (GE : t_next (touch_iv s1) = StatusEndOfRules \/ 0 <= t_next (touch_iv s1)).
    { rewrite TN. unfold after, skipped_to. destruct (nrules rs p <=? n + 1); [now left|right; lia]. }
    destruct (next_at rs p (touch_iv s1) m s2 PP GE NX) as (EM & E2 & A2).
    assert (RP : reply_of s2 = reply_of (touch_iv s1)).
    { unfold next_rule in NX. destruct (t_next (touch_iv s1) =? StatusEndOfRules); injection NX as _ <-; reflexivity. }
    assert (KS : ok s1 -> ok s2).
    { intro K1. eapply ok_same; [exact K1|]. eapply same_trans; [|eapply next_samebody; eauto]. repeat split. }
    assert (REST : ok s1 -> nrules rs p > n -> RX (S (Z.to_nat n)) (skipn (S (Z.to_nat n)) (phase_rules rs p)) (reply_of (touch_iv s1)) (reply_of t')).
    { intros K1 LT. rewrite <- RP. destruct (IH (KS K1) A2 E2) as [(M1 & ->)|(M1 & M2)].
      - rewrite skipn_all2; [constructor|]. rewrite TN in EM. rewrite M1 in EM. unfold after, skipped_to in EM. destruct (nrules rs p <=? n + 1) eqn:LL; [unfold nrules in LL; lia|].
        unfold StatusEndOfRules in EM. lia.
      - rewrite TN in EM. unfold after, skipped_to in EM. destruct (nrules rs p <=? n + 1) eqn:LL; [unfold StatusEndOfRules in EM; lia|].
        assert (MN : Z.to_nat m = S (Z.to_nat n)) by lia. now rewrite MN in M2. }
    assert (NE : reply_of (touch_iv s1) = reply_of s1) by reflexivity. rewrite NE in REST.
    destruct (ok_who _ K) as [W1 W2].
    apply process_rule_cases in R as [[LE ->]|[RG [(r & Z1 & NT & M)|(acts & r & u & Z1 & NT & M & CA & ->)]]].
    + rewrite skipn_all2 by (unfold nrules in LE; lia).
      assert (XE : t' = s2).
      { rewrite TN in EM. unfold after, skipped_to in EM. destruct (nrules rs p <=? n + 1) eqn:LL; [|clear -LL LE; lia].
        subst m. inversion V; subst; try easy. }
      subst t'. rewrite RP, NE. constructor.
    + assert (I : In r (phase_rules rs p)) by (eapply nth_error_In; eauto). destruct (ok_miss _ _ _ I K M) as (K1 & NM).
      rewrite (nth_error_skipn_cons _ _ _ _ NT).
      destruct (frame_position _ _ (touches_frame _ _ (some_miss_touches _ _ _ _ _ M))) as (_ & _ & _ & Q).
      destruct (touches_iv _ _ (some_miss_touches _ _ _ _ _ M)) as [[_ W]|(X & _)]; [|rewrite (ok_abort _ K1) in X; discriminate].
      assert (Y : reply_of s1 = reply_of t) by (unfold reply_of, get_iv; now rewrite W, Q).
      rewrite <- Y. apply rc_miss; [exact NM|exact D|]. apply REST; [exact K1|]. lia.
    + assert (I : In r (phase_rules rs p)) by (eapply nth_error_In; eauto). destruct (ok_all _ _ _ I K M) as (K1 & NM).
      rewrite (nth_error_skipn_cons _ _ _ _ NT).
      destruct (PropTxn.all_match_iv _ _ _ _ _ M ltac:(discriminate)) as [Q1 Q2].
      destruct (frame_position _ _ (touches_frame _ _ (all_match_touches _ _ _ _ _ M))) as (F1 & F2 & _).
      destruct (effects_says rs acts u (Z.to_nat n)) as (Y & _).
      { intros a Ia. destruct (G a ltac:(eapply chain_usable; eauto)) as (G1 & G2 & G3). auto. }
      { rewrite F2, C. lia. }
      destruct (ok_who _ K1) as [W3 W4]. rewrite F1, E, W3, W4 in Y.
      assert (U : reply_of u = reply_of t) by (unfold reply_of; now rewrite Q1, Q2). rewrite U in Y.
      eapply rc_fire; [exact NM|exact CA|exact Y|exact D|]. apply REST; [|lia].
      eapply ok_same; [exact K1|apply effects_samebody].
Qed.
End Phase.

(** ** C93 *)
Lemma next_reply : forall rs t n t', next_rule rs t = (n, t') -> reply_of t' = reply_of t.
Proof. intros rs t n t' H. unfold next_rule in H. destruct (t_next t =? StatusEndOfRules); injection H as _ <-; reflexivity. Qed.
(** A phase of rules that do not lead away: the status, the denial, the log and the
    status of the next denial are those the matching rules spell out, applied in
    order. *)
Theorem C93_phase_answer : forall f O e rs p t t',
  ord_valid O -> 1 <= p <= 6 -> plain_actions rs p -> gate rs p \/ readable O e t -> t_phase t < p -> t_abort t = false ->
  process_phase f O e rs p t = Ret t' ->
  t_abort t' = false /\ phase_reacts O e rs p t (reply_of t) (reply_of t').
Proof.
  intros f O e rs p t t' V P G RD L A H.
  destruct (phase_run _ _ _ _ _ _ _ P L A H) as (l & VS).
  destruct (entered_at rs p t ltac:(lia)) as (NX & E & AT). destruct (next_phase_same _ _ _ _ NX) as (_ & IV & AB).
  assert (SE : same t (entered rs p t)) by (eapply same_trans; [|eapply next_samebody; eauto]; repeat split).
  assert (RE : reply_of (entered rs p t) = reply_of t).
  { now rewrite (next_reply _ _ _ _ NX). }
  rewrite <- RE. destruct RD as [GG|((t1 & r0 & P0 & E1 & A1 & NF) & S0 & R0)].
  - split; [apply (C76_denied_iff_some_rule_matches f O e rs p t t' V P GG L A H)|].
    edestruct (visits_reacts O e rs p t (fun u => alike t u /\ t_abort u = false) P G) as [[X _]|[_ X]]; [| | | | |exact VS| |exact AT|exact E| |exact X].
    + intros u [_ Q]. exact Q.
    + intros u [[Q _] _]. unfold request_part in Q. injection Q. auto.
    + intros u w [Q1 Q2] S. split; [eapply alike_trans; [exact Q1|now apply same_alike']|]. destruct S as ((_ & _ & Q) & _). congruence.
    + intros r u w I [Q1 Q2] M. destruct (steady_all _ _ _ _ _ V (chain_steady _ _ _ GG I) Q2 M) as (A' & X).
      split; [split; [eapply alike_trans; [exact Q1|]; apply touches_alike; eapply all_match_touches; eauto|exact A']|].
      eapply matches_chain; [exact V|exact GG|exact I|apply alike_sym; exact Q1|exact X].
    + intros r u w I [Q1 Q2] M. destruct (steady_miss _ _ _ _ _ V (chain_steady _ _ _ GG I) Q2 M) as (A' & q & Iq & X).
      split; [split; [eapply alike_trans; [exact Q1|]; apply touches_alike; eapply some_miss_touches; eauto|exact A']|].
      intro C. apply X. eapply matches_chain in C; [|exact V|exact GG|exact I|exact Q1]. now apply C.
    + split; [now apply same_alike'|]. rewrite AB. exact A.
    + discriminate.
  - assert (RR : readable O e t) by (split; [exists t1, r0; auto|auto]). split; [apply (C86_denied_iff_some_rule_matches f O e rs p t t' V P G RR L H)|].
    edestruct (visits_reacts O e rs p t (fine t t1) P G) as [[X _]|[_ X]]; [| | | | |exact VS| |exact AT|exact E| |exact X].
    + intros u. apply (fine_abort O e t t1 r0 P0 E1 A1).
    + intros u F. destruct (fine_alike O e t t1 r0 P0 u F) as [Q _]. unfold request_part in Q. injection Q. auto.
    + intros u w. apply fine_same.
    + intros r u w I F M. apply (fine_all O e t t1 r0 V P0 E1 A1 NF S0 R0 _ _ _ F M).
    + intros r u w I F M. destruct (fine_miss O e t t1 r0 V P0 E1 A1 NF S0 R0 _ _ _ F M) as (F' & q & Iq & X). split; [exact F'|]. intro C. apply X, C, Iq.
    + now left.
    + discriminate.
Qed.

(** The reaction is unique. *)
Lemma reacts_fun : forall A (M : A -> Prop) (S : A -> list action -> Prop) ip port p i l y y1 y2, (forall r a b, S r a -> S r b -> a = b) ->
  reacts M S ip port p i l y y1 -> reacts M S ip port p i l y y2 -> y1 = y2.
Proof.
  intros A M S ip port p i l y y1 y2 FN H. revert y2. induction H as [i y|i r l y y' N D H IH|i r l y N D|i r l y acts y1 y' C CA -> D H IH|i r l y acts y1 C CA -> D];
  intros y2 K; inversion K; subst; try easy; try congruence; auto;
  repeat match goal with X : S ?r ?a, Y : S ?r ?b |- _ => pose proof (FN r a b X Y); subst b; clear Y end; try congruence; auto.
Qed.
Theorem C93_reaction_unique : forall O e rs p t y y1 y2,
  phase_reacts O e rs p t y y1 -> phase_reacts O e rs p t y y2 -> y1 = y2.
Proof. intros O e rs p t y y1 y2. apply reacts_fun. intros r a b. apply chain_fun. Qed.

(** ** C94 *)
Lemma ahead_snoc : forall a o p, ahead (a ++ [o]) p <-> ahead a p /\ forall q, op_phase o = Some q -> q < p.
Proof.
  intros a o p. unfold ahead. split.
  - intro H. split; [intros x q I; apply H, in_app_iff; now left|]. intros q Q. apply (H o q); [apply in_app_iff; right; now left|exact Q].
  - intros [H1 H2] x q I Q. apply in_app_iff in I as [I|[<-|[]]]; eauto.
Qed.
Definition steady (t : txn) : Prop := i_pause (get_iv t) = 0 /\ i_url (get_iv t) = None.
Lemma effect_steady : forall rs a t, steady t -> steady (effect rs a t).
Proof.
  intros rs a t [H1 H2]. destruct a; try (split; assumption); simpl.
  - unfold do_allow. destruct (bs_eqb arg []); [now split|]. destruct (bs_eqb arg _); [now split|]. now destruct (bs_eqb arg _).
  - now split.
  - unfold jump_to. now destruct (nrules rs (t_phase t) <=? t_cur t + 2).
Qed.
Lemma works_steady : forall rs p t t', works rs p t t' -> steady t -> steady t'.
Proof.
  intros rs p t t' H. induction H as [t|a b c H1 I1 H2 I2|t t' H|a t A U|t|t]; intro S; auto.
  - destruct (touches_iv _ _ H) as [[_ V]|(_ & st & ms & _ & V)]; unfold steady, get_iv; rewrite V; [exact S|exact S].
  - now apply effect_steady.
  - unfold steady. destruct (next_rule rs t) as [n t'] eqn:E. unfold next_rule in E. destruct (t_next t =? StatusEndOfRules); injection E as _ <-; exact S.
Qed.
Lemma answer_steps : forall f O e rs os t bl, ord_valid O -> (forall p, 1 <= p <= 6 -> plain_actions rs p) ->
  (forall a o b p s c, os = a ++ o :: b -> op_phase o = Some p -> ahead a p -> steps f O e rs a (new_txn e) = Ret (s, c) ->
     gate rs p \/ readable O e (given o s)) ->
  Forall feeding os -> steps f O e rs os (new_txn e) = Ret (t, bl) ->
  t_abort t = false /\ (forall p, 1 <= p -> ahead os p <-> t_phase t < p) /\ steady t /\ reply_after (phase_reacts O e rs) f O e rs os (reply_of t).
Proof.
  intros f O e rs os. induction os as [|o os IH] using rev_ind; intros t bl V G RD F H.
  - apply Ret_inj in H. injection H as <- _. split; [reflexivity|]. split; [|split; [now split|constructor]].
    intros p P. simpl. split; [intros _; unfold PhaseBegin; clear -P; lia|intros _ ? ? []].
  - apply steps_app in H as (t1 & b1 & b2 & H1 & H2 & ->). apply steps_cons in H2 as (t2 & b & b3 & S & H2 & ->). apply Ret_inj in H2. injection H2 as <- <-.
    apply Forall_app in F as [F1 F2]. inversion F2 as [|? ? FO _]; subst.
    destruct (IH t1 b1 V G) as (A & AH & ST & RA); [|exact F1|exact H1|].
    { intros a x b' p s c -> P AH X. eapply RD; [|exact P|exact AH|exact X]. rewrite <- app_assoc. reflexivity. }
    assert (RO : forall p, op_phase o = Some p -> t_phase t1 < p -> gate rs p \/ readable O e (given o t1)).
    { intros p P L. eapply (RD os o [] p t1 b1); [reflexivity|exact P| |exact H1]. apply AH; [apply (op_phase_range _ _ P)|exact L]. }
    destruct (body_step _ _ _ _ _ _ _ _ V (fun p P => G p (op_phase_range _ _ P)) RO FO A S) as (A' & PH & _).
    split; [exact A'|]. split.
    { intros p P. rewrite ahead_snoc, (AH p P), PH. destruct (op_phase o) as [q|]; split.
      - intros [X Y]. specialize (Y q eq_refl). clear -X Y. lia.
      - intro X. split; [clear -X; lia|]. intros q' Q. injection Q as <-. clear -X. lia.
      - tauto.
      - intro X. split; [exact X|discriminate]. }
    destruct (given_same o t1) as (GP & GA & GI).
    assert (GR : reply_of (given o t1) = reply_of t1) by (destruct o; reflexivity).
    destruct (op_phase o) as [p|] eqn:P.
    + pose proof (op_phase_range _ _ P) as R. rewrite (step_phase _ _ _ _ _ _ p P) in S. apply bind_Ret in S as (t3 & S & Q). apply Ret_inj in Q. injection Q as -> _.
      split.
      { apply phase_works in S as [[_ ->]|(_ & W & _)]; [unfold steady, get_iv; now rewrite GI|]. eapply works_steady; [exact W|]. unfold steady, get_iv. cbn. now rewrite GI. }
      destruct (Z_lt_le_dec (t_phase t1) p) as [L|L].
      * eapply ra_phase; [exact RA|exact P|apply AH; [apply R|exact L]|exact H1|]. rewrite <- GR.
        eapply C93_phase_answer; [exact V|exact R|now apply G|now apply RO|now rewrite GP|congruence|exact S].
      * apply phase_works in S as [[_ ->]|(X & _)]; [|clear -X L GP; lia]. rewrite GR. apply ra_other; [exact RA|]. intros q Q. rewrite P in Q. injection Q as <-.
        rewrite (AH p (proj1 R)). clear -L. lia.
    + assert (X : forall u, t_iv u = t_iv t1 -> t_status u = t_status t1 -> steady u /\ reply_after (phase_reacts O e rs) f O e rs (os ++ [o]) (reply_of u)).
      { intros u X1 X2. split; [unfold steady, get_iv; now rewrite X1|]. unfold reply_of, get_iv. rewrite X1, X2. apply ra_other; [exact RA|]. intros p Q. congruence. }
      destruct o; try discriminate; try easy; cbn [step] in S.
      * apply Ret_inj in S. injection S as <- _. now apply X.
      * apply bind_Ret in S as ([[x n] er] & _ & S). apply Ret_inj in S. injection S as <- _. now apply X.
      * apply bind_Ret in S as ([[x n] er] & _ & S). apply Ret_inj in S. injection S as <- _. now apply X.
Qed.
(** The first result a caller fetches is, in full, the one the matching rules spell out:
    its status, whether to intervene and its log; it never asks to pause or to redirect. *)
Theorem C94_answer : forall f O e rs os t' bl,
  ord_valid O -> (forall p, 1 <= p <= 6 -> plain_actions rs p) -> Forall feeding os ->
  (forall a o b p t c, os = a ++ o :: b -> op_phase o = Some p -> ahead a p -> steps f O e rs a (new_txn e) = Ret (t, c) ->
     gate rs p \/ readable O e (given o t)) ->
  steps f O e rs (os ++ [OpResult]) (new_txn e) = Ret (t', bl) ->
  exists y bl', reply_after (phase_reacts O e rs) f O e rs os y /\
    bl = bl' ++ [ObsResult (Intervention (y_code y) 0 None (y_lines y) (y_denied y))].
Proof.
  intros f O e rs os t' bl V G F RD H. apply steps_app in H as (t1 & b1 & b2 & H1 & H2 & ->).
  apply steps_cons in H2 as (t2 & b & b3 & S & H2 & ->). apply Ret_inj in H2. injection H2 as <- <-.
  cbn [step] in S. unfold result in S. apply Ret_inj in S. injection S as _ <-.
  destruct (answer_steps f O e rs os t1 b1 V G RD F H1) as (_ & _ & [S1 S2] & RA).
  exists (reply_of t1), b1. split; [exact RA|]. unfold reply_of. cbn [y_code y_lines y_denied]. change (get_iv (touch_iv t1)) with (get_iv t1). destruct (get_iv t1) as [a1 a2 a3 a4 a5]. cbn in S1, S2 |- *. now subst a2 a3.
Qed.
(** That is one answer only. *)
Lemma after_fun : forall (R : Z -> txn -> reply -> reply -> Prop) f O e rs, (forall p t y a b, R p t y a -> R p t y b -> a = b) -> forall os a b,
  reply_after R f O e rs os a -> reply_after R f O e rs os b -> a = b.
Proof.
  intros R f O e rs FN os a b H. revert b. induction H as [|a o p t c y y' H IH P AH ST RR|a o y H IH N]; intros b K.
  - inversion K as [|? ? ? ? ? ? ? ? ? ? ? ? Q|? ? ? ? ? Q]; [reflexivity|..]; now apply app_eq_nil in Q as [_ ?].
  - inversion K as [Q|? ? ? ? ? ? ? K1 P1 AH1 ST1 RR1 Q|? ? ? K1 N1 Q]; [now apply app_cons_not_nil in Q|..]; apply app_inj_tail in Q as [-> ->].
    + rewrite ST in ST1. apply Ret_inj in ST1. injection ST1 as <- <-. rewrite P in P1. injection P1 as <-. rewrite (IH _ K1) in RR. eapply FN; eauto.
    + now elim (N1 _ P).
  - inversion K as [Q|? ? ? ? ? ? ? K1 P1 AH1 ST1 RR1 Q|? ? ? K1 N1 Q]; [now apply app_cons_not_nil in Q|..]; apply app_inj_tail in Q as [-> ->].
    + now elim (N _ P1).
    + now apply IH.
Qed.
Theorem C94_answer_unique : forall f O e rs os y1 y2,
  reply_after (phase_reacts O e rs) f O e rs os y1 -> reply_after (phase_reacts O e rs) f O e rs os y2 -> y1 = y2.
Proof. intros f O e rs os y1 y2. apply after_fun. intros p t y a b. apply C93_reaction_unique. Qed.

(** ** Examples *)
Definition answer_rules : ruleset :=
  RuleSet [(2, [demo_rule 2 [VScalar SRequestMethod] (OpRx (B "post")) [ALog; AStatus 429] false [];
                demo_rule 2 [VScalar SRequestMethod] (OpRx (B "put")) [ADeny] false []]);
           (3, [demo_rule 3 [VColl CArgsPost empty_filter] (OpRx (B "nothing")) [ADeny; AStatus 500] false [];
                demo_rule 3 [VColl CArgsPost (Filter [B "user"] [] [] [])] (OpRx (B "root")) [ADeny; ALog] false [];
                demo_rule 3 [VColl CArgsPost empty_filter] (OpRx (B "root")) [AStatus 404; ADeny; ALog] false []])] [].
Example C93_example : let O := demo MpErr in let e := demo_engine answer_rules in
  let t := demo_post "application/x-www-form-urlencoded" "user=ROOT&a=x+y" in
  plain_actions answer_rules 3 /\ ~ gate answer_rules 3 /\ readable O e t /\ t_phase t < 3 /\ t_abort t = false /\
  exists t', process_phase 9 O e answer_rules 3 t = Ret t' /\
    reply_of t' = Reply None 403 true [client_line [] [] 3 (B "running action in phase 3 rule 1"); client_line [] [] 3 (B "Access denied with code 403")].
Proof.
  cbv zeta. split; [now apply plain_checked|]. split.
  { intros [_ G]. specialize (G _ _ (VColl CArgsPost empty_filter) (or_introl eq_refl) (or_introl eq_refl) (or_introl eq_refl)). discriminate. }
  split; [split; [eexists _, _; split; [vm_compute; reflexivity|now repeat split]|split; vm_compute; reflexivity]|].
  split; [reflexivity|]. split; [reflexivity|]. eexists. split; [vm_compute; reflexivity|reflexivity].
Qed.
Example C94_example : let O := demo MpErr in let e := demo_engine answer_rules in let pre := body_calls "user=ROOT&a=x+y" in let os := pre ++ [OpRequestBody; OpLogging] in
  (forall p, 1 <= p <= 6 -> plain_actions answer_rules p) /\ Forall feeding os /\
  (forall a o b p t c, os = a ++ o :: b -> op_phase o = Some p -> ahead a p -> steps 9 O e answer_rules a (new_txn e) = Ret (t, c) ->
     gate answer_rules p \/ readable O e (given o t)) /\
  exists t' bl, steps 9 O e answer_rules (os ++ [OpResult]) (new_txn e) = Ret (t', bl ++ [ObsResult (Intervention 429 0 None
    [client_line [] [] 2 (B "running action in phase 2 rule 0"); client_line [] [] 3 (B "running action in phase 3 rule 1"); client_line [] [] 3 (B "Access denied with code 403")] true)]).
Proof.
  cbv zeta.
  split; [intros p P; assert (C : p = 1 \/ p = 2 \/ p = 3 \/ p = 4 \/ p = 5 \/ p = 6) by (clear -P; lia); destruct C as [->|[->|[->|[->|[->| ->]]]]]; now apply plain_checked|].
  split; [repeat constructor|]. split.
  - intros a o b p t c Q P AH ST. assert (C : p <> 3 \/ p = 3) by (clear; lia). destruct C as [C|C].
    + left. pose proof (op_phase_range _ _ P) as R. assert (X : p = 1 \/ p = 2 \/ p = 4 \/ p = 5 \/ p = 6) by (clear -R C; lia).
      destruct X as [->|[->|[->|[->| ->]]]]; now apply gate_checked.
    + right. subst p. destruct o; try discriminate P. do 4 (destruct a as [|? a]; [discriminate Q|injection Q as <- Q]).
      destruct a as [|? a]; [|injection Q as <- Q; destruct a as [|? a]; [discriminate Q|injection Q as <- Q; destruct a; discriminate Q]].
      apply (f_equal (fun x => match x with Ret (u, _) => u | _ => t end)) in ST. rewrite <- ST. clear ST. split; [eexists _, _; split; [vm_compute; reflexivity|now repeat split]|split; vm_compute; reflexivity].
  - eexists _, [_; _; _; _; _; _]. vm_compute. reflexivity.
Qed.
Print Assumptions C93_phase_answer.
Print Assumptions C93_reaction_unique.
Print Assumptions C94_answer.
Print Assumptions C94_answer_unique.
