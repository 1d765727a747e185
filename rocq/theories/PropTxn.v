(** Property theorems C33, C34, C35, C38, C39, C40, C41, C44, C51, C68: results, aborting,
    statuses, logs, isolation. *)
From Verif Require Import Base BaseFacts GoStrings Utils Buffer SpecBuffer BufferFacts Types Transforms Operators Transaction Variables Rules Engine
  SpecText NumFacts SpecVars VarFacts SpecRules PropText RuleFacts OrderFacts TxnFacts SpecTxn LoopFacts Witness PropRules PropPhases.
From Coq Require Import ZifyBool.

(** ** C33 *)
Lemma effects_status : forall rs l t, t_status (effects rs l t) = last_status l (t_status t).
Proof.
  intros rs l. induction l as [|a l IH]; intro t; [reflexivity|].
  change (effects rs (a :: l) t) with (effects rs l (effect rs a t)). rewrite IH. destruct a; cbn [last_status effect]; try reflexivity.
  - unfold do_allow. destruct (bs_eqb arg []); [reflexivity|]. destruct (bs_eqb arg (B "phase")); [reflexivity|]. now destruct (bs_eqb arg (B "request")).
  - unfold jump_to. now destruct (nrules rs (t_phase t) <=? t_cur t + 2).
Qed.
Lemma denial_deny : forall d, denial_status d (deny_status d).
Proof.
  intros [x|]; unfold denial_status, deny_status.
  - destruct ((100 <=? x) && (x <=? 599)) eqn:E; [left; exists x; repeat split; lia|].
    right. split; [|reflexivity]. intros y H. injection H as <-. lia.
  - right. split; [discriminate|reflexivity].
Qed.
Lemma denial_fun : forall d s1 s2, denial_status d s1 -> denial_status d s2 -> s1 = s2.
Proof.
  intros d s1 s2 [(x & -> & R & ->)|[N1 ->]] [(y & E & R2 & ->)|[N2 ->]]; try congruence.
  - elim (N2 _ eq_refl). exact R.
  - subst. elim (N1 _ eq_refl). exact R2.
Qed.
(** Everything but deny and pass leaves status and disruptiveness alone. *)
Lemma effect_iv_other : forall rs a t, a <> ADeny -> a <> APass ->
  i_status (get_iv (effect rs a t)) = i_status (get_iv t) /\ i_disruptive (get_iv (effect rs a t)) = i_disruptive (get_iv t).
Proof.
  intros rs a t N1 N2. destruct a; simpl; auto; try easy.
  - unfold do_allow. destruct (bs_eqb arg []); [auto|]. destruct (bs_eqb arg (B "phase")); [auto|]. now destruct (bs_eqb arg (B "request")).
  - unfold jump_to. now destruct (nrules rs (t_phase t) <=? t_cur t + 2).
Qed.
Lemma effects_200 : forall rs l t, ~ In ADeny l -> i_status (get_iv t) = 200 -> i_status (get_iv (effects rs l t)) = 200.
Proof.
  intros rs l. induction l as [|a l IH]; intros t N E; [exact E|].
  change (effects rs (a :: l) t) with (effects rs l (effect rs a t)). apply IH; [intro I; apply N; now right|].
  assert (D : a = APass \/ a <> APass) by (destruct a; try (right; discriminate); now left). destruct D as [->|D]; [reflexivity|].
  destruct (effect_iv_other rs a t) as [Q _]; [intros ->; apply N; now left|exact D|congruence].
Qed.
(** A denied status persists through further actions without pass. *)
Lemma effects_denied : forall rs l t s, ~ In APass l ->
  (~ In ADeny l \/ (forall x, ~ In (AStatus x) l) /\ s = deny_status (t_status t)) -> 
  i_disruptive (get_iv t) = true -> i_status (get_iv t) = s ->
  i_disruptive (get_iv (effects rs l t)) = true /\ i_status (get_iv (effects rs l t)) = s.
Proof.
  intros rs l. induction l as [|a l IH]; intros t s NP ND D E; [auto|].
  change (effects rs (a :: l) t) with (effects rs l (effect rs a t)).
  assert (X : a = ADeny \/ a <> ADeny) by (destruct a; try (right; discriminate); now left). destruct X as [->|X].
  - destruct ND as [ND|[ND ES]]; [elim ND; now left|]. apply IH.
    + intro I. apply NP. now right.
    + right. split; [intros x I; apply (ND x); now right|exact ES].
    + reflexivity.
    + simpl. destruct (i_status (get_iv t) =? 200); congruence.
  - destruct (effect_iv_other rs a t X) as [Q1 Q2]; [intros ->; apply NP; now left|]. apply IH; try congruence.
    + intro I. apply NP. now right.
    + destruct ND as [ND|[ND ES]]; [left; intro I; apply ND; now right|]. right. split; [intros x I; apply (ND x); now right|].
      rewrite ES. f_equal. destruct a; try reflexivity.
      * simpl. unfold do_allow. destruct (bs_eqb arg []); [reflexivity|]. destruct (bs_eqb arg (B "phase")); [reflexivity|]. now destruct (bs_eqb arg (B "request")).
      * simpl. unfold jump_to. now destruct (nrules rs (t_phase t) <=? t_cur t + 2).
      * elim (ND s0). now left.
Qed.
(** No denial stands when the actions [pre] have been executed from state [t]. *)
Definition no_standing_denial (pre : list action) (t : txn) : Prop :=
  (~ In ADeny pre /\ i_status (get_iv t) = 200) \/ (exists a b, pre = a ++ APass :: b /\ ~ In ADeny b).
Lemma deny_effects : forall rs pre post t, no_standing_denial pre t -> ~ In APass post ->
  (~ In ADeny post \/ forall x, ~ In (AStatus x) post) ->
  let t' := effects rs (pre ++ ADeny :: post) t in
  i_disruptive (get_iv t') = true /\ denial_status (last_status pre (t_status t)) (i_status (get_iv t')).
Proof.
  intros rs pre post t F NP ND t'. unfold t'. rewrite effects_app.
  change (effects rs (ADeny :: post) ?x) with (effects rs post (do_deny x)). set (u := effects rs pre t).
  assert (E : i_status (get_iv u) = 200).
  { unfold u. destruct F as [[N E]|(a & b & -> & N)]; [now apply effects_200|]. rewrite effects_app.
    change (effects rs (APass :: b) ?x) with (effects rs b (reset_intervention x)). now apply effects_200. }
  assert (S : t_status u = last_status pre (t_status t)) by apply effects_status.
  destruct (effects_denied rs post (do_deny u) (deny_status (t_status u)) NP) as [D1 D2].
  - destruct ND; auto.
  - reflexivity.
  - simpl. now rewrite E, Z.eqb_refl.
  - split; [exact D1|]. rewrite D2, S. apply denial_deny.
Qed.
Lemma all_match_iv : forall O e rs t t', all_match O e rs t t' -> rs <> [] -> get_iv t' = get_iv t /\ t_status t' = t_status t.
Proof.
  intros O e rs t t' A N. pose proof (all_match_no_abort _ _ _ _ _ A N) as AB. pose proof (all_match_touches _ _ _ _ _ A) as T.
  destruct (frame_position _ _ (touches_frame _ _ T)) as (_ & _ & _ & Q).
  destruct (touches_iv _ _ T) as [[_ V]|[X _]]; [|congruence]. split; [unfold get_iv; now rewrite V|exact Q].
Qed.
(** A rule fires with a deny not followed by pass: after the phase Result reports a
    denial with the last status executed (on this transaction) before it. *)
Theorem C33_deny_partial : forall f O e rs p t t' l0 i u u1 l1 acts pre post,
  visits f O e rs p 0 (entered rs p t) (l0 ++ (i, u, u1) :: l1) t' -> fires O e rs p i u u1 acts ->
  acts = pre ++ ADeny :: post -> ~ In APass post -> (~ In ADeny post \/ forall x, ~ In (AStatus x) post) ->
  no_standing_denial pre u ->
  i_disruptive (fst (result t')) = true /\ denial_status (last_status pre (t_status u)) (i_status (fst (result t'))).
Proof.
  intros f O e rs p t t' l0 i u u1 l1 acts pre post V FI -> NP ND F.
  assert (D : i_disruptive (get_iv u1) = true /\ denial_status (last_status pre (t_status u)) (i_status (get_iv u1))).
  { destruct FI as (r & t1 & _ & _ & AM & _ & ->). destruct (all_match_iv _ _ _ _ _ AM ltac:(discriminate)) as [Q1 Q2].
    rewrite <- Q2. apply deny_effects; auto. destruct F as [[F1 F2]|F]; [left|right; exact F]. split; [exact F1|congruence]. }
  destruct (visits_disruptive _ _ _ _ _ _ _ _ _ V _ _ _ _ _ eq_refl (proj1 D)) as [_ ->]. exact D.
Qed.
(** One rule without chain, block and pass: the status is its own last one, else the
    last one executed before, else 403. *)
Lemma last_status_app : forall a b d, last_status (a ++ b) d = last_status b (last_status a d).
Proof. induction a as [|x a IH]; intros b d; [reflexivity|]. destruct x; cbn [app last_status]; apply IH. Qed.
Lemma last_status_filter : forall l d, last_status (List.filter (fun a => group_of a =? 1) l) d = last_status l d.
Proof. induction l as [|a l IH]; intro d; [reflexivity|]. destruct a; simpl; apply IH. Qed.
Lemma last_status_none : forall l d, (forall x, ~ In (AStatus x) l) -> last_status l d = d.
Proof.
  induction l as [|a l IH]; intros d N; [reflexivity|]. destruct a; cbn [last_status]; try (apply IH; intros x I; apply (N x); now right).
  elim (N s). now left.
Qed.
Lemma deny_split_first : forall l, In ADeny l -> exists pre post, l = pre ++ ADeny :: post /\ ~ In ADeny pre.
Proof.
  induction l as [|a l IH]; intros I; [destruct I|].
  assert (X : a = ADeny \/ a <> ADeny) by (destruct a; try (right; discriminate); now left). destruct X as [->|X].
  - exists [], l. split; [reflexivity|intros []].
  - destruct I as [->|I]; [easy|]. destruct (IH I) as (pre & post & -> & N). exists (a :: pre), post. split; [reflexivity|].
    intros [->|J]; [easy|now apply N].
Qed.
Theorem C33_single_rule_partial : forall O e rs r t t1, r_subs r = [] -> ~ In ABlock (r_acts r) -> ~ In APass (r_acts r) ->
  In ADeny (r_acts r) -> match_rule O e r t = Ret (t1, true) -> i_status (get_iv t) = 200 ->
  exists f t', do_rule f O e rs r t = Ret t' /\ i_disruptive (fst (result t')) = true /\
    denial_status (last_status (r_acts r) (t_status t)) (i_status (fst (result t'))).
Proof.
  intros O e rs r t t1 NS NB NP D M E. set (g := grouped (r_acts r)).
  pose proof (grouped_stable (r_acts r)) as SG. fold g in SG.
  assert (AM : all_match O e (r :: r_subs r) t t1) by (rewrite NS; eapply am_cons; [exact M|constructor]).
  assert (CA : chain_actions (rs_default rs) (r :: r_subs r) g).
  { rewrite NS, <- (app_nil_r g). constructor; [|constructor]. exists g. split; [exact SG|].
    assert (N' : ~ In ABlock g) by (intro I; apply NB; now apply (stable_in _ _ _ SG)).
    clear -N'. induction g as [|a g IH]; constructor; [intros ->; apply N'; now left|]. apply IH. intro I. apply N'. now right. }
  destruct (do_rule_all O e rs r t t1 g AM CA) as (f & H). exists f. eexists. split; [exact H|].
  destruct (all_match_iv _ _ _ _ _ AM ltac:(discriminate)) as [Q1 Q2].
  assert (DG : In ADeny g) by now apply (stable_in _ _ _ SG).
  apply deny_split_first in DG as (pre & post & EQ & NPre).
  assert (NPost : forall x, ~ In (AStatus x) post).
  { intros x I. destruct SG as (_ & S & _). rewrite EQ, map_app in S. cbn [map group_of] in S.
    assert (SS : Sorted.Sorted Z.le (3 :: map group_of post)).
    { clear -S. induction (map group_of pre) as [|y l IH]; [exact S|]. apply IH. now inversion S. }
    apply Sorted.Sorted_StronglySorted in SS; [|intros a b c; lia]. inversion SS as [|y l _ FA]; subst.
    rewrite Forall_forall in FA. specialize (FA 1 ltac:(apply in_map_iff; exists (AStatus x); auto)). lia. }
  assert (LS : last_status pre (t_status t1) = last_status (r_acts r) (t_status t)).
  { rewrite Q2. rewrite <- (last_status_filter (r_acts r)). destruct SG as (_ & _ & FE). rewrite <- (FE 1), EQ, last_status_filter, last_status_app.
    cbn [last_status]. symmetry. now apply last_status_none. }
  change (fst (result (effects rs g t1))) with (get_iv (effects rs g t1)). rewrite EQ, <- LS. apply deny_effects.
  - left. split; [exact NPre|congruence].
  - intro I. apply NP. apply (stable_in _ _ _ SG). rewrite EQ. apply in_or_app. right. now right.
  - right. exact NPost.
Qed.
(** While a denial stands its status stays. *)
Theorem C33_standing_denial_kept : forall rs l t, ~ In APass l -> i_disruptive (get_iv t) = true -> i_status (get_iv t) <> 200 ->
  i_disruptive (get_iv (effects rs l t)) = true /\ i_status (get_iv (effects rs l t)) = i_status (get_iv t).
Proof.
  intros rs l. induction l as [|a l IH]; intros t N D E; [auto|].
  change (effects rs (a :: l) t) with (effects rs l (effect rs a t)).
  assert (NA : a <> APass) by (intros ->; apply N; now left). assert (NL : ~ In APass l) by (intro I; apply N; now right).
  assert (X : a = ADeny \/ a <> ADeny) by (destruct a; try (right; discriminate); now left). destruct X as [->|X].
  - assert (Q : i_status (get_iv (do_deny t)) = i_status (get_iv t)) by (simpl; destruct (Z.eqb_spec (i_status (get_iv t)) 200); [easy|reflexivity]).
    cbn [effect]. rewrite <- Q. apply IH; [exact NL|reflexivity|congruence].
  - destruct (effect_iv_other rs a t X NA) as [Q1 Q2]. rewrite <- Q1. apply IH; congruence.
Qed.
(** So the claim fails when an earlier denial was not read. *)
Theorem C33_deny_refuted : exists f O e rs t' i,
  let r p acts := demo_rule p [VScalar SRequestMethod] (OpRx (B "post")) acts false [] in
  rs = RuleSet [(1, [r 1 [ADeny]]); (2, [r 2 [AStatus 404; ADeny]])] [] /\
  steps f O e rs [OpConnection [] [] [] []; OpRequestHeader []; OpResult] (demo_post "x" "") = Ret (t', [ObsNone; ObsNone; ObsResult i]) /\
  i_status i = 403 /\ t_status t' = Some 404 /\ length (i_log i) = 2%nat.
Proof.
  exists 5%nat, (demo MpErr), (demo_engine new_ruleset). eexists _, _, _. cbv zeta. split; [reflexivity|].
  split; [vm_compute; reflexivity|]. repeat split; reflexivity.
Qed.
Example C33_example :
  let r := demo_rule 2 [VScalar SRequestMethod] (OpRx (B "post")) [ADeny; AStatus 404; AStatus 700] false [] in
  let t := demo_post "x" "" in
  match_rule (demo MpErr) (demo_engine new_ruleset) r t = Ret (t, true) /\ i_status (get_iv t) = 200 /\
  denial_status (last_status (r_acts r) (t_status t)) 403 /\
  i_status (get_iv (effects new_ruleset [AStatus 404; ADeny; ALog] t)) = 404.
Proof.
  cbv zeta. split; [vm_compute; reflexivity|]. split; [reflexivity|]. split; [|reflexivity].
  right. split; [|reflexivity]. intros x H. injection H as <-. lia.
Qed.
Print Assumptions C33_deny_partial.
Print Assumptions C33_single_rule_partial.
Print Assumptions C33_standing_denial_kept.
Print Assumptions C33_deny_refuted.

(** ** C34 *)
Theorem C34_result_one_shot : forall f O e rs t t' b, step f O e rs OpResult t = Ret (t', b) ->
  b = ObsResult (get_iv t) /\ t_abort t' = t_abort t /\
  (t_abort t = false -> quiet (get_iv t') /\ forall t2 b2, step f O e rs OpResult t' = Ret (t2, b2) ->
     exists i, b2 = ObsResult i /\ quiet i) /\
  (t_abort t = true -> step f O e rs OpResult t' = Ret (t', b)).
Proof.
  intros f O e rs t t' b H. cbn [step result] in H. apply Ret_inj in H. injection H as <- <-.
  change (t_abort (touch_iv t)) with (t_abort t). split; [reflexivity|].
  destruct (t_abort t) eqn:A; (split; [simpl; exact A|]); (split; [|intro Q]); try discriminate.
  - cbn [step result]. change (t_abort (touch_iv (touch_iv t))) with (t_abort t). now rewrite A.
  - intros _. split; [now repeat split|]. intros t2 b2 H. cbn [step result] in H. apply Ret_inj in H. injection H as _ <-.
    eexists. split; [reflexivity|]. now repeat split.
Qed.
(** Result changes nothing else. *)
Theorem C34_result_changes_only_the_intervention : forall t, exists i, snd (result t) = with_iv t i.
Proof. intro t. unfold result. simpl. destruct (t_abort t); eexists; reflexivity. Qed.
Example C34_example : let t := do_deny (demo_post "x" "") in
  i_status (fst (result t)) = 403 /\ i_status (fst (result (snd (result t)))) = 200 /\
  i_status (fst (result (snd (result (abort_with_status 413 t))))) = 413.
Proof. repeat split; reflexivity. Qed.
Print Assumptions C34_result_one_shot.
Print Assumptions C34_result_changes_only_the_intervention.

(** ** C35 and C39 *)
Lemma step_aborted : forall o t, t_abort t = true -> is_abort o = false -> forall f O e rs t' b,
  step f O e rs o t = Ret (t', b) ->
  t_abort t' = true /\ get_iv t' = get_iv t /\ (forall i, b = ObsResult i -> i = get_iv t) /\
  forall f' O' e' rs', step f' O' e' rs' o t = Ret (t', b).
Proof.
  intros o t A N f O e rs t' b H. destruct (op_phase o) as [p|] eqn:Q.
  - assert (E : forall f' O' e' rs', step f' O' e' rs' o t = Ret (if p <=? t_phase t then given o t else jump_to_phase p (given o t), ObsNone)).
    { intros. rewrite (step_phase _ _ _ _ _ _ p Q). unfold process_phase, process_phase_inner. destruct (given_same o t) as (G1 & G2 & _).
      rewrite G1. destruct (p <=? t_phase t); [reflexivity|]. change (t_abort (jump_to_phase p (given o t))) with (t_abort (given o t)).
      now rewrite G2, A. }
    rewrite E in H. apply Ret_inj in H. injection H as <- <-. destruct (given_same o t) as (_ & G2 & G3).
    split; [destruct (p <=? t_phase t); simpl; congruence|].
    split; [unfold get_iv; destruct (p <=? t_phase t); simpl; now rewrite G3|]. split; [discriminate|exact E].
  - destruct o; try discriminate; cbn [step] in H |- *.
    + apply Ret_inj in H. injection H as <- <-. split; [exact A|]. split; [reflexivity|]. split; [discriminate|reflexivity].
    + destruct (buf_write ft p (t_reqbody t)) as [[[x n] er]| |]; cbn [bind] in *; try discriminate.
      apply Ret_inj in H. injection H as <- <-. split; [exact A|]. split; [reflexivity|]. split; [discriminate|reflexivity].
    + destruct (buf_write ft p (t_resbody t)) as [[[x n] er]| |]; cbn [bind] in *; try discriminate.
      apply Ret_inj in H. injection H as <- <-. split; [exact A|]. split; [reflexivity|]. split; [discriminate|reflexivity].
    + unfold result in *. change (t_abort (touch_iv t)) with (t_abort t) in *. rewrite A in *. apply Ret_inj in H. injection H as <- <-.
      split; [exact A|]. split; [reflexivity|]. split; [|reflexivity]. intros i X. injection X as <-. reflexivity.
Qed.
Theorem C35_abort_is_final : forall f O e rs os t t' obs,
  t_abort t = true -> (forall o, In o os -> is_abort o = false) -> steps f O e rs os t = Ret (t', obs) ->
  t_abort t' = true /\ get_iv t' = get_iv t /\ (forall i, In (ObsResult i) obs -> i = get_iv t) /\
  (forall f' O' e' rs', steps f' O' e' rs' os t = Ret (t', obs)).
Proof.
  intros f O e rs os. induction os as [|o os IH]; intros t t' obs A N H.
  - apply Ret_inj in H. injection H as <- <-. split; [exact A|]. split; [reflexivity|]. split; [intros i []|reflexivity].
  - apply steps_cons in H as (t1 & b & bl & H1 & H2 & ->).
    destruct (step_aborted o t A (N o (or_introl eq_refl)) f O e rs t1 b H1) as (A1 & I1 & R1 & E1).
    destruct (IH t1 t' bl A1 (fun x I => N x (or_intror I)) H2) as (A2 & I2 & R2 & E2).
    split; [exact A2|]. split; [congruence|]. split.
    + intros i [I|I]; [now apply R1|]. rewrite <- I1. now apply R2.
    + intros. cbn [steps]. rewrite E1. cbn [bind]. now rewrite E2.
Qed.
Lemma steps_sound : forall (ok : Z -> Prop) f O e rs os t t' obs, (forall c, In (OpAbortWithStatus c) os -> ok c) ->
  sound_iv ok t -> steps f O e rs os t = Ret (t', obs) ->
  sound_iv ok t' /\ forall i, In (ObsResult i) obs ->
    (i_disruptive i = false -> i_status i = 200) /\ (100 <= i_status i <= 599 \/ ok (i_status i)).
Proof.
  intros ok f O e rs os. induction os as [|o os IH]; intros t t' obs OK S H.
  - apply Ret_inj in H. injection H as <- <-. split; [exact S|intros i []].
  - apply steps_cons in H as (t1 & b & bl & H1 & H2 & ->).
    assert (K : sound_iv ok t1 /\ forall i, b = ObsResult i -> (i_disruptive i = false -> i_status i = 200) /\ (100 <= i_status i <= 599 \/ ok (i_status i))).
    { destruct (op_phase o) as [p|] eqn:Q.
      - rewrite (step_phase _ _ _ _ _ _ p Q) in H1. apply bind_Ret in H1 as (t2 & H1 & H3). apply Ret_inj in H3. injection H3 as <- <-.
        split; [|discriminate]. destruct (given_same o t) as (_ & G2 & G3).
        assert (SG : sound_iv ok (given o t)) by (unfold sound_iv, get_iv in *; now rewrite G2, G3).
        destruct (phase_works _ _ _ _ _ _ _ H1) as [[_ ->]|(_ & W & _)]; [exact SG|]. eapply works_sound; [exact W|exact SG].
      - destruct o; try discriminate; cbn [step] in H1.
        + apply Ret_inj in H1. injection H1 as <- <-. split; [exact S|discriminate].
        + apply bind_Ret in H1 as ([[x n] er] & _ & H1). apply Ret_inj in H1. injection H1 as <- <-. split; [exact S|discriminate].
        + apply bind_Ret in H1 as ([[x n] er] & _ & H1). apply Ret_inj in H1. injection H1 as <- <-. split; [exact S|discriminate].
        + unfold result in H1. apply Ret_inj in H1. injection H1 as <- <-. change (t_abort (touch_iv t)) with (t_abort t).
          split; [|intros i X; injection X as <-; destruct S as (S1 & S2 & _); auto].
          destruct (t_abort t) eqn:A; [exact S|]. unfold sound_iv. simpl. rewrite A. split; [reflexivity|]. split; [left; lia|discriminate].
        + apply Ret_inj in H1. injection H1 as <- <-. split; [|discriminate]. unfold sound_iv. simpl.
          split; [discriminate|]. split; [right; apply OK; now left|reflexivity]. }
    destruct K as [K1 K2]. destruct (IH t1 t' bl (fun c I => OK c (or_intror I)) K1 H2) as [S2 R2]. split; [exact S2|].
    intros i [I|I]; [now apply K2|now apply R2].
Qed.
Lemma new_sound : forall (ok : Z -> Prop) e, sound_iv ok (new_txn e).
Proof. intros ok e. split; [reflexivity|]. split; [left; simpl; lia|discriminate]. Qed.
(** An aborted transaction is disruptive, however it got there. *)
Theorem C35_aborted_is_disruptive : forall f O e rs os t' obs,
  steps f O e rs os (new_txn e) = Ret (t', obs) -> t_abort t' = true -> i_disruptive (get_iv t') = true.
Proof.
  intros f O e rs os t' obs H A.
  destruct (steps_sound (fun _ => True) f O e rs os _ t' obs (fun _ _ => I) (new_sound _ e) H) as [(_ & _ & S) _]. auto.
Qed.
Example C35_example :
  let rs := RuleSet [(2, [demo_rule 2 [VScalar SRequestMethod] (OpRx (B "post")) [APass] false []])] [] in
  exists t' i, steps 5 (demo MpErr) (demo_engine rs) rs [OpRequestHeader []; OpResult; OpLogging; OpResult] (abort_with_status 413 (demo_post "x" "")) =
    Ret (t', [ObsNone; ObsResult i; ObsNone; ObsResult i]) /\ i_status i = 413 /\ i_disruptive i = true.
Proof. eexists _, _. split; [vm_compute; reflexivity|split; reflexivity]. Qed.
Print Assumptions C35_abort_is_final.
Print Assumptions C35_aborted_is_disruptive.

(** Statuses: every status is 100..599 or one the caller passed to AbortWithStatus. *)
Theorem C39_valid_status_partial : forall f O e rs os t' obs,
  steps f O e rs os (new_txn e) = Ret (t', obs) ->
  (100 <= i_status (get_iv t') <= 599 \/ In (OpAbortWithStatus (i_status (get_iv t'))) os) /\
  (i_disruptive (get_iv t') = false -> i_status (get_iv t') = 200) /\
  forall i, In (ObsResult i) obs ->
    (i_disruptive i = false -> i_status i = 200) /\ (100 <= i_status i <= 599 \/ In (OpAbortWithStatus (i_status i)) os).
Proof.
  intros f O e rs os t' obs H.
  destruct (steps_sound (fun c => In (OpAbortWithStatus c) os) f O e rs os _ t' obs (fun _ K => K) (new_sound _ e) H) as [(S1 & S2 & _) S3]. auto.
Qed.
Theorem C39_valid_status_refuted : exists f O e rs t' i,
  steps f O e rs [OpAbortWithStatus 0; OpResult] (new_txn e) = Ret (t', [ObsNone; ObsResult i]) /\ i_status i = 0.
Proof. exists 5%nat, (demo MpErr), (demo_engine new_ruleset), new_ruleset. eexists _, _. split; [reflexivity|reflexivity]. Qed.
(** Where the status of a blocking result comes from: 403, or a status action of the
    rules, or a body that could not be taken in (413, 500), or the caller. *)
Definition status_from (rs : ruleset) (ok : Z -> Prop) (t : txn) : Prop :=
  let w s := exists p, 1 <= p <= 6 /\ usable rs p (AStatus s) in
  (forall s, t_status t = Some s -> w s) /\
  (i_disruptive (get_iv t) = false -> i_status (get_iv t) = 200) /\
  (i_disruptive (get_iv t) = true ->
     i_status (get_iv t) = 403 \/ (100 <= i_status (get_iv t) <= 599 /\ w (i_status (get_iv t))) \/
     (t_abort t = true /\ (i_status (get_iv t) = 413 \/ i_status (get_iv t) = 500 \/ ok (i_status (get_iv t))))).
Lemma works_status : forall ok rs p t t', 1 <= p <= 6 -> works rs p t t' -> status_from rs ok t -> status_from rs ok t'.
Proof.
  intros ok rs p t t' P W. induction W as [t|a b c H1 IH1 H2 IH2|t t' H|a t A U|t|t]; intro S; auto.
  - destruct (frame_position _ _ (touches_frame _ _ H)) as (_ & _ & _ & Q). destruct S as (S1 & S2 & S3).
    destruct (touches_iv _ _ H) as [[A V]|(A & st & ms & SS & V)]; unfold status_from, get_iv in *; rewrite Q, V; (split; [exact S1|]).
    + rewrite A. auto.
    + simpl. split; [discriminate|]. intros _. right. right. split; [exact A|]. tauto.
  - destruct S as (S1 & S2 & S3). destruct a; unfold status_from; simpl; try (split; [exact S1|split; [exact S2|exact S3]]).
    + split; [exact S1|]. split; [discriminate|]. intros _. destruct (i_status (get_iv t) =? 200) eqn:E.
      * unfold deny_status. destruct (t_status t) as [s|]; [|now left]. destruct ((100 <=? s) && (s <=? 599)) eqn:R; [|now left]. right. left. split; [lia|auto].
      * destruct (i_disruptive (get_iv t)) eqn:D; [|rewrite S2 in E by reflexivity; discriminate]. auto.
    + unfold do_allow. destruct (bs_eqb arg []); [now split|]. destruct (bs_eqb arg _); [now split|]. destruct (bs_eqb arg _); now split.
    + split; [exact S1|]. split; [reflexivity|discriminate].
    + unfold jump_to. destruct (nrules rs (t_phase t) <=? t_cur t + 2); now split.
    + split; [intros s0 X; injection X as <-; eauto|split; [exact S2|exact S3]].
  - unfold next_rule. now destruct (t_next t =? StatusEndOfRules).
Qed.
Lemma step_status : forall (ok : Z -> Prop) f O e rs o t t' b, (forall c, o = OpAbortWithStatus c -> ok c) -> status_from rs ok t ->
  step f O e rs o t = Ret (t', b) -> status_from rs ok t' /\ forall i, b = ObsResult i -> i = get_iv t.
Proof.
  intros ok f O e rs o t t' b OK S H. destruct (op_phase o) as [p|] eqn:Q.
  - rewrite (step_phase _ _ _ _ _ _ p Q) in H. apply bind_Ret in H as (t2 & H1 & H3). apply Ret_inj in H3. injection H3 as <- <-.
    split; [|discriminate]. destruct (given_same o t) as (_ & G2 & G3).
    assert (SG : status_from rs ok (given o t)) by (destruct o; try discriminate; exact S).
    destruct (phase_works _ _ _ _ _ _ _ H1) as [[_ ->]|(_ & W & _)]; [exact SG|]. eapply works_status; [eapply op_phase_range; eauto|exact W|exact SG].
  - destruct o; try discriminate; cbn [step] in H.
    + apply Ret_inj in H. injection H as <- <-. split; [exact S|discriminate].
    + apply bind_Ret in H as ([[x n] er] & _ & H). apply Ret_inj in H. injection H as <- <-. split; [exact S|discriminate].
    + apply bind_Ret in H as ([[x n] er] & _ & H). apply Ret_inj in H. injection H as <- <-. split; [exact S|discriminate].
    + unfold result in H. apply Ret_inj in H. injection H as <- <-. change (t_abort (touch_iv t)) with (t_abort t).
      split; [|intros i X; injection X as <-; reflexivity].
      destruct (t_abort t) eqn:A; [exact S|]. destruct S as (S1 & _). split; [exact S1|]. simpl. split; [reflexivity|discriminate].
    + apply Ret_inj in H. injection H as <- <-. split; [|discriminate]. destruct S as (S1 & _). split; [exact S1|]. simpl.
      split; [discriminate|]. intros _. right. right. split; [reflexivity|]. right. right. now apply OK.
Qed.
Lemma steps_abort : forall f O e rs os t t' obs, steps f O e rs os t = Ret (t', obs) -> t_abort t = true -> t_abort t' = true.
Proof.
  intros f O e rs os. induction os as [|o os IH]; intros t t' obs H A; [apply Ret_inj in H; now injection H as <- _|].
  apply steps_cons in H as (t1 & b & bl & H1 & H2 & ->). apply (IH _ _ _ H2). destruct (is_abort o) eqn:Q.
  - destruct o; try discriminate. apply Ret_inj in H1. now injection H1 as <- _.
  - now apply (step_aborted o t A Q f O e rs t1 b).
Qed.
Theorem C39_where_statuses_come_from : forall f O e rs os t' obs i,
  steps f O e rs os (new_txn e) = Ret (t', obs) -> In (ObsResult i) obs -> i_disruptive i = true ->
  i_status i = 403 \/
  (100 <= i_status i <= 599 /\ exists p, 1 <= p <= 6 /\ usable rs p (AStatus (i_status i))) \/
  (t_abort t' = true /\ (i_status i = 413 \/ i_status i = 500 \/ In (OpAbortWithStatus (i_status i)) os)).
Proof.
  intros f O e rs os t' obs i H I D.
  set (ok := fun c => In (OpAbortWithStatus c) os). assert (OK : forall c, In (OpAbortWithStatus c) os -> ok c) by auto.
  assert (S : status_from rs ok (new_txn e)) by (split; [discriminate|split; [reflexivity|discriminate]]).
  change (i_status i = 403 \/ (100 <= i_status i <= 599 /\ exists p, 1 <= p <= 6 /\ usable rs p (AStatus (i_status i))) \/
          (t_abort t' = true /\ (i_status i = 413 \/ i_status i = 500 \/ ok (i_status i)))).
  clearbody ok. revert H I S OK. generalize (new_txn e) as t. revert obs. induction os as [|o os IH]; intros obs t H I S OK.
  - apply Ret_inj in H. injection H as _ <-. destruct I.
  - pose proof H as H0. apply steps_cons in H as (t1 & b & bl & H1 & H2 & ->).
    destruct (step_status ok f O e rs o t t1 b (fun c X => OK c (or_introl X)) S H1) as (S1 & R1).
    destruct I as [I|I]; [|eapply (IH bl t1); eauto; intros c X; apply OK; now right].
    specialize (R1 i I). subst i. destruct S as (_ & _ & S). destruct (S D) as [X|[X|(A & X)]]; auto. right. right. split; [|exact X].
    eapply steps_abort; [exact H0|exact A].
Qed.
Example C39_example : exists t' i,
  let rs := RuleSet [(2, [demo_rule 2 [VScalar SRequestMethod] (OpRx (B "post")) [ADeny; AStatus 99999] false []])] [] in
  steps 5 (demo MpErr) (demo_engine rs) rs [OpRequestURL None (B "POST") []; OpRequestHeader []; OpResult] (new_txn (demo_engine rs)) =
    Ret (t', [ObsNone; ObsNone; ObsResult i]) /\ i_status i = 403.
Proof. eexists _, _. cbv zeta. split; [vm_compute; reflexivity|reflexivity]. Qed.
Print Assumptions C39_valid_status_partial.
Print Assumptions C39_valid_status_refuted.
Print Assumptions C39_where_statuses_come_from.

(** ** C38 *)
(** The mode of the engine is read nowhere: any mode gives the same run. *)
Lemma mode_types : forall O e en det ct bd tps t, parse_types O (set_mode e en det) ct bd tps t = parse_types O e ct bd tps t.
Proof.
  intros O e en det ct bd tps. induction tps as [|tp tps IH]; intro t; cbn [parse_types]; [reflexivity|].
  change (run_parser O (set_mode e en det) tp bd t) with (run_parser O e tp bd t).
  destruct (negb (has_prefix (bt_ctype tp) ct)); [apply IH|]. destruct (cache_get tp t) as [[| |]|]; auto.
  destruct (run_parser O e tp bd t) as [[[t1 res] err]| |]; cbn [bind]; try reflexivity.
  destruct err; [reflexivity|]. destruct res; auto.
Qed.
Lemma mode_parse : forall O e en det t, request_body_parse O (set_mode e en det) t = request_body_parse O e t.
Proof.
  intros O e en det t. unfold request_body_parse. destruct (negb (has_body_method t)); [reflexivity|].
  change (e_reqaccess (set_mode e en det)) with (e_reqaccess e). destruct (_ || _); [reflexivity|].
  cbv zeta. destruct (media_type O _) as [mt bd]. apply mode_types.
Qed.
Lemma mode_coll : forall O e en det c f t, fetch_coll O (set_mode e en det) c f t = fetch_coll O e c f t.
Proof.
  intros O e en det c f t. unfold fetch_coll, fetch_post, fetch_post_names. destruct c; try reflexivity; now rewrite mode_parse.
Qed.
Lemma mode_fetch : forall O e en det v t, fetch O (set_mode e en det) v t = fetch O e v t.
Proof.
  intros O e en det v. induction v; intro t; cbn [fetch].
  - apply mode_coll.
  - reflexivity.
  - rewrite mode_coll. destruct (fetch_coll O e CArgsGet get t) as [[t1 a]| |]; cbn [bind]; rewrite ?mode_coll; reflexivity.
  - rewrite mode_coll. destruct (fetch_coll O e CArgsGetNames get t) as [[t1 a]| |]; cbn [bind]; rewrite ?mode_coll; reflexivity.
  - now rewrite IHv.
Qed.
Lemma mode_all : forall O e en det r vs t, fetch_all O (set_mode e en det) r vs t = fetch_all O e r vs t.
Proof.
  intros O e en det r vs. induction vs as [|v vs IH]; intro t; cbn [fetch_all]; [reflexivity|]. unfold transform_variable.
  rewrite mode_fetch. destruct (fetch O e v t) as [[t1 a]| |]; cbn [bind]; try reflexivity. now rewrite IH.
Qed.
Lemma mode_match : forall O e en det r t, match_rule O (set_mode e en det) r t = match_rule O e r t.
Proof. intros. unfold match_rule. now rewrite mode_all. Qed.
Lemma mode_subs : forall O e en det subs t, match_subs O (set_mode e en det) subs t = match_subs O e subs t.
Proof.
  intros O e en det subs. induction subs as [|s subs IH]; intro t; cbn [match_subs]; [reflexivity|]. rewrite mode_match.
  destruct (match_rule O e s t) as [[t1 []]| |]; cbn [bind]; try reflexivity. apply IH.
Qed.
Lemma mode_process : forall f O e en det rs p i t, process_rule f O (set_mode e en det) rs p i t = process_rule f O e rs p i t.
Proof.
  intros. unfold process_rule. destruct (i <? nrules rs p); [|reflexivity]. destruct (i <? 0); [reflexivity|].
  destruct (nth_error (phase_rules rs p) (Z.to_nat i)) as [r|]; [|reflexivity]. unfold do_rule. rewrite mode_match.
  destruct (match_rule O e r t) as [[t1 []]| |]; cbn [bind]; try reflexivity. now rewrite mode_subs.
Qed.
Lemma mode_loop : forall d O e en det rs p f n t, phase_loop f d O (set_mode e en det) rs p n t = phase_loop f d O e rs p n t.
Proof.
  intros d O e en det rs p f. induction f as [|f IH]; intros n t; cbn [phase_loop]; [reflexivity|].
  destruct ((t_phase t =? p) && negb (n =? StatusEndOfRules)); [|reflexivity]. rewrite mode_process.
  destruct (process_rule d O e rs p n t) as [t1| |]; cbn [bind]; try reflexivity.
  destruct (i_disruptive (get_iv (touch_iv t1))); [reflexivity|]. destruct (next_rule rs (touch_iv t1)) as [m t3]. apply IH.
Qed.
Lemma mode_step : forall f O e en det rs o t, step f O (set_mode e en det) rs o t = step f O e rs o t.
Proof.
  intros f O e en det rs o t. assert (P : forall p x, process_phase f O (set_mode e en det) rs p x = process_phase f O e rs p x).
  { intros p x. unfold process_phase. destruct (p <=? t_phase x); [reflexivity|]. unfold process_phase_inner.
    destruct (t_abort (jump_to_phase p x)); [reflexivity|]. destruct (next_rule rs (jump_to_phase p x)) as [n t1]. apply mode_loop. }
  destruct o; cbn [step]; rewrite ?P; reflexivity.
Qed.
Theorem C38_mode_is_not_consulted_partial : forall f O e m rs os t,
  steps f O (enable m e) rs os t = steps f O e rs os t /\ new_txn (enable m e) = new_txn e.
Proof.
  intros f O e m rs os. assert (E : exists en det, enable m e = set_mode e en det) by (destruct m; eexists _, _; reflexivity).
  destruct E as (en & det & ->). induction os as [|o os IH]; intro t; cbn [steps]; [auto|]. rewrite mode_step.
  destruct (step f O e rs o t) as [[t1 b]| |]; cbn [bind]; try (split; reflexivity). destruct (IH t1) as [-> _]. split; reflexivity.
Qed.
(** So neither mode does what it says. *)
Theorem C38_engine_mode_refuted : exists f O e rs i1 t1 i2 t2,
  let os := [OpRequestURL None (B "POST") []; OpRequestHeader []; OpResult] in
  steps f O (enable StatusOff e) rs os (new_txn (enable StatusOff e)) = Ret (t1, [ObsNone; ObsNone; ObsResult i1]) /\
  steps f O (enable StatusDect e) rs os (new_txn (enable StatusDect e)) = Ret (t2, [ObsNone; ObsNone; ObsResult i2]) /\
  i_disruptive i1 = true /\ length (i_log i1) = 2%nat /\ i_disruptive i2 = true.
Proof.
  exists 5%nat, (demo MpErr), (demo_engine new_ruleset),
    (RuleSet [(2, [demo_rule 2 [VScalar SRequestMethod] (OpRx (B "post")) [ALog; ADeny] false []])] []).
  eexists _, _, _, _. cbv zeta. split; [vm_compute; reflexivity|]. split; [vm_compute; reflexivity|]. repeat split; reflexivity.
Qed.
Example C38_example : e_enabled (enable StatusOff (demo_engine new_ruleset)) = false /\
  e_detection (enable StatusDect new_engine) = true /\ e_enabled (enable StatusOn new_engine) = true.
Proof. repeat split. Qed.
Print Assumptions C38_mode_is_not_consulted_partial.
Print Assumptions C38_engine_mode_refuted.

(** ** C40 *)
(** A rule that sets a status before denying is denied with it, whatever was set before. *)
Lemma last_status_in : forall l x d d', In (AStatus x) l -> last_status l d = last_status l d'.
Proof.
  induction l as [|a l IH]; intros x d d' I; [destruct I|]. destruct I as [->|I]; [reflexivity|].
  destruct a; cbn [last_status]; eauto.
Qed.
Theorem C40_own_status_partial : forall rs pre x post t u, In (AStatus x) pre -> ~ In APass post ->
  (~ In ADeny post \/ forall y, ~ In (AStatus y) post) -> no_standing_denial pre t -> no_standing_denial pre u ->
  i_status (get_iv (effects rs (pre ++ ADeny :: post) t)) = i_status (get_iv (effects rs (pre ++ ADeny :: post) u)).
Proof.
  intros rs pre x post t u I NP ND F1 F2.
  destruct (deny_effects rs pre post t F1 NP ND) as [_ D1]. destruct (deny_effects rs pre post u F2 NP ND) as [_ D2].
  rewrite (last_status_in pre x (t_status t) (t_status u) I) in D1. eapply denial_fun; eauto.
Qed.
(** A rule without status is denied with one left by a rule before it. *)
Theorem C40_status_is_local_refuted : exists f O e t' i,
  let r acts := demo_rule 2 [VScalar SRequestMethod] (OpRx (B "post")) acts false [] in
  let rs := RuleSet [(2, [r [AStatus 404]; r [ADeny]])] [] in
  steps f O e rs [OpRequestURL None (B "POST") []; OpRequestHeader []; OpResult] (new_txn e) =
    Ret (t', [ObsNone; ObsNone; ObsResult i]) /\ i_disruptive i = true /\ i_status i = 404.
Proof. exists 6%nat, (demo MpErr), (demo_engine new_ruleset). eexists _, _. cbv zeta. split; [vm_compute; reflexivity|split; reflexivity]. Qed.
Example C40_example : let t := demo_post "x" "" in let u := with_status t (Some 500) in
  no_standing_denial [AStatus 404; ALog] t /\ no_standing_denial [AStatus 404; ALog] u /\
  i_status (get_iv (effects new_ruleset ([AStatus 404; ALog] ++ ADeny :: []) u)) = 404.
Proof.
  cbv zeta. split; [|split; [|reflexivity]]; left; (split; [|reflexivity]); intros [H|[H|[]]]; discriminate.
Qed.
Print Assumptions C40_own_status_partial.
Print Assumptions C40_status_is_local_refuted.

(** ** C41 *)
(** Calls on many transactions: which one and what.  [W k] is the order in which Go
    happens to iterate maps during the call [k]. *)
Definition orders := nat -> nat -> forall A : Type, list A -> list A.
Definition set_at (T : nat -> txn) (n : nat) (t : txn) : nat -> txn := fun m => if Nat.eqb m n then t else T m.
Fixpoint interleaved (f : nat) (O : oracles) (W : orders) (e : engine) (rs : ruleset) (k : nat) (cs : list (nat * op)) (T : nat -> txn)
  : out ((nat -> txn) * list (nat * obs)) :=
  match cs with
  | [] => Ret (T, [])
  | (n, o) :: cs' =>
      '(t, b) <- step f (reorder O (W k)) e rs o (T n) ;;
      '(T', bl) <- interleaved f O W e rs (S k) cs' (set_at T n t) ;;
      Ret (T', (n, b) :: bl)
  end.
Definition own {A} (n : nat) (l : list (nat * A)) : list A := map snd (List.filter (fun x => Nat.eqb (fst x) n) l).
Definition valid_orders (O : oracles) (W : orders) : Prop := forall k, ord_valid (reorder O (W k)).
Lemma own_cons : forall A n m (x : A) l, own n ((m, x) :: l) = if Nat.eqb m n then x :: own n l else own n l.
Proof. intros. unfold own. simpl. now destruct (Nat.eqb m n). Qed.
Theorem C41_transactions_are_independent : forall f O W e rs cs k T T' bl, ord_valid O -> valid_orders O W ->
  interleaved f O W e rs k cs T = Ret (T', bl) ->
  forall n, steps f O e rs (own n cs) (T n) = Ret (T' n, own n bl).
Proof.
  intros f O W e rs cs. induction cs as [|[m o] cs IH]; intros k T T' bl V VO H n.
  - apply Ret_inj in H. injection H as <- <-. reflexivity.
  - cbn [interleaved] in H. apply bind_Ret in H as ([t b] & H1 & H). apply bind_Ret in H as ([T1 bl1] & H2 & H).
    apply Ret_inj in H. injection H as <- <-. rewrite reorder_step in H1 by auto.
    specialize (IH _ _ _ _ V VO H2 n). rewrite !own_cons.
    unfold set_at in IH. rewrite (Nat.eqb_sym n m) in IH. destruct (Nat.eqb_spec m n) as [E|N]; [|exact IH].
    rewrite E in *.
    cbn [steps]. rewrite H1. cbn [bind]. now rewrite IH.
Qed.
(** And the interleaving returns if each one alone does. *)
Theorem C41_interleaving_returns : forall f O W e rs cs k T, ord_valid O -> valid_orders O W ->
  (forall n, exists r, steps f O e rs (own n cs) (T n) = Ret r) ->
  exists r, interleaved f O W e rs k cs T = Ret r.
Proof.
  intros f O W e rs cs. induction cs as [|[m o] cs IH]; intros k T V VO H; [eexists; reflexivity|]. cbn [interleaved].
  rewrite reorder_step by auto. destruct (H m) as ([t' bb] & HC).
  rewrite own_cons, Nat.eqb_refl in HC. apply steps_cons in HC as (t1 & b & bl & S1 & S2 & _).
  rewrite S1. cbn [bind]. destruct (IH (S k) (set_at T m t1) V VO) as ([T' bl'] & E).
  - intro n. unfold set_at. destruct (Nat.eqb_spec n m) as [->|N]; [eexists; exact S2|].
    destruct (H n) as (r & HN). rewrite own_cons in HN.
    destruct (Nat.eqb_spec m n); [congruence|]. eexists. exact HN.
  - rewrite E. eexists. reflexivity.
Qed.
Example C41_example :
  let rs := RuleSet [(2, [demo_rule 2 [VScalar SRequestMethod] (OpRx (B "post")) [ADeny] false []])] [] in
  let e := demo_engine rs in let W : orders := fun _ _ _ m => rev m in
  let cs := [(0%nat, OpRequestURL None (B "POST") []); (1%nat, OpRequestURL None (B "GET") []); (1%nat, OpRequestHeader []);
             (0%nat, OpRequestHeader []); (1%nat, OpResult); (0%nat, OpResult)] in
  valid_orders (demo MpErr) W /\
  exists T' bl i j, interleaved 6 (demo MpErr) W e rs 0 cs (fun _ => new_txn e) = Ret (T', bl) /\
    own 0%nat bl = [ObsNone; ObsNone; ObsResult i] /\ own 1%nat bl = [ObsNone; ObsNone; ObsResult j] /\
    i_status i = 403 /\ i_status j = 200.
Proof.
  cbv zeta. split.
  - intros k n A m. simpl. apply Permutation_sym, Permutation_rev.
  - eexists _, _, _, _. split; [vm_compute; reflexivity|]. repeat split; reflexivity.
Qed.
Print Assumptions C41_transactions_are_independent.
Print Assumptions C41_interleaving_returns.

(** ** C44 *)
(** [l] was logged by one of the calls: processing its phase from where the calls
    before had led, with the client address then known and the phase then current. *)
Definition logged (f : nat) (O : oracles) (e : engine) (rs : ruleset) (os : list op) (t : txn) (l : bs) : Prop :=
  exists os1 o os2 p t1 b1 s t2, os = os1 ++ o :: os2 /\ op_phase o = Some p /\
    steps f O e rs os1 t = Ret (t1, b1) /\ step f O e rs o t1 = Ret (t2, ObsNone) /\ t_phase t1 < p /\
    works rs p (jump_to_phase p (given o t1)) s /\ works rs p s t2 /\
    entry s l /\ t_srcip s = t_srcip (given o t1) /\ t_srcport s = t_srcport (given o t1).
Lemma logged_later : forall f O e rs o os t t1 b l, step f O e rs o t = Ret (t1, b) -> logged f O e rs os t1 l ->
  logged f O e rs (o :: os) t l.
Proof.
  intros f O e rs o os t t1 b l H (os1 & o' & os2 & p & u1 & b1 & s & u2 & -> & P & S1 & S2 & R).
  exists (o :: os1), o', os2, p, u1, (b :: b1), s, u2. split; [reflexivity|]. split; [exact P|]. split; [|auto].
  cbn [steps]. rewrite H. cbn [bind]. now rewrite S1.
Qed.
Theorem C44_log_entries_attributed : forall f O e rs os t t' obs, steps f O e rs os t = Ret (t', obs) ->
  (forall l, In l (i_log (get_iv t')) -> In l (i_log (get_iv t)) \/ logged f O e rs os t l) /\
  (forall i l, In (ObsResult i) obs -> In l (i_log i) -> In l (i_log (get_iv t)) \/ logged f O e rs os t l).
Proof.
  intros f O e rs os. induction os as [|o os IH]; intros t t' obs H.
  - apply Ret_inj in H. injection H as <- <-. split; [auto|intros i l []].
  - apply steps_cons in H as (t1 & b & bl & H1 & H2 & ->).
    assert (K : (forall l, In l (i_log (get_iv t1)) -> In l (i_log (get_iv t)) \/ logged f O e rs (o :: os) t l) /\
                (forall i, b = ObsResult i -> i = get_iv t)).
    { destruct (op_phase o) as [p|] eqn:Q.
      - pose proof H1 as H1'. rewrite (step_phase _ _ _ _ _ _ p Q) in H1'. apply bind_Ret in H1' as (t2 & H3 & H4).
        apply Ret_inj in H4. injection H4 as <- <-. split; [|discriminate]. destruct (given_same o t) as (G1 & G2 & G3).
        intros l I. destruct (phase_works _ _ _ _ _ _ _ H3) as [[_ ->]|(L & W & _)].
        + left. unfold get_iv in *. now rewrite G3 in I.
        + destruct (works_logs _ _ _ _ W l I) as [J|(s & W1 & W2 & E)].
          * left. unfold get_iv in *. simpl in J. now rewrite G3 in J.
          * right. exists [], o, os, p, t, [], s, t2. rewrite G1 in L. destruct (works_same _ _ _ _ W1) as (D & _).
            unfold request_part in D. injection D as D1 D2 _ _ _ _ _ _ _ || injection D; intros.
            repeat split; auto; simpl in *; congruence.
      - destruct o; try discriminate; cbn [step] in H1.
        + apply Ret_inj in H1. injection H1 as <- <-. split; [auto|discriminate].
        + apply bind_Ret in H1 as ([[x n] er] & _ & H1). apply Ret_inj in H1. injection H1 as <- <-. split; [auto|discriminate].
        + apply bind_Ret in H1 as ([[x n] er] & _ & H1). apply Ret_inj in H1. injection H1 as <- <-. split; [auto|discriminate].
        + unfold result in H1. apply Ret_inj in H1. injection H1 as <- <-. split; [|intros i X; now injection X as <-].
          change (t_abort (touch_iv t)) with (t_abort t). destruct (t_abort t); [auto|]. simpl. easy.
        + apply Ret_inj in H1. injection H1 as <- <-. split; [auto|discriminate]. }
    destruct K as [K1 K2]. destruct (IH t1 t' bl H2) as [R1 R2]. split.
    + intros l I. destruct (R1 l I) as [J|J]; [auto|]. right. eapply logged_later; eauto.
    + intros i l [I|I] J; [left; now rewrite <- (K2 i I)|]. destruct (R2 i l I J) as [M|M]; [auto|].
      right. eapply logged_later; eauto.
Qed.
(** Without allow in the rules the phase is that of the call. *)
Lemma works_stay : forall rs p t t', (forall a, usable rs p a -> ~ leads_away a) -> works rs p t t' -> t_phase t' = t_phase t.
Proof.
  intros rs p t t' N. induction 1 as [t|a b c H1 IH1 H2 IH2|t t' H|a t A U|t|t]; auto; try congruence.
  - apply touches_frame in H as (_ & _ & H & _). unfold position in H. now injection H as H _ _ _.
  - apply N in U. destruct a; simpl; auto.
    + unfold do_allow. destruct (bs_eqb_spec arg []) as [->|Q1]; [elim U; exists 0; eexists; apply ld_all|].
      destruct (bs_eqb_spec arg (B "phase")) as [->|Q2]; [elim U; exists 0; eexists; apply ld_phase|].
      destruct (bs_eqb_spec arg (B "request")) as [->|Q3]; [elim U; exists 0; eexists; apply ld_request|reflexivity].
    + unfold jump_to. now destruct (nrules rs (t_phase t) <=? t_cur t + 2).
  - unfold next_rule. now destruct (t_next t =? StatusEndOfRules).
Qed.
Theorem C44_phase_of_the_call : forall f O e rs os t' obs i l,
  (forall p a, usable rs p a -> ~ leads_away a) ->
  steps f O e rs os (new_txn e) = Ret (t', obs) -> In (ObsResult i) obs -> In l (i_log i) ->
  exists os1 o os2 p t1 b1 n msg, os = os1 ++ o :: os2 /\ op_phase o = Some p /\
    steps f O e rs os1 (new_txn e) = Ret (t1, b1) /\ decimal n p /\
    l = B "[client " ++ t_srcip (given o t1) ++ B ":" ++ t_srcport (given o t1) ++ B "] (phase " ++ n ++ B ") " ++ msg.
Proof.
  intros f O e rs os t' obs i l N H I J. destruct (C44_log_entries_attributed _ _ _ _ _ _ _ _ H) as [_ R].
  destruct (R i l I J) as [[]|(os1 & o & os2 & p & t1 & b1 & s & t2 & E & P & S1 & S2 & L & W1 & W2 & (n & msg & E2 & D) & A1 & A2)].
  exists os1, o, os2, p, t1, b1, n, msg. split; [exact E|]. split; [exact P|]. split; [exact S1|].
  rewrite <- A1, <- A2. split; [|exact E2]. rewrite (works_stay _ _ _ _ (N p) W1) in D.
  pose proof (op_phase_range _ _ P) as PR. unfold jump_to_phase, PhaseBegin, PhaseEnd in D.
  destruct (p <? 0) eqn:E3; [lia|]. destruct (7 <=? p) eqn:E4; [lia|]. exact D.
Qed.
Example C44_example :
  let rs := RuleSet [(2, [demo_rule 2 [VScalar SRequestMethod] (OpRx (B "post")) [ALog] false []])] [] in
  (forall p a, usable rs p a -> ~ leads_away a) /\
  exists t' i m, steps 5 (demo MpErr) (demo_engine rs) rs
    [OpConnection (B "1.2.3.4") (B "80") [] []; OpRequestURL None (B "POST") []; OpRequestHeader []; OpResult] (new_txn (demo_engine rs)) =
    Ret (t', [ObsNone; ObsNone; ObsNone; ObsResult i]) /\ i_log i = [B "[client 1.2.3.4:80] (phase 2) " ++ m].
Proof.
  cbv zeta. split.
  - intros p a U (p1 & q & L). assert (X : a = ALog).
    { destruct U as [(r & r' & R1 & R2 & R3)|[_ []]]. unfold phase_rules in R1. simpl in R1.
      destruct (p =? 2); [|destruct R1]. destruct R1 as [<-|[]]. destruct R2 as [<-|[]]. destruct R3 as [<-|[]]. reflexivity. }
    subst. inversion L.
  - eexists _, _, _. split; [vm_compute; reflexivity|]. reflexivity.
Qed.
Print Assumptions C44_log_entries_attributed.
Print Assumptions C44_phase_of_the_call.

(** ** C51 *)
(** The body appended by a history of calls, as far as accepted. *)
Fixpoint response_writes (os : list op) : list bop :=
  match os with
  | [] => []
  | OpAppendResponseBody p ft :: os' => BWrite p ft :: response_writes os'
  | _ :: os' => response_writes os'
  end.
Lemma response_inv : forall f O e rs os t t' obs l acc, mem_inv l l acc (t_resbody t) ->
  steps f O e rs os t = Ret (t', obs) -> mem_inv l l (stream_from l acc (response_writes os)) (t_resbody t').
Proof.
  intros f O e rs os. induction os as [|o os IH]; intros t t' obs l acc M H.
  - apply Ret_inj in H. injection H as <- _. exact M.
  - apply steps_cons in H as (t1 & b & bl & H1 & H2 & ->).
    destruct (op_phase o) as [p|] eqn:Q.
    + replace (response_writes (o :: os)) with (response_writes os) by (now destruct o).
      eapply IH; [|exact H2]. rewrite (step_phase _ _ _ _ _ _ p Q) in H1. apply bind_Ret in H1 as (t2 & H3 & H4).
      apply Ret_inj in H4. injection H4 as <- _. assert (MG : mem_inv l l acc (t_resbody (given o t))) by (destruct o; exact M).
      destruct (phase_works _ _ _ _ _ _ _ H3) as [[_ ->]|(_ & W & _)]; [exact MG|].
      destruct (works_same _ _ _ _ W) as (_ & _ & _ & R). eapply reads_mem_inv; [exact MG|exact R].
    + destruct o; try discriminate; cbn [step] in H1; cbn [response_writes stream_from].
      * apply Ret_inj in H1. injection H1 as <- _. eapply IH; [|exact H2]. exact M.
      * apply bind_Ret in H1 as ([[x n] er] & _ & H1). apply Ret_inj in H1. injection H1 as <- _. eapply IH; [|exact H2]. exact M.
      * apply bind_Ret in H1 as ([[x n] er] & W & H1). apply Ret_inj in H1. injection H1 as <- _.
        destruct (Z.leb_spec (Z.of_nat (length (acc ++ p))) l) as [L|L].
        -- destruct (mem_write_fits l l acc _ p ft M L L) as (b' & W' & M'). rewrite W' in W. apply Ret_inj in W. injection W as <- _ _.
           eapply IH; [|exact H2]. exact M'.
        -- destruct M as (C & BL & M). rewrite (mem_write_reject l l acc _ p ft C BL L) in W. apply Ret_inj in W. injection W as <- _ _.
           eapply IH; [|exact H2]. split; [exact C|]. split; [exact BL|exact M].
      * unfold result in H1. apply Ret_inj in H1. injection H1 as <- _. eapply IH; [|exact H2].
        change (t_abort (touch_iv t)) with (t_abort t). destruct (t_abort t); exact M.
      * apply Ret_inj in H1. injection H1 as <- _. eapply IH; [|exact H2]. exact M.
Qed.
Theorem C51_response_body : forall f O e rs os t' obs, steps f O e rs os (new_txn e) = Ret (t', obs) ->
  exists t2, fetch O e (VScalar SResponseBody) t' =
    Ret (t2, match e_resaccess e, stream (e_reslimit e) (response_writes os) with true, x :: s => [x :: s] | _, _ => [] end) /\
    t_abort t2 = t_abort t' /\ t_iv t2 = t_iv t'.
Proof.
  intros f O e rs os t' obs H.
  pose proof (response_inv f O e rs os (new_txn e) t' obs (e_reslimit e) [] (new_mem_inv _ _) H) as M.
  fold (stream (e_reslimit e) (response_writes os)) in M. set (s := stream _ _) in *.
  destruct (mem_inv_reads _ _ _ _ M) as (R1 & R2 & _ & R3). cbn [fetch fetch_scalar]. unfold fetch_response_body.
  destruct (e_resaccess e); [|exists t'; simpl; auto]. rewrite R3. destruct s as [|x s]; [exists t'; auto|]. simpl negb.
  destruct (zlen (x :: s) =? 0) eqn:Z0; [unfold zlen in Z0; simpl in Z0; lia|]. simpl orb. cbv iota.
  destruct (buf_string (t_resbody t')) as [[b body] err]. simpl in R1, R2. subst. eexists. split; [reflexivity|split; reflexivity].
Qed.
Example C51_example : let e := Engine true false new_ruleset true true 100 10 5 in
  let os := [OpAppendResponseBody (B "abc") NoFault; OpResponseBody; OpAppendResponseBody (B "def") NoFault; OpAppendResponseBody (B "gh") NoFault] in
  stream 5 (response_writes os) = B "abcgh" /\
  exists t', steps 5 (demo MpErr) e new_ruleset os (new_txn e) =
    Ret (t', [ObsErr None; ObsNone; ObsErr (Some ErrOutOfFileLimit); ObsErr None]).
Proof. cbv zeta. split; [reflexivity|]. eexists. vm_compute. reflexivity. Qed.
Print Assumptions C51_response_body.

(** ** C68 *)
Theorem C68_new_transaction : forall ok e rs,
  (new_transaction ok e rs = None <-> e = None \/ rs = None \/ ok = false) /\
  forall t, new_transaction ok e rs = Some t -> exists e', e = Some e' /\
    t_abort t = false /\ quiet (get_iv t) /\ t_phase t = 0 /\ (forall rs', current_sec_rule rs' t = None) /\
    b_memlimit (t_reqbody t) = e_reqmem e' /\ b_filelimit (t_reqbody t) = e_reqlimit e' /\ buf_len (t_reqbody t) = 0 /\
    b_filelimit (t_resbody t) = e_reslimit e' /\ buf_len (t_resbody t) = 0.
Proof.
  intros ok e rs. destruct e as [e|], rs as [rs|]; simpl; (split; [split; auto|intros t H]); try discriminate.
  - destruct ok; [discriminate|auto].
  - destruct ok; [intros [H|[H|H]]; discriminate|auto].
  - destruct ok; [|discriminate]. injection H as <-. exists e. split; [reflexivity|]. split; [reflexivity|]. split; [now repeat split|]. split; [reflexivity|].
    split; [|now repeat split]. intro rs'. unfold current_sec_rule. cbn [t_cur new_txn]. unfold StatusNotStarted. cbn. now rewrite Bool.orb_true_r.
Qed.
(** As long as only phases without rules were processed and no AbortWithStatus was called,
    Result stays clean. *)
Lemma empty_phase : forall f O e rs p t t', phase_rules rs p = [] -> process_phase f O e rs p t = Ret t' -> get_iv t' = get_iv t.
Proof.
  intros f O e rs p t t' E H. unfold process_phase in H. destruct (p <=? t_phase t); [apply Ret_inj in H; now subst|].
  unfold process_phase_inner in H. destruct (t_abort (jump_to_phase p t)); [apply Ret_inj in H; now subst|].
  assert (G : forall g d n u u', phase_loop g d O e rs p n u = Ret u' -> get_iv u' = get_iv u).
  { clear -E. induction g as [|g IH]; intros d n u u' H; cbn [phase_loop] in H; [discriminate|].
    destruct ((t_phase u =? p) && negb (n =? StatusEndOfRules)); [|apply Ret_inj in H; now subst].
    apply bind_Ret in H as (u1 & H1 & H). assert (Q : u1 = u).
    { unfold process_rule, nrules in H1. rewrite E in H1. simpl in H1. destruct (n <? 0); [discriminate|]. now apply Ret_inj in H1. }
    subst u1. destruct (i_disruptive (get_iv (touch_iv u))); [apply Ret_inj in H; now subst|].
    unfold next_rule in H. destruct (t_next (touch_iv u) =? StatusEndOfRules); apply IH in H; exact H. }
  unfold next_rule in H. destruct (t_next (jump_to_phase p t) =? StatusEndOfRules); apply G in H; exact H.
Qed.
Theorem C68_first_result : forall f O e rs os t' obs i,
  (forall o p, In o os -> op_phase o = Some p -> phase_rules rs p = []) -> (forall o, In o os -> is_abort o = false) ->
  steps f O e rs os (new_txn e) = Ret (t', obs) -> In (ObsResult i) obs -> quiet i.
Proof.
  intros f O e rs os t' obs i NP NA H I.
  assert (G : forall os t, (forall o p, In o os -> op_phase o = Some p -> phase_rules rs p = []) -> (forall o, In o os -> is_abort o = false) -> quiet (get_iv t) ->
    forall t' obs, steps f O e rs os t = Ret (t', obs) -> In (ObsResult i) obs -> quiet i).
  { clear. induction os as [|o os IH]; intros t NP NA Q t' obs H I.
    - apply Ret_inj in H. injection H as _ <-. destruct I.
    - apply steps_cons in H as (t1 & b & bl & H1 & H2 & ->).
      assert (K : quiet (get_iv t1) /\ (b = ObsResult i -> quiet i)).
      { destruct (op_phase o) as [p|] eqn:P.
        { rewrite (step_phase _ _ _ _ _ _ p P) in H1. apply bind_Ret in H1 as (t2 & H3 & H4). apply Ret_inj in H4. injection H4 as <- <-.
          split; [|discriminate]. rewrite (empty_phase _ _ _ _ _ _ _ (NP o p (or_introl eq_refl) P) H3).
          destruct (given_same o t) as (_ & _ & G3). unfold get_iv. now rewrite G3. }
        pose proof (NA o (or_introl eq_refl)) as A. destruct o; try discriminate; cbn [step] in H1.
        + apply Ret_inj in H1. injection H1 as <- <-. split; [exact Q|discriminate].
        + apply bind_Ret in H1 as ([[x n] er] & _ & H1). apply Ret_inj in H1. injection H1 as <- <-. split; [exact Q|discriminate].
        + apply bind_Ret in H1 as ([[x n] er] & _ & H1). apply Ret_inj in H1. injection H1 as <- <-. split; [exact Q|discriminate].
        + unfold result in H1. apply Ret_inj in H1. injection H1 as <- <-. split; [|intro X; injection X as <-; exact Q].
          change (t_abort (touch_iv t)) with (t_abort t). destruct (t_abort t); [exact Q|]. now repeat split. }
      destruct K as [K1 K2]. destruct I as [I|I]; [now apply K2|].
      exact (IH t1 (fun x p J => NP x p (or_intror J)) (fun x J => NA x (or_intror J)) K1 t' bl H2 I). }
  eapply G; eauto. now repeat split.
Qed.
Example C68_example : new_transaction true (Some new_engine) None = None /\
  exists t, new_transaction true (Some new_engine) (Some new_ruleset) = Some t /\
    exists t', steps 3 (demo MpErr) new_engine new_ruleset [OpAppendRequestBody (B "x") NoFault; OpResult] t = Ret (t', [ObsErr None; ObsResult reset_iv]).
Proof. split; [reflexivity|]. eexists. split; [reflexivity|]. eexists. vm_compute. reflexivity. Qed.
Print Assumptions C68_new_transaction.
Print Assumptions C68_first_result.
