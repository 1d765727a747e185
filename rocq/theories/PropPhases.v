(** Property theorems C30, C31, C32, C36, C37: phases and the order of evaluation. *)
From Verif Require Import Base BaseFacts GoStrings Utils Buffer BufferFacts Types Transforms Operators Transaction Variables Rules Engine
  SpecText NumFacts SpecVars VarFacts SpecRules PropText RuleFacts TxnFacts SpecTxn LoopFacts Witness PropRules.
From Coq Require Import ZifyBool Sorting.Sorted.

Lemma step_phase : forall f O e rs o t p, op_phase o = Some p ->
  step f O e rs o t = (t' <- process_phase f O e rs p (given o t) ;; Ret (t', ObsNone)).
Proof. intros f O e rs o t p H. destruct o; try discriminate; injection H as <-; reflexivity. Qed.
Lemma op_phase_range : forall o p, op_phase o = Some p -> 1 <= p <= 6.
Proof. intros o p H; destruct o; try discriminate; injection H as <-; lia. Qed.
Lemma given_same : forall o t, t_phase (given o t) = t_phase t /\ t_abort (given o t) = t_abort t /\ t_iv (given o t) = t_iv t.
Proof. intros o t; destruct o; auto. Qed.
Lemma step_other : forall f O e rs o t t' b, op_phase o = None -> step f O e rs o t = Ret (t', b) -> t_phase t' = t_phase t.
Proof.
  intros f O e rs o t t' b N H. destruct o; try discriminate; cbn [step] in H.
  - apply Ret_inj in H. injection H as <- _. reflexivity.
  - apply bind_Ret in H as ([[x n] er] & _ & H). apply Ret_inj in H. injection H as <- _. reflexivity.
  - apply bind_Ret in H as ([[x n] er] & _ & H). apply Ret_inj in H. injection H as <- _. reflexivity.
  - unfold result in H. apply Ret_inj in H. injection H as <- _. simpl. now destruct (t_abort t).
  - apply Ret_inj in H. injection H as <- _. reflexivity.
Qed.
Lemma steps_cons : forall f O e rs o os t t' bl, steps f O e rs (o :: os) t = Ret (t', bl) ->
  exists t1 b bl', step f O e rs o t = Ret (t1, b) /\ steps f O e rs os t1 = Ret (t', bl') /\ bl = b :: bl'.
Proof.
  intros f O e rs o os t t' bl H. cbn [steps] in H. apply bind_Ret in H as ([t1 b] & H1 & H).
  apply bind_Ret in H as ([t2 bl'] & H2 & H). apply Ret_inj in H. injection H as <- <-. eauto 10.
Qed.
Lemma steps_app : forall f O e rs os1 os2 t t' bl, steps f O e rs (os1 ++ os2) t = Ret (t', bl) ->
  exists t1 b1 b2, steps f O e rs os1 t = Ret (t1, b1) /\ steps f O e rs os2 t1 = Ret (t', b2) /\ bl = b1 ++ b2.
Proof.
  induction os1 as [|o os1 IH]; intros os2 t t' bl H; cbn [app] in H; [exists t, [], bl; auto|].
  apply steps_cons in H as (t1 & b & bl' & H1 & H2 & ->). apply IH in H2 as (t2 & b1 & b2 & H2 & H3 & ->).
  exists t2, (b :: b1), b2. split; [|auto]. cbn [steps]. rewrite H1. cbn [bind]. now rewrite H2.
Qed.

(** ** C30 *)
(** No rule of a phase after the response headers executes allow:request. *)
Definition never_back (rs : ruleset) : Prop := forall p, 1 <= p <= 6 -> no_back rs p.

Lemma phase_reached : forall f O e rs p t t', 1 <= p <= 6 -> no_back rs p -> 0 <= t_phase t <= 7 ->
  process_phase f O e rs p t = Ret t' -> t_phase t <= t_phase t' <= 7 /\ p <= t_phase t'.
Proof.
  intros f O e rs p t t' P N G H. destruct (phase_works _ _ _ _ _ _ _ H) as [[L ->]|(L & W & _)]; [lia|].
  assert (E : t_phase (jump_to_phase p t) = p).
  { unfold jump_to_phase, PhaseBegin, PhaseEnd. simpl. destruct (p <? 0) eqn:A; [lia|]. destruct (7 <=? p) eqn:C; lia. }
  pose proof (works_phase rs p _ _ P N W). lia.
Qed.
Theorem C30_phases_never_go_back : forall f O e rs os t t' obs,
  never_back rs -> 0 <= t_phase t <= 7 -> steps f O e rs os t = Ret (t', obs) ->
  t_phase t <= t_phase t' <= 7.
Proof.
  intros f O e rs os. induction os as [|o os IH]; intros t t' obs N G H.
  - apply Ret_inj in H. injection H as <- _. lia.
  - apply steps_cons in H as (t1 & b & bl & H1 & H2 & _).
    assert (K : t_phase t <= t_phase t1 <= 7).
    { destruct (op_phase o) as [p|] eqn:Q.
      - rewrite (step_phase _ _ _ _ _ _ p Q) in H1. apply bind_Ret in H1 as (t2 & H1 & H3). apply Ret_inj in H3. injection H3 as <- _.
        pose proof (op_phase_range _ _ Q) as P. destruct (given_same o t) as (GS & _).
        destruct (phase_reached f O e rs p (given o t) t2 P (N p P) ltac:(lia) H1). lia.
      - rewrite (step_other _ _ _ _ _ _ _ _ Q H1). lia. }
    specialize (IH t1 t' bl N ltac:(lia) H2). lia.
Qed.
(** A call for a phase that was already processed only records its arguments: it runs
    no rule, whatever rule set, engine and world it is given. *)
Theorem C30_phase_runs_once : forall f O e rs o1 mid o2 p t t' obs,
  never_back rs -> 0 <= t_phase t <= 7 -> op_phase o1 = Some p -> op_phase o2 = Some p ->
  steps f O e rs (o1 :: mid) t = Ret (t', obs) ->
  forall f' O' e' rs', step f' O' e' rs' o2 t' = Ret (given o2 t', ObsNone).
Proof.
  intros f O e rs o1 mid o2 p t t' obs N G P1 P2 H f' O' e' rs'. pose proof (op_phase_range _ _ P1) as P.
  apply steps_cons in H as (t1 & b & bl & H1 & H2 & _). rewrite (step_phase _ _ _ _ _ _ p P1) in H1.
  apply bind_Ret in H1 as (t2 & H1 & H3). apply Ret_inj in H3. injection H3 as <- _. destruct (given_same o1 t) as (GS & _).
  destruct (phase_reached f O e rs p (given o1 t) t2 P (N p P) ltac:(lia) H1) as [R1 R2].
  pose proof (C30_phases_never_go_back f O e rs mid t2 t' bl N ltac:(lia) H2) as R3.
  rewrite (step_phase _ _ _ _ _ _ p P2). destruct (given_same o2 t') as (GS2 & _).
  unfold process_phase. rewrite GS2. destruct (p <=? t_phase t') eqn:Q; [reflexivity|lia].
Qed.
(** With allow:request in phase 5 the claim does fail. *)
Theorem C30_needs_hypothesis : exists f O e rs t' obs,
  steps f O e rs [OpConnection [] [] [] []; OpRequestURL None (B "POST") []; OpResponseBody] (new_txn e) = Ret (t', obs) /\
  t_phase t' < 5.
Proof.
  exists 5%nat, (demo MpErr), (demo_engine new_ruleset),
    (RuleSet [(5, [demo_rule 5 [VScalar SRequestMethod] (OpRx (B "post")) [AAllow (B "request")] false []])] []).
  eexists _, _. split; vm_compute; reflexivity.
Qed.
Example C30_example :
  let r p a := demo_rule p [VScalar SRequestMethod] (OpRx (B "post")) [a] false [] in
  let rs := RuleSet [(2, [r 2 (AAllow (B "request"))]); (4, [r 4 ADeny]); (5, [r 5 ADeny])] [] in
  never_back rs /\ exists t' i,
    steps 5 (demo MpErr) (demo_engine rs) rs [OpRequestHeader []; OpRequestBody; OpResponseBody; OpRequestHeader []; OpResult]
      (demo_post "x" "") = Ret (t', [ObsNone; ObsNone; ObsNone; ObsNone; ObsResult i]) /\ i_disruptive i = true.
Proof.
  split.
  - intros p P U. assert (H : p = 2 \/ p <> 2) by lia. destruct H as [->|H]; [lia|].
    destruct U as [(r & r' & I & J & K)|[_ K]]; [|destruct K].
    unfold phase_rules in I. cbn [rs_phases zassoc] in I.
    destruct (Z.eqb_spec p 2); [easy|]. destruct (Z.eqb_spec p 4); [lia|]. destruct (Z.eqb_spec p 5); [|easy].
    destruct I as [<-|[]]. destruct J as [<-|[]]. destruct K as [K|[]]. discriminate.
  - eexists _, _. split; vm_compute; reflexivity.
Qed.
Print Assumptions C30_phases_never_go_back.
Print Assumptions C30_phase_runs_once.
Print Assumptions C30_needs_hypothesis.

(** ** C31 *)
Lemma in_order_sorted : forall O e rs p l, in_order O e rs p l -> Sorted Z.lt (map index l).
Proof.
  induction 1 as [|v|i t t1 j u u1 l K L H IH]; [constructor|repeat constructor|]. cbn [map] in *. constructor; [exact IH|].
  constructor. unfold index. cbn [fst]. destruct K as [[_ K]|[_ K]]; lia.
Qed.
(** Rules are evaluated in order: [visits] are the evaluations with the states before
    and after; the first is rule 0, the next one is one further, or two after skip; the
    run ends at the end of the list, after a disruptive rule or when the phase is left. *)
Theorem C31_rules_in_order_partial : forall f O e rs p t t',
  1 <= p <= 6 -> all_forward rs p -> t_phase t < p -> t_abort t = false ->
  process_phase f O e rs p t = Ret t' ->
  exists v l, visits f O e rs p 0 (entered rs p t) (v :: l) t' /\ index v = 0 /\
    in_order O e rs p (v :: l) /\ Sorted Z.lt (map index (v :: l)) /\
    stops O e rs p (List.last (v :: l) v).
Proof.
  intros f O e rs p t t' P F L A H. destruct (phase_run _ _ _ _ _ _ _ P L A H) as (l & V).
  destruct (entered_at rs p t ltac:(lia)) as (_ & E & R). destruct (visits_order _ _ _ _ _ _ _ _ _ P F V R) as (IO & HD).
  destruct l as [|v l].
  - inversion V; subst. match goal with H : _ <> _ \/ _ |- _ => destruct H as [H|H]; [congruence|discriminate] end.
  - exists v, l. split; [exact V|]. split; [exact (HD v l eq_refl)|]. split; [exact IO|].
    split; [eapply in_order_sorted; eauto|]. eapply visits_end; eauto. apply app_removelast_last. discriminate.
Qed.
(** Without skip and allow every rule is evaluated unless one is disruptive. *)
Theorem C31_every_rule_evaluated_partial : forall f O e rs p t t',
  1 <= p <= 6 -> (forall a, usable rs p a -> a <> ASkip /\ ~ leads_away a) -> t_phase t < p -> t_abort t = false ->
  process_phase f O e rs p t = Ret t' -> i_disruptive (get_iv t') = false ->
  exists l, visits f O e rs p 0 (entered rs p t) l t' /\
    map index l = map Z.of_nat (seq 0 (Nat.max 1 (length (phase_rules rs p)))).
Proof.
  intros f O e rs p t t' P U L A H D.
  assert (NJ : forall a, usable rs p a -> ~ jumps a).
  { intros a X (arg & -> & I). apply U in X as [_ X]. apply X. destruct I as [<-|[<-|[<-|[]]]]; exists p; eexists; constructor. }
  assert (F : all_forward rs p).
  { intros a X. apply NJ in X. destruct a; simpl; auto. split; intros ->; elim X; eexists; (split; [reflexivity|simpl; auto]). }
  destruct (C31_rules_in_order_partial _ _ _ _ _ _ _ P F L A H) as (v & l & V & I0 & IO & _ & ST).
  exists (v :: l). split; [exact V|].
  assert (NS : forall i u u1 a, fires O e rs p i u u1 a -> ~ In ASkip a).
  { intros i u u1 a (r & t1 & _ & NT & _ & CA & _) I. destruct (U ASkip) as [X _]; [|easy].
    eapply chain_usable; [|exact CA|exact I]. eapply nth_error_In; eauto. }
  (* consecutive *)
  assert (SEQ : forall l k, in_order O e rs p l -> (forall w l', l = w :: l' -> index w = k) -> 
            map index l = map (fun n => k + Z.of_nat n) (seq 0 (length l)) /\ ((2 <= length l)%nat -> k + Z.of_nat (length l) <= nrules rs p)).
  { clear -NS. intros l k IO. revert k. induction IO as [|w|i t t1 j u u1 l K LT H IH]; intros k HD.
    - split; [reflexivity|simpl; lia].
    - split; [simpl; rewrite (HD w [] eq_refl); f_equal; lia|simpl; lia].
    - specialize (HD _ _ eq_refl). unfold index in HD. cbn [fst] in HD. subst i.
      assert (J : j = k + 1) by (destruct K as [[(a & FA & SA) _]|[_ K]]; [elim (NS _ _ _ _ FA SA)|exact K]). subst j.
      destruct (IH (k + 1) ltac:(intros w l' Q; injection Q as <- _; reflexivity)) as [Q1 Q2]. split.
      + remember ((k + 1, u, u1) :: l) as l2. cbn [map length seq]. rewrite Q1. unfold index at 1. cbn [fst]. f_equal; [lia|].
        rewrite <- seq_shift, map_map. apply map_ext. intro n. lia.
      + intros _. cbn [length] in *. destruct l; [cbn [length]; lia|]. specialize (Q2 ltac:(cbn [length]; lia)). lia. }
  destruct (SEQ (v :: l) 0 IO ltac:(intros w l' Q; injection Q as <- _; exact I0)) as [Q1 Q2].
  assert (LEN : length (v :: l) = Nat.max 1 (length (phase_rules rs p))).
  { assert (GE : nrules rs p <= Z.of_nat (length (v :: l))).
    { assert (LST : v :: l = removelast (v :: l) ++ [List.last (v :: l) v]) by (apply app_removelast_last; discriminate).
      destruct (List.last (v :: l) v) as [[i u] u1] eqn:EL.
      assert (IN : In (i, u, u1) (v :: l)) by (rewrite LST; apply in_or_app; right; now left).
      assert (IX : i = Z.of_nat (length (removelast (v :: l)))).
      { rewrite LST in Q1. rewrite map_app, app_length, seq_app, map_app in Q1. apply (f_equal (fun x => List.last x 0)) in Q1.
        cbn [length seq map] in Q1. rewrite !last_last in Q1. unfold index in Q1. cbn [fst] in Q1. lia. }
      destruct (visits_each _ _ _ _ _ _ _ _ _ V i u u1 IN) as [PU PR].
      destruct ST as [ST|[ST|[ST|(ST & a & FA & SA)]]].
      - destruct (visits_disruptive _ _ _ _ _ _ _ _ _ V _ _ _ _ _ LST ST) as [_ ->]. change (get_iv (touch_iv u1)) with (get_iv u1) in D. congruence.
      - exfalso. apply process_rule_cases in PR as [[_ ->]|[_ [(r & _ & _ & M)|(a & r & t1 & _ & NT & AM & CA & ->)]]].
        + easy.
        + destruct (frame_position _ _ (touches_frame _ _ (some_miss_touches _ _ _ _ _ M))) as (Y & _). congruence.
        + destruct (frame_position _ _ (touches_frame _ _ (all_match_touches _ _ _ _ _ AM))) as (Y & _).
          assert (FA : forall b, In b a -> usable rs p b) by (intros b I; eapply chain_usable; eauto; eapply nth_error_In; eauto).
          destruct (effects_pos rs p a t1 P (fun b I => F b (FA b I)) ltac:(congruence)) as [(b & B1 & B2 & _)|(_ & B & _)]; [|congruence].
          exact (NJ b (FA b B1) B2).
      - assert (LL : length (v :: l) = (length (removelast (v :: l)) + 1)%nat) by (rewrite LST at 1; now rewrite app_length).
        rewrite LL. lia.
      - elim (NS _ _ _ _ FA SA). }
    unfold nrules in *. destruct l as [|w l].
    - cbn [length] in *. lia.
    - specialize (Q2 ltac:(cbn [length]; lia)). cbn [length] in *. lia. }
  rewrite Q1, LEN. apply map_ext. intro n. lia.
Qed.
(** Not so when allow is used in the logging phase: rule 0 is evaluated twice, here
    because reading a broken body a second time gives another answer. *)
Theorem C31_rules_in_order_refuted : exists f O e rs t l t',
  t_phase t < 6 /\ t_abort t = false /\ process_phase f O e rs 6 t = Ret t' /\
  visits f O e rs 6 0 (entered rs 6 t) l t' /\ map index l = [0; 0].
Proof.
  exists 5%nat, (demo MpErr), (demo_engine new_ruleset),
    (RuleSet [(6, [demo_rule 6 [VCount (VColl CArgsPost empty_filter)] (OpCmp CEq 0) [AAllow []] false []])] []),
    (demo_post "application/x-www-form-urlencoded" "a=1&%zz").
  eexists _, _. split; [reflexivity|]. split; [reflexivity|]. split; [vm_compute; reflexivity|]. split.
  - eapply vs_more; [vm_compute; reflexivity|discriminate|vm_compute; reflexivity|reflexivity|vm_compute; reflexivity|].
    eapply vs_more; [vm_compute; reflexivity|discriminate|vm_compute; reflexivity|reflexivity|vm_compute; reflexivity|].
    apply vs_stop. now right.
  - reflexivity.
Qed.
Example C31_example :
  let r a := demo_rule 2 [VScalar SRequestMethod] (OpRx (B "post")) [a] false [] in
  let rs := RuleSet [(2, [r ALog; r ASkip; r ADeny; r (AStatus 418); r ADeny; r ALog])] [] in
  all_forward rs 2 /\ exists l t', visits 5 (demo MpErr) (demo_engine rs) rs 2 0 (entered rs 2 (demo_post "x" "")) l t' /\
    map index l = [0; 1; 3; 4] /\ i_status (get_iv t') = 418.
Proof.
  split.
  - intros a [(r & r' & I & J & K)|[_ []]]. simpl in I. 
    repeat (destruct I as [<-|I]; [destruct J as [<-|[]]; destruct K as [<-|[]]; exact Logic.I|]). destruct I.
  - eexists _, _. split.
    + eapply vs_more; [vm_compute; reflexivity|discriminate|vm_compute; reflexivity|reflexivity|vm_compute; reflexivity|].
      eapply vs_more; [vm_compute; reflexivity|discriminate|vm_compute; reflexivity|reflexivity|vm_compute; reflexivity|].
      eapply vs_more; [vm_compute; reflexivity|discriminate|vm_compute; reflexivity|reflexivity|vm_compute; reflexivity|].
      eapply vs_last; [vm_compute; reflexivity|discriminate|vm_compute; reflexivity|reflexivity].
    + split; reflexivity.
Qed.
Print Assumptions C31_rules_in_order_partial.
Print Assumptions C31_every_rule_evaluated_partial.
Print Assumptions C31_rules_in_order_refuted.

(** ** C32 *)
(** Every call returns (or panics), given: no allow leads back from where it is
    executed, block is not a default action, reading a form ends. *)
Theorem C32_phases_terminate_partial : forall f O e rs o t,
  (forall p, 1 <= p <= 6 -> all_forward rs p) -> ~ In ABlock (rs_default rs) ->
  forms_end O e ->
  (forall p, 1 <= p <= 6 -> (length (phase_rules rs p) + 2 <= f)%nat) ->
  step f O e rs o t <> Timeout.
Proof.
  intros f O e rs o t F N M L. destruct (op_phase o) as [p|] eqn:Q.
  - rewrite (step_phase _ _ _ _ _ _ p Q). pose proof (op_phase_range _ _ Q) as P.
    assert (G : process_phase f O e rs p (given o t) <> Timeout).
    { unfold process_phase. destruct (p <=? t_phase (given o t)); [discriminate|]. unfold process_phase_inner.
      destruct (t_abort _); [discriminate|]. destruct (entered_at rs p (given o t) ltac:(lia)) as (E & _ & A). rewrite E.
      specialize (L p P). destruct f as [|[|f]]; try lia. apply loop_ends; auto; [|lia]. right. unfold nrules. lia. }
    destruct (process_phase f O e rs p (given o t)); cbn [bind]; easy.
  - assert (W : forall ft x b, buf_write ft x b <> Timeout).
    { intros ft x b. unfold buf_write. repeat match goal with |- context [if ?c then _ else _] => destruct c | |- context [match ?c with _ => _ end] => destruct c end; try discriminate. }
    destruct o; try discriminate; cbn [step].
    + specialize (W ft p (t_reqbody t)). destruct (buf_write ft p (t_reqbody t)) as [[[]]| |]; cbn [bind]; easy.
    + specialize (W ft p (t_resbody t)). destruct (buf_write ft p (t_resbody t)) as [[[]]| |]; cbn [bind]; easy.
Qed.
Theorem C32_histories_terminate_partial : forall f O e rs os t,
  (forall p, 1 <= p <= 6 -> all_forward rs p) -> ~ In ABlock (rs_default rs) ->
  forms_end O e ->
  (forall p, 1 <= p <= 6 -> (length (phase_rules rs p) + 2 <= f)%nat) ->
  steps f O e rs os t <> Timeout.
Proof.
  intros f O e rs os t F N M L. revert t. induction os as [|o os IH]; intro t; cbn [steps]; [discriminate|].
  pose proof (C32_phases_terminate_partial f O e rs o t F N M L) as H.
  destruct (step f O e rs o t) as [[t1 b]| |]; cbn [bind]; try easy. specialize (IH t1).
  destruct (steps f O e rs os t1) as [[t2 bl]| |]; cbn [bind]; easy.
Qed.
(** Otherwise there are calls that never return. *)
Theorem C32_phases_terminate_refuted : exists O e rs t, forall f, step f O e rs OpLogging t = Timeout.
Proof.
  exists (demo MpErr), (demo_engine new_ruleset),
    (RuleSet [(6, [demo_rule 6 [VScalar SRequestMethod] (OpRx (B "post")) [AAllow []] false []])] []), (demo_post "x" "").
  set (rs := RuleSet _ _). set (O := demo MpErr). set (e := demo_engine new_ruleset). set (t := demo_post "x" "").
  set (t0 := entered rs 6 t). set (t1 := touch_iv t0).
  assert (ON : forall u, u = t0 \/ u = t1 -> forall d, 
     (t_phase u =? 6) && negb (0 =? StatusEndOfRules) = true /\
     exists u1, process_rule (S d) O e rs 6 0 u = Ret u1 /\ i_disruptive (get_iv (touch_iv u1)) = false /\ next_rule rs (touch_iv u1) = (0, t1)).
  { intros u [->| ->] d; (split; [vm_compute; reflexivity|]; eexists; split; [vm_compute; reflexivity|]; split; vm_compute; reflexivity). }
  assert (L : forall d n u, u = t0 \/ u = t1 -> phase_loop n (S d) O e rs 6 0 u = Timeout).
  { intros d. induction n as [|n IH]; intros u U; [reflexivity|]. cbn [phase_loop].
    destruct (ON u U d) as (E & u1 & R & D & NX). rewrite E, R. cbn [bind]. rewrite D, NX. apply IH. now right. }
  intro f. destruct f as [|f]; [reflexivity|]. rewrite (step_phase (S f) O e rs OpLogging t 6 eq_refl).
  unfold process_phase, given. assert (Q : (6 <=? t_phase t) = false) by (vm_compute; reflexivity). rewrite Q. unfold process_phase_inner.
  assert (A : t_abort (jump_to_phase 6 t) = false) by (vm_compute; reflexivity). rewrite A.
  destruct (entered_at rs 6 t ltac:(lia)) as (NX & _). rewrite NX. fold t0. now rewrite L by now left.
Qed.
(** Block as a default action recurses without end. *)
Theorem C32_default_block_never_ends : forall f rs t, In ABlock (rs_default rs) ->
  actions_execute f rs [ABlock] t = Timeout.
Proof.
  intros f rs t I.
  assert (G : forall n l t, In ABlock l -> actions_execute n rs l t = Timeout).
  { induction n as [|k IH]; intros l u J; [reflexivity|]. rewrite execute_eq.
    apply (stable_in _ _ _ (grouped_stable l)) in J. revert u. induction (grouped l) as [|a g IHg]; intro u; [easy|].
    cbn [act_list]. assert (D : a = ABlock \/ a <> ABlock) by (destruct a; try (right; discriminate); now left).
    destruct D as [->|D]; [cbn [act1]; now rewrite IH|].
    destruct J as [J|J]; [easy|]. assert (E : act1 k rs a u = Ret (effect rs a u)) by (destruct a; try reflexivity; easy).
    rewrite E. cbn [bind]. now apply IHg. }
  apply G. now left.
Qed.
Example C32_example :
  let r a := demo_rule 2 [VScalar SRequestMethod] (OpRx (B "post")) [a] false [] in
  let rs := RuleSet [(2, [r ABlock; r (AAllow []); r (AAllow (B "request"))])] [ADeny] in
  (forall p, 1 <= p <= 6 -> all_forward rs p) /\ ~ In ABlock (rs_default rs) /\
  (forall p, 1 <= p <= 6 -> (length (phase_rules rs p) + 2 <= 5)%nat).
Proof.
  assert (Q : forall p, p = 2 \/ p <> 2) by (intro; lia). split; [|split].
  - intros p P a U. destruct (Q p) as [->|N].
    + destruct U as [(r & r' & I & J & K)|[_ [<-|[]]]]; [|exact I]. simpl in I.
      destruct I as [<-|[<-|[<-|[]]]]; destruct J as [<-|[]]; destruct K as [<-|[]]; simpl; auto; lia.
    + destruct U as [(r & r' & I & J & K)|[(r & r' & I & J & K) _]]; unfold phase_rules in I; simpl in I; destruct (Z.eqb_spec p 2); easy.
  - intros [H|[]]. discriminate.
  - intros p P. unfold phase_rules. cbn [rs_phases zassoc]. destruct (p =? 2); simpl; lia.
Qed.
Print Assumptions C32_phases_terminate_partial.
Print Assumptions C32_histories_terminate_partial.
Print Assumptions C32_phases_terminate_refuted.
Print Assumptions C32_default_block_never_ends.

(** ** C36 *)
(** Within a phase nothing is evaluated after a rule that left the transaction disruptive. *)
Theorem C36_disruptive_rule_is_last_partial : forall f O e rs p t t' l0 i u u1 l1,
  visits f O e rs p 0 (entered rs p t) (l0 ++ (i, u, u1) :: l1) t' -> i_disruptive (get_iv u1) = true ->
  l1 = [] /\ get_iv t' = get_iv u1.
Proof.
  intros f O e rs p t t' l0 i u u1 l1 V D. destruct (visits_disruptive _ _ _ _ _ _ _ _ _ V _ _ _ _ _ eq_refl D) as [-> ->]. auto.
Qed.
Lemma effects_disruptive : forall rs l t, ~ In APass l -> i_disruptive (get_iv t) = true -> i_disruptive (get_iv (effects rs l t)) = true.
Proof.
  intros rs l. induction l as [|a l IH]; intros t N D; [exact D|].
  change (effects rs (a :: l) t) with (effects rs l (effect rs a t)). apply IH; [intro I; apply N; now right|].
  destruct a; simpl; auto.
  - unfold do_allow. destruct (bs_eqb arg []); [exact D|]. destruct (bs_eqb arg (B "phase")); [exact D|]. destruct (bs_eqb arg (B "request")); exact D.
  - elim N. now left.
  - unfold jump_to. destruct (nrules rs (t_phase t) <=? t_cur t + 2); exact D.
Qed.
Lemma touches_disruptive : forall t t', touches t t' -> i_disruptive (get_iv t) = true -> i_disruptive (get_iv t') = true.
Proof.
  intros t t' H D. destruct (touches_iv _ _ H) as [[_ V]|(_ & st & ms & _ & V)]; unfold get_iv in *; rewrite V; [exact D|reflexivity].
Qed.
(** A phase entered with an unread denial: only its first rule is evaluated, and the
    denial stands, unless that rule executes pass. *)
Theorem C36_later_phase_partial : forall f O e rs p t t',
  1 <= p <= 6 -> t_phase t < p -> t_abort t = false -> i_disruptive (get_iv t) = true ->
  process_phase f O e rs p t = Ret t' ->
  (exists u u1, visits f O e rs p 0 (entered rs p t) [(0, u, u1)] t' /\ i_disruptive (get_iv t') = true) \/
  (exists u u1 a, fires O e rs p 0 u u1 a /\ In APass a).
Proof.
  intros f O e rs p t t' P L A D H. destruct (phase_run _ _ _ _ _ _ _ P L A H) as (l & V).
  destruct (entered_at rs p t ltac:(lia)) as (NX & E & R).
  assert (DE : i_disruptive (get_iv (entered rs p t)) = true).
  { destruct (next_phase_same _ _ _ _ NX) as (_ & IV & _). unfold get_iv in *. rewrite IV. exact D. }
  assert (C : forall t1, process_rule f O e rs p 0 (entered rs p t) = Ret t1 ->
     i_disruptive (get_iv t1) = true \/ exists a, fires O e rs p 0 (entered rs p t) t1 a /\ In APass a).
  { intros t1 PR. apply process_rule_cases in PR as [[_ ->]|[_ [(r & _ & _ & M)|(a & FA)]]]; [now left| |].
    - left. eapply touches_disruptive; [eapply some_miss_touches; eauto|exact DE].
    - assert (DD : In APass a \/ ~ In APass a).
      { clear. induction a as [|b l [I|I]]; [right; intros []|left; now right|].
        assert (X : b = APass \/ b <> APass) by (destruct b; try (right; discriminate); now left).
        destruct X as [->|X]; [left; now left|]. right. intros [Y|Y]; auto. }
      destruct DD as [I|I]; [right; eauto|]. left. destruct FA as (r & t2 & _ & _ & AM & _ & ->).
      apply effects_disruptive; [exact I|]. eapply touches_disruptive; [eapply all_match_touches; eauto|exact DE]. }
  inversion V as [n u X|n u u1 X1 X2 X3 X4|n u u1 m u2 l' u' X1 X2 X3 X4 X5 X6]; subst.
  - destruct X; [congruence|discriminate].
  - left. exists (entered rs p t), u1. split; [exact V|exact X4].
  - right. destruct (C _ X3) as [Y|(a & FA & I)]; [congruence|]. eauto.
Qed.
(** So the claim fails: a later phase evaluates a rule, and pass forgets the denial. *)
Theorem C36_nothing_runs_after_denial_refuted : exists f O e rs t1 t' i,
  steps f O e rs [OpRequestURL None (B "POST") []; OpConnection [] [] [] []] (new_txn e) = Ret (t1, [ObsNone; ObsNone]) /\
  i_disruptive (get_iv t1) = true /\ i_status (get_iv t1) = 403 /\
  steps f O e rs [OpRequestHeader []; OpResult] t1 = Ret (t', [ObsNone; ObsResult i]) /\ quiet i.
Proof.
  exists 5%nat, (demo MpErr), (demo_engine new_ruleset),
    (RuleSet [(1, [demo_rule 1 [VScalar SRequestMethod] (OpRx (B "post")) [ADeny] false []]);
              (2, [demo_rule 2 [VScalar SRequestMethod] (OpRx (B "post")) [APass] false []])] []).
  eexists _, _, _. split; [vm_compute; reflexivity|]. split; [reflexivity|]. split; [reflexivity|].
  split; [vm_compute; reflexivity|]. repeat split; reflexivity.
Qed.
Example C36_example :
  let r a := demo_rule 2 [VScalar SRequestMethod] (OpRx (B "post")) [a] false [] in
  let rs := RuleSet [(2, [r ALog; r ADeny; r APass])] [] in
  let t := do_deny (demo_post "x" "") in
  (t_phase t < 2 /\ t_abort t = false /\ i_disruptive (get_iv t) = true) /\
  (exists l i u u1 t', visits 5 (demo MpErr) (demo_engine rs) rs 2 0 (entered rs 2 (demo_post "x" "")) (l ++ (i, u, u1) :: []) t' /\
     i = 1 /\ i_disruptive (get_iv u1) = true) /\
  exists u1, visits 5 (demo MpErr) (demo_engine rs) rs 2 0 (entered rs 2 t) [(0, entered rs 2 t, u1)] (touch_iv u1).
Proof.
  cbv zeta. split; [repeat split; reflexivity|]. split.
  - eexists [_], 1, _, _, _. split; [|split; [reflexivity|]].
    + cbn [app]. eapply vs_more; [vm_compute; reflexivity|discriminate|vm_compute; reflexivity|reflexivity|vm_compute; reflexivity|].
      eapply vs_last; [vm_compute; reflexivity|discriminate|vm_compute; reflexivity|reflexivity].
    + reflexivity.
  - eexists. eapply vs_last; [vm_compute; reflexivity|discriminate|vm_compute; reflexivity|reflexivity].
Qed.
Print Assumptions C36_disruptive_rule_is_last_partial.
Print Assumptions C36_later_phase_partial.
Print Assumptions C36_nothing_runs_after_denial_refuted.

(** ** C37 *)
Lemma leads_jumps : forall a, leads_away a <-> jumps a.
Proof.
  intro a. split.
  - intros (p & q & H). destruct H; eexists; (split; [reflexivity|]); [left|right; left|right; right; left]; reflexivity.
  - intros (arg & -> & [<-|[<-|[<-|[]]]]); exists 0; eexists; constructor.
Qed.
Lemma effects_stay : forall rs l t, (forall a, In a l -> ~ leads_away a) -> t_phase (effects rs l t) = t_phase t.
Proof.
  intros rs l. induction l as [|a l IH]; intros t N; [reflexivity|].
  change (effects rs (a :: l) t) with (effects rs l (effect rs a t)). rewrite IH by (intros b I; apply N; now right).
  assert (J : ~ jumps a) by (rewrite <- leads_jumps; apply N; now left).
  assert (D : a = ASkip \/ a <> ASkip) by (destruct a; try (right; discriminate); now left). destruct D as [->|D].
  - simpl. unfold jump_to. now destruct (nrules rs (t_phase t) <=? t_cur t + 2).
  - apply effect_stay; auto.
Qed.
Lemma effect_leads : forall rs a t q, 0 <= t_phase t <= 6 -> leads (t_phase t) a q -> t_phase (effect rs a t) = q.
Proof.
  intros rs a t q P H. destruct H; simpl; unfold do_allow; simpl; try reflexivity.
  unfold PhaseBegin, PhaseEnd. destruct (t_phase t + 1 <? 0) eqn:E1; [lia|]. destruct (7 <=? t_phase t + 1) eqn:E2; lia.
Qed.
(** What allow does: executed in phase [p] it leads to phase [q]; the rest of [p] is
    skipped, and so is every later call for a phase up to and including [q]. *)
Theorem C37_allow_partial : forall f O e rs p t t' l0 i u u1 l1 acts pre a post q,
  visits f O e rs p 0 (entered rs p t) (l0 ++ (i, u, u1) :: l1) t' ->
  fires O e rs p i u u1 acts -> acts = pre ++ a :: post -> leads p a q ->
  (forall b, In b pre \/ In b post -> ~ leads_away b) -> 1 <= p <= 6 -> q <> p ->
  l1 = [] /\ t_phase t' = q /\
  forall o r, op_phase o = Some r -> r <= q -> forall f' O' e' rs', step f' O' e' rs' o t' = Ret (given o t', ObsNone).
Proof.
  intros f O e rs p t t' l0 i u u1 l1 acts pre a post q V FI -> LD N P NQ.
  assert (U : t_phase u = p) by (eapply (visits_each _ _ _ _ _ _ _ _ _ V i u u1); apply in_or_app; right; now left).
  assert (Q : t_phase u1 = q).
  { destruct FI as (r & t1 & _ & _ & AM & _ & ->).
    destruct (frame_position _ _ (touches_frame _ _ (all_match_touches _ _ _ _ _ AM))) as (Y & _).
    rewrite effects_app. change (effects rs (a :: post) ?x) with (effects rs post (effect rs a x)).
    rewrite effects_stay by auto. assert (Z1 : t_phase (effects rs pre t1) = p) by (rewrite effects_stay by auto; congruence).
    apply effect_leads; [lia|]. rewrite Z1. exact LD. }
  destruct (visits_left _ _ _ _ _ _ _ _ _ V _ _ _ _ _ eq_refl ltac:(congruence)) as (-> & T).
  assert (PT : t_phase t' = q).
  { destruct T as [->| ->]; [exact Q|]. destruct (next_rule rs (touch_iv u1)) as [n t2] eqn:NX.
    destruct (next_phase_same _ _ _ _ NX) as (PH & _). simpl. rewrite PH. exact Q. }
  split; [reflexivity|]. split; [exact PT|]. intros o r OP R f' O' e' rs'. rewrite (step_phase _ _ _ _ _ _ r OP).
  unfold process_phase. destruct (given_same o t') as (G & _). rewrite G, PT. destruct (r <=? q) eqn:RQ; [reflexivity|lia].
Qed.
(** So each form skips more than documented: the phase it leads to is not run.  In each
    case the denying rule matches and the call for its phase is made. *)
Definition skips_phase (arg : bs) (from to : Z) (calls : list op) : Prop := exists f O e t i,
  let r p a := demo_rule p [VScalar SRequestMethod] (OpRx (B "post")) [a] false [] in
  let denies := (to, [r to ADeny]) in
  steps f O e (RuleSet [denies] []) calls (demo_post "x" "") = Ret (t, map (fun _ => ObsNone) calls) /\
  i_disruptive (get_iv t) = true /\
  steps f O e (RuleSet [(from, [r from (AAllow arg)]); denies] []) (calls ++ [OpResult]) (demo_post "x" "") =
    Ret (i, map (fun _ => ObsNone) calls ++ [ObsResult reset_iv]).
Theorem C37_allow_refuted :
  skips_phase (B "phase") 1 2 [OpConnection [] [] [] []; OpRequestHeader []] /\
  skips_phase (B "request") 2 4 [OpRequestHeader []; OpRequestBody; OpResponseHeaders 200 [] []] /\
  skips_phase [] 2 6 [OpRequestHeader []; OpRequestBody; OpResponseHeaders 200 [] []; OpResponseBody; OpLogging].
Proof.
  unfold skips_phase. split; [|split]; exists 5%nat, (demo MpErr), (demo_engine new_ruleset); eexists _, _;
  (split; [vm_compute; reflexivity|]; split; vm_compute; reflexivity).
Qed.
Example C37_example :
  let r a := demo_rule 2 [VScalar SRequestMethod] (OpRx (B "post")) a false [] in
  let rs := RuleSet [(2, [r [ASkip; AAllow (B "request"); ALog]; r [ADeny]])] [] in
  exists u u1 t', visits 5 (demo MpErr) (demo_engine rs) rs 2 0 (entered rs 2 (demo_post "x" "")) ([] ++ (0, u, u1) :: []) t' /\
    fires (demo MpErr) (demo_engine rs) rs 2 0 u u1 ([ALog] ++ AAllow (B "request") :: [ASkip]) /\
    leads 2 (AAllow (B "request")) 4.
Proof.
  cbv zeta. eexists _, _, _. split; [|split; [|constructor]].
  - cbn [app]. eapply vs_more; [vm_compute; reflexivity|discriminate|vm_compute; reflexivity|reflexivity|vm_compute; reflexivity|].
    apply vs_stop. left. discriminate.
  - eexists _, _. split; [lia|]. split; [reflexivity|]. split; [|split].
    + eapply am_cons; [vm_compute; reflexivity|constructor].
    + change ([ALog] ++ AAllow (B "request") :: [ASkip]) with ([ALog; AAllow (B "request"); ASkip] ++ []).
      constructor; [|constructor]. exists [ALog; AAllow (B "request"); ASkip]. split; [exact (grouped_stable [ASkip; AAllow (B "request"); ALog])|].
      repeat (constructor; [discriminate|]). constructor.
    + vm_compute. reflexivity.
Qed.
Print Assumptions C37_allow_partial.
Print Assumptions C37_allow_refuted.
