(** Property theorems C78: calls on a transaction never panic, and always return. *)
From Verif Require Import Base BaseFacts GoStrings Utils Buffer BufferFacts Types Transforms Operators Transaction Variables Rules Engine
  SpecText NumFacts SpecVars VarText VarFacts BodyFacts SpecRules PropText PropVars RuleFacts OrderFacts TxnFacts SpecTxn LoopFacts Witness PropRules PropPhases PropTxn.
From Coq Require Import ZifyBool.

(** ** What can go wrong *)
(** Every rule has an operator. *)
Definition armed (rs : ruleset) : Prop :=
  forall p r q, In r (phase_rules rs p) -> In q (r :: r_subs r) -> r_op q <> None.
(** No rule lists the names of the arguments in the body, or the body is never looked
    at, or no form is malformed. *)
Definition forms_harmless (O : oracles) (e : engine) (rs : ruleset) : Prop :=
  (forall p r q v, In r (phase_rules rs p) -> In q (r :: r_subs r) -> In v (r_vars q) -> lists_post_names v = false) \/
  e_reqaccess e = false \/
  (forall b bd m, fst (multipart O b bd m) <> MpErr).

(** A write is refused or fits the memory limit at its start. *)
Definition bounded (b : buffer) : Prop := b_len b <= b_memlimit b \/ b_filelimit b < b_len b.
Definition sane (O : oracles) (t : txn) : Prop :=
  (-2 <= t_cur t /\ (t_next t = -2 \/ 0 <= t_next t)) /\
  (forall b, b = t_reqbody t \/ b = t_resbody t -> b_file b = None -> bounded b) /\
  ((forall b bd m, fst (multipart O b bd m) <> MpErr) -> t_cache_mp t <> Some (IForm None)).

Lemma reads_bound : forall b b', reads_ok b b' -> (b_file b = None -> bounded b) -> b_file b' = None -> bounded b'.
Proof.
  intros b b' (C & L & _ & F) H N. unfold consts in C. injection C as C1 C2 _. unfold bounded. rewrite L, C1, C2. apply H. rewrite N in F. now destruct (b_file b).
Qed.
Lemma sane_fetched : forall O e vs t t' raw, fetched O e vs t t' raw -> sane O t -> sane O t'.
Proof.
  intros O e vs t t' raw F (P & B & C). pose proof (touches_frame _ _ (fetched_touches _ _ _ _ _ _ F)) as FR.
  destruct (frame_position _ _ FR) as (_ & Q2 & Q3 & _). destruct FR as (_ & _ & _ & R1 & R2 & _). split; [|split].
  - rewrite Q2, Q3. exact P.
  - intros b [->| ->]; [apply (reads_bound _ _ R1)|apply (reads_bound _ _ R2)]; apply B; auto.
  - intro M. eapply no_form_error_fetched; eauto.
Qed.
Lemma sane_evals : forall O e q t t' m, evals O e q t t' m -> sane O t -> sane O t'.
Proof.
  intros O e q t t' m E S. unfold evals in E. destruct (C25_match_iff_some_value_hits _ _ _ _ _ _ E) as (raw & F & _). eapply sane_fetched; eauto.
Qed.
Lemma sane_all : forall O e rr t t', all_match O e rr t t' -> sane O t -> sane O t'.
Proof. induction 1; eauto using sane_evals. Qed.
Lemma sane_miss : forall O e rr t t', some_miss O e rr t t' -> sane O t -> sane O t'.
Proof. induction 1; eauto using sane_evals. Qed.
Lemma sane_same : forall O t t', t_cur t' = t_cur t -> t_next t' = t_next t -> t_reqbody t' = t_reqbody t -> t_resbody t' = t_resbody t -> t_cache_mp t' = t_cache_mp t ->
  sane O t -> sane O t'.
Proof. intros O t t' E1 E2 E3 E4 E5 (P & B & C). unfold sane. rewrite E1, E2, E3, E4, E5. auto. Qed.
Lemma sane_pos : forall O t p c n, -2 <= c -> (n = -2 \/ 0 <= n) -> sane O t -> sane O (with_pos t p c n).
Proof. intros O t p c n C N (_ & B & X). split; [|split]; [split; [exact C|exact N]|exact B|exact X]. Qed.
Lemma sane_effect : forall O rs a t, sane O t -> sane O (effect rs a t).
Proof.
  intros O rs a t S. pose proof S as ((P1 & P2) & _). assert (J : forall p, sane O (jump_to_phase p t)) by (intro p; apply sane_pos; [unfold StatusNotStarted; lia|lia|exact S]).
  destruct a; simpl; try (eapply sane_same; [..|exact S]; reflexivity).
  - unfold do_allow. destruct (bs_eqb arg []); [apply J|]. destruct (bs_eqb arg (B "phase")); [apply J|]. destruct (bs_eqb arg (B "request")); [apply J|exact S].
  - unfold jump_to. destruct (nrules rs (t_phase t) <=? t_cur t + 2); apply sane_pos; auto; lia.
Qed.
Lemma sane_effects : forall O rs l t, sane O t -> sane O (effects rs l t).
Proof. intros O rs l. induction l as [|a l IH]; intros t S; [exact S|]. change (effects rs (a :: l) t) with (effects rs l (effect rs a t)). now apply IH, sane_effect. Qed.
Lemma sane_next : forall O rs t n t', sane O t -> next_rule rs t = (n, t') -> sane O t' /\ (n = -2 \/ 0 <= n).
Proof.
  intros O rs t n t' S H. pose proof S as ((P1 & P2) & _). unfold next_rule in H. unfold StatusEndOfRules in H.
  destruct (Z.eqb_spec (t_next t) (-2)) as [Q|Q]; injection H as <- <-.
  - split; [|auto]. apply sane_pos; auto. lia.
  - split; [|lia]. apply sane_pos; auto; [lia|]. destruct (nrules rs (t_phase t) <=? t_next t + 1); lia.
Qed.
Lemma sane_given : forall O o t, sane O t -> sane O (given o t).
Proof. intros O o t S. destruct o; simpl; try exact S; (eapply sane_same; [..|exact S]; reflexivity). Qed.

(** ** No panic *)
Lemma fetch_safe : forall O e v t, (lists_post_names v = false \/ e_reqaccess e = false \/ t_cache_mp t <> Some (IForm None)) -> fetch O e v t <> Panic.
Proof.
  intros O e v t H P. apply fetch_panic in P as (P1 & P2 & _ & P4). destruct P2 as (_ & P2 & _). destruct H as [H|[H|H]]; congruence.
Qed.
Definition value_safe (O : oracles) (e : engine) (q : rule) : Prop :=
  r_op q <> None /\
  ((forall v, In v (r_vars q) -> lists_post_names v = false) \/ e_reqaccess e = false \/ (forall b bd m, fst (multipart O b bd m) <> MpErr)).
Lemma match_safe : forall O e q t, value_safe O e q -> sane O t -> match_rule O e q t <> Panic.
Proof.
  intros O e q t (A & H) S. unfold match_rule.
  assert (FA : forall vs t, incl vs (r_vars q) -> sane O t -> fetch_all O e q vs t <> Panic).
  { intro vs. induction vs as [|v vs IH]; intros u I SU; cbn [fetch_all]; [discriminate|]. unfold transform_variable.
    assert (FS : fetch O e v u <> Panic).
    { apply fetch_safe. destruct H as [H|[H|H]]; [left; apply H, I; now left|auto|]. right. right. now apply SU. }
    destruct (fetch O e v u) as [[u1 a]| |] eqn:F; cbn [bind]; try easy.
    assert (SU1 : sane O u1) by (eapply (sane_fetched O e [v]); [econstructor; [exact F|constructor]|exact SU]).
    specialize (IH u1 (fun x X => I x (or_intror X)) SU1). destruct (fetch_all O e q vs u1) as [[u2 b]| |]; cbn [bind]; easy. }
  specialize (FA (r_vars q) t (fun x X => X) S). destruct (fetch_all O e q (r_vars q) t) as [[t1 vs]| |]; cbn [bind]; try easy.
  assert (MV : forall vs, match_values O (t_abort t1) q vs <> Panic).
  { clear -A. induction vs as [|v vs IH]; cbn [match_values]; [discriminate|]. destruct (t_abort t1); [discriminate|].
    destruct (r_op q); [|easy]. destruct (negb _); [discriminate|exact IH]. }
  specialize (MV vs). destruct (match_values O (t_abort t1) q vs); cbn [bind]; easy.
Qed.
Lemma execute_safe : forall f rs as_ t, actions_execute f rs as_ t <> Panic.
Proof.
  induction f as [|f IH]; intros rs as_ t; [discriminate|]. rewrite execute_eq. generalize (grouped as_) as l. intro l. revert t.
  induction l as [|a l IL]; intro t; cbn [act_list]; [discriminate|].
  assert (E : act1 f rs a t <> Panic) by (destruct a; try discriminate; apply IH).
  destruct (act1 f rs a t); cbn [bind]; try easy.
Qed.
Lemma do_rule_safe : forall f O e rs r t, (forall q, In q (r :: r_subs r) -> value_safe O e q) -> sane O t -> do_rule f O e rs r t <> Panic.
Proof.
  intros f O e rs r t V S. unfold do_rule. pose proof (match_safe O e r t (V r (or_introl eq_refl)) S) as H.
  destruct (match_rule O e r t) as [[t1 []]| |] eqn:M; cbn [bind]; try easy.
  assert (MS : forall subs t, (forall q, In q subs -> value_safe O e q) -> sane O t -> match_subs O e subs t <> Panic).
  { clear. intro subs. induction subs as [|s subs IH]; intros u V S; cbn [match_subs]; [discriminate|].
    pose proof (match_safe O e s u (V s (or_introl eq_refl)) S) as K. destruct (match_rule O e s u) as [[u1 []]| |] eqn:M; cbn [bind]; try easy.
    apply IH; [intros q I; apply V; now right|eapply sane_evals; eauto]. }
  specialize (MS (r_subs r) t1 (fun q I => V q (or_intror I)) (sane_evals _ _ _ _ _ _ M S)).
  destruct (match_subs O e (r_subs r) t1) as [[t2 []]| |]; cbn [bind]; try easy.
  pose proof (execute_safe f rs (r_acts r) t2) as X. destruct (actions_execute f rs (r_acts r) t2) as [t3| |]; cbn [bind]; try easy.
  clear. revert t3. generalize (r_subs r) as subs. intro subs. induction subs as [|s subs IH]; intro t; cbn [subs_execute]; [discriminate|].
  pose proof (execute_safe f rs (r_acts s) t) as X. destruct (actions_execute f rs (r_acts s) t); cbn [bind]; try easy.
Qed.
Lemma armed_safe : forall O e rs p r q, armed rs -> forms_harmless O e rs -> In r (phase_rules rs p) -> In q (r :: r_subs r) -> value_safe O e q.
Proof.
  intros O e rs p r q A H I J. split; [eapply A; eauto|]. destruct H as [H|H]; [left; intros v K; eapply H; eauto|now right].
Qed.
Lemma loop_safe : forall f d O e rs p n t, armed rs -> forms_harmless O e rs -> sane O t -> (n = -2 \/ 0 <= n) -> phase_loop f d O e rs p n t <> Panic.
Proof.
  induction f as [|f IH]; intros d O e rs p n t A H S N; cbn [phase_loop]; [discriminate|].
  destruct ((t_phase t =? p) && negb (n =? StatusEndOfRules)) eqn:Q; [|discriminate]. unfold StatusEndOfRules in Q.
  assert (PR : process_rule d O e rs p n t <> Panic).
  { unfold process_rule. destruct (n <? nrules rs p) eqn:L; [|discriminate]. destruct (n <? 0) eqn:Z0; [lia|].
    destruct (nth_error (phase_rules rs p) (Z.to_nat n)) as [r|] eqn:E.
    - apply do_rule_safe; [|exact S]. intros q I. eapply armed_safe; eauto. eapply nth_error_In; eauto.
    - apply nth_error_None in E. unfold nrules in L. lia. }
  destruct (process_rule d O e rs p n t) as [t1| |] eqn:P; cbn [bind]; try easy.
  assert (S1 : sane O t1).
  { apply process_rule_cases in P as [[_ ->]|[_ [(r & _ & _ & M)|(l & r & t2 & _ & _ & M & _ & ->)]]]; [exact S|eapply sane_miss; eauto|].
    apply sane_effects. eapply sane_all; eauto. }
  assert (S2 : sane O (touch_iv t1)) by (eapply sane_same; [..|exact S1]; reflexivity).
  destruct (i_disruptive (get_iv (touch_iv t1))); [discriminate|]. destruct (next_rule rs (touch_iv t1)) as [m t3] eqn:NX.
  destruct (sane_next _ _ _ _ _ S2 NX) as (S3 & N3). now apply IH.
Qed.
Lemma visits_sane : forall d O e rs p n t l t', visits d O e rs p n t l t' -> sane O t -> sane O t'.
Proof.
  assert (PR : forall d O e rs p n t t1, process_rule d O e rs p n t = Ret t1 -> sane O t -> sane O (touch_iv t1)).
  { intros d O e rs p n t t1 P S. assert (S1 : sane O t1); [|eapply sane_same; [..|exact S1]; reflexivity].
    apply process_rule_cases in P as [[_ ->]|[_ [(r & _ & _ & M)|(l & r & t2 & _ & _ & M & _ & ->)]]]; [exact S|eapply sane_miss; eauto|].
    apply sane_effects. eapply sane_all; eauto. }
  intros d O e rs p n t l t' V. induction V as [n t H|n t t1 E N R D|n t t1 m t2 l t' E N R D NX V IH]; intro S; [exact S|eauto|].
  apply IH. eapply sane_next; [|exact NX]. eauto.
Qed.
Lemma phase_safe : forall f O e rs p t, armed rs -> forms_harmless O e rs -> sane O t ->
  process_phase f O e rs p t <> Panic /\ forall t', process_phase f O e rs p t = Ret t' -> sane O t'.
Proof.
  intros f O e rs p t A H S. unfold process_phase. destruct (p <=? t_phase t); [split; [discriminate|intros t' E; apply Ret_inj in E; now subst]|].
  assert (SJ : sane O (jump_to_phase p t)) by (apply sane_pos; [unfold StatusNotStarted; lia|lia|exact S]).
  unfold process_phase_inner. destruct (t_abort (jump_to_phase p t)); [split; [discriminate|intros t' E; apply Ret_inj in E; now subst]|].
  destruct (next_rule rs (jump_to_phase p t)) as [n t1] eqn:NX. destruct (sane_next _ _ _ _ _ SJ NX) as (S1 & N1).
  split; [now apply loop_safe|]. intros t' E. apply loop_visits in E as (l & V). eapply visits_sane; eauto.
Qed.
Lemma write_safe : forall ft x b, (b_file b = None -> bounded b) -> buf_write ft x b <> Panic /\
  forall b' n er, buf_write ft x b = Ret (b', n, er) -> b_file b' = None -> bounded b'.
Proof.
  intros ft x b H. unfold buf_write. destruct (b_readed b); [split; [discriminate|intros b' n er E; apply Ret_inj in E; injection E as <- _ _; exact H]|].
  destruct (b_filelimit b <? b_len b + zlen x) eqn:FL; [split; [discriminate|intros b' n er E; apply Ret_inj in E; injection E as <- _ _; exact H]|].
  destruct (b_file b) as [f|] eqn:F.
  - split; [discriminate|]. intros b' n er E N. apply Ret_inj in E. unfold finish_file_write in E. destruct ft; injection E as <- _ _; discriminate.
  - destruct (b_memlimit b <? b_len b + zlen x) eqn:M.
    + destruct (b_memlimit b - b_len b <? 0) eqn:K; [specialize (H eq_refl); unfold bounded, zlen in *; lia|]. split; [destruct ft; discriminate|].
      intros b' n er E N. unfold finish_file_write in E. destruct ft; apply Ret_inj in E; injection E as <- _ _; try discriminate. unfold bounded. simpl. unfold zlen in *. lia.
    + split; [discriminate|]. intros b' n er E N. apply Ret_inj in E. injection E as <- _ _. unfold bounded. simpl. lia.
Qed.
Lemma step_safe : forall f O e rs o t, armed rs -> forms_harmless O e rs -> sane O t ->
  step f O e rs o t <> Panic /\ forall t' b, step f O e rs o t = Ret (t', b) -> sane O t'.
Proof.
  intros f O e rs o t A H S. destruct (op_phase o) as [p|] eqn:P.
  - rewrite (step_phase _ _ _ _ _ _ p P). destruct (phase_safe f O e rs p (given o t) A H (sane_given _ _ _ S)) as (P1 & P2). split.
    + destruct (process_phase f O e rs p (given o t)); cbn [bind]; easy.
    + intros t' b E. apply bind_Ret in E as (t1 & E & Q). apply Ret_inj in Q. injection Q as <- _. auto.
  - assert (SB : forall b, b = t_reqbody t \/ b = t_resbody t -> b_file b = None -> bounded b) by apply S.
    destruct o; try discriminate; cbn [step].
    + split; [discriminate|]. intros t' b E. apply Ret_inj in E. injection E as <- _. eapply sane_same; [..|exact S]; reflexivity.
    + destruct (write_safe ft p (t_reqbody t) (SB _ (or_introl eq_refl))) as (W1 & W2). split.
      * destruct (buf_write ft p (t_reqbody t)) as [[[]]| |]; cbn [bind]; easy.
      * intros t' b E. apply bind_Ret in E as ([[x n] er] & E & Q). apply Ret_inj in Q. injection Q as <- _. pose proof (W2 _ _ _ E) as E'.
        destruct S as (S1 & S2 & S3). split; [exact S1|]. split; [|exact S3]. intros y [->| ->]; [exact E'|]. apply SB. now right.
    + destruct (write_safe ft p (t_resbody t) (SB _ (or_intror eq_refl))) as (W1 & W2). split.
      * destruct (buf_write ft p (t_resbody t)) as [[[]]| |]; cbn [bind]; easy.
      * intros t' b E. apply bind_Ret in E as ([[x n] er] & E & Q). apply Ret_inj in Q. injection Q as <- _. pose proof (W2 _ _ _ E) as E'.
        destruct S as (S1 & S2 & S3). split; [exact S1|]. split; [|exact S3]. intros y [->| ->]; [|exact E']. apply SB. now left.
    + split; [discriminate|]. intros t' b E. unfold result in E. apply Ret_inj in E. injection E as <- _.
      simpl. destruct (t_abort t); (eapply sane_same; [..|exact S]; reflexivity).
    + split; [discriminate|]. intros t' b E. apply Ret_inj in E. injection E as <- _. eapply sane_same; [..|exact S]; reflexivity.
Qed.
(** ** C78 *)
(** No sequence of calls on a new transaction panics if every rule has an operator, the
    memory limits are not negative, and no malformed form meets a rule that lists the
    names of body arguments. *)
Theorem C78_calls_never_panic_partial : forall f O e rs os,
  armed rs -> forms_harmless O e rs -> 0 <= e_reqmem e \/ e_reqlimit e < 0 ->
  steps f O e rs os (new_txn e) <> Panic.
Proof.
  intros f O e rs os A H L1.
  assert (S : sane O (new_txn e)).
  { split; [split; [unfold StatusNotStarted; simpl; unfold StatusNotStarted; lia|right; simpl; lia]|]. split; [|intros _; discriminate].
    intros b [->| ->] _; unfold bounded; simpl; lia. }
  revert S. generalize (new_txn e) as t. induction os as [|o os IH]; intros t S; cbn [steps]; [discriminate|].
  destruct (step_safe f O e rs o t A H S) as (S1 & S2). destruct (step f O e rs o t) as [[t1 b]| |]; cbn [bind]; try easy.
  specialize (IH t1 (S2 _ _ eq_refl)). destruct (steps f O e rs os t1) as [[t2 bl]| |]; cbn [bind]; easy.
Qed.
(** Under the same conditions, if moreover no allow leads back and block is not among
    the default actions, every sequence of calls is answered. *)
Theorem C78_calls_return_partial : forall f O e rs os,
  armed rs -> forms_harmless O e rs -> 0 <= e_reqmem e \/ e_reqlimit e < 0 ->
  (forall p, 1 <= p <= 6 -> all_forward rs p) -> ~ In ABlock (rs_default rs) ->
  forms_end O e ->
  (forall p, 1 <= p <= 6 -> (length (phase_rules rs p) + 2 <= f)%nat) ->
  exists t' bl, steps f O e rs os (new_txn e) = Ret (t', bl).
Proof.
  intros f O e rs os A H L1 F N M L.
  pose proof (C78_calls_never_panic_partial f O e rs os A H L1) as P.
  pose proof (C32_histories_terminate_partial f O e rs os (new_txn e) F N M L) as T.
  destruct (steps f O e rs os (new_txn e)) as [[t' bl]| |]; [eauto|easy|easy].
Qed.
(** Without operator, with a negative limit, or with a malformed form and such rules,
    there are calls that panic. *)
Theorem C78_calls_never_panic_refuted :
  (exists O e rs os, forms_harmless O e rs /\ 0 <= e_reqmem e /\ steps 9 O e rs os (new_txn e) = Panic) /\
  (forall O e rs f, e_reqmem e < 0 <= e_reqlimit e -> steps f O e rs [OpAppendRequestBody [] NoFault] (new_txn e) = Panic) /\
  (exists O e rs os, ord_valid O /\ armed rs /\ 0 <= e_reqmem e /\ steps 9 O e rs os (new_txn e) = Panic).
Proof.
  split; [|split].
  - exists (demo MpErr), (demo_engine new_ruleset), (RuleSet [(2, [Rule 1 2 [VScalar SRequestMethod] [] None [] false [] []])] []), [OpRequestHeader []].
    split; [|split; [simpl; lia|vm_compute; reflexivity]]. left. intros p r q v I J K. unfold phase_rules, zassoc in I. cbn [rs_phases] in I.
    destruct (p =? 2); [|easy]. destruct I as [<-|[]]. destruct J as [<-|[]]. destruct K as [<-|[]]. reflexivity.
  - intros O e rs f [L1 L2]. cbn [steps step]. unfold buf_write. cbn.
    replace (e_reqlimit e <? 0) with false by lia. replace (e_reqmem e <? 0) with true by lia. rewrite Z.sub_0_r. now replace (e_reqmem e <? 0) with true by lia.
  - set (q := demo_rule 3 [VColl CArgsPostNames empty_filter] (OpRx (B "x")) [] false []).
    exists (demo MpErr), (demo_engine new_ruleset), (RuleSet [(3, [q; q])] []),
      [OpRequestURL None (B "POST") []; OpRequestHeader [(B "Content-Type", [B "multipart/form-data"])]; OpAppendRequestBody (B "garbage") NoFault; OpRequestBody].
    split; [apply demo_ord|]. split; [|split; [simpl; lia|vm_compute; reflexivity]].
    intros p r q' I J. unfold phase_rules, zassoc in I. cbn [rs_phases] in I. destruct (p =? 3); [|easy].
    assert (r = q) by (destruct I as [<-|[<-|[]]]; reflexivity). subst r. destruct J as [<-|[]]. discriminate.
Qed.
Example C78_example :
  let rs := RuleSet [(2, [demo_rule 2 [VScalar SRequestMethod] (OpRx (B "put")) [ADeny] false []])] [] in
  let e := demo_engine rs in
  armed rs /\ forms_harmless (demo MpErr) e rs /\ 0 <= e_reqmem e /\ (forall p, 1 <= p <= 6 -> all_forward rs p) /\ ~ In ABlock (rs_default rs) /\
  exists t i, steps 3 (demo MpErr) e rs [OpRequestURL None (B "PUT") []; OpRequestHeader []; OpAppendRequestBody (B "garbage") NoFault; OpRequestBody; OpResult] (new_txn e) =
    Ret (t, [ObsNone; ObsNone; ObsErr None; ObsNone; ObsResult i]).
Proof.
  cbv zeta. set (q := demo_rule _ _ _ _ _ _).
  assert (K : forall p r q', In r (phase_rules (RuleSet [(2, [q])] []) p) -> In q' (r :: r_subs r) -> q' = q).
  { intros p r q' I J. unfold phase_rules, zassoc in I. cbn [rs_phases] in I. destruct (p =? 2); [|easy]. destruct I as [<-|[]]. now destruct J as [<-|[]]. }
  split; [intros p r q' I J; rewrite (K _ _ _ I J); discriminate|]. split; [|split; [simpl; lia|split; [|split; [easy|eexists _, _; vm_compute; reflexivity]]]].
  - left. intros p r q' v I J L. rewrite (K _ _ _ I J) in L. destruct L as [<-|[]]. reflexivity.
  - intros p _ a [(r & q' & I & J & A)|(_ & [])]. rewrite (K _ _ _ I J) in A. now destruct A as [<-|[]].
Qed.
Print Assumptions C78_calls_never_panic_partial.
Print Assumptions C78_calls_return_partial.
Print Assumptions C78_calls_never_panic_refuted.
