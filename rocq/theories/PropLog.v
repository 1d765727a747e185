(** Property theorem C85: what the log says. *)
From Verif Require Import Base BaseFacts GoStrings Utils Buffer BufferFacts Types Transforms Operators Transaction Variables Rules Engine
  SpecText NumFacts SpecVars VarFacts SpecRules PropText RuleFacts TxnFacts SpecTxn LoopFacts Witness PropRules PropPhases.
From Coq Require Import ZifyBool.

(** ** C85 *)
(** One line of the log, and what one action adds to it when rule [i] of phase [q] is
    current: [log] and [deny] one line each, naming the phase and the rule; [pass]
    empties the log; [allow] leaves the phase, whereupon no rule is current. *)
Definition log_line (ip port : bs) (q : Z) (msg : bs) : bs :=
  B "[client " ++ ip ++ B ":" ++ port ++ B "] (phase " ++ itoa q ++ B ") " ++ msg.
Definition tell (ip port : bs) (st : Z * Z * list bs) (a : action) : Z * Z * list bs :=
  let '(q, i, log) := st in
  match a with
  | ADeny => (q, i, log ++ [log_line ip port q (B "ModSecurity: Access denied with code 403")])
  | ALog => (q, i, log ++ [log_line ip port q (B "ModSecurity: running action in phase " ++ itoa q ++ B " rule " ++ itoa i)])
  | APass => (q, i, [])
  | AAllow arg => if bs_eqb arg [] then (6, -1, log) else if bs_eqb arg (B "phase") then (Z.max 0 (Z.min 7 (q + 1)), -1, log)
                  else if bs_eqb arg (B "request") then (4, -1, log) else (q, i, log)
  | ABlock | ASkip | AStatus _ => (q, i, log)
  end.
Definition told (ip port : bs) (a : list action) (st : Z * Z * list bs) : Z * Z * list bs := fold_left (tell ip port) a st.

Lemma prefix_line : forall t m, log_prefix t ++ m = log_line (t_srcip t) (t_srcport t) (t_phase t) m.
Proof. intros t m. unfold log_prefix, log_line. now rewrite <- !app_assoc. Qed.
Lemma logf_log : forall m t, i_log (get_iv (logf m t)) = i_log (get_iv t) ++ [log_line (t_srcip t) (t_srcport t) (t_phase t) m].
Proof. intros m t. rewrite <- prefix_line. reflexivity. Qed.
Lemma effect_tell : forall rs a t, (t_phase (effect rs a t), t_cur (effect rs a t), i_log (get_iv (effect rs a t))) =
    tell (t_srcip t) (t_srcport t) (t_phase t, t_cur t, i_log (get_iv t)) a /\
  t_srcip (effect rs a t) = t_srcip t /\ t_srcport (effect rs a t) = t_srcport t.
Proof.
  intros rs a t. destruct a as [|arg| | | | |s]; cbn [effect tell].
  - split; [|auto]. unfold do_deny. rewrite logf_log. reflexivity.
  - unfold do_allow. destruct (bs_eqb arg []); [auto|]. destruct (bs_eqb arg (B "phase")); [|destruct (bs_eqb arg (B "request")); auto].
    split; [|auto]. unfold next_phase, jump_to_phase, PhaseBegin, PhaseEnd, StatusNotStarted. cbn [t_phase t_cur t_iv with_pos]. f_equal. f_equal.
    destruct (t_phase t + 1 <? 0) eqn:A; [lia|]. destruct (7 <=? t_phase t + 1) eqn:C; lia.
  - auto.
  - split; [|auto]. unfold do_log. rewrite logf_log. reflexivity.
  - auto.
  - unfold jump_to. destruct (nrules rs (t_phase t) <=? t_cur t + 2); auto.
  - auto.
Qed.
Lemma effects_tell : forall rs l t, (t_phase (effects rs l t), t_cur (effects rs l t), i_log (get_iv (effects rs l t))) =
  told (t_srcip t) (t_srcport t) l (t_phase t, t_cur t, i_log (get_iv t)).
Proof.
  intros rs l. induction l as [|a l IH]; intro t; [reflexivity|]. change (effects rs (a :: l) t) with (effects rs l (effect rs a t)).
  destruct (effect_tell rs a t) as (E & E1 & E2). rewrite IH, E1, E2, E. reflexivity.
Qed.
Lemma all_match_iv : forall O e l t t1, l <> [] -> all_match O e l t t1 -> t_iv t1 = t_iv t.
Proof.
  intros O e l t t1 N A. pose proof (all_match_no_abort _ _ _ _ _ A N) as NA. apply all_match_touches in A.
  destruct (touches_iv _ _ A) as [[_ V]|[V _]]; [exact V|congruence].
Qed.
Lemma fires_tell : forall O e rs p i u u1 a, fires O e rs p i u u1 a ->
  (t_phase u1, t_cur u1, i_log (get_iv u1)) = told (t_srcip u) (t_srcport u) a (t_phase u, t_cur u, i_log (get_iv u)).
Proof.
  intros O e rs p i u u1 a (r & t1 & _ & _ & A & _ & ->). rewrite effects_tell.
  assert (V : t_iv t1 = t_iv u) by (eapply all_match_iv; [|exact A]; discriminate).
  apply all_match_touches, touches_frame in A as (R & _ & P & _). unfold request_part in R. unfold position in P.
  injection P as P1 P2 _ _. assert (E1 : t_srcip t1 = t_srcip u) by congruence. assert (E2 : t_srcport t1 = t_srcport u) by congruence.
  unfold get_iv in *. now rewrite E1, E2, P1, P2, V.
Qed.

(** The log along the evaluations of a phase: a rule that misses adds nothing, unless
    reading a body aborted the transaction; a rule that fires adds what its actions
    tell. *)
Inductive phase_log (ip port : bs) (O : oracles) (e : engine) (rs : ruleset) (p : Z) : list visit -> list bs -> list bs -> Prop :=
| pl_nil : forall x, phase_log ip port O e rs p [] x x
| pl_none : forall i u u1 l x y, nrules rs p <= i -> phase_log ip port O e rs p l x y -> phase_log ip port O e rs p ((i, u, u1) :: l) x y
| pl_miss : forall i u u1 l x y, misses O e rs p i u u1 -> t_abort u1 = t_abort u -> phase_log ip port O e rs p l x y ->
    phase_log ip port O e rs p ((i, u, u1) :: l) x y
| pl_abort : forall i u u1 l x ms y, misses O e rs p i u u1 -> t_abort u1 = true -> phase_log ip port O e rs p l (x ++ map (log_line ip port p) ms) y ->
    phase_log ip port O e rs p ((i, u, u1) :: l) x y
| pl_fire : forall i u u1 l a x y, fires O e rs p i u u1 a -> phase_log ip port O e rs p l (snd (told ip port a (p, i, x))) y ->
    phase_log ip port O e rs p ((i, u, u1) :: l) x y.

Lemma process_rule_who : forall d O e rs p i u u1, process_rule d O e rs p i u = Ret u1 -> t_srcip u1 = t_srcip u /\ t_srcport u1 = t_srcport u.
Proof.
  intros d O e rs p i u u1 H. apply process_rule_works, works_same in H as (R & _). unfold request_part in R. split; congruence.
Qed.
Lemma next_rule_who : forall rs t n t', next_rule rs t = (n, t') -> t_srcip t' = t_srcip t /\ t_srcport t' = t_srcport t.
Proof. intros rs t n t' H. unfold next_rule in H. destruct (t_next t =? StatusEndOfRules); injection H as _ <-; auto. Qed.
Lemma visits_log : forall d O e rs p n t l t', 1 <= p <= 6 -> all_forward rs p -> visits d O e rs p n t l t' -> at_rule rs p n t ->
  phase_log (t_srcip t) (t_srcport t) O e rs p l (i_log (get_iv t)) (i_log (get_iv t')).
Proof.
  intros d O e rs p n t l t' P F V. induction V as [n t H|n t t1 E N R D|n t t1 m t2 l t' E N R D NX V IH]; intro A; [constructor| |].
  - change (get_iv (touch_iv t1)) with (get_iv t1). destruct (A E N) as (Z0 & C & _).
    apply process_rule_cases in R as [[L ->]|[_ [M|(a & FA)]]].
    + apply pl_none; [exact L|constructor].
    + pose proof M as (r & _ & _ & SM). apply some_miss_touches in SM. destruct (touches_iv _ _ SM) as [[AB V]|(AB & st & ms & _ & V)].
      * apply pl_miss; [exact M|exact AB|]. unfold get_iv. rewrite V. constructor.
      * apply (pl_abort _ _ _ _ _ _ _ _ _ _ _ ms); [exact M|exact AB|]. unfold get_iv at 2. rewrite V. cbn [i_log].
        rewrite (map_ext _ _ (prefix_line t)), E. constructor.
    + apply (pl_fire _ _ _ _ _ _ _ _ _ _ a); [exact FA|]. apply fires_tell in FA. rewrite E, C in FA. rewrite <- FA. constructor.
  - pose proof (next_turn d O e rs p n t t1 m t2 P F A E N R NX) as TURN. pose proof (process_rule_who _ _ _ _ _ _ _ _ R) as (W1 & W2).
    pose proof (next_rule_who _ _ _ _ NX) as (W3 & W4). destruct (next_phase_same _ _ _ _ NX) as (_ & IV & _).
    assert (LOG : i_log (get_iv t2) = i_log (get_iv t1)) by (unfold get_iv at 1; rewrite IV; reflexivity).
    assert (AT : at_rule rs p m t2). { destruct TURN as [[B1 _]|(_ & _ & B & _)]; [intros B2; lia|exact B]. }
    specialize (IH AT). change (t_srcip (touch_iv t1)) with (t_srcip t1) in W3. change (t_srcport (touch_iv t1)) with (t_srcport t1) in W4.
    rewrite W3, W4, W1, W2, LOG in IH. destruct (A E N) as (Z0 & C & _).
    apply process_rule_cases in R as [[L ->]|[_ [M|(a & FA)]]].
    + apply pl_none; [exact L|exact IH].
    + pose proof M as (r & _ & _ & SM). apply some_miss_touches in SM. destruct (touches_iv _ _ SM) as [[AB VV]|(AB & st & ms & _ & VV)].
      * apply pl_miss; [exact M|exact AB|]. unfold get_iv in IH at 1. rewrite VV in IH. exact IH.
      * apply (pl_abort _ _ _ _ _ _ _ _ _ _ _ ms); [exact M|exact AB|]. unfold get_iv in IH at 1. rewrite VV in IH. cbn [i_log] in IH.
        now rewrite (map_ext _ _ (prefix_line t)), E in IH.
    + apply (pl_fire _ _ _ _ _ _ _ _ _ _ a); [exact FA|]. apply fires_tell in FA. rewrite E, C in FA. rewrite <- FA. exact IH.
Qed.
(** The log a phase leaves: that before, followed by the lines of the rules
    evaluated, in order. *)
Theorem C85_log_of_a_phase : forall f O e rs p t t', 1 <= p <= 6 -> all_forward rs p -> t_phase t < p -> t_abort t = false ->
  process_phase f O e rs p t = Ret t' ->
  exists l, visits f O e rs p 0 (entered rs p t) l t' /\
    phase_log (t_srcip t) (t_srcport t) O e rs p l (i_log (get_iv t)) (i_log (get_iv t')).
Proof.
  intros f O e rs p t t' P F L A H. destruct (phase_run _ _ _ _ _ _ _ P L A H) as (l & V). exists l. split; [exact V|].
  destruct (entered_at rs p t ltac:(lia)) as (NX & _ & R). pose proof (visits_log _ _ _ _ _ _ _ _ _ P F V R) as G.
  destruct (next_rule_who _ _ _ _ NX) as (W1 & W2). destruct (next_phase_same _ _ _ _ NX) as (_ & IV & _).
  assert (LOG : i_log (get_iv (entered rs p t)) = i_log (get_iv t)) by (unfold get_iv; rewrite IV; reflexivity).
  now rewrite W1, W2, LOG in G.
Qed.
(** The number a log action writes is that of its rule. *)
Theorem C85_names_its_rule_partial : forall ip port a q i x,
  (forall b, In b a -> ~ leads_away b) -> ~ In APass a -> In ALog a ->
  In (log_line ip port q (B "ModSecurity: running action in phase " ++ itoa q ++ B " rule " ++ itoa i)) (snd (told ip port a (q, i, x))).
Proof.
  intros ip port a q i.
  assert (ST : forall b x, ~ leads_away b -> b <> APass -> exists y, tell ip port (q, i, x) b = (q, i, x ++ y) /\
     (b = ALog -> y = [log_line ip port q (B "ModSecurity: running action in phase " ++ itoa q ++ B " rule " ++ itoa i)])).
  { intros b x NL NP. destruct b as [|arg| | | | |s]; try (exists []; rewrite app_nil_r; split; [reflexivity|discriminate]); try (eexists; split; [reflexivity|]; easy);
      try (now elim NP).
    exists []. rewrite app_nil_r. split; [|discriminate]. cbn [tell].
    destruct (bs_eqb_spec arg []) as [->|Q1]; [elim NL; exists 0; eexists; apply ld_all|].
    destruct (bs_eqb_spec arg (B "phase")) as [->|Q2]; [elim NL; exists 0; eexists; apply ld_phase|].
    destruct (bs_eqb_spec arg (B "request")) as [->|Q3]; [elim NL; exists 0; eexists; apply ld_request|reflexivity]. }
  assert (KEEP : forall a x z, (forall b, In b a -> ~ leads_away b) -> ~ In APass a -> In z x -> In z (snd (told ip port a (q, i, x)))).
  { intro a'. induction a' as [|b a' IH]; intros x z N NP I; [exact I|]. unfold told. cbn [fold_left].
    destruct (ST b x (N b (or_introl eq_refl)) ltac:(intros ->; apply NP; now left)) as (y & E & _). rewrite E.
    apply IH; [intros c K; apply N; now right|intro K; apply NP; now right|]. apply in_app_iff. now left. }
  induction a as [|b a IH]; intros x N NP I; [easy|]. unfold told. cbn [fold_left].
  destruct (ST b x (N b (or_introl eq_refl)) ltac:(intros ->; apply NP; now left)) as (y & E & E2). rewrite E.
  assert (N' : forall c, In c a -> ~ leads_away c) by (intros c K; apply N; now right).
  assert (NP' : ~ In APass a) by (intro K; apply NP; now right).
  destruct I as [->|I]; [|now apply IH]. apply KEEP; [exact N'|exact NP'|]. rewrite E2 by reflexivity. apply in_app_iff. right. now left.
Qed.
(** Behind an allow in the same chain it is not, and pass removes what was logged. *)
Theorem C85_names_its_rule_refuted : exists rs t', let O := demo MpErr in let e := demo_engine new_ruleset in
  process_phase 5 O e rs 2 (demo_post "x" "") = Ret t' /\ i_log (get_iv t') = [B "[client :] (phase 6) ModSecurity: running action in phase 6 rule -1"].
Proof.
  exists (RuleSet [(2, [demo_rule 2 [VScalar SRequestMethod] (OpRx (B "post")) [AAllow []] false
    [demo_rule 2 [VScalar SRequestMethod] (OpRx (B "post")) [ALog] false []]])] []).
  eexists. split; vm_compute; reflexivity.
Qed.
(** The code in the line of a denial is not the status of the intervention. *)
Theorem C85_denied_code_refuted : exists rs t', let O := demo MpErr in let e := demo_engine new_ruleset in
  process_phase 5 O e rs 2 (demo_post "x" "") = Ret t' /\ i_status (get_iv t') = 404 /\
  i_log (get_iv t') = [B "[client :] (phase 2) ModSecurity: Access denied with code 403"].
Proof.
  exists (RuleSet [(2, [demo_rule 2 [VScalar SRequestMethod] (OpRx (B "post")) [AStatus 404; ADeny] false []])] []).
  eexists. split; [vm_compute; reflexivity|]. split; vm_compute; reflexivity.
Qed.
Example C85_example : let r a := demo_rule 2 [VScalar SRequestMethod] (OpRx (B "post")) a false [] in
  let rs := RuleSet [(2, [r [ALog]; r [ASkip; ALog]; r [ALog]; r [ADeny; ALog]; r [ALog]])] [] in
  all_forward rs 2 /\ t_phase (demo_post "x" "") < 2 /\ t_abort (demo_post "x" "") = false /\
  exists t', process_phase 9 (demo MpErr) (demo_engine rs) rs 2 (demo_post "x" "") = Ret t' /\
    i_log (get_iv t') = map (fun s => B "[client :] (phase 2) ModSecurity: " ++ B s)
      ["running action in phase 2 rule 0"; "running action in phase 2 rule 1"; "running action in phase 2 rule 3"; "Access denied with code 403"]%string.
Proof.
  cbv zeta. split; [|split; [reflexivity|split; [reflexivity|eexists; split; vm_compute; reflexivity]]].
  intros a [(r & r' & R1 & R2 & R3)|[_ []]]. unfold phase_rules in R1. cbn [rs_phases zassoc Z.eqb Pos.eqb] in R1.
  repeat (destruct R1 as [<-|R1]; [destruct R2 as [<-|[]]; cbn [r_acts demo_rule] in R3; repeat (destruct R3 as [<-|R3]; [exact I|]); destruct R3|]). destruct R1.
Qed.
Print Assumptions C85_log_of_a_phase.
Print Assumptions C85_names_its_rule_partial.
Print Assumptions C85_names_its_rule_refuted.
Print Assumptions C85_denied_code_refuted.
