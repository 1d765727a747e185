(** Every answer of every history, whatever the rules and the bodies; exactly when a history breaks down and when it hangs. *)
From Verif Require Import Base BaseFacts GoStrings Utils Buffer BufferFacts SpecBuffer Types Transforms Operators Transaction Variables Rules Engine
  SpecText NumFacts SpecVars VarText VarFacts BodyFacts SpecRules PropText PropVars RuleFacts Scanner Loader SpecParse ParseFacts ParseLists ParseFiles ParsePrint
  SpecLoad LoadFacts SpecTxn TxnFacts LoopFacts Witness PropRules PropPhases PropTxn PropLoad PropEnd SpecData PropData SpecGate PropGate PropLog SpecBody PropBody PropSafe PropFile SpecVerdict PropVerdict
  SpecHang PropHang SpecAnswer PropAnswer SpecReply PropReply SpecAccount PropAccount PropComplete SpecQuery PropQuery TransFacts SpecChronicle ChronicleFacts.
From Coq Require Import ZifyBool.

(** ** Endings *)
Lemma end_line : forall t m, log_prefix t ++ B "abort process with error " ++ m =
  B "[client " ++ t_srcip t ++ B ":" ++ t_srcport t ++ B "] (phase " ++ itoa (t_phase t) ++ B ") abort process with error " ++ m.
Proof. intros t m. unfold log_prefix. rewrite <- !app_assoc. reflexivity. Qed.
Lemma looked_tracks : forall p en k t t', tracks p k t -> looked en t t' -> tracks p (fold_left (ends (facts_of t)) en k) t'.
Proof.
  intros p en k t t' (T1 & T2 & T3 & T4 & T5 & T6) (L1 & L2 & L3 & L4 & L5 & L6 & L7).
  assert (G : forall en k i, k_phase k = t_phase t -> k_reply k = Reply (t_status t) (i_status (match i with Some i => i | None => reset_iv end)) (i_disruptive (match i with Some i => i | None => reset_iv end)) (i_log (match i with Some i => i | None => reset_iv end)) ->
    let k' := fold_left (ends (facts_of t)) en k in let i' := match fold_left (iv_end (log_prefix t)) en i with Some i => i | None => reset_iv end in
    k_phase k' = k_phase k /\ k_rule k' = k_rule k /\ k_next k' = k_next k /\ k_reply k' = Reply (t_status t) (i_status i') (i_disruptive i') (i_log i')).
  { clear. induction en as [|[c m] en IH]; intros k i E Y; cbv zeta; [auto|]. cbn [fold_left]. destruct (IH (ends (facts_of t) k (c, m)) (iv_end (log_prefix t) i (c, m))) as (A1 & A2 & A3 & A4); [exact E| |repeat split; assumption].
    unfold ends, iv_end. cbn [k_reply fst snd]. rewrite E, end_line, Y. cbn [y_next y_lines]. reflexivity. }
  destruct (G en k (t_iv t) T1 T5) as (A1 & A2 & A3 & A4). unfold tracks. rewrite A1, A2, A3, A4, L2, L3, L4. repeat (split; [assumption|]). split; [|exact T6].
  unfold reply_of, get_iv. now rewrite L5, L7.
Qed.
Lemma looked_steady : forall en t t', steady t -> looked en t t' -> steady t'.
Proof.
  intros en t t' S (_ & _ & _ & _ & _ & _ & L). unfold steady, get_iv in *. rewrite L. generalize (t_iv t) as i, S. generalize (log_prefix t) as q. clear. intro q.
  induction en as [|a en IH]; intros i S; [exact S|]. cbn [fold_left]. apply IH. exact S.
Qed.
(** ** A rule in its turn *)
Definition fits (p : Z) (s : standing) (t : txn) : Prop :=
  tracks p (s_acc s) t /\ s_over s = t_abort t /\ holds_bodies (s_bodies s) t /\ steady t.
Lemma do_rule_eq : forall d O e rs r t, do_rule d O e rs r t =
  ('(t1, m) <- match_subs O e (r :: r_subs r) t ;; if m : bool then subs_execute d rs (r :: r_subs r) t1 else Ret t1).
Proof.
  intros d O e rs r t. unfold do_rule. cbn [match_subs]. destruct (match_rule O e r t) as [[t1 []]| |]; reflexivity.
Qed.
Lemma effect_kept : forall rs a t, facts_of (effect rs a t) = facts_of t /\ t_abort (effect rs a t) = t_abort t /\ (forall n, holds_bodies n t -> holds_bodies n (effect rs a t)).
Proof.
  intros rs a t. assert (K : forall u, facts_of u = facts_of t -> t_abort u = t_abort t -> (forall n, holds_bodies n t -> holds_bodies n u) ->
    facts_of u = facts_of t /\ t_abort u = t_abort t /\ (forall n, holds_bodies n t -> holds_bodies n u)) by auto.
  destruct a; cbn [effect]; try (apply K; [reflexivity|reflexivity|intros n H; exact H]).
  - unfold do_allow. destruct (bs_eqb arg []); [apply K; [reflexivity|reflexivity|intros n H; exact H]|].
    destruct (bs_eqb arg _); [apply K; [reflexivity|reflexivity|intros n H; exact H]|]. destruct (bs_eqb arg _); apply K; try reflexivity; intros n H; exact H.
  - unfold jump_to. destruct (_ <=? _); apply K; try reflexivity; intros n H; exact H.
Qed.
Lemma effects_kept : forall rs l t, facts_of (effects rs l t) = facts_of t /\ t_abort (effects rs l t) = t_abort t /\ (forall n, holds_bodies n t -> holds_bodies n (effects rs l t)).
Proof.
  intros rs l. induction l as [|a l IH]; intro t; [auto|]. change (effects rs (a :: l) t) with (effects rs l (effect rs a t)).
  destruct (IH (effect rs a t)) as (A1 & A2 & A3), (effect_kept rs a t) as (B1 & B2 & B3). split; [congruence|]. split; [congruence|]. auto.
Qed.
Lemma effects_steady : forall rs l t, steady t -> steady (effects rs l t).
Proof. intros rs l. induction l as [|a l IH]; intros t S; [exact S|]. change (effects rs (a :: l) t) with (effects rs l (effect rs a t)). now apply IH, effect_steady. Qed.
Section Turns.
Variables (O : oracles) (e : engine) (rs : ruleset) (p : Z).
Hypothesis V : ord_valid O.
Lemma hit_turn : forall r k n t t1 n' acts, tracks p k t -> t_abort t = false -> steady t -> judges_chain O e (facts_of t) (r :: r_subs r) n Hit n' [] -> holds_bodies n' t1 -> looked [] t t1 ->
  chain_actions (rs_default rs) (r :: r_subs r) acts ->
  let s1 := Standing (fold_left (tells (x_ip (facts_of t)) (x_port (facts_of t)) (length (phase_rules rs p))) acts k) false n' in
  turn O e (facts_of t) rs p r (Standing k false n) s1 /\ fits p s1 (effects rs acts t1) /\ facts_of (effects rs acts t1) = facts_of t.
Proof.
  intros r k n t t1 n' acts T A S J HB L CA. cbv zeta. destruct (effects_kept rs acts t1) as (E1 & E2 & E3). pose proof (looked_facts _ _ _ L) as F.
  split; [eapply tu_hit; eassumption|]. split; [|congruence]. unfold fits. cbn [s_acc s_over s_bodies]. split.
  - replace (x_ip (facts_of t)) with (t_srcip t1) by (injection F; auto). replace (x_port (facts_of t)) with (t_srcport t1) by (injection F; auto).
    apply effects_tells. exact (looked_tracks p [] k t t1 T L).
  - split; [rewrite E2; destruct L as (_ & _ & _ & _ & _ & L & _); rewrite L, A; reflexivity|]. split; [now apply E3|]. apply effects_steady. eapply looked_steady; eassumption.
Qed.
Lemma miss_turn : forall r k n t t1 n' en, tracks p k t -> t_abort t = false -> steady t -> judges_chain O e (facts_of t) (r :: r_subs r) n Miss n' en -> holds_bodies n' t1 -> looked en t t1 ->
  let s1 := Standing (fold_left (ends (facts_of t)) en k) (match en with [] => false | _ => true end) n' in
  turn O e (facts_of t) rs p r (Standing k false n) s1 /\ fits p s1 t1 /\ facts_of t1 = facts_of t.
Proof.
  intros r k n t t1 n' en T A S J HB L. cbv zeta. split; [eapply tu_miss; eassumption|]. split; [|eapply looked_facts; eassumption]. unfold fits. cbn [s_acc s_over s_bodies].
  split; [eapply looked_tracks; eassumption|]. split; [destruct L as (_ & _ & _ & _ & _ & L & _); rewrite L, A; now destruct en|]. split; [exact HB|eapply looked_steady; eassumption].
Qed.
Lemma turn_run : forall d r k n t, fits p (Standing k false n) t ->
  match do_rule d O e rs r t with
  | Ret t' => exists s1, turn O e (facts_of t) rs p r (Standing k false n) s1 /\ fits p s1 t' /\ facts_of t' = facts_of t
  | Panic => chain_breaks O e (facts_of t) (r :: r_subs r) n
  | Timeout => True
  end.
Proof.
  intros d r k n t (T & A & HB & S). cbn [s_acc s_over s_bodies] in *. symmetry in A. rewrite do_rule_eq. pose proof (chain_run O e (r :: r_subs r) n t V HB A) as W.
  destruct (match_subs O e (r :: r_subs r) t) as [[t1 m]| |]; cbn [bind judged] in *; [|exact W|exact I].
  destruct W as (n' & en & J & HB1 & L & EN). destruct m; cbn [vd] in J.
  - rewrite (EN eq_refl) in *. destruct (subs_execute d rs (r :: r_subs r) t1) as [t2| |] eqn:X; [| |exact I].
    + apply subs_execute_iff in X as (acts & CA & ->). eexists. eapply hit_turn; eassumption.
    + exfalso. assert (NP : forall d l t, actions_execute d rs l t <> Panic).
      { clear. induction d as [|d IH]; intros l t; [discriminate|]. rewrite execute_eq. generalize (Rules.grouped l) as q. intro q. revert t. induction q as [|a q IQ]; intro t; cbn [act_list]; [discriminate|].
        destruct (act1 d rs a t) as [u| |] eqn:Q; cbn [bind]; [apply IQ| |discriminate]. destruct a; try discriminate. now apply IH in Q. }
      revert X. generalize (r :: r_subs r) as l, t1. clear -NP. induction l as [|q l IH]; intros t H; cbn [subs_execute] in H; [discriminate|].
      destruct (actions_execute d rs (r_acts q) t) eqn:Q; cbn [bind] in H; [eapply IH; eassumption|now apply NP in Q|discriminate].
  - eexists. eapply miss_turn; eassumption.
Qed.
Lemma turn_complete : forall r k n t s1, fits p (Standing k false n) t -> turn O e (facts_of t) rs p r (Standing k false n) s1 ->
  exists d0 t', (forall d, (d0 <= d)%nat -> do_rule d O e rs r t = Ret t') /\ fits p s1 t' /\ facts_of t' = facts_of t.
Proof.
  intros r k n t s1 (T & A & HB & S) H. cbn [s_acc s_over s_bodies] in *. symmetry in A. pose proof (chain_run O e (r :: r_subs r) n t V HB A) as W.
  inversion H as [k0 n0 n' acts J CA|k0 n0 n' en J]; subst; (destruct (match_subs O e (r :: r_subs r) t) as [[t1 m]| |] eqn:M; cbn [judged] in W; [|exfalso; eapply chain_break; eassumption|exfalso; destruct W as [W _]; eapply W; eassumption]);
  destruct W as (n2 & en2 & J2 & HB1 & L & EN); destruct (chain_one _ _ _ _ _ _ _ _ _ _ _ J J2) as (E1 & -> & ->); destruct m; try discriminate.
  - destruct (chain_execute rs _ _ CA) as (f & X). exists f, (effects rs acts t1). split; [|eapply hit_turn; eassumption].
    intros d D. rewrite do_rule_eq, M. cbn [bind]. rewrite (subs_execute_mono f) by (try exact D; rewrite X; discriminate). apply X.
  - exists 0%nat, t1. split; [|eapply miss_turn; eassumption]. intros d _. rewrite do_rule_eq, M. reflexivity.
Qed.
Lemma turn_break : forall r k n t, fits p (Standing k false n) t -> chain_breaks O e (facts_of t) (r :: r_subs r) n -> forall d, do_rule d O e rs r t = Panic.
Proof.
  intros r k n t (T & A & HB & S) H d. cbn [s_acc s_over s_bodies] in *. symmetry in A. pose proof (chain_run O e (r :: r_subs r) n t V HB A) as W. rewrite do_rule_eq.
  destruct (match_subs O e (r :: r_subs r) t) as [[t1 m]| |]; cbn [judged bind] in *; [|reflexivity|destruct W; contradiction].
  exfalso. destruct W as (n2 & en2 & J2 & _). eapply chain_break; eassumption.
Qed.
End Turns.

(** ** A phase *)
(** The standing describes the state: between two rules, and between two calls. *)
Definition between (rs : ruleset) (p n : Z) (s : standing) (t : txn) : Prop :=
  k_phase (s_acc s) = t_phase t /\ 0 <= t_phase t /\ k_reply (s_acc s) = reply_of t /\ s_over s = false /\ t_abort t = false /\ holds_bodies (s_bodies s) t /\ steady t /\
  at_rule rs p n t /\ (t_phase t = p -> number_of (k_next (s_acc s)) = n).
Definition told (s : standing) (t : txn) : Prop :=
  k_phase (s_acc s) = t_phase t /\ 0 <= t_phase t /\ k_reply (s_acc s) = reply_of t /\ s_over s = t_abort t /\ holds_bodies (s_bodies s) t /\ steady t.
Lemma ends_denied : forall x en k, en <> [] -> y_denied (k_reply (fold_left (ends x) en k)) = true.
Proof.
  intros x en k N. assert (G : forall en k, y_denied (k_reply k) = true -> y_denied (k_reply (fold_left (ends x) en k)) = true) by (clear; induction en as [|a en IH]; intros k H; [exact H|]; cbn [fold_left]; now apply IH).
  destruct en as [|a en]; [easy|]. cbn [fold_left]. now apply G.
Qed.
Section Loop.
Variables (O : oracles) (e : engine) (rs : ruleset) (p : Z).
Hypothesis V : ord_valid O.
Hypothesis P : 1 <= p <= 6.
Lemma turn_over : forall x r s s1, turn O e x rs p r s s1 -> y_denied (k_reply (s_acc s1)) = false -> s_over s1 = false.
Proof. intros x r s s1 H D. destruct H as [k n n' acts J C|k n n' en J]; [reflexivity|]. cbn [s_acc s_over] in *. destruct en as [|a en]; [reflexivity|]. rewrite ends_denied in D by discriminate. discriminate. Qed.
Lemma arrives_fits : forall n s t i r, between rs p n s t -> t_phase t = p -> n <> StatusEndOfRules -> nth_error (phase_rules rs p) (Z.to_nat n) = Some r ->
  i = Z.to_nat n -> moves rs p s i r /\ fits p (arrives_at rs p i s) t /\ s_over s = false /\ forall d, process_rule d O e rs p n t = do_rule d O e rs r t.
Proof.
  intros n s t i r (B1 & B2 & B3 & B4 & B5 & B6 & B7 & B8 & B9) E N NT ->. destruct (B8 E N) as (Z0 & C & NN). specialize (B9 E).
  assert (KX : k_next (s_acc s) = Some (Z.to_nat n)) by (destruct (k_next (s_acc s)) as [i|]; cbn in B9; [f_equal; lia|unfold StatusEndOfRules in *; lia]).
  split; [split; [congruence|]; split; [exact KX|exact NT]|]. split; [|split; [exact B4|]].
  - unfold fits, arrives_at. cbn [s_acc s_over s_bodies]. split; [now apply arrive_tracks|]. split; [congruence|auto].
  - intro d. unfold process_rule. assert (LN : n < nrules rs p) by (assert (NE : nth_error (phase_rules rs p) (Z.to_nat n) <> None) by congruence; apply nth_error_Some in NE; unfold nrules; lia).
    destruct (Z.ltb_spec n (nrules rs p)) as [_|]; [|lia]. destruct (Z.ltb_spec n 0) as [|_]; [lia|]. now rewrite NT.
Qed.
Lemma fits_next : forall s1 t1 m t2, fits p s1 t1 -> s_over s1 = false -> next_rule rs (touch_iv t1) = (m, t2) -> between rs p m s1 t2 /\ facts_of t2 = facts_of t1.
Proof.
  intros s1 t1 m t2 ((T1 & T2 & T3 & T4 & T5 & T6) & A & HB & S) OV NX. destruct (next_phase_same _ _ _ _ NX) as (PH & PV & PA).
  change (t_phase (touch_iv t1)) with (t_phase t1) in PH. change (t_abort (touch_iv t1)) with (t_abort t1) in PA.
  assert (RP : reply_of t2 = reply_of t1) by (rewrite (next_reply _ _ _ _ NX); reflexivity).
  assert (NN2 : t_phase t1 = p -> m = number_of (k_next (s_acc s1)) /\ at_rule rs p m t2).
  { intro Q. specialize (T6 Q). assert (GE : t_next (touch_iv t1) = StatusEndOfRules \/ 0 <= t_next (touch_iv t1)).
    { change (t_next (touch_iv t1)) with (t_next t1). rewrite <- T6. destruct (k_next (s_acc s1)); cbn; [right; lia|now left]. }
    destruct (next_at rs p (touch_iv t1) m t2 Q GE NX) as (-> & _ & AR). split; [symmetry; exact T6|exact AR]. }
  assert (K : facts_of t2 = facts_of t1 /\ (forall n, holds_bodies n t1 -> holds_bodies n t2) /\ steady t2).
  { unfold next_rule in NX. destruct (_ =? _); injection NX as _ <-; (split; [reflexivity|]; split; [intros n H; exact H|exact S]). }
  destruct K as (K1 & K2 & K3). split; [|exact K1]. unfold between. repeat (split; [solve [congruence|auto|rewrite PH; auto]|]). split.
  - intros Q X. apply NN2; [congruence|exact Q|exact X].
  - intro Q. symmetry. apply NN2. congruence.
Qed.
Lemma none_next : forall n s t m t2, between rs p n s t -> t_phase t = p -> n <> StatusEndOfRules -> nth_error (phase_rules rs p) (Z.to_nat n) = None ->
  (forall d, process_rule d O e rs p n t = Ret t) /\ k_next (s_acc s) = Some (Z.to_nat n) /\ told s (touch_iv t) /\
  (next_rule rs (touch_iv t) = (m, t2) -> m = StatusEndOfRules /\ told s t2 /\ facts_of t2 = facts_of t).
Proof.
  intros n s t m t2 (B1 & B2 & B3 & B4 & B5 & B6 & B7 & B8 & B9) E N NT. destruct (B8 E N) as (Z0 & C & NN). specialize (B9 E).
  assert (KX : k_next (s_acc s) = Some (Z.to_nat n)) by (destruct (k_next (s_acc s)) as [i|]; cbn in B9; [f_equal; lia|unfold StatusEndOfRules in *; lia]).
  assert (LE : nrules rs p <= n) by (apply nth_error_None in NT; unfold nrules; lia).
  split; [intro d; unfold process_rule; destruct (Z.ltb_spec n (nrules rs p)); [lia|reflexivity]|]. split; [exact KX|].
  split; [split; [exact B1|]; split; [exact B2|]; split; [exact B3|]; split; [exact (eq_trans B4 (eq_sym B5))|]; split; [exact B6|exact B7]|]. intro NX.
  assert (EM : m = StatusEndOfRules).
  { destruct (next_at rs p (touch_iv t) m t2 E) as (EM & _ & _); [|exact NX|].
    - change (t_next (touch_iv t)) with (t_next t). rewrite NN. unfold after. apply skipped_ok. lia.
    - change (t_next (touch_iv t)) with (t_next t) in EM. rewrite NN in EM. unfold after, skipped_to in EM. destruct (nrules rs p <=? n + 1) eqn:LL; [exact EM|lia]. }
  destruct (next_phase_same _ _ _ _ NX) as (PH & PV & PA). change (t_phase (touch_iv t)) with (t_phase t) in PH. change (t_abort (touch_iv t)) with (t_abort t) in PA.
  assert (RP : reply_of t2 = reply_of t) by (rewrite (next_reply _ _ _ _ NX); reflexivity).
  assert (K : facts_of t2 = facts_of t /\ (forall n, holds_bodies n t -> holds_bodies n t2) /\ steady t2).
  { unfold next_rule in NX. destruct (_ =? _); injection NX as _ <-; (split; [reflexivity|]; split; [intros w H; exact H|exact B7]). }
  destruct K as (K1 & K2 & K3). split; [exact EM|]. split; [|exact K1]. unfold told. repeat (split; [solve [congruence|auto|rewrite PH; auto]|]). exact K3.
Qed.
Lemma fits_told : forall s t, fits p s t -> told s (touch_iv t).
Proof. intros s t ((T1 & T2 & T3 & T4 & T5 & T6) & A & HB & S). unfold told. repeat (split; [assumption|]). exact S. Qed.
Lemma between_told : forall n s t, between rs p n s t -> told s t.
Proof. intros n s t (B1 & B2 & B3 & B4 & B5 & B6 & B7 & B8 & B9). unfold told. repeat (split; [solve [assumption|congruence]|]). exact B7. Qed.
Lemma standing_eta : forall s, s_over s = false -> s = Standing (s_acc s) false (s_bodies s).
Proof. intros [a o b] H. cbn in *. now subst. Qed.
Lemma loop_run : forall d f n s t, between rs p n s t ->
  match phase_loop f d O e rs p n t with
  | Ret t' => exists s', runs O e (facts_of t) rs p s s' /\ told s' t' /\ facts_of t' = facts_of t
  | Panic => run_breaks O e (facts_of t) rs p s
  | Timeout => True
  end.
Proof.
  intros d f. induction f as [|f IH]; intros n s t BT; [exact I|]. cbn [phase_loop]. destruct (Z.eqb_spec (t_phase t) p) as [E|E]; cbn [andb].
  2:{ exists s. split; [apply ru_away; destruct BT as (B1 & _); congruence|]. split; [now apply between_told with n|reflexivity]. }
  destruct (Z.eqb_spec n StatusEndOfRules) as [N|N]; cbn [negb].
  { exists s. split; [apply ru_end; destruct BT as (_ & _ & _ & _ & _ & _ & _ & _ & B9); specialize (B9 E); destruct (k_next (s_acc s)); [cbn in B9; unfold StatusEndOfRules in *; lia|reflexivity]|]. split; [now apply between_told with n|reflexivity]. }
  destruct (nth_error (phase_rules rs p) (Z.to_nat n)) as [r|] eqn:NT.
  - destruct (arrives_fits n s t _ r BT E N NT eq_refl) as (M & F & OV & PR). rewrite PR.
    pose proof (turn_run O e rs p V d r (s_acc (arrives_at rs p (Z.to_nat n) s)) (s_bodies s) t) as W. unfold arrives_at in F, W. rewrite OV in F. cbn [s_acc] in W. specialize (W F).
    assert (AE : arrives_at rs p (Z.to_nat n) s = Standing (arrive p (phase_rules rs p) (Z.to_nat n) (s_acc s)) false (s_bodies s)) by (unfold arrives_at; now rewrite OV).
    rewrite <- AE in W. destruct (do_rule d O e rs r t) as [t1| |]; cbn [bind]; [|eapply rb_here; eassumption|exact I].
    destruct W as (s1 & T & F1 & FE). change (get_iv (touch_iv t1)) with (get_iv t1).
    assert (DE : y_denied (k_reply (s_acc s1)) = i_disruptive (get_iv t1)) by (destruct F1 as ((_ & _ & _ & _ & T5 & _) & _); now rewrite T5).
    destruct (i_disruptive (get_iv t1)) eqn:DI.
    + exists s1. split; [eapply ru_stop; eassumption|]. split; [now apply fits_told|exact FE].
    + destruct (next_rule rs (touch_iv t1)) as [m t2] eqn:NX. destruct (fits_next s1 t1 m t2 F1 (turn_over _ _ _ _ T DE) NX) as (B2 & FE2).
      specialize (IH m s1 t2 B2). rewrite FE2, FE in IH. destruct (phase_loop f d O e rs p m t2) as [t3| |]; [|eapply rb_later; eassumption|exact I].
      destruct IH as (s' & RU & TO & FE3). exists s'. split; [eapply ru_on; eassumption|auto].
  - destruct (next_rule rs (touch_iv t)) as [m t2] eqn:NX. destruct (none_next n s t m t2 BT E N NT) as (PR & KX & TO & W). destruct (W NX) as (-> & TO2 & FE). rewrite PR. cbn [bind].
    assert (RU : runs O e (facts_of t) rs p s s) by (eapply ru_none; eassumption).
    destruct (i_disruptive _); [exists s; auto|]. rewrite NX. destruct f as [|f]; [exact I|]. cbn [phase_loop]. destruct (_ =? _); cbn [andb]; exists s; auto.
Qed.
Lemma loop_complete : forall x s s', runs O e x rs p s s' -> forall n t, between rs p n s t -> facts_of t = x ->
  exists f0 t', (forall f d, (f0 <= f)%nat -> (f0 <= d)%nat -> phase_loop f d O e rs p n t = Ret t') /\ told s' t' /\ facts_of t' = x.
Proof.
  intros x s s' H. induction H as [s N|s N|s i N X|s i r s1 M T D|s i r s1 s' M T D H IH]; intros n t BT FE.
  - exists 1%nat, t. split; [|split; [now apply between_told with n|exact FE]]. intros [|f] d F1 F2; [lia|]. cbn [phase_loop]. destruct BT as (B1 & _). destruct (Z.eqb_spec (t_phase t) p); [congruence|reflexivity].
  - exists 1%nat, t. split; [|split; [now apply between_told with n|exact FE]]. intros [|f] d F1 F2; [lia|]. cbn [phase_loop]. destruct (Z.eqb_spec (t_phase t) p) as [E|E]; [|reflexivity].
    destruct BT as (_ & _ & _ & _ & _ & _ & _ & _ & B9). specialize (B9 E). rewrite N in B9. cbn in B9. now subst n.
  - destruct (Z.eq_dec (t_phase t) p) as [E|E].
    2:{ exists 1%nat, t. split; [|split; [now apply between_told with n|exact FE]]. intros [|f] d F1 F2; [lia|]. cbn [phase_loop]. destruct (Z.eqb_spec (t_phase t) p); [congruence|reflexivity]. }
    assert (NI : n = Z.of_nat i) by (destruct BT as (_ & _ & _ & _ & _ & _ & _ & _ & B9); specialize (B9 E); rewrite N in B9; now cbn in B9).
    assert (NE : n <> StatusEndOfRules) by (unfold StatusEndOfRules; lia).
    destruct (next_rule rs (touch_iv t)) as [m t2] eqn:NX. destruct (none_next n s t m t2 BT E NE) as (PR & KX & TO & W); [now rewrite NI, Nat2Z.id|]. destruct (W NX) as (-> & TO2 & FE2).
    exists 2%nat, (if i_disruptive (get_iv t) then touch_iv t else t2). split.
    + intros [|[|f]] d F1 F2; [lia|lia|]. remember (S f) as g. cbn [phase_loop]. rewrite E, Z.eqb_refl. destruct (Z.eqb_spec n StatusEndOfRules); [easy|]. cbn [andb negb]. rewrite PR. cbn [bind].
      change (get_iv (touch_iv t)) with (get_iv t). destruct (i_disruptive (get_iv t)); [reflexivity|]. rewrite NX. subst g. cbn [phase_loop]. destruct (t_phase t2 =? p); reflexivity.
    + destruct (i_disruptive (get_iv t)); split; try assumption. congruence.
  - assert (M' := M). destruct M' as (M1 & M2 & M3). assert (E : t_phase t = p) by (destruct BT as (B1 & _); congruence).
    assert (NI : n = Z.of_nat i) by (destruct BT as (_ & _ & _ & _ & _ & _ & _ & _ & B9); specialize (B9 E); rewrite M2 in B9; now cbn in B9).
    assert (NE : n <> StatusEndOfRules) by (unfold StatusEndOfRules; lia).
    destruct (arrives_fits n s t i r BT E NE) as (_ & F & OV & PR); [now rewrite NI, Nat2Z.id|lia|].
    assert (AE : arrives_at rs p i s = Standing (arrive p (phase_rules rs p) i (s_acc s)) false (s_bodies s)) by (unfold arrives_at; now rewrite OV). rewrite AE in F, T. rewrite <- FE in T.
    destruct (turn_complete O e rs p V _ _ _ _ _ F T) as (d0 & t1 & X & F1 & FE1).
    exists (S d0), (touch_iv t1). split; [|split; [now apply fits_told|exact (eq_trans FE1 FE)]].
    intros [|f] d G1 G2; [lia|]. cbn [phase_loop]. rewrite E, Z.eqb_refl. destruct (Z.eqb_spec n StatusEndOfRules); [easy|]. cbn [andb negb]. rewrite PR, X by lia. cbn [bind].
    change (get_iv (touch_iv t1)) with (get_iv t1). assert (DE : i_disruptive (get_iv t1) = true) by (destruct F1 as ((_ & _ & _ & _ & T5 & _) & _); rewrite T5 in D; exact D). now rewrite DE.
  - assert (M' := M). destruct M' as (M1 & M2 & M3). assert (E : t_phase t = p) by (destruct BT as (B1 & _); congruence).
    assert (NI : n = Z.of_nat i) by (destruct BT as (_ & _ & _ & _ & _ & _ & _ & _ & B9); specialize (B9 E); rewrite M2 in B9; now cbn in B9).
    assert (NE : n <> StatusEndOfRules) by (unfold StatusEndOfRules; lia).
    destruct (arrives_fits n s t i r BT E NE) as (_ & F & OV & PR); [now rewrite NI, Nat2Z.id|lia|].
    assert (AE : arrives_at rs p i s = Standing (arrive p (phase_rules rs p) i (s_acc s)) false (s_bodies s)) by (unfold arrives_at; now rewrite OV). rewrite AE in F, T. rewrite <- FE in T.
    destruct (turn_complete O e rs p V _ _ _ _ _ F T) as (d0 & t1 & X & F1 & FE1).
    destruct (next_rule rs (touch_iv t1)) as [m t2] eqn:NX. destruct (fits_next s1 t1 m t2 F1 (turn_over _ _ _ _ T D) NX) as (B2 & FE2).
    destruct (IH m t2 B2 ltac:(congruence)) as (f1 & t' & Y & TO & FE3). exists (S (d0 + f1)), t'. split; [|auto].
    intros [|f] d G1 G2; [lia|]. cbn [phase_loop]. rewrite E, Z.eqb_refl. destruct (Z.eqb_spec n StatusEndOfRules); [easy|]. cbn [andb negb]. rewrite PR, X by lia. cbn [bind].
    change (get_iv (touch_iv t1)) with (get_iv t1). assert (DE : i_disruptive (get_iv t1) = false) by (destruct F1 as ((_ & _ & _ & _ & T5 & _) & _); rewrite T5 in D; exact D). rewrite DE, NX. apply Y; lia.
Qed.
Lemma loop_break : forall x s, run_breaks O e x rs p s -> forall n t, between rs p n s t -> facts_of t = x ->
  exists f0, forall f d, (f0 <= f)%nat -> (f0 <= d)%nat -> phase_loop f d O e rs p n t = Panic.
Proof.
  intros x s H. induction H as [s i r M C|s i r s1 M T D H IH]; intros n t BT FE;
  (assert (M' := M); destruct M' as (M1 & M2 & M3); assert (E : t_phase t = p) by (destruct BT as (B1 & _); congruence);
    assert (NI : n = Z.of_nat i) by (destruct BT as (_ & _ & _ & _ & _ & _ & _ & _ & B9); specialize (B9 E); rewrite M2 in B9; now cbn in B9);
    assert (NE : n <> StatusEndOfRules) by (unfold StatusEndOfRules; lia);
    destruct (arrives_fits n s t i r BT E NE) as (_ & F & OV & PR); [now rewrite NI, Nat2Z.id|lia|];
    assert (AE : arrives_at rs p i s = Standing (arrive p (phase_rules rs p) i (s_acc s)) false (s_bodies s)) by (unfold arrives_at; now rewrite OV); rewrite AE in F).
  - exists 1%nat. intros [|f] d G1 G2; [lia|]. cbn [phase_loop]. rewrite E, Z.eqb_refl. destruct (Z.eqb_spec n StatusEndOfRules); [easy|]. cbn [andb negb]. rewrite PR, (turn_break O e rs p V r _ _ _ F) by now rewrite FE. reflexivity.
  - rewrite AE in T. rewrite <- FE in T. destruct (turn_complete O e rs p V _ _ _ _ _ F T) as (d0 & t1 & X & F1 & FE1).
    destruct (next_rule rs (touch_iv t1)) as [m t2] eqn:NX. destruct (fits_next s1 t1 m t2 F1 (turn_over _ _ _ _ T D) NX) as (B2 & FE2).
    destruct (IH m t2 B2 ltac:(congruence)) as (f1 & Y). exists (S (d0 + f1)).
    intros [|f] d G1 G2; [lia|]. cbn [phase_loop]. rewrite E, Z.eqb_refl. destruct (Z.eqb_spec n StatusEndOfRules); [easy|]. cbn [andb negb]. rewrite PR, X by lia. cbn [bind].
    change (get_iv (touch_iv t1)) with (get_iv t1). assert (DE : i_disruptive (get_iv t1) = false) by (destruct F1 as ((_ & _ & _ & _ & T5 & _) & _); rewrite T5 in D; exact D). rewrite DE, NX. apply Y; lia.
Qed.
End Loop.

(** ** A call *)
Lemma given_facts : forall o t, facts_of (given o t) = learns o (facts_of t).
Proof. intros [] t; reflexivity. Qed.
Lemma given_told : forall o s t, told s t -> told s (given o t).
Proof. intros o s t H. destruct o; exact H. Qed.
Lemma jump_phase : forall p t, 1 <= p <= 6 -> t_phase (jump_to_phase p t) = p.
Proof. intros p t P. unfold jump_to_phase, PhaseBegin, PhaseEnd. cbn. destruct (p <? 0) eqn:E1; [lia|]. destruct (7 <=? p) eqn:E2; lia. Qed.
Lemma enter_between : forall rs p s t, 1 <= p <= 6 -> told s t -> t_abort t = false -> between rs p 0 (enters p s) (entered rs p t) /\ facts_of (entered rs p t) = facts_of t.
Proof.
  intros rs p s t P (B1 & B2 & B3 & B4 & B5 & B6) A. destruct (entered_at rs p t ltac:(lia)) as (NX & E & AT). destruct (next_phase_same _ _ _ _ NX) as (PH & PV & PA).
  assert (RE : reply_of (entered rs p t) = reply_of t) by (rewrite (next_reply _ _ _ _ NX); reflexivity).
  assert (K : facts_of (entered rs p t) = facts_of t /\ (forall n, holds_bodies n t -> holds_bodies n (entered rs p t)) /\ steady (entered rs p t)).
  { unfold entered, next_rule. destruct (t_next _ =? _); (split; [reflexivity|]; split; [intros n H; exact H|exact B6]). }
  destruct K as (K1 & K2 & K3). split; [|exact K1]. unfold between, enters. cbn [s_acc s_over s_bodies at_phase k_phase k_reply k_next].
  split; [now rewrite E|]. split; [lia|]. split; [congruence|]. split; [congruence|]. split; [rewrite PA; exact A|]. split; [auto|]. split; [exact K3|]. split; [exact AT|]. reflexivity.
Qed.
Lemma write_kept : forall ft d b b' k er, b_readed b = false -> buf_write ft d b = Ret (b', k, er) -> b_readed b' = false.
Proof. intros ft d b b' k er R H. destruct (buf_write_len _ _ _ _ _ _ R H) as (C & _). unfold consts in C. congruence. Qed.
Lemma write_ends : forall ft d b, buf_write ft d b <> Timeout.
Proof. intros ft d b. unfold buf_write. repeat match goal with |- (if ?c then _ else _) <> _ => destruct c | |- match ?c with _ => _ end <> _ => destruct c | _ => discriminate end. Qed.
Section Calls.
Variables (O : oracles) (e : engine) (rs : ruleset).
Hypothesis V : ord_valid O.
Lemma request_told : forall s t b, told s t -> b_readed b = false -> told (with_bodies s (req_body b (s_bodies s))) (with_reqbody t b).
Proof. intros s t b (B1 & B2 & B3 & B4 & (F & M & R1 & R2 & R3 & R4) & B6) R. unfold told. repeat (split; [assumption|]). split; [|exact B6]. unfold holds_bodies. cbn. auto 10. Qed.
Lemma response_told : forall s t b, told s t -> b_readed b = false -> told (with_bodies s (res_body b (s_bodies s))) (with_resbody t b).
Proof. intros s t b (B1 & B2 & B3 & B4 & (F & M & R1 & R2 & R3 & R4) & B6) R. unfold told. repeat (split; [assumption|]). split; [|exact B6]. unfold holds_bodies. cbn. auto 10. Qed.
Lemma abort_told : forall s t c, told s t -> told (Standing (ended (s_acc s) c) true (s_bodies s)) (abort_with_status c t).
Proof.
  intros s t c (B1 & B2 & B3 & B4 & B5 & B6). unfold told. cbn [s_acc s_over s_bodies ended k_phase k_reply]. split; [exact B1|]. split; [exact B2|]. split; [rewrite B3; reflexivity|]. split; [reflexivity|]. split; [exact B5|exact B6].
Qed.
Lemma result_told : forall s t, told s t -> fst (result t) = answer (k_reply (s_acc s)) /\
  told (Standing (if s_over s then s_acc s else fetched (s_acc s)) (s_over s) (s_bodies s)) (snd (result t)) /\ facts_of (snd (result t)) = facts_of t.
Proof.
  intros s t (B1 & B2 & B3 & B4 & B5 & B6). unfold result. cbn [fst snd]. change (get_iv (touch_iv t)) with (get_iv t). change (t_abort (touch_iv t)) with (t_abort t). split.
  - rewrite B3. unfold answer, reply_of. cbn [y_code y_lines y_denied]. destruct B6 as [S1 S2]. destruct (get_iv t) as [a1 a2 a3 a4 a5]. cbn in S1, S2 |- *. now subst a2 a3.
  - unfold told. cbn [s_acc s_over s_bodies]. rewrite B4. destruct (t_abort t) eqn:A; (split; [|reflexivity]).
    + split; [exact B1|]. split; [exact B2|]. split; [exact B3|]. split; [exact (eq_sym A)|]. split; [exact B5|exact B6].
    + cbn [fetched k_phase k_reply]. split; [exact B1|]. split; [exact B2|]. split; [rewrite B3; reflexivity|]. split; [exact (eq_sym A)|]. split; [exact B5|]. now split.
Qed.
Lemma step_run : forall f o s t, told s t ->
  match Engine.step f O e rs o t with
  | Ret (t', b) => exists s', goes O e rs (learns o (facts_of t)) o s s' b /\ told s' t' /\ facts_of t' = learns o (facts_of t)
  | Panic => goes_wrong O e rs (learns o (facts_of t)) o s
  | Timeout => True
  end.
Proof.
  intros f o s t TO. destruct (op_phase o) as [p|] eqn:OP.
  - pose proof (op_phase_range _ _ OP) as R. rewrite (step_phase _ _ _ _ _ _ p OP). pose proof (given_told o _ _ TO) as TG. pose proof (given_facts o t) as GF. rewrite <- GF. clear GF.
    remember (given o t) as u. unfold process_phase. destruct (Z.leb_spec p (t_phase u)) as [L|L]; cbn [bind].
    + exists s. split; [apply go_late with p; [exact OP|]; destruct TG as (B1 & _); now rewrite B1|auto].
    + assert (KL : k_phase (s_acc s) < p) by (destruct TG as (B1 & _); now rewrite B1).
      unfold process_phase_inner. change (t_abort (jump_to_phase p u)) with (t_abort u). destruct (t_abort u) eqn:A; cbn [bind].
      * exists (enters p s). split; [eapply go_over; [exact OP|exact KL|destruct TG as (_ & _ & _ & B4 & _); congruence]|]. split; [|reflexivity].
        destruct TG as (B1 & B2 & B3 & B4 & B5 & B6). unfold told. rewrite (jump_phase p u R). cbn [enters s_acc s_over s_bodies at_phase k_phase k_reply]. split; [reflexivity|]. split; [lia|]. split; [exact B3|]. split; [exact B4|]. split; [exact B5|exact B6].
      * destruct (enter_between rs p s u R TG A) as (BT & FE). destruct (entered_at rs p u ltac:(lia)) as (NX & _). rewrite NX.
        pose proof (loop_run O e rs p V R f f 0 _ _ BT) as W. rewrite FE in W. assert (OV : s_over s = false) by (destruct TG as (_ & _ & _ & B4 & _); congruence).
        destruct (phase_loop f f O e rs p 0 (entered rs p u)) as [t'| |]; cbn [bind]; [|eapply gw_phase; eassumption|exact I].
        destruct W as (s' & RU & TO' & FE'). exists s'. split; [eapply go_phase; eassumption|auto].
  - destruct o; try discriminate; cbn [Engine.step].
    + exists s. split; [apply go_url|]. split; [exact TO|reflexivity].
    + destruct (buf_write ft p (t_reqbody t)) as [[[b k] er]| |] eqn:W; cbn [bind]; [|apply gw_request|exact I].
      * exists (with_bodies s (req_body b (s_bodies s))). assert (HB := TO). destruct HB as (_ & _ & _ & _ & (_ & _ & R1 & _ & R3 & _) & _).
        split; [eapply go_request; rewrite R1; exact W|]. split; [apply request_told; [exact TO|eapply write_kept; [|exact W]; assumption]|reflexivity].
      * destruct TO as (_ & _ & _ & _ & (_ & _ & R1 & _ & R3 & _) & _). now rewrite R1.
    + destruct (buf_write ft p (t_resbody t)) as [[[b k] er]| |] eqn:W; cbn [bind]; [|apply gw_response|exact I].
      * exists (with_bodies s (res_body b (s_bodies s))). assert (HB := TO). destruct HB as (_ & _ & _ & _ & (_ & _ & _ & R1 & _ & R3) & _).
        split; [eapply go_response; rewrite R1; exact W|]. split; [apply response_told; [exact TO|eapply write_kept; [|exact W]; assumption]|reflexivity].
      * destruct TO as (_ & _ & _ & _ & (_ & _ & _ & R1 & _ & R3) & _). now rewrite R1.
    + destruct (result_told s t TO) as (E1 & E2 & E3). destruct (result t) as [i t']. cbn [fst snd] in *. subst i. eexists. split; [apply go_result|]. split; [exact E2|exact E3].
    + eexists. split; [apply go_abort|]. split; [now apply abort_told|reflexivity].
Qed.
Lemma step_complete : forall o s t s' b, told s t -> goes O e rs (learns o (facts_of t)) o s s' b ->
  exists f0 t', (forall f, (f0 <= f)%nat -> Engine.step f O e rs o t = Ret (t', b)) /\ told s' t' /\ facts_of t' = learns o (facts_of t).
Proof.
  intros o s t s' b TO H. pose proof (given_told o _ _ TO) as TG. pose proof (given_facts o t) as GF.
  assert (HB := TO). destruct HB as (_ & _ & _ & _ & (_ & _ & R1 & R2 & R3 & R4) & _).
  inversion H as [o' p s1 s2 OP L OV RU|o' p s1 OP L OV|o' p s1 OP L|u m pr s1|d ft s1 x k er W|d ft s1 x k er W|c s1|s1]; subst.
  - pose proof (op_phase_range _ _ OP) as R. assert (A : t_abort (given o t) = false) by (destruct TG as (_ & _ & _ & B4 & _); congruence).
    destruct (enter_between rs p s _ R TG A) as (BT & FE). destruct (entered_at rs p (given o t) ltac:(lia)) as (NX & _).
    destruct (loop_complete O e rs p V R _ _ _ RU _ _ BT ltac:(congruence)) as (f0 & t' & X & TO' & FE'). exists f0, t'. split; [|auto].
    intros f F. rewrite (step_phase _ _ _ _ _ _ p OP). unfold process_phase. destruct (Z.leb_spec p (t_phase (given o t))) as [Q|Q]; [destruct TG as (B1 & _); lia|].
    unfold process_phase_inner. change (t_abort (jump_to_phase p (given o t))) with (t_abort (given o t)). rewrite A, NX, X by lia. reflexivity.
  - pose proof (op_phase_range _ _ OP) as R. exists 0%nat, (jump_to_phase p (given o t)). split.
    + intros f _. rewrite (step_phase _ _ _ _ _ _ p OP). unfold process_phase. destruct (Z.leb_spec p (t_phase (given o t))) as [Q|Q]; [destruct TG as (B1 & _); lia|].
      unfold process_phase_inner. change (t_abort (jump_to_phase p (given o t))) with (t_abort (given o t)). assert (A : t_abort (given o t) = true) by (destruct TG as (_ & _ & _ & B4 & _); congruence). now rewrite A.
    + split; [|exact GF]. destruct TG as (B1 & B2 & B3 & B4 & B5 & B6). unfold told. rewrite (jump_phase p _ R). cbn [enters s_acc s_over s_bodies at_phase k_phase k_reply]. split; [reflexivity|]. split; [lia|]. split; [exact B3|]. split; [exact B4|]. split; [exact B5|exact B6].
  - exists 0%nat, (given o t). split; [|auto]. intros f _. rewrite (step_phase _ _ _ _ _ _ p OP). unfold process_phase. destruct (Z.leb_spec p (t_phase (given o t))) as [Q|Q]; [reflexivity|destruct TG as (B1 & _); lia].
  - exists 0%nat, (with_request t u m pr). split; [reflexivity|]. split; [exact TO|reflexivity].
  - rewrite R1 in W. exists 0%nat, (with_reqbody t x). split; [intros f _; cbn [Engine.step]; now rewrite W|]. split; [apply request_told; [exact TO|eapply write_kept; [|exact W]; assumption]|reflexivity].
  - rewrite R2 in W. exists 0%nat, (with_resbody t x). split; [intros f _; cbn [Engine.step]; now rewrite W|]. split; [apply response_told; [exact TO|eapply write_kept; [|exact W]; assumption]|reflexivity].
  - exists 0%nat, (abort_with_status c t). split; [reflexivity|]. split; [now apply abort_told|reflexivity].
  - destruct (result_told s t TO) as (E1 & E2 & E3). exists 0%nat, (snd (result t)). split; [|auto]. intros f _. cbn [Engine.step]. rewrite <- E1. now destruct (result t).
Qed.
Lemma step_break : forall o s t, told s t -> goes_wrong O e rs (learns o (facts_of t)) o s -> exists f0, forall f, (f0 <= f)%nat -> Engine.step f O e rs o t = Panic.
Proof.
  intros o s t TO H. pose proof (given_told o _ _ TO) as TG. pose proof (given_facts o t) as GF.
  assert (HB := TO). destruct HB as (_ & _ & _ & _ & (_ & _ & R1 & R2 & R3 & R4) & _).
  inversion H as [o' p s1 OP L OV RU|d ft s1 W|d ft s1 W]; subst.
  - pose proof (op_phase_range _ _ OP) as R. assert (A : t_abort (given o t) = false) by (destruct TG as (_ & _ & _ & B4 & _); congruence).
    destruct (enter_between rs p s _ R TG A) as (BT & FE). destruct (entered_at rs p (given o t) ltac:(lia)) as (NX & _).
    destruct (loop_break O e rs p V R _ _ RU _ _ BT ltac:(congruence)) as (f0 & X). exists f0.
    intros f F. rewrite (step_phase _ _ _ _ _ _ p OP). unfold process_phase. destruct (Z.leb_spec p (t_phase (given o t))) as [Q|Q]; [destruct TG as (B1 & _); lia|].
    unfold process_phase_inner. change (t_abort (jump_to_phase p (given o t))) with (t_abort (given o t)). rewrite A, NX, X by lia. reflexivity.
  - rewrite R1 in W. exists 0%nat. intros f _. cbn [Engine.step]. now rewrite W.
  - rewrite R2 in W. exists 0%nat. intros f _. cbn [Engine.step]. now rewrite W.
Qed.
(** ** A history *)
Lemma steps_run : forall f os s t, told s t ->
  match steps f O e rs os t with
  | Ret (t', l) => chronicle O e rs (facts_of t) s os l
  | Panic => breakdown O e rs (facts_of t) s os
  | Timeout => True
  end.
Proof.
  intros f os. induction os as [|o os IH]; intros s t TO; cbn [steps]; [constructor|]. pose proof (step_run f o s t TO) as W. destruct (Engine.step f O e rs o t) as [[t1 b]| |]; cbn [bind]; [|now apply bd_here|exact I].
  destruct W as (s1 & G & TO1 & FE). specialize (IH s1 t1 TO1). rewrite FE in IH. destruct (steps f O e rs os t1) as [[t2 l]| |]; cbn [bind]; [eapply ch_cons; eassumption|eapply bd_later; eassumption|exact I].
Qed.
Lemma steps_complete : forall x s os l, chronicle O e rs x s os l -> forall t, told s t -> facts_of t = x ->
  exists f0 t', forall f, (f0 <= f)%nat -> steps f O e rs os t = Ret (t', l).
Proof.
  intros x s os l H. induction H as [x s|x s o s1 b os l G H IH]; intros t TO FE.
  - exists 0%nat, t. reflexivity.
  - subst x. destruct (step_complete o s t s1 b TO G) as (f0 & t1 & X & TO1 & FE1). destruct (IH t1 TO1 FE1) as (f1 & t2 & Y). exists (f0 + f1)%nat, t2.
    intros f F. cbn [steps]. rewrite X by lia. cbn [bind]. rewrite Y by lia. reflexivity.
Qed.
Lemma steps_break : forall x s os, breakdown O e rs x s os -> forall t, told s t -> facts_of t = x -> exists f0, forall f, (f0 <= f)%nat -> steps f O e rs os t = Panic.
Proof.
  intros x s os H. induction H as [x s o os G|x s o s1 b os G H IH]; intros t TO FE; subst x.
  - destruct (step_break o s t TO G) as (f0 & X). exists f0. intros f F. cbn [steps]. now rewrite X.
  - destruct (step_complete o s t s1 b TO G) as (f0 & t1 & X & TO1 & FE1). destruct (IH t1 TO1 FE1) as (f1 & Y). exists (f0 + f1)%nat.
    intros f F. cbn [steps]. rewrite X by lia. cbn [bind]. rewrite Y by lia. reflexivity.
Qed.
End Calls.
Lemma start_told : forall e, told (start e) (new_txn e).
Proof.
  intro e. unfold told. split; [reflexivity|]. split; [vm_compute; discriminate|]. split; [reflexivity|]. split; [reflexivity|]. split; [|now split].
  unfold holds_bodies. cbn. repeat split; constructor.
Qed.
Lemma start_facts : forall e, facts_of (new_txn e) = no_facts.
Proof. reflexivity. Qed.

(** ** C94, C78, C32: every history is answered as the chronicle says, breaks down or hangs *)
Theorem C94_every_history : forall O e rs os l, ord_valid O ->
  ((exists f t, steps f O e rs os (new_txn e) = Ret (t, l)) <-> chronicle O e rs no_facts (start e) os l).
Proof.
  intros O e rs os l V. split.
  - intros (f & t & H). pose proof (steps_run O e rs V f os _ _ (start_told e)) as W. rewrite H in W. exact W.
  - intro H. destruct (steps_complete O e rs V _ _ _ _ H _ (start_told e) (start_facts e)) as (f & t & X). exists f, t. now apply X.
Qed.
(** Once answered, answered the same with any more time; the answers of a history are the only ones. *)
Theorem C94_every_history_settles : forall O e rs os l, ord_valid O -> chronicle O e rs no_facts (start e) os l ->
  exists f0 t, forall f, (f0 <= f)%nat -> steps f O e rs os (new_txn e) = Ret (t, l).
Proof. intros O e rs os l V H. exact (steps_complete O e rs V _ _ _ _ H _ (start_told e) (start_facts e)). Qed.
Theorem C94_every_history_unique : forall O e rs os l, ord_valid O -> chronicle O e rs no_facts (start e) os l ->
  (forall l', chronicle O e rs no_facts (start e) os l' -> l' = l) /\ ~ breakdown O e rs no_facts (start e) os.
Proof.
  intros O e rs os l V H. destruct (steps_complete O e rs V _ _ _ _ H _ (start_told e) (start_facts e)) as (f & t & X). split.
  - intros l' H'. destruct (steps_complete O e rs V _ _ _ _ H' _ (start_told e) (start_facts e)) as (f' & t' & X').
    specialize (X (f + f')%nat ltac:(lia)). specialize (X' (f + f')%nat ltac:(lia)). rewrite X in X'. apply Ret_inj in X'. now injection X' as _ <-.
  - intro H'. destruct (steps_break O e rs V _ _ _ H' _ (start_told e) (start_facts e)) as (f' & X').
    specialize (X (f + f')%nat ltac:(lia)). specialize (X' (f + f')%nat ltac:(lia)). congruence.
Qed.
Theorem C78_breaks_exactly : forall O e rs os, ord_valid O ->
  ((exists f, steps f O e rs os (new_txn e) = Panic) <-> breakdown O e rs no_facts (start e) os).
Proof.
  intros O e rs os V. split.
  - intros (f & H). pose proof (steps_run O e rs V f os _ _ (start_told e)) as W. rewrite H in W. exact W.
  - intro H. destruct (steps_break O e rs V _ _ _ H _ (start_told e) (start_facts e)) as (f & X). exists f. now apply X.
Qed.
Theorem C32_hangs_exactly : forall O e rs os, ord_valid O ->
  ((forall f, steps f O e rs os (new_txn e) = Timeout) <->
   (forall l, ~ chronicle O e rs no_facts (start e) os l) /\ ~ breakdown O e rs no_facts (start e) os).
Proof.
  intros O e rs os V. split.
  - intro H. split; [intros l C; apply (C94_every_history O e rs os l V) in C; destruct C as (f & t & C)|intro C; apply (C78_breaks_exactly O e rs os V) in C; destruct C as (f & C)]; now rewrite H in C.
  - intros (N1 & N2) f. pose proof (steps_run O e rs V f os _ _ (start_told e)) as W. destruct (steps f O e rs os (new_txn e)) as [[t l]| |]; [elim (N1 _ W)|elim (N2 W)|reflexivity].
Qed.

(** ** Cases *)
(** A form with a bad escape: the first rule that asks sees none, the second all the pairs that could be read. *)
Definition twice_rules : ruleset :=
  RuleSet [(3, [demo_rule 3 [VColl CArgsPost empty_filter] (OpRx (B "root")) [AStatus 401; ADeny] false [];
                demo_rule 3 [VColl CArgsPost empty_filter] (OpRx (B "root")) [AStatus 402; ADeny] false []])] [].
(** A body in a file, asked for twice in one rule: two lines in the log, and the later rule has no turn. *)
Definition large_rules : ruleset :=
  RuleSet [(3, [demo_rule 3 [VScalar SRequestBody; VScalar SRequestBody] (OpRx (B "root")) [APass] false [];
                demo_rule 3 [VScalar SRequestMethod] (OpRx (B "post")) [AStatus 402; ADeny] false []])] [].
Definition small_engine (rs : ruleset) : engine := Engine true false rs true true 134217728 4 524228.
(** The names of a form that is not there. *)
Definition names_rules : ruleset :=
  RuleSet [(3, [demo_rule 3 [VColl CArgsPost empty_filter] (OpRx (B "x")) [] false []; demo_rule 3 [VColl CArgsPostNames empty_filter] (OpRx (B "x")) [] false []])] [].
Example C94_every_history_example : let O := demo MpErr in
  chronicle O (demo_engine twice_rules) twice_rules no_facts (start (demo_engine twice_rules)) (body_calls "user=ROOT&a=%zz" ++ [OpRequestBody; OpResult])
    [ObsNone; ObsNone; ObsNone; ObsErr None; ObsNone;
     ObsResult (Intervention 402 0 None [B "[client :] (phase 3) ModSecurity: Access denied with code 403"] true)] /\
  chronicle O (small_engine large_rules) large_rules no_facts (start (small_engine large_rules)) (body_calls "user=ROOT" ++ [OpRequestBody; OpResult])
    [ObsNone; ObsNone; ObsNone; ObsErr None; ObsNone;
     ObsResult (Intervention 413 0 None [B "[client :] (phase 3) abort process with error out of memory limit"; B "[client :] (phase 3) abort process with error out of memory limit"] true)].
Proof.
  cbv zeta. split; (apply C94_every_history; [apply demo_ord|]; exists 9%nat; eexists; vm_compute; reflexivity).
Qed.
Example C78_breaks_exactly_example :
  let os := [OpRequestURL None (B "POST") []; OpRequestHeader [(B "Content-Type", [B "multipart/form-data"])]; OpAppendRequestBody (B "garbage") NoFault; OpRequestBody] in
  breakdown (demo MpErr) (demo_engine names_rules) names_rules no_facts (start (demo_engine names_rules)) os /\
  ~ breakdown (demo (MpOk [])) (demo_engine names_rules) names_rules no_facts (start (demo_engine names_rules)) os.
Proof.
  cbv zeta. split.
  - apply C78_breaks_exactly; [apply demo_ord|]. exists 9%nat. vm_compute. reflexivity.
  - eapply C94_every_history_unique; [apply demo_ord|]. apply C94_every_history; [apply demo_ord|]. exists 9%nat. eexists. vm_compute. reflexivity.
Qed.
(** A rule that allows in the last phase leads back to itself. *)
Example C32_hangs_exactly_example : let O := demo MpErr in let rs := RuleSet [(6, [demo_rule 6 [VScalar SRequestMethod] (OpRx []) [AAllow []] false []])] [] in
  let e := demo_engine rs in forall l, ~ chronicle O e rs no_facts (start e) [OpLogging] l /\ ~ breakdown O e rs no_facts (start e) [OpLogging].
Proof.
  cbv zeta. set (rs := RuleSet _ _). set (O := demo MpErr). set (e := demo_engine rs). set (t := new_txn e).
  set (t0 := entered rs 6 t). set (t1 := touch_iv t0).
  assert (ON : forall u, u = t0 \/ u = t1 -> forall d, 
     (t_phase u =? 6) && negb (0 =? StatusEndOfRules) = true /\
     exists u1, process_rule (S d) O e rs 6 0 u = Ret u1 /\ i_disruptive (get_iv (touch_iv u1)) = false /\ next_rule rs (touch_iv u1) = (0, t1)).
  { intros u [->| ->] d; (split; [vm_compute; reflexivity|]; eexists; split; [vm_compute; reflexivity|]; split; vm_compute; reflexivity). }
  assert (L : forall d n u, u = t0 \/ u = t1 -> phase_loop n (S d) O e rs 6 0 u = Timeout).
  { intros d. induction n as [|n IH]; intros u U; [reflexivity|]. cbn [phase_loop].
    destruct (ON u U d) as (E & u1 & R & D & NX). rewrite E, R. cbn [bind]. rewrite D, NX. apply IH. now right. }
  assert (H : forall f, steps f O e rs [OpLogging] (new_txn e) = Timeout).
  { intro f. destruct f as [|f]; [reflexivity|]. cbn [steps]. fold t. rewrite (step_phase (S f) O e rs OpLogging t 6 eq_refl).
    unfold process_phase, given. assert (Q : (6 <=? t_phase t) = false) by (vm_compute; reflexivity). rewrite Q. unfold process_phase_inner.
    assert (A : t_abort (jump_to_phase 6 t) = false) by (vm_compute; reflexivity). rewrite A.
    destruct (entered_at rs 6 t ltac:(lia)) as (NX & _). rewrite NX. fold t0. now rewrite L by now left. }
  apply C32_hangs_exactly in H; [|apply demo_ord]. destruct H as (H1 & H2). intro l. split; [apply H1|exact H2].
Qed.
Print Assumptions C94_every_history.
Print Assumptions C94_every_history_settles.
Print Assumptions C94_every_history_unique.
Print Assumptions C78_breaks_exactly.
Print Assumptions C32_hangs_exactly.
