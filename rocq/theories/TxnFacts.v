(** What processing a phase can do to a transaction. *)
From Verif Require Import Base BaseFacts GoStrings Utils Buffer BufferFacts Types Transforms Operators Transaction Variables Rules Engine
  SpecText NumFacts SpecVars VarFacts SpecRules PropText RuleFacts.
From Coq Require Import ZifyBool.

(** ** Actions that rules of a phase can execute *)
Definition listed (rs : ruleset) (p : Z) (a : action) : Prop :=
  exists r r', In r (phase_rules rs p) /\ In r' (r :: r_subs r) /\ In a (r_acts r').
Definition usable (rs : ruleset) (p : Z) (a : action) : Prop :=
  listed rs p a \/ (listed rs p ABlock /\ In a (rs_default rs)).

Lemma stable_in : forall as_ g a, stable_grouping as_ g -> In a g <-> In a as_.
Proof. intros as_ g a (P & _). split; apply Permutation_in; [now apply Permutation_sym|exact P]. Qed.
Lemma unfolds_in : forall d l x a, unfolds d l x -> In a x -> In a l \/ (In ABlock l /\ In a d).
Proof.
  intros d l x a H. induction H as [|b l l' N H IH|g l l1 l2 S H1 IH1 H2 IH2]; intro I; [easy| |].
  - destruct I as [->|I]; [left; now left|]. destruct (IH I) as [K|[K1 K2]]; [left|right]; simpl; auto.
  - apply in_app_iff in I as [I|I].
    + right. split; [now left|]. destruct (IH1 I) as [K|[_ K]]; [|exact K]. now apply (stable_in _ _ _ S).
    + destruct (IH2 I) as [K|[K1 K2]]; [left|right]; simpl; auto.
Qed.
Lemma unfolds_no_block : forall d l x, unfolds d l x -> ~ In ABlock x.
Proof.
  intros d l x H. induction H as [|b l l' N H IH|g l l1 l2 S H1 IH1 H2 IH2]; intro I; [easy| |].
  - destruct I as [->|I]; auto.
  - apply in_app_iff in I as [I|I]; auto.
Qed.
Lemma chain_no_block : forall d rr l, chain_actions d rr l -> ~ In ABlock l.
Proof.
  induction 1 as [|r rr l1 l2 (g & S & U) H IH]; intro I; [easy|]. apply in_app_iff in I as [I|I]; [|auto].
  now apply (unfolds_no_block _ _ _ U) in I.
Qed.
Lemma chain_in : forall d rr l a, chain_actions d rr l -> In a l ->
  (exists r, In r rr /\ In a (r_acts r)) \/ ((exists r, In r rr /\ In ABlock (r_acts r)) /\ In a d).
Proof.
  intros d rr l a H. induction H as [|r rr l1 l2 (g & S & U) H IH]; intro I; [easy|]. apply in_app_iff in I as [I|I].
  - destruct (unfolds_in _ _ _ _ U I) as [K|[K1 K2]].
    + left. exists r. split; [now left|]. now apply (stable_in _ _ _ S).
    + right. split; [|exact K2]. exists r. split; [now left|]. now apply (stable_in _ _ _ S).
  - destruct (IH I) as [(q & Q1 & Q2)|[(q & Q1 & Q2) Q3]]; [left|right; split; [|exact Q3]]; exists q; split; auto; now right.
Qed.
Lemma chain_usable : forall rs p r l a, In r (phase_rules rs p) -> chain_actions (rs_default rs) (r :: r_subs r) l ->
  In a l -> usable rs p a.
Proof.
  intros rs p r l a R C I. destruct (chain_in _ _ _ _ C I) as [(q & Q1 & Q2)|[(q & Q1 & Q2) Q3]]; [left|right; split; [|exact Q3]];
  exists r, q; auto.
Qed.

(** ** Everything that happens while a phase is processed *)
Inductive works (rs : ruleset) (p : Z) : txn -> txn -> Prop :=
| wk_refl : forall t, works rs p t t
| wk_trans : forall a b c, works rs p a b -> works rs p b c -> works rs p a c
| wk_touch : forall t t', touches t t' -> works rs p t t'
| wk_act : forall a t, t_abort t = false -> usable rs p a -> works rs p t (effect rs a t)
| wk_iv : forall t, works rs p t (touch_iv t)
| wk_next : forall t, works rs p t (snd (next_rule rs t)).

Lemma effect_abort : forall rs a t, t_abort (effect rs a t) = t_abort t.
Proof.
  intros rs a t. destruct a; try reflexivity; simpl.
  - unfold do_allow. destruct (bs_eqb arg []); [reflexivity|]. destruct (bs_eqb arg _); [reflexivity|]. now destruct (bs_eqb arg _).
  - unfold jump_to. now destruct (nrules rs (t_phase t) <=? t_cur t + 2).
Qed.
Lemma effects_works : forall rs p l t, t_abort t = false -> (forall a, In a l -> usable rs p a) -> works rs p t (effects rs l t).
Proof.
  intros rs p l. induction l as [|a l IH]; intros t A U; [apply wk_refl|].
  change (effects rs (a :: l) t) with (effects rs l (effect rs a t)).
  eapply wk_trans; [apply wk_act; [exact A|apply U; now left]|]. apply IH; [now rewrite effect_abort|]. intros b I. apply U. now right.
Qed.
Lemma do_rule_works : forall f O e rs p r t t', In r (phase_rules rs p) -> do_rule f O e rs r t = Ret t' -> works rs p t t'.
Proof.
  intros f O e rs p r t t' R H. apply do_rule_ret in H as [M|(t1 & l & A & C & ->)].
  - apply wk_touch. eapply some_miss_touches; eauto.
  - eapply wk_trans; [apply wk_touch; eapply all_match_touches; eauto|]. apply effects_works.
    + eapply all_match_no_abort; eauto. discriminate.
    + intros a I. eapply chain_usable; eauto.
Qed.
Lemma process_rule_works : forall f O e rs p i t t', process_rule f O e rs p i t = Ret t' -> works rs p t t'.
Proof.
  intros f O e rs p i t t' H. unfold process_rule in H. destruct (i <? nrules rs p); [|apply Ret_inj in H; subst; apply wk_refl].
  destruct (i <? 0); [discriminate|]. destruct (nth_error (phase_rules rs p) (Z.to_nat i)) as [r|] eqn:E; [|discriminate].
  apply nth_error_In in E. eapply do_rule_works; eauto.
Qed.
Lemma loop_works : forall d O e rs p f n t t', phase_loop f d O e rs p n t = Ret t' -> works rs p t t'.
Proof.
  induction f as [|f IH]; intros n t t' H; cbn [phase_loop] in H; [discriminate|].
  destruct ((t_phase t =? p) && negb (n =? StatusEndOfRules)); [|apply Ret_inj in H; subst; apply wk_refl].
  apply bind_Ret in H as (t1 & H1 & H). apply process_rule_works in H1.
  pose proof (wk_trans _ _ _ _ _ H1 (wk_iv rs p t1)) as W.
  destruct (i_disruptive (get_iv (touch_iv t1))); [apply Ret_inj in H; now subst|].
  pose proof (wk_next rs p (touch_iv t1)) as W2.
  destruct (next_rule rs (touch_iv t1)) as [m t3]. apply IH in H. eapply wk_trans; [exact W|]. eapply wk_trans; eauto.
Qed.
(** Processing a phase: nothing if it was reached before; otherwise go there and work. *)
Lemma phase_works : forall f O e rs p t t', process_phase f O e rs p t = Ret t' ->
  (p <= t_phase t /\ t' = t) \/
  (t_phase t < p /\ works rs p (jump_to_phase p t) t' /\ (t_abort t = true -> t' = jump_to_phase p t)).
Proof.
  intros f O e rs p t t' H. unfold process_phase in H. destruct (p <=? t_phase t) eqn:L; [left; apply Ret_inj in H; split; [lia|auto]|].
  right. split; [lia|]. unfold process_phase_inner in H. change (t_abort (jump_to_phase p t)) with (t_abort t) in H.
  destruct (t_abort t) eqn:A.
  - apply Ret_inj in H. subst. split; [apply wk_refl|auto].
  - split; [|discriminate]. pose proof (wk_next rs p (jump_to_phase p t)) as W.
    destruct (next_rule rs (jump_to_phase p t)) as [n t1]. apply loop_works in H. eapply wk_trans; eauto.
Qed.

(** ** What work leaves alone *)
Definition same_data (t t' : txn) : Prop :=
  request_part t' = request_part t /\ response_part t' = response_part t /\
  reads_ok (t_reqbody t) (t_reqbody t') /\ reads_ok (t_resbody t) (t_resbody t').
Lemma same_data_refl : forall t, same_data t t.
Proof. intro t. repeat split; apply reads_ok_refl. Qed.
Lemma same_data_trans : forall a b c, same_data a b -> same_data b c -> same_data a c.
Proof.
  intros a b c (A1 & A2 & A3 & A4) (B1 & B2 & B3 & B4). split; [congruence|]. split; [congruence|].
  split; eapply reads_ok_trans; eauto.
Qed.
Lemma frame_same_data : forall t t', frame t t' -> same_data t t'.
Proof. intros t t' (A & B & _ & C & D & _). now split. Qed.
Lemma with_pos_same : forall t a b c, same_data t (with_pos t a b c).
Proof. intros. repeat split; apply reads_ok_refl. Qed.
Lemma effect_same : forall rs a t, same_data t (effect rs a t).
Proof.
  intros rs a t. destruct a; simpl; try (repeat split; apply reads_ok_refl).
  - unfold do_allow. destruct (bs_eqb arg []); [apply with_pos_same|]. destruct (bs_eqb arg _); [apply with_pos_same|].
    destruct (bs_eqb arg _); [apply with_pos_same|apply same_data_refl].
  - unfold jump_to. destruct (nrules rs (t_phase t) <=? t_cur t + 2); apply with_pos_same.
Qed.
Lemma next_same : forall rs t, same_data t (snd (next_rule rs t)).
Proof. intros rs t. unfold next_rule. destruct (t_next t =? StatusEndOfRules); apply with_pos_same. Qed.
Lemma works_same : forall rs p t t', works rs p t t' -> same_data t t'.
Proof.
  induction 1; eauto using same_data_refl, same_data_trans, effect_same, next_same.
  - apply frame_same_data, touches_frame. assumption.
  - repeat split; apply reads_ok_refl.
Qed.

(** ** Abort and intervention *)
(** Status 200 unless disruptive; always an HTTP status or otherwise [ok]; aborted is disruptive. *)
Definition sound_iv (ok : Z -> Prop) (t : txn) : Prop :=
  (i_disruptive (get_iv t) = false -> i_status (get_iv t) = 200) /\
  (100 <= i_status (get_iv t) <= 599 \/ ok (i_status (get_iv t))) /\
  (t_abort t = true -> i_disruptive (get_iv t) = true).
Lemma touches_sound : forall ok t t', touches t t' -> sound_iv ok t -> sound_iv ok t'.
Proof.
  intros ok t t' H S. apply touches_iv in H as [[A V]|(A & st & ms & SS & V)].
  - unfold sound_iv, get_iv in *. now rewrite A, V.
  - unfold sound_iv, get_iv in *. rewrite A, V. simpl. split; [discriminate|]. split; [left; lia|auto].
Qed.
Lemma deny_status_ok : forall d, 100 <= deny_status d <= 599.
Proof. intros [x|]; unfold deny_status; simpl; [destruct ((100 <=? x) && (x <=? 599)) eqn:E|]; lia. Qed.
Lemma effect_sound : forall ok rs a t, t_abort t = false -> sound_iv ok t -> sound_iv ok (effect rs a t).
Proof.
  intros ok rs a t A (S1 & S2 & S3). destruct a; unfold sound_iv; simpl.
  - split; [discriminate|]. rewrite A. split; [|discriminate].
    destruct (i_status (get_iv t) =? 200); [left; apply deny_status_ok|exact S2].
  - unfold do_allow. destruct (bs_eqb arg []); [now split|]. destruct (bs_eqb arg _); [now split|].
    destruct (bs_eqb arg _); now split.
  - now split.
  - now split.
  - rewrite A. split; [reflexivity|]. split; [left; lia|discriminate].
  - unfold jump_to. destruct (nrules rs (t_phase t) <=? t_cur t + 2); now split.
  - now split.
Qed.
Lemma works_sound : forall ok rs p t t', works rs p t t' -> sound_iv ok t -> sound_iv ok t'.
Proof.
  induction 1; auto.
  - now apply touches_sound.
  - now apply effect_sound.
  - unfold next_rule. now destruct (t_next t =? StatusEndOfRules).
Qed.

(** ** Log entries *)
Definition entry (s : txn) (l : bs) : Prop :=
  exists n msg, l = B "[client " ++ t_srcip s ++ B ":" ++ t_srcport s ++ B "] (phase " ++ n ++ B ") " ++ msg /\
    decimal n (t_phase s).
Lemma prefix_entry : forall t m, entry t (log_prefix t ++ m).
Proof.
  intros t m. exists (itoa (t_phase t)), m. split; [|apply itoa_decimal]. unfold log_prefix. now rewrite !app_assoc.
Qed.
Lemma works_logs : forall rs p t t', works rs p t t' -> forall l, In l (i_log (get_iv t')) ->
  In l (i_log (get_iv t)) \/ exists s, works rs p t s /\ works rs p s t' /\ entry s l.
Proof.
  induction 1 as [t|a b c H1 IH1 H2 IH2|t t' H|a t A U|t|t]; intros l I.
  - auto.
  - destruct (IH2 l I) as [J|(s & S1 & S2 & E)].
    + destruct (IH1 l J) as [K|(s & S1 & S2 & E)]; [auto|]. right. exists s. split; [exact S1|]. split; [eapply wk_trans; eauto|exact E].
    + right. exists s. split; [eapply wk_trans; eauto|]. auto.
  - destruct (touches_iv _ _ H) as [[_ V]|(_ & st & ms & _ & V)].
    + left. unfold get_iv in *. now rewrite V in I.
    + unfold get_iv at 1 in I. rewrite V in I. simpl in I. apply in_app_iff in I as [I|I]; [auto|].
      apply in_map_iff in I as (m & <- & _). right. exists t. split; [apply wk_refl|]. split; [now apply wk_touch|]. apply prefix_entry.
  - assert (W : works rs p t (effect rs a t)) by now apply wk_act.
    assert (G : forall x m, In l (x ++ [log_prefix t ++ m]) -> x = i_log (get_iv t) ->
       In l (i_log (get_iv t)) \/ exists s, works rs p t s /\ works rs p s (effect rs a t) /\ entry s l).
    { intros x m J ->. apply in_app_iff in J as [J|[<-|[]]]; [auto|]. right. exists t.
      split; [apply wk_refl|]. split; [exact W|apply prefix_entry]. }
    destruct a; simpl in I; auto.
    + eapply (G _ _ I). reflexivity.
    + unfold do_allow in I. destruct (bs_eqb arg []); [auto|]. destruct (bs_eqb arg _); [auto|]. destruct (bs_eqb arg _); auto.
    + eapply (G _ _ I). reflexivity.
    + easy.
    + unfold jump_to in I. destruct (nrules rs (t_phase t) <=? t_cur t + 2); auto.
  - auto.
  - left. unfold next_rule in I. now destruct (t_next t =? StatusEndOfRules).
Qed.

(** ** Phases never go back *)
Definition no_back (rs : ruleset) (p : Z) : Prop := usable rs p (AAllow (B "request")) -> p <= 4.
Lemma works_phase : forall rs p t t', 1 <= p <= 6 -> no_back rs p -> works rs p t t' -> p <= t_phase t <= 7 -> p <= t_phase t' <= 7.
Proof.
  intros rs p t t' P N. induction 1 as [t|a b c H1 IH1 H2 IH2|t t' H|a t A U|t|t]; intro G; auto.
  - apply touches_frame in H as (_ & _ & H & _). unfold position in H. injection H as H _ _ _. lia.
  - destruct a; simpl; auto.
    + unfold do_allow. destruct (bs_eqb_spec arg []) as [->|Q1]; [simpl; unfold PhaseLogging; lia|].
      destruct (bs_eqb_spec arg (B "phase")) as [->|Q2].
      * unfold next_phase, jump_to_phase, PhaseBegin, PhaseEnd. simpl.
        destruct (t_phase t + 1 <? 0) eqn:E1; [lia|]. destruct (7 <=? t_phase t + 1) eqn:E2; lia.
      * destruct (bs_eqb_spec arg (B "request")) as [->|Q3]; [|exact G]. apply N in U. simpl. unfold PhaseResponseHeaders. lia.
    + unfold jump_to. now destruct (nrules rs (t_phase t) <=? t_cur t + 2).
  - unfold next_rule. now destruct (t_next t =? StatusEndOfRules).
Qed.
