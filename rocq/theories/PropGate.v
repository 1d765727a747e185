(** Property theorems C76-C78: rule sets that only deny. *)
From Verif Require Import Base BaseFacts GoStrings Utils Buffer BufferFacts Types Transforms Operators Transaction Variables Rules Engine
  SpecText NumFacts SpecVars VarText VarFacts SpecRules PropText PropVars RuleFacts OrderFacts TxnFacts SpecTxn LoopFacts Witness PropRules PropPhases PropTxn
  SpecData PropData SpecGate.
From Coq Require Import ZifyBool.

(** ** Looking at variables other than bodies *)
Definition alike (t u : txn) : Prop := request_part u = request_part t /\ response_part u = response_part t.
Lemma alike_refl : forall t, alike t t.
Proof. now split. Qed.
Lemma alike_sym : forall t u, alike t u -> alike u t.
Proof. intros t u [A B]. now split. Qed.
Lemma alike_trans : forall a b c, alike a b -> alike b c -> alike a c.
Proof. intros a b c [A B] [C D]. split; congruence. Qed.
Lemma same_alike : forall t u, same_data t u -> alike t u.
Proof. intros t u (A & B & _). now split. Qed.
Lemma touches_alike : forall t u, touches t u -> alike t u.
Proof. intros t u H. apply touches_frame in H as (A & B & _). now split. Qed.

Lemma steady_fetch : forall O e v, ord_valid O -> looks_at_body v = false -> forall t u, alike t u ->
  exists t1 a u1 b, fetch O e v t = Ret (t1, a) /\ fetch O e v u = Ret (u1, b) /\ Permutation a b /\ t_abort t1 = t_abort t.
Proof.
  intros O e v V. induction v as [c f|s|g p|g p|v IH]; intros L t u [A B]; try discriminate.
  - unfold request_part in A. unfold response_part in B. injection A as A1 A2 A3 A4 A5 A6 A7 A8. injection B as B1 B2 B3.
    assert (PF : forall m, exists t1 a u1 b, Ret (filter_fetch O f m t) = Ret (t1, a) /\ Ret (filter_fetch O f m u) = Ret (u1, b) /\ Permutation a b /\ t_abort t1 = t_abort t).
    { intro m. eexists _, _, _, _. split; [reflexivity|]. split; [reflexivity|]. split; [|reflexivity].
      eapply Permutation_trans; [apply Permutation_flat_map, V|]. apply Permutation_sym, Permutation_flat_map, V. }
    assert (PN : forall m, exists t1 a u1 b, Ret (filter_names O f m t) = Ret (t1, a) /\ Ret (filter_names O f m u) = Ret (u1, b) /\ Permutation a b /\ t_abort t1 = t_abort t).
    { intro m. eexists _, _, _, _. split; [reflexivity|]. split; [reflexivity|]. split; [|reflexivity].
      eapply Permutation_trans; [apply Permutation_map, V|]. apply Permutation_sym, Permutation_map, V. }
    destruct c; try discriminate L; cbn [fetch fetch_coll]; rewrite ?A5, ?A8, ?B3; try apply PF; try apply PN;
    destruct (t_url t); try apply PF; try apply PN; eexists _, _, _, _; (split; [reflexivity|]); (split; [reflexivity|]); split; constructor.
  - unfold request_part in A. unfold response_part in B. injection A as A1 A2 A3 A4 A5 A6 A7 A8. injection B as B1 B2 B3.
    destruct s; try discriminate L; cbn [fetch fetch_scalar]; rewrite ?A1, ?A5, ?A6, ?A7, ?B1, ?B2, ?B3;
    try (destruct (t_url t)); try (destruct (header_get _ _)); eexists _, _, _, _; (split; [reflexivity|]); (split; [reflexivity|]); split; auto.
  - destruct (IH L t u (conj A B)) as (t1 & a & u1 & b & F1 & F2 & P & E). cbn [fetch]. rewrite F1, F2. cbn [bind].
    eexists _, _, _, _. split; [reflexivity|]. split; [reflexivity|]. split; [|exact E]. rewrite (Permutation_length P). apply Permutation_refl.
Qed.
Lemma matches_alike : forall O e t u q, ord_valid O -> (forall v, In v (r_vars q) -> looks_at_body v = false) -> alike t u ->
  rule_matches O e t q -> rule_matches O e u q.
Proof.
  intros O e t u q V L A (v & t' & vs & x & I & F & X & H). destruct (steady_fetch O e v V (L v I) t u A) as (t1 & a & u1 & b & F1 & F2 & P & _).
  rewrite F in F1. apply Ret_inj in F1. injection F1 as <- <-. exists v, u1, b, x. split; [exact I|]. split; [exact F2|]. split; [|exact H].
  eapply Permutation_in; eauto.
Qed.
Lemma steady_fetched : forall O e vs t t' raw, ord_valid O -> (forall v, In v vs -> looks_at_body v = false) -> fetched O e vs t t' raw ->
  t_abort t' = t_abort t /\ alike t t' /\
  forall x, In x raw <-> exists v t1 a, In v vs /\ fetch O e v t = Ret (t1, a) /\ In x a.
Proof.
  intros O e vs t t' raw V L F. induction F as [|v vs t t1 t2 a b Hv Hvs IH].
  - split; [reflexivity|]. split; [apply alike_refl|]. intro x. split; [intros []|intros (v & _ & _ & [] & _)].
  - destruct (IH (fun w I => L w (or_intror I))) as (A2 & K2 & X2).
    destruct (steady_fetch O e v V (L v (or_introl eq_refl)) t t (alike_refl t)) as (t1' & a' & _ & _ & F1 & _ & _ & AB).
    rewrite Hv in F1. apply Ret_inj in F1. injection F1 as <- <-.
    assert (K1 : alike t t1) by (apply touches_alike; eapply th_fetch; eauto).
    split; [congruence|]. split; [eapply alike_trans; eauto|]. intro x. rewrite in_app_iff, X2. split.
    + intros [I|(w & t3 & c & I & F & Ic)]; [exists v, t1, a; simpl; auto|].
      destruct (steady_fetch O e w V (L w (or_intror I)) t1 t (alike_sym _ _ K1)) as (u1 & d & u2 & d2 & F1 & F2 & P & _).
      rewrite F in F1. apply Ret_inj in F1. injection F1 as <- <-. exists w, u2, d2. split; [now right|]. split; [exact F2|]. eapply Permutation_in; eauto.
    + intros (w & t3 & c & [<-|I] & F & Ic).
      * left. rewrite Hv in F. apply Ret_inj in F. injection F as _ <-. exact Ic.
      * right. destruct (steady_fetch O e w V (L w (or_intror I)) t t1 K1) as (u1 & d & u2 & d2 & F1 & F2 & P & _).
        rewrite F in F1. apply Ret_inj in F1. injection F1 as <- <-. exists w, u2, d2. split; [exact I|]. split; [exact F2|]. eapply Permutation_in; eauto.
Qed.
Lemma steady_evals : forall O e q t t' m, ord_valid O -> (forall v, In v (r_vars q) -> looks_at_body v = false) -> t_abort t = false ->
  evals O e q t t' m -> t_abort t' = false /\ alike t t' /\ (m = true <-> rule_matches O e t q).
Proof.
  intros O e q t t' m V L A E. unfold evals in E. destruct (C25_match_iff_some_value_hits _ _ _ _ _ _ E) as (raw & F & M & _).
  destruct (steady_fetched O e (r_vars q) t t' raw V L F) as (A' & K & X). rewrite A' in M. specialize (M A).
  split; [congruence|]. split; [exact K|]. rewrite M. split.
  - intros (x & I & H). apply X in I as (v & t1 & a & I & F1 & Ia). exists v, t1, a, x. auto.
  - intros (v & t1 & a & x & I & F1 & Ia & H). exists x. split; [apply X; exists v, t1, a; auto|exact H].
Qed.
Lemma steady_all : forall O e rr t t', ord_valid O -> (forall q v, In q rr -> In v (r_vars q) -> looks_at_body v = false) -> t_abort t = false ->
  all_match O e rr t t' -> t_abort t' = false /\ forall q, In q rr -> rule_matches O e t q.
Proof.
  intros O e rr t t' V L A M. induction M as [|r rr t t1 t2 E M IH]; [split; [exact A|intros q []]|].
  destruct (steady_evals _ _ _ _ _ _ V (fun v => L r v (or_introl eq_refl)) A E) as (A1 & K & X).
  destruct (IH (fun q v I => L q v (or_intror I)) A1) as (A2 & Y). split; [exact A2|]. intros q [<-|I]; [now apply X|].
  eapply matches_alike; [exact V|intros v; apply L; now right|apply alike_sym; exact K|]. now apply Y.
Qed.
Lemma steady_miss : forall O e rr t t', ord_valid O -> (forall q v, In q rr -> In v (r_vars q) -> looks_at_body v = false) -> t_abort t = false ->
  some_miss O e rr t t' -> t_abort t' = false /\ exists q, In q rr /\ ~ rule_matches O e t q.
Proof.
  intros O e rr t t' V L A M. induction M as [r rr t t1 E|r rr t t1 t2 E M IH].
  - destruct (steady_evals _ _ _ _ _ _ V (fun v => L r v (or_introl eq_refl)) A E) as (A1 & K & X). split; [exact A1|]. exists r. split; [now left|].
    intro Y. apply X in Y. discriminate.
  - destruct (steady_evals _ _ _ _ _ _ V (fun v => L r v (or_introl eq_refl)) A E) as (A1 & K & X).
    destruct (IH (fun q v I => L q v (or_intror I)) A1) as (A2 & q & I & Y). split; [exact A2|]. exists q. split; [now right|]. intro Z. apply Y.
    eapply matches_alike; [exact V|intros v; apply L; now right|exact K|exact Z].
Qed.

(** ** Actions that lead to a denial *)
Lemma unfolds_deny : forall d l x, unfolds d l x -> In ADeny l \/ (In ABlock l /\ In ADeny d) -> In ADeny x.
Proof.
  intros d l x H. induction H as [|b l l' N H IH|g l l1 l2 S H1 IH1 H2 IH2]; intros [I|[I J]].
  - easy.
  - easy.
  - destruct I as [->|I]; [now left|right; auto].
  - destruct I as [->|I]; [easy|right; auto].
  - destruct I as [I|I]; [discriminate|]. apply in_app_iff. right. auto.
  - apply in_app_iff. left. apply IH1. left. now apply (stable_in _ _ _ S).
Qed.
Lemma chain_deny : forall d rr l, chain_actions d rr l ->
  (exists q, In q rr /\ (In ADeny (r_acts q) \/ (In ABlock (r_acts q) /\ In ADeny d))) <-> In ADeny l.
Proof.
  intros d rr l H. induction H as [|r rr l1 l2 (g & S & U) H IH].
  - split; [intros (q & [] & _)|intros []].
  - rewrite in_app_iff, <- IH. split.
    + intros (q & [<-|I] & D); [left|right; eauto]. eapply unfolds_deny; [exact U|]. rewrite !(stable_in _ _ _ S). exact D.
    + intros [I|(q & I & D)]; [|exists q; split; [now right|exact D]]. exists r. split; [now left|].
      apply (unfolds_in _ _ _ _ U) in I. now rewrite !(stable_in _ _ _ S) in I.
Qed.
Lemma deny_dec : forall l, {In ADeny l} + {~ In ADeny l}.
Proof.
  induction l as [|b l [I|I]]; [right; intros []|left; now right|].
  destruct b; try (right; intros [X|X]; [discriminate|auto]). left. now left.
Qed.
Lemma deny_disruptive : forall rs l t, In ADeny l -> ~ In APass l -> i_disruptive (get_iv (effects rs l t)) = true.
Proof.
  intros rs l t I N. apply in_split in I as (a & b & ->). rewrite effects_app. change (ADeny :: b) with ([ADeny] ++ b). rewrite effects_app.
  apply effects_disruptive; [intro J; apply N, in_app_iff; right; now right|]. cbn. unfold do_deny. reflexivity.
Qed.
Lemma no_deny_disruptive : forall rs l t, ~ In ADeny l -> i_disruptive (get_iv (effects rs l t)) = true -> i_disruptive (get_iv t) = true.
Proof.
  intros rs l. induction l as [|a l IH]; intros t N D; [exact D|].
  change (effects rs (a :: l) t) with (effects rs l (effect rs a t)) in D. apply IH in D; [|intro I; apply N; now right].
  destruct a; simpl in D; auto.
  - elim N. now left.
  - unfold do_allow in D. destruct (bs_eqb arg []); [exact D|]. destruct (bs_eqb arg (B "phase")); [exact D|]. destruct (bs_eqb arg (B "request")); exact D.
  - discriminate.
  - unfold jump_to in D. destruct (nrules rs (t_phase t) <=? t_cur t + 2); exact D.
Qed.

(** ** C76 *)
Lemma effects_alike : forall rs l t, alike t (effects rs l t) /\ t_abort (effects rs l t) = t_abort t.
Proof.
  intros rs l. induction l as [|a l IH]; intro t; [split; [apply alike_refl|reflexivity]|].
  change (effects rs (a :: l) t) with (effects rs l (effect rs a t)). destruct (IH (effect rs a t)) as [K A]. split.
  - eapply alike_trans; [apply same_alike, effect_same|exact K].
  - rewrite A. apply effect_abort.
Qed.
Lemma chain_steady : forall rs p r, gate rs p -> In r (phase_rules rs p) ->
  forall q v, In q (r :: r_subs r) -> In v (r_vars q) -> looks_at_body v = false.
Proof. intros rs p r [_ G] I q v. eapply G; eauto. Qed.
Lemma matches_chain : forall O e t u rs p r, ord_valid O -> gate rs p -> In r (phase_rules rs p) -> alike t u ->
  chain_matches O e t r -> chain_matches O e u r.
Proof. intros O e t u rs p r V G I K M q Q. eapply matches_alike; [exact V|intros v; eapply chain_steady; eauto|exact K|]. now apply M. Qed.
Lemma iv_all : forall O e rr t t', t_abort t' = false -> all_match O e rr t t' -> i_disruptive (get_iv t') = i_disruptive (get_iv t).
Proof.
  intros O e rr t t' A M. destruct (touches_iv _ _ (all_match_touches _ _ _ _ _ M)) as [[_ V]|(X & _)]; [unfold get_iv; now rewrite V|].
  congruence.
Qed.
Lemma iv_miss : forall O e rr t t', t_abort t' = false -> some_miss O e rr t t' -> i_disruptive (get_iv t') = i_disruptive (get_iv t).
Proof.
  intros O e rr t t' A M. destruct (touches_iv _ _ (some_miss_touches _ _ _ _ _ M)) as [[_ V]|(X & _)]; [unfold get_iv; now rewrite V|].
  congruence.
Qed.
Lemma gate_rule : forall d O e rs p i t t', ord_valid O -> gate rs p -> t_abort t = false -> process_rule d O e rs p i t = Ret t' ->
  t_abort t' = false /\ alike t t' /\
  (i_disruptive (get_iv t') = true <-> i_disruptive (get_iv t) = true \/
     exists r, 0 <= i /\ nth_error (phase_rules rs p) (Z.to_nat i) = Some r /\ denies rs r /\ chain_matches O e t r).
Proof.
  intros d O e rs p i t t' V G A H.
  apply process_rule_cases in H as [[L ->]|[R [(r & Z0 & N & M)|(l & r & t1 & Z0 & N & M & CA & ->)]]].
  - split; [exact A|]. split; [apply alike_refl|]. split; [auto|]. intros [D|(r & Z0 & N & _)]; [exact D|].
    apply nth_error_Some_lt in N. unfold nrules in L. lia.
  - assert (I : In r (phase_rules rs p)) by (eapply nth_error_In; eauto).
    destruct (steady_miss _ _ _ _ _ V (chain_steady _ _ _ G I) A M) as (A' & q & Q & X).
    split; [exact A'|]. split; [apply touches_alike; eapply some_miss_touches; eauto|]. rewrite (iv_miss _ _ _ _ _ A' M).
    split; [auto|]. intros [D|(r' & _ & N' & _ & C)]; [exact D|]. assert (r' = r) by congruence. subst. elim X. now apply C.
  - assert (I : In r (phase_rules rs p)) by (eapply nth_error_In; eauto).
    destruct (steady_all _ _ _ _ _ V (chain_steady _ _ _ G I) A M) as (A' & X).
    destruct (effects_alike rs l t1) as [K AB].
    split; [congruence|]. split; [eapply alike_trans; [apply touches_alike; eapply all_match_touches; eauto|exact K]|].
    assert (NP : ~ In APass l).
    { intro P. destruct G as [G _]. destruct (G APass) as (_ & Y & _); [|easy]. eapply chain_usable; eauto. }
    rewrite <- (iv_all _ _ _ _ _ A' M). split.
    + intro D. destruct (deny_dec l) as [Y|Y].
      * right. exists r. split; [lia|]. split; [exact N|]. split; [|exact X]. now apply (chain_deny _ _ _ CA).
      * left. eapply no_deny_disruptive; eauto.
    + intros [D|(r' & _ & N' & DN & _)]; [now apply effects_disruptive|]. assert (r' = r) by congruence. subst.
      apply deny_disruptive; [|exact NP]. now apply (chain_deny _ _ _ CA).
Qed.
Lemma next_alike : forall rs t n t', next_rule rs t = (n, t') -> alike t t'.
Proof. intros rs t n t' H. unfold next_rule in H. destruct (t_next t =? StatusEndOfRules); injection H as _ <-; now split. Qed.
Lemma gate_visits : forall d O e rs p n t l t', ord_valid O -> gate rs p -> visits d O e rs p n t l t' -> t_abort t = false ->
  t_abort t' = false /\
  (i_disruptive (get_iv t') = true <-> i_disruptive (get_iv t) = true \/
     exists i u u1 r, In (i, u, u1) l /\ 0 <= i /\ nth_error (phase_rules rs p) (Z.to_nat i) = Some r /\ denies rs r /\ chain_matches O e t r).
Proof.
  intros d O e rs p n t l t' V G H. induction H as [n t X|n t t1 E N R D|n t t1 m t2 l t' E N R D NX H IH]; intro A.
  - split; [exact A|]. split; [auto|]. intros [D|(i & u & u1 & r & [] & _)]; exact D.
  - destruct (gate_rule _ _ _ _ _ _ _ _ V G A R) as (A1 & K & X). split; [exact A1|]. change (get_iv (touch_iv t1)) with (get_iv t1).
    rewrite X. split.
    + intros [Y|(r & Z0 & Y)]; [now left|]. right. exists n, t, t1, r. split; [now left|]. auto.
    + intros [Y|(i & u & u1 & r & [Q|[]] & Z0 & Y)]; [now left|]. injection Q as <- <- <-. right. eauto.
  - destruct (gate_rule _ _ _ _ _ _ _ _ V G A R) as (A1 & K & X).
    destruct (next_phase_same _ _ _ _ NX) as (_ & IV & AB). destruct (IH ltac:(now rewrite AB)) as (A2 & Y). split; [exact A2|].
    assert (K2 : alike t t2) by (eapply alike_trans; [exact K|]; eapply alike_trans; [|eapply next_alike; eauto]; now split).
    assert (D2 : i_disruptive (get_iv t2) = false) by (unfold get_iv in *; rewrite IV; exact D).
    rewrite Y, D2. split.
    + intros [Q|(i & u & u1 & r & I & Z0 & NT & DN & C)]; [discriminate|]. right. exists i, u, u1, r. split; [now right|]. split; [exact Z0|].
      split; [exact NT|]. split; [exact DN|]. eapply matches_chain; [exact V|exact G|eapply nth_error_In; eauto|apply alike_sym; exact K2|exact C].
    + intros [Q|(i & u & u1 & r & I & Z0 & NT & DN & C)].
      * assert (i_disruptive (get_iv t1) = true) by (apply X; now left). congruence.
      * destruct I as [Q|I].
        -- injection Q as <- <- <-. assert (i_disruptive (get_iv t1) = true) by (apply X; right; eauto). congruence.
        -- right. exists i, u, u1, r. repeat (split; [assumption|]). eapply matches_chain; [exact V|exact G|eapply nth_error_In; eauto|exact K2|exact C].
Qed.
(** A phase of rules that only deny: the transaction is denied afterwards exactly if it
    was before or some denying rule matches the data as the phase found it. *)
Theorem C76_denied_iff_some_rule_matches : forall f O e rs p t t',
  ord_valid O -> 1 <= p <= 6 -> gate rs p -> t_phase t < p -> t_abort t = false ->
  process_phase f O e rs p t = Ret t' ->
  t_abort t' = false /\
  (i_disruptive (get_iv t') = true <-> i_disruptive (get_iv t) = true \/ denied_by O e rs p t).
Proof.
  intros f O e rs p t t' V P G L A H. destruct (phase_run _ _ _ _ _ _ _ P L A H) as (l & VS).
  destruct (entered_at rs p t ltac:(lia)) as (NX & E & _). destruct (next_phase_same _ _ _ _ NX) as (_ & IV & AB).
  assert (K : alike t (entered rs p t)) by (eapply alike_trans; [|eapply next_alike; eauto]; now split).
  assert (AE : t_abort (entered rs p t) = false) by (rewrite AB; exact A).
  assert (DE : i_disruptive (get_iv (entered rs p t)) = i_disruptive (get_iv t)) by (unfold get_iv; rewrite IV; reflexivity).
  destruct (gate_visits _ _ _ _ _ _ _ _ _ V G VS AE) as (A' & X). split; [exact A'|]. rewrite DE in X. split.
  - intro D. apply X in D as [D|(i & u & u1 & r & _ & _ & NT & DN & C)]; [now left|]. right. exists r.
    split; [eapply nth_error_In; eauto|]. split; [exact DN|]. eapply matches_chain; [exact V|exact G|eapply nth_error_In; eauto|apply alike_sym; exact K|exact C].
  - intros [D|(r & I & DN & C)]; [apply X; now left|]. destruct (i_disruptive (get_iv t')) eqn:D; [reflexivity|exfalso].
    destruct (C31_every_rule_evaluated_partial f O e rs p t t' P ltac:(intros a U; destruct G as [G _]; apply G in U; tauto) L A H D) as (l2 & V2 & IX).
    destruct (gate_visits _ _ _ _ _ _ _ _ _ V G V2 AE) as (_ & X2). rewrite D in X2.
    enough (false = true) by discriminate. apply X2. right. apply In_nth_error in I as (k & NT).
    assert (LK : (k < length (phase_rules rs p))%nat) by (apply nth_error_Some; congruence).
    assert (IK : In (Z.of_nat k) (map index l2)) by (rewrite IX; apply in_map, in_seq; clear -LK; lia).
    apply in_map_iff in IK as ([[i u] u1] & Q & IN). unfold index in Q. cbn [fst] in Q. subst i.
    exists (Z.of_nat k), u, u1, r. split; [exact IN|]. split; [apply Nat2Z.is_nonneg|]. rewrite Nat2Z.id. split; [exact NT|]. split; [exact DN|].
    eapply matches_chain; [exact V|exact G|eapply nth_error_In; eauto|exact K|exact C].
Qed.

(** ** C77 *)
Lemma given_alike : forall o t u, alike t u -> alike (given o t) (given o u).
Proof.
  intros o t u [A B]. unfold request_part in A. unfold response_part in B. injection A as A1 A2 A3 A4 A5 A6 A7 A8. injection B as B1 B2 B3.
  destruct o; split; unfold request_part, response_part; simpl; congruence.
Qed.
Lemma phase_alike : forall f O e rs p t t', process_phase f O e rs p t = Ret t' -> alike t t'.
Proof.
  intros f O e rs p t t' H. apply phase_works in H as [[_ ->]|(_ & W & _)]; [apply alike_refl|].
  apply works_same, same_alike in W. eapply alike_trans; [|exact W]. now split.
Qed.
Lemma brought_app : forall a b t, brought (a ++ b) t = brought b (brought a t).
Proof. intros. apply fold_left_app. Qed.
Lemma gate_phase : forall f O e rs p t t', 1 <= p <= 6 -> ord_valid O -> gate rs p -> t_abort t = false -> process_phase f O e rs p t = Ret t' ->
  t_phase t' = Z.max p (t_phase t).
Proof.
  intros f O e rs p t t' P V G A H. destruct (Z_lt_le_dec (t_phase t) p) as [L|L].
  - destruct (phase_run _ _ _ _ _ _ _ P L A H) as (l & VS). destruct (entered_at rs p t ltac:(lia)) as (NX & E & _).
    destruct (next_phase_same _ _ _ _ NX) as (_ & _ & AB). assert (AE : t_abort (entered rs p t) = false) by (rewrite AB; exact A).
    enough (t_phase t' = p) by lia. clear -VS E AE V G.
    assert (R : forall d n t t1, t_abort t = false -> process_rule d O e rs p n t = Ret t1 -> t_phase t1 = t_phase t).
    { clear -V G. intros d n t t1 A H. apply process_rule_cases in H as [[_ ->]|[_ [(r & _ & _ & M)|(l & r & t2 & _ & N & M & CA & ->)]]]; [reflexivity| |].
      - apply (frame_position _ _ (touches_frame _ _ (some_miss_touches _ _ _ _ _ M))).
      - rewrite effects_stay; [apply (frame_position _ _ (touches_frame _ _ (all_match_touches _ _ _ _ _ M)))|].
        intros a I. destruct G as [G _]. apply G. eapply chain_usable; eauto. eapply nth_error_In; eauto. }
    revert E AE. generalize (entered rs p t) as u, VS. clear t VS. intros u VS E AE. induction VS as [n t X|n t t1 Q N RR D|n t t1 m t2 l t' Q N RR D NX H IH].
    + exact E.
    + simpl. rewrite (R _ _ _ _ AE RR). exact E.
    + destruct (next_phase_same _ _ _ _ NX) as (PH & _ & AB). destruct (gate_rule _ _ _ _ _ _ _ _ V G AE RR) as (A1 & _).
      apply IH; [rewrite PH; simpl; rewrite (R _ _ _ _ AE RR); exact E|rewrite AB; exact A1].
  - apply phase_works in H as [[_ ->]|(X & _)]; lia.
Qed.
Lemma gate_step : forall f O e rs o t t' b u, ord_valid O -> (forall p, op_phase o = Some p -> gate rs p) -> feeding o -> t_abort t = false -> alike u t ->
  step f O e rs o t = Ret (t', b) ->
  t_abort t' = false /\ alike (given o u) t' /\
  t_phase t' = match op_phase o with Some p => Z.max p (t_phase t) | None => t_phase t end /\
  (i_disruptive (get_iv t') = true <-> i_disruptive (get_iv t) = true \/
     exists p, op_phase o = Some p /\ t_phase t < p /\ denied_by O e rs p (given o u)).
Proof.
  intros f O e rs o t t' b u V G F A K H. destruct (given_same o t) as (GP & GA & GI). destruct (op_phase o) as [p|] eqn:P.
  - rewrite (step_phase _ _ _ _ _ _ p P) in H. apply bind_Ret in H as (t1 & H & Q). apply Ret_inj in Q. injection Q as -> _.
    pose proof (op_phase_range _ _ P) as R. pose proof (G p eq_refl) as GT.
    assert (K1 : alike (given o u) (given o t)) by now apply given_alike.
    assert (K2 : alike (given o u) t') by (eapply alike_trans; [exact K1|eapply phase_alike; eauto]).
    assert (AG : t_abort (given o t) = false) by congruence.
    rewrite (gate_phase _ _ _ _ _ _ _ R V GT AG H), GP.
    destruct (Z_lt_le_dec (t_phase t) p) as [L|L].
    + destruct (C76_denied_iff_some_rule_matches _ _ _ _ _ _ _ V R GT (eq_ind_r (fun x => x < p) L GP) AG H) as (A' & X).
      split; [exact A'|]. split; [exact K2|]. split; [reflexivity|]. rewrite X. unfold get_iv at 1. rewrite GI. fold (get_iv t). split.
      * intros [D|(r & I & DN & C)]; [now left|]. right. exists p. split; [reflexivity|]. split; [exact L|]. exists r. split; [exact I|].
        split; [exact DN|]. eapply matches_chain; [exact V|exact GT|exact I|apply alike_sym; exact K1|exact C].
      * intros [D|(p' & Q & _ & r & I & DN & C)]; [now left|]. injection Q as <-. right. exists r. split; [exact I|].
        split; [exact DN|]. eapply matches_chain; [exact V|exact GT|exact I|exact K1|exact C].
    + apply phase_works in H as [[_ ->]|(X & _)]; [|lia]. split; [congruence|]. split; [exact K1|]. split; [reflexivity|].
      unfold get_iv at 1. rewrite GI. fold (get_iv t). split; [auto|]. intros [D|(p' & Q & L' & _)]; [exact D|]. injection Q as <-. lia.
  - assert (X : forall t0, t_abort t0 = t_abort t -> t_iv t0 = t_iv t -> t_phase t0 = t_phase t -> alike (given o u) t0 ->
       t_abort t0 = false /\ alike (given o u) t0 /\ t_phase t0 = t_phase t /\
       (i_disruptive (get_iv t0) = true <-> i_disruptive (get_iv t) = true \/ exists p, @None Z = Some p /\ t_phase t < p /\ denied_by O e rs p (given o u))).
    { intros t0 X1 X2 X3 X4. split; [congruence|]. split; [exact X4|]. split; [exact X3|]. unfold get_iv. rewrite X2. split; [auto|].
      intros [D|(p & Q & _)]; [exact D|discriminate]. }
    destruct o; try discriminate; try easy; cbn [step] in H.
    + apply Ret_inj in H. injection H as <- _. apply X; try reflexivity. exact (given_alike (OpRequestURL u0 method proto) _ _ K).
    + apply bind_Ret in H as ([[x n] er] & _ & H). apply Ret_inj in H. injection H as <- _. apply X; try reflexivity. destruct K as [K1 K2]. now split.
    + apply bind_Ret in H as ([[x n] er] & _ & H). apply Ret_inj in H. injection H as <- _. apply X; try reflexivity. destruct K as [K1 K2]. now split.
Qed.
Lemma gate_steps : forall f O e rs os t t' bl u, ord_valid O -> (forall o p, In o os -> op_phase o = Some p -> gate rs p) -> Forall feeding os ->
  t_abort t = false -> alike u t -> steps f O e rs os t = Ret (t', bl) ->
  t_abort t' = false /\
  (i_disruptive (get_iv t') = true <-> i_disruptive (get_iv t) = true \/
     exists a o b p, os = a ++ o :: b /\ op_phase o = Some p /\ t_phase t < p /\ ahead a p /\ denied_by O e rs p (brought (a ++ [o]) u)).
Proof.
  intros f O e rs os. induction os as [|o os IH]; intros t t' bl u V G F A K H.
  - apply Ret_inj in H. injection H as <- _. split; [exact A|]. split; [auto|]. intros [D|(a & o & b & p & Q & _)]; [exact D|]. now destruct a.
  - apply steps_cons in H as (t1 & b1 & bl' & S & H & _). inversion F as [|? ? F1 F2]; subst.
    destruct (gate_step _ _ _ _ _ _ _ _ _ V (fun p => G o p (or_introl eq_refl)) F1 A K S) as (A1 & K1 & P1 & D1).
    destruct (IH _ _ _ _ V (fun x p I => G x p (or_intror I)) F2 A1 K1 H) as (A2 & D2). split; [exact A2|]. rewrite D2, D1. split.
    + intros [[D|(p & P & L & DB)]|(a & o' & b & p & -> & P & L & AH & DB)].
      * now left.
      * right. exists [], o, os, p. split; [reflexivity|]. split; [exact P|]. split; [exact L|]. split; [intros ? ? []|exact DB].
      * right. exists (o :: a), o', b, p. split; [reflexivity|]. split; [exact P|].
        assert (L2 : t_phase t < p /\ forall q, op_phase o = Some q -> q < p).
        { destruct (op_phase o) as [q|]; split; try lia; intros q' Q; [injection Q as <-; lia|discriminate]. }
        split; [exact (proj1 L2)|]. split; [|exact DB]. intros x q [<-|I] Q; [exact (proj2 L2 q Q)|eapply AH; eauto].
    + intros [D|(a & o' & b & p & Q & P & L & AH & DB)]; [left; now left|]. destruct a as [|x a].
      * injection Q as <- <-. left. right. exists p. auto.
      * injection Q as <- ->. right. exists a, o', b, p. split; [reflexivity|]. split; [exact P|]. split.
        -- rewrite P1. destruct (op_phase o) as [q|] eqn:OQ; [|exact L]. specialize (AH o q (or_introl eq_refl) OQ). lia.
        -- split; [intros y q I; apply AH; now right|exact DB].
Qed.
(** Under rules that only deny, the first result a caller fetches says to intervene
    exactly if some call reached its phase with data a denying rule of that phase
    matches.  The data is just what the calls up to then brought. *)
Theorem C77_blocked_iff_some_call_denied : forall f O e rs os t' bl,
  ord_valid O -> (forall p, 1 <= p <= 6 -> gate rs p) -> Forall feeding os ->
  steps f O e rs (os ++ [OpResult]) (new_txn e) = Ret (t', bl) ->
  exists i bl', bl = bl' ++ [ObsResult i] /\
    (i_disruptive i = true <->
     exists a o b p, os = a ++ o :: b /\ op_phase o = Some p /\ ahead a p /\ denied_by O e rs p (brought (a ++ [o]) (new_txn e))).
Proof.
  intros f O e rs os t' bl V G F H. apply steps_app in H as (t1 & b1 & b2 & H1 & H2 & ->).
  apply steps_cons in H2 as (t2 & b & b3 & S & H2 & ->). apply Ret_inj in H2. injection H2 as <- <-.
  cbn [step] in S. unfold result in S. apply Ret_inj in S. injection S as _ <-.
  destruct (gate_steps f O e rs os (new_txn e) t1 b1 (new_txn e) V (fun o p _ P => G p (op_phase_range _ _ P)) F eq_refl (alike_refl _) H1) as (_ & D).
  exists (get_iv t1), b1. split; [reflexivity|]. rewrite D. split.
  - intros [X|(a & o & b & p & Q & P & _ & X)]; [discriminate|]. exists a, o, b, p. auto.
  - intros (a & o & b & p & Q & P & X). right. exists a, o, b, p. split; [exact Q|]. split; [exact P|]. split; [|exact X].
    pose proof (op_phase_range _ _ P). simpl. unfold PhaseBegin. lia.
Qed.

(** The order in which the rules are written, and repeating one, makes no difference. *)
Definition same_rules (rs1 rs2 : ruleset) (p : Z) : Prop :=
  rs_default rs1 = rs_default rs2 /\ forall r, In r (phase_rules rs1 p) <-> In r (phase_rules rs2 p).
Lemma same_gate : forall rs1 rs2 p, same_rules rs1 rs2 p -> gate rs1 p -> gate rs2 p.
Proof.
  intros rs1 rs2 p [D S] [G1 G2]. split.
  - intros a U. apply G1. assert (LL : forall b, listed rs2 p b -> listed rs1 p b) by (intros b (r & r' & I & J); exists r, r'; rewrite S; auto).
    destruct U as [U|[U I]]; [left|right; rewrite D]; auto.
  - intros r q v I. apply G2. now apply S.
Qed.
Lemma same_denied : forall O e rs1 rs2 p t, same_rules rs1 rs2 p -> denied_by O e rs1 p t -> denied_by O e rs2 p t.
Proof. intros O e rs1 rs2 p t [D S] (r & I & DN & C). exists r. split; [now apply S|]. split; [|exact C]. unfold denies in *. now rewrite <- D. Qed.
Lemma same_rules_sym : forall rs1 rs2 p, same_rules rs1 rs2 p -> same_rules rs2 rs1 p.
Proof. intros rs1 rs2 p [D S]. split; [congruence|]. intro r. now rewrite S. Qed.
Theorem C77_order_of_rules_irrelevant : forall f1 f2 O e rs1 rs2 os t1 bl1 i1 t2 bl2 i2,
  ord_valid O -> (forall p, 1 <= p <= 6 -> gate rs1 p /\ same_rules rs1 rs2 p) -> Forall feeding os ->
  steps f1 O e rs1 (os ++ [OpResult]) (new_txn e) = Ret (t1, bl1 ++ [ObsResult i1]) ->
  steps f2 O e rs2 (os ++ [OpResult]) (new_txn e) = Ret (t2, bl2 ++ [ObsResult i2]) ->
  i_disruptive i1 = i_disruptive i2.
Proof.
  intros f1 f2 O e rs1 rs2 os t1 bl1 i1 t2 bl2 i2 V G F H1 H2.
  apply C77_blocked_iff_some_call_denied in H1 as (j1 & b1 & Q1 & D1); [|exact V|apply G|exact F].
  apply C77_blocked_iff_some_call_denied in H2 as (j2 & b2 & Q2 & D2); [|exact V|intros p P; destruct (G p P); eapply same_gate; eauto|exact F].
  apply app_inj_tail in Q1 as [_ Q1]. apply app_inj_tail in Q2 as [_ Q2]. injection Q1 as <-. injection Q2 as <-.
  assert (E : i_disruptive i1 = true <-> i_disruptive i2 = true).
  { rewrite D1, D2. split; intros (a & o & b & p & Q & P & A & DB); exists a, o, b, p; (split; [exact Q|]); (split; [exact P|]); (split; [exact A|]);
    destruct (G p (op_phase_range _ _ P)) as [_ S]; eapply same_denied; eauto using same_rules_sym. }
  destruct (i_disruptive i1), (i_disruptive i2); try reflexivity; [symmetry|]; now apply E.
Qed.
(** More denying rules never let through what fewer blocked. *)
Theorem C77_more_rules_block_more : forall f1 f2 O e rs1 rs2 os t1 bl1 i1 t2 bl2 i2,
  ord_valid O -> rs_default rs1 = rs_default rs2 ->
  (forall p, 1 <= p <= 6 -> gate rs1 p /\ gate rs2 p /\ incl (phase_rules rs1 p) (phase_rules rs2 p)) -> Forall feeding os ->
  steps f1 O e rs1 (os ++ [OpResult]) (new_txn e) = Ret (t1, bl1 ++ [ObsResult i1]) ->
  steps f2 O e rs2 (os ++ [OpResult]) (new_txn e) = Ret (t2, bl2 ++ [ObsResult i2]) ->
  i_disruptive i1 = true -> i_disruptive i2 = true.
Proof.
  intros f1 f2 O e rs1 rs2 os t1 bl1 i1 t2 bl2 i2 V DF G F H1 H2.
  apply C77_blocked_iff_some_call_denied in H1 as (j1 & b1 & Q1 & D1); [|exact V|apply G|exact F].
  apply C77_blocked_iff_some_call_denied in H2 as (j2 & b2 & Q2 & D2); [|exact V|apply G|exact F].
  apply app_inj_tail in Q1 as [_ Q1]. apply app_inj_tail in Q2 as [_ Q2]. injection Q1 as <-. injection Q2 as <-.
  rewrite D1, D2. intros (a & o & b & p & Q & P & A & (r & I & DN & C)). exists a, o, b, p. split; [exact Q|]. split; [exact P|]. split; [exact A|].
  destruct (G p (op_phase_range _ _ P)) as (_ & _ & S). exists r. split; [now apply S|]. split; [|exact C]. unfold denies in *. now rewrite <- DF.
Qed.

(** A check for [gate]. *)
Definition plain_action (a : action) : bool := match a with ASkip | APass | AAllow _ => false | _ => true end.
Definition gate_check (rs : ruleset) (p : Z) : bool :=
  forallb plain_action (rs_default rs) &&
  forallb (fun r => forallb (fun q => forallb plain_action (r_acts q) && forallb (fun v => negb (looks_at_body v)) (r_vars q)) (r :: r_subs r)) (phase_rules rs p).
Lemma gate_checked : forall rs p, gate_check rs p = true -> gate rs p.
Proof.
  intros rs p H. unfold gate_check in H. apply andb_true_iff in H as [D H].
  assert (X : forall r q, In r (phase_rules rs p) -> In q (r :: r_subs r) ->
     forallb plain_action (r_acts q) = true /\ forallb (fun v => negb (looks_at_body v)) (r_vars q) = true).
  { intros r q I J. rewrite forallb_forall in H. specialize (H r I). rewrite forallb_forall in H. specialize (H q J). now apply andb_true_iff. }
  assert (PL : forall a, plain_action a = true -> a <> ASkip /\ a <> APass /\ ~ leads_away a).
  { intros a Q. destruct a; try discriminate; (split; [discriminate|]); (split; [discriminate|]); intros (p1 & q1 & L); inversion L. }
  split.
  - intros a [(r & q & I & J & K)|[_ K]]; apply PL.
    + destruct (X r q I J) as [Y _]. rewrite forallb_forall in Y. now apply Y.
    + rewrite forallb_forall in D. now apply D.
  - intros r q v I J K. destruct (X r q I J) as [_ Y]. rewrite forallb_forall in Y. specialize (Y v K). now apply negb_true_iff.
Qed.
Example C76_example :
  let r m a := demo_rule 2 [VScalar SRequestMethod] (OpRx m) [a] false [demo_rule 2 [VScalar SRequestProtocol] (OpRx (B "http/1.1")) [] false []] in
  let rs := RuleSet [(2, [r (B "put") ADeny; r (B "post") ALog; r (B "post") ABlock])] [ADeny] in
  let t := demo_post "x" "" in
  gate rs 2 /\ t_phase t < 2 /\ t_abort t = false /\
  (exists t', process_phase 6 (demo MpErr) (demo_engine rs) rs 2 t = Ret t' /\ i_disruptive (get_iv t') = true) /\
  denied_by (demo MpErr) (demo_engine rs) rs 2 t.
Proof.
  cbv zeta. split; [apply gate_checked; reflexivity|]. split; [reflexivity|]. split; [reflexivity|]. split.
  - eexists. split; [vm_compute; reflexivity|reflexivity].
  - eexists. split; [right; right; left; reflexivity|]. split.
    + eexists. split; [left; reflexivity|]. right. split; now left.
    + intros q [<-|[<-|[]]].
      * exists (VScalar SRequestMethod). eexists _, _, (B "POST"). split; [now left|]. split; [vm_compute; reflexivity|]. split; [now left|]. eapply hit_iff; vm_compute; reflexivity.
      * exists (VScalar SRequestProtocol). eexists _, _, (B "HTTP/1.1"). split; [now left|]. split; [vm_compute; reflexivity|]. split; [now left|]. eapply hit_iff; vm_compute; reflexivity.
Qed.
(** A request denied in phase 2 after a phase 1 that let it pass; and one let through. *)
Example C77_example :
  let rs := RuleSet [(1, [demo_rule 1 [VScalar SRequestMethod] (OpRx (B "post")) [ADeny] false []]);
                     (2, [demo_rule 2 [VScalar SRequestMethod] (OpRx (B "put")) [ALog] false [];
                          demo_rule 2 [VScalar SRequestMethod] (OpRx (B "put")) [AStatus 404; ADeny] false []])] [] in
  let os m := [OpConnection [] [] [] []; OpRequestURL None m []; OpRequestHeader []; OpRequestBody] in
  (forall p, 1 <= p <= 6 -> gate rs p) /\ (forall m, Forall feeding (os m)) /\
  (exists t' i, steps 9 (demo MpErr) (demo_engine rs) rs (os (B "PUT") ++ [OpResult]) (new_txn (demo_engine rs)) = Ret (t', [ObsNone; ObsNone; ObsNone; ObsNone; ObsResult i]) /\
     i_disruptive i = true /\ i_status i = 404) /\
  (exists t' i, steps 9 (demo MpErr) (demo_engine rs) rs (os (B "POST") ++ [OpResult]) (new_txn (demo_engine rs)) = Ret (t', [ObsNone; ObsNone; ObsNone; ObsNone; ObsResult i]) /\
     i_disruptive i = false).
Proof.
  cbv zeta. split.
  - intros p P. assert (C : p = 1 \/ p = 2 \/ p = 3 \/ p = 4 \/ p = 5 \/ p = 6) by lia.
    destruct C as [->|[->|[->|[->|[->| ->]]]]]; apply gate_checked; reflexivity.
  - split; [intro m; repeat constructor|]. split; eexists _, _; (split; [vm_compute; reflexivity|]); [split|]; reflexivity.
Qed.
Example C77_order_example :
  let r m := demo_rule 2 [VScalar SRequestMethod] (OpRx m) [ADeny] false [] in
  let rs l := RuleSet [(2, l)] [] in
  let os := [OpRequestURL None (B "PUT") []; OpRequestHeader []] in
  same_rules (rs [r (B "put"); r (B "get")]) (rs [r (B "get"); r (B "get"); r (B "put")]) 2 /\
  incl (phase_rules (rs [r (B "put")]) 2) (phase_rules (rs [r (B "put"); r (B "get")]) 2) /\
  exists t1 i1 t2 i2,
    steps 9 (demo MpErr) (demo_engine new_ruleset) (rs [r (B "put"); r (B "get")]) (os ++ [OpResult]) (new_txn (demo_engine new_ruleset)) = Ret (t1, [ObsNone; ObsNone] ++ [ObsResult i1]) /\
    steps 9 (demo MpErr) (demo_engine new_ruleset) (rs [r (B "get"); r (B "get"); r (B "put")]) (os ++ [OpResult]) (new_txn (demo_engine new_ruleset)) = Ret (t2, [ObsNone; ObsNone] ++ [ObsResult i2]) /\
    i_disruptive i1 = true /\ i_disruptive i2 = true.
Proof.
  cbv zeta. split; [|split].
  - split; [reflexivity|]. intro x. cbn. tauto.
  - intros x [<-|[]]. now left.
  - eexists _, _, _, _. split; [vm_compute; reflexivity|]. split; [vm_compute; reflexivity|]. split; reflexivity.
Qed.
Print Assumptions C76_denied_iff_some_rule_matches.
Print Assumptions C77_blocked_iff_some_call_denied.
Print Assumptions C77_order_of_rules_irrelevant.
Print Assumptions C77_more_rules_block_more.
