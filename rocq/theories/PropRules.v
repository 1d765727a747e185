(** Property theorems C25, C26, C28, C29, C42, C43: rules, chains, actions. *)
From Verif Require Import Base BaseFacts GoStrings Utils Buffer BufferFacts Types Transforms Operators Transaction Variables Rules Engine
  SpecText NumFacts SpecVars VarFacts SpecRules PropText RuleFacts OrderFacts Witness.
From Coq Require Import ZifyBool Sorting.Sorted.

(** ** C25 *)
Theorem C25_match_iff_some_value_hits : forall O e r t t' m,
  match_rule O e r t = Ret (t', m) ->
  exists raw, fetched O e (r_vars r) t t' raw /\
    (t_abort t' = false -> (m = true <-> exists v, In v raw /\ hit O r (transformed O r v))) /\
    (t_abort t' = true -> m = false).
Proof.
  intros O e r t t' m H. unfold match_rule in H. apply bind_Ret in H as ([t1 vs] & H1 & H).
  apply bind_Ret in H as (x & H2 & H). apply Ret_inj in H. injection H as <- <-.
  apply C07_transforms_left_to_right in H1 as (raw & F & ->). exists raw. split; [exact F|]. split; intro A; rewrite A in H2.
  - apply match_values_iff in H2. rewrite H2. split.
    + intros (v & I & X). apply in_map_iff in I as (w & <- & I). exists w. split; [exact I|exact X].
    + intros (v & I & X). exists (transformed O r v). split; [|exact X]. apply in_map_iff. exists v. split; [reflexivity|exact I].
  - rewrite match_values_aborted in H2. now apply Ret_inj in H2.
Qed.
(** Matching always gives an answer once the variables are read (an operator is present). *)
Theorem C25_match_answers : forall O e r o t t' raw,
  r_op r = Some o -> fetched O e (r_vars r) t t' raw -> exists m, match_rule O e r t = Ret (t', m).
Proof.
  intros O e r o t t' raw E F. unfold match_rule.
  assert (H : fetch_all O e r (r_vars r) t = Ret (t', map (transformed O r) raw))
    by (apply C07_transforms_left_to_right; exists raw; split; [exact F|reflexivity]).
  rewrite H. cbn [bind]. destruct (match_values_ret O r o (map (transformed O r) raw) (t_abort t') E) as (m & M).
  rewrite M. exists m. reflexivity.
Qed.
Theorem C25_no_value_no_match : forall O e r t t' m,
  fetched O e (r_vars r) t t' [] -> match_rule O e r t = Ret (t', m) -> m = false.
Proof.
  intros O e r t t' m F H. unfold match_rule in H. apply bind_Ret in H as ([t1 vs] & H1 & H).
  assert (Q : fetch_all O e r (r_vars r) t = Ret (t', [])) by (apply C07_transforms_left_to_right; exists []; split; [exact F|reflexivity]).
  rewrite Q in H1. apply Ret_inj in H1. injection H1 as <- <-. cbn in H. apply Ret_inj in H. now injection H.
Qed.
Definition demo_rule (phase : Z) (vs : list variable) (o : operator) (as_ : list action) (neg : bool) (subs : list rule) : rule :=
  Rule 1 phase vs [TLowercase] (Some o) as_ neg [] subs.
Example C25_example :
  let O := demo MpErr in let e := demo_engine new_ruleset in let t := demo_post "x" "" in
  match_rule O e (demo_rule 2 [VScalar SRequestMethod] (OpRx (B "post")) [] false []) t = Ret (t, true) /\
  match_rule O e (demo_rule 2 [VScalar SRequestMethod] (OpRx (B "post")) [] true []) t = Ret (t, false) /\
  match_rule O e (demo_rule 2 [VScalar SRequestBody] (OpRx (B "post")) [] true []) t = Ret (t, false).
Proof. repeat split; vm_compute; reflexivity. Qed.
Print Assumptions C25_match_iff_some_value_hits.
Print Assumptions C25_match_answers.
Print Assumptions C25_no_value_no_match.

(** ** C26 *)
Theorem C26_map_order_irrelevant : forall O1 O2 fuel e rs os t,
  ord_valid O1 -> ord_valid O2 ->
  rx_ok O1 = rx_ok O2 -> rx_match O1 = rx_match O2 -> media_type O1 = media_type O2 ->
  multipart O1 = multipart O2 -> url_string O1 = url_string O2 -> uni_lower O1 = uni_lower O2 ->
  semi_sep O1 = semi_sep O2 ->
  steps fuel O1 e rs os t = steps fuel O2 e rs os t.
Proof.
  intros O1 [a b c d u l s o] fuel e rs os t V1 V2 E1 E2 E3 E4 E5 E6 E7. simpl in *. subst.
  symmetry. apply (reorder_steps O1 o V1 V2).
Qed.
(** Not a vacuous statement: fetched values do come in a different order. *)
Example C26_example :
  let O1 := demo MpErr in let O2 := reorder O1 (fun _ A l => rev l) in
  let t := with_reqheader (demo_post "x" "") [(B "a", [B "1"]); (B "b", [B "2"])] in
  ord_valid O1 /\ ord_valid O2 /\
  fetch O1 (demo_engine new_ruleset) (VColl CRequestHeaders empty_filter) t = Ret (tick t, [B "1"; B "2"]) /\
  fetch O2 (demo_engine new_ruleset) (VColl CRequestHeaders empty_filter) t = Ret (tick t, [B "2"; B "1"]).
Proof.
  split; [apply demo_ord|]. split; [intros n A m; apply Permutation_sym, Permutation_rev|]. split; vm_compute; reflexivity.
Qed.
Print Assumptions C26_map_order_irrelevant.

(** ** C28 *)
Theorem C28_chain_all_or_nothing : forall O e rs r t t',
  (exists f, do_rule f O e rs r t = Ret t') <->
  some_miss O e (r :: r_subs r) t t' \/
  exists t1 l, all_match O e (r :: r_subs r) t t1 /\
    chain_actions (rs_default rs) (r :: r_subs r) l /\ t' = effects rs l t1.
Proof.
  intros O e rs r t t'. split.
  - intros (f & H). eapply do_rule_ret; eauto.
  - intros [M|(t1 & l & A & C & ->)]; [exists 0%nat; now apply do_rule_miss|now apply do_rule_all].
Qed.
(** A miss runs no action: position, status and request are as before, and the
    intervention is as before unless reading a body aborted the transaction. *)
Theorem C28_miss_runs_nothing : forall O e rs t t', some_miss O e rs t t' ->
  frame t t' /\ (iv_kept t t' \/ iv_aborted t t') /\
  forall t1, ~ all_match O e rs t t1.
Proof.
  intros O e rs t t' H. pose proof (some_miss_touches _ _ _ _ _ H) as T.
  split; [now apply touches_frame|]. split; [now apply touches_iv|].
  clear T. induction H as [r l t t1 E|r l t t1 t2 E M IH]; intros u A; inversion A as [|r' l' a b c E2 M2]; subst; unfold evals in *.
  - congruence.
  - rewrite E in E2. apply Ret_inj in E2. injection E2 as <-. eapply IH; eauto.
Qed.
Example C28_example :
  let O := demo MpErr in let e := demo_engine new_ruleset in let t := demo_post "x" "" in
  let sub b as_ := demo_rule 2 [VScalar SRequestFilename] (OpRx b) as_ false [] in
  let r s := demo_rule 2 [VScalar SRequestMethod] (OpRx (B "post")) [ADeny] false [s] in
  do_rule 2 O e new_ruleset (r (sub (B "/p") [AStatus 500])) t = Ret (with_status (do_deny t) (Some 500)) /\
  do_rule 2 O e new_ruleset (r (sub (B "/q") [AStatus 500])) t = Ret t.
Proof. split; vm_compute; reflexivity. Qed.
Print Assumptions C28_chain_all_or_nothing.
Print Assumptions C28_miss_runs_nothing.

(** ** C29 *)
Theorem C29_actions_grouped : forall rs as_ t t',
  (exists f, actions_execute f rs as_ t = Ret t') <->
  exists g l, stable_grouping as_ g /\ unfolds (rs_default rs) g l /\ t' = effects rs l t.
Proof.
  intros rs as_ t t'. rewrite execute_iff. split.
  - intros (l & (g & S & U) & E). eauto.
  - intros (g & l & S & U & E). exists l. split; [exists g|]; auto.
Qed.
(** Without block the list executed is the grouping itself; one always exists. *)
Theorem C29_grouping_exists_unique : forall as_, exists g, stable_grouping as_ g /\
  (forall g', stable_grouping as_ g' -> g' = g) /\
  (~ In ABlock as_ -> forall d l, unfolds d g l <-> l = g).
Proof.
  intro as_. exists (grouped as_). split; [apply grouped_stable|].
  split; [intros g' S; eapply stable_unique; [exact S|apply grouped_stable]|].
  intros N d l. destruct (grouped_stable as_) as (P & _).
  assert (N' : ~ In ABlock (grouped as_)) by (intro I; apply N; eapply Permutation_in; [apply Permutation_sym; exact P|exact I]).
  assert (U : unfolds d (grouped as_) (grouped as_)).
  { clear -N'. induction (grouped as_) as [|a g IH]; constructor; [intros ->; apply N'; now left|]. apply IH. intro I. apply N'. now right. }
  split; [intro X; eapply unfolds_fun; eauto|intros ->; exact U].
Qed.
Example C29_example : stable_grouping [ASkip; ADeny; AStatus 1; ALog; APass; AStatus 2] [AStatus 1; AStatus 2; ALog; ADeny; APass; ASkip].
Proof. exact (grouped_stable [ASkip; ADeny; AStatus 1; ALog; APass; AStatus 2]). Qed.
Print Assumptions C29_actions_grouped.
Print Assumptions C29_grouping_exists_unique.

(** ** C42 *)
Inductive registration := AddRules (l : list rule) | AddDefaults (l : list action).
Definition register (rs : ruleset) (x : registration) : ruleset :=
  match x with AddRules l => add_rules l rs | AddDefaults l => add_default_actions l rs end.
Definition registered (xs : list registration) : ruleset := fold_left register xs new_ruleset.
Fixpoint added (xs : list registration) : list rule :=
  match xs with [] => [] | AddRules l :: xs => l ++ added xs | _ :: xs => added xs end.
Fixpoint defaults (xs : list registration) : list action :=
  match xs with [] => [] | AddDefaults l :: xs => l ++ defaults xs | _ :: xs => defaults xs end.

Lemma phases_append_same : forall p r m, zassoc p (phases_append p r m) = zassoc p m ++ [r].
Proof.
  intros p r m. induction m as [|[q l] m IH]; simpl; [now rewrite Z.eqb_refl|].
  destruct (p =? q) eqn:E; simpl; rewrite E; auto.
Qed.
Lemma phases_append_other : forall p q r m, p <> q -> zassoc p (phases_append q r m) = zassoc p m.
Proof.
  intros p q r m N. induction m as [|[k l] m IH]; simpl; [destruct (Z.eqb_spec p q); [easy|reflexivity]|].
  destruct (Z.eqb_spec q k) as [->|K]; simpl; destruct (Z.eqb_spec p k); try easy; try reflexivity; auto.
Qed.
Lemma add_rules_phase : forall l rs p, phase_rules (add_rules l rs) p =
  phase_rules rs p ++ (if (1 <=? p) && (p <=? 6) then List.filter (fun r => r_phase r =? p) l else []).
Proof.
  induction l as [|r l IH]; intros rs p; cbn [add_rules].
  - destruct ((1 <=? p) && (p <=? 6)); simpl; now rewrite app_nil_r.
  - unfold PhaseEnd, PhaseBegin. destruct ((7 <=? r_phase r) || (r_phase r <=? 0)) eqn:D; rewrite IH.
    + destruct ((1 <=? p) && (p <=? 6)) eqn:R; [|reflexivity]. simpl. destruct (Z.eqb_spec (r_phase r) p); [lia|reflexivity].
    + unfold phase_rules. cbn [rs_phases]. destruct (Z.eqb_spec (r_phase r) p) as [E|E].
      * subst p. rewrite phases_append_same, <- app_assoc. f_equal.
        destruct ((1 <=? r_phase r) && (r_phase r <=? 6)) eqn:R; [|lia]. simpl. now rewrite Z.eqb_refl.
      * rewrite phases_append_other by auto. f_equal. destruct ((1 <=? p) && (p <=? 6)); [|reflexivity].
        simpl. destruct (Z.eqb_spec (r_phase r) p); [easy|reflexivity].
Qed.
Lemma add_rules_default : forall l rs, rs_default (add_rules l rs) = rs_default rs.
Proof. induction l as [|r l IH]; intro rs; cbn [add_rules]; [reflexivity|]. destruct (_ || _); now rewrite IH. Qed.

Theorem C42_registration : forall xs p,
  (1 <= p <= 6 -> phase_rules (registered xs) p = List.filter (fun r => r_phase r =? p) (added xs)) /\
  (~ 1 <= p <= 6 -> phase_rules (registered xs) p = []) /\
  rs_default (registered xs) = defaults xs.
Proof.
  intros xs p. unfold registered.
  assert (G : forall rs, phase_rules (fold_left register xs rs) p =
     phase_rules rs p ++ (if (1 <=? p) && (p <=? 6) then List.filter (fun r => r_phase r =? p) (added xs) else []) /\
     rs_default (fold_left register xs rs) = rs_default rs ++ defaults xs).
  { induction xs as [|x xs IH]; intro rs; cbn [fold_left added defaults].
    - simpl. destruct (_ && _); now rewrite !app_nil_r.
    - destruct (IH (register rs x)) as [E1 E2]. rewrite E1, E2. destruct x as [l|l]; cbn [register added defaults].
      + rewrite add_rules_phase, add_rules_default, <- app_assoc. split; [|reflexivity]. f_equal.
        destruct ((1 <=? p) && (p <=? 6)); [now rewrite filter_app|reflexivity].
      + unfold add_default_actions, phase_rules. cbn [rs_phases rs_default]. split; [reflexivity|]. symmetry. apply app_assoc. }
  destruct (G new_ruleset) as [E1 E2]. rewrite E1, E2. cbn [new_ruleset phase_rules rs_phases rs_default zassoc app].
  split; [|split; [|reflexivity]]; intro R; destruct ((1 <=? p) && (p <=? 6)) eqn:D; try reflexivity; lia.
Qed.
(** Only registered rules of the phase are ever processed. *)
Theorem C42_processed_rules_are_registered : forall f O e xs p i t,
  process_rule f O e (registered xs) p i t = Ret t \/
  process_rule f O e (registered xs) p i t = Panic \/
  exists r, In r (added xs) /\ r_phase r = p /\ 1 <= p <= 6 /\
    process_rule f O e (registered xs) p i t = do_rule f O e (registered xs) r t.
Proof.
  intros f O e xs p i t. unfold process_rule. destruct (i <? nrules (registered xs) p); [|auto].
  destruct (i <? 0); [auto|]. destruct (nth_error (phase_rules (registered xs) p) (Z.to_nat i)) as [r|] eqn:E; [|auto].
  right. right. exists r. destruct (C42_registration xs p) as (P1 & P2 & _).
  assert (R : 1 <= p <= 6).
  { destruct (Z_le_dec 1 p); [destruct (Z_le_dec p 6); [lia|]|]; rewrite P2 in E by lia; destruct (Z.to_nat i); discriminate. }
  rewrite (P1 R) in E. apply nth_error_In in E. apply filter_In in E as [E Q]. split; [exact E|]. split; [lia|]. auto.
Qed.
Example C42_example :
  let r id p := Rule id p [] [] None [] false [] [] in
  map r_id (phase_rules (registered [AddRules [r 1 2; r 2 0; r 3 1]; AddDefaults [ADeny]; AddRules [r 4 2; r 5 7]]) 2) = [1; 4].
Proof. reflexivity. Qed.
Print Assumptions C42_registration.
Print Assumptions C42_processed_rules_are_registered.

(** ** C43 *)
Theorem C43_block_is_default_actions : forall f rs t,
  actions_execute (S f) rs [ABlock] t = actions_execute f rs (rs_default rs) t.
Proof.
  intros f rs t. rewrite execute_eq. change (grouped [ABlock]) with [ABlock]. cbn [act_list act1].
  destruct (actions_execute f rs (rs_default rs) t); reflexivity.
Qed.
(** In any list: each block stands for the (grouped) default actions, in its place. *)
Theorem C43_block_in_place : forall d l1 l2 x, unfolds d (l1 ++ ABlock :: l2) x <->
  exists x1 g xd x2, unfolds d l1 x1 /\ stable_grouping d g /\ unfolds d g xd /\ unfolds d l2 x2 /\ x = x1 ++ xd ++ x2.
Proof.
  intros d l1. induction l1 as [|a l1 IH]; intros l2 x; cbn [app].
  - split.
    + intro H. inversion H as [|a0 b0 c0 N0 U0|g l xd x2 S U1 U2]; subst; [easy|].
      exists [], g, xd, x2. split; [constructor|]. auto.
    + intros (x1 & g & xd & x2 & U & S & D & U2 & ->). inversion U; subst. exact (uf_block d g l2 xd x2 S D U2).
  - split.
    + intro H. inversion H as [|a0 b0 c0 N0 U0|g0 l xd0 y S0 U1 U2]; subst.
      * apply IH in U0 as (x1 & g & xd & x2 & U & S & D & U2 & ->). exists (a :: x1), g, xd, x2.
        split; [now constructor|]. auto.
      * apply IH in U2 as (x1 & g & xd & x2 & U & S & D & U2' & ->). exists (xd0 ++ x1), g, xd, x2.
        split; [exact (uf_block d g0 l1 xd0 x1 S0 U1 U)|]. split; [exact S|]. split; [exact D|]. split; [exact U2'|]. apply app_assoc.
    + intros (x1 & g & xd & x2 & U & S & D & U2 & ->). inversion U as [|a0 b0 c0 N0 U0|g0 l xd0 y S0 U1 U2']; subst.
      * cbn [app]. constructor; [exact N0|]. apply IH. eauto 10.
      * rewrite <- app_assoc. apply (uf_block d g0 (l1 ++ ABlock :: l2) xd0 (y ++ xd ++ x2) S0 U1). apply IH. eauto 10.
Qed.
Theorem C43_block_without_defaults : forall f rs as_ t, rs_default rs = [] ->
  actions_execute (S (S f)) rs as_ t = actions_execute (S (S f)) rs (List.filter (fun a => match a with ABlock => false | _ => true end) as_) t.
Proof.
  intros f rs as_ t E. rewrite !execute_eq.
  assert (G : grouped (List.filter (fun a => match a with ABlock => false | _ => true end) as_) =
              List.filter (fun a => match a with ABlock => false | _ => true end) (grouped as_)).
  { unfold grouped, ActionGroupCount. cbn [seq flat_map]. rewrite !filter_app. unfold bucket. cbn [List.filter].
    assert (C : forall g, List.filter (fun a => (action_group a =? g)%nat) (List.filter (fun a => match a with ABlock => false | _ => true end) as_)
       = List.filter (fun a => match a with ABlock => false | _ => true end) (List.filter (fun a => (action_group a =? g)%nat) as_))
      by (intro; rewrite !filter_filter_eq; apply filter_ext; intro; apply andb_comm).
    now rewrite !C. }
  rewrite G. generalize (grouped as_) as l. intro l. revert t. induction l as [|a l IH]; intro t; cbn [List.filter act_list]; [reflexivity|].
  destruct a; cbn [act_list act1 bind]; try apply IH. rewrite E, execute_eq. cbn. apply IH.
Qed.
Example C43_example :
  let t := demo_post "x" "" in
  actions_execute 3 (RuleSet [] [ADeny; AStatus 418]) [ABlock] t = Ret (do_deny (with_status t (Some 418))) /\
  i_status (get_iv (do_deny (with_status t (Some 418)))) = 418.
Proof. split; vm_compute; reflexivity. Qed.
Print Assumptions C43_block_is_default_actions.
Print Assumptions C43_block_in_place.
Print Assumptions C43_block_without_defaults.
