(** Property theorems C78 (for rules loaded from a text) and C79: files of denying rules. *)
From Verif Require Import Base BaseFacts GoStrings Utils Buffer BufferFacts Types Transforms Operators Transaction Variables Rules Engine
  SpecText NumFacts SpecVars VarText VarFacts BodyFacts SpecRules PropText PropVars RuleFacts Scanner Loader SpecParse ParseFacts ParseLists ParseFiles ParsePrint
  SpecLoad LoadFacts SpecTxn TxnFacts LoopFacts Witness PropRules PropPhases PropTxn PropLoad PropEnd SpecGate PropGate PropSafe.
From Coq Require Import ZifyBool.

(** ** C78: rules loaded from a text *)
Lemma factory_op : forall O n d r c, dire_factory O n d = Some (IRule r, c) -> r_op r <> None.
Proof.
  intros O n d r c H. destruct d as [vs o a| | |]; try discriminate. simpl in H. unfold rule_from_seclang in H.
  destruct (apply_variables O n vs); [|discriminate]. destruct (operator_factory O o); [|discriminate].
  destruct (apply_action_list (pas_acts a) [] []) as [[meta acts]|]; [|discriminate]. injection H as <- _. discriminate.
Qed.
Lemma loaded_ops : forall O n ds items, loaded O n ds items -> forall r, In r (rules_of (map fst items)) -> r_op r <> None.
Proof.
  intros O n ds items L. induction L as [n|n d ds [x c] xs F L IH]; intros r I; [easy|]. cbn [map fst] in I. rewrite rules_of_cons in I.
  apply in_app_iff in I as [I|I]; [|auto]. destruct x; try easy. destruct I as [<-|[]]. eapply factory_op; eauto.
Qed.
Lemma rules_in : forall l r, In r (rules_of l) <-> In (IRule r) l.
Proof.
  intros l r. unfold rules_of. rewrite in_flat_map. split.
  - intros (d & I & J). destruct d; try easy. destruct J as [<-|[]]. exact I.
  - intro I. exists (IRule r). split; [exact I|now left].
Qed.
Lemma loaded_armed : forall fuel O n text l e, new_direset fuel O n text = Ret (Some l) -> armed (e_ruleset e) -> armed (e_ruleset (execute l e)).
Proof.
  intros fuel O n text l e H A. assert (H' : exists fuel, new_direset fuel O n text = Ret (Some l)) by eauto.
  apply C62_texts in H' as (ds & items & _ & L & AS). destruct (C62_nothing_lost _ _ _ _ _ L AS) as (NL & _).
  assert (K : forall r q, In (IRule r) l -> In q (r :: r_subs r) -> r_op q <> None).
  { intros r q I J. destruct J as [<-|J].
    - change (r_op r) with (r_op (alone r)). apply (loaded_ops _ _ _ _ L). rewrite <- NL. apply in_flat_map. exists (IRule r). split; [exact I|now left].
    - apply (loaded_ops _ _ _ _ L). rewrite <- NL. apply in_flat_map. exists (IRule r). split; [exact I|now right]. }
  destruct (C65_execute l e) as (_ & _ & _ & P1 & P2 & _). intros p r q I J.
  destruct (Z_le_dec 1 p) as [X|X]; [destruct (Z_le_dec p 6) as [Y|Y]|]; try (rewrite P2 in I by lia; eapply A; eauto).
  rewrite P1 in I by lia. apply in_app_iff in I as [I|I]; [eapply A; eauto|]. apply filter_In in I as [I _]. apply rules_in in I. eapply K; eauto.
Qed.
Theorem C78_loaded_engines_never_panic_partial : forall fuel O n text l, new_direset fuel O n text = Ret (Some l) ->
  let e := execute l new_engine in forms_harmless O e (e_ruleset e) ->
  forall f os, steps f O e (e_ruleset e) os (new_txn e) <> Panic.
Proof.
  intros fuel O n text l H e F f os. apply C78_calls_never_panic_partial.
  - apply (loaded_armed fuel O n text l new_engine H). intros p r q [].
  - exact F.
  - left. destruct (C65_execute l new_engine) as (_ & _ & _ & _ & _ & _ & _ & M & _). fold e in M. rewrite M. discriminate.
Qed.
(** Two rules suffice for a request that crashes the process. *)
Theorem C78_loaded_engines_never_panic_refuted : exists O text l ct body, ord_valid O /\
  text = SpecParse.listed LF [B "SecRequestBodyAccess On"; B "SecRule ARGS_POST_NAMES ""@rx x"" ""id:1,phase:3,deny"""; B "SecRule ARGS_POST_NAMES ""@rx y"" ""id:2,phase:3,deny"""] /\
  new_direset 200 O 0 text = Ret (Some l) /\
  let e := execute l new_engine in
  steps 9 O e (e_ruleset e) [OpRequestURL None (B "POST") []; OpRequestHeader [(B "Content-Type", [ct])]; OpAppendRequestBody body NoFault; OpRequestBody] (new_txn e) = Panic.
Proof.
  eexists (demo MpErr), _, _, (B "multipart/form-data"), (B "garbage"). split; [apply demo_ord|]. split; [reflexivity|].
  split; [vm_compute; reflexivity|]. vm_compute. reflexivity.
Qed.

(** ** C79 *)
(** A line of a file of denying rules, as in C66. *)
Record deny_line := DenyLine { dl_toks : list vtok; dl_trans : list ttok; dl_pat : bs; dl_id : Z }.
Definition line_text (d : deny_line) : bs := deny_text (dl_toks d) (dl_trans d) (dl_pat d) (dl_id d).
Definition good_line (O : oracles) (d : deny_line) : Prop :=
  dl_toks d <> [] /\ Forall (fun tk => In tk request_scalars) (dl_toks d) /\ plain_pattern (dl_pat d) /\ rx_ok O (dl_pat d) = true /\ int64 (dl_id d).
(** Some value named by the line matches its pattern after its transformations. *)
Definition line_matches (O : oracles) (ip : bs) (u : url) (m p : bs) (d : deny_line) : Prop :=
  exists tk v, In tk (dl_toks d) /\ request_value O ip u m p tk v /\ rx_match O (dl_pat d) (transformed_by O (dl_trans d) v) = true.

Definition line_vars (d : deny_line) : list pvar := map (fun t => PVar t [] false false) (dl_toks d).
Definition line_directive (d : deny_line) : directive := DRule (line_vars d) (POper KRx false (dl_pat d)) (deny_parsed (dl_trans d) (dl_id d)).
Definition line_rule (O : oracles) (d : deny_line) (r : rule) : Prop :=
  exists vars, r = Rule (dl_id d) 2 vars (map trans_means (dl_trans d)) (Some (OpRx (dl_pat d))) [ADeny] false [] [] /\ variables_as_written O (line_vars d) vars.

Lemma file_lead : forall ds t, file_text ds t -> file_text ds (LF :: t).
Proof.
  intros ds t H. assert (S : forall g, separators g -> separators (LF :: g)) by (intros g G; constructor; [right; left; now left|exact G]).
  inversion H as [g G|g d e ds' k G D F]; subst; [now apply ft_nil, S|]. apply (ft_cons (LF :: g)); auto.
Qed.
Lemma lines_file : forall O lines, Forall (good_line O) lines -> file_text (map line_directive lines) (SpecParse.listed LF (map line_text lines)).
Proof.
  intros O lines G. induction G as [|d lines (G1 & _ & G3 & _ & G5) G IH]; [apply ft_nil; constructor|].
  assert (D : forall k, directive_text k (line_directive d) (line_text d)) by (intro k; now apply deny_directive).
  cbn [map SpecParse.listed]. destruct lines as [|d' lines].
  - rewrite <- (app_nil_r (line_text d)). apply (ft_cons []); [constructor|apply D|apply ft_nil; constructor].
  - apply (ft_cons [] _ (line_text d)); [constructor|apply D|]. now apply file_lead.
Qed.
Lemma line_loads : forall O n d, ord_valid O -> good_line O d -> exists r, dire_factory O n (line_directive d) = Some (IRule r, false) /\ line_rule O d r.
Proof.
  intros O n d OV (NE & F & PP & RX & I).
  destruct (proj2 (apply_variables_loads O n (line_vars d))) as (vars & V).
  { apply Forall_map. apply Forall_forall. intros tk J. rewrite Forall_forall in F. apply F in J. split.
    - simpl in J. intro X. cbn [pv_tok] in X. subst tk. intuition discriminate.
    - intros _ q Q. destruct q; discriminate. }
  eexists. split; [|exists vars; split; [reflexivity|now apply (C69_variables_as_written O n)]].
  cbn [dire_factory line_directive]. unfold rule_from_seclang. rewrite V. unfold operator_factory, new_rx. cbn [po_tok po_arg]. rewrite RX. reflexivity.
Qed.
Lemma lines_load : forall O lines, ord_valid O -> Forall (good_line O) lines -> forall n, exists rules,
  loaded O n (map line_directive lines) (map (fun r => (IRule r, false)) rules) /\ assembled (map (fun r => (IRule r, false)) rules) (map IRule rules) /\
  Forall2 (line_rule O) lines rules.
Proof.
  intros O lines OV G. induction G as [|d lines G1 G IH]; intro n; [exists []; repeat constructor|].
  destruct (line_loads O n d OV G1) as (r & R1 & R2). destruct (IH (S (S n))) as (rules & L & A & F). exists (r :: rules).
  split; [now constructor|]. split; [now constructor|now constructor].
Qed.
Lemma lines_direset : forall O lines n fuel, ord_valid O -> Forall (good_line O) lines -> (length (SpecParse.listed LF (map line_text lines)) < fuel)%nat ->
  exists rules, new_direset fuel O n (SpecParse.listed LF (map line_text lines)) = Ret (Some (map IRule rules)) /\ Forall2 (line_rule O) lines rules.
Proof.
  intros O lines n fuel OV G FU. destruct (lines_load O lines OV G n) as (rules & L & A & F). exists rules. split; [|exact F].
  unfold new_direset, add_seclang. rewrite (parse_text_file _ _ fuel (lines_file O lines G) FU). cbn [bind].
  rewrite (proj2 (C62_chains O n (map line_directive lines) [] (map IRule rules))); [reflexivity|]. eauto.
Qed.
(** The variables of a line look at no body. *)
Lemma line_steady : forall O d vars v, good_line O d -> variables_as_written O (line_vars d) vars -> In v vars -> exists s, v = VScalar s /\ looks_at_body v = false.
Proof.
  intros O d vars v (_ & F & _) (keys & ND & M & F2) I.
  assert (C0 : forall tk c, calls_of tk c (line_vars d) = []).
  { intros tk c. unfold calls_of, line_vars. clear. induction (dl_toks d) as [|a toks IH]; [reflexivity|]. cbn [map flat_map pv_tok pv_count pv_index]. rewrite IH.
    destruct (vtok_eq_dec a tk); [|reflexivity]. now destruct (Bool.eqb false c). }
  assert (K : forall tk c, In (tk, c) keys -> c = false /\ In tk request_scalars).
  { intros tk c J. apply M in J as (x & X & <- & <-). apply in_map_iff in X as (a & <- & X). rewrite Forall_forall in F. split; [reflexivity|now apply F]. }
  clear ND M. induction F2 as [|[tk c] x ks l (s & S1 & S2) F2 IH]; [destruct I|]. destruct I as [->|I]; [|apply IH; auto; intros; apply K; now right].
  cbn [fst snd] in *. destruct (K tk c) as [-> J]; [now left|]. rewrite C0 in S2. simpl in S2. injection S2 as <-. apply var_means_iff in S1.
  simpl in J. destruct J as [<-|[<-|[<-|[<-|[<-|[<-|[<-|[]]]]]]]]; simpl in S1; injection S1 as <-; eexists; split; reflexivity.
Qed.
Lemma line_rule_matches : forall O e d r t ip u m p, ord_valid O -> good_line O d -> line_rule O d r ->
  t_srcip t = ip -> t_url t = Some u -> t_method t = m -> t_reqproto t = p ->
  (rule_matches O e t r <-> line_matches O ip u m p d).
Proof.
  intros O e d r t ip u m p OV G (vars & -> & VW) T1 T2 T3 T4. pose proof G as (_ & F & _).
  destruct (values_fetched O e (dl_toks d) vars ip u m p t OV F VW T1 T2 T3 T4) as (raw & FR & RV).
  destruct (steady_fetched O e vars t t raw OV (fun v I => let (s, E) := line_steady O d vars v G VW I in proj2 E) FR) as (_ & _ & X).
  set (r := Rule _ _ _ _ _ _ _ _ _).
  assert (TR : forall v, transformed O r v = transformed_by O (dl_trans d) v).
  { intro v. unfold transformed, transformed_by. cbn [r r_trans]. revert v. clear. induction (dl_trans d) as [|t ts IH]; intro v; [reflexivity|]. cbn [map fold_left]. apply IH. }
  assert (H : forall v, hit O r (transformed O r v) <-> rx_match O (dl_pat d) (transformed_by O (dl_trans d) v) = true).
  { intro v. rewrite <- (hit_iff O r (OpRx (dl_pat d)) _ eq_refl). cbn [r r_not op_match]. rewrite TR. destruct (rx_match _ _ _); easy. }
  unfold rule_matches, line_matches. cbn [r r_vars]. split.
  - intros (v & t' & vals & x & I & FT & J & HT). apply H in HT.
    assert (Q : In x raw) by (apply X; exists v, t', vals; auto). apply RV in Q as (tk & Q1 & Q2). exists tk, x. auto.
  - intros (tk & v & I & R & M). assert (Q : In v raw) by (apply RV; eauto). apply X in Q as (v' & t1 & a & Q1 & Q2 & Q3).
    exists v', t1, a, v. split; [exact Q1|]. split; [exact Q2|]. split; [exact Q3|]. now apply H.
Qed.
Lemma forall2_left : forall A B (R : A -> B -> Prop) l1 l2 x, Forall2 R l1 l2 -> In x l1 -> exists y, In y l2 /\ R x y.
Proof. intros A B R l1 l2 x F. induction F as [|a b l1 l2 H F IH]; intros []; [subst; exists b; split; [now left|exact H]|]. destruct IH as (y & I & Y); [assumption|]. exists y. split; [now right|exact Y]. Qed.
Lemma forall2_right : forall A B (R : A -> B -> Prop) l1 l2 y, Forall2 R l1 l2 -> In y l2 -> exists x, In x l1 /\ R x y.
Proof. intros A B R l1 l2 y F. induction F as [|a b l1 l2 H F IH]; intros []; [subst; exists a; split; [now left|exact H]|]. destruct IH as (x & I & X); [assumption|]. exists x. split; [now right|exact X]. Qed.
Lemma forall2_len : forall A B (R : A -> B -> Prop) l1 l2, Forall2 R l1 l2 -> length l2 = length l1.
Proof. intros A B R l1 l2 F. induction F; simpl; congruence. Qed.

(** A file of denying rules loads, and the engine so configured answers every request:
    it blocks exactly the requests that match some line, with status 403. *)
Theorem C79_file_blocks_exactly : forall O n lines fuel, ord_valid O -> Forall (good_line O) lines ->
  (length (SpecParse.listed LF (map line_text lines)) < fuel)%nat ->
  exists l, new_direset fuel O n (SpecParse.listed LF (map line_text lines)) = Ret (Some l) /\
    let e := execute l new_engine in
    forall f ip port ip2 port2 u m p h later, (length lines + 2 <= f)%nat -> Forall feeding later ->
      exists t bl i, steps f O e (e_ruleset e) ((OpConnection ip port ip2 port2 :: OpRequestURL (Some u) m p :: OpRequestHeader h :: later) ++ [OpResult]) (new_txn e) =
          Ret (t, bl ++ [ObsResult i]) /\
        ((exists d, In d lines /\ line_matches O ip u m p d) /\ i_disruptive i = true /\ i_status i = 403 \/
         ~ (exists d, In d lines /\ line_matches O ip u m p d) /\ i_disruptive i = false /\ i_status i = 200).
Proof.
  intros O n lines fuel OV G FU. destruct (lines_direset O lines n fuel OV G FU) as (rules & L & F2). eexists. split; [exact L|].
  intros e f ip port ip2 port2 u m p h later FF LT. set (rs := e_ruleset e).
  destruct (C65_execute (map IRule rules) new_engine) as (A1 & _ & _ & P1 & P2 & D & L1 & L2 & _). fold e in A1, P1, P2, D, L1, L2. fold rs in P1, P2, D.
  assert (RO : rules_of (map IRule rules) = rules) by (clear; unfold rules_of; induction rules as [|r rules IH]; [reflexivity|]; cbn; now rewrite IH).
  rewrite RO in P1. rewrite Forall_forall in G.
  assert (LR : forall r, In r rules -> exists d, In d lines /\ line_rule O d r) by (intros r I; eapply forall2_right; eauto).
  assert (PR : forall q r, In r (phase_rules rs q) -> q = 2 /\ In r rules).
  { intros q r I. destruct (Z_le_dec 1 q) as [X|X]; [destruct (Z_le_dec q 6) as [Y|Y]|]; [|rewrite P2 in I by lia; easy..].
    rewrite P1 in I by lia. apply in_app_iff in I as [I|I]; [easy|]. apply filter_In in I as [I J]. split; [|exact I].
    destruct (LR r I) as (d & _ & vars & -> & _). cbn [r_phase] in J. lia. }
  assert (P22 : phase_rules rs 2 = rules).
  { rewrite P1 by lia. change (phase_rules (e_ruleset new_engine) 2) with (@nil rule). cbn [app]. assert (Q : Forall (fun r => r_phase r = 2) rules).
    { apply Forall_forall. intros r I. destruct (LR r I) as (d & _ & vars & -> & _). reflexivity. }
    clear -Q. induction Q as [|r rules E Q IH]; [reflexivity|]. cbn [List.filter]. rewrite E. simpl. now rewrite IH. }
  assert (CH : forall q r s, In r (phase_rules rs q) -> In s (r :: r_subs r) -> s = r /\ exists d, In d lines /\ line_rule O d r).
  { intros q r s I J. apply PR in I as [_ I]. destruct (LR r I) as (d & X & Y). split; [|eauto]. destruct Y as (vars & -> & _). destruct J as [J|[]]. auto. }
  assert (US : forall q a, usable rs q a -> a = ADeny).
  { intros q a [(r & s & I & J & K)|(_ & K)]; [|rewrite D in K; easy]. destruct (CH _ _ _ I J) as (-> & d & _ & vars & -> & _). now destruct K as [<-|[]]. }
  assert (ST : forall q r s v, In r (phase_rules rs q) -> In s (r :: r_subs r) -> In v (r_vars s) -> exists x, v = VScalar x /\ looks_at_body v = false).
  { intros q r s v I J K. destruct (CH _ _ _ I J) as (-> & d & X & vars & -> & VW). eapply line_steady; eauto. }
  assert (GA : forall q, 1 <= q <= 6 -> gate rs q).
  { intros q _. split.
    - intros a U. apply US in U. subst a. split; [discriminate|]. split; [discriminate|]. intros (x & y & Z0). inversion Z0.
    - intros r s v I J K. now destruct (ST _ _ _ _ I J K) as (x & _ & E). }
  set (os := OpConnection ip port ip2 port2 :: OpRequestURL (Some u) m p :: OpRequestHeader h :: later).
  assert (FE : Forall feeding os) by (repeat (constructor; [exact I|]); exact LT).
  assert (RA : e_reqaccess e = false) by (rewrite A1; clear; unfold req_flags; replace (flat_map _ _) with (@nil bool); [reflexivity|]; induction rules; auto).
  destruct (C78_calls_return_partial f O e rs (os ++ [OpResult])) as (t & bl0 & H).
  - intros q r s I J. destruct (CH _ _ _ I J) as (-> & d & _ & vars & -> & _). discriminate.
  - right. now left.
  - left. rewrite L2. discriminate.
  - intros q _ a U. apply US in U. now subst a.
  - rewrite D. easy.
  - now left.
  - intros q Q. destruct (Z.eq_dec q 2) as [->|N]; [rewrite P22, (forall2_len _ _ _ _ _ F2); exact FF|].
    destruct (phase_rules rs q) as [|r l] eqn:E; [simpl; lia|]. destruct (PR q r) as [X _]; [rewrite E; now left|easy].
  - destruct (C77_blocked_iff_some_call_denied f O e rs os t bl0 OV GA FE H) as (i & bl & -> & B). exists t, bl, i. split; [exact H|].
    assert (B' : i_disruptive i = true <-> exists d, In d lines /\ line_matches O ip u m p d).
    { rewrite B. set (t2 := brought [OpConnection ip port ip2 port2; OpRequestURL (Some u) m p; OpRequestHeader h] (new_txn e)).
      assert (MD : denied_by O e rs 2 t2 <-> exists d, In d lines /\ line_matches O ip u m p d).
      { unfold denied_by. rewrite P22. split.
        - intros (r & I & _ & C). destruct (LR r I) as (d & X & Y). exists d. split; [exact X|]. apply (line_rule_matches O e d r t2 ip u m p OV (G d X) Y); try reflexivity. apply C. now left.
        - intros (d & X & M). destruct (forall2_left _ _ _ _ _ d F2 X) as (r & I & Y). exists r. split; [exact I|].
          apply (line_rule_matches O e d r t2 ip u m p OV (G d X) Y) in M; try reflexivity. destruct Y as (vars & -> & _). split.
          + eexists. split; [now left|]. left. now left.
          + intros q [<-|[]]. exact M. }
      rewrite <- MD. split.
      - intros (a & o & b & q & Q & P & A & DB). assert (q = 2) by (destruct DB as (r & I & _); now apply PR in I). subst q.
        destruct a as [|o1 a]; [injection Q as <- _; discriminate|]. injection Q as <- Q. destruct a as [|o2 a]; [injection Q as <- _; discriminate|]. injection Q as <- Q.
        destruct a as [|o3 a]; injection Q as <- Q; [exact DB|]. exfalso. specialize (A (OpRequestHeader h) 2 ltac:(right; right; now left) eq_refl). lia.
      - intro DB. exists [OpConnection ip port ip2 port2; OpRequestURL (Some u) m p], (OpRequestHeader h), later, 2. split; [reflexivity|]. split; [reflexivity|]. split; [|exact DB].
        intros o q [<-|[<-|[]]] E; [injection E as <-; reflexivity|discriminate]. }
    destruct (i_disruptive i) eqn:DI.
    + left. split; [now apply B'|]. split; [reflexivity|].
      destruct (C39_where_statuses_come_from f O e rs _ t _ i H) as [X|[(_ & q & _ & X)|(X & _)]]; [apply in_app_iff; right; now left|exact DI|exact X|apply US in X; discriminate|].
      exfalso. apply steps_app in H as (t1 & b1 & b2 & H1 & H2 & _). apply steps_cons in H2 as (t3 & b & b3 & S & H2 & _). apply Ret_inj in H2. injection H2 as <- _.
      destruct (gate_steps f O e rs os (new_txn e) t1 b1 (new_txn e) OV (fun o q _ P => GA q (op_phase_range _ _ P)) FE eq_refl (alike_refl _) H1) as (AB & _).
      cbn [Engine.step] in S. unfold result in S. apply Ret_inj in S. injection S as S _. change (t_abort (touch_iv t1)) with (t_abort t1) in S. rewrite AB in S. subst t3. simpl in X. congruence.
    + right. split; [intro X; apply B' in X; discriminate|]. split; [reflexivity|]. destruct (C39_valid_status_partial f O e rs _ t _ H) as (_ & _ & K).
      apply (K i); [apply in_app_iff; right; now left|exact DI].
Qed.
Example C79_example :
  let lines := [DenyLine [KRequestMethod] [KLowercase] (B "trace") 1; DenyLine [KRequestUri; KQueryString] [] (B "etc/passwd") 2] in
  let O := demo MpErr in
  let text := SpecParse.listed LF (map line_text lines) in
  Forall (good_line O) lines /\
  text = B "SecRule REQUEST_METHOD ""@rx trace"" ""id:1,phase:2,t:lowercase,deny""" ++ [LF] ++ B "SecRule REQUEST_URI|QUERY_STRING ""@rx etc/passwd"" ""id:2,phase:2,deny""" /\
  line_matches O (B "1.2.3.4") (demo_url "/" "") (B "TRACE") (B "HTTP/1.1") (DenyLine [KRequestMethod] [KLowercase] (B "trace") 1) /\
  exists l, new_direset 300 O 0 text = Ret (Some l) /\
    let e := execute l new_engine in
    let os m := [OpConnection (B "1.2.3.4") [] [] []; OpRequestURL (Some (demo_url "/" "")) m (B "HTTP/1.1"); OpRequestHeader []; OpAppendRequestBody (B "x") NoFault; OpRequestBody; OpResult] in
    (exists t bl i, steps 4 O e (e_ruleset e) (os (B "TRACE")) (new_txn e) = Ret (t, bl ++ [ObsResult i]) /\ i_disruptive i = true /\ i_status i = 403) /\
    (exists t bl i, steps 4 O e (e_ruleset e) (os (B "GET")) (new_txn e) = Ret (t, bl ++ [ObsResult i]) /\ i_disruptive i = false /\ i_status i = 200).
Proof.
  cbv zeta. split; [|split; [reflexivity|split]].
  - assert (PP : forall s, forallb (fun c => negb (Ascii.eqb c """" || Ascii.eqb c "\" || isNewLine c)) s = true -> plain_pattern s).
    { intros s F c I. rewrite forallb_forall in F. apply F in I. apply negb_true_iff in I. rewrite !orb_false_iff in I. destruct I as ((X1 & X2) & X3).
      apply Ascii.eqb_neq in X1, X2. apply newline_not in X3. auto. }
    constructor; [|constructor; [|constructor]]; (split; [discriminate|]); (split; [|split; [apply PP; reflexivity|split; [reflexivity|split; simpl; lia]]]);
      repeat (constructor; [simpl; tauto|]); constructor.
  - exists KRequestMethod, (B "TRACE"). split; [now left|]. split; [constructor|]. vm_compute. reflexivity.
  - eexists. split; [vm_compute; reflexivity|].
    split; eexists _, [_; _; _; _; _], _; (split; [vm_compute; reflexivity|split; reflexivity]).
Qed.
Print Assumptions C78_loaded_engines_never_panic_partial.
Print Assumptions C78_loaded_engines_never_panic_refuted.
Print Assumptions C79_file_blocks_exactly.
