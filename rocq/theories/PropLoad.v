(** Property theorems C61-C65, C69, C70: loading directives and configuring an
    engine. *)
From Verif Require Import Base BaseFacts GoStrings Buffer Types Transaction Variables Rules Engine SpecText NumFacts SpecVars VarText VarFacts
  SpecRules Operators Scanner Loader SpecParse ParseFacts ParseLists ParseFiles ParsePrint SpecLoad LoadFacts SpecTxn TxnFacts LoopFacts PropPhases Witness.
From Coq Require Import ZifyBool.

Lemma new_direset_iff : forall O n text l, (exists fuel, new_direset fuel O n text = Ret (Some l)) <->
  exists ds items, file_text ds text /\ loaded O n ds items /\ assembled items l.
Proof.
  intros O n text l. unfold new_direset, add_seclang. split.
  - intros (fuel & H). destruct (parse_text fuel text) as [[ds|e]| |] eqn:E; cbn in H; try discriminate.
    destruct (add_dires O n ds None []) as [l' []] eqn:A; cbn in H; try discriminate. apply Ret_eq in H. injection H as <-.
    apply add_dires_iff in A as (items & l & L & A & ->). exists ds, items. split; [apply parse_text_iff; eauto|]. auto.
  - intros (ds & items & F & L & A). exists (S (length text)). rewrite (parse_text_file text ds) by (assumption || lia). cbn.
    rewrite (proj2 (add_dires_iff O n ds [] l) (ex_intro _ items (ex_intro _ l (conj L (conj A eq_refl))))). reflexivity.
Qed.

(** ** C62 *)
Theorem C62_chains : forall O n ds old new, add_dires O n ds None old = (new, true) <->
  exists items l, loaded O n ds items /\ assembled items l /\ new = old ++ l.
Proof. exact add_dires_iff. Qed.
Theorem C62_texts : forall O n text l, (exists fuel, new_direset fuel O n text = Ret (Some l)) <->
  exists ds items, file_text ds text /\ loaded O n ds items /\ assembled items l.
Proof. exact new_direset_iff. Qed.
(** Every rule is there once, in order, at top level or under a rule; so is every
    other directive. *)
Theorem C62_nothing_lost : forall O n ds items l, loaded O n ds items -> assembled items l ->
  flat_map (fun d => match d with IRule r => alone r :: r_subs r | _ => [] end) l = rules_of (map fst items) /\
  List.filter (fun d => match d with IRule _ => false | _ => true end) l =
    List.filter (fun d => match d with IRule _ => false | _ => true end) (map fst items) /\ length items = length ds.
Proof.
  intros O n ds items l L A. destruct (assembled_kept items l A (loaded_nosubs _ _ _ _ L)) as [K1 K2]. split; [exact K1|]. split; [exact K2|].
  clear A K1 K2. induction L; simpl; congruence.
Qed.
(** Every sequence of loaded directives has exactly one assembly. *)
Theorem C62_one_assembly : forall items, exists l, assembled items l /\ forall l', assembled items l' -> l' = l.
Proof. intro items. destruct (assembled_exists items) as (l & A). exists l. split; [exact A|]. intros l' A'. now apply (assembled_fun items l A). Qed.
Definition chain_text : bs :=
  B "SecRule ARGS x ""id:1,phase:2,deny,chain""" ++ [LF] ++ B "SecRuleEngine On" ++ [LF] ++ B "SecRule ARGS y ""id:2,chain""" ++ [LF] ++
  B "SecRule ARGS z ""id:3""" ++ [LF] ++ B "SecRule ARGS w ""id:4,phase:1,deny""" ++ [LF] ++ B "SecRule ARGS v ""id:5,phase:1,chain""".
Example C62_example : exists l, new_direset 500 (demo MpErr) 0 chain_text = Ret (Some l) /\
  map (fun d => match d with IRule r => (r_id r, map r_id (r_subs r)) | _ => (0, []) end) l = [(1, [2; 3]); (0, []); (4, []); (5, [])].
Proof. eexists. split; [vm_compute; reflexivity|reflexivity]. Qed.
Print Assumptions C62_chains.
Print Assumptions C62_texts.
Print Assumptions C62_nothing_lost.
Print Assumptions C62_one_assembly.

(** ** C63: false of the code when a parsed directive cannot be turned into a rule. *)
Theorem C63_all_or_nothing_refuted : exists text new, add_seclang 200 (demo MpErr) 0 text [] = Ret (new, false) /\ new <> [] /\
  text = B "SecRule ARGS x ""id:1,deny""" ++ [LF] ++ B "SecRule ARGS y ""id:2,pass""".
Proof. eexists _, _. split; [|split; [|reflexivity]]; vm_compute; [reflexivity|discriminate]. Qed.
(** On a syntax error nothing changes. *)
Theorem C63_syntax_error_partial : forall fuel O n text old e, parse_text fuel text = Ret (RErr e) -> add_seclang fuel O n text old = Ret (old, false).
Proof. intros fuel O n text old e H. unfold add_seclang. now rewrite H. Qed.
(** What is left behind otherwise: what precedes the first directive that cannot be
    loaded, after what was there. *)
Theorem C63_leftover_partial : forall fuel O n text old new, add_seclang fuel O n text old = Ret (new, false) ->
  (exists e, parse_text fuel text = Ret (RErr e) /\ new = old) \/
  exists ds1 d ds2 items l, file_text (ds1 ++ d :: ds2) text /\ Forall (loadable O) ds1 /\ ~ loadable O d /\
    loaded O n ds1 items /\ assembled items l /\ new = old ++ l.
Proof.
  intros fuel O n text old new H. unfold add_seclang in H. destruct (parse_text fuel text) as [[ds|e]| |] eqn:E; cbn in H; try discriminate.
  - apply Ret_eq in H. apply add_dires_false in H as (ds1 & d & ds2 & items & l & -> & L & F & A & ->). right.
    exists ds1, d, ds2, items, l. split; [apply parse_text_iff; eauto|]. split; [apply (loaded_iff O ds1 n); eauto|]. split; [|auto].
    rewrite <- (dire_loads O (n + 2 * length ds1) d). intros (x & X). congruence.
  - left. exists e. split; [reflexivity|]. apply Ret_eq in H. congruence.
Qed.
(** What was there before is never lost. *)
Theorem C63_old_kept : forall fuel O n text old new b, add_seclang fuel O n text old = Ret (new, b) -> exists l, new = old ++ l.
Proof.
  intros fuel O n text old new [] H.
  - unfold add_seclang in H. destruct (parse_text fuel text) as [[ds|e]| |] eqn:E; cbn in H; try discriminate.
    apply Ret_eq in H. apply add_dires_iff in H as (items & l & _ & _ & ->). eauto.
  - apply C63_leftover_partial in H as [(e & _ & ->)|(ds1 & d & ds2 & items & l & _ & _ & _ & _ & _ & ->)]; [exists []; now rewrite app_nil_r|eauto].
Qed.
(** The constructor gives no set on failure. *)
Theorem C63_no_set : forall fuel O n text, new_direset fuel O n text = Ret None <-> exists new, add_seclang fuel O n text [] = Ret (new, false).
Proof.
  intros fuel O n text. unfold new_direset. destruct (add_seclang fuel O n text []) as [[new []]| |]; cbn; split; try discriminate; eauto;
    intros (x & X); discriminate.
Qed.
Theorem C63_set : forall fuel O n text l, new_direset fuel O n text = Ret (Some l) <-> add_seclang fuel O n text [] = Ret (l, true).
Proof.
  intros fuel O n text l. unfold new_direset. destruct (add_seclang fuel O n text []) as [[new []]| |]; cbn; split; try discriminate; intro H;
    apply Ret_eq in H; injection H as <-; reflexivity.
Qed.
Example C63_example : parse_text 200 (B "SecRuleEngine On" ++ [LF] ++ B "SecRule ARGS") = Ret (RErr EOther) /\
  new_direset 200 (demo MpErr) 0 (B "SecRuleEngine On" ++ [LF] ++ B "SecRule ARGS x ""severity:2""") = Ret None /\
  add_seclang 200 (demo MpErr) 0 (B "SecRuleEngine On" ++ [LF] ++ B "SecRule ARGS x ""severity:2""") [IReqBody true] = Ret ([IReqBody true; IRuleEng 1], false).
Proof. repeat split; vm_compute; reflexivity. Qed.
Print Assumptions C63_all_or_nothing_refuted.
Print Assumptions C63_syntax_error_partial.
Print Assumptions C63_leftover_partial.
Print Assumptions C63_old_kept.
Print Assumptions C63_no_set.
Print Assumptions C63_set.

(** ** C64: false of the code for one documented variable and five actions. *)
Theorem C64_loads_exactly : forall fuel O n text ds, parse_text fuel text = Ret (ROk ds) ->
  ((exists l, new_direset fuel O n text = Ret (Some l)) <-> Forall (loadable O) ds) /\
  (new_direset fuel O n text = Ret None <-> ~ Forall (loadable O) ds).
Proof.
  intros fuel O n text ds H. assert (E : new_direset fuel O n text = Ret (let '(l, b) := add_dires O n ds None [] in if b then Some l else None)).
  { unfold new_direset, add_seclang. rewrite H. cbn. now destruct (add_dires O n ds None []) as [l []]. }
  rewrite E. rewrite <- (loaded_iff O ds n). destruct (add_dires O n ds None []) as [l []] eqn:A.
  - apply add_dires_iff in A as (items & l' & L & _). split; split; intros; try eauto; try discriminate. exfalso. eauto.
  - assert (N : ~ exists items, loaded O n ds items).
    { intros (items & L). destruct (assembled_exists items) as (l' & A').
      rewrite (proj2 (add_dires_iff O n ds [] l') (ex_intro _ items (ex_intro _ l' (conj L (conj A' eq_refl))))) in A. discriminate. }
    split; split; intros; try eauto; try tauto. destruct H0 as (x & X). discriminate.
Qed.
Definition with_action (a : string) : bs := B "SecRule ARGS x ""id:1,phase:2," ++ B a ++ B """".
Theorem C64_documented_load_refuted :
  Forall (fun text => (exists ds, parse_text 200 text = Ret (ROk ds)) /\ forall O n, new_direset 200 O n text = Ret None)
    [B "SecRule XML x ""id:1,deny"""; with_action "severity:CRITICAL"; with_action "logdata:x"; with_action "setvar:x"; with_action "capture"; with_action "pass"].
Proof.
  assert (K : forall text ds, parse_text 200 text = Ret (ROk ds) -> (forall O, ~ Forall (loadable O) ds) ->
            (exists ds, parse_text 200 text = Ret (ROk ds)) /\ forall O n, new_direset 200 O n text = Ret None).
  { intros text ds P N. split; [eauto|]. intros O n. apply (C64_loads_exactly 200 O n text ds P), N. }
  repeat (apply Forall_cons; [eapply K; [vm_compute; reflexivity|]|]); [..|apply Forall_nil]; intros O F; apply Forall_inv in F; destruct F as (F1 & _ & F2).
  - apply Forall_inv in F1 as [F1 _]. now apply F1.
  - apply Forall_inv in F2 as [F2|[F2 _]]; [simpl in F2; intuition discriminate|discriminate].
  - apply Forall_inv in F2 as [F2|[F2 _]]; [simpl in F2; intuition discriminate|discriminate].
  - apply Forall_inv in F2 as [F2|[F2 _]]; [simpl in F2; intuition discriminate|discriminate].
  - apply Forall_inv in F2 as [F2|[F2 _]]; [simpl in F2; intuition discriminate|discriminate].
  - apply Forall_inv in F2 as [F2|[F2 _]]; [simpl in F2; intuition discriminate|discriminate].
Qed.
(** Every other documented name loads, in any combination, as long as regular
    expressions compile and numbers are numbers. *)
Theorem C64_documented_load_partial : forall fuel O n ds, Forall wf_directive ds -> Forall (loadable O) ds -> (length (show_file ds) < fuel)%nat ->
  exists l, new_direset fuel O n (show_file ds) = Ret (Some l).
Proof.
  intros fuel O n ds W L F. apply (C64_loads_exactly fuel O n (show_file ds) ds); [|exact L]. apply parse_text_file; [now apply show_file_text|exact F].
Qed.
Theorem C64_every_other_name_partial : forall O,
  (forall t i c x, t <> KXML -> (forall p, i <> "/"%char :: p ++ "/"%char :: []) -> loads_var O (PVar t i c x)) /\
  (forall t nt z, t <> KRx -> int64 z -> loads_op O (POper t nt (itoa z))) /\
  (forall p nt, rx_ok O p = true -> loads_op O (POper KRx nt p)) /\
  (forall t s, In t [KDeny; KSkip; KLog; KBlock; KAllow; KTag; KMsg; KRev; KVer] -> loads_act (PAction t s)) /\
  (forall z, int64 z -> loads_act (PAction KStatus (itoa z))).
Proof.
  intro O. split; [|split; [|split; [|split]]].
  - intros t i c x N P. split; [exact N|]. intros _ p E. simpl in E. now apply P in E.
  - intros t nt z N I. unfold loads_op. simpl. destruct t; try easy; exists z; now apply itoa_padded.
  - intros p nt R. exact R.
  - intros t s I. now left.
  - intros z I. right. split; [reflexivity|]. exists (itoa z), z. pose proof (itoa_denotes z) as D. split; [|split; [exact D|exact I]].
    apply (denotes_unquoted _ z D).
Qed.
Example C64_example : exists l, new_direset 300 (demo MpErr) 0
  (B "SecRule !ARGS:/^x/|&REQUEST_HEADERS|REQUEST_URI ""@ge 12"" ""id:1,phase:4,t:urlDecodeUni,t:none,msg:'m',tag:a,rev:1,ver:2,log,status:404,deny,skip""" ++ [LF] ++
   B "SecRule RESPONSE_BODY !abc ""id:2,phase:request,allow:phase,block,chain""") = Ret (Some l) /\ length l = 2%nat.
Proof. eexists. split; [vm_compute; reflexivity|reflexivity]. Qed.
Print Assumptions C64_loads_exactly.
Print Assumptions C64_documented_load_refuted.
Print Assumptions C64_documented_load_partial.
Print Assumptions C64_every_other_name_partial.

(** ** C65 *)
Theorem C65_execute : forall ds e, let e' := execute ds e in
  e_reqaccess e' = last (req_flags ds) (e_reqaccess e) /\ e_resaccess e' = last (res_flags ds) (e_resaccess e) /\
  (e_enabled e', e_detection e') = last (modes ds) (e_enabled e, e_detection e) /\
  (forall p, 1 <= p <= 6 -> phase_rules (e_ruleset e') p = phase_rules (e_ruleset e) p ++ List.filter (fun r => r_phase r =? p) (rules_of ds)) /\
  (forall p, ~ 1 <= p <= 6 -> phase_rules (e_ruleset e') p = phase_rules (e_ruleset e) p) /\
  rs_default (e_ruleset e') = rs_default (e_ruleset e) /\
  e_reqlimit e' = e_reqlimit e /\ e_reqmem e' = e_reqmem e /\ e_reslimit e' = e_reslimit e.
Proof.
  intros ds e e'. destruct (execute_spec ds e) as (I1 & I2 & I3 & I4 & I5 & I6 & I7). fold e' in I1, I2, I3, I4, I5, I6, I7.
  rewrite I1. repeat (split; [assumption|]). split; [|split; [|split; [|auto]]].
  - intros p P. rewrite add_rules_phase. now replace ((1 <=? p) && (p <=? 6)) with true by lia.
  - intros p P. rewrite add_rules_phase. replace ((1 <=? p) && (p <=? 6)) with false by lia. now rewrite app_nil_r.
  - apply add_rules_default.
Qed.
Example C65_example : exists l, new_direset 500 (demo MpErr) 0 (chain_text ++ [LF] ++ B "SecRuleEngine DetectionOnly" ++ [LF] ++ B "SecRequestBodyAccess On") = Ret (Some l) /\
  let e := execute l new_engine in
  (e_enabled e, e_detection e, e_reqaccess e, e_resaccess e) = (false, true, true, false) /\
  map r_id (phase_rules (e_ruleset e) 1) = [4; 5] /\ map r_id (phase_rules (e_ruleset e) 2) = [1].
Proof. eexists. split; [vm_compute; reflexivity|repeat split; reflexivity]. Qed.
Print Assumptions C65_execute.

(** ** C69 *)
(** One variable for each name and count mark in the list, with every selector
    written for it, in order. *)
Definition variables_as_written (O : oracles) (vs : list pvar) (l : list variable) : Prop :=
  exists keys, NoDup keys /\ (forall t c, In (t, c) keys <-> mentions t c vs) /\
    Forall2 (fun k x => exists s, In (fst k, s) var_means /\
      apply_calls O (calls_of (fst k) (snd k) vs) (if snd k then VCount s else s) = Some x) keys l.
Lemma as_written : forall O vs keys l, NoDup keys -> (forall t c, In (t, c) keys <-> mentions t c vs) -> Forall2 (stands_for O vs) keys l -> variables_as_written O vs l.
Proof.
  intros O vs keys l N M F. exists keys. split; [exact N|]. split; [exact M|].
  clear N M. induction F as [|[t c] x keys l (s & S & X) F IH]; constructor; [|exact IH]. cbn [fst snd] in *. unfold start in S.
  destruct (var_factory t) as [s0|] eqn:E; [|discriminate]. injection S as <-. exists s0. split; [now apply var_means_iff|exact X].
Qed.
Theorem C69_variables_as_written : forall O n vs l, ord_valid O -> apply_variables O n vs = Some l -> variables_as_written O vs l.
Proof. intros O n vs l OV H. destruct (apply_variables_spec O n vs l OV H) as (keys & N & M & F). now apply (as_written O vs keys). Qed.
(** So two loads of a list give the same variables, in some order. *)
Theorem C69_same_variables : forall O1 O2 n1 n2 vs l1 l2, (forall p, rx_ok O1 p = rx_ok O2 p) -> ord_valid O1 -> ord_valid O2 ->
  apply_variables O1 n1 vs = Some l1 -> apply_variables O2 n2 vs = Some l2 -> Permutation l1 l2.
Proof. exact variables_perm. Qed.
Example C69_example : exists l, apply_variables (demo MpErr) 0
  [PVar KArgs (B "a") false false; PVar KArgs (B "b") false true; PVar KRequestUri [] false false; PVar KArgs [] true false; PVar KArgs (B "c") false false] = Some l /\
  l = [VArgs (Filter [B "a"; B "c"] [] [B "b"] []) (Filter [B "a"; B "c"] [] [B "b"] []); VScalar SRequestUri; VCount (VArgs whole whole)].
Proof. eexists. split; [vm_compute; reflexivity|reflexivity]. Qed.

(** ** C70 *)
Theorem C70_rule_as_written : forall O n vs o a r chain, ord_valid O -> rule_from_seclang O n vs o a = Some (r, chain) ->
  r_id r = pas_id a /\ r_phase r = pas_phase a /\ chain = pas_chain a /\ r_not r = po_not o /\
  r_trans r = map trans_means (pas_trans a) /\ (exists x, r_op r = Some x /\ op_means O o x) /\ acts_mean (pas_acts a) (r_acts r) /\
  (forall t k, In (t, k) meta_names -> meta_values t (pas_acts a) (match assoc k (r_meta r) with Some l => l | None => [] end)) /\ r_subs r = [] /\
  variables_as_written O vs (r_vars r).
Proof.
  intros O n vs o a r chain OV H. destruct (rule_written O n vs o a r chain OV H) as (R1 & R2 & R3 & R4 & R5 & R6 & R7 & R8 & R9 & keys & N & M & F).
  repeat (split; [assumption|]). now apply (as_written O vs keys).
Qed.
Example C70_example : exists r, rule_from_seclang (demo MpErr) 0 [PVar KArgs [] false false] (POper KGe true (B " 12"))
    (PActions 7 3 true [KLowercase; KNone] [PAction KMsg (B "'m'"); PAction KTag (B "a"); PAction KStatus (B "404"); PAction KTag (B "b"); PAction KDeny []]) = Some (r, true) /\
  r_op r = Some (OpCmp CGe 12) /\ r_acts r = [AStatus 404; ADeny] /\ r_meta r = [(B "msg", [B "m"]); (B "tag", [B "a"; B "b"])].
Proof. eexists. split; [vm_compute; reflexivity|repeat split]. Qed.
Print Assumptions C69_variables_as_written.
Print Assumptions C69_same_variables.
Print Assumptions C70_rule_as_written.

(** ** C61: false of the code: the numbers of the text are used as those of the
    engine, whose first phase is the connection. *)
Definition phase_text (n : string) : bs := B "SecRule REQUEST_METHOD ""@rx GET"" ""id:1,deny,phase:" ++ B n ++ B """".
Definition all_calls : list op :=
  [OpConnection (B "1") (B "2") (B "3") (B "4"); OpRequestURL (Some (demo_url "/" "")) (B "GET") (B "HTTP/1.1"); OpRequestHeader []; OpRequestBody;
   OpResponseHeaders 200 (B "HTTP/1.1") []; OpResponseBody; OpLogging; OpResult].
(** A rule written for the request headers never sees the method; one written for
    the request body has denied before the body is processed. *)
Theorem C61_documented_phase_refuted :
  (exists l t i, new_direset 200 (demo MpErr) 0 (phase_text "1") = Ret (Some l) /\
     (let e := execute l new_engine in
      exists os, steps 9 (demo MpErr) e (e_ruleset e) all_calls (new_txn e) = Ret (t, os) /\ last os ObsNone = ObsResult i /\ i_disruptive i = false)) /\
  (exists l t i, new_direset 200 (demo MpErr) 0 (phase_text "2") = Ret (Some l) /\
     (let e := execute l new_engine in
      exists os, steps 9 (demo MpErr) e (e_ruleset e) (firstn 3 all_calls ++ [OpResult]) (new_txn e) = Ret (t, os) /\ last os ObsNone = ObsResult i /\ i_disruptive i = true)).
Proof.
  split; eexists _, _, _; (split; [vm_compute; reflexivity|]); eexists; (split; [vm_compute; reflexivity|]); split; reflexivity.
Qed.
Lemma followers_from : forall l subs oth rest, followers l subs oth rest -> forall d, In d (oth ++ map fst rest) -> In d (map fst l).
Proof.
  intros l subs oth rest F. induction F as [|r l|r l subs oth rest F IH|d0 c l subs oth rest N F IH]; intros d I; cbn [map fst] in *.
  - exact I.
  - now right.
  - right. now apply IH.
  - destruct I as [<-|I]; [now left|right; now apply IH].
Qed.
Lemma assembled_from : forall items l, assembled items l -> forall r, In (IRule r) l -> exists r0 subs, In (IRule r0) (map fst items) /\ r = with_followers r0 subs.
Proof.
  intros items l A. induction A as [|d c l l' N A IH|r0 l l' A IH|r0 l subs oth rest l' F A IH]; intros r I.
  - destruct I.
  - destruct I as [->|I]; [easy|]. destruct (IH r I) as (r0 & subs & I0 & E). exists r0, subs. split; [now right|exact E].
  - destruct I as [E|I].
    + injection E as <-. exists r0, []. split; [now left|now rewrite with_nil].
    + destruct (IH r I) as (r1 & subs & I0 & E). exists r1, subs. split; [now right|exact E].
  - destruct I as [E|I].
    + injection E as <-. exists r0, subs. split; [now left|reflexivity].
    + apply in_app_iff in I as [I|I].
      * apply followers_kept in F as (_ & _ & _ & F). rewrite <- F in I. apply filter_In in I as [_ I]. discriminate.
      * destruct (IH r I) as (r1 & subs' & I0 & E). exists r1, subs'. split; [|exact E]. right. apply (followers_from l subs oth rest F). apply in_app_iff. now right.
Qed.
Lemma loaded_from : forall O n ds items, loaded O n ds items -> forall r, In (IRule r) (map fst items) ->
  exists m vs o a c, In (DRule vs o a) ds /\ rule_from_seclang O m vs o a = Some (r, c).
Proof.
  intros O n ds items L. induction L as [n|n d ds x xs F L IH]; intros r I; [destruct I|]. destruct I as [E|I].
  - destruct d as [vs o a|b|b|v]; simpl in F; try (injection F as <-; discriminate). destruct (rule_from_seclang O n vs o a) as [[r' c]|] eqn:R; [|discriminate].
    injection F as <-. simpl in E. injection E as ->. exists n, vs, o, a, c. split; [now left|exact R].
  - destruct (IH r I) as (m & vs & o & a & c & J & R). exists m, vs, o, a, c. split; [now right|exact R].
Qed.
(** A loaded rule's phase is the number in the text, 0 if none is given. *)
Theorem C61_phase_of_rule_partial : forall O n text l fuel r, ord_valid O -> new_direset fuel O n text = Ret (Some l) -> In (IRule r) l ->
  exists ds vs o a, file_text ds text /\ In (DRule vs o a) ds /\ r_phase r = pas_phase a /\ r_id r = pas_id a /\ 0 <= pas_phase a <= 5.
Proof.
  intros O n text l fuel r OV H I. destruct (proj1 (new_direset_iff O n text l)) as (ds & items & F & L & A); [eauto|].
  destruct (assembled_from items l A r I) as (r0 & subs & I0 & ->). destruct (loaded_from O n ds items L r0 I0) as (m & vs & o & a & c & J & R).
  exists ds, vs, o, a. split; [exact F|]. split; [exact J|]. destruct (rule_written O m vs o a r0 c OV R) as (R1 & R2 & _). cbn [with_followers r_phase r_id].
  split; [exact R2|]. split; [exact R1|]. apply file_wf in F. rewrite Forall_forall in F. apply F in J. apply J.
Qed.
(** The call with number [p] - 1 connection, 2 request headers, 3 request body, 4
    response headers, 5 response body, 6 logging - evaluates the rules loaded with
    phase [p] and no other loaded rule; so number 6 evaluates none. *)
Theorem C61_run_by_number_partial : forall f O e l o p t t' b, 1 <= p <= 6 ->
  let e' := execute l e in let rs := e_ruleset e' in
  op_phase o = Some p -> t_phase t < p -> t_abort t = false -> Engine.step f O e' rs o t = Ret (t', b) ->
  exists vis, visits f O e' rs p 0 (entered rs p (given o t)) vis t' /\
    phase_rules rs p = phase_rules (e_ruleset e) p ++ List.filter (fun r => r_phase r =? p) (rules_of l).
Proof.
  intros f O e l o p t t' b P e' rs Q L A H. rewrite (step_phase _ _ _ _ _ _ p Q) in H.
  destruct (process_phase f O e' rs p (given o t)) as [t1| |] eqn:E; try discriminate. cbn in H. apply Ret_eq in H. injection H as <- <-.
  destruct (given_same o t) as (G1 & G2 & _). destruct (phase_run f O e' rs p (given o t) t1 P) as (vis & V); [congruence..|exact E|].
  exists vis. split; [exact V|]. apply (C65_execute l e). exact P.
Qed.
Theorem C61_logging_runs_none_partial : forall O n text l fuel e, ord_valid O -> new_direset fuel O n text = Ret (Some l) ->
  phase_rules (e_ruleset (execute l e)) 6 = phase_rules (e_ruleset e) 6.
Proof.
  intros O n text l fuel e OV H. rewrite (proj1 (proj2 (proj2 (proj2 (C65_execute l e)))) 6 ltac:(lia)). rewrite <- app_nil_r. f_equal.
  assert (K : forall r, In r (rules_of l) -> 0 <= r_phase r <= 5).
  { intros r I. unfold rules_of in I. apply in_flat_map in I as (d & D & I). destruct d as [r'|b|b|v]; try easy. destruct I as [<-|[]].
    destruct (C61_phase_of_rule_partial O n text l fuel r' OV H D) as (ds & vs & o & a & _ & _ & E & _ & R). lia. }
  induction (rules_of l) as [|r rl IH]; [reflexivity|]. cbn [List.filter]. pose proof (K r ltac:(now left)) as X. destruct (Z.eqb_spec (r_phase r) 6); [lia|].
  apply IH. intros q Q. apply K. now right.
Qed.
Example C61_example : exists l, new_direset 200 (demo MpErr) 0 (phase_text "request") = Ret (Some l) /\
  map r_phase (phase_rules (e_ruleset (execute l new_engine)) 2) = [2] /\ phase_rules (e_ruleset (execute l new_engine)) 3 = [].
Proof. eexists. split; [vm_compute; reflexivity|split; reflexivity]. Qed.
Print Assumptions C61_documented_phase_refuted.
Print Assumptions C61_phase_of_rule_partial.
Print Assumptions C61_run_by_number_partial.
Print Assumptions C61_logging_runs_none_partial.
