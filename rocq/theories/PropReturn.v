(** Property theorems C99: engines loaded from a text, and the calls they answer. *)
From Verif Require Import Base BaseFacts GoStrings Utils Buffer BufferFacts SpecBuffer Types Transforms Operators Transaction Variables Rules Engine
  SpecText NumFacts SpecVars VarText VarFacts BodyFacts SpecRules PropText PropVars RuleFacts Scanner Loader SpecParse ParseFacts ParseLists ParseFiles ParsePrint
  SpecLoad LoadFacts SpecTxn TxnFacts LoopFacts Witness PropRules PropPhases PropTxn PropLoad PropEnd SpecData PropData SpecGate PropGate PropSafe PropFile SpecBody PropBody SpecVerdict PropVerdict SpecHang PropHang.
From Coq Require Import ZifyBool.

(** ** Words as written and as loaded *)
Lemma allows_app : forall a b, allows (a ++ b) = allows a ++ allows b.
Proof. intros a b. unfold allows. apply flat_map_app. Qed.
Lemma allows_cons : forall a l, allows (a :: l) = allows [a] ++ allows l.
Proof. intros a l. apply (allows_app [a] l). Qed.
Lemma acts_mean_allows : forall l x, acts_mean l x -> words_of l (allows x).
Proof.
  intros l x H. induction H as [|a l x y A H IH]; [constructor|]. rewrite allows_app.
  destruct A as [s|s|s|s|s z U|s z n U D I|t s I]; cbn [allows flat_map app]; try (apply wo_other; [discriminate|exact IH]); [now constructor|].
  apply wo_other; [|exact IH]. cbn. intros ->. repeat (destruct I as [I|I]; [discriminate|]). destruct I.
Qed.
Lemma stable_allows : forall as_ g, stable_grouping as_ g -> allows g = allows as_.
Proof.
  intros as_ g (_ & _ & F).
  assert (K : forall l, allows l = allows (List.filter (fun a => group_of a =? group_of (AAllow [])) l)).
  { induction l as [|a l IH]; [reflexivity|]. cbn [List.filter]. destruct (group_of a =? group_of (AAllow [])) eqn:Q.
    - rewrite allows_cons, IH, <- allows_cons. reflexivity.
    - rewrite allows_cons, IH. destruct a; try reflexivity. discriminate. }
  now rewrite K, (K as_), F.
Qed.
Lemma unfolds_allows : forall g l, unfolds [] g l -> allows l = allows g.
Proof.
  intros g l H. remember [] as d eqn:E. induction H as [|a g l N H IH|h g l1 l2 S H1 IH1 H2 IH2]; [reflexivity| |]; subst d.
  - rewrite allows_cons, IH by reflexivity. symmetry. apply allows_cons.
  - rewrite allows_app, IH1, IH2 by reflexivity. rewrite (stable_allows _ _ S). reflexivity.
Qed.
Lemma chain_actions_words : forall O rr l, ord_valid O -> chain_actions [] rr l -> forall c, Forall2 (loaded_as O) c rr -> chain_words c (allows l).
Proof.
  intros O rr l OV H. induction H as [|r rr l1 l2 (g & S & U) H IH]; intros c F; inversion F as [|w r' c' rr' LA F' E1 E2]; subst; [constructor|].
  rewrite allows_app. constructor; [|auto]. rewrite (unfolds_allows _ _ U), (stable_allows _ _ S). destruct LA as (n & ch & LA).
  destruct (C70_rule_as_written _ _ _ _ _ _ _ OV LA) as (_ & _ & _ & _ & _ & _ & A & _). now apply acts_mean_allows.
Qed.
(** ** C99 *)
(** Engines loaded from a text answer every call, if no chain leads back to its own
    phase (and the body is not looked at, or reading a form neither fails nor hangs). *)
Theorem C99_calls_answered_partial : forall fuel O n text ds l, ord_valid O -> file_text ds text -> new_direset fuel O n text = Ret (Some l) -> no_way_back ds ->
  last (body_switches ds) false = false \/ (forall b bd m, fst (multipart O b bd m) <> MpErr /\ fst (multipart O b bd m) <> MpHang) ->
  let e := execute l new_engine in
  forall f os, (length ds + 2 <= f)%nat -> exists t' bl, steps f O e (e_ruleset e) os (new_txn e) = Ret (t', bl).
Proof.
  intros fuel O n text ds l OV FT LD S SW e f os FU.
  destruct (proj1 (C62_texts O n text l) (ex_intro _ fuel LD)) as (ds' & items & F & L & A). pose proof (file_text_fun _ _ _ FT F). subst ds'.
  destruct (C62_nothing_lost _ _ _ _ _ L A) as (N1 & N2 & N3).
  destruct (C65_execute l new_engine) as (A1 & _ & _ & P1 & P2 & D & L1 & L2 & _). fold e in A1, P1, P2, D, L1, L2.
  assert (RA : e_reqaccess e = false \/ (forall b bd m, fst (multipart O b bd m) <> MpErr /\ fst (multipart O b bd m) <> MpHang)).
  { destruct SW as [SW|SW]; [left|now right]. rewrite A1, req_flags_filter, N2, <- req_flags_filter, (loaded_switches _ _ _ _ L). exact SW. }
  pose proof (C78_calls_never_panic_partial f O e (e_ruleset e) os) as NP.
  assert (NT : steps f O e (e_ruleset e) os (new_txn e) <> Timeout).
  { apply C32_no_way_back_terminates_partial.
    - intros p r x P I CA. apply (text_phase l p r P) in I as [I R]. destruct (text_chains fuel O n text ds l FT LD) as [T1 _]. destruct (T1 r I) as (c & CI & CH).
      pose proof CH as (w & c' & -> & _). rewrite <- R, (chain_phase O OV _ _ _ CH). apply (S w c' _ CI). rewrite D in CA. eapply chain_actions_words; [exact OV| |exact (chain_members _ _ _ CH)].
      clear -CA. inversion CA as [|r0 rr l1 l2 RA CR]; subst. constructor; [exact RA|exact CR].
    - rewrite D. easy.
    - destruct RA as [RA|RA]; [left; exact RA|right; intros b bd m; apply RA].
    - intros p P. rewrite P1 by exact P. change (phase_rules (e_ruleset new_engine) p) with (@nil rule). cbn [app].
      pose proof (filter_length_le _ (fun r => r_phase r =? p) (rules_of l)) as H1. pose proof (rules_of_fewer l) as H2. pose proof (rules_of_length (map fst items)) as H3.
      rewrite N1 in H2. rewrite map_length in H3. clear -H1 H2 H3 N3 FU. lia. }
  destruct (steps f O e (e_ruleset e) os (new_txn e)) as [[t' bl]| |]; [eauto| |easy]. elim NP; [| | |reflexivity].
  - apply (loaded_armed fuel O n text l new_engine LD). intros p r q [].
  - destruct RA as [RA|RA]; [right; left; exact RA|right; right; intros b bd m; apply RA].
  - left. rewrite L2. discriminate.
Qed.
(** The phases a text can name. *)
Lemma text_phases : forall ds text, file_text ds text -> forall d w, In d ds -> rule_line d w -> 0 <= pas_phase (w_acts w) <= 5.
Proof.
  intros ds text H. induction H as [g S|g d e ds k S D H IH]; intros x w I R; [easy|]. destruct I as [<-|I]; [|eauto].
  unfold rule_line in R. destruct D as [w0 vs o a s1 s2 s3 e1 e2 e3 _ _ _ _ _ _ A| | |]; try discriminate. injection R as _ _ <-.
  destruct A as (core & parts & items & _ & _ & _ & _ & F & (_ & -> & _)).
  assert (K : Forall (fun n => 0 <= n <= 5) (phase_of items)).
  { clear -F. induction F as [|it s items parts T F IH]; [constructor|]. cbn [phase_of flat_map]. apply Forall_app. split; [|exact IH].
    destruct T as [t w1 w2 sel v i _ _ _ V]. destruct V as [| s x n _ I | s x n _ _ I| | | | |]; try apply Forall_nil; (apply Forall_cons; [|apply Forall_nil]).
    - simpl in I. destruct I as [I|[I|[I|[]]]]; injection I as _ <-; lia.
    - lia. }
  clear -K. induction K as [|n l N K IH]; [cbn; lia|]. destruct l; [exact N|exact IH].
Qed.
(** Only allow:request, and only in phases 4 and 5, leads back to a phase a text can
    name. *)
Theorem C99_only_allow_request_leads_back : forall p ws, p <= 5 -> leads_back p ws -> 4 <= p /\ In (B "request") ws.
Proof.
  intros p ws P [L (w & I & J)].
  assert (K : forall a ws q, lands a ws q -> (p <= a -> p < q \/ (a = q /\ forall w, In w ws -> ~ In w [[]; B "phase"; B "request"]) \/ (4 <= p /\ In (B "request") ws))).
  { clear -P. intros a ws q H. induction H as [a|a ws q H IH|a ws q H IH|a ws q H IH|a w ws q N H IH]; intro A.
    - right. left. split; [reflexivity|]. intros w [].
    - destruct IH as [X|[(X & _)|(X & Y)]]; [lia|now left|left; lia|right; right; split; [exact X|now right]].
    - destruct IH as [X|[(X & _)|(X & Y)]]; [lia|now left|left; lia|right; right; split; [exact X|now right]].
    - destruct (Z_lt_le_dec p 4) as [Q|Q]; [|right; right; split; [exact Q|now left]].
      destruct IH as [X|[(X & _)|(X & Y)]]; [lia|now left|left; lia|lia].
    - destruct (IH A) as [X|[(X & Y)|(X & Y)]]; [now left|right; left; split; [exact X|]; intros v [<-|V]; auto|right; right; split; [exact X|now right]]. }
  destruct (K _ _ _ L ltac:(lia)) as [X|[(_ & X)|X]]; [lia| |exact X]. elim (X w I J).
Qed.
(** So texts of which no chain of phase 4 or 5 says allow:request have no way back. *)
Theorem C99_texts_without_way_back : forall ds text, file_text ds text ->
  (forall w c ws, chain_in ds (w :: c) -> 4 <= pas_phase (w_acts w) -> chain_words (w :: c) ws -> ~ In (B "request") ws) -> no_way_back ds.
Proof.
  intros ds text FT N w c ws CI CW LB. destruct (chain_in_lines _ _ CI w (or_introl eq_refl)) as (d & D1 & D2).
  destruct (C99_only_allow_request_leads_back _ _ (proj2 (text_phases _ _ FT _ _ D1 D2)) LB) as [P I]. exact (N _ _ _ CI P CW I).
Qed.
(** Otherwise a rule of one line hangs every transaction it matches; so does, one phase
    later, a rule that goes back and forth. *)
Definition hang_text (acts : string) : bs := B "SecRule RESPONSE_STATUS ""@eq 200"" ""id:1," ++ B acts ++ B """".
Definition hang_calls (last : list op) : list op :=
  [OpConnection (B "1") (B "2") (B "3") (B "4"); OpRequestURL None (B "GET") (B "HTTP/1.1"); OpRequestHeader []; OpRequestBody; OpResponseHeaders 200 (B "HTTP/1.1") []] ++ last.
Theorem C99_calls_answered_refuted : exists O, ord_valid O /\
  (exists l, new_direset 200 O 0 (hang_text "phase:4,allow:request") = Ret (Some l) /\
     let e := execute l new_engine in forall f, steps f O e (e_ruleset e) (hang_calls []) (new_txn e) = Timeout) /\
  (exists l, new_direset 200 O 0 (hang_text "phase:5,allow:request,allow:phase") = Ret (Some l) /\
     let e := execute l new_engine in forall f, steps f O e (e_ruleset e) (hang_calls [OpResponseBody]) (new_txn e) = Timeout).
Proof.
  assert (HANG : forall p l os o t bl, op_phase o = Some p ->
     let e := execute l new_engine in let rs := e_ruleset e in
     (forall f, steps (S (S f)) (demo MpErr) e rs os (new_txn e) = Ret (t, bl)) -> armed rs -> forms_harmless (demo MpErr) e rs ->
     (forall r q v, In r (phase_rules rs p) -> In q (r :: r_subs r) -> In v (r_vars q) -> looks_at_body v = false) ->
     t_phase t < p -> t_abort t = false -> evaluates_twice (demo MpErr) e rs p (given o t) ->
     forall f, steps (S (S f)) (demo MpErr) e rs (os ++ [o]) (new_txn e) = Timeout).
  { intros p l os o t bl P e rs ST AR FH GG L A ET f. destruct (given_same o t) as (GP & GA & _).
    pose proof (C78_calls_never_panic_partial (S (S f)) (demo MpErr) e rs (os ++ [o]) AR FH) as NP.
    destruct (steps (S (S f)) (demo MpErr) e rs (os ++ [o]) (new_txn e)) as [[t' bl']| |] eqn:H; [|elim NP; [|reflexivity]; left; destruct (C65_execute l new_engine) as (_ & _ & _ & _ & _ & _ & _ & M & _); fold e in M; rewrite M; discriminate|reflexivity].
    exfalso. apply steps_app in H as (t1 & b1 & b2 & H1 & H2 & _). rewrite ST in H1. apply Ret_inj in H1. injection H1 as <- <-.
    apply steps_cons in H2 as (t2 & b & b3 & H2 & _). rewrite (step_phase _ _ _ _ _ _ p P) in H2. apply bind_Ret in H2 as (t3 & H2 & _).
    revert H2. apply C32_rule_twice_never_returns; [apply demo_ord|apply (op_phase_range _ _ P)|now left|rewrite GP; exact L|rewrite GA; exact A|exact ET]. }
  exists (demo MpErr). split; [apply demo_ord|]. split.
  - eexists. split; [vm_compute; reflexivity|]. cbv zeta. match goal with |- context [execute ?x _] => set (l := x) end. intros [|[|f]]; [vm_compute; reflexivity|vm_compute; reflexivity|].
    pose (e := execute l new_engine). pose (rs := e_ruleset e).
    assert (PR : forall q r, In r (phase_rules rs q) -> q = 4 /\ exists r0, r = r0 /\ phase_rules rs 4 = [r0]).
    { intros q r I. unfold phase_rules, zassoc in I. cbn in I. destruct (q =? 4) eqn:Q; [|easy]. split; [lia|]. destruct I as [<-|[]]. eexists. split; [reflexivity|vm_compute; reflexivity]. }
    assert (LB : forall q r s, In r (phase_rules rs q) -> In s (r :: r_subs r) -> r_op s <> None /\ forall v, In v (r_vars s) -> lists_post_names v = false /\ looks_at_body v = false).
    { intros q r s I J. destruct (PR _ _ I) as (_ & r0 & -> & E). vm_compute in E. injection E as <-. destruct J as [<-|[]]. split; [discriminate|]. intros v [<-|[]]. split; reflexivity. }
    change (hang_calls []) with ([OpConnection (B "1") (B "2") (B "3") (B "4"); OpRequestURL None (B "GET") (B "HTTP/1.1"); OpRequestHeader []; OpRequestBody] ++ [OpResponseHeaders 200 (B "HTTP/1.1") []]).
    eapply (HANG 4 l); [reflexivity| | | | | | |].
    + intro g. vm_compute. reflexivity.
    + intros q r s I J. now apply (LB q r s I J).
    + left. intros q r s v I J K. now apply (LB q r s I J).
    + intros r s v I J K. now apply (LB 4 r s I J).
    + vm_compute. reflexivity.
    + vm_compute. reflexivity.
    + exists [0]. eexists _, _. split; [|now left]. eapply go_on; [vm_compute; reflexivity|discriminate|apply (rule_turn 5); vm_compute; reflexivity|vm_compute; reflexivity|vm_compute; reflexivity|].
      apply go_here; [vm_compute; reflexivity|discriminate].
  - eexists. split; [vm_compute; reflexivity|]. cbv zeta. match goal with |- context [execute ?x _] => set (l := x) end. intros [|[|f]]; [vm_compute; reflexivity|vm_compute; reflexivity|].
    pose (e := execute l new_engine). pose (rs := e_ruleset e).
    assert (PR : forall q r, In r (phase_rules rs q) -> q = 5 /\ exists r0, r = r0 /\ phase_rules rs 5 = [r0]).
    { intros q r I. unfold phase_rules, zassoc in I. cbn in I. destruct (q =? 5) eqn:Q; [|easy]. split; [lia|]. destruct I as [<-|[]]. eexists. split; [reflexivity|vm_compute; reflexivity]. }
    assert (LB : forall q r s, In r (phase_rules rs q) -> In s (r :: r_subs r) -> r_op s <> None /\ forall v, In v (r_vars s) -> lists_post_names v = false /\ looks_at_body v = false).
    { intros q r s I J. destruct (PR _ _ I) as (_ & r0 & -> & E). vm_compute in E. injection E as <-. destruct J as [<-|[]]. split; [discriminate|]. intros v [<-|[]]. split; reflexivity. }
    change (hang_calls [OpResponseBody]) with (hang_calls [] ++ [OpResponseBody]).
    eapply (HANG 5 l); [reflexivity| | | | | | |].
    + intro g. vm_compute. reflexivity.
    + intros q r s I J. now apply (LB q r s I J).
    + left. intros q r s v I J K. now apply (LB q r s I J).
    + intros r s v I J K. now apply (LB 5 r s I J).
    + vm_compute. reflexivity.
    + vm_compute. reflexivity.
    + exists [0]. eexists _, _. split; [|now left]. eapply go_on; [vm_compute; reflexivity|discriminate|apply (rule_turn 5); vm_compute; reflexivity|vm_compute; reflexivity|vm_compute; reflexivity|].
      apply go_here; [vm_compute; reflexivity|discriminate].
Qed.
(** Going back to an earlier phase does not hang a call; the words are read unquoted. *)
Example C99_example : exists ds l, file_text ds (hang_text "phase:5,allow:'request'") /\ new_direset 200 (demo MpErr) 0 (hang_text "phase:5,allow:'request'") = Ret (Some l) /\
  no_way_back ds /\ last (body_switches ds) false = false /\
  let e := execute l new_engine in
  exists t bl, steps 3 (demo MpErr) e (e_ruleset e) (hang_calls [OpResponseBody]) (new_txn e) = Ret (t, bl) /\ t_phase t = 4.
Proof.
  eexists _, _. split; [apply parse_text_iff; exists 500%nat; vm_compute; reflexivity|]. split; [vm_compute; reflexivity|]. split; [|split; [reflexivity|eexists _, _; split; vm_compute; reflexivity]].
  intros w c ws CI CW [LB _].
  assert (W : w = Written [PVar KResponseStatus [] false false] (POper KEq false (B "200")) (PActions 1 5 false [] [PAction KAllow (B "'request'")]) /\ c = []).
  { inversion CI as [? ? ? F|? ? ? ? F K|? ? ? N K]; subst.
    - destruct F as (d & w' & ds' & E & R & [(_ & E2 & _)|(X & _)]); injection E as <- <-; unfold rule_line in R; destruct w' as [vs o a]; injection R as <- <- <-; [|discriminate].
      injection E2 as -> ->. split; reflexivity.
    - destruct F as (d & w' & ds' & E & R & [(_ & _ & E2)|(X & _)]); injection E as <- <-; unfold rule_line in R; destruct w' as [vs o a]; injection R as <- <- <-; [|discriminate].
      subst. inversion K as [? ? ? F|? ? ? ? F|]; destruct F as (? & ? & ? & E & _); discriminate.
    - elim (N (Written [PVar KResponseStatus [] false false] (POper KEq false (B "200")) (PActions 1 5 false [] [PAction KAllow (B "'request'")]))). reflexivity. }
  destruct W as [-> ->]. inversion CW as [|? ? a b W1 W2]; subst. inversion W2; subst. rewrite app_nil_r in LB. cbn in W1.
  inversion W1 as [|s x l0 ws U W3|? ? ? N W3]; subst; [|now elim N]. inversion W3; subst. cbn [w_acts pas_phase] in LB.
  assert (x = B "request").
  { apply trimQuote_iff in U. vm_compute in U. now rewrite <- U. }
  subst x. inversion LB as [| | |? ? ? H|? ? ? ? N H]; subst; [inversion H|]. elim N. right. right. now left.
Qed.
Print Assumptions C99_calls_answered_partial.
Print Assumptions C99_only_allow_request_leads_back.
Print Assumptions C99_texts_without_way_back.
Print Assumptions C99_calls_answered_refuted.
