(** The text of the rules against the texts of a whole exchange: the answer in full. *)
From Verif Require PropScript.
From Verif Require Import Base BaseFacts GoStrings Utils Buffer BufferFacts SpecBuffer Types Transforms Operators Transaction Variables Rules Engine
  SpecText NumFacts TextFacts TransFacts SpecVars VarText VarFacts BodyFacts SpecRules PropText PropVars RuleFacts Scanner Registry Loader SpecParse ParseFacts ParseLists ParseFiles ParsePrint
  SpecLoad LoadFacts SpecTxn TxnFacts LoopFacts Witness PropRules PropPhases PropTxn PropLoad PropEnd SpecData PropData SpecQuery PropQuery SpecGate PropGate SpecAccount PropAccount PropSafe PropFile SpecBody PropBody SpecVerdict PropVerdict
  SpecAnswer PropAnswer SpecReply PropReply Regex SpecRegex PropRegex Uri SpecUri PropUri Media SpecMedia PropMedia Multi SpecMulti PropMulti SpecFilter PropFilter SpecExchange.
From Coq Require Import ZifyBool.

(** ** What the words stand for is determined, but for the order *)
Lemma type_fun : forall ct mt qs mt' qs', content_type mt qs ct -> NoDup (map fst qs) -> content_type mt' qs' ct -> NoDup (map fst qs') -> mt = mt'.
Proof.
  intros ct mt qs mt' qs' C N C' N'. destruct (proj1 (C20_media_types mt qs ct C) N) as (bd & M & _). destruct (proj1 (C20_media_types mt' qs' ct C') N') as (bd' & M' & _). congruence.
Qed.
Lemma told_fun : forall O on rp cs tk a b, told O on rp cs tk a -> told O on rp cs tk b -> a = b.
Proof.
  intros O on rp cs tk a b H K.
  destruct H; inversion K; subst; try reflexivity;
    repeat match goal with
    | X : decimal _ ?n, Y : decimal _ ?n |- _ => apply decimal_itoa in X, Y; congruence
    | X : first_value ?k ?h _, Y : first_value ?k ?h _ |- _ => pose proof (first_value_fun _ _ _ _ X Y); subst; clear Y
    | X : picked ?O ?cs ?p _, Y : picked ?O ?cs ?p _ |- _ => pose proof (keeps_fun _ _ _ _ X _ Y); subst; clear Y
    | X : content_type _ _ [] |- _ => now destruct (some_type _ _ _ X)
    end; try reflexivity; try easy.
  - f_equal. eapply type_fun; eauto.
  - match goal with X : _ \/ _ |- _ => destruct X; [congruence|easy] end.
  - match goal with X : _ \/ _ |- _ => destruct X; [congruence|easy] end.
Qed.
Lemma shown_not_told : forall O rq fs bd on rp cs cs' tk a b, shown O rq fs bd cs tk a -> told O on rp cs' tk b -> False.
Proof. intros O rq fs bd on rp cs cs' tk a b H K. destruct H; inversion K. Qed.
Lemma stands_perm : forall O ds rq fs bd rp cs tk a b, stands_in O ds rq fs bd rp cs tk a -> stands_in O ds rq fs bd rp cs tk b -> Permutation a b.
Proof.
  intros O ds rq fs bd rp cs tk a b [H|H] [K|K]; [eapply shown_perm; eauto|elim (shown_not_told _ _ _ _ _ _ _ _ _ _ _ H K)|elim (shown_not_told _ _ _ _ _ _ _ _ _ _ _ K H)|].
  rewrite (told_fun _ _ _ _ _ _ _ H K). apply Permutation_refl.
Qed.
(** ** A rule matches a state in which every word it mentions yields what it stands for *)
Lemma matches_by : forall O e (P : list call -> vtok -> list bs -> Prop) w s, ord_valid O -> (exists r, loaded_as O w r) ->
  (forall cs tk a b, P cs tk a -> P cs tk b -> Permutation a b) ->
  (forall cs tk c v x, mentions tk c (w_vars w) -> In (tk, v) var_means -> apply_calls O cs v = Some x -> exists s' out l, fetch O e x s = Ret (s', out) /\ P cs tk l /\ Permutation out l) ->
  (written_matches O e s w <-> exists tk c l v o, mentions tk c (w_vars w) /\ P (calls_of tk c (w_vars w)) tk l /\ (if c then decimal v (Z.of_nat (length l)) else In v l) /\ op_means O (w_op w) o /\
    (if po_not (w_op w) then ~ satisfies O o (changed O (pas_trans (w_acts w)) v) else satisfies O o (changed O (pas_trans (w_acts w)) v))).
Proof.
  intros O e P w s OV (r & n & ch & LA) PP FW. destruct (C70_rule_as_written _ _ _ _ _ _ _ OV LA) as (_ & _ & _ & _ & _ & _ & _ & _ & _ & (keys & ND & KM & F)).
  assert (FE : forall tk c v x, mentions tk c (w_vars w) -> In (tk, v) var_means -> apply_calls O (calls_of tk c (w_vars w)) (if c then VCount v else v) = Some x ->
    exists s' out l, fetch O e x s = Ret (s', out) /\ P (calls_of tk c (w_vars w)) tk l /\ forall y, In y out <-> if c then decimal y (Z.of_nat (length l)) else In y l).
  { intros tk c v x M V A. destruct c.
    - apply apply_calls_count in A as (x' & A & ->). destruct (FW _ _ _ _ _ M V A) as (s' & out & l & FX & SH & PE).
      cbn [fetch]. rewrite FX. cbn [bind]. eexists _, _, l. split; [reflexivity|]. split; [exact SH|]. intro y. rewrite decimal_itoa, (Permutation_length PE). cbn [In]. intuition.
    - destruct (FW _ _ _ _ _ M V A) as (s' & out & l & FX & SH & PE). exists s', out, l. split; [exact FX|]. split; [exact SH|].
      intro y. split; apply Permutation_in; [exact PE|now apply Permutation_sym]. }
  split.
  - intros (tk & c & v & x & t' & vals & y & o & M & V & A & FX & J & OM & HT). destruct (FE _ _ _ _ M V A) as (s' & out & l & FX' & SH & OUT).
    rewrite FX in FX'. apply Ret_inj in FX'. injection FX' as <- <-. exists tk, c, l, y, o. split; [exact M|]. split; [exact SH|]. split; [now apply OUT|]. split; [exact OM|exact HT].
  - intros (tk & c & l & y & o & M & SH & J & OM & HT). destruct (forall2_left _ _ _ _ _ _ F (proj2 (KM tk c) M)) as (x & I & v & V & A). cbn [fst snd] in *.
    destruct (FE _ _ _ _ M V A) as (s' & out & l' & FX & SH' & OUT). exists tk, c, v, x, s', out, y, o. split; [exact M|]. split; [exact V|]. split; [exact A|]. split; [exact FX|].
    split; [|split; [exact OM|exact HT]]. apply OUT. pose proof (PP _ _ _ _ SH SH') as Q. destruct c; [now rewrite <- (Permutation_length Q)|eapply Permutation_in; eauto].
Qed.

(** ** What a state yields *)
Definition response_known (rp : response) (s : txn) : Prop := t_code s = r_code rp /\ t_resproto s = r_proto rp /\ t_resheader s = r_header rp.
Definition answer_known (e : engine) (on : bool) (rp : response) (s : txn) : Prop :=
  snd (fetch_response_body e s) = match on, r_body rp with true, x :: b => [x :: b] | _, _ => [] end.
Lemma scalar_calls : forall O cs k y, apply_calls O cs (VScalar k) = Some y -> y = VScalar k.
Proof. intros O cs k y. induction cs as [|[c|c] l IH]; cbn; intro H; [now injection H as <-|now apply IH|now apply IH]. Qed.
Lemma octet_type : forall O, media_library O -> fst (media_type O (B "application/octet-stream")) = B "application/octet-stream".
Proof. intros O ML. rewrite (ML (B "application/octet-stream") (B "application/octet-stream") []); [reflexivity|vm_compute; reflexivity]. Qed.
Lemma fetch_told : forall O e on rp cs tk v x s, ord_valid O -> media_library O -> typed rp -> 4 <= known_from tk -> In (tk, v) var_means -> apply_calls O cs v = Some x ->
  response_known rp s -> (5 <= known_from tk -> answer_known e on rp s) ->
  exists s' out l, fetch O e x s = Ret (s', out) /\ told O on rp cs tk l /\ Permutation out l.
Proof.
  intros O e on rp cs tk v x s OV ML (ct & FV & TY) KF M A (K1 & K2 & K3) AK.
  assert (ON : forall k b, fetch_scalar O e k s = (s, b) -> told O on rp cs tk b -> apply_calls O cs (VScalar k) = Some x ->
    exists s' out l, fetch O e x s = Ret (s', out) /\ told O on rp cs tk l /\ Permutation out l).
  { intros k b F S AC. apply scalar_calls in AC. subst x. exists s, b, b. cbn [fetch]. rewrite F. split; [reflexivity|]. split; [exact S|apply Permutation_refl]. }
  apply var_means_iff in M. destruct tk; try (exfalso; clear -KF; cbn in KF; lia); cbn [var_factory] in M; injection M as <-.
  - apply scalar_calls in A. subst x. cbn [fetch fetch_scalar]. specialize (AK ltac:(cbn; lia)). unfold answer_known in AK. destruct (fetch_response_body e s) as [s' out]. cbn [snd] in AK. subst out.
    eexists _, _, _. split; [reflexivity|]. split; [|apply Permutation_refl]. destruct on; [|apply to_no_body; now left]. destruct (r_body rp) eqn:E; [apply to_no_body; now right|rewrite <- E; apply to_body; [reflexivity|congruence]].
  - pose proof (header_first (B "Content-Length") (r_header rp)) as FL. destruct (header_get (B "Content-Length") (r_header rp)) as [|c0 l0] eqn:E.
    + apply (ON SResponseContentLength [B "0"]); auto; [cbn [fetch_scalar]; rewrite K3, E; reflexivity|now apply to_no_length].
    + apply (ON SResponseContentLength [c0 :: l0]); auto; [cbn [fetch_scalar]; rewrite K3, E; reflexivity|now apply to_length].
  - pose proof (header_first (B "Content-Type") (r_header rp)) as FT. pose proof (first_value_fun _ _ _ _ FV FT) as E. destruct TY as [->|(mt & qs & CT & ND)].
    + apply (ON SResponseContentType [B "application/octet-stream"]); auto; [cbn [fetch_scalar]; rewrite K3, <- E; cbv zeta; now rewrite octet_type|now apply to_no_type].
    + destruct (form_word_media _ _ _ _ ML CT ND) as (bd & MD & _). apply (ON SResponseContentType [mt]); auto; [|exact (to_type _ _ _ _ ct mt qs FV CT ND)].
      cbn [fetch_scalar]. rewrite K3, <- E. cbv zeta. destruct ct; [now destruct (some_type _ _ _ CT)|]. now rewrite MD.
  - apply calls_filter in A. subst x. cbn [fetch fetch_coll]. rewrite K3. eexists _, _, _. split; [unfold filter_fetch; reflexivity|].
    split; [apply to_headers, fetch_keeps|]. apply Permutation_flat_map. apply OV.
  - apply calls_filter in A. subst x. cbn [fetch fetch_coll]. rewrite K3. eexists _, _, _. split; [unfold filter_names; reflexivity|].
    split; [apply to_headers_names, fetch_keeps|]. apply Permutation_map. apply OV.
  - apply (ON SResponseProtocol [r_proto rp]); auto; [cbn; now rewrite K2|constructor].
  - apply (ON SResponseStatus [itoa (r_code rp)]); auto; [cbn; now rewrite K1|]. constructor. now apply decimal_itoa.
Qed.
Lemma addr_shown : forall O e rq fs bd cs v x s, t_srcip s = q_ip rq -> In (KRemoteAddr, v) var_means -> apply_calls O cs v = Some x ->
  exists s' out l, fetch O e x s = Ret (s', out) /\ shown O rq fs bd cs KRemoteAddr l /\ Permutation out l.
Proof.
  intros O e rq fs bd cs v x s K M A. apply var_means_iff in M. cbn [var_factory] in M. injection M as <-. apply scalar_calls in A. subst x.
  exists s, [q_ip rq], [q_ip rq]. cbn. rewrite K. split; [reflexivity|]. split; [constructor|apply Permutation_refl].
Qed.
(** ** The calls *)
Lemma phases_of_app : forall a b, phases_of (a ++ b) = phases_of a ++ phases_of b.
Proof. intros a b. unfold phases_of. apply flat_map_app. Qed.
Lemma phases_of_data : forall A (g : A -> op) l, (forall x, op_phase (g x) = None) -> phases_of (map g l) = [].
Proof. intros A g l N. induction l as [|x l IH]; [reflexivity|]. unfold phases_of in *. cbn [map flat_map]. now rewrite N, IH. Qed.
Lemma exchange_phases : forall rq port ip2 port2 u pieces rp pieces', phases_of (exchange_calls rq port ip2 port2 u pieces rp pieces') = [1; 2; 3; 4; 5; 6].
Proof.
  intros. unfold exchange_calls, request_calls. rewrite !phases_of_app, !phases_of_data by easy. reflexivity.
Qed.
Lemma before_in_six : forall l p r q, l ++ p :: r = [1; 2; 3; 4; 5; 6] -> (In q l <-> 1 <= q < p).
Proof.
  intros l p r q E. destruct l as [|a1 [|a2 [|a3 [|a4 [|a5 [|a6 l]]]]]]; cbn [app] in E; injection E; clear E; intros; subst; try (cbn; lia).
  destruct l; discriminate.
Qed.
Lemma phases_of_in : forall os q, In q (phases_of os) <-> exists o, In o os /\ op_phase o = Some q.
Proof.
  intros os q. unfold phases_of. rewrite in_flat_map. split; intros (o & I & J); exists o; (split; [exact I|]); [destruct (op_phase o); [destruct J as [->|[]]; reflexivity|destruct J]|rewrite J; now left].
Qed.
Lemma response_writes_app : forall a b, response_writes (a ++ b) = response_writes a ++ response_writes b.
Proof. intros a b. induction a as [|o a IH]; [reflexivity|]. destruct o; cbn [app response_writes]; now rewrite IH. Qed.
Section Exchange.
Variables (fuel : nat) (O : oracles) (n : nat) (text : bs) (ds : list directive) (l : list dire).
Hypothesis OV : ord_valid O.
Hypothesis UL : uri_library O.
Hypothesis ML : media_library O.
Hypothesis MU : multipart_library O.
Hypothesis FT : file_text ds text.
Hypothesis LD : new_direset fuel O n text = Ret (Some l).
Hypothesis ST : straight ds.
Hypothesis TI : timely ds.
Let e := execute l new_engine.
Let rs := e_ruleset e.
Variables (f : nat) (rq : request) (port ip2 port2 : bs) (u : url) (pieces : list bs) (fs : list (bs * bs)) (txt : list bs) (rp : response) (pieces' : list bs).
Hypothesis PT : parse_target (q_target rq) = Some u.
Hypothesis BE : q_body rq = concat pieces.
Hypothesis LB : Z.of_nat (length (q_body rq)) <= 131072.
Hypothesis BF : body_fields (last (body_switches ds) false) rq fs txt.
Hypothesis RE : r_body rp = concat pieces'.
Hypothesis LR : Z.of_nat (length (r_body rp)) <= 524228.
Hypothesis TY : typed rp.
Let pre := request_calls rq port ip2 port2 u pieces.
Let back := OpResponseHeaders (r_code rp) (r_proto rp) (r_header rp).
Let later := [OpRequestBody; back] ++ map (fun x => OpAppendResponseBody x NoFault) pieces' ++ [OpResponseBody; OpLogging].
Let on := last (response_switches ds) false.
Lemma bodiless_early : bodiless ds 1 /\ bodiless ds 2.
Proof.
  split; intros w c w' v CI P I V J; pose proof (TI w c w' v CI I V) as K; rewrite P in K; cbn in J; destruct (pv_tok v); cbn in K; try (clear -K; lia); clear -J; intuition discriminate.
Qed.
Lemma later_after : Forall after_request later.
Proof. unfold later, back. repeat (apply Forall_app; split); repeat constructor. apply Forall_map, Forall_forall. easy. Qed.
Lemma engine_answers : e_resaccess e = on /\ e_reslimit e = 524228.
Proof.
  destruct (proj1 (C62_texts O n text l) (ex_intro _ fuel LD)) as (ds' & items & F & L & A). pose proof (file_text_fun _ _ _ FT F). subst ds'.
  destruct (C62_nothing_lost _ _ _ _ _ L A) as (_ & N2 & _).
  destruct (C65_execute l new_engine) as (_ & A2 & _ & _ & _ & _ & _ & _ & L3). fold e in A2, L3. split; [|exact L3].
  rewrite A2, PropScript.res_flags_filter, N2, <- PropScript.res_flags_filter, (PropScript.loaded_answers _ _ _ _ L). reflexivity.
Qed.
Lemma in_calls : forall o, In o (pre ++ later) -> (forall x, connection o = Some x -> x = (q_ip rq, port, ip2, port2)) /\ (forall x, response_line o = Some x -> o = back).
Proof.
  intros o I. unfold pre, request_calls, later in I. rewrite !in_app_iff in I.
  destruct I as [[[<-|[<-|[<-|[]]]]|I]|[[<-|[<-|[]]]|[I|[<-|[<-|[]]]]]]; try (apply in_map_iff in I as (y & <- & _)); split; intros x X; try discriminate X; try reflexivity. now injection X.
Qed.
Lemma split_phases : forall a o b p, pre ++ later = a ++ o :: b -> op_phase o = Some p -> phases_of a ++ p :: phases_of b = [1; 2; 3; 4; 5; 6].
Proof.
  intros a o b p Q P. pose proof (exchange_phases rq port ip2 port2 u pieces rp pieces') as E. change (exchange_calls _ _ _ _ _ _ _ _) with (pre ++ later) in E. rewrite Q, phases_of_app in E.
  rewrite <- E. f_equal. unfold phases_of. cbn [flat_map]. now rewrite P.
Qed.
Lemma calls_ahead : forall a o b p, pre ++ later = a ++ o :: b -> op_phase o = Some p -> ahead a p.
Proof.
  intros a o b p Q P o' q I Y. pose proof (before_in_six _ _ _ q (split_phases _ _ _ _ Q P)) as X. apply X. apply phases_of_in. eauto.
Qed.
Lemma address_known : forall a o b p t c, pre ++ later = a ++ o :: b -> op_phase o = Some p -> steps f O e rs a (new_txn e) = Ret (t, c) ->
  t_srcip (given o t) = q_ip rq /\ t_srcport (given o t) = port.
Proof.
  intros a o b p t c Q P S. destruct a as [|o1 a].
  - injection Q as <- _. split; reflexivity.
  - assert (OC : connection o = None).
    { assert (I : In o (OpRequestURL (Some u) (q_method rq) (q_proto rq) :: OpRequestHeader (q_header rq) :: map (fun x => OpAppendRequestBody x NoFault) pieces ++ later)).
      { change (pre ++ later) with (OpConnection (q_ip rq) port ip2 port2 :: OpRequestURL (Some u) (q_method rq) (q_proto rq) :: OpRequestHeader (q_header rq) :: map (fun x => OpAppendRequestBody x NoFault) pieces ++ later) in Q.
        cbn [app] in Q. injection Q as _ Q. rewrite Q. apply in_app_iff. right. now left. }
      destruct I as [<-|[<-|I]]; [reflexivity|reflexivity|]. unfold later in I. rewrite !in_app_iff in I.
      destruct I as [I|[[<-|[<-|[]]]|[I|[<-|[<-|[]]]]]]; try reflexivity; apply in_map_iff in I as (y & <- & _); reflexivity. }
    pose proof (evaluating_holds _ _ _ _ _ _ (ev_between f O e rs _ t c S)) as (H1 & _).
    assert (E : (t_srcip t, t_srcport t, t_dstip t, t_dstport t) = (q_ip rq, port, ip2, port2)).
    { destruct H1 as [(x1 & oc & x2 & EA & K & _)|(N & _)].
      - assert (I : In oc (pre ++ later)) by (rewrite Q; apply in_app_iff; left; rewrite EA; apply in_app_iff; right; now left). exact (proj1 (in_calls oc I) _ K).
      - exfalso. injection Q as <- _. specialize (N _ (or_introl eq_refl)). discriminate N. }
    injection E as E1 E2 _ _. destruct o; try discriminate OC; now split.
Qed.
Lemma told_by_then : forall a o b p t c, pre ++ later = a ++ o :: b -> op_phase o = Some p -> 4 <= p -> steps f O e rs a (new_txn e) = Ret (t, c) -> response_known rp (given o t).
Proof.
  intros a o b p t c Q P L S. assert (IO : In o (pre ++ later)) by (rewrite Q; apply in_app_iff; right; now left).
  destruct (Z.eq_dec p 4) as [->|NE].
  - destruct o; try discriminate P. pose proof (proj2 (in_calls _ IO) _ eq_refl) as E. rewrite E. repeat split.
  - assert (I4 : In 4 (phases_of a)) by (apply (before_in_six _ _ _ 4 (split_phases _ _ _ _ Q P)); clear -L NE; lia).
    apply phases_of_in in I4 as (o4 & I4 & P4).
    pose proof (evaluating_holds _ _ _ _ _ _ (ev_between f O e rs _ t c S)) as (_ & _ & _ & H4).
    assert (E : (t_code t, t_resproto t, t_resheader t) = (r_code rp, r_proto rp, r_header rp)).
    { destruct H4 as [(x1 & oc & x2 & EA & K & _)|(N & _)].
      - assert (I : In oc (pre ++ later)) by (rewrite Q; apply in_app_iff; left; rewrite EA; apply in_app_iff; right; now left). rewrite (proj2 (in_calls oc I) _ K) in K. unfold back in K. cbn [response_line] in K. now apply (f_equal (fun z => match z with Some w => w | None => (0, [], []) end)) in K.
      - exfalso. specialize (N _ I4). destruct o4; discriminate. }
    injection E as E1 E2 E3. destruct o; try discriminate P; try (injection P as <-; now elim NE); repeat split; assumption.
Qed.
Lemma answer_by_then : forall a o b p t c, pre ++ later = a ++ o :: b -> op_phase o = Some p -> 5 <= p -> steps f O e rs a (new_txn e) = Ret (t, c) -> answer_known e on rp (given o t).
Proof.
  intros a o b p t c Q P L S. replace (given o t) with t by (destruct o; try discriminate P; try reflexivity; injection P as <-; clear -L; lia).
  assert (W : response_writes a = map (fun x => BWrite x NoFault) pieces').
  { assert (W0 : response_writes (pre ++ later) = map (fun x => BWrite x NoFault) pieces').
    { unfold pre, request_calls, later. rewrite !response_writes_app. replace (response_writes (map (fun x => OpAppendRequestBody x NoFault) pieces)) with (@nil bop) by (clear; induction pieces as [|x k IH]; [reflexivity|exact IH]).
      cbn [response_writes app back]. rewrite app_nil_r. clear. induction pieces' as [|x k IH]; [reflexivity|]. cbn [map response_writes]. now rewrite IH. }
    rewrite <- W0, Q, response_writes_app. replace (response_writes (o :: b)) with (@nil bop); [now rewrite app_nil_r|].
    assert (N : forall o', In o' (pre ++ [OpRequestBody; back] ++ map (fun x => OpAppendResponseBody x NoFault) pieces') -> o' <> o).
    { intros o' I ->. unfold pre, request_calls in I. rewrite !in_app_iff in I.
      destruct I as [[[<-|[<-|[<-|[]]]]|I]|[[<-|[<-|[]]]|I]]; try (apply in_map_iff in I as (y & <- & _)); try discriminate P; injection P as <-; clear -L; lia. }
    assert (Q' : a ++ o :: b = ((pre ++ [OpRequestBody; back] ++ map (fun x => OpAppendResponseBody x NoFault) pieces') ++ [OpResponseBody]) ++ [OpLogging]) by (rewrite <- Q; unfold later; rewrite <- !app_assoc; reflexivity).
    destruct b as [|x b _] using rev_ind; [apply app_inj_tail in Q' as (_ & ->); reflexivity|]. rewrite app_comm_cons, app_assoc in Q'. apply app_inj_tail in Q' as (Q' & ->).
    destruct b as [|x b _] using rev_ind; [apply app_inj_tail in Q' as (_ & ->); reflexivity|]. rewrite app_comm_cons, app_assoc in Q'. apply app_inj_tail in Q' as (Q' & ->).
    exfalso. apply (N o); [rewrite <- Q'; apply in_app_iff; right; now left|reflexivity]. }
  destruct (C51_response_body f O e rs a t c S) as (t2 & F2 & _). cbn [fetch fetch_scalar] in F2. apply Ret_inj in F2. destruct engine_answers as (A1 & A2). rewrite A1, A2, W in F2.
  unfold stream in F2. rewrite whole_stream in F2 by (cbn [app]; rewrite <- RE; exact LR). cbn [app] in F2. rewrite <- RE in F2. unfold answer_known. rewrite F2. reflexivity.
Qed.
Lemma later_phases_read : forall a o b p t c, pre ++ later = a ++ o :: b -> op_phase o = Some p -> steps f O e rs a (new_txn e) = Ret (t, c) -> bodiless ds p \/ readable O e (given o t).
Proof.
  intros a o b p t c Q P S. destruct bodiless_early as (BL1 & BL2). pose proof (op_phase_range _ _ P) as R.
  destruct (Z_lt_le_dec p 3) as [L|L]; [left; assert (X : p = 1 \/ p = 2) by (clear -R L; lia); destruct X as [->| ->]; assumption|right].
  assert (M : 0 <= e_reqmem e) by exact (mem_positive fuel O n text ds l FT LD).
  pose proof (request_readable f O e rs pre later a o b p t c OV M) as X.
  destruct X as (_ & _ & r & RA & _); [apply pre_faultless|intros q Z; eapply request_unseeing; eauto|apply pre_feeding|apply pre_ahead|eapply pre_orderly; eauto|apply later_after|exact Q|exact P|exact L|exact S|].
  apply readable_iff. eauto.
Qed.
Lemma rules_see : forall a o b p t c w w' cs, pre ++ later = a ++ o :: b -> op_phase o = Some p -> steps f O e rs a (new_txn e) = Ret (t, c) ->
  chain_in ds (w :: cs) -> pas_phase (w_acts w) = p -> In w' (w :: cs) -> (written_matches O e (given o t) w' <-> holds_in O ds rq fs txt rp w').
Proof.
  intros a o b p t c w w' cs Q P S CI PH I. destruct bodiless_early as (BL1 & BL2).
  apply (matches_by O e (stands_in O ds rq fs txt rp) w' (given o t) OV).
  - destruct (proj2 (text_chains fuel O n text ds l FT LD) _ CI) as (r & _ & CA). apply chain_members in CA. destruct (forall2_left _ _ _ _ _ _ CA I) as (q & _ & L). eauto.
  - intros cs' tk x y. apply stands_perm.
  - intros cs' tk k v x (v' & V & <- & _) M A. pose proof (TI w cs w' v' CI I V) as KF. rewrite PH in KF.
    destruct (Z_lt_le_dec (known_from (pv_tok v')) 4) as [L|L].
    + destruct (Z.eq_dec (known_from (pv_tok v')) 1) as [E1|N1].
      { assert (E : pv_tok v' = KRemoteAddr) by (clear -E1; destruct (pv_tok v'); cbn in E1; try discriminate; reflexivity). rewrite E in *.
        destruct (addr_shown O e rq fs txt cs' v x (given o t)) as (s' & out & k' & F1 & F2 & F3); [eapply address_known; eauto|exact M|exact A|]. exists s', out, k'. split; [exact F1|]. split; [now left|exact F3]. }
      assert (W : In (pv_tok v') request_words /\ (In (pv_tok v') body_words -> 3 <= known_from (pv_tok v'))).
      { apply var_means_iff in M. clear -L M. destruct (pv_tok v'); cbn in L, M |- *; try discriminate M; try lia; (split; [tauto|]); intro J; try lia; intuition discriminate. }
      destruct W as (W1 & W2). assert (L2 : 2 <= p) by (clear -N1 KF; destruct (pv_tok v'); cbn in *; lia).
      assert (K : request_known rq u (given o t) /\ (3 <= p -> body_known O e fs txt (given o t))).
      { destruct (Z_lt_le_dec p 3) as [L3|L3].
        - assert (P2 : p = 2) by (clear -L2 L3; lia). rewrite P2 in P. split; [|intro Z; clear -P2 Z; lia].
          eapply (header_phase_sees O l f rq port ip2 port2 u pieces later); [exact Q|exact P|eapply calls_ahead; eauto|exact S].
        - destruct (body_phase_sees fuel O n text ds l OV ML MU FT LD BL1 BL2 f rq port ip2 port2 u pieces later fs txt BE LB BF later_after a o b p t c Q P L3 S) as (_ & K1 & K2). now split. }
      destruct K as (K1 & K2). destruct (fetch_shown O e rq u fs txt OV UL PT cs' (pv_tok v') v x (given o t) W1 M A K1) as (s' & out & k' & F1 & F2 & F3).
      { destruct (in_dec vtok_eq_dec (pv_tok v') body_words) as [J|J]; [right; apply K2; specialize (W2 J); clear -W2 KF; lia|now left]. }
      exists s', out, k'. split; [exact F1|]. split; [now left|exact F3].
    + destruct (fetch_told O e on rp cs' (pv_tok v') v x (given o t) OV ML TY L M A) as (s' & out & k' & F1 & F2 & F3).
      * eapply told_by_then; eauto. clear -L KF. lia.
      * intro L5. eapply answer_by_then; eauto. clear -L5 KF. lia.
      * exists s', out, k'. split; [exact F1|]. split; [now right|exact F3].
Qed.
Lemma reply_phases : forall os y, reply_after (text_reacts O e ds) f O e rs os y -> forall b, pre ++ later = os ++ b -> phases_answer O ds rq fs txt rp port (phases_of os) SpecAnswer.silent y.
Proof.
  intros os y H. induction H as [|a o p t c y y' H IH P AH S R|a o y H IH N]; intros b Q.
  - constructor.
  - rewrite <- app_assoc in Q. cbn [app] in Q. specialize (IH _ Q). rewrite phases_of_app. replace (phases_of [o]) with [p] by (unfold phases_of; cbn [flat_map]; now rewrite P).
    eapply ph_next; [exact IH|]. destruct R as (cs & C & R). exists cs. split; [exact C|]. destruct (address_known _ _ _ _ _ _ Q P S) as (E1 & E2). rewrite E1, E2 in R.
    apply (reacts_along _ _ _ _ (Forall (holds_in O ds rq fs txt rp)) chain_takes (fun x y => x = y /\ In y (List.filter (in_phase p) cs)) _ _ _) with (l' := List.filter (in_phase p) cs) in R; [exact R| | |].
    + intros x z (-> & I). apply filter_In in I as (I & IP). apply (chain_in_iff _ _ C) in I. destruct z as [|w z]; [discriminate IP|]. cbn [in_phase] in IP.
      assert (PH : pas_phase (w_acts w) = p) by (clear -IP; lia). rewrite !Forall_forall. split; intros K w' J; eapply rules_see; eauto.
    + intros x z k (-> & _) K. exact K.
    + assert (G : forall k : list (list written), (forall z, In z k -> In z (List.filter (in_phase p) cs)) -> Forall2 (fun x y => x = y /\ In y (List.filter (in_phase p) cs)) k k).
      { clear. induction k as [|z k IH]; intro G; constructor; [split; [reflexivity|apply G; now left]|apply IH; intros; apply G; now right]. }
      apply G. auto.
  - rewrite <- app_assoc in Q. cbn [app] in Q. specialize (IH _ Q). rewrite phases_of_app. replace (phases_of [o]) with (@nil Z); [now rewrite app_nil_r|].
    unfold phases_of. cbn [flat_map]. destruct (op_phase o) as [p|] eqn:P; [|reflexivity]. exfalso. exact (N p eq_refl (calls_ahead _ _ _ _ Q P)).
Qed.
Lemma exchange_answered : forall a b t bl, pre ++ later = a ++ b -> steps f O e rs (a ++ [OpResult]) (new_txn e) = Ret (t, bl) ->
  exists y bl', phases_answer O ds rq fs txt rp port (phases_of a) SpecAnswer.silent y /\ bl = bl' ++ [ObsResult (Intervention (y_code y) 0 None (y_lines y) (y_denied y))].
Proof.
  intros a b t bl Q H. destruct (C95_text_answers fuel O n text ds l OV FT LD ST f a t bl) as (y & bl' & RA & E); [| |exact H|].
  - assert (F : Forall feeding (a ++ b)).
    { rewrite <- Q. apply Forall_app. split; [apply pre_feeding|]. eapply Forall_impl; [|exact later_after]. intros []; cbn; easy. }
    now apply Forall_app in F.
  - intros a' o b' p t' c Q' P _ S. apply (later_phases_read a' o (b' ++ b) p t' c); [rewrite Q, Q', <- app_assoc; reflexivity|exact P|exact S].
  - exists y, bl'. split; [|exact E]. eapply reply_phases; eauto.
Qed.
End Exchange.

(** ** C95 *)
(** The result fetched at any moment of an exchange whose every call returned: what the
    chains of the text answer to the texts of the request and of the response, phase after
    phase, over the phases gone through by then - status, log lines and denial. *)
Theorem C95_exchanges_by_text : forall fuel O n text ds l, ord_valid O -> uri_library O -> media_library O -> multipart_library O ->
  file_text ds text -> new_direset fuel O n text = Ret (Some l) -> straight ds -> timely ds ->
  let e := execute l new_engine in
  forall f rq port ip2 port2 u pieces fields body rp pieces',
  parse_target (q_target rq) = Some u -> q_body rq = concat pieces -> Z.of_nat (length (q_body rq)) <= 131072 ->
  body_fields (last (body_switches ds) false) rq fields body ->
  r_body rp = concat pieces' -> Z.of_nat (length (r_body rp)) <= 524228 -> typed rp ->
  forall a b t bl, exchange_calls rq port ip2 port2 u pieces rp pieces' = a ++ b ->
  steps f O e (e_ruleset e) (a ++ [OpResult]) (new_txn e) = Ret (t, bl) ->
  exists y bl', phases_answer O ds rq fields body rp port (phases_of a) SpecAnswer.silent y /\
    bl = bl' ++ [ObsResult (Intervention (y_code y) 0 None (y_lines y) (y_denied y))].
Proof.
  intros fuel O n text ds l OV UL ML MU FT LD ST TI e f rq port ip2 port2 u pieces fs txt rp pieces' PT BE LB BF RE LR TY a b t bl Q H.
  exact (exchange_answered fuel O n text ds l OV UL ML MU FT LD ST TI f rq port ip2 port2 u pieces fs txt rp pieces' PT BE LB BF RE LR TY a b t bl Q H).
Qed.
Theorem C95_exchange_answer_unique : forall O ds rq fields body rp port ps y y1 y2,
  phases_answer O ds rq fields body rp port ps y y1 -> phases_answer O ds rq fields body rp port ps y y2 -> y1 = y2.
Proof.
  intros O ds rq fs txt rp port ps y y1 y2 H. revert y2. induction H as [y|p ps y y1 y2 H IH R]; intros z K.
  - inversion K as [|p ps ? ? ? ? ? E]; [reflexivity|]. now destruct ps.
  - inversion K as [? E|p' ps' ? z1 ? K' R' E]; subst; [now destruct ps|]. apply app_inj_tail in E as (-> & ->). apply IH in K'. subst z1.
    destruct R as (cs & C & R), R' as (cs' & C' & R'). rewrite (chains_fun _ _ C _ C') in R'. eapply reacts_fun; [|exact R|exact R']. intros c x x' X Z. eapply takes_fun; eauto.
Qed.
(** Where rules may not see request bodies every call returns and there is always an answer. *)
Theorem C95_bodiless_exchanges_answered : forall fuel O n text ds l, ord_valid O -> uri_library O -> media_library O -> multipart_library O ->
  file_text ds text -> new_direset fuel O n text = Ret (Some l) -> straight ds -> timely ds -> last (body_switches ds) false = false ->
  let e := execute l new_engine in
  forall f rq port ip2 port2 u pieces rp pieces',
  parse_target (q_target rq) = Some u -> q_body rq = concat pieces -> Z.of_nat (length (q_body rq)) <= 131072 ->
  r_body rp = concat pieces' -> Z.of_nat (length (r_body rp)) <= 524228 -> typed rp -> (length ds + 2 <= f)%nat ->
  forall a b, exchange_calls rq port ip2 port2 u pieces rp pieces' = a ++ b ->
  exists y t bl, steps f O e (e_ruleset e) (a ++ [OpResult]) (new_txn e) = Ret (t, bl ++ [ObsResult (Intervention (y_code y) 0 None (y_lines y) (y_denied y))]) /\
    phases_answer O ds rq [] [] rp port (phases_of a) SpecAnswer.silent y.
Proof.
  intros fuel O n text ds l OV UL ML MU FT LD ST TI SW e f rq port ip2 port2 u pieces rp pieces' PT BE LB RE LR TY FU a b Q.
  destruct (C89_calls_answered fuel O n text ds l OV FT LD ST (or_introl SW) f (a ++ [OpResult]) FU) as (t & bl & H).
  destruct (C95_exchanges_by_text fuel O n text ds l OV UL ML MU FT LD ST TI f rq port ip2 port2 u pieces [] [] rp pieces' PT BE LB (bf_unseen _ _ (or_introl SW)) RE LR TY a b t bl Q H) as (y & bl' & PA & ->).
  exists y, t, bl'. split; [exact H|exact PA].
Qed.

(** ** C96 *)
Lemma first_phase : forall O ds rq fs txt rp port cs ps y0 y, phases_answer O ds rq fs txt rp port ps y0 y -> y0 = SpecAnswer.silent -> chains ds cs -> Forall one_denial cs ->
  let M := Forall (holds_in O ds rq fs txt rp) in
  (y = SpecAnswer.silent /\ forall p c, In p ps -> In c cs -> in_phase p c = true -> ~ M c) \/
  (y_denied y = true /\ exists p before after w k, ps = before ++ p :: after /\ (forall q c, In q before -> In c cs -> in_phase q c = true -> ~ M c) /\
     first_that M (List.filter (in_phase p) cs) [w] /\ denies_with w k /\ y_code y = k).
Proof.
  intros O ds rq fs txt rp port cs ps y0 y H E CH F M. induction H as [y|p ps y y1 y2 H IH R].
  - left. split; [exact E|]. intros p c [].
  - destruct R as (cs' & CH' & R). rewrite <- (chains_fun _ _ CH _ CH') in R || rewrite (chains_fun _ _ CH _ CH') in R. destruct (IH E) as [[-> NO]|(D & p' & be & af & w & k & -> & NO & FM & W & CO)].
    + destruct (firm_reacts _ _ _ _ _ _ _ _ R (firm_filter _ _ F) eq_refl) as [[-> X]|(w & k & FM & W & D & CO)].
      * left. split; [reflexivity|]. intros q c I J IP. apply in_app_iff in I as [I|[<-|[]]]; [now apply (NO q)|]. rewrite Forall_forall in X. apply X, filter_In. auto.
      * right. split; [exact D|]. exists p, ps, [], w, k. repeat (split; [assumption || reflexivity|]). exact CO.
    + right. assert (N2 : y_code y1 <> 200) by (destruct W as (? & _ & _ & _ & W); congruence).
      destruct (firm_kept _ _ _ _ _ _ _ _ R (firm_filter _ _ F) D N2) as [D' CO']. split; [exact D'|]. exists p', be, (af ++ [p]), w, k. split; [now rewrite <- app_assoc|].
      repeat (split; [assumption|]). congruence.
Qed.
(** Rules that each deny with a status of their own: at any moment of the exchange the result
    carries the status of the first rule, in order of the text, that holds of the texts of the
    exchange, in the first phase in which any does; without any it is 200. *)
Theorem C96_exchange_status : forall fuel O n text ds cs l, ord_valid O -> uri_library O -> media_library O -> multipart_library O ->
  file_text ds text -> new_direset fuel O n text = Ret (Some l) -> straight ds -> timely ds ->
  chains ds cs -> (forall c, In c cs -> exists w k, c = [w] /\ denies_with w k) ->
  let e := execute l new_engine in
  forall f rq port ip2 port2 u pieces fields body rp pieces',
  parse_target (q_target rq) = Some u -> q_body rq = concat pieces -> Z.of_nat (length (q_body rq)) <= 131072 ->
  body_fields (last (body_switches ds) false) rq fields body ->
  r_body rp = concat pieces' -> Z.of_nat (length (r_body rp)) <= 524228 -> typed rp ->
  forall a b t bl, exchange_calls rq port ip2 port2 u pieces rp pieces' = a ++ b ->
  steps f O e (e_ruleset e) (a ++ [OpResult]) (new_txn e) = Ret (t, bl) ->
  let M := Forall (holds_in O ds rq fields body rp) in
  exists i bl', bl = bl' ++ [ObsResult i] /\
    ((i = Intervention 200 0 None [] false /\ forall p c, In p (phases_of a) -> In c cs -> in_phase p c = true -> ~ M c) \/
     (i_disruptive i = true /\ exists p before after w k, phases_of a = before ++ p :: after /\
        (forall q c, In q before -> In c cs -> in_phase q c = true -> ~ M c) /\
        first_that M (List.filter (in_phase p) cs) [w] /\ denies_with w k /\ i_status i = k)).
Proof.
  intros fuel O n text ds cs l OV UL ML MU FT LD ST TI CH OD e f rq port ip2 port2 u pieces fs txt rp pieces' PT BE LB BF RE LR TY a b t bl Q H M.
  destruct (C95_exchanges_by_text fuel O n text ds l OV UL ML MU FT LD ST TI f rq port ip2 port2 u pieces fs txt rp pieces' PT BE LB BF RE LR TY a b t bl Q H) as (y & bl' & PA & ->).
  eexists _, bl'. split; [reflexivity|]. destruct (first_phase _ _ _ _ _ _ _ _ _ _ _ PA eq_refl CH) as [[-> NO]|X]; [now apply Forall_forall| |].
  - left. split; [reflexivity|exact NO].
  - right. exact X.
Qed.
(** The phases of the whole exchange are one to six, once each, in order. *)
Theorem C95_exchange_phases : forall rq port ip2 port2 u pieces rp pieces', phases_of (exchange_calls rq port ip2 port2 u pieces rp pieces') = [1; 2; 3; 4; 5; 6].
Proof. exact exchange_phases. Qed.

(** ** Example: a client's address, a response's status, a response's body *)
Definition guard_text : bs :=
  B "SecResponseBodyAccess On" ++ [LF] ++ B "SecRule REMOTE_ADDR ""@rx ^10[.]"" ""id:1,phase:1,status:451,deny""" ++ [LF] ++
  B "SecRule RESPONSE_STATUS ""@ge 500"" ""id:2,phase:4,status:502,deny""" ++ [LF] ++
  B "SecRule RESPONSE_BODY ""@rx secret"" ""id:3,phase:5,t:lowercase,status:406,deny""".
Definition guard_written : list written :=
  [Written [PVar KRemoteAddr [] false false] (POper KRx false (B "^10[.]")) (PActions 1 1 false [] [PAction KStatus (B "451"); PAction KDeny []]);
   Written [PVar KResponseStatus [] false false] (POper KGe false (B "500")) (PActions 2 4 false [] [PAction KStatus (B "502"); PAction KDeny []]);
   Written [PVar KResponseBody [] false false] (POper KRx false (B "secret")) (PActions 3 5 false [KLowercase] [PAction KStatus (B "406"); PAction KDeny []])].
Definition guard_directives : list directive := DResBody true :: map line_of guard_written.
Definition guard_request (ip : string) : request := Request (B ip) (B "GET") (B "/x") (B "HTTP/1.1") [] [].
Definition guard_response (code : Z) : response := Response code (B "HTTP/1.1") [(B "Content-Type", [B "text/plain"])] (B "a Secret").
Example C95_exchanges_example : let O := multir MpErr in
  ord_valid O /\ uri_library O /\ media_library O /\ multipart_library O /\
  file_text guard_directives guard_text /\ straight guard_directives /\ timely guard_directives /\
  chains guard_directives (map (fun w => [w]) guard_written) /\
  (forall c, In c (map (fun w => [w]) guard_written) -> exists w k, c = [w] /\ denies_with w k) /\
  (forall ip, body_fields (last (body_switches guard_directives) false) (guard_request ip) [] []) /\ (forall code, typed (guard_response code)) /\
  holds_in O guard_directives (guard_request "10.1.1.1") [] [] (guard_response 200) (nth 0 guard_written filter_first) /\
  holds_in O guard_directives (guard_request "192.0.2.1") [] [] (guard_response 503) (nth 1 guard_written filter_first) /\
  holds_in O guard_directives (guard_request "192.0.2.1") [] [] (guard_response 200) (nth 2 guard_written filter_first) /\
  exists l, new_direset 500 O 0 guard_text = Ret (Some l) /\ let e := execute l new_engine in
    let answer ip code k i := exists u t bl, parse_target (B "/x") = Some u /\
      steps 6 O e (e_ruleset e) (firstn k (exchange_calls (guard_request ip) (B "99") [] [] u [] (guard_response code) [B "a Se"; B "cret"]) ++ [OpResult]) (new_txn e) = Ret (t, bl ++ [ObsResult i]) in
    answer "192.0.2.1"%string 200 10%nat (Intervention 406 0 None [client_line (B "192.0.2.1") (B "99") 5 (B "Access denied with code 403")] true) /\
    answer "192.0.2.1"%string 503 10%nat (Intervention 502 0 None (map (fun p => client_line (B "192.0.2.1") (B "99") p (B "Access denied with code 403")) [4; 5]) true) /\
    answer "10.1.1.1"%string 200 1%nat (Intervention 451 0 None [client_line (B "10.1.1.1") (B "99") 1 (B "Access denied with code 403")] true) /\
    answer "192.0.2.1"%string 200 4%nat (Intervention 200 0 None [] false).
Proof.
  cbv zeta. destruct (multir_ok MpErr) as (A1 & A2 & A3 & A4 & A5). do 4 (split; [assumption|]). split; [apply parse_text_iff; exists 500%nat; vm_compute; reflexivity|].
  assert (LN : forall d w, In d guard_directives -> rule_line d w -> In w guard_written).
  { intros d w I W. cbn in I. unfold rule_line in W. destruct w as [a b c]. cbn [w_vars w_op w_acts] in W.
    destruct I as [<-|[<-|[<-|[<-|[]]]]]; try discriminate W; injection W as <- <- <-; cbn; auto. }
  assert (FC : forall w ds, pas_chain (w_acts w) = false -> first_chain (line_of w :: ds) [w] ds) by (intros w ds C; exists (line_of w), w, ds; split; [reflexivity|]; split; [reflexivity|]; left; auto).
  assert (CH : chains guard_directives (map (fun w => [w]) guard_written)).
  { apply ch_other; [intros w W; discriminate W|]. do 3 (eapply ch_chain; [apply FC; reflexivity|]). constructor. }
  split.
  { intros d w x I W J. apply (LN _ _ I) in W. cbn in W. destruct W as [<-|[<-|[<-|[]]]]; cbn in J; intuition (subst; discriminate). }
  split.
  { intros w c w' v CI I V. apply (chain_in_iff _ _ CH) in CI. cbn in CI. destruct CI as [E|[E|[E|[]]]]; injection E as <- <-; destruct I as [<-|[]]; destruct V as [<-|[]]; cbn; clear; lia. }
  split; [exact CH|]. split.
  { assert (ST : forall s n, parse_int64 s = Some n -> trimQuote s = s -> act_means (PAction KStatus s) [AStatus n]) by (intros s n H1 H2; destruct (status_denotes s n H1); [assumption|contradiction]).
    intros c I. cbn in I. destruct I as [<-|[<-|[<-|[]]]]; (eexists _, _; split; [reflexivity|]; eexists; split; [|split; [|split]]).
    1: apply (acm_cons _ _ [AStatus 451]). 6: apply (acm_cons _ _ [AStatus 502]). 11: apply (acm_cons _ _ [AStatus 406]).
    1, 6, 11: apply ST; reflexivity. 1, 5, 9: apply (acm_cons _ _ [ADeny]); constructor. 1, 4, 7: apply Permutation_refl. 1, 3, 5: clear; lia. all: discriminate. }
  split; [intro ip; apply bf_unseen; now left|]. split.
  { intro code. exists (B "text/plain"). split; [apply (fv_some _ _ _ [] [] []); [reflexivity|easy]|]. right. exists (B "text/plain"), []. split; [|constructor].
    assert (PL : forall s, forallb token_char s = true -> s <> [] -> token_word s).
    { intros s F N. split; [exact N|]. apply Forall_forall. intros c I. apply plain_iff. rewrite forallb_forall in F. auto. }
    exists [], (B "text/plain"), [], []. split; [reflexivity|]. split; [constructor|].
    split; [right; exists (B "text"), (B "plain"); split; [now apply PL|split; [now apply PL|reflexivity]]|]. split; [constructor|]. split; [|constructor; constructor].
    assert (LO : forall s, in_lower s (lower s)) by (intro s; induction s; constructor; [apply lower_ascii_lowered|assumption]). apply (LO (B "text/plain")). }
  split.
  { exists KRemoteAddr, false, [B "10.1.1.1"], (B "10.1.1.1"), (OpRx (B "^10[.]")). split; [eexists; split; [now left|now split]|]. split; [left; apply sh_addr|]. split; [now left|].
    split; [apply om_rx; [reflexivity|vm_compute; reflexivity]|]. vm_compute. reflexivity. }
  split.
  { exists KResponseStatus, false, [B "503"], (B "503"), (OpCmp CGe 500). split; [eexists; split; [now left|now split]|]. split; [right; apply to_status; apply decimal_itoa; vm_compute; reflexivity|]. split; [now left|].
    split; [apply (om_cmp _ _ CGe 500); [cbn; tauto|exact (C09_decimal_text_qualifies 500 ltac:(split; discriminate))]|].
    exists 503. split; [left; exact (C09_decimal_text_qualifies 503 ltac:(split; discriminate))|discriminate]. }
  split.
  { exists KResponseBody, false, [B "a Secret"], (B "a Secret"), (OpRx (B "secret")). split; [eexists; split; [now left|now split]|]. split; [right; apply to_body; [reflexivity|discriminate]|]. split; [now left|].
    split; [apply om_rx; [reflexivity|vm_compute; reflexivity]|]. vm_compute. reflexivity. }
  eexists. split; [vm_compute; reflexivity|]. split; [|split; [|split]].
  - eexists _, _, [_; _; _; _; _; _; _; _; _]. split; vm_compute; reflexivity.
  - eexists _, _, [_; _; _; _; _; _; _; _; _]. split; vm_compute; reflexivity.
  - eexists _, _, [_]. split; vm_compute; reflexivity.
  - eexists _, _, [_; _; _; _]. split; vm_compute; reflexivity.
Qed.

Print Assumptions C95_exchanges_by_text.
Print Assumptions C95_exchange_answer_unique.
Print Assumptions C95_bodiless_exchanges_answered.
Print Assumptions C96_exchange_status.
Print Assumptions C95_exchange_phases.
Print Assumptions C95_exchanges_example.
