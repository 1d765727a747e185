(** The text of the rules against the text of a request: which requests are denied. *)
From Verif Require Import Base BaseFacts GoStrings Utils Buffer BufferFacts SpecBuffer Types Transforms Operators Transaction Variables Rules Engine
  SpecText NumFacts TextFacts TransFacts SpecVars VarText VarFacts BodyFacts SpecRules PropText PropVars RuleFacts Scanner Registry Loader SpecParse ParseFacts ParseLists ParseFiles ParsePrint
  SpecLoad LoadFacts SpecTxn TxnFacts LoopFacts Witness PropRules PropPhases PropTxn PropLoad PropEnd SpecData PropData SpecQuery PropQuery SpecGate PropGate SpecAccount PropAccount PropSafe PropFile SpecBody PropBody SpecVerdict PropVerdict
  Regex SpecRegex PropRegex Uri SpecUri PropUri Media SpecMedia PropMedia Multi SpecMulti PropMulti SpecFilter.
From Coq Require Import ZifyBool.

(** ** What is shown is determined, but for the order *)
Lemma keeps_fun : forall A (P : A -> Prop) l a, keeps P l a -> forall b, keeps P l b -> a = b.
Proof. intros A P l a H. induction H as [|x l l' X H IH|x l l' X H IH]; intros b K; inversion K; subst; try easy; f_equal; auto. Qed.
Lemma names_perm : forall ps a b, names_once ps a -> names_once ps b -> Permutation a b.
Proof. intros ps a b [N1 I1] [N2 I2]. apply NoDup_Permutation; auto. intro k. now rewrite I1, I2. Qed.
Lemma header_lines_assoc : forall k h ls, header_lines k h ls <-> ls = match assoc k h with Some vs => vs | None => [] end.
Proof.
  intros k h ls. assert (NONE : ~ In k (map fst h) <-> assoc k h = None).
  { induction h as [|[k' v] h IH]; cbn [map fst assoc]; [easy|]. destruct (bs_eqb k k') eqn:E; [apply bs_eqb_eq in E; subst; split; [intro N; elim N; now left|discriminate]|].
    rewrite <- IH. assert (k' <> k) by (intros ->; rewrite bs_eqb_refl in E; discriminate). cbn [In]. tauto. }
  assert (SOME : forall (h1 : vals) vs h2, ~ In k (map fst h1) -> assoc k (h1 ++ (k, vs) :: h2) = Some vs).
  { induction h1 as [|[k' v] h1 IH]; intros vs h2 N; cbn [app assoc]; [now rewrite bs_eqb_refl|]. destruct (bs_eqb k k') eqn:E; [apply bs_eqb_eq in E; subst; elim N; now left|]. apply IH. intro I. apply N. now right. }
  split.
  - intros [vs h1 h2 -> N|N]; [now rewrite SOME|]. apply NONE in N. now rewrite N.
  - destruct (assoc k h) as [vs|] eqn:E; intros ->; [|apply hl_missing; now apply NONE].
    assert (X : exists h1 h2, h = h1 ++ (k, vs) :: h2 /\ ~ In k (map fst h1)).
    { clear -E. induction h as [|[k' v] h IH]; [discriminate|]. cbn [assoc] in E. destruct (bs_eqb k k') eqn:Q.
      - apply bs_eqb_eq in Q. subst k'. injection E as <-. exists [], h. split; [reflexivity|easy].
      - destruct (IH E) as (h1 & h2 & -> & N). exists ((k', v) :: h1), h2. split; [reflexivity|]. intros [I|I]; [cbn in I; subst; rewrite bs_eqb_refl in Q; discriminate|easy]. }
    destruct X as (h1 & h2 & X & N). eapply hl_given; eauto.
Qed.
Lemma query_pairs_fun : forall O rq a b, query_pairs O rq a -> query_pairs O rq b -> a = b.
Proof.
  intros O rq a b (raw & q & n & T & Q) (raw' & q' & n' & T' & Q'). destruct (target_fun _ _ _ _ _ T T') as (-> & ->).
  destruct (C17_any_query_is_read (semi_sep O) (query_text q')) as (ps & m & _ & U). destruct (U _ _ Q) as (-> & _). destruct (U _ _ Q') as (-> & _). reflexivity.
Qed.
Lemma cookie_pairs_fun : forall rq a b, cookie_pairs rq a -> cookie_pairs rq b -> a = b.
Proof.
  intros rq a b (l & L & C) (l' & L' & C'). apply header_lines_assoc in L, L'. rewrite <- L in L'. subst l'.
  destruct (C18_any_header_is_read l) as (ps & _ & U). now rewrite (U _ C), (U _ C').
Qed.
Lemma shown_perm : forall O rq fs bd cs tk a b, shown O rq fs bd cs tk a -> shown O rq fs bd cs tk b -> Permutation a b.
Proof.
  intros O rq fs bd cs tk a b H K. destruct H; inversion K; subst; try apply Permutation_refl;
    repeat match goal with
    | X : target ?t _ _, Y : target ?t _ _ |- _ => destruct (target_fun _ _ _ _ _ X Y) as (? & ?); subst; clear Y
    | X : spells_path ?r _, Y : spells_path ?r _ |- _ => pose proof (spells_fun _ _ _ X Y); subst; clear Y
    | X : last_segment ?p _, Y : last_segment ?p _ |- _ => pose proof (last_segment_fun _ _ _ X Y); subst; clear Y
    | X : query_pairs ?O ?r _, Y : query_pairs ?O ?r _ |- _ => pose proof (query_pairs_fun _ _ _ _ X Y); subst; clear Y
    | X : cookie_pairs ?r _, Y : cookie_pairs ?r _ |- _ => pose proof (cookie_pairs_fun _ _ _ X Y); subst; clear Y
    | X : picked ?O ?cs ?p _, Y : picked ?O ?cs ?p _ |- _ => pose proof (keeps_fun _ _ _ _ X _ Y); subst; clear Y
    | X : rewritten ?p _ |- _ => apply rewritten_fun in X
    end; subst; try apply Permutation_refl; try easy.
  - eapply names_perm; eauto.
  - eapply names_perm; eauto.
  - apply Permutation_app; eapply names_perm; eauto.
  - eapply names_perm; eauto.
Qed.

(** ** What a state yields *)
(** The fields a parsed body has. *)
Definition fields_of (r : option (btype * iface)) (ps : list (bs * bs)) : Prop :=
  match r with
  | None => ps = []
  | Some (BUrlencoded, IValues m) | Some (BMultipart, IForm (Some m)) => m = add_pairs ps []
  | _ => False
  end.
Definition body_known (O : oracles) (e : engine) (ps : list (bs * bs)) (txt : list bs) (s : txn) : Prop :=
  exists r, readableQ O e r s /\ fields_of r ps /\ snd (fetch_request_body O e s) = txt.
Lemma body_known_same : forall O e ps txt s s', sameQ s s' -> body_known O e ps txt s -> body_known O e ps txt s'.
Proof.
  intros O e ps txt s s' S (r & R & F & T). exists r. split; [eapply readableQ_same; eauto|]. split; [exact F|]. destruct (reqbody_sameQ O e _ _ S) as [_ K]. congruence.
Qed.
Lemma pairs_fetched : forall O cs ps t, ord_valid O -> exists kept, picked O cs ps kept /\
  Permutation (snd (filter_fetch O (filter_of cs) (add_pairs ps []) t)) (map snd kept) /\ names_once kept (snd (filter_names O (filter_of cs) (add_pairs ps []) t)).
Proof.
  intros O cs ps t V. destruct (fetch_by_name O cs ps t V) as (kept & K & _ & N). exists kept. split; [exact K|]. split; [|exact N].
  destruct (kept_pairs O cs ps) as (kept' & K' & E). pose proof (keeps_fun _ _ _ _ K _ K'). subst kept'. unfold filter_fetch. cbn [snd]. rewrite E.
  rewrite (Permutation_flat_map _ _ _ _ _ (V _ _ _)), add_pairs_values. cbn [flat_map]. now rewrite app_nil_r.
Qed.
Lemma post_fetched : forall O e cs ps txt s, ord_valid O -> body_known O e ps txt s -> exists kept, picked O cs ps kept /\
  (exists s' out, fetch_post O e (filter_of cs) s = Ret (s', out) /\ Permutation out (map snd kept)) /\
  (exists s' out, fetch_post_names O e (filter_of cs) s = Ret (s', out) /\ names_once kept out).
Proof.
  intros O e cs ps txt s V (r & ((t1 & P & _) & _) & F & _). destruct (pairs_fetched O cs ps t1 V) as (kept & K & A & N). exists kept. split; [exact K|].
  unfold fetch_post, fetch_post_names. rewrite P. cbn [bind].
  destruct r as [[[|] [|m|[m|]]]|]; cbn [fields_of] in F; try easy; try subst m.
  - split; [eexists _, _; split; [reflexivity|exact A]|eexists _, _; split; [reflexivity|exact N]].
  - split; [eexists _, _; split; [reflexivity|exact A]|eexists _, _; split; [reflexivity|exact N]].
  - subst ps. inversion K; subst. split; eexists _, _; (split; [reflexivity|]); [constructor|split; [constructor|easy]].
Qed.
(** The request line, address and header of a state. *)
Definition request_known (rq : request) (u : url) (s : txn) : Prop :=
  t_srcip s = q_ip rq /\ t_url s = Some u /\ t_method s = q_method rq /\ t_reqproto s = q_proto rq /\ t_reqheader s = q_header rq.
Section Fetched.
Variables (O : oracles) (e : engine) (rq : request) (u : url) (fs : list (bs * bs)) (txt : list bs).
Hypothesis OV : ord_valid O.
Hypothesis UL : uri_library O.
Hypothesis PT : parse_target (q_target rq) = Some u.
Lemma query_read : exists ps, query_pairs O rq ps /\ url_query O u = add_pairs ps [].
Proof.
  destruct (target_total (q_target rq)) as (raw & q & T). destruct (proj2 (C71_targets _) _ _ _ PT T) as (_ & Q). destruct (query_exists (semi_sep O) (query_text q)) as (ps & n & R).
  exists ps. split; [exists raw, q, n; auto|]. unfold url_query. rewrite Q, (query_parse _ _ _ _ R). reflexivity.
Qed.
Lemma cookies_read : exists ps, cookie_pairs rq ps /\ read_cookie (q_header rq) = add_pairs ps [].
Proof.
  destruct (C18_any_header_is_read (match assoc (B "Cookie") (q_header rq) with Some vs => vs | None => [] end)) as (ps & C & _). exists ps. split; [eexists; split; [apply header_lines_assoc; reflexivity|exact C]|].
  unfold read_cookie. destruct (assoc _ _); [now apply cookie_lines_fold|]. now inversion C.
Qed.
Lemma fetch_shown : forall cs tk v x s, In tk request_words -> In (tk, v) var_means -> apply_calls O cs v = Some x -> request_known rq u s ->
  ~ In tk body_words \/ body_known O e fs txt s ->
  exists s' out l, fetch O e x s = Ret (s', out) /\ shown O rq fs txt cs tk l /\ Permutation out l.
Proof.
  intros cs tk v x s W M A (K1 & K2 & K3 & K4 & K5) BK.
  assert (SC : forall k y, apply_calls O cs (VScalar k) = Some y -> y = VScalar k).
  { intros k y. clear. induction cs as [|[c|c] l IH]; cbn; intro H; [now injection H as <-|now apply IH|now apply IH]. }
  assert (ON : forall k b l, fetch_scalar O e k s = (s, b) -> shown O rq fs txt cs tk b -> l = b -> apply_calls O cs (VScalar k) = Some x ->
    exists s' out l, fetch O e x s = Ret (s', out) /\ shown O rq fs txt cs tk l /\ Permutation out l).
  { intros k b l F S _ AC. apply SC in AC. subst x. exists s, b, b. cbn [fetch]. rewrite F. split; [reflexivity|]. split; [exact S|apply Permutation_refl]. }
  destruct (target_total (q_target rq)) as (raw & q & T). destruct (proj2 (C71_targets _) _ _ _ PT T) as (SP & RQ).
  destruct query_read as (qs & QP & QR). destruct cookies_read as (ks & CP & CR).
  assert (BKN : In tk body_words -> body_known O e fs txt s) by (destruct BK; tauto).
  apply var_means_iff in M. simpl in W. repeat (destruct W as [<-|W]); try destruct W; cbn [var_factory] in M; injection M as <-.
  - apply (ON SRemoteAddr [q_ip rq] [q_ip rq]); auto; [cbn; now rewrite K1|constructor].
  - apply (ON SRequestMethod [q_method rq] [q_method rq]); auto; [cbn; now rewrite K3|constructor].
  - apply (ON SRequestProtocol [q_proto rq] [q_proto rq]); auto; [cbn; now rewrite K4|constructor].
  - apply (ON SQueryString [query_text q] [query_text q]); auto; [cbn; rewrite K2, RQ; reflexivity|econstructor; eauto].
  - apply (ON SRequestFilename [u_path u] [u_path u]); auto; [cbn; rewrite K2; reflexivity|econstructor; eauto].
  - apply (ON SRequestBasename [basename (u_path u)] [basename (u_path u)]); auto; [cbn; rewrite K2; reflexivity|econstructor; eauto; apply basename_last].
  - apply (ON SRequestUri [request_uri O u] [request_uri O u]); auto; [cbn; rewrite K2; reflexivity|].
    destruct (C24_uri_of_target O _ _ _ _ UL PT T) as [(F & ->)|(F & r & R & ->)]; [now apply (sh_uri _ _ _ _ _ raw q)|eapply sh_uri_rewritten; eauto].
  - destruct BKN as (r & _ & _ & TX); [cbn; tauto|]. apply SC in A. subst x. cbn [fetch fetch_scalar]. destruct (fetch_request_body O e s) as [s' out]. cbn [snd] in TX. subst out.
    exists s', txt, txt. split; [reflexivity|]. split; [constructor|apply Permutation_refl].
  - apply calls_filter in A. subst x. cbn [fetch fetch_coll]. rewrite K2, QR. destruct (pairs_fetched O cs qs s OV) as (kept & K & P & _).
    eexists _, _, _. split; [unfold filter_fetch; reflexivity|]. split; [eapply sh_get; eauto|exact P].
  - apply calls_filter in A. subst x. cbn [fetch fetch_coll]. rewrite K2, QR. destruct (pairs_fetched O cs qs s OV) as (kept & K & _ & P).
    eexists _, _, _. split; [unfold filter_names; reflexivity|]. split; [eapply sh_get_names; eauto|apply Permutation_refl].
  - apply calls_filter in A. subst x. cbn [fetch fetch_coll]. destruct (post_fetched O e cs fs txt s OV) as (kept & K & (s' & out & F & P) & _); [apply BKN; cbn; tauto|].
    exists s', out, (map snd kept). split; [exact F|]. split; [now constructor|exact P].
  - apply calls_filter in A. subst x. cbn [fetch fetch_coll]. destruct (post_fetched O e cs fs txt s OV) as (kept & K & _ & (s' & out & F & P)); [apply BKN; cbn; tauto|].
    exists s', out, out. split; [exact F|]. split; [econstructor; eauto|apply Permutation_refl].
  - apply apply_calls_args in A as (g & p & G & P & ->). apply filter_calls_of in G, P. rewrite filter_cat_empty in G, P. subst g p. cbn [fetch fetch_coll]. rewrite K2, QR.
    destruct (pairs_fetched O cs qs s OV) as (kept & K & P & _). unfold filter_fetch at 1. cbn [bind].
    destruct (post_fetched O e cs fs txt (tick s) OV) as (kept' & K' & (s' & out & F & P') & _); [eapply body_known_same; [|apply BKN; cbn; tauto]; repeat split|].
    rewrite F. cbn [bind]. eexists _, _, _. split; [reflexivity|]. split; [eapply sh_args; eauto|]. apply Permutation_app; [exact P|exact P'].
  - apply apply_calls_args_names in A as (g & p & G & P & ->). apply filter_calls_of in G, P. rewrite filter_cat_empty in G, P. subst g p. cbn [fetch fetch_coll]. rewrite K2, QR.
    destruct (pairs_fetched O cs qs s OV) as (kept & K & _ & P). unfold filter_names at 1. cbn [bind].
    destruct (post_fetched O e cs fs txt (tick s) OV) as (kept' & K' & _ & (s' & out & F & P')); [eapply body_known_same; [|apply BKN; cbn; tauto]; repeat split|].
    rewrite F. cbn [bind]. eexists _, _, _. split; [reflexivity|]. split; [eapply sh_args_names; eauto|apply Permutation_refl].
  - apply calls_filter in A. subst x. cbn [fetch fetch_coll]. rewrite K5, CR. destruct (pairs_fetched O cs ks s OV) as (kept & K & P & _).
    eexists _, _, _. split; [unfold filter_fetch; reflexivity|]. split; [eapply sh_cookies; eauto|exact P].
  - apply calls_filter in A. subst x. cbn [fetch fetch_coll]. rewrite K5, CR. destruct (pairs_fetched O cs ks s OV) as (kept & K & _ & P).
    eexists _, _, _. split; [unfold filter_names; reflexivity|]. split; [eapply sh_cookies_names; eauto|apply Permutation_refl].
  - apply calls_filter in A. subst x. cbn [fetch fetch_coll]. rewrite K5. eexists _, _, _. split; [unfold filter_fetch; reflexivity|].
    split; [apply sh_headers, fetch_keeps|]. apply Permutation_flat_map. apply OV.
  - apply calls_filter in A. subst x. cbn [fetch fetch_coll]. rewrite K2, K5. eexists _, _, _. split; [unfold filter_names; reflexivity|].
    split; [apply sh_headers_names, fetch_keeps|]. apply Permutation_map. apply OV.
Qed.

(** A rule matches in a state that has come to know the request exactly if it holds of the request. *)
Lemma matches_request : forall w s,
  (exists r, loaded_as O w r) -> (forall v, In v (w_vars w) -> In (pv_tok v) request_words /\ (In (pv_tok v) body_words -> body_known O e fs txt s)) ->
  request_known rq u s -> (written_matches O e s w <-> holds_of O rq fs txt w).
Proof.
  intros w s (r & n & ch & LA) WV RK. destruct (C70_rule_as_written _ _ _ _ _ _ _ OV LA) as (_ & _ & _ & _ & _ & _ & _ & _ & _ & (keys & ND & KM & F)).
  assert (MW : forall tk c, mentions tk c (w_vars w) -> In tk request_words /\ (~ In tk body_words \/ body_known O e fs txt s)).
  { intros tk c (v & I & <- & _). destruct (WV v I) as (A & B). split; [exact A|]. destruct (in_dec vtok_eq_dec (pv_tok v) body_words) as [J|J]; [right; auto|now left]. }
  assert (FE : forall tk c v x, mentions tk c (w_vars w) -> In (tk, v) var_means -> apply_calls O (calls_of tk c (w_vars w)) (if c then VCount v else v) = Some x ->
    exists s' out l, fetch O e x s = Ret (s', out) /\ shown O rq fs txt (calls_of tk c (w_vars w)) tk l /\
      forall y, In y out <-> if c then decimal y (Z.of_nat (length l)) else In y l).
  { intros tk c v x M V A. destruct (MW tk c M) as (W & BW). destruct c.
    - apply apply_calls_count in A as (x' & A & ->). destruct (fetch_shown _ _ _ _ s W V A RK BW) as (s' & out & l & FX & SH & P).
      cbn [fetch]. rewrite FX. cbn [bind]. eexists _, _, l. split; [reflexivity|]. split; [exact SH|]. intro y. rewrite decimal_itoa, (Permutation_length P). cbn [In]. intuition.
    - destruct (fetch_shown _ _ _ _ s W V A RK BW) as (s' & out & l & FX & SH & P). exists s', out, l. split; [exact FX|]. split; [exact SH|].
      intro y. split; apply Permutation_in; [exact P|now apply Permutation_sym]. }
  split.
  - intros (tk & c & v & x & t' & vals & y & o & M & V & A & FX & J & OM & HT). destruct (FE _ _ _ _ M V A) as (s' & out & l & FX' & SH & OUT).
    rewrite FX in FX'. apply Ret_inj in FX'. injection FX' as <- <-. exists tk, c, l, y, o. split; [exact M|]. split; [exact SH|]. split; [now apply OUT|]. split; [exact OM|exact HT].
  - intros (tk & c & l & y & o & M & SH & J & OM & HT). destruct (forall2_left _ _ _ _ _ _ F (proj2 (KM tk c) M)) as (x & I & v & V & A). cbn [fst snd] in *.
    destruct (FE _ _ _ _ M V A) as (s' & out & l' & FX & SH' & OUT). exists tk, c, v, x, s', out, y, o. split; [exact M|]. split; [exact V|]. split; [exact A|]. split; [exact FX|].
    split; [|split; [exact OM|exact HT]]. apply OUT. pose proof (shown_perm _ _ _ _ _ _ _ _ SH SH') as P. destruct c; [now rewrite <- (Permutation_length P)|eapply Permutation_in; eauto].
Qed.
End Fetched.

(** ** The transaction *)
Lemma form_word_media : forall O ct qs mt, media_library O -> content_type mt qs ct -> NoDup (map fst qs) -> exists bd, media_type O ct = (mt, bd) /\ forall v, In (B "boundary", v) qs -> bd = v.
Proof. intros O ct qs mt ML CT ND. destruct (proj1 (C20_media_types mt qs ct CT) ND) as (bd & MD & X & _). apply ML in MD. exists bd. auto. Qed.
Section Requests.
Variables (fuel : nat) (O : oracles) (n : nat) (text : bs) (ds : list directive) (l : list dire).
Hypothesis OV : ord_valid O.
Hypothesis UL : uri_library O.
Hypothesis ML : media_library O.
Hypothesis MU : multipart_library O.
Hypothesis FT : file_text ds text.
Hypothesis LD : new_direset fuel O n text = Ret (Some l).
Hypothesis ST : straight ds.
Hypothesis BL1 : bodiless ds 1.
Hypothesis BL2 : bodiless ds 2.
Let e := execute l new_engine.
Let rs := e_ruleset e.
Lemma request_engine : e_reqaccess e = last (body_switches ds) false /\ e_reqlimit e = 134217728 /\ e_reqmem e = 131072.
Proof.
  destruct (proj1 (C62_texts O n text l) (ex_intro _ fuel LD)) as (ds' & items & F & L & A). pose proof (file_text_fun _ _ _ FT F). subst ds'.
  destruct (C62_nothing_lost _ _ _ _ _ L A) as (_ & N2 & _).
  destruct (C65_execute l new_engine) as (A1 & _ & _ & _ & _ & _ & L1 & L2 & _). fold e in A1, L1, L2. split; [|auto].
  rewrite A1, req_flags_filter, N2, <- req_flags_filter, (loaded_switches _ _ _ _ L). reflexivity.
Qed.
Variables (f : nat) (rq : request) (port ip2 port2 : bs) (u : url) (pieces : list bs) (later : list op) (fs : list (bs * bs)) (txt : list bs).
Hypothesis PT : parse_target (q_target rq) = Some u.
Hypothesis BE : q_body rq = concat pieces.
Hypothesis LB : Z.of_nat (length (q_body rq)) <= 131072.
Hypothesis BF : body_fields (last (body_switches ds) false) rq fs txt.
Hypothesis LA : Forall after_request later.
Let pre := request_calls rq port ip2 port2 u pieces.
Lemma pre_stream : stream (e_reqlimit e) (request_writes pre) = q_body rq.
Proof. exact (brought_stream (q_ip rq) port ip2 port2 (Some u) (q_method rq) (q_proto rq) (q_header rq) pieces (q_body rq) e BE (proj1 (proj2 request_engine)) LB). Qed.
Lemma pre_faultless : fault_free (request_writes pre).
Proof. exact (brought_faultless (q_ip rq) port ip2 port2 (Some u) (q_method rq) (q_proto rq) (q_header rq) pieces). Qed.
Lemma pre_feeding : Forall feeding pre.
Proof. exact (brought_feeding (q_ip rq) port ip2 port2 (Some u) (q_method rq) (q_proto rq) (q_header rq) pieces). Qed.
Lemma pre_ahead : ahead pre 3.
Proof. exact (brought_ahead (q_ip rq) port ip2 port2 (Some u) (q_method rq) (q_proto rq) (q_header rq) pieces). Qed.
Lemma pre_header : current request_header [] pre (q_header rq).
Proof. exact (brought_header (q_ip rq) port ip2 port2 (Some u) (q_method rq) (q_proto rq) (q_header rq) pieces). Qed.
Lemma pre_line : current request_line no_request pre (Some u, q_method rq, q_proto rq).
Proof.
  left. eexists [_], _, (OpRequestHeader (q_header rq) :: map (fun x => OpAppendRequestBody x NoFault) pieces).
  split; [reflexivity|]. split; [reflexivity|]. intros o' [<-|I]; [reflexivity|]. apply in_map_iff in I as (x & <- & _). reflexivity.
Qed.
Lemma pre_connection : current connection no_connection pre (q_ip rq, port, ip2, port2).
Proof.
  left. eexists [], _, _. split; [reflexivity|]. split; [reflexivity|]. intros o' [<-|[<-|I]]; [reflexivity|reflexivity|]. apply in_map_iff in I as (x & <- & _). reflexivity.
Qed.
Lemma pre_form : forall ct qs, last (body_switches ds) false = true -> In (q_method rq) body_methods -> q_body rq <> [] ->
    first_value (B "Content-Type") (q_header rq) ct -> content_type (B "application/x-www-form-urlencoded") qs ct -> NoDup (map fst qs) -> form_body O e pre (q_body rq).
Proof.
  intros ct qs ON BM BN FV CT ND. destruct (form_word_media _ _ _ _ ML CT ND) as (bd & MD & _). split; [now rewrite (proj1 request_engine)|]. split; [exact BN|].
  split; [eexists _, _, _; split; [exact pre_line|exact BM]|]. exists (q_header rq), ct. split; [exact pre_header|]. split; [exact FV|]. split; [apply (some_type _ _ _ CT)|now rewrite MD].
Qed.
Lemma pre_multipart : forall ct mt qs bd p0 rest ps, last (body_switches ds) false = true -> In (q_method rq) body_methods ->
    first_value (B "Content-Type") (q_header rq) ct -> content_type (B "multipart/" ++ mt) qs ct -> NoDup (map fst qs) -> In (B "boundary", bd) qs ->
    good_boundary bd -> (length (q_body rq) <= 2000)%nat -> multipart_text bd p0 (line_end ++ rest) ps (q_body rq) ->
    multipart_body O e pre bd (q_body rq) /\ multipart_fields O e bd (q_body rq) (add_pairs ps []).
Proof.
  intros ct mt qs bd p0 rest ps ON BM FV CT ND IB GB L2 MT. destruct (form_word_media _ _ _ _ ML CT ND) as (bd' & MD & X). specialize (X _ IB). subst bd'. split.
  - split; [now rewrite (proj1 request_engine)|]. split; [destruct MT as (w & r & -> & _); destruct p0; discriminate|].
    split; [eexists _, _, _; split; [exact pre_line|exact BM]|]. exists (q_header rq), ct, mt. split; [exact pre_header|]. split; [exact FV|]. split; [apply (some_type _ _ _ CT)|exact MD].
  - intros b B1 B2 B3. assert (C : content b = q_body rq) by (unfold content; now rewrite B2).
    apply MU; [exact B1|rewrite C, (proj2 (proj2 request_engine)); clear -L2; lia|now rewrite C|]. rewrite C. now apply (proj1 (multipart_texts bd ps (q_body rq) GB) p0 rest).
Qed.
Lemma octets : fst (media_type O (B "application/octet-stream")) = B "application/octet-stream".
Proof. rewrite (ML (B "application/octet-stream") (B "application/octet-stream") []); [reflexivity|vm_compute; reflexivity]. Qed.
Lemma pre_other : forall ct, first_value (B "Content-Type") (q_header rq) ct ->
  (ct = [] \/ exists mt qs, content_type mt qs ct /\ NoDup (map fst qs) /\ (forall s, mt <> B "application/x-www-form-urlencoded" ++ s) /\ (forall s, mt <> B "multipart/" ++ s)) ->
  exists mt, mt = fst (media_type O (match ct with [] => B "application/octet-stream" | _ => ct end)) /\
    (forall s, mt <> B "application/x-www-form-urlencoded" ++ s) /\ (forall s, mt <> B "multipart/" ++ s).
Proof.
  intros ct FV [->|(mt & qs & CT & ND & N1 & N2)].
  - exists (B "application/octet-stream"). split; [now rewrite octets|]. split; intros s Q; discriminate Q.
  - destruct (form_word_media _ _ _ _ ML CT ND) as (bd & MD & _). exists mt. split; [|now split]. destruct ct; [now destruct (some_type _ _ _ CT)|]. now rewrite MD.
Qed.
Lemma pre_orderly : orderly O e pre.
Proof.
  destruct BF as [U|ct qs ps ON BM BN FV CT ND FP|ct mt qs bd p0 rest ps ON BM FV CT ND IB GB L2 MT|ct mt qs FV CT ND N1 N2|FV].
  - apply or_none. intros u' m p CUR RA IM. rewrite pre_stream. pose proof (current_fun _ _ _ _ _ _ CUR pre_line) as Q. injection Q as _ -> _. rewrite (proj1 request_engine) in RA. destruct U as [U|[U|U]]; [congruence|easy|exact U].
  - eapply or_form; [symmetry; exact pre_stream|eapply pre_form; eauto|rewrite (proj2 (proj2 request_engine)); exact LB|exact FP].
  - destruct (pre_multipart _ _ _ _ _ _ _ ON BM FV CT ND IB GB L2 MT) as (M1 & M2). eapply or_multipart; [symmetry; exact pre_stream|exact M1|rewrite (proj2 (proj2 request_engine)); exact LB|exact M2].
  - destruct (pre_other ct FV) as (mt' & E & M1 & M2); [right; eauto 6|]. eapply or_other; eauto using pre_header.
  - destruct (pre_other [] FV) as (mt' & E & M1 & M2); [now left|]. eapply or_other; eauto using pre_header.
Qed.
Lemma request_unseeing : forall q, 1 <= q < 3 -> unseeing rs q.
Proof. intros q Q. assert (X : q = 1 \/ q = 2) by (clear -Q; lia). destruct X as [->| ->]; (apply (text_unseeing fuel O n text ds l OV FT LD); [clear; lia|assumption]). Qed.
Lemma mem_positive : 0 <= e_reqmem e.
Proof. rewrite (proj2 (proj2 request_engine)). discriminate. Qed.
(** In phase 3 and later the rules see the request and its body. *)
Lemma body_phase_sees : forall a o b p t c, pre ++ later = a ++ o :: b -> op_phase o = Some p -> 3 <= p -> steps f O e rs a (new_txn e) = Ret (t, c) ->
  (exists a2, a = pre ++ a2 /\ later = a2 ++ o :: b) /\ request_known rq u (given o t) /\ body_known O e fs txt (given o t).
Proof.
  intros a o b p t c Q P L S. pose proof mem_positive as M.
  destruct (request_readable _ _ _ _ _ _ _ _ _ _ _ _ OV M pre_faultless request_unseeing pre_feeding pre_ahead pre_orderly LA Q P L S) as (AO & (a2 & EA & A2) & r & (RA & _) & RF & RM).
  assert (SQ : sameQ t (given o t)) by now apply given_sameQ.
  assert (W : request_writes a = request_writes pre).
  { rewrite EA, request_writes_app. replace (request_writes a2) with (@nil bop); [apply app_nil_r|]. clear -A2. induction A2 as [|x k X _ IH]; [reflexivity|]. destruct x; easy. }
  assert (CUR : forall A (kind : op -> option A) d x, (forall o, after_request o -> kind o = None) -> current kind d pre x -> current kind d a x).
  { intros A kind d x KN X. rewrite EA. clear -A2 KN X. generalize dependent pre. induction A2 as [|y k Y _ IH]; intros p0 X; [now rewrite app_nil_r|].
    replace (p0 ++ y :: k) with ((p0 ++ [y]) ++ k) by now rewrite <- app_assoc. apply IH. apply current_skip; auto. }
  pose proof (CUR _ connection _ _ ltac:(intros []; easy) pre_connection) as CC. pose proof (CUR _ request_line _ _ ltac:(intros []; easy) pre_line) as CL. pose proof (CUR _ request_header _ _ ltac:(intros []; easy) pre_header) as CH.
  pose proof (ev_between f O e rs a t c S) as EV. pose proof (evaluating_holds _ _ _ _ _ _ EV) as (H1 & H2 & H3 & _).
  pose proof (current_fun _ _ _ _ _ _ CC H1) as E1. injection E1 as E1 _ _ _. pose proof (current_fun _ _ _ _ _ _ CL H2) as E2. injection E2 as E2 E3 E4. pose proof (current_fun _ _ _ _ _ _ CH H3) as E5.
  assert (RK : request_known rq u t) by (repeat split; congruence).
  split; [exists a2; split; [exact EA|]; rewrite EA, <- app_assoc in Q; now apply app_inv_head in Q|].
  split; [destruct SQ as (SQ & _); unfold request_part in SQ; injection SQ; intros; destruct RK as (R1 & R2 & R3 & R4 & R5); repeat split; congruence|].
  assert (STR : stream (e_reqlimit e) (request_writes a) = q_body rq) by (rewrite W; exact pre_stream).
  assert (FFA : fault_free (request_writes a)) by (rewrite W; exact pre_faultless).
  destruct (C75_request_body_of_the_calls f O e rs a t M FFA EV) as (B1 & _ & B3). rewrite STR in B1, B3. cbn [fetch fetch_scalar] in B1, B3.
  assert (TX : snd (fetch_request_body O e (given o t)) = snd (fetch_request_body O e t)) by (now destruct (reqbody_sameQ O e _ _ SQ) as [_ K]).
  assert (NOT : ~ form_body O e a (q_body rq) -> snd (fetch_request_body O e (given o t)) = []) by (intro N; rewrite TX; apply B3, Ret_inj in N; now rewrite N).
  assert (FORM : forall ct mt bd, first_value (B "Content-Type") (q_header rq) ct -> form_body O e a (q_body rq) -> media_type O ct = (mt, bd) -> mt = B "application/x-www-form-urlencoded").
  { intros ct mt bd FV (_ & _ & _ & (h & ct' & X1 & X2 & X3 & X4)) MD. pose proof (current_fun _ _ _ _ _ _ X1 CH). subst h. pose proof (first_value_fun _ _ _ _ X2 FV). subst ct'. now rewrite MD in X4. }
  assert (NONE : (parses e (given o t) -> exists mt bd, (mt, bd) = media_type O (match header_get (B "Content-Type") (q_header rq) with [] => B "application/octet-stream" | ct => ct end) /\
      (forall s, mt <> B "application/x-www-form-urlencoded" ++ s) /\ (forall s, mt <> B "multipart/" ++ s)) -> r = None).
  { intro NP. destruct RA as ((t1 & RP & _) & _). destruct (parses_dec e (given o t)) as [PA|PA].
    - destruct (NP PA) as (mt & bd & MD & N1 & N2). apply not_prefix in N1, N2. rewrite body_parse_eq in RP by exact PA. unfold ctype in RP.
      assert (HH : t_reqheader (given o t) = q_header rq) by (destruct SQ as (SQ & _); unfold request_part in SQ; injection SQ; intros; congruence). rewrite HH, <- MD in RP. cbn [fst snd parse_types bt_ctype] in RP.
      rewrite N1, N2 in RP. cbn [negb] in RP. apply Ret_inj in RP. now injection RP.
    - rewrite body_parse_skip in RP by exact PA. apply Ret_inj in RP. now injection RP. }
  assert (OTHER : forall ct mt, first_value (B "Content-Type") (q_header rq) ct -> mt = fst (media_type O (match ct with [] => B "application/octet-stream" | _ => ct end)) ->
    (forall s, mt <> B "application/x-www-form-urlencoded" ++ s) -> (forall s, mt <> B "multipart/" ++ s) -> r = None /\ snd (fetch_request_body O e (given o t)) = []).
  { intros ct mt FV MD N1 N2. split.
    - apply NONE. intros _. pose proof (first_value_fun _ _ _ _ FV (header_first (B "Content-Type") (q_header rq))) as Q0. rewrite <- Q0.
      exists mt, (snd (media_type O (match ct with [] => B "application/octet-stream" | _ => ct end))). split; [rewrite MD; destruct ct; apply eq_sym, surjective_pairing|now split].
    - apply NOT. intro FB. assert (CN : ct <> []) by (destruct FB as (_ & _ & _ & (h & ct' & X1 & X2 & X3 & X4)); pose proof (current_fun _ _ _ _ _ _ X1 CH); subst h; pose proof (first_value_fun _ _ _ _ X2 FV); now subst ct').
      destruct ct as [|c0 ct]; [easy|]. destruct (media_type O (c0 :: ct)) as [mt' bd] eqn:MM. cbn [fst] in MD. subst mt'. apply (N1 []). rewrite app_nil_r. eapply FORM; eauto. }
  assert (LM : Z.of_nat (length (q_body rq)) <= e_reqmem e) by (rewrite (proj2 (proj2 request_engine)); exact LB).
  exists r. split; [exact RA|].
  destruct BF as [U|ct qs ps ON BM BN FV CT ND FP|ct mt qs bd p0 rest ps ON BM FV CT ND IB GB L2 MT|ct mt qs FV CT ND N1 N2|FV].
  - rewrite NONE, NOT; [now split| |].
    + intros (X1 & X2 & (u' & m & p' & X3 & X4) & _). pose proof (current_fun _ _ _ _ _ _ X3 CL) as Y. injection Y as _ -> _. rewrite (proj1 request_engine) in X1. destruct U as [U|[U|U]]; [congruence|easy|easy].
    + intros (X1 & X2 & X3). exfalso. rewrite (proj1 request_engine) in X2. destruct U as [U|[U|U]]; [congruence| |].
      * apply U. assert (HM : t_method (given o t) = q_method rq) by (destruct SQ as (SQ & _); unfold request_part in SQ; injection SQ; intros; congruence). unfold body_method in X1. rewrite HM in X1. clear -X1. cbn. intuition.
      * apply X3. assert (HB : t_reqbody (given o t) = t_reqbody t) by (destruct SQ as (_ & SQ & _); unfold req_bodies in SQ; injection SQ; intros; congruence). rewrite HB.
        pose proof (evaluating_kept _ _ _ _ _ _ M FFA EV) as K. rewrite STR, U in K. destruct K as [[(_ & A & _) _]|(_ & A & _)]; exact A.
  - pose proof (pre_form _ _ ON BM BN FV CT ND) as FB. rewrite (RF ps (q_body rq) (eq_sym pre_stream) FB LM FP). split; [cbn [fields_of]; unfold url_map; now rewrite (form_pairs_query _ _ _ FP)|].
    rewrite TX. assert (FBA : form_body O e a (q_body rq)).
    { destruct FB as (X1 & X2 & (u' & m & pr & X3 & X4) & (h & ct' & X5 & X6)). split; [exact X1|]. split; [exact X2|]. split.
      - exists u', m, pr. split; [|exact X4]. apply CUR; [|exact X3]. intros []; easy.
      - exists h, ct'. split; [|exact X6]. apply CUR; [|exact X5]. intros []; easy. }
    specialize (B1 FBA LM). apply Ret_inj in B1. now rewrite B1.
  - destruct (pre_multipart _ _ _ _ _ _ _ ON BM FV CT ND IB GB L2 MT) as (M1 & M2). rewrite (RM _ _ _ (eq_sym pre_stream) M1 LM M2). split; [reflexivity|].
    apply NOT. intro FB. destruct (form_word_media _ _ _ _ ML CT ND) as (bd' & MD & _). pose proof (FORM _ _ _ FV FB MD) as X. discriminate X.
  - destruct (pre_other ct FV) as (mt' & E & M1 & M2); [right; eauto 6|]. destruct (OTHER _ _ FV E M1 M2) as (-> & ->). now split.
  - destruct (pre_other [] FV) as (mt' & E & M1 & M2); [now left|]. destruct (OTHER _ _ FV E M1 M2) as (-> & ->). now split.
Qed.
(** In phase 2 they see the request without its body. *)
Lemma header_phase_sees : forall a o b t c, pre ++ later = a ++ o :: b -> op_phase o = Some 2 -> ahead a 2 -> steps f O e rs a (new_txn e) = Ret (t, c) ->
  request_known rq u (given o t).
Proof.
  intros a o b t c Q P AH S. unfold pre, request_calls in Q.
  destruct a as [|x [|y [|z a]]]; cbn [app] in Q.
  - injection Q as <- _. discriminate P.
  - injection Q as _ <- _. discriminate P.
  - injection Q as <- <- <- _.
    pose proof (ev_between f O e rs _ t c S) as EV. pose proof (evaluating_holds _ _ _ _ _ _ EV) as (H1 & H2 & _).
    assert (CC : current connection no_connection [OpConnection (q_ip rq) port ip2 port2; OpRequestURL (Some u) (q_method rq) (q_proto rq)] (q_ip rq, port, ip2, port2)).
    { left. eexists [], _, _. split; [reflexivity|]. split; [reflexivity|]. intros o' [<-|[]]; reflexivity. }
    assert (CL : current request_line no_request [OpConnection (q_ip rq) port ip2 port2; OpRequestURL (Some u) (q_method rq) (q_proto rq)] (Some u, q_method rq, q_proto rq)).
    { left. eexists [_], _, _. split; [reflexivity|]. split; [reflexivity|]. intros o' []. }
    pose proof (current_fun _ _ _ _ _ _ CC H1) as E1. injection E1 as E1 _ _ _. pose proof (current_fun _ _ _ _ _ _ CL H2) as E2. injection E2 as E2 E3 E4.
    repeat split; cbn; congruence.
  - injection Q as <- <- <- _. exfalso. specialize (AH (OpRequestHeader (q_header rq)) 2 ltac:(right; right; now left) eq_refl). clear -AH. lia.
Qed.
Hypothesis RR : request_rules ds.
Lemma requests_by_text : forall t bl, steps f O e rs ((pre ++ later) ++ [OpResult]) (new_txn e) = Ret (t, bl) ->
  exists i bl', bl = bl' ++ [ObsResult i] /\ (i_disruptive i = true <-> request_denied O ds rq fs txt later).
Proof.
  intros t bl H.
  destruct (C90_orderly_requests fuel O n text ds l OV FT LD ST BL1 BL2 f pre later t bl pre_faultless pre_feeding pre_ahead pre_orderly LA H) as (i & bl' & E & X).
  exists i, bl'. split; [exact E|]. rewrite X. fold e rs. clear E X.
  assert (LOAD : forall w c w', chain_in ds (w :: c) -> In w' (w :: c) -> exists r, loaded_as O w' r).
  { intros w c w' CI I. destruct (proj2 (text_chains fuel O n text ds l FT LD) _ CI) as (r & _ & CA). apply chain_members in CA. destruct (forall2_left _ _ _ _ _ _ CA I) as (q & _ & L). eauto. }
  assert (SEE : forall a o b p s c w cs, pre ++ later = a ++ o :: b -> op_phase o = Some p -> ahead a p -> steps f O e rs a (new_txn e) = Ret (s, c) ->
     chain_in ds (w :: cs) -> pas_phase (w_acts w) = p -> forall w', In w' (w :: cs) -> (written_matches O e (given o s) w' <-> holds_of O rq fs txt w')).
  { intros a o b p s c w cs Q P AH S CI PH w' I. destruct (RR w cs CI) as (N1 & R). pose proof (op_phase_range _ _ P) as PR.
    assert (K : request_known rq u (given o s) /\ (p <> 2 -> body_known O e fs txt (given o s))).
    { destruct (Z_lt_le_dec p 3) as [L|L].
      - assert (P2 : p = 2) by (clear -L PR PH N1; lia). rewrite P2 in P, AH |- *. split; [exact (header_phase_sees _ _ _ _ _ Q P AH S)|intro NE; now elim NE].
      - destruct (body_phase_sees _ _ _ _ _ _ Q P L S) as (_ & K1 & K2). now split. }
    destruct K as (K1 & K2). apply (matches_request O e rq u fs txt OV UL PT); [eapply LOAD; eauto| |exact K1]. intros v V. destruct (R w' v I V) as (R1 & R2). split; [exact R1|].
    intro J. apply K2. rewrite <- PH. now apply R2. }
  split.
  - intros (a & o & b & p & s & c & Q & P & AH & S & (w & cs & CI & PH & AD & FA)). exists w, cs. split; [exact CI|]. split; [|split; [exact AD|]].
    + rewrite PH. destruct (Z_lt_le_dec p 3) as [L|L].
      * left. destruct (RR w cs CI) as (N1 & _). pose proof (op_phase_range _ _ P). clear -L PH N1 H0. lia.
      * right. destruct (body_phase_sees _ _ _ _ _ _ Q P L S) as ((a2 & EA & EL) & _). exists a2, o, b. split; [exact EL|]. split; [exact P|].
        intros o' q I Y. apply (AH o' q); [rewrite EA; apply in_app_iff; now right|exact Y].
    + rewrite Forall_forall in FA |- *. intros w' I. eapply SEE; eauto.
  - intros (w & cs & CI & RE & AD & FA).
    assert (AT : exists a o b, pre ++ later = a ++ o :: b /\ op_phase o = Some (pas_phase (w_acts w)) /\ ahead a (pas_phase (w_acts w))).
    { destruct RE as [->|(a & o & b & EL & P & AH)].
      - eexists [_; _], _, _. split; [reflexivity|]. split; [reflexivity|]. intros o q [<-|[<-|[]]] Y; [injection Y as <-; reflexivity|discriminate Y].
      - exists (pre ++ a), o, b. split; [now rewrite <- app_assoc, <- EL|]. split; [exact P|]. intros o' q I Y. apply in_app_iff in I as [I|I]; [|now apply (AH o' q)].
        pose proof (pre_ahead o' q I Y) as L3. assert (AO : after_request o) by (rewrite Forall_forall in LA; apply LA; rewrite EL; apply in_app_iff; right; now left).
        assert (3 <= pas_phase (w_acts w)) by (destruct o; try easy; cbn in P; injection P as <-; discriminate). clear -L3 H0. lia. }
    destruct AT as (a & o & b & Q & P & AH).
    assert (S1 : exists s c, steps f O e rs a (new_txn e) = Ret (s, c)).
    { rewrite Q, <- app_assoc in H. apply steps_app in H as (s & c & c2 & H & _). eauto. }
    destruct S1 as (s & c & S1). exists a, o, b, (pas_phase (w_acts w)), s, c. repeat (split; [assumption|]). exists w, cs. split; [exact CI|]. split; [reflexivity|]. split; [exact AD|].
    rewrite Forall_forall in FA |- *. intros w' I. eapply SEE; eauto.
Qed.
End Requests.
Lemma request_bodiless : forall ds, request_rules ds -> bodiless ds 1 /\ bodiless ds 2.
Proof.
  intros ds RR. split; intros w c w' v CI P I V; destruct (RR w c CI) as (N & R); [easy|]. intro J. now apply (proj2 (R w' v I V) J).
Qed.
(** ** C89 *)
(** Any text of rules that look at requests, and any request whose target and body can be read: the request is denied exactly
    if a chain of the text that asks for denial holds of it. *)
Theorem C89_requests_by_text : forall fuel O n text ds l, ord_valid O -> uri_library O -> media_library O -> multipart_library O ->
  file_text ds text -> new_direset fuel O n text = Ret (Some l) -> straight ds -> request_rules ds ->
  let e := execute l new_engine in
  forall f rq port ip2 port2 u pieces later fields body t bl,
  parse_target (q_target rq) = Some u -> q_body rq = concat pieces -> Z.of_nat (length (q_body rq)) <= 131072 ->
  body_fields (last (body_switches ds) false) rq fields body -> Forall after_request later ->
  steps f O e (e_ruleset e) ((request_calls rq port ip2 port2 u pieces ++ later) ++ [OpResult]) (new_txn e) = Ret (t, bl) ->
  exists i bl', bl = bl' ++ [ObsResult i] /\ (i_disruptive i = true <-> request_denied O ds rq fields body later).
Proof.
  intros fuel O n text ds l OV UL ML MU FT LD ST RR e f rq port ip2 port2 u pieces later fields body t bl PT BE LB BF LA H.
  destruct (request_bodiless _ RR) as (B1 & B2).
  exact (requests_by_text fuel O n text ds l OV UL ML MU FT LD ST B1 B2 f rq port ip2 port2 u pieces later fields body PT BE LB BF LA RR t bl H).
Qed.
(** Where rules may not see bodies there is always an answer. *)
Theorem C89_bodiless_requests_answered : forall fuel O n text ds l, ord_valid O -> uri_library O -> media_library O -> multipart_library O ->
  file_text ds text -> new_direset fuel O n text = Ret (Some l) -> straight ds -> request_rules ds -> last (body_switches ds) false = false ->
  let e := execute l new_engine in
  forall f rq port ip2 port2 u pieces later,
  parse_target (q_target rq) = Some u -> q_body rq = concat pieces -> Z.of_nat (length (q_body rq)) <= 131072 -> Forall after_request later -> (length ds + 2 <= f)%nat ->
  exists t bl i, steps f O e (e_ruleset e) ((request_calls rq port ip2 port2 u pieces ++ later) ++ [OpResult]) (new_txn e) = Ret (t, bl ++ [ObsResult i]) /\
    (i_disruptive i = true <-> request_denied O ds rq [] [] later).
Proof.
  intros fuel O n text ds l OV UL ML MU FT LD ST RR SW e f rq port ip2 port2 u pieces later PT BE LB LA FU.
  destruct (C89_calls_answered fuel O n text ds l OV FT LD ST (or_introl SW) f ((request_calls rq port ip2 port2 u pieces ++ later) ++ [OpResult]) FU) as (t & bl & H).
  destruct (C89_requests_by_text fuel O n text ds l OV UL ML MU FT LD ST RR f rq port ip2 port2 u pieces later [] [] t bl PT BE LB (bf_unseen _ _ (or_introl SW)) LA H) as (i & bl' & -> & X).
  exists t, bl', i. split; [exact H|exact X].
Qed.

Definition filter_text : bs :=
  B "SecRequestBodyAccess On" ++ [LF] ++ B "SecRule REQUEST_HEADERS:User-Agent ""@rx curl"" ""id:1,phase:2,t:lowercase,deny""" ++ [LF] ++
  B "SecRule REQUEST_FILENAME ""@rx ^/admin"" ""id:2,phase:3,chain,deny""" ++ [LF] ++ B "SecRule &ARGS:user ""@ge 2"" ""id:3""".
Definition filter_first := Written [PVar KRequestHeaders (B "User-Agent") false false] (POper KRx false (B "curl")) (PActions 1 2 false [KLowercase] [PAction KDeny []]).
Definition filter_second := Written [PVar KRequestFilename [] false false] (POper KRx false (B "^/admin")) (PActions 2 3 true [] [PAction KDeny []]).
Definition filter_third := Written [PVar KArgs (B "user") true false] (POper KGe false (B "2")) (PActions 3 0 false [] []).
Definition filter_directives : list directive :=
  DReqBody true :: map (fun w => DRule (w_vars w) (w_op w) (w_acts w)) [filter_first; filter_second; filter_third].
(** A request whose path is written with an escape, with one argument in the query and one in the body. *)
Definition filter_request (target : string) : request :=
  Request (B "10.0.0.1") (B "POST") (B target) (B "HTTP/1.1") [(B "Content-Type", [B "application/x-www-form-urlencoded"]); (B "User-Agent", [B "Mozilla"])] (B "user=b&x=1").
Lemma filter_chains : forall c, chain_in filter_directives c -> c = [filter_first] \/ c = [filter_second; filter_third].
Proof.
  intros c H. inversion H as [? ? r F'|? ? r ? F' K|d ds' ? N K]; subst; try (destruct F' as (d & w & ds' & E & W & _); injection E as <- _; discriminate W).
  apply (chain_in_inv _ [filter_first] [DRule (w_vars filter_second) (w_op filter_second) (w_acts filter_second); DRule (w_vars filter_third) (w_op filter_third) (w_acts filter_third)]) in K.
  2: { eexists _, filter_first, _. split; [reflexivity|]. split; [reflexivity|]. left. repeat split. }
  destruct K as [K|K]; [now left|]. apply (chain_in_inv _ [filter_second; filter_third] []) in K.
  2: { eexists _, filter_second, _. split; [reflexivity|]. split; [reflexivity|]. right. split; [reflexivity|]. exists [filter_third]. split; [|reflexivity]. apply cr_last; reflexivity. }
  destruct K as [K|K]; [now right|]. inversion K as [? ? ? F|? ? ? ? F|]; subst; destruct F as (? & ? & ? & ? & _); discriminate.
Qed.
Example C89_requests_example : let O := multir MpErr in
  ord_valid O /\ uri_library O /\ media_library O /\ multipart_library O /\
  file_text filter_directives filter_text /\ straight filter_directives /\ request_rules filter_directives /\
  (forall target, body_fields (last (body_switches filter_directives) false) (filter_request target) [(B "user", B "b"); (B "x", B "1")] [B "user=b&x=1"]) /\
  request_denied O filter_directives (filter_request "/%61dmin?user=a") [(B "user", B "b"); (B "x", B "1")] [B "user=b&x=1"] [OpRequestBody] /\
  exists l, new_direset 500 O 0 filter_text = Ret (Some l) /\ let e := execute l new_engine in
    let answer target x := exists u t bl i, parse_target (B target) = Some u /\
      steps 6 O e (e_ruleset e) ((request_calls (filter_request target) [] [] [] u [B "user=b"; B "&x=1"] ++ [OpRequestBody]) ++ [OpResult]) (new_txn e) = Ret (t, bl ++ [ObsResult i]) /\ i_disruptive i = x in
    answer "/%61dmin?user=a"%string true /\ answer "/admin?x=a"%string false /\ answer "/x?user=a"%string false.
Proof.
  cbv zeta. destruct (multir_ok MpErr) as (A1 & A2 & A3 & A4 & A5). do 4 (split; [assumption|]). split; [apply parse_text_iff; exists 500%nat; vm_compute; reflexivity|]. split; [|split; [|split; [|split]]].
  - intros d w x I W J. destruct I as [<-|[<-|[<-|[<-|[]]]]]; unfold rule_line in W; try discriminate; injection W as W1 W2 W3; rewrite <- W3 in J; cbn in J; intuition (subst; discriminate).
  - intros w c CI. apply filter_chains in CI as [E|E]; injection E as -> ->; (split; [discriminate|]); intros w' v I V; cbn in I, V.
    + destruct I as [<-|[]]. destruct V as [<-|[]]. split; [cbn; tauto|cbn; intuition discriminate].
    + destruct I as [<-|[<-|[]]]; destruct V as [<-|[]]; (split; [cbn; tauto|discriminate]).
  - intro target. change [B "user=b&x=1"] with [q_body (filter_request target)].
    apply (bf_form _ _ (B "application/x-www-form-urlencoded") []); [reflexivity|now left|discriminate| | |constructor|].
    + apply (fv_some _ _ _ [] [] [(B "User-Agent", [B "Mozilla"])]); [reflexivity|easy].
    + assert (PL : forall s, forallb token_char s = true -> s <> [] -> token_word s).
      { intros s F N. split; [exact N|]. apply Forall_forall. intros c I. apply plain_iff. rewrite forallb_forall in F. auto. }
      exists [], (B "application/x-www-form-urlencoded"), [], []. split; [now rewrite app_nil_r|]. split; [constructor|].
      split; [right; exists (B "application"), (B "x-www-form-urlencoded"); split; [now apply PL|split; [now apply PL|reflexivity]]|]. split; [constructor|]. split; [|constructor; constructor].
      assert (LO : forall s, in_lower s (lower s)) by (intro s; induction s; constructor; [apply lower_ascii_lowered|assumption]). apply (LO (B "application/x-www-form-urlencoded")).
    + apply (fps_cons (B "user", B "b") (B "user=b") [(B "x", B "1")] (B "x=1")).
      * apply (fp_pair _ _ (B "user") (B "b")); repeat (constructor; [cbn; intuition discriminate|]); constructor.
      * apply fps_one. apply (fp_pair _ _ (B "x") (B "1")); (constructor; [cbn; intuition discriminate|]); constructor.
  - exists filter_second, [filter_third]. split.
    { apply ci_other; [intros w W; discriminate W|]. eapply ci_later; [eexists _, filter_first, _; split; [reflexivity|]; split; [reflexivity|]; left; repeat split|].
      eapply ci_here. eexists _, filter_second, _. split; [reflexivity|]. split; [reflexivity|]. right. split; [reflexivity|]. exists [filter_third]. split; [apply cr_last; reflexivity|reflexivity]. }
    split; [right; exists [], OpRequestBody, []; split; [reflexivity|split; [reflexivity|intros o q []]]|]. split; [left; exists (PAction KDeny []); split; [now left|reflexivity]|].
    assert (T : target (B "/%61dmin?user=a") (B "/%61dmin") (B "?user=a")) by (apply (tg (B "/%61dmin") (B "?user=a")); [cbn; intuition discriminate|right; eexists; reflexivity]).
    constructor; [|constructor; [|constructor]].
    + exists KRequestFilename, false, [B "/admin"], (B "/admin"), (OpRx (B "^/admin")). split; [eexists; split; [now left|now split]|]. split.
      { apply sh_filename with (raw := B "/%61dmin") (q := B "?user=a"); [exact T|]. apply unescape_iff. vm_compute. reflexivity. }
      split; [now left|]. split; [apply om_rx; [reflexivity|vm_compute; reflexivity]|]. vm_compute. reflexivity.
    + exists KArgs, true, [B "a"; B "b"], (B "2"), (OpCmp CGe 2). split; [eexists; split; [now left|now split]|]. split.
      { change [B "a"; B "b"] with (map snd [(B "user", B "a")] ++ map snd [(B "user", B "b")]).
        apply sh_args with (ps := [(B "user", B "a")]).
        - exists (B "/%61dmin"), (B "?user=a"), 0%nat. split; [exact T|]. apply C17_form_encoding_is_read. apply fps_one. apply (fp_pair _ _ (B "user") (B "a")); repeat (constructor; [cbn; intuition discriminate|]); constructor.
        - apply keeps_in; [apply drops_selected; vm_compute; reflexivity|constructor].
        - apply keeps_in; [apply drops_selected; vm_compute; reflexivity|]. apply keeps_out; [intro X; apply drops_selected in X; vm_compute in X; discriminate X|constructor]. }
      split; [apply decimal_itoa; vm_compute; reflexivity|]. split; [apply (om_cmp _ _ CGe 2); [cbn; tauto|exact (C09_decimal_text_qualifies 2 ltac:(split; discriminate))]|].
      exists 2. split; [left; exact (C09_decimal_text_qualifies 2 ltac:(split; discriminate))|discriminate].
  - eexists. split; [vm_compute; reflexivity|]. repeat split; eexists _, _, [_; _; _; _; _; _], _; (split; [vm_compute; reflexivity|]); (split; [vm_compute; reflexivity|reflexivity]).
Qed.

Print Assumptions C89_requests_by_text.
Print Assumptions C89_bodiless_requests_answered.
Print Assumptions C89_requests_example.
