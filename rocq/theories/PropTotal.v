(** Calls come to an end when the bodies can be read: no assumption about the forms the library would refuse or hang on. *)
From Verif Require PropScript.
From Verif Require Import Base BaseFacts GoStrings Utils Buffer BufferFacts SpecBuffer Types Transforms Operators Transaction Variables Rules Engine
  SpecText NumFacts TextFacts TransFacts SpecVars VarText VarFacts BodyFacts SpecRules PropText PropVars RuleFacts Scanner Registry Loader SpecParse ParseFacts ParseLists ParseFiles ParsePrint
  SpecLoad LoadFacts SpecTxn TxnFacts LoopFacts Witness PropRules PropPhases PropTxn PropLoad PropEnd SpecData PropData SpecQuery PropQuery SpecGate PropGate SpecHang PropHang SpecAccount PropAccount PropSafe PropFile SpecBody PropBody SpecVerdict PropVerdict
  SpecAnswer PropAnswer SpecReply PropReply PropComplete Regex SpecRegex PropRegex Uri SpecUri PropUri Media SpecMedia PropMedia Multi SpecMulti PropMulti SpecFilter PropFilter SpecExchange PropExchange.
From Coq Require Import ZifyBool.

(** The library as it is, except that forms it refuses or hangs on are read as empty. *)
Definition calm (O : oracles) : oracles :=
  Oracles (rx_ok O) (rx_match O) (media_type O)
    (fun b bd m => match multipart O b bd m with (MpErr, n) | (MpHang, n) => (MpOk [], n) | x => x end)
    (url_string O) (uni_lower O) (semi_sep O) (ord O).
Lemma calm_ok : forall O b bd m, fst (multipart (calm O) b bd m) <> MpErr /\ fst (multipart (calm O) b bd m) <> MpHang.
Proof. intros O b bd m. cbn. destruct (multipart O b bd m) as [[] n]; easy. Qed.
Lemma calm_run : forall O e tp bd t t1 res er, run_parser O e tp bd t = Ret (t1, res, er) -> er = false \/ res <> IForm None ->
  run_parser (calm O) e tp bd t = run_parser O e tp bd t.
Proof.
  intros O e [] bd t t1 res er H N; [reflexivity|]. cbn [run_parser] in *. cbn [calm multipart] in *.
  destruct (multipart O (t_reqbody t) bd (e_reqmem e)) as [[] off]; try reflexivity.
  - apply Ret_inj in H. injection H as _ <- <-. now destruct N.
  - discriminate.
Qed.
Lemma calm_types : forall O e ct bd tps t t1 r, parse_types O e ct bd tps t = Ret (t1, r) -> t_bodyerr t1 = false ->
  parse_types (calm O) e ct bd tps t = parse_types O e ct bd tps t.
Proof.
  intros O e ct bd tps. induction tps as [|tp tps IH]; intros t t1 r H E; cbn [parse_types] in *; [reflexivity|].
  destruct (negb (has_prefix (bt_ctype tp) ct)); [eapply IH; eauto|].
  destruct (cache_get tp t) as [[| |]|]; try reflexivity; [eapply IH; eauto|].
  destruct (run_parser O e tp bd t) as [[[t2 res] er]| |] eqn:R; try discriminate. cbn [bind] in H.
  destruct er; [apply Ret_inj in H; injection H; intros; subst t1; discriminate|].
  rewrite (calm_run _ _ _ _ _ _ _ _ R (or_introl eq_refl)), R. cbn [bind]. destruct res; try reflexivity. eapply IH; eauto.
Qed.
Lemma calm_parse : forall O e t t1 r, request_body_parse O e t = Ret (t1, r) -> t_bodyerr t1 = false ->
  request_body_parse (calm O) e t = request_body_parse O e t.
Proof.
  intros O e t t1 r H E. unfold request_body_parse in *. destruct (negb (has_body_method t)); [reflexivity|]. destruct (_ || _); [reflexivity|].
  change (media_type (calm O)) with (media_type O). destruct (media_type O _) as [mt bd]. eapply calm_types; eauto.
Qed.
(** What a variable yields is the same if the body is read the same way. *)
Lemma calm_coll : forall O e c f t, request_body_parse (calm O) e t = request_body_parse O e t -> fetch_coll (calm O) e c f t = fetch_coll O e c f t.
Proof.
  intros O e c f t H. destruct c; cbn [fetch_coll]; try reflexivity.
  - unfold fetch_post. rewrite H. reflexivity.
  - unfold fetch_post_names. rewrite H. reflexivity.
Qed.

Lemma calm_plain : forall O e v, looks_at_body v = false -> forall t, fetch (calm O) e v t = fetch O e v t.
Proof.
  intros O e v. induction v as [c f|s|g p|g p|v IH]; intros L t; try discriminate L.
  - destruct c; try discriminate L; reflexivity.
  - destruct s; try discriminate L; reflexivity.
  - cbn [fetch]. now rewrite IH.
Qed.
Lemma calm_trans : forall O ts s, transform_string (calm O) ts s = transform_string O ts s.
Proof. intros O ts. induction ts as [|a ts IH]; intro s; cbn [transform_string]; [reflexivity|]. rewrite IH. now destruct a. Qed.
Lemma calm_values : forall O b r vs, match_values (calm O) b r vs = match_values O b r vs.
Proof.
  intros O b r vs. induction vs as [|v vs IH]; cbn [match_values]; [reflexivity|]. destruct b; [reflexivity|]. destruct (r_op r) as [o|]; [|reflexivity].
  rewrite IH. now destruct o.
Qed.
Section Same.
Variables (O : oracles) (e : engine) (rs : ruleset) (p : Z).
Hypothesis OV : ord_valid O.
(** A property of states under which the two libraries cannot be told apart by the variables of phase [p]. *)
Variable J : txn -> Prop.
Hypothesis JF : forall r q v t, In r (phase_rules rs p) -> In q (r :: r_subs r) -> In v (r_vars q) -> J t ->
  fetch (calm O) e v t = fetch O e v t /\ forall t1 a, fetch O e v t = Ret (t1, a) -> J t1.
Hypothesis JS : forall t u, J t -> same t u -> J u.

Lemma calm_all : forall r q vs t, In r (phase_rules rs p) -> In q (r :: r_subs r) -> incl vs (r_vars q) -> J t ->
  fetch_all (calm O) e q vs t = fetch_all O e q vs t /\ forall t1 a, fetch_all O e q vs t = Ret (t1, a) -> J t1.
Proof.
  intros r q vs t I K. revert t. induction vs as [|v vs IH]; intros t S X; cbn [fetch_all].
  - split; [reflexivity|]. intros t1 a H. apply Ret_inj in H. now injection H as <- _.
  - destruct (JF r q v t I K (S v (or_introl eq_refl)) X) as [E F]. unfold transform_variable. rewrite E.
    destruct (fetch O e v t) as [[t1 a]| |]; cbn [bind]; [|now split..].
    destruct (IH t1 (fun x h => S x (or_intror h)) (F _ _ eq_refl)) as [E2 F2]. rewrite E2, (map_ext _ _ (calm_trans O (r_trans q))). split; [reflexivity|].
    intros t2 c H. apply bind_Ret in H as ([t3 b] & H & Q). apply Ret_inj in Q. injection Q as <- _. eapply F2. exact H.
Qed.

Lemma calm_match : forall r q t, In r (phase_rules rs p) -> In q (r :: r_subs r) -> J t ->
  match_rule (calm O) e q t = match_rule O e q t /\ forall t1 m, match_rule O e q t = Ret (t1, m) -> J t1.
Proof.
  intros r q t I K X. unfold match_rule. destruct (calm_all r q (r_vars q) t I K (incl_refl _) X) as [E F]. rewrite E.
  destruct (fetch_all O e q (r_vars q) t) as [[t1 vs]| |]; cbn [bind]; [|now split..]. rewrite calm_values. split; [reflexivity|].
  intros t2 m H. apply bind_Ret in H as (b & _ & Q). apply Ret_inj in Q. injection Q as <- _. eapply F. reflexivity.
Qed.
Lemma calm_subs : forall r subs t, In r (phase_rules rs p) -> incl subs (r_subs r) -> J t ->
  match_subs (calm O) e subs t = match_subs O e subs t /\ forall t1 m, match_subs O e subs t = Ret (t1, m) -> J t1.
Proof.
  intros r subs t I. revert t. induction subs as [|s subs IH]; intros t S X; cbn [match_subs].
  - split; [reflexivity|]. intros t1 m H. apply Ret_inj in H. now injection H as <- _.
  - destruct (calm_match r s t I (or_intror (S s (or_introl eq_refl))) X) as [E F]. rewrite E.
    destruct (match_rule O e s t) as [[t1 []]| |]; cbn [bind]; [|split; [reflexivity|]|now split..].
    + apply IH; [intros x h; apply S; now right|]. eapply F. reflexivity.
    + intros t2 m H. apply Ret_inj in H. injection H as <- _. eapply F. reflexivity.
Qed.
Lemma calm_rule : forall d i t, J t -> process_rule d (calm O) e rs p i t = process_rule d O e rs p i t /\ forall t1, process_rule d O e rs p i t = Ret t1 -> J t1.
Proof.
  intros d i t X. split.
  - unfold process_rule. destruct (i <? nrules rs p); [|reflexivity]. destruct (i <? 0); [reflexivity|].
    destruct (nth_error (phase_rules rs p) (Z.to_nat i)) as [r|] eqn:N; [|reflexivity]. apply nth_error_In in N. unfold do_rule.
    destruct (calm_match r r t N (or_introl eq_refl) X) as [E F]. rewrite E. destruct (match_rule O e r t) as [[t1 []]| |]; cbn [bind]; try reflexivity.
    destruct (calm_subs r (r_subs r) t1 N (incl_refl _) (F _ _ eq_refl)) as [E2 _]. now rewrite E2.
  - intros t1 H. apply process_rule_cases in H as [[L ->]|[R [(r & Z0 & N & M)|(l & r & s1 & Z0 & N & M & CA & ->)]]]; [exact X| |].
    + apply nth_error_In in N. assert (G : forall rr u u', incl rr (r :: r_subs r) -> J u -> some_miss O e rr u u' -> J u').
      { intros rr u u' Q Y W. induction W as [q rr u s1 E|q rr u s1 s2 E W IH].
        - eapply (calm_match r q u N (Q q (or_introl eq_refl)) Y). exact E.
        - apply IH; [intros x h; apply Q; now right|]. eapply (calm_match r q u N (Q q (or_introl eq_refl)) Y). exact E. }
      eapply G; [apply incl_refl|exact X|exact M].
    + apply nth_error_In in N. assert (G : forall rr u u', incl rr (r :: r_subs r) -> J u -> all_match O e rr u u' -> J u').
      { intros rr u u' Q Y W. induction W as [|q rr u s1' s2 E W IH]; [exact Y|].
        apply IH; [intros x h; apply Q; now right|]. eapply (calm_match r q u N (Q q (or_introl eq_refl)) Y). exact E. }
      eapply JS; [eapply G; [apply incl_refl|exact X|exact M]|apply effects_samebody].
Qed.
Lemma calm_loop : forall f d n t, J t -> phase_loop f d (calm O) e rs p n t = phase_loop f d O e rs p n t.
Proof.
  induction f as [|f IH]; intros d n t X; cbn [phase_loop]; [reflexivity|]. destruct (_ && _); [|reflexivity].
  destruct (calm_rule d n t X) as [E F]. rewrite E. destruct (process_rule d O e rs p n t) as [t1| |]; cbn [bind]; try reflexivity.
  destruct (i_disruptive _); [reflexivity|]. destruct (next_rule rs (touch_iv t1)) as [m t3] eqn:NX. apply IH.
  eapply JS; [|eapply next_samebody; exact NX]. eapply JS; [exact (F _ eq_refl)|]. repeat split.
Qed.
Lemma calm_phase : forall f t, J t -> process_phase f (calm O) e rs p t = process_phase f O e rs p t.
Proof.
  intros f t X. unfold process_phase, process_phase_inner. destruct (p <=? t_phase t); [reflexivity|]. destruct (t_abort _); [reflexivity|].
  destruct (next_rule rs (jump_to_phase p t)) as [n t1] eqn:NX. apply calm_loop. eapply JS; [|eapply next_samebody; exact NX]. eapply JS; [exact X|]. repeat split.
Qed.
End Same.
Lemma fine_calm : forall O e t0 t1 r0 t, request_body_parse O e t0 = Ret (t1, r0) -> t_bodyerr t1 = false -> t_abort t1 = false -> fine t0 t1 t ->
  request_body_parse (calm O) e t = request_body_parse O e t.
Proof.
  intros O e t0 t1 r0 t P0 E1 A1 F. destruct F as [S|S].
  - destruct (parse_same _ _ _ _ _ _ S P0) as (u & H & K). eapply calm_parse; [exact H|]. destruct K as ((_ & K & _) & _). unfold req_bodies in K. injection K. congruence.
  - destruct (parse_same _ _ _ _ _ _ S (P1 O e t0 t1 r0 P0 E1 A1)) as (u & H & K). eapply calm_parse; [exact H|]. destruct K as ((_ & K & _) & _). unfold req_bodies in K. injection K. congruence.
Qed.
(** From a settled state a phase runs the same with either library. *)
Lemma settled_calm : forall f O e rs p t, ord_valid O -> settled O e rs p t -> process_phase f (calm O) e rs p t = process_phase f O e rs p t.
Proof.
  intros f O e rs p t OV [N|((t1 & r0 & P0 & E1 & A1 & NF) & S0 & R0)].
  - apply (calm_phase O e rs p (fun _ => True)); auto. intros r q v u I K L _. split; [apply calm_plain; eapply N; eauto|auto].
  - apply (calm_phase O e rs p (fine t t1)); [|intros u w; apply fine_same|apply fine0].
    intros r q v u _ _ _ F. split.
    + revert u F. induction v as [c g|s|g h|g h|v IH]; intros u F; cbn [fetch].
      * apply calm_coll. eapply fine_calm; eauto.
      * now destruct s.
      * rewrite (calm_coll O e CArgsGet g u) by (eapply fine_calm; eauto). destruct (fetch_coll O e CArgsGet g u) as [[u1 a]| |] eqn:X; cbn [bind]; try reflexivity.
        rewrite (calm_coll O e CArgsPost h u1); [reflexivity|]. eapply fine_calm; eauto. eapply fine_same; [exact F|]. eapply (nonbody_same O e (VColl CArgsGet g) eq_refl). exact X.
      * rewrite (calm_coll O e CArgsGetNames g u) by (eapply fine_calm; eauto). destruct (fetch_coll O e CArgsGetNames g u) as [[u1 a]| |] eqn:X; cbn [bind]; try reflexivity.
        rewrite (calm_coll O e CArgsPostNames h u1); [reflexivity|]. eapply fine_calm; eauto. eapply fine_same; [exact F|]. eapply (nonbody_same O e (VColl CArgsGetNames g) eq_refl). exact X.
      * now rewrite IH.
    + intros t2 a H. destruct (fine_fetch O e t t1 r0 OV P0 E1 A1 NF S0 R0 v u F) as (t' & a' & u' & b & X & _ & _ & F'). rewrite H in X. apply Ret_inj in X. now injection X as -> _.
Qed.
(** So do calls whose phases find settled states. *)
Lemma calls_calm : forall f O e rs os, ord_valid O -> all_settled f O e rs os -> steps f (calm O) e rs os (new_txn e) = steps f O e rs os (new_txn e).
Proof.
  intros f O e rs os OV. induction os as [|o os IH] using rev_ind; intro ST; [reflexivity|].
  specialize (IH (all_settled_app _ _ _ _ _ _ ST)). 
  assert (AP : forall O', steps f O' e rs (os ++ [o]) (new_txn e) = (x <- steps f O' e rs os (new_txn e) ;; y <- Engine.step f O' e rs o (fst x) ;; Ret (fst y, snd x ++ [snd y]))).
  { intro O'. generalize (new_txn e). clear. induction os as [|x os IH]; intro t; cbn [steps app bind].
    - cbn [fst snd app]. destruct (Engine.step f O' e rs o t) as [[t1 b]| |]; reflexivity.
    - destruct (Engine.step f O' e rs x t) as [[t1 b]| |]; cbn [bind]; try reflexivity. rewrite IH. destruct (steps f O' e rs os t1) as [[t2 bl]| |]; cbn [bind fst snd]; try reflexivity.
      destruct (Engine.step f O' e rs o t2) as [[t3 b3]| |]; reflexivity. }
  rewrite !AP, IH. destruct (steps f O e rs os (new_txn e)) as [[t c]| |] eqn:H; cbn [bind fst snd]; try reflexivity.
  enough (E : Engine.step f (calm O) e rs o t = Engine.step f O e rs o t) by now rewrite E.
  destruct (op_phase o) as [p|] eqn:P; [|destruct o; try discriminate P; reflexivity].
  rewrite !(step_phase _ _ _ _ _ _ p P). destruct (given_same o t) as (GP & GA & _).
  enough (E : process_phase f (calm O) e rs p (given o t) = process_phase f O e rs p (given o t)) by now rewrite E.
  destruct (Z_lt_le_dec (t_phase t) p) as [L|L]; [|unfold process_phase; replace (p <=? t_phase (given o t)) with true by lia; reflexivity].
  destruct (t_abort t) eqn:AB.
  - unfold process_phase, process_phase_inner. change (t_abort (jump_to_phase p (given o t))) with (t_abort (given o t)). rewrite GA. reflexivity.
  - apply settled_calm; [exact OV|]. eapply (ST os o [] p t c); auto.
Qed.
(** ** C78 *)
(** Calls whose phases find bodies that can be read, or rules that do not look at them, never panic; and they all are answered if no allow leads
    back and block is not among the default actions. *)
Theorem C78_settled_calls_never_panic : forall f O e rs os, ord_valid O -> armed rs -> 0 <= e_reqmem e \/ e_reqlimit e < 0 -> all_settled f O e rs os ->
  steps f O e rs os (new_txn e) <> Panic.
Proof.
  intros f O e rs os OV A L1 ST. rewrite <- (calls_calm f O e rs os OV ST). apply C78_calls_never_panic_partial; auto. right; right. intros b bd m. apply calm_ok.
Qed.
Theorem C78_settled_calls_return : forall f O e rs os, ord_valid O -> armed rs -> 0 <= e_reqmem e \/ e_reqlimit e < 0 -> all_settled f O e rs os ->
  (forall p, 1 <= p <= 6 -> all_forward rs p) -> ~ In ABlock (rs_default rs) -> (forall p, 1 <= p <= 6 -> (length (phase_rules rs p) + 2 <= f)%nat) ->
  exists t' bl, steps f O e rs os (new_txn e) = Ret (t', bl).
Proof.
  intros f O e rs os OV A L1 ST F N L. rewrite <- (calls_calm f O e rs os OV ST). apply C78_calls_return_partial; auto.
  - right; right. intros b bd m. apply calm_ok.
  - right. intros b bd m. apply calm_ok.
Qed.
(** ** C94 both ways, whatever forms the library refuses *)
Lemma settled_fetch : forall O e rs p t, ord_valid O -> settled O e rs p t -> forall r q v, In r (phase_rules rs p) -> In q (r :: r_subs r) -> In v (r_vars q) ->
  fetch (calm O) e v t = fetch O e v t.
Proof.
  intros O e rs p t OV [N|((t1 & r0 & P0 & E1 & A1 & NF) & S0 & R0)] r q v I K L; [apply calm_plain; eapply N; eauto|]. clear I K L.
  assert (Q : forall u, same t u -> request_body_parse (calm O) e u = request_body_parse O e u) by (intros u S; eapply fine_calm; eauto; now left).
  enough (X : forall u, same t u -> fetch (calm O) e v u = fetch O e v u) by (apply X, same_refl).
  induction v as [c g|s|g h|g h|v IH]; intros u S; cbn [fetch].
  - now apply calm_coll, Q.
  - now destruct s.
  - rewrite (calm_coll O e CArgsGet g u) by now apply Q. destruct (fetch_coll O e CArgsGet g u) as [[u1 a]| |] eqn:X; cbn [bind]; try reflexivity.
    rewrite (calm_coll O e CArgsPost h u1); [reflexivity|]. apply Q. eapply same_trans; [exact S|]. eapply (nonbody_same O e (VColl CArgsGet g) eq_refl). exact X.
  - rewrite (calm_coll O e CArgsGetNames g u) by now apply Q. destruct (fetch_coll O e CArgsGetNames g u) as [[u1 a]| |] eqn:X; cbn [bind]; try reflexivity.
    rewrite (calm_coll O e CArgsPostNames h u1); [reflexivity|]. apply Q. eapply same_trans; [exact S|]. eapply (nonbody_same O e (VColl CArgsGetNames g) eq_refl). exact X.
  - now rewrite IH.
Qed.
Lemma calm_hit : forall O q x, hit (calm O) q (transformed (calm O) q x) <-> hit O q (transformed O q x).
Proof.
  intros O q x. assert (T : transformed (calm O) q x = transformed O q x).
  { unfold transformed. revert x. induction (r_trans q) as [|a ts IH]; intro x; [reflexivity|]. cbn [fold_left]. rewrite IH. now destruct a. }
  rewrite T. unfold hit. split; intros (o & R & H); exists o; (split; [exact R|]); destruct o; exact H.
Qed.
Lemma calm_plays : forall O e rs p t k k', ord_valid O -> settled O e rs p t -> set_plays O e rs p t k k' -> set_plays (calm O) e rs p t k k'.
Proof.
  intros O e rs p t k k' OV ST H. unfold set_plays in *. eapply (plays_along _ _ _ _ _ _ (fun r r' => r = r' /\ In r (phase_rules rs p))); [| | |exact H].
  - intros r r' [<- I]. unfold chain_matches, rule_matches.
    split; intros M q K; destruct (M q K) as (v & t' & vs & x & V & F & X & Y); exists v, t', vs, x; (split; [exact V|]).
    + rewrite (settled_fetch O e rs p t OV ST r q v I K V). split; [exact F|]. split; [exact X|]. now apply calm_hit.
    + rewrite <- (settled_fetch O e rs p t OV ST r q v I K V). split; [exact F|]. split; [exact X|]. now apply calm_hit.
  - intros r r' l [<- _] X. exact X.
  - generalize (phase_rules rs p). clear. intro l. assert (X : forall m, (forall r, In r l -> In r m) -> Forall2 (fun r r' => r = r' /\ In r m) l l).
    { induction l as [|r l IH]; intros m I; constructor; [split; [reflexivity|apply I; now left]|]. apply IH. intros x J. apply I. now right. }
    now apply X.
Qed.
Lemma calm_settled : forall O e rs p t, settled O e rs p t -> settled (calm O) e rs p t.
Proof.
  intros O e rs p t [N|((t1 & r0 & P0 & E1 & A1 & NF) & S0 & R0)]; [now left|right]. split; [|split; [exact S0|exact R0]].
  exists t1, r0. split; [now rewrite (calm_parse O e t t1 r0 P0 E1)|auto].
Qed.
Lemma settled_story_returns : forall f O e rs, ord_valid O -> armed rs -> 0 <= e_reqmem e \/ e_reqlimit e < 0 -> ~ In ABlock (rs_default rs) ->
  (forall p, 1 <= p <= 6 -> (length (phase_rules rs p) + 2 <= f)%nat) ->
  forall os, all_settled f O e rs os -> forall k b l, story (in_run f O e rs) (set_plays O e rs) os k b l ->
  exists t bl, steps f O e rs os (new_txn e) = Ret (t, bl).
Proof.
  intros f O e rs V AR L1 NB LF os RD k b l H.
  assert (FH : forms_harmless (calm O) e rs) by (right; right; intros x bd m; apply calm_ok).
  induction H as [|a o p s k k1 l H IH P L X Y|a o p k l H IH P L|a o p k b l H IH P L|a o k b l H IH P F|a s k b l H IH|a k b l H IH].
  { eexists _, _. reflexivity. }
  all: pose proof (all_settled_app _ _ _ _ _ _ RD) as RA; destruct (IH RA) as (t1 & b1 & H1); clear IH; destruct (PropComplete.told _ _ _ _ _ _ _ _ _ _ V RA H1 H) as (KP & KY & KA & KL).
  all: assert (SA : sane (calm O) t1) by (eapply (steps_sane f (calm O) e rs a t1 b1 AR FH L1); rewrite (calls_calm f O e rs a V RA); exact H1).
  - destruct (given_same o t1) as (GP & GA & GI). pose proof (op_phase_range _ _ P) as PR. destruct X as (t' & c' & X & ->). rewrite X in H1. apply Ret_inj in H1. injection H1 as -> ->.
    assert (ST : settled O e rs p (given o t1)) by (eapply RD; [reflexivity|exact P|exact X|congruence|congruence]).
    destruct (plays_returns f (calm O) e rs p (given o t1) k k1 V PR (calm_settled _ _ _ _ _ ST)) as (t2 & H2).
    + intros d i u. apply (process_rule_ends d (calm O) e rs p i u); [|exact NB]. right. intros x bd m. apply calm_ok.
    + intros g. apply phase_safe; auto. now apply sane_given.
    + congruence.
    + congruence.
    + rewrite KY. destruct o; reflexivity.
    + now apply calm_plays.
    + now apply LF.
    + rewrite (settled_calm f O e rs p _ V ST) in H2. eexists t2, _. eapply steps_snoc; [exact X|]. rewrite (step_phase _ _ _ _ _ _ p P), H2. reflexivity.
  - destruct (given_same o t1) as (GP & GA & GI). eexists _, _.
    eapply steps_snoc; [exact H1|]. rewrite (step_phase _ _ _ _ _ _ p P). unfold process_phase. rewrite GP. replace (p <=? t_phase t1) with false by lia. unfold process_phase_inner.
    change (t_abort (jump_to_phase p (given o t1))) with (t_abort (given o t1)). rewrite GA, <- KA. reflexivity.
  - destruct (given_same o t1) as (GP & GA & GI). eexists _, _.
    eapply steps_snoc; [exact H1|]. rewrite (step_phase _ _ _ _ _ _ p P). unfold process_phase. rewrite GP. replace (p <=? t_phase t1) with true by lia. reflexivity.
  - destruct (step_safe f (calm O) e rs o t1 AR FH SA) as [NP _]. pose proof (other_ends f O e rs o t1 P) as NT.
    replace (Engine.step f (calm O) e rs o t1) with (Engine.step f O e rs o t1) in NP by (destruct o; try discriminate P; reflexivity).
    destruct (Engine.step f O e rs o t1) as [[t2 b2]| |] eqn:S; [|easy|easy]. eexists _, _. eapply steps_snoc; eauto.
  - eexists _, _. eapply steps_snoc; [exact H1|reflexivity].
  - eexists _, _. eapply steps_snoc; [exact H1|reflexivity].
Qed.
(** A history whose phases find bodies that can be read is answered, and with these answers, exactly if the rules spell them out. *)
Theorem C94_settled_answers_exactly : forall f O e rs os l, ord_valid O -> armed rs -> 0 <= e_reqmem e \/ e_reqlimit e < 0 ->
  ~ In ABlock (rs_default rs) -> (forall p, 1 <= p <= 6 -> (length (phase_rules rs p) + 2 <= f)%nat) -> all_settled f O e rs os ->
  (exists t bl, steps f O e rs os (new_txn e) = Ret (t, bl) /\ answers bl = l) <->
  (exists k b, story (in_run f O e rs) (set_plays O e rs) os k b l).
Proof.
  intros f O e rs os l V AR L1 NB LF RD. split.
  - intros (t & bl & H & <-). destruct (C94_every_answer f O e rs os t bl V RD H) as (k & S & _). eauto.
  - intros (k & b & S). destruct (settled_story_returns f O e rs V AR L1 NB LF os RD k b l S) as (t & bl & H). exists t, bl. split; [exact H|].
    symmetry. now apply (PropComplete.told f O e rs os t bl k b l V RD H).
Qed.
(** ** C95 both ways *)
Lemma text_settled : forall fuel O n text ds l, ord_valid O -> file_text ds text -> new_direset fuel O n text = Ret (Some l) ->
  let e := execute l new_engine in
  forall f os, (forall a o b p t c, os = a ++ o :: b -> op_phase o = Some p -> steps f O e (e_ruleset e) a (new_txn e) = Ret (t, c) -> t_phase t < p -> t_abort t = false ->
     bodiless ds p \/ readable O e (given o t)) -> all_settled f O e (e_ruleset e) os.
Proof.
  intros fuel O n text ds l OV FT LD e f os RD a o b p t c Q P X LL AB. destruct (RD a o b p t c Q P X LL AB) as [B|R]; [left|now right].
  exact (text_no_body fuel O n text ds l OV FT LD p (op_phase_range _ _ P) B).
Qed.
Theorem C95_settled_answers_exactly : forall fuel O n text ds l, ord_valid O -> file_text ds text -> new_direset fuel O n text = Ret (Some l) ->
  let e := execute l new_engine in
  forall f os li, (length ds + 2 <= f)%nat ->
  (forall a o b p t c, os = a ++ o :: b -> op_phase o = Some p -> steps f O e (e_ruleset e) a (new_txn e) = Ret (t, c) -> t_phase t < p -> t_abort t = false ->
     bodiless ds p \/ readable O e (given o t)) ->
  (exists t bl, steps f O e (e_ruleset e) os (new_txn e) = Ret (t, bl) /\ answers bl = li) <->
  (exists k b, story (in_run f O e (e_ruleset e)) (text_plays O e ds) os k b li).
Proof.
  intros fuel O n text ds l OV FT LD e f os li FU RD.
  pose proof (C65_execute l new_engine) as (_ & _ & _ & _ & _ & DF & _ & MM & _). fold e in DF, MM.
  rewrite (C94_settled_answers_exactly f O e (e_ruleset e) os li OV).
  - split; intros (k & b & S); exists k, b; (eapply story_along; [|exact S]); intros a o p s x x' P X Y; exists s; (split; [exact X|]).
    + exact (text_played fuel O n text ds l OV FT LD p s x x' (op_phase_range _ _ P) Y).
    + exact (played_text fuel O n text ds l OV FT LD p s x x' (op_phase_range _ _ P) Y).
  - apply (loaded_armed fuel O n text l new_engine LD). intros p r q [].
  - left. rewrite MM. discriminate.
  - rewrite DF. easy.
  - exact (text_fits fuel O n text ds l FT LD f FU).
  - exact (text_settled fuel O n text ds l OV FT LD f os RD).
Qed.
(** ** C89 *)
(** Without skips and allows every such history is answered. *)
Theorem C89_settled_calls_answered : forall fuel O n text ds l, ord_valid O -> file_text ds text -> new_direset fuel O n text = Ret (Some l) -> straight ds ->
  let e := execute l new_engine in
  forall f os, (length ds + 2 <= f)%nat ->
  (forall a o b p t c, os = a ++ o :: b -> op_phase o = Some p -> steps f O e (e_ruleset e) a (new_txn e) = Ret (t, c) -> t_phase t < p -> t_abort t = false ->
     bodiless ds p \/ readable O e (given o t)) ->
  exists t bl, steps f O e (e_ruleset e) os (new_txn e) = Ret (t, bl).
Proof.
  intros fuel O n text ds l OV FT LD S e f os FU RD.
  pose proof (C65_execute l new_engine) as (_ & _ & _ & _ & _ & DF & _ & MM & _). fold e in DF, MM.
  apply C78_settled_calls_return; auto.
  - apply (loaded_armed fuel O n text l new_engine LD). intros p r q [].
  - left. rewrite MM. discriminate.
  - exact (text_settled fuel O n text ds l OV FT LD f os RD).
  - intros p P a U. apply (text_plain fuel O n text ds l OV FT LD S p P) in U. destruct U as (X1 & X2 & X3). now apply unaway_forward.
  - rewrite DF. easy.
  - exact (text_fits fuel O n text ds l FT LD f FU).
Qed.
Lemma phase_before_result : forall os a o b p, os ++ [OpResult] = a ++ o :: b -> op_phase o = Some p -> exists b', os = a ++ o :: b'.
Proof.
  intros os a o b p Q P. destruct b as [|x b _] using rev_ind; [apply app_inj_tail in Q as (_ & <-); discriminate|].
  rewrite app_comm_cons, app_assoc in Q. apply app_inj_tail in Q as (-> & _). eauto.
Qed.
(** ** C90 *)
Lemma orderly_read : forall fuel O n text ds l, ord_valid O -> file_text ds text -> new_direset fuel O n text = Ret (Some l) ->
  bodiless ds 1 -> bodiless ds 2 ->
  let e := execute l new_engine in
  forall f pre post, fault_free (request_writes pre) -> Forall feeding pre -> ahead pre 3 -> orderly O e pre -> Forall after_request post ->
  forall a o b p t c, (pre ++ post) ++ [OpResult] = a ++ o :: b -> op_phase o = Some p -> steps f O e (e_ruleset e) a (new_txn e) = Ret (t, c) -> bodiless ds p \/ readable O e (given o t).
Proof.
  intros fuel O n text ds l OV FT LD B1 B2 e f pre post FF F AH OR AR a o b p t c Q P H.
  destruct (phase_before_result _ _ _ _ _ Q P) as (b' & Q'). pose proof (op_phase_range _ _ P) as R.
  destruct (Z_lt_le_dec p 3) as [L|L]; [left; assert (X : p = 1 \/ p = 2) by lia; destruct X as [->| ->]; assumption|right].
  assert (M : 0 <= e_reqmem e) by (destruct (C65_execute l new_engine) as (_ & _ & _ & _ & _ & _ & _ & X & _); unfold e; rewrite X; discriminate).
  destruct (request_readable f O e (e_ruleset e) pre post a o b' p t c OV M FF) as (_ & _ & r & RA & _); auto.
  - intros q Z. assert (X : q = 1 \/ q = 2) by lia. destruct X as [->| ->]; (apply (text_unseeing fuel O n text ds l OV FT LD); [lia|assumption]).
  - apply readable_iff. eauto.
Qed.
(** Requests whose bodies come in order, with rules that look at bodies in the body phase or later: always answered. *)
Theorem C90_orderly_requests_answered : forall fuel O n text ds l, ord_valid O -> file_text ds text -> new_direset fuel O n text = Ret (Some l) -> straight ds ->
  bodiless ds 1 -> bodiless ds 2 ->
  let e := execute l new_engine in
  forall f pre post, (length ds + 2 <= f)%nat -> fault_free (request_writes pre) -> Forall feeding pre -> ahead pre 3 -> orderly O e pre -> Forall after_request post ->
  exists t bl, steps f O e (e_ruleset e) ((pre ++ post) ++ [OpResult]) (new_txn e) = Ret (t, bl).
Proof.
  intros fuel O n text ds l OV FT LD S B1 B2 e f pre post FU FF F AH OR AR.
  apply (C89_settled_calls_answered fuel O n text ds l OV FT LD S f _ FU). intros a o b p t c Q P H _ _.
  eapply (orderly_read fuel O n text ds l); eauto.
Qed.
(** ** C89, C95: the texts alone *)
(** Every request whose body is described is answered, bodies looked at or not. *)
Theorem C89_requests_answered : forall fuel O n text ds l, ord_valid O -> uri_library O -> media_library O -> multipart_library O ->
  file_text ds text -> new_direset fuel O n text = Ret (Some l) -> straight ds -> request_rules ds ->
  let e := execute l new_engine in
  forall f rq port ip2 port2 u pieces later fields body, (length ds + 2 <= f)%nat ->
  parse_target (q_target rq) = Some u -> q_body rq = concat pieces -> Z.of_nat (length (q_body rq)) <= 131072 ->
  body_fields (last (body_switches ds) false) rq fields body -> Forall after_request later ->
  exists t bl i, steps f O e (e_ruleset e) ((request_calls rq port ip2 port2 u pieces ++ later) ++ [OpResult]) (new_txn e) = Ret (t, bl ++ [ObsResult i]) /\
    (i_disruptive i = true <-> request_denied O ds rq fields body later).
Proof.
  intros fuel O n text ds l OV UL ML MU FT LD ST RR e f rq port ip2 port2 u pieces later fields body FU PT BE LB BF LA.
  destruct (request_bodiless _ RR) as (B1 & B2).
  destruct (C90_orderly_requests_answered fuel O n text ds l OV FT LD ST B1 B2 f (request_calls rq port ip2 port2 u pieces) later FU) as (t & bl & H).
  - apply pre_faultless.
  - apply pre_feeding.
  - apply pre_ahead.
  - eapply pre_orderly; eauto.
  - exact LA.
  - destruct (C89_requests_by_text fuel O n text ds l OV UL ML MU FT LD ST RR f rq port ip2 port2 u pieces later fields body t bl PT BE LB BF LA H) as (i & bl' & -> & X).
    exists t, bl', i. split; [exact H|exact X].
Qed.
(** And every exchange, fetched at any moment, with the answer its texts spell out. *)
Theorem C95_exchanges_answered : forall fuel O n text ds l, ord_valid O -> uri_library O -> media_library O -> multipart_library O ->
  file_text ds text -> new_direset fuel O n text = Ret (Some l) -> straight ds -> timely ds ->
  let e := execute l new_engine in
  forall f rq port ip2 port2 u pieces fields body rp pieces', (length ds + 2 <= f)%nat ->
  parse_target (q_target rq) = Some u -> q_body rq = concat pieces -> Z.of_nat (length (q_body rq)) <= 131072 ->
  body_fields (last (body_switches ds) false) rq fields body ->
  r_body rp = concat pieces' -> Z.of_nat (length (r_body rp)) <= 524228 -> typed rp ->
  forall a b, exchange_calls rq port ip2 port2 u pieces rp pieces' = a ++ b ->
  exists y t bl, steps f O e (e_ruleset e) (a ++ [OpResult]) (new_txn e) = Ret (t, bl ++ [ObsResult (Intervention (y_code y) 0 None (y_lines y) (y_denied y))]) /\
    phases_answer O ds rq fields body rp port (phases_of a) SpecAnswer.silent y.
Proof.
  intros fuel O n text ds l OV UL ML MU FT LD ST TI e f rq port ip2 port2 u pieces fields body rp pieces' FU PT BE LB BF RE LR TY a b Q.
  destruct (C89_settled_calls_answered fuel O n text ds l OV FT LD ST f (a ++ [OpResult]) FU) as (t & bl & H).
  - intros a' o b' p t c Q' P S _ _. destruct (phase_before_result _ _ _ _ _ Q' P) as (b2 & ->). rewrite <- app_assoc in Q. cbn [app] in Q.
    eapply later_phases_read; eauto.
  - destruct (C95_exchanges_by_text fuel O n text ds l OV UL ML MU FT LD ST TI f rq port ip2 port2 u pieces fields body rp pieces' PT BE LB BF RE LR TY a b t bl Q H) as (y & bl' & PA & ->).
    exists y, t, bl'. split; [exact H|exact PA].
Qed.

(** ** Example: a library that hangs on forms it cannot make sense of *)
Example C89_requests_answered_example : let O := multir MpHang in
  ord_valid O /\ uri_library O /\ media_library O /\ multipart_library O /\
  fst (multipart O (Buffer 7 99 99 (B "no form") None false) [] 0) = MpHang /\
  file_text filter_directives filter_text /\ straight filter_directives /\ request_rules filter_directives /\ timely filter_directives /\
  (forall target, body_fields (last (body_switches filter_directives) false) (filter_request target) [(B "user", B "b"); (B "x", B "1")] [B "user=b&x=1"]) /\
  exists l, new_direset 500 O 0 filter_text = Ret (Some l) /\ let e := execute l new_engine in
    forall target u, parse_target (B target) = Some u ->
    let os := request_calls (filter_request target) [] [] [] u [B "user=b"; B "&x=1"] in
    armed (e_ruleset e) /\ 0 <= e_reqmem e /\ all_settled 6 O e (e_ruleset e) ((os ++ [OpRequestBody]) ++ [OpResult]) /\
    (exists t bl i, steps 6 O e (e_ruleset e) ((os ++ [OpRequestBody]) ++ [OpResult]) (new_txn e) = Ret (t, bl ++ [ObsResult i]) /\
       (i_disruptive i = true <-> request_denied O filter_directives (filter_request target) [(B "user", B "b"); (B "x", B "1")] [B "user=b&x=1"] [OpRequestBody])) /\
    (exists y t bl, steps 6 O e (e_ruleset e) (exchange_calls (filter_request target) [] [] [] u [B "user=b"; B "&x=1"] (guard_response 200) [B "a Se"; B "cret"] ++ [OpResult]) (new_txn e) =
        Ret (t, bl ++ [ObsResult (Intervention (y_code y) 0 None (y_lines y) (y_denied y))]) /\
       phases_answer O filter_directives (filter_request target) [(B "user", B "b"); (B "x", B "1")] [B "user=b&x=1"] (guard_response 200) [] [1; 2; 3; 4; 5; 6] SpecAnswer.silent y).
Proof.
  cbv zeta. destruct (multir_ok MpHang) as (A1 & A2 & A3 & A4 & A5). do 4 (split; [assumption|]). split; [vm_compute; reflexivity|].
  destruct C89_requests_example as (_ & _ & _ & _ & FT & ST & RR & BF & _). split; [exact FT|]. split; [exact ST|]. split; [exact RR|].
  assert (TI : timely filter_directives).
  { intros w c w' v CI I V. apply filter_chains in CI as [E|E]; injection E as -> ->; cbn in I, V.
    - destruct I as [<-|[]]. destruct V as [<-|[]]. vm_compute. discriminate.
    - destruct I as [<-|[<-|[]]]; destruct V as [<-|[]]; vm_compute; discriminate. }
  split; [exact TI|]. split; [exact BF|].
  assert (LD : exists l, new_direset 500 (multir MpHang) 0 filter_text = Ret (Some l)) by (eexists; vm_compute; reflexivity).
  destruct LD as (l & LD). exists l. split; [exact LD|]. intros target u PT.
  assert (FU : (length filter_directives + 2 <= 6)%nat) by (vm_compute; lia).
  assert (LA : Forall after_request [OpRequestBody]) by (constructor; [exact I|constructor]).
  split; [apply (loaded_armed 500 _ _ _ _ _ LD); intros p r q []|].
  split; [destruct (C65_execute l new_engine) as (_ & _ & _ & _ & _ & _ & _ & X & _); rewrite X; discriminate|].
  destruct (request_bodiless _ RR) as (B1 & B2). split; [|split].
  - apply (text_settled 500 _ 0 filter_text filter_directives l A1 FT LD). intros a o b p t c Q P H _ _.
    eapply (orderly_read 500 _ 0 filter_text filter_directives l A1 FT LD B1 B2 6 _ [OpRequestBody]); [| | | |exact LA|exact Q|exact P|exact H].
    + apply pre_faultless.
    + apply pre_feeding.
    + apply pre_ahead.
    + eapply (pre_orderly 500 (multir MpHang) 0 filter_text filter_directives l A4 A5 FT LD (filter_request target)); [reflexivity|vm_compute; discriminate|apply BF].
  - apply (C89_requests_answered 500 (multir MpHang) 0 filter_text filter_directives l A1 A3 A4 A5 FT LD ST RR 6 (filter_request target) [] [] [] u [B "user=b"; B "&x=1"]); auto.
    vm_compute. discriminate.
  - destruct C95_exchanges_example as (_ & _ & _ & _ & _ & _ & _ & _ & _ & _ & TY & _).
    destruct (C95_exchanges_answered 500 (multir MpHang) 0 filter_text filter_directives l A1 A3 A4 A5 FT LD ST TI 6 (filter_request target) [] [] [] u [B "user=b"; B "&x=1"]
      [(B "user", B "b"); (B "x", B "1")] [B "user=b&x=1"] (guard_response 200) [B "a Se"; B "cret"] FU PT eq_refl) with (b := @nil op) (a := exchange_calls (filter_request target) [] [] [] u [B "user=b"; B "&x=1"] (guard_response 200) [B "a Se"; B "cret"]) as (y & t & bl & H & PA); auto.
    + vm_compute. discriminate.
    + vm_compute. discriminate.
    + exists y, t, bl. split; [exact H|]. rewrite C95_exchange_phases in PA. exact PA.
Qed.

Print Assumptions C78_settled_calls_never_panic.
Print Assumptions C78_settled_calls_return.
Print Assumptions C94_settled_answers_exactly.
Print Assumptions C95_settled_answers_exactly.
Print Assumptions C89_settled_calls_answered.
Print Assumptions C90_orderly_requests_answered.
Print Assumptions C89_requests_answered.
Print Assumptions C95_exchanges_answered.
Print Assumptions C89_requests_answered_example.
