(** Property theorems C89 and C90: from the text of the rules to the verdict. *)
From Verif Require Import Base BaseFacts GoStrings Utils Buffer BufferFacts SpecBuffer Types Transforms Operators Transaction Variables Rules Engine
  SpecText NumFacts SpecVars VarText VarFacts BodyFacts SpecRules PropText PropVars RuleFacts Scanner Loader SpecParse ParseFacts ParseLists ParseFiles ParsePrint
  SpecLoad LoadFacts SpecTxn TxnFacts LoopFacts Witness PropRules PropPhases PropTxn PropLoad PropEnd SpecData PropData SpecGate PropGate PropSafe PropFile SpecBody PropBody SpecVerdict.
From Coq Require Import ZifyBool.

(** ** Chains as written and as loaded *)
Definition loaded_as (O : oracles) (w : written) (r : rule) : Prop :=
  exists n c, rule_from_seclang O n (w_vars w) (w_op w) (w_acts w) = Some (r, c).
Definition chain_as (O : oracles) (c : list written) (r : rule) : Prop :=
  exists w l, c = w :: l /\ loaded_as O w (alone r) /\ Forall2 (loaded_as O) l (r_subs r).

Lemma dire_rule : forall O n d r c, dire_factory O n d = Some (IRule r, c) ->
  exists w, rule_line d w /\ rule_from_seclang O n (w_vars w) (w_op w) (w_acts w) = Some (r, c).
Proof.
  intros O n d r c H. destruct d as [vs o a| | |]; try discriminate. exists (Written vs o a). split; [reflexivity|]. simpl in *.
  destruct (rule_from_seclang O n vs o a) as [[r' c']|]; [|discriminate]. injection H as <- <-. reflexivity.
Qed.
Lemma dire_other : forall O n d x c, dire_factory O n d = Some (x, c) -> no_rule x -> no_rule_line d.
Proof.
  intros O n d x c H N w ->. simpl in H. destruct (rule_from_seclang O n _ _ _) as [[r' c']|]; [|discriminate]. injection H as <- _. exact N.
Qed.
Lemma from_seclang_chain : forall O n w r c, rule_from_seclang O n (w_vars w) (w_op w) (w_acts w) = Some (r, c) -> c = pas_chain (w_acts w) /\ r_subs r = [].
Proof.
  intros O n w r c H. unfold rule_from_seclang in H. destruct (apply_variables O n (w_vars w)); [|discriminate]. destruct (operator_factory O (w_op w)); [|discriminate].
  destruct (apply_action_list _ [] []) as [[? ?]|]; [|discriminate]. injection H as <- <-. split; reflexivity.
Qed.
Lemma followers_written : forall O items subs oth rest, followers items subs oth rest -> forall n ds, loaded O n ds items ->
  exists l ds' n', chain_rest ds l ds' /\ Forall2 (loaded_as O) l subs /\ loaded O n' ds' rest.
Proof.
  intros O items subs oth rest F. induction F as [|r l|r l subs oth rest F IH|d c l subs oth rest N F IH]; intros n ds L; inversion L as [|n1 d1 ds1 x xs FA L1]; subst.
  - exists [], [], n. repeat constructor.
  - apply dire_rule in FA as (w & W & R). exists [w], ds1, (S (S n)). destruct (from_seclang_chain _ _ _ _ _ R) as [C _]. split; [constructor; auto|]. split; [constructor; [exists n; eauto|constructor]|exact L1].
  - apply dire_rule in FA as (w & W & R). destruct (from_seclang_chain _ _ _ _ _ R) as [C _]. destruct (IH _ _ L1) as (l0 & ds' & n' & I1 & I2 & I3).
    exists (w :: l0), ds', n'. split; [constructor; auto|]. split; [constructor; [exists n; eauto|exact I2]|exact I3].
  - pose proof (dire_other _ _ _ _ _ FA N) as NR. destruct (IH _ _ L1) as (l0 & ds' & n' & I1 & I2 & I3). exists l0, ds', n'. split; [now constructor|auto].
Qed.
Lemma chain_rest_fun : forall ds l1 r1, chain_rest ds l1 r1 -> forall l2 r2, chain_rest ds l2 r2 -> l2 = l1 /\ r2 = r1.
Proof.
  intros ds l1 r1 H. induction H as [|d w ds W C|d w ds l rest W C H IH|d ds l rest N H IH]; intros l2 r2 H2; inversion H2; subst; auto;
    try (match goal with A : rule_line ?d ?w, B : rule_line ?d ?w' |- _ => assert (w' = w) by (unfold rule_line in A, B; rewrite A in B; injection B; destruct w, w'; cbn; congruence); subst end);
    try congruence; try (exfalso; eapply N; eassumption); try (exfalso; match goal with N : no_rule_line _ |- _ => eapply N; eassumption end); auto.
  - destruct (IH _ _ ltac:(eassumption)) as [-> ->]. auto.
Qed.
Lemma rule_line_fun : forall d w w', rule_line d w -> rule_line d w' -> w' = w.
Proof. intros d [v o a] [v' o' a'] A B. unfold rule_line in *. cbn in *. congruence. Qed.
Lemma first_chain_fun : forall ds c1 r1 c2 r2, first_chain ds c1 r1 -> first_chain ds c2 r2 -> c2 = c1 /\ r2 = r1.
Proof.
  intros ds c1 r1 c2 r2 (d & w & ds' & -> & W & H) (d2 & w2 & ds2 & E & W2 & H2). injection E as <- <-. pose proof (rule_line_fun _ _ _ W W2). subst w2.
  destruct H as [(C & -> & ->)|(C & l & R & ->)], H2 as [(C2 & -> & ->)|(C2 & l2 & R2 & ->)]; try congruence; auto.
  destruct (chain_rest_fun _ _ _ R _ _ R2) as [-> ->]. auto.
Qed.
Lemma chain_in_inv : forall ds c0 rest c, first_chain ds c0 rest -> chain_in ds c -> c = c0 \/ chain_in rest c.
Proof.
  intros ds c0 rest c F H. inversion H as [? ? r F'|? ? r ? F' K|d ds' ? N K]; subst.
  - left. now destruct (first_chain_fun _ _ _ _ _ F F').
  - right. now destruct (first_chain_fun _ _ _ _ _ F F') as [-> ->].
  - exfalso. destruct F as (d' & w & ds2 & E & W & _). injection E as <- <-. eapply N; eauto.
Qed.
Lemma assembled_written : forall O items l, assembled items l -> forall n ds, loaded O n ds items ->
  (forall r, In (IRule r) l -> exists c, chain_in ds c /\ chain_as O c r) /\
  (forall c, chain_in ds c -> exists r, In (IRule r) l /\ chain_as O c r).
Proof.
  intros O items l A. induction A as [|d c l l' N A IH|r l l' A IH|r l subs oth rest l' F A IH]; intros n ds L; inversion L as [|n1 d1 ds1 x xs FA L1]; subst.
  - split; [easy|]. intros c H. inversion H as [? ? ? F|? ? ? ? F|]; subst; destruct F as (? & ? & ? & ? & _); discriminate.
  - pose proof (dire_other _ _ _ _ _ FA N) as NR. destruct (IH _ _ L1) as [I1 I2]. split.
    + intros r [->|I]; [elim N|]. destruct (I1 r I) as (c0 & J & K). exists c0. split; [now apply ci_other|exact K].
    + intros c0 H. inversion H as [? ? ? F|? ? ? ? F|? ? ? NN K]; subst; try (exfalso; destruct F as (? & w & ? & E & W & _); injection E as <- <-; eapply NR; exact W).
      destruct (I2 c0 K) as (r & J & X). exists r. split; [now right|exact X].
  - apply dire_rule in FA as (w & W & R). destruct (from_seclang_chain _ _ _ _ _ R) as [C S]. destruct (IH _ _ L1) as [I1 I2].
    assert (FC : first_chain (d1 :: ds1) [w] ds1) by (exists d1, w, ds1; split; [reflexivity|]; split; [exact W|]; left; auto).
    assert (CA : chain_as O [w] r).
    { exists w, []. split; [reflexivity|]. rewrite S. split; [|constructor]. exists n, false. rewrite R. do 2 f_equal. destruct r; cbn in S; now subst. }
    split.
    + intros r0 [Q|I]; [injection Q as <-; exists [w]; split; [eapply ci_here; eauto|exact CA]|]. destruct (I1 r0 I) as (c0 & J & K). exists c0. split; [eapply ci_later; eauto|exact K].
    + intros c0 H. destruct (chain_in_inv _ _ _ _ FC H) as [->|K]; [exists r; split; [now left|exact CA]|]. destruct (I2 c0 K) as (r0 & J & X). exists r0. split; [now right|exact X].
  - apply dire_rule in FA as (w & W & R). destruct (from_seclang_chain _ _ _ _ _ R) as [C S]. destruct (followers_written _ _ _ _ _ F _ _ L1) as (ws & ds' & n' & F1 & F2 & F3).
    destruct (IH _ _ F3) as [I1 I2].
    assert (FC : first_chain (d1 :: ds1) (w :: ws) ds') by (exists d1, w, ds1; split; [reflexivity|]; split; [exact W|]; right; split; [auto|]; exists ws; auto).
    assert (CA : chain_as O (w :: ws) (with_followers r subs)).
    { exists w, ws. split; [reflexivity|]. unfold with_followers. cbn [r_subs]. rewrite S. split; [|exact F2]. exists n, true. rewrite R. do 2 f_equal. destruct r; cbn in S; now subst. }
    assert (NO : Forall no_rule oth) by (clear -F; induction F; auto).
    split.
    + intros r0 [Q|I]; [injection Q as <-; exists (w :: ws); split; [eapply ci_here; eauto|exact CA]|]. apply in_app_iff in I as [I|I].
      * rewrite Forall_forall in NO. now apply NO in I.
      * destruct (I1 r0 I) as (c0 & J & K). exists c0. split; [eapply ci_later; eauto|exact K].
    + intros c0 H. destruct (chain_in_inv _ _ _ _ FC H) as [->|K]; [eexists; split; [now left|exact CA]|]. destruct (I2 c0 K) as (r0 & J & X). exists r0. split; [right; apply in_app_iff; now right|exact X].
Qed.
(** ** One rule *)
Lemma loaded_matches : forall O e t w r, ord_valid O -> loaded_as O w r -> (rule_matches O e t r <-> written_matches O e t w).
Proof.
  intros O e t w r OV (n & c & H). destruct (C70_rule_as_written _ _ _ _ _ _ _ OV H) as (_ & _ & _ & NT & TR & (op & OP & OM) & _ & _ & _ & (keys & ND & KM & F)).
  assert (TT : forall v, transformed O r v = changed O (pas_trans (w_acts w)) v).
  { intro v. unfold transformed, changed. rewrite TR. clear. revert v. induction (pas_trans (w_acts w)) as [|x ts IH]; intro v; [reflexivity|]. cbn [map fold_left]. apply IH. }
  split.
  - intros (v & t' & vals & x & I & FE & J & (o & O1 & O2)). destruct (forall2_right _ _ _ _ _ _ F I) as ([tk ct] & K & s & K1 & K2). cbn [fst snd] in *.
    exists tk, ct, s, v, t', vals, x, o. split; [now apply KM|]. split; [exact K1|]. split; [exact K2|]. split; [exact FE|]. split; [exact J|].
    assert (o = op) by congruence. subst o. split; [exact OM|]. rewrite <- TT, <- NT. exact O2.
  - intros (tk & ct & s & x & t' & vals & v & o & M & V & A & FE & J & OM' & HT).
    destruct (forall2_left _ _ _ _ _ _ F (proj2 (KM tk ct) M)) as (y & I & s' & K1 & K2). cbn [fst snd] in *.
    assert (s' = s) by (apply var_means_iff in K1; apply var_means_iff in V; congruence). subst s'. assert (y = x) by congruence. subst y.
    assert (o = op) by (apply operator_means in OM, OM'; congruence). subst o.
    exists x, t', vals, v. split; [exact I|]. split; [exact FE|]. split; [exact J|]. exists op. split; [exact OP|]. rewrite TT, NT. exact HT.
Qed.
Lemma acts_mean_deny : forall l x, acts_mean l x -> (In ADeny x <-> exists a, In a l /\ pa_tok a = KDeny).
Proof.
  intros l x H. induction H as [|a l x y A H IH]; [split; [easy|intros (a & [] & _)]|]. rewrite in_app_iff, IH. split.
  - intros [I|(b & I & B)]; [|exists b; split; [now right|exact B]]. exists a. split; [now left|]. destruct A; cbn in I; intuition discriminate.
  - intros (b & [<-|I] & B); [left; destruct A; cbn in B |- *; try discriminate; [now left|]; subst; cbn in *; intuition discriminate|right; eauto].
Qed.
Lemma acts_mean_in : forall l x a, acts_mean l x -> In a x -> exists b y, In b l /\ act_means b y /\ In a y.
Proof.
  intros l x a H. induction H as [|b l x y A H IH]; [easy|]. rewrite in_app_iff. intros [I|I]; [exists b, x; auto with datatypes|].
  destruct (IH I) as (b' & y' & J & K). exists b', y'. split; [now right|exact K].
Qed.
Lemma loaded_denies : forall O w r, ord_valid O -> loaded_as O w r -> (In ADeny (r_acts r) <-> asks_denial w).
Proof. intros O w r OV (n & c & H). destruct (C70_rule_as_written _ _ _ _ _ _ _ OV H) as (_ & _ & _ & _ & _ & _ & A & _). now apply acts_mean_deny. Qed.
Lemma apply_call_body : forall O c v v', apply_call O c v = Some v' -> looks_at_body v' = looks_at_body v.
Proof.
  intros O c v. destruct c as [s|s]; cbn [apply_call]; induction v as [k f|k|f g|f g|v IH]; intros v' H; cbn [var_include var_exclude] in H.
  1,6: match type of H with option_map _ ?x = _ => destruct x; [|discriminate] end; injection H as <-; reflexivity.
  1,5: injection H as <-; reflexivity.
  1,2,4,5: match type of H with match ?x with _ => _ end = _ => destruct x; [|discriminate] end; match type of H with match ?x with _ => _ end = _ => destruct x; [|discriminate] end; injection H as <-; reflexivity.
  1,2: match type of H with option_map _ ?x = _ => destruct x eqn:E; [|discriminate] end; injection H as <-; cbn [looks_at_body]; now apply IH.
Qed.
Lemma apply_calls_body : forall O cs v v', apply_calls O cs v = Some v' -> looks_at_body v' = looks_at_body v.
Proof.
  intros O cs. induction cs as [|c cs IH]; intros v v' H; cbn [apply_calls] in H; [now injection H as <-|].
  destruct (apply_call O c v) as [v1|] eqn:E; [|discriminate]. rewrite (IH _ _ H). eapply apply_call_body; eauto.
Qed.
Lemma body_word : forall tk s, In (tk, s) var_means -> (looks_at_body s = true <-> In tk body_words).
Proof. intros tk s H. simpl in H. repeat (destruct H as [H|H]; [injection H as <- <-; cbn; intuition discriminate|]). destruct H. Qed.
Lemma loaded_bodiless : forall O w r, ord_valid O -> loaded_as O w r -> (forall v, In v (w_vars w) -> ~ In (pv_tok v) body_words) ->
  forall v, In v (r_vars r) -> looks_at_body v = false.
Proof.
  intros O w r OV (n & c & H) B v I. destruct (C70_rule_as_written _ _ _ _ _ _ _ OV H) as (_ & _ & _ & _ & _ & _ & _ & _ & _ & (keys & ND & KM & F)).
  destruct (forall2_right _ _ _ _ _ _ F I) as ([tk ct] & K & s & K1 & K2). cbn [fst snd] in *. rewrite (apply_calls_body _ _ _ _ K2).
  apply KM in K as (x & X & <- & _). destruct (looks_at_body (if ct then VCount s else s)) eqn:E; [|reflexivity]. exfalso. apply (B x X). apply (body_word _ _ K1).
  now destruct ct.
Qed.
Lemma loaded_straight : forall O w r, ord_valid O -> loaded_as O w r -> (forall x, In x (pas_acts (w_acts w)) -> pa_tok x <> KSkip /\ pa_tok x <> KAllow) ->
  forall a, In a (r_acts r) -> plain_action a = true.
Proof.
  intros O w r OV (n & c & H) B a I. destruct (C70_rule_as_written _ _ _ _ _ _ _ OV H) as (_ & _ & _ & _ & _ & _ & A & _).
  destruct (acts_mean_in _ _ _ A I) as (b & y & J & K & L). apply B in J. destruct K; cbn in J, L; intuition; try discriminate; subst; reflexivity.
Qed.
Lemma plain_is : forall a, plain_action a = true -> a <> ASkip /\ a <> APass /\ ~ leads_away a.
Proof. intros a Q. destruct a; try discriminate; (split; [discriminate|]); (split; [discriminate|]); intros (p1 & q1 & L); inversion L. Qed.

(** ** The engine a text configures *)
Lemma file_text_fun : forall ds1 ds2 text, file_text ds1 text -> file_text ds2 text -> ds1 = ds2.
Proof.
  intros ds1 ds2 text H1 H2. pose proof (parse_text_file _ _ (S (length text)) H1 ltac:(lia)) as E1. pose proof (parse_text_file _ _ (S (length text)) H2 ltac:(lia)) as E2.
  rewrite E1 in E2. apply Ret_inj in E2. now injection E2.
Qed.
Lemma chain_in_lines : forall ds c, chain_in ds c -> forall w, In w c -> exists d, In d ds /\ rule_line d w.
Proof.
  assert (CR : forall ds l rest, chain_rest ds l rest -> (forall w, In w l -> exists d, In d ds /\ rule_line d w) /\ incl rest ds).
  { intros ds l rest H. induction H as [|d w ds W C|d w ds l rest W C H [I1 I2]|d ds l rest N H [I1 I2]].
    - split; [easy|intros ? []].
    - split; [intros x [<-|[]]; exists d; split; [now left|exact W]|intros x I; now right].
    - split; [|intros x I; right; now apply I2]. intros x [<-|I]; [exists d; split; [now left|exact W]|]. destruct (I1 x I) as (d' & J & K). exists d'. split; [now right|exact K].
    - split; [|intros x I; right; now apply I2]. intros x I. destruct (I1 x I) as (d' & J & K). exists d'. split; [now right|exact K]. }
  assert (FC : forall ds c rest, first_chain ds c rest -> (forall w, In w c -> exists d, In d ds /\ rule_line d w) /\ incl rest ds).
  { intros ds c rest (d & w & ds' & -> & W & [(C & -> & ->)|(C & l & R & ->)]).
    - split; [intros x [<-|[]]; exists d; split; [now left|exact W]|intros x I; now right].
    - destruct (CR _ _ _ R) as [I1 I2]. split; [|intros x I; right; now apply I2]. intros x [<-|I]; [exists d; split; [now left|exact W]|].
      destruct (I1 x I) as (d' & J & K). exists d'. split; [now right|exact K]. }
  intros ds c H. induction H as [ds c rest F|ds c rest c' F H IH|d ds c N H IH]; intros w I.
  - now apply (FC _ _ _ F).
  - destruct (IH w I) as (d & J & K). exists d. split; [now apply (FC _ _ _ F)|exact K].
  - destruct (IH w I) as (d' & J & K). exists d'. split; [now right|exact K].
Qed.
Section Text.
Variables (fuel : nat) (O : oracles) (n : nat) (text : bs) (ds : list directive) (l : list dire).
Hypothesis OV : ord_valid O.
Hypothesis FT : file_text ds text.
Hypothesis LD : new_direset fuel O n text = Ret (Some l).
Let e := execute l new_engine.
Let rs := e_ruleset e.
Lemma text_chains : 
  (forall r, In (IRule r) l -> exists c, chain_in ds c /\ chain_as O c r) /\
  (forall c, chain_in ds c -> exists r, In (IRule r) l /\ chain_as O c r).
Proof.
  destruct (proj1 (C62_texts O n text l) (ex_intro _ fuel LD)) as (ds' & items & F & L & A). rewrite (file_text_fun _ _ _ FT F).
  eapply assembled_written; eauto.
Qed.
Lemma text_default : rs_default rs = [].
Proof. unfold rs, e. destruct (C65_execute l new_engine) as (_ & _ & _ & _ & _ & D & _). exact D. Qed.
Lemma text_phase : forall p r, 1 <= p <= 6 -> (In r (phase_rules rs p) <-> In (IRule r) l /\ r_phase r = p).
Proof.
  intros p r P. unfold rs, e. destruct (C65_execute l new_engine) as (_ & _ & _ & D & _). rewrite D by exact P.
  change (phase_rules (e_ruleset new_engine) p) with (@nil rule). cbn [app]. rewrite filter_In, rules_in, Z.eqb_eq. reflexivity.
Qed.
Lemma chain_phase : forall w c r, chain_as O (w :: c) r -> r_phase r = pas_phase (w_acts w).
Proof.
  intros w c r (w' & c' & E & (m & ch & H) & _). injection E as <- <-. destruct (C70_rule_as_written _ _ _ _ _ _ _ OV H) as (_ & P & _). exact P.
Qed.
Lemma chain_members : forall c r, chain_as O c r -> Forall2 (loaded_as O) c (alone r :: r_subs r).
Proof. intros c r (w & l0 & -> & H & F). now constructor. Qed.
Lemma alone_matches : forall t r, rule_matches O e t (alone r) <-> rule_matches O e t r.
Proof. intros t r. split; intro H; exact H. Qed.
Lemma text_denied : forall p t, 1 <= p <= 6 -> (denied_by O e rs p t <-> written_denied O e ds p t).
Proof.
  intros p t P. destruct text_chains as [T1 T2]. split.
  - intros (r & I & (q & J & DN) & CM). apply text_phase in I as [I R]; [|exact P]. destruct (T1 r I) as (c & CI & CA). pose proof (chain_members _ _ CA) as M.
    pose proof CA as (w & c' & -> & _). exists w, c'. split; [exact CI|]. split; [rewrite <- R; symmetry; eapply chain_phase; eauto|]. split.
    + destruct DN as [DN|[_ DN]]; [|rewrite text_default in DN; easy].
      assert (X : exists q', In q' (alone r :: r_subs r) /\ In ADeny (r_acts q')) by (destruct J as [<-|J]; [exists (alone r); split; [now left|exact DN]|exists q; split; [now right|exact DN]]).
      destruct X as (q' & J' & DN'). destruct (forall2_right _ _ _ _ _ _ M J') as (w' & K & LA). apply Exists_exists. exists w'. split; [exact K|]. now apply (loaded_denies O w' q' OV LA).
    + apply Forall_forall. intros w' K. destruct (forall2_left _ _ _ _ _ _ M K) as (q' & J' & LA). apply (loaded_matches O e t w' q' OV LA).
      destruct J' as [<-|J']; [apply alone_matches, CM; now left|apply CM; now right].
  - intros (w & c & CI & PH & EX & FA). destruct (T2 _ CI) as (r & I & CA). pose proof (chain_members _ _ CA) as M. exists r.
    split; [apply text_phase; [exact P|]; split; [exact I|rewrite <- PH; eapply chain_phase; eauto]|]. split.
    + apply Exists_exists in EX as (w' & K & AD). destruct (forall2_left _ _ _ _ _ _ M K) as (q' & J' & LA). apply (loaded_denies O w' q' OV LA) in AD.
      destruct J' as [<-|J']; [exists r; split; [now left|left; exact AD]|exists q'; split; [now right|now left]].
    + rewrite Forall_forall in FA. intros q [<-|J].
      * apply alone_matches. destruct (forall2_right _ _ _ _ _ (alone r) M) as (w' & K & LA); [now left|]. apply (loaded_matches O e t w' _ OV LA). now apply FA.
      * destruct (forall2_right _ _ _ _ _ q M) as (w' & K & LA); [now right|]. apply (loaded_matches O e t w' _ OV LA). now apply FA.
Qed.
Lemma text_plain : straight ds -> forall p, 1 <= p <= 6 -> plain_actions rs p.
Proof.
  intros S p P a U. apply plain_is. destruct U as [(r & q & I & J & K)|[_ K]]; [|rewrite text_default in K; easy].
  apply text_phase in I as [I _]; [|exact P]. destruct text_chains as [T1 _]. destruct (T1 r I) as (c & CI & CA). pose proof (chain_members _ _ CA) as M.
  assert (X : exists q', In q' (alone r :: r_subs r) /\ In a (r_acts q')) by (destruct J as [<-|J]; [exists (alone r); split; [now left|exact K]|exists q; split; [now right|exact K]]).
  destruct X as (q' & J' & K'). destruct (forall2_right _ _ _ _ _ _ M J') as (w' & KW & LA). destruct (chain_in_lines _ _ CI _ KW) as (d & D1 & D2).
  eapply loaded_straight; [exact OV|exact LA| |exact K']. intros x X. eapply S; eauto.
Qed.
Lemma text_unseeing : forall p, 1 <= p <= 6 -> bodiless ds p -> unseeing rs p.
Proof.
  intros p P B r q v I J K. apply text_phase in I as [I R]; [|exact P].
  destruct text_chains as [T1 _]. destruct (T1 r I) as (c & CI & CA). pose proof (chain_members _ _ CA) as M.
  assert (X : exists q', In q' (alone r :: r_subs r) /\ In v (r_vars q')) by (destruct J as [<-|J]; [exists (alone r); split; [now left|exact K]|exists q; split; [now right|exact K]]).
  destruct X as (q' & J' & K'). destruct (forall2_right _ _ _ _ _ _ M J') as (w' & KW & LA). pose proof CA as (w & c' & -> & _).
  eapply loaded_bodiless; [exact OV|exact LA| |exact K']. intros x X. eapply B; [exact CI| |exact KW|exact X]. rewrite <- R. symmetry. eapply chain_phase; eauto.
Qed.
Lemma text_gate : straight ds -> forall p, 1 <= p <= 6 -> bodiless ds p -> gate rs p.
Proof. intros S p P B. split; [exact (text_plain S p P)|exact (text_unseeing p P B)]. Qed.
End Text.

(** ** C89 *)
(** The engine a text of rules configures blocks a request exactly if the text says
    so of some call. *)
Theorem C89_text_decides : forall fuel O n text ds l, ord_valid O -> file_text ds text -> new_direset fuel O n text = Ret (Some l) -> straight ds ->
  let e := execute l new_engine in
  forall f os t' bl, Forall feeding os ->
  (forall a o b p t c, os = a ++ o :: b -> op_phase o = Some p -> ahead a p -> steps f O e (e_ruleset e) a (new_txn e) = Ret (t, c) ->
     bodiless ds p \/ readable O e (given o t)) ->
  steps f O e (e_ruleset e) (os ++ [OpResult]) (new_txn e) = Ret (t', bl) ->
  exists i bl', bl = bl' ++ [ObsResult i] /\
    (i_disruptive i = true <->
     exists a o b p t c, os = a ++ o :: b /\ op_phase o = Some p /\ ahead a p /\ steps f O e (e_ruleset e) a (new_txn e) = Ret (t, c) /\
       written_denied O e ds p (given o t)).
Proof.
  intros fuel O n text ds l OV FT LD S e f os t' bl F RD H.
  destruct (C87_blocked_iff_some_call_denied f O e (e_ruleset e) os t' bl OV) as (i & bl' & E & X); [|exact F| |exact H|].
  - intros p P. eapply text_plain; eauto.
  - intros a o b p t c Q P AH ST. destruct (RD a o b p t c Q P AH ST) as [B|R]; [left|now right]. pose proof (op_phase_range _ _ P). eapply text_gate; eauto.
  - exists i, bl'. split; [exact E|]. rewrite X.
    split; intros (a & o & b & p & t & c & Q1 & Q2 & Q3 & Q4 & Q5); exists a, o, b, p, t, c; repeat (split; [assumption|]); eapply text_denied; eauto; apply (op_phase_range _ _ Q2).
Qed.
(** Without body variables the states are simply those the calls describe. *)
Theorem C89_bodiless_text_decides : forall fuel O n text ds l, ord_valid O -> file_text ds text -> new_direset fuel O n text = Ret (Some l) -> straight ds ->
  (forall p, 1 <= p <= 6 -> bodiless ds p) ->
  let e := execute l new_engine in
  forall f os t' bl, Forall feeding os -> steps f O e (e_ruleset e) (os ++ [OpResult]) (new_txn e) = Ret (t', bl) ->
  exists i bl', bl = bl' ++ [ObsResult i] /\
    (i_disruptive i = true <->
     exists a o b p, os = a ++ o :: b /\ op_phase o = Some p /\ ahead a p /\ written_denied O e ds p (brought (a ++ [o]) (new_txn e))).
Proof.
  intros fuel O n text ds l OV FT LD S B e f os t' bl F H.
  destruct (C77_blocked_iff_some_call_denied f O e (e_ruleset e) os t' bl OV) as (i & bl' & E & X); [|exact F|exact H|].
  - intros p P. eapply text_gate; eauto.
  - exists i, bl'. split; [exact E|]. rewrite X.
    split; intros (a & o & b & p & Q1 & Q2 & Q3 & Q4); exists a, o, b, p; repeat (split; [assumption|]); eapply text_denied; eauto; apply (op_phase_range _ _ Q2).
Qed.
(** And it does answer. *)
Lemma loaded_switches : forall O n ds items, loaded O n ds items -> req_flags (map fst items) = body_switches ds.
Proof.
  intros O n ds items L. induction L as [n|n d ds [x c] xs F L IH]; [reflexivity|]. unfold req_flags, body_switches in *. cbn [map fst flat_map]. rewrite IH. f_equal.
  destruct d as [vs o a|v|b|b]; cbn in F; [|injection F as <- _; reflexivity..]. destruct (rule_from_seclang O n vs o a); [|discriminate]. now injection F as <- _.
Qed.
Lemma req_flags_filter : forall l, req_flags l = req_flags (List.filter (fun d => match d with IRule _ => false | _ => true end) l).
Proof. intro l. unfold req_flags. induction l as [|[r|b|b|v] l IH]; cbn; try rewrite IH; reflexivity. Qed.
Lemma filter_length_le : forall A (f : A -> bool) l, (length (List.filter f l) <= length l)%nat.
Proof. intros A f l. induction l as [|x l IH]; cbn; [lia|]. destruct (f x); cbn; lia. Qed.
Lemma rules_of_length : forall l, (length (rules_of l) <= length l)%nat.
Proof. intro l. unfold rules_of. induction l as [|[r|b|b|v] l IH]; cbn; lia. Qed.
Lemma rules_of_fewer : forall l, (length (rules_of l) <= length (flat_map (fun d => match d with IRule r => alone r :: r_subs r | _ => [] end) l))%nat.
Proof. intro l. unfold rules_of. induction l as [|[r|b|b|v] l IH]; cbn; rewrite ?app_length; cbn; lia. Qed.
Lemma unaway_forward : forall p a, ~ leads_away a -> forward p a.
Proof.
  intros p a N. destruct a as [| | | | | |arg]; try exact I. split; intros ->; elim N; exists 1; eexists; constructor.
Qed.
Theorem C89_calls_answered : forall fuel O n text ds l, ord_valid O -> file_text ds text -> new_direset fuel O n text = Ret (Some l) -> straight ds ->
  last (body_switches ds) false = false \/ (forall b bd m, fst (multipart O b bd m) <> MpErr /\ fst (multipart O b bd m) <> MpHang) ->
  let e := execute l new_engine in
  forall f os, (length ds + 2 <= f)%nat -> exists t' bl, steps f O e (e_ruleset e) os (new_txn e) = Ret (t', bl).
Proof.
  intros fuel O n text ds l OV FT LD S SW e f os FU.
  destruct (proj1 (C62_texts O n text l) (ex_intro _ fuel LD)) as (ds' & items & F & L & A). pose proof (file_text_fun _ _ _ FT F). subst ds'.
  destruct (C62_nothing_lost _ _ _ _ _ L A) as (N1 & N2 & N3).
  destruct (C65_execute l new_engine) as (A1 & _ & _ & P1 & P2 & D & L1 & L2 & _). fold e in A1, P1, P2, D, L1, L2.
  assert (RA : e_reqaccess e = false \/ (forall b bd m, fst (multipart O b bd m) <> MpErr /\ fst (multipart O b bd m) <> MpHang)).
  { destruct SW as [SW|SW]; [left|now right]. rewrite A1, req_flags_filter, N2, <- req_flags_filter, (loaded_switches _ _ _ _ L). exact SW. }
  apply C78_calls_return_partial.
  - apply (loaded_armed fuel O n text l new_engine LD). intros p r q [].
  - destruct RA as [RA|RA]; [right; left; exact RA|right; right; intros b bd m; apply RA].
  - left. rewrite L2. discriminate.
  - intros p P a U. apply (text_plain fuel O n text ds l OV FT LD S p P) in U. destruct U as (X1 & X2 & X3). now apply unaway_forward.
  - rewrite D. easy.
  - destruct RA as [RA|RA]; [left; exact RA|right; intros b bd m; apply RA].
  - intros p P. rewrite P1 by exact P. change (phase_rules (e_ruleset new_engine) p) with (@nil rule). cbn [app].
    pose proof (filter_length_le _ (fun r => r_phase r =? p) (rules_of l)) as H1. pose proof (rules_of_fewer l) as H2. pose proof (rules_of_length (map fst items)) as H3.
    rewrite N1 in H2. rewrite map_length in H3. clear -H1 H2 H3 N3 FU. lia.
Qed.

(** ** C90 *)
(** A request whose body comes in order, and rules that look at it in the body phase or later. *)
Theorem C90_orderly_requests : forall fuel O n text ds l, ord_valid O -> file_text ds text -> new_direset fuel O n text = Ret (Some l) -> straight ds ->
  bodiless ds 1 -> bodiless ds 2 ->
  let e := execute l new_engine in
  forall f pre post t' bl, fault_free (request_writes pre) -> Forall feeding pre -> ahead pre 3 -> orderly O e pre -> Forall after_request post ->
  steps f O e (e_ruleset e) ((pre ++ post) ++ [OpResult]) (new_txn e) = Ret (t', bl) ->
  exists i bl', bl = bl' ++ [ObsResult i] /\
    (i_disruptive i = true <->
     exists a o b p t c, pre ++ post = a ++ o :: b /\ op_phase o = Some p /\ ahead a p /\ steps f O e (e_ruleset e) a (new_txn e) = Ret (t, c) /\
       written_denied O e ds p (given o t)).
Proof.
  intros fuel O n text ds l OV FT LD S B1 B2 e f pre post t' bl FF F AH OR AR H.
  assert (M : 0 <= e_reqmem e) by (destruct (C65_execute l new_engine) as (_ & _ & _ & _ & _ & _ & _ & X & _); unfold e; rewrite X; discriminate).
  assert (PL : forall q, 1 <= q <= 6 -> plain_actions (e_ruleset e) q) by (intros q Q; eapply text_plain; eauto).
  assert (G : forall q, 1 <= q < 3 -> gate (e_ruleset e) q).
  { intros q Q. assert (X : q = 1 \/ q = 2) by (clear -Q; lia). destruct X as [->| ->]; eapply text_gate; eauto; clear; lia. }
  assert (FE : Forall feeding (pre ++ post)).
  { apply Forall_app. split; [exact F|]. eapply Forall_impl; [|exact AR]. intros []; cbn; easy. }
  destruct (C87_blocked_iff_some_call_denied f O e (e_ruleset e) (pre ++ post) t' bl OV PL FE) as (i & bl' & E & X); [|exact H|].
  - intros a o b p t c Q P AA ST. eapply C87_orderly_requests_are_readable; eauto.
  - exists i, bl'. split; [exact E|]. rewrite X.
    split; intros (a & o & b & p & t & c & Q1 & Q2 & Q3 & Q4 & Q5); exists a, o, b, p, t, c; repeat (split; [assumption|]); eapply text_denied; eauto; apply (op_phase_range _ _ Q2).
Qed.

(** Lines that deny a form by one named field, or by any. *)
Record form_line := FormLine { fl_name : bs; fl_trans : list ttok; fl_pat : bs; fl_id : Z }.
Definition form_written (d : form_line) : written :=
  Written [PVar KArgsPost (fl_name d) false false] (POper KRx false (fl_pat d)) (PActions (fl_id d) 3 false (fl_trans d) [PAction KDeny []]).
Definition form_directives (lines : list form_line) : list directive :=
  DReqBody true :: map (fun d => DRule (w_vars (form_written d)) (w_op (form_written d)) (w_acts (form_written d))) lines.
Definition good_form_line (O : oracles) (d : form_line) : Prop := exact (fl_name d) /\ rx_ok O (fl_pat d) = true.
Definition form_line_matches (O : oracles) (ps : list (bs * bs)) (d : form_line) : Prop :=
  exists k v, In (k, v) ps /\ (fl_name d = [] \/ fl_name d = k) /\ rx_match O (fl_pat d) (changed O (fl_trans d) v) = true.

Lemma text_loads : forall O n ds text fuel, file_text ds text -> Forall (loadable O) ds -> (length text < fuel)%nat -> exists l, new_direset fuel O n text = Ret (Some l).
Proof.
  intros O n ds text fuel FT LO FU. apply (loaded_iff O ds n) in LO as (items & L). destruct (C62_one_assembly items) as (l & A & _). exists l.
  unfold new_direset, add_seclang. rewrite (parse_text_file _ _ fuel FT FU). cbn [bind]. rewrite (proj2 (C62_chains O n ds [] l)); [reflexivity|]. eauto.
Qed.
Lemma form_chains : forall lines c, chain_in (form_directives lines) c <-> exists d, In d lines /\ c = [form_written d].
Proof.
  assert (NR : no_rule_line (DReqBody true)) by (intros w W; discriminate).
  assert (K : forall lines c, chain_in (map (fun d => DRule (w_vars (form_written d)) (w_op (form_written d)) (w_acts (form_written d))) lines) c <-> exists d, In d lines /\ c = [form_written d]).
  { induction lines as [|d lines IH]; intro c.
    - split; [|intros (d & [] & _)]. intro H. inversion H as [? ? ? F|? ? ? ? F|]; subst; destruct F as (? & ? & ? & ? & _); discriminate.
    - cbn [map]. set (x := DRule _ _ _) at 1.
      assert (FC : first_chain (x :: map (fun d => DRule (w_vars (form_written d)) (w_op (form_written d)) (w_acts (form_written d))) lines) [form_written d] (map (fun d => DRule (w_vars (form_written d)) (w_op (form_written d)) (w_acts (form_written d))) lines)).
      { eexists x, (form_written d), _. split; [reflexivity|]. split; [reflexivity|]. left. repeat split. }
      split.
      + intro H. destruct (chain_in_inv _ _ _ _ FC H) as [->|H']; [exists d; split; [now left|reflexivity]|]. apply IH in H' as (d' & I & ->). exists d'. split; [now right|reflexivity].
      + intros (d' & [<-|I] & ->); [eapply ci_here; exact FC|eapply ci_later; [exact FC|]; apply IH; eauto]. }
  intros lines c. rewrite <- K. split; [|intro H; now apply ci_other].
  intro H. inversion H as [? ? ? F|? ? ? ? F|? ? ? NN H']; subst; [..|exact H']; destruct F as (? & w & ? & E & W & _); injection E as <- <-; elim (NR w W).
Qed.
Lemma form_straight : forall lines, straight (form_directives lines).
Proof.
  intros lines d w x I W J. destruct I as [<-|I]; [discriminate|]. apply in_map_iff in I as (y & <- & I). unfold rule_line in W. injection W as W1 W2 W3. rewrite <- W3 in J. destruct J as [<-|[]]. split; discriminate.
Qed.
Lemma form_bodiless : forall lines p, p <> 3 -> bodiless (form_directives lines) p.
Proof. intros lines p P w c w' v CI PH. apply form_chains in CI as (d & _ & E). injection E as -> ->. cbn in PH. congruence. Qed.
Lemma whole_stream : forall lim pieces acc, Z.of_nat (length (acc ++ concat pieces)) <= lim ->
  stream_from lim acc (map (fun x => BWrite x NoFault) pieces) = acc ++ concat pieces.
Proof.
  intros lim pieces. induction pieces as [|x pieces IH]; intros acc H; cbn [map stream_from concat] in *; [now rewrite app_nil_r|].
  rewrite app_assoc in *. replace (Z.of_nat (length (acc ++ x)) <=? lim) with true; [now apply IH|]. rewrite app_length in H. clear -H. lia.
Qed.
Lemma piece_writes : forall pieces, request_writes (map (fun x => OpAppendRequestBody x NoFault) pieces) = map (fun x => BWrite x NoFault) pieces.
Proof. intro pieces. induction pieces as [|x pieces IH]; [reflexivity|]. cbn. now rewrite <- IH. Qed.
Lemma form_written_matches : forall O e t d ps, ord_valid O -> good_form_line O d ->
  (exists t' out, fetch O e (VColl CArgsPost empty_filter) t = Ret (t', out) /\ Permutation out (map snd ps)) ->
  (forall k v, exact k -> apply_calls O [Inc k] (VColl CArgsPost empty_filter) = Some v -> exists t', fetch O e v t = Ret (t', values_of k ps)) ->
  (written_matches O e t (form_written d) <-> form_line_matches O ps d).
Proof.
  intros O e t d ps OV (EX & RX) (t0 & out & FE & PM) ONE.
  assert (VM : forall s, In (KArgsPost, s) var_means <-> s = VColl CArgsPost empty_filter).
  { intro s. rewrite <- var_means_iff. simpl. split; [now injection 1|now intros ->]. }
  assert (SEL : exists x t' vals, apply_calls O (calls_of KArgsPost false (w_vars (form_written d))) (VColl CArgsPost empty_filter) = Some x /\ fetch O e x t = Ret (t', vals) /\
     forall v, In v vals <-> exists k, In (k, v) ps /\ (fl_name d = [] \/ fl_name d = k)).
  { destruct (fl_name d) as [|a nm] eqn:N.
    - exists (VColl CArgsPost empty_filter), t0, out. split; [cbn; rewrite N; reflexivity|]. split; [exact FE|]. intro v. split.
      + intro I. apply (Permutation_in _ PM) in I. apply in_map_iff in I as ([k v'] & <- & I). exists k. auto.
      + intros (k & I & _). apply (Permutation_in _ (Permutation_sym PM)). apply in_map_iff. exists (k, v). auto.
    - destruct (ONE (a :: nm) (VColl CArgsPost (Filter [a :: nm] [] [] [])) EX) as (t' & F1).
      { cbn [apply_calls apply_call var_include]. unfold filter_include. rewrite (proj2 (exact_not_regex _) EX). reflexivity. }
      eexists _, t', _. split; [|split; [exact F1|]].
      + cbn [form_written w_vars calls_of flat_map pv_tok pv_count pv_index pv_excl app]. rewrite N. cbn. unfold filter_include. rewrite (proj2 (exact_not_regex _) EX). reflexivity.
      + intro v. unfold values_of. rewrite in_map_iff. split.
        * intros ([k v'] & <- & I). apply filter_In in I as [I Q]. cbn [fst] in Q. apply bs_eqb_eq in Q. exists k. split; [exact I|]. right. congruence.
        * intros (k & I & [Q|Q]); [discriminate|]. exists (k, v). split; [reflexivity|]. apply filter_In. split; [exact I|]. cbn [fst]. apply bs_eqb_eq. congruence. }
  destruct SEL as (x & t' & vals & A & F & IN). unfold written_matches, form_line_matches. split.
  - intros (tk & c & s & y & t2 & vs & v & o & (pv & [<-|[]] & <- & <-) & V & A' & F' & I & OM & SAT). cbn [pv_tok pv_count] in *. apply VM in V. subst s.
    rewrite A in A'. injection A' as <-. rewrite F in F'. apply Ret_inj in F'. injection F' as <- <-. apply IN in I as (k & I & Q).
    exists k, v. split; [exact I|]. split; [exact Q|]. cbn [form_written w_op w_acts po_not pas_trans] in SAT. inversion OM as [? _ _|? c z J _]; subst; [exact SAT|].
    exfalso. cbn in J. intuition discriminate.
  - intros (k & v & I & Q & M). exists KArgsPost, false, (VColl CArgsPost empty_filter), x, t', vals, v, (OpRx (fl_pat d)).
    split; [eexists; split; [now left|split; reflexivity]|]. split; [now apply VM|]. split; [exact A|]. split; [exact F|]. split; [apply IN; eauto|].
    split; [apply (om_rx O (w_op (form_written d))); [reflexivity|exact RX]|exact M].
Qed.
(** Such a file blocks a form exactly if one of its fields is refused by some line. *)
Theorem C90_form_filter : forall O n lines text fuel, ord_valid O -> Forall (good_form_line O) lines -> file_text (form_directives lines) text -> (length text < fuel)%nat ->
  exists l, new_direset fuel O n text = Ret (Some l) /\
    let e := execute l new_engine in
    forall f ip port ip2 port2 u m p h ct pieces body ps later t bl,
      In m body_methods -> first_value (B "Content-Type") h ct -> ct <> [] -> fst (media_type O ct) = B "application/x-www-form-urlencoded" ->
      body = concat pieces -> body <> [] -> Z.of_nat (length body) <= 131072 -> form_pairs ps body -> Forall after_request later ->
      steps f O e (e_ruleset e) ((([OpConnection ip port ip2 port2; OpRequestURL u m p; OpRequestHeader h] ++ map (fun x => OpAppendRequestBody x NoFault) pieces) ++ OpRequestBody :: later) ++ [OpResult]) (new_txn e) = Ret (t, bl) ->
      exists i bl', bl = bl' ++ [ObsResult i] /\ (i_disruptive i = true <-> Exists (form_line_matches O ps) lines).
Proof.
  intros O n lines text fuel OV G FT FU.
  destruct (text_loads O n _ text fuel FT) as (l & LD); [|exact FU|].
  { constructor; [exact I|]. apply Forall_map. eapply Forall_impl; [|exact G]. intros d [EX RX]. split; [|split].
    - constructor; [|constructor]. split; [discriminate|]. intros _ q Q. elim (EX q Q).
    - exact RX.
    - constructor; [|constructor]. left. now left. }
  exists l. split; [exact LD|]. intros e f ip port ip2 port2 u m p h ct pieces body ps later t bl BM FV CN MT BE BN LB FP LA H.
  set (pre := [OpConnection ip port ip2 port2; OpRequestURL u m p; OpRequestHeader h] ++ map (fun x => OpAppendRequestBody x NoFault) pieces) in *.
  destruct (proj1 (C62_texts O n text l) (ex_intro _ fuel LD)) as (ds' & items & F & L & A). pose proof (file_text_fun _ _ _ FT F). subst ds'.
  destruct (C62_nothing_lost _ _ _ _ _ L A) as (_ & N2 & _).
  destruct (C65_execute l new_engine) as (A1 & _ & _ & _ & _ & _ & L1 & L2 & _). fold e in A1, L1, L2.
  assert (RA : e_reqaccess e = true).
  { rewrite A1, req_flags_filter, N2, <- req_flags_filter, (loaded_switches _ _ _ _ L). unfold body_switches, form_directives. cbn [flat_map app]. replace (flat_map _ _) with (@nil bool); [reflexivity|].
    clear. induction lines as [|x lines IH]; [reflexivity|]. cbn. exact IH. }
  assert (RW : request_writes pre = map (fun x => BWrite x NoFault) pieces) by (unfold pre; rewrite request_writes_app, piece_writes; reflexivity).
  assert (ST : stream (e_reqlimit e) (request_writes pre) = body).
  { rewrite RW, L1. unfold stream. rewrite whole_stream; [now rewrite BE|]. cbn [app]. rewrite <- BE. change (e_reqlimit new_engine) with 134217728. clear -LB. lia. }
  assert (QP : forall A (kind : op -> option A) (o : op), In o (map (fun x => OpAppendRequestBody x NoFault) pieces) -> (forall x, kind (OpAppendRequestBody x NoFault) = None) -> kind o = None).
  { intros A0 kind o I K. apply in_map_iff in I as (x & <- & _). apply K. }
  assert (FB : form_body O e pre body).
  { split; [exact RA|]. split; [exact BN|]. split.
    - exists u, m, p. split; [|exact BM]. left. exists [OpConnection ip port ip2 port2]. eexists _, (OpRequestHeader h :: map (fun x => OpAppendRequestBody x NoFault) pieces).
      split; [reflexivity|]. split; [reflexivity|]. intros o' [<-|I]; [reflexivity|]. eapply QP; [exact I|reflexivity].
    - exists h, ct. split; [|auto]. left. exists [OpConnection ip port ip2 port2; OpRequestURL u m p]. eexists _, (map (fun x => OpAppendRequestBody x NoFault) pieces).
      split; [reflexivity|]. split; [reflexivity|]. intros o' I. eapply QP; [exact I|reflexivity]. }
  assert (FF : fault_free (request_writes pre)).
  { rewrite RW. intros x ft I. apply in_map_iff in I as (y & Y & _). now injection Y. }
  assert (FEE : Forall feeding pre) by (apply Forall_app; split; [repeat constructor|]; apply Forall_map, Forall_forall; easy).
  assert (AH : ahead pre 3).
  { intros o q I Q. apply in_app_iff in I as [[<-|[<-|[<-|[]]]]|I]; try discriminate; try (injection Q as <-; reflexivity). apply in_map_iff in I as (x & <- & _). discriminate. }
  assert (LM : Z.of_nat (length body) <= e_reqmem e) by (rewrite L2; exact LB).
  assert (AR : Forall after_request (OpRequestBody :: later)) by (constructor; [exact I|exact LA]).
  destruct (C90_orderly_requests fuel O n text _ l OV FT LD (form_straight lines) (form_bodiless lines 1 ltac:(discriminate)) (form_bodiless lines 2 ltac:(discriminate))
     f pre (OpRequestBody :: later) t bl FF FEE AH (or_form _ _ _ ps body (eq_sym ST) FB LM FP) AR H) as (i & bl' & E & X).
  exists i, bl'. split; [exact E|]. rewrite X. fold e.
  assert (M : 0 <= e_reqmem e) by (rewrite L2; discriminate).
  assert (PL : forall q, 1 <= q <= 6 -> plain_actions (e_ruleset e) q) by (intros q Q; eapply text_plain; eauto using form_straight).
  assert (GA : forall q, 1 <= q < 3 -> gate (e_ruleset e) q).
  { intros q Q. eapply text_gate; eauto using form_straight; [clear -Q; lia|apply form_bodiless; clear -Q; lia]. }
  assert (SHOW : forall a o b q s c, pre ++ OpRequestBody :: later = a ++ o :: b -> op_phase o = Some q -> 3 <= q -> steps f O e (e_ruleset e) a (new_txn e) = Ret (s, c) ->
     forall d, In d lines -> (written_matches O e (given o s) (form_written d) <-> form_line_matches O ps d)).
  { intros a o b q s c Q P LE S1 d I. rewrite Forall_forall in G.
    destruct (C87_form_shown _ _ _ _ _ _ _ _ _ _ _ _ _ _ OV M FF PL GA FEE AH AR (eq_sym ST) FB LM FP Q P LE S1) as (Y1 & _ & Y3 & _).
    now apply form_written_matches; auto. }
  split.
  - intros (a & o & b & q & s & c & Q1 & Q2 & Q3 & Q4 & (w & cs & CI & PH & _ & FA)). apply form_chains in CI as (d & I & EQ). injection EQ as -> ->. cbn in PH. subst q.
    apply Exists_exists. exists d. split; [exact I|]. inversion FA as [|? ? W _]; subst. eapply SHOW; eauto. clear; lia.
  - intro EX. apply Exists_exists in EX as (d & I & W).
    assert (S1 : exists s c, steps f O e (e_ruleset e) pre (new_txn e) = Ret (s, c)) by (rewrite <- app_assoc in H; apply steps_app in H as (s & c & c2 & H & _); eauto).
    destruct S1 as (s & c & S1). exists pre, OpRequestBody, later, 3, s, c. split; [reflexivity|]. split; [reflexivity|]. split; [exact AH|]. split; [exact S1|].
    exists (form_written d), []. split; [apply form_chains; eauto|]. split; [reflexivity|]. split; [left; exists (PAction KDeny []); split; [now left|reflexivity]|].
    constructor; [|constructor]. eapply SHOW; eauto; [reflexivity|clear; lia].
Qed.
Definition verdict_text : bs :=
  B "SecRule ARGS_GET:user ""@rx root"" ""id:1,phase:2,t:lowercase,chain,log""" ++ [LF] ++ B "SecRuleEngine On" ++ [LF] ++
  B "SecRule REQUEST_METHOD|&ARGS_GET ""!@rx GET"" ""id:2,deny""".
Definition verdict_directives : list directive :=
  [DRule [PVar KArgsGet (B "user") false false] (POper KRx false (B "root")) (PActions 1 2 true [KLowercase] [PAction KLog []]); DRuleEng 1;
   DRule [PVar KRequestMethod [] false false; PVar KArgsGet [] true false] (POper KRx true (B "GET")) (PActions 2 0 false [] [PAction KDeny []])].
Definition verdict_calls (m : string) : list op :=
  [OpConnection [] [] [] []; OpRequestURL (Some (demo_url "/" "user=Root")) (B m) (B "HTTP/1.1"); OpRequestHeader []; OpRequestBody].
Example C89_example : let O := demo MpErr in
  file_text verdict_directives verdict_text /\ straight verdict_directives /\ (forall p, 1 <= p <= 6 -> bodiless verdict_directives p) /\
  (exists w c, chain_in verdict_directives (w :: c) /\ length c = 1%nat /\ pas_phase (w_acts w) = 2 /\ Exists asks_denial (w :: c)) /\
  last (body_switches verdict_directives) false = false /\
  exists l, new_direset 500 O 0 verdict_text = Ret (Some l) /\ let e := execute l new_engine in
    (exists t bl i, steps 5 O e (e_ruleset e) (verdict_calls "POST" ++ [OpResult]) (new_txn e) = Ret (t, bl ++ [ObsResult i]) /\ i_disruptive i = true).
Proof.
  cbv zeta. split; [apply parse_text_iff; exists 500%nat; vm_compute; reflexivity|].
  assert (ST : straight verdict_directives).
  { intros d w x I W J. cbn in I. destruct I as [<-|[<-|[<-|[]]]]; unfold rule_line in W; try discriminate; injection W as W1 W2 W3; rewrite <- W3 in J; destruct J as [<-|[]]; split; discriminate. }
  split; [exact ST|]. split.
  { intros p _ w c w' v CI _ I V. destruct (chain_in_lines _ _ CI _ I) as (d & D & W). cbn in D.
    destruct D as [<-|[<-|[<-|[]]]]; unfold rule_line in W; try discriminate; injection W as W1 W2 W3; rewrite <- W1 in V; cbn in V; intuition (subst; cbn in *; intuition discriminate). }
  split.
  { exists (Written [PVar KArgsGet (B "user") false false] (POper KRx false (B "root")) (PActions 1 2 true [KLowercase] [PAction KLog []])).
    exists [Written [PVar KRequestMethod [] false false; PVar KArgsGet [] true false] (POper KRx true (B "GET")) (PActions 2 0 false [] [PAction KDeny []])].
    split; [|split; [reflexivity|split; [reflexivity|right; left; exists (PAction KDeny []); split; [now left|reflexivity]]]].
    match goal with |- chain_in _ (?w :: ?l) => apply (ci_here _ _ []); eexists _, w, _; split; [reflexivity|]; split; [reflexivity|]; right; split; [reflexivity|]; exists l; split; [|reflexivity] end.
    apply cr_other; [intros w W; discriminate|]. apply cr_last; reflexivity. }
  split; [reflexivity|].
  eexists. split; [vm_compute; reflexivity|]. eexists _, [_; _; _; _], _. split; [vm_compute; reflexivity|reflexivity].
Qed.
Example C90_example : let O := demo MpErr in
  let lines := [FormLine (B "user") [KLowercase] (B "root") 1; FormLine [] [] (B "x y") 2] in
  let text := B "SecRequestBodyAccess On" ++ [LF] ++ B "SecRule ARGS_POST:user ""@rx root"" ""id:1,phase:3,t:lowercase,deny""" ++ [LF] ++ B "SecRule ARGS_POST ""@rx x y"" ""id:2,phase:3,deny""" in
  Forall (good_form_line O) lines /\ file_text (form_directives lines) text /\
  form_pairs [(B "user", B "Root"); (B "a", B "b")] (B "user=Root&a=b") /\
  Exists (form_line_matches O [(B "user", B "Root"); (B "a", B "b")]) lines /\
  exists l, new_direset 300 O 0 text = Ret (Some l) /\ let e := execute l new_engine in
    let os pieces := ([OpConnection [] [] [] []; OpRequestURL None (B "POST") []; OpRequestHeader [(B "Content-Type", [B "application/x-www-form-urlencoded"])]] ++
      map (fun x => OpAppendRequestBody x NoFault) pieces) ++ [OpRequestBody] in
    (exists t bl i, steps 9 O e (e_ruleset e) (os [B "user=R"; B "oot&a=b"] ++ [OpResult]) (new_txn e) = Ret (t, bl ++ [ObsResult i]) /\ i_disruptive i = true) /\
    (exists t bl i, steps 9 O e (e_ruleset e) (os [B "user=a"; B "&a=root"] ++ [OpResult]) (new_txn e) = Ret (t, bl ++ [ObsResult i]) /\ i_disruptive i = false).
Proof.
  cbv zeta. split; [repeat constructor; intros p Q; discriminate Q|]. split; [apply parse_text_iff; exists 500%nat; vm_compute; reflexivity|]. split.
  { apply (fps_cons (B "user", B "Root") (B "user=Root") [(B "a", B "b")] (B "a=b")).
    - apply (fp_pair _ _ (B "user") (B "Root")); repeat (constructor; [cbn; intuition discriminate|]); constructor.
    - apply fps_one. apply (fp_pair _ _ (B "a") (B "b")); (constructor; [cbn; intuition discriminate|]); constructor. }
  split; [left; exists (B "user"), (B "Root"); split; [now left|]; split; [now right|vm_compute; reflexivity]|].
  eexists. split; [vm_compute; reflexivity|].
  split; [eexists _, [_; _; _; _; _; _], _|eexists _, [_; _; _; _; _; _], _]; (split; [vm_compute; reflexivity|reflexivity]).
Qed.
Print Assumptions C89_text_decides.
Print Assumptions C89_bodiless_text_decides.
Print Assumptions C89_calls_answered.
Print Assumptions C90_orderly_requests.
Print Assumptions C90_form_filter.
