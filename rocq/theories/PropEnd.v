(** Property theorem C66: from the text of a rule to verdicts. *)
From Verif Require Import Base BaseFacts GoStrings Utils Buffer Types Transforms Operators Transaction Variables Rules Engine SpecText NumFacts
  SpecVars VarText VarFacts SpecRules PropText RuleFacts Scanner Loader SpecParse ParseFacts ParseLists ParseFiles ParsePrint SpecLoad LoadFacts
  SpecTxn TxnFacts LoopFacts PropPhases PropLoad Witness.
From Coq Require Import ZifyBool.

(** ** C66 *)
(** The texts. *)
Definition deny_actions (ts : list ttok) (id : Z) : list bs :=
  [B "id:" ++ itoa id; B "phase:2"] ++ map (fun t => B "t:" ++ trans_name t) ts ++ [B "deny"].
Definition deny_text (toks : list vtok) (ts : list ttok) (pat : bs) (id : Z) : bs :=
  B "SecRule " ++ SpecParse.listed "|" (map var_name toks) ++ B " ""@rx " ++ pat ++ B """ """ ++ SpecParse.listed "," (deny_actions ts id) ++ B """".
(** The variables, with their values in a request. *)
Definition request_scalars : list vtok :=
  [KRequestMethod; KRequestProtocol; KRemoteAddr; KRequestUri; KQueryString; KRequestFilename; KRequestBasename].
Inductive request_value (O : oracles) (ip : bs) (u : url) (method proto : bs) : vtok -> bs -> Prop :=
| rv_method : request_value O ip u method proto KRequestMethod method
| rv_protocol : request_value O ip u method proto KRequestProtocol proto
| rv_addr : request_value O ip u method proto KRemoteAddr ip
| rv_uri : request_value O ip u method proto KRequestUri (url_string O (Url [] [] None [] (u_path u) (u_rawquery u) (u_rest u)))
| rv_query : request_value O ip u method proto KQueryString (u_rawquery u)
| rv_filename : request_value O ip u method proto KRequestFilename (u_path u)
| rv_basename : forall s, last_segment (u_path u) s -> request_value O ip u method proto KRequestBasename s.

Lemma white_last_letter : forall c w, white (w ++ [c]) -> ~ letter c.
Proof.
  intros c w W L. apply white_encs in W as (ws & E & F). destruct (exists_last (l := ws)) as (ws' & e & ->).
  { intros ->. destruct w; discriminate. }
  apply Forall_app in F as [_ F]. inversion F as [|? ? I _]; subst.
  assert (K : forallb (fun e => match e with [] => false | _ => negb (isAlphabet (last e " "%char)) end) space_encs = true) by (vm_compute; reflexivity).
  rewrite forallb_forall in K. specialize (K e I). rewrite concat_app in E. simpl in E. rewrite app_nil_r in E.
  destruct e as [|x e]; [discriminate|]. destruct (exists_last (l := x :: e)) as (e' & y & Y); [discriminate|]. rewrite Y in *.
  rewrite app_assoc in E. apply app_inj_tail in E as [_ ->]. rewrite last_last in K. apply letter_iff in L. destruct (e' ++ [y]); [discriminate|].
  now rewrite L in K.
Qed.
Definition deny_parsed (ts : list ttok) (id : Z) : pactions := PActions id 2 false ts [PAction KDeny []].
Lemma deny_actions_text : forall ts id, int64 id -> actions_text (deny_parsed ts id) (SpecParse.listed "," (deny_actions ts id)).
Proof.
  intros ts id I. set (s := SpecParse.listed "," (deny_actions ts id)).
  exists s, (deny_actions ts id), ([ItId id; ItPhase 2] ++ map ItTrans ts ++ [ItAct KDeny []]).
  assert (HD : exists x, s = "i"%char :: x) by (eexists; reflexivity).
  assert (TL : exists x, s = x ++ ["y"%char]).
  { destruct (listed_last "," (deny_actions ts id)) as (x & E); [discriminate|]. unfold s. rewrite E. unfold deny_actions. rewrite app_assoc, last_last.
    exists (x ++ B "den"). now rewrite <- app_assoc. }
  split; [|split; [|split; [|split; [|split]]]].
  - exists [], []. rewrite app_nil_r. split; [reflexivity|]. split; [constructor|]. split; [constructor|].
    intros w x WW NW. split; intro X.
    + destruct w as [|cw w]; [easy|]. destruct HD as (y & HD). rewrite HD in X. injection X as <- _. apply white_first in WW. apply WW, letter_iff. reflexivity.
    + destruct (exists_last NW) as (w' & cw & ->). destruct TL as (y & TL). rewrite TL, app_assoc in X. apply app_inj_tail in X as [_ <-].
      apply white_last_letter in WW. apply WW, letter_iff. reflexivity.
  - destruct HD as (y & ->). discriminate.
  - apply listed_joined; [now left|discriminate].
  - unfold deny_actions. rewrite !Forall_app. split; [|split].
    + apply Forall_cons; [|one]; [apply no_comma_app; [intro X; unfold B in X; kill X|apply itoa_no_comma]|]. apply comma_free. intro X; unfold B in X; kill X.
    + apply Forall_map. apply Forall_forall. intros t _. apply no_comma_app; [intro X; unfold B in X; kill X|apply trans_name_no_comma].
    + one. apply comma_free. intro X; unfold B in X; kill X.
  - unfold deny_actions. repeat apply Forall2_app.
    + constructor; [|constructor; [|constructor]].
      * apply (act_item KId). apply (iv_id _ (itoa id)); [apply (denotes_unquoted _ id), itoa_denotes|apply itoa_denotes|exact I].
      * apply (act_item KPhase). apply (iv_phase _ (itoa 2)); [exact (denotes_unquoted _ 2 (itoa_denotes 2))|exact (itoa_denotes 2)|lia].
    + clear. induction ts as [|t tr IH]; constructor; [|exact IH]. apply (act_item KT). apply iv_trans. apply trimQuote_iff. now destruct t.
    + constructor; [|constructor]. apply (it_text KDeny [] [] [] [] (ItAct KDeny [])); [apply white_nil..|auto|]. apply iv_other. simpl. intuition discriminate.
  - unfold collects, id_of, phase_of, trans_of, SpecParse.acts_of. rewrite !flat_map_app.
    assert (T : forall X (f : item -> list X), (forall t, f (ItTrans t) = []) -> flat_map f (map ItTrans ts) = []).
    { clear. intros X f E. induction ts as [|t tr IH]; [reflexivity|]. cbn [map flat_map]. now rewrite E, IH. }
    assert (T2 : flat_map (fun i => match i with ItTrans t => [t] | _ => [] end) (map ItTrans ts) = ts).
    { clear. induction ts as [|t tr IH]; [reflexivity|]. cbn [map flat_map app]. now rewrite IH. }
    rewrite T2, !T by reflexivity. cbn. rewrite app_nil_r. repeat split; [discriminate|].
    rewrite in_app_iff, in_map_iff. intros [X|[X|[(t & X & _)|[X|[]]]]]; discriminate.
Qed.
Lemma var_name_plain : forall t c, In c (var_name t) -> ~ In c ends /\ c <> "\"%char /\ ~ newline c /\ ~ quote_char c.
Proof.
  assert (K : forall t, forallb (fun c => negb (mem_byte c ends || Ascii.eqb c "\" || isNewLine c || isQuote c)) (var_name t) = true) by (intros []; reflexivity).
  intros t c I. specialize (K t). rewrite forallb_forall in K. apply K in I. apply negb_true_iff in I. rewrite !orb_false_iff in I.
  destruct I as (((K1 & K2) & K3) & K4). apply mem_not in K1. apply Ascii.eqb_neq in K2. apply newline_not in K3. rewrite <- quote_iff, K4. auto.
Qed.
Lemma listed_in : forall sep l c, In c (SpecParse.listed sep l) -> c = sep \/ exists x, In x l /\ In c x.
Proof.
  intros sep l c. induction l as [|x l IH]; intro I; [destruct I|]. destruct l as [|y l].
  - right. exists x. split; [now left|exact I].
  - change (SpecParse.listed sep (x :: y :: l)) with (x ++ sep :: SpecParse.listed sep (y :: l)) in I. apply in_app_iff in I as [I|[I|I]].
    + right. exists x. split; [now left|exact I].
    + now left.
    + apply IH in I as [->|(z & Z & I)]; [now left|]. right. exists z. split; [now right|exact I].
Qed.
Definition plain_pattern (pat : bs) : Prop := forall c, In c pat -> c <> """"%char /\ c <> "\"%char /\ ~ newline c.
Lemma deny_directive : forall k toks ts pat id, toks <> [] -> plain_pattern pat -> int64 id ->
  directive_text k (DRule (map (fun t => PVar t [] false false) toks) (POper KRx false pat) (deny_parsed ts id)) (deny_text toks ts pat id).
Proof.
  intros k toks ts pat id NE PP I.
  set (names := SpecParse.listed "|" (map var_name toks)).
  assert (E : deny_text toks ts pat id = dir_name KDirRule ++ (B " " ++ names ++ [" "%char]) ++ ([] ++ """"%char :: (B "@rx " ++ pat) ++ [""""%char]) ++
              (B " " ++ """"%char :: SpecParse.listed "," (deny_actions ts id) ++ [""""%char])).
  { unfold deny_text. fold names. cbn [app dir_name]. unfold B. cbn [app list_ascii_of_string]. rewrite <- !app_assoc. reflexivity. }
  rewrite E.
  assert (PL : forall c, In c names -> ~ In c ends /\ c <> "\"%char /\ ~ newline c /\ ~ quote_char c).
  { intros c J. apply listed_in in J as [->|(x & X & J)].
    - repeat split; try discriminate; intro X; [simpl in X; intuition discriminate|destruct X; discriminate|destruct X; discriminate].
    - apply in_map_iff in X as (t & <- & _). now apply (var_name_plain t). }
  apply dt_rule with (s1 := names) (s2 := B "@rx " ++ pat) (s3 := SpecParse.listed "," (deny_actions ts id)).
  - apply keyword_exact, space_not_letter.
  - apply ar_bare.
    + now left.
    + destruct toks as [|t toks]; [easy|]. destruct (listed_hd "|" (var_name t) (map var_name toks)) as (r & R). unfold names in PL |- *. cbn [map] in PL |- *. rewrite R in *.
      destruct (var_name t) as [|c v] eqn:V; [now destruct t|]. exists c, (v ++ r). split; [reflexivity|]. destruct (PL c) as (P1 & P2 & P3 & P4); [now left|]. auto.
    + apply gap_blank; [now left|apply gap_nil].
    + apply letters_escaped. intros c J. apply PL in J. tauto.
  - apply ar_quoted; [now right|constructor|]. apply letters_escaped. intros c J.
    assert (X : c <> """"%char /\ c <> "\"%char /\ ~ newline c).
    { apply in_app_iff in J as [J|J]; [|now apply PP]. unfold B in J. simpl in J.
      repeat (destruct J as [<-|J]; [split; [|split]; [discriminate|discriminate|intros [X|X]; discriminate]|]). destruct J. }
    destruct X as (X1 & X2 & X3). split; [|auto]. intros [X|[]]. congruence.
  - apply (ar_quoted k (B " ")); [now right|apply gap_blank; [now left|apply gap_nil]|]. apply letters_escaped. intros c J.
    assert (X : forallb (fun c => negb (Ascii.eqb c """" || Ascii.eqb c "\" || isNewLine c)) [c] = true).
    { cbn [forallb]. rewrite andb_true_r. apply negb_true_iff. apply listed_in in J as [->|(x & X & J)]; [reflexivity|].
      assert (LIT : forall l, forallb (fun c => negb (Ascii.eqb c """" || Ascii.eqb c "\" || isNewLine c)) l = true -> In c l -> (Ascii.eqb c """" || Ascii.eqb c "\" || isNewLine c) = false).
      { intros l F K. rewrite forallb_forall in F. apply F in K. now apply negb_true_iff in K. }
      unfold deny_actions in X. apply in_app_iff in X as [[<-|[<-|[]]]|X].
      - apply in_app_iff in J as [J|J]; [now apply LIT in J|]. destruct (denotes_chars _ _ (itoa_denotes id)) as [F _]. rewrite Forall_forall in F. apply F in J.
        now apply LIT in J.
      - now apply LIT in J.
      - apply in_app_iff in X as [X|[<-|[]]]; [|now apply LIT in J]. apply in_map_iff in X as (t & <- & _). apply LIT in J; [exact J|]. now destruct t. }
    cbn [forallb] in X. rewrite andb_true_r in X. apply negb_true_iff in X. rewrite !orb_false_iff in X. destruct X as ((X1 & X2) & X3).
    apply Ascii.eqb_neq in X1, X2. apply newline_not in X3. split; [|auto]. intros [X|[]]. congruence.
  - unfold names. replace (map var_name toks) with (map show_var (map (fun t => PVar t [] false false) toks)).
    + apply show_vars_text; [now destruct toks|]. apply Forall_map. apply Forall_forall. intros t _. split; [intros c _ []|intros [X _]; discriminate].
    + rewrite map_map. apply map_ext. intro t. unfold show_var. cbn [pv_excl pv_count pv_tok pv_index app]. apply app_nil_r.
  - apply (ot_named KRx pat (" "%char :: pat)). now right.
  - now apply deny_actions_text.
Qed.
Lemma deny_text_file : forall toks ts pat id, toks <> [] -> plain_pattern pat -> int64 id ->
  file_text [DRule (map (fun t => PVar t [] false false) toks) (POper KRx false pat) (deny_parsed ts id)] (deny_text toks ts pat id).
Proof.
  intros toks ts pat id NE PP I. rewrite <- (app_nil_r (deny_text toks ts pat id)). apply (ft_cons []); [constructor| |apply (ft_nil []); constructor].
  now apply deny_directive.
Qed.
Lemma value_fetch : forall O e ip u m p tk s t, In tk request_scalars -> In (tk, s) var_means ->
  t_srcip t = ip -> t_url t = Some u -> t_method t = m -> t_reqproto t = p ->
  exists v, fetch O e s t = Ret (t, [v]) /\ forall v', request_value O ip u m p tk v' <-> v' = v.
Proof.
  intros O e ip u m p tk s t I S <- U <- <-. apply var_means_iff in S.
  assert (K : forall tk v, tk <> KRequestBasename -> request_value O (t_srcip t) u (t_method t) (t_reqproto t) tk v ->
            forall v', request_value O (t_srcip t) u (t_method t) (t_reqproto t) tk v' <-> v' = v).
  { intros k v N R v'. split; [|intros ->; exact R]. intro R'. inversion R; subst; inversion R'; subst; easy. }
  simpl in I. destruct I as [<-|[<-|[<-|[<-|[<-|[<-|[<-|[]]]]]]]]; simpl in S; injection S as <-; cbn [fetch fetch_scalar]; rewrite ?U;
    try (eexists; split; [reflexivity|apply K; [discriminate|constructor]]).
  exists (basename (u_path u)). split; [reflexivity|]. pose proof (basename_last (u_path u)) as L. intro v'. split.
  - intro R. inversion R; subst. eapply last_segment_fun; eauto.
  - intros ->. now constructor.
Qed.
Lemma values_fetched : forall O e toks l ip u m p t, ord_valid O -> Forall (fun tk => In tk request_scalars) toks ->
  variables_as_written O (map (fun t => PVar t [] false false) toks) l ->
  t_srcip t = ip -> t_url t = Some u -> t_method t = m -> t_reqproto t = p ->
  exists raw, fetched O e l t t raw /\ forall v, In v raw <-> exists tk, In tk toks /\ request_value O ip u m p tk v.
Proof.
  intros O e toks l ip u m p t OV F (keys & ND & M & F2) T1 T2 T3 T4.
  assert (C0 : forall tk c, calls_of tk c (map (fun t => PVar t [] false false) toks) = []).
  { intros tk c. unfold calls_of. clear. induction toks as [|a toks IH]; [reflexivity|]. cbn [map flat_map pv_tok pv_count pv_index]. rewrite IH.
    destruct (vtok_eq_dec a tk); [|reflexivity]. now destruct (Bool.eqb false c). }
  assert (M' : forall tk c, In (tk, c) keys <-> c = false /\ In tk toks).
  { intros tk c. rewrite M. unfold mentions. split.
    - intros (v & I & <- & <-). apply in_map_iff in I as (a & <- & I). now split.
    - intros [-> I]. exists (PVar tk [] false false). split; [apply in_map_iff; eauto|]. now split. }
  assert (G : forall ks, (forall tk c, In (tk, c) ks -> c = false /\ In tk toks) -> forall l,
     Forall2 (fun k x => exists s, In (fst k, s) var_means /\ apply_calls O (calls_of (fst k) (snd k) (map (fun t => PVar t [] false false) toks)) (if snd k then VCount s else s) = Some x) ks l ->
     exists raw, fetched O e l t t raw /\ forall v, In v raw <-> exists tk, In (tk, false) ks /\ request_value O ip u m p tk v).
  { intros ks KI l' K. induction K as [|[tk c] x ks l' (s & S1 & S2) K IH].
    - exists []. split; [constructor|]. intro v. split; [intros []|intros (tk & [] & _)].
    - cbn [fst snd] in *. destruct (KI tk c) as [-> TI]; [now left|]. rewrite C0 in S2. simpl in S2. injection S2 as <-.
      rewrite Forall_forall in F. destruct (value_fetch O e ip u m p tk s t (F tk TI) S1 T1 T2 T3 T4) as (v & V1 & V2).
      destruct IH as (raw & R1 & R2); [intros tk' c' I; apply KI; now right|]. exists ([v] ++ raw). split; [econstructor; eauto|].
      intro v'. rewrite in_app_iff, R2. split.
      + intros [[<-|[]]|(tk' & I & R)]; [exists tk; split; [now left|now apply V2]|exists tk'; split; [now right|exact R]].
      + intros (tk' & [I|I] & R); [injection I as <-; left; left; symmetry; now apply V2|right; eauto]. }
  destruct (G keys (fun tk c I => proj1 (M' tk c) I) l F2) as (raw & R1 & R2). exists raw. split; [exact R1|]. intro v. rewrite R2. split; intros (tk & I & R); exists tk.
  - apply M' in I. tauto.
  - split; [now apply M'|exact R].
Qed.
(** What the rule does to a transaction. *)
Definition transformed_by (O : oracles) (ts : list ttok) (s : bs) : bs := fold_left (fun v t => apply_trans O (trans_means t) v) ts s.
Lemma deny_loaded : forall O n toks ts pat id fuel, ord_valid O -> toks <> [] -> Forall (fun tk => In tk request_scalars) toks -> plain_pattern pat ->
  rx_ok O pat = true -> int64 id -> (length (deny_text toks ts pat id) < fuel)%nat ->
  exists vars, new_direset fuel O n (deny_text toks ts pat id) =
    Ret (Some [IRule (Rule id 2 vars (map trans_means ts) (Some (OpRx pat)) [ADeny] false [] [])]) /\
    variables_as_written O (map (fun t => PVar t [] false false) toks) vars.
Proof.
  intros O n toks ts pat id fuel OV NE F PP RX I FU. pose proof (deny_text_file toks ts pat id NE PP I) as FT.
  set (vs := map (fun t => PVar t [] false false) toks) in *.
  destruct (proj2 (apply_variables_loads O n vs)) as (vars & V).
  { apply Forall_map. apply Forall_forall. intros tk J. rewrite Forall_forall in F. apply F in J. split.
    - simpl in J. intro X. cbn [pv_tok] in X. subst tk. intuition discriminate.
    - intros _ q Q. destruct q; discriminate. }
  exists vars. split; [|now apply (C69_variables_as_written O n)].
  unfold new_direset, add_seclang. rewrite (parse_text_file _ _ fuel FT FU). cbn. unfold rule_from_seclang. rewrite V.
  unfold operator_factory, new_rx. cbn [po_tok po_arg]. rewrite RX. cbn. reflexivity.
Qed.
Lemma loop_once : forall f d O e rs p t t1, t_phase t = p -> process_rule d O e rs p 0 t = Ret t1 -> t_next t1 = -2 -> t_phase t1 = p ->
  exists c n, phase_loop (S (S f)) d O e rs p 0 t = Ret (with_pos (touch_iv t1) p c n).
Proof.
  intros f d O e rs p t t1 P R N P1. remember (S f) as g. cbn [phase_loop]. rewrite P, Z.eqb_refl. change (0 =? StatusEndOfRules) with false. cbn [andb negb]. rewrite R. cbn [bind].
  change (get_iv (touch_iv t1)) with (get_iv t1). destruct (i_disruptive (get_iv t1)).
  - exists (t_cur t1), (t_next t1). f_equal. unfold touch_iv, with_iv, with_pos. cbn. now rewrite P1.
  - unfold next_rule. change (t_next (touch_iv t1)) with (t_next t1). change (t_phase (touch_iv t1)) with (t_phase t1). rewrite N, P1.
    change (-2 =? StatusEndOfRules) with true. cbv iota. subst g. cbn [phase_loop]. change (StatusEndOfRules =? StatusEndOfRules) with true. rewrite andb_false_r. eauto.
Qed.
Lemma short_phase : forall f O e rs p t, nrules rs p <= 1 -> t_phase t < p -> 1 <= p <= 6 -> t_abort t = false ->
  process_phase f O e rs p t = phase_loop f f O e rs p 0 (with_pos t p 0 (-2)).
Proof.
  intros f O e rs p t N L P A. unfold process_phase. destruct (p <=? t_phase t) eqn:Q; [lia|].
  assert (J : jump_to_phase p t = with_pos t p (-1) 0).
  { unfold jump_to_phase, PhaseBegin, PhaseEnd. destruct (p <? 0) eqn:X; [lia|]. destruct (7 <=? p) eqn:Y; [lia|]. reflexivity. }
  unfold process_phase_inner. rewrite J. change (t_abort (with_pos t p (-1) 0)) with (t_abort t). rewrite A. unfold next_rule.
  cbn [t_next with_pos t_phase Z.eqb StatusEndOfRules Z.add]. destruct (nrules rs p <=? 1) eqn:X; [|lia]. reflexivity.
Qed.
Lemma empty_phase : forall f O e rs p t, phase_rules rs p = [] -> t_phase t < p -> 1 <= p <= 6 -> t_abort t = false -> (2 <= f)%nat ->
  exists c n, process_phase f O e rs p t = Ret (with_pos (touch_iv t) p c n).
Proof.
  intros f O e rs p t N L P A F. assert (NR : nrules rs p = 0) by (unfold nrules; now rewrite N).
  rewrite short_phase by (auto; lia). destruct f as [|[|f]]; [lia..|].
  destruct (loop_once f (S (S f)) O e rs p (with_pos t p 0 (-2)) (with_pos t p 0 (-2))) as (c & n & E); [reflexivity|unfold process_rule; now rewrite NR|reflexivity..|].
  exists c, n. rewrite E. reflexivity.
Qed.
Lemma one_rule_phase : forall f O e rs p t r t1, phase_rules rs p = [r] -> t_phase t < p -> 1 <= p <= 6 -> t_abort t = false -> (2 <= f)%nat ->
  do_rule f O e rs r (with_pos t p 0 (-2)) = Ret t1 -> t_next t1 = -2 -> t_phase t1 = p ->
  exists c n, process_phase f O e rs p t = Ret (with_pos (touch_iv t1) p c n).
Proof.
  intros f O e rs p t r t1 N L P A F D E1 E2. assert (NR : nrules rs p = 1) by (unfold nrules; now rewrite N).
  rewrite short_phase by (auto; lia). destruct f as [|[|f]]; [lia..|].
  apply loop_once; auto. unfold process_rule. rewrite NR, N. exact D.
Qed.
(** Calls after the verdict that leave it alone. *)
Definition later_call (o : op) : Prop := op_phase o <> None \/ exists u m p, o = OpRequestURL u m p.
Lemma later_calls : forall f O e rs os t i, (forall p, 3 <= p <= 6 -> phase_rules rs p = []) -> 2 <= t_phase t <= 6 -> t_abort t = false -> (2 <= f)%nat ->
  t_iv t = Some i -> Forall later_call os -> exists t', steps f O e rs os t = Ret (t', map (fun _ => ObsNone) os) /\ t_iv t' = Some i /\ t_abort t' = false.
Proof.
  intros f O e rs os. induction os as [|o os IH]; intros t i N P A F I L; [exists t; auto|]. inversion L as [|? ? L1 L2]; subst.
  assert (K : exists t1, Engine.step f O e rs o t = Ret (t1, ObsNone) /\ t_iv t1 = Some i /\ t_abort t1 = false /\ 2 <= t_phase t1 <= 6).
  { destruct (op_phase o) as [p|] eqn:Q.
    - rewrite (step_phase _ _ _ _ _ _ p Q). pose proof (op_phase_range _ _ Q) as R. destruct (given_same o t) as (G1 & G2 & G3).
      destruct (Z_lt_le_dec (t_phase t) p) as [LT|LE].
      + destruct (empty_phase f O e rs p (given o t)) as (c & n & E); [apply N; lia|lia|lia|congruence|exact F|].
        eexists. rewrite E. cbn [bind]. split; [reflexivity|]. unfold touch_iv, get_iv. cbn. rewrite G2, G3, I. split; [reflexivity|]. split; [exact A|lia].
      + exists (given o t). unfold process_phase. rewrite G1. replace (p <=? t_phase t) with true by lia. cbn [bind]. split; [reflexivity|]. rewrite G2, G3. auto.
    - destruct L1 as [L1|(u & m & p & ->)]; [easy|]. eexists. split; [reflexivity|]. cbn. auto. }
  destruct K as (t1 & S1 & I1 & A1 & P1). destruct (IH t1 i N P1 A1 F I1 L2) as (t' & S2 & I2 & A2). exists t'. split; [|auto].
  cbn [steps]. rewrite S1. cbn [bind]. rewrite S2. reflexivity.
Qed.
Theorem C66_deny_blocks_exactly : forall O n toks ts pat id fuel, ord_valid O ->
  toks <> [] -> Forall (fun tk => In tk request_scalars) toks -> plain_pattern pat -> rx_ok O pat = true -> int64 id ->
  (length (deny_text toks ts pat id) < fuel)%nat ->
  exists l, new_direset fuel O n (deny_text toks ts pat id) = Ret (Some l) /\
    let e := execute l new_engine in
    forall f ip port ip2 port2 u m p h later, (2 <= f)%nat -> Forall later_call later ->
      exists t i, steps f O e (e_ruleset e) ([OpConnection ip port ip2 port2; OpRequestURL (Some u) m p; OpRequestHeader h] ++ later ++ [OpResult]) (new_txn e) =
          Ret (t, [ObsNone; ObsNone; ObsNone] ++ map (fun _ => ObsNone) later ++ [ObsResult i]) /\
        (((exists tk v, In tk toks /\ request_value O ip u m p tk v /\ rx_match O pat (transformed_by O ts v) = true) /\
          i_disruptive i = true /\ i_status i = 403) \/
         (~ (exists tk v, In tk toks /\ request_value O ip u m p tk v /\ rx_match O pat (transformed_by O ts v) = true) /\
          i_disruptive i = false /\ i_status i = 200)).
Proof.
  intros O n toks ts pat id fuel OV NE F PP RX I FU. destruct (deny_loaded O n toks ts pat id fuel OV NE F PP RX I FU) as (vars & L & VW).
  eexists. split; [exact L|]. set (r := Rule _ _ _ _ _ _ _ _ _). intros e f ip port ip2 port2 u m p h later FF LC.
  set (rs := e_ruleset e). set (C := exists tk v, In tk toks /\ request_value O ip u m p tk v /\ rx_match O pat (transformed_by O ts v) = true).
  assert (E1 : phase_rules rs 1 = []) by reflexivity. assert (E2 : phase_rules rs 2 = [r]) by reflexivity.
  assert (E3 : forall q, 3 <= q <= 6 -> phase_rules rs q = []).
  { intros q Q. assert (X : q = 3 \/ q = 4 \/ q = 5 \/ q = 6) by lia. destruct X as [->|[->|[->| ->]]]; reflexivity. }
  destruct (empty_phase f O e rs 1 (with_net (new_txn e) ip port ip2 port2) E1) as (c1 & n1 & S1); [reflexivity|lia|reflexivity|exact FF|].
  remember (with_pos (touch_iv (with_net (new_txn e) ip port ip2 port2)) 1 c1 n1) as t1 eqn:T1.
  assert (I1 : t_iv t1 = Some reset_iv) by (subst t1; reflexivity). assert (A1 : t_abort t1 = false) by (subst t1; reflexivity).
  assert (IP : t_srcip t1 = ip) by (subst t1; reflexivity). assert (ST : t_status t1 = None) by (subst t1; reflexivity). assert (P1 : t_phase t1 = 1) by (subst t1; reflexivity).
  set (t2 := with_reqheader (with_request t1 (Some u) m p) h).
  destruct (values_fetched O e toks vars ip u m p (with_pos t2 2 0 (-2)) OV F VW) as (raw & FR & RV); [exact IP|reflexivity..|].
  assert (FA : fetch_all O e r vars (with_pos t2 2 0 (-2)) = Ret (with_pos t2 2 0 (-2), map (transformed O r) raw)).
  { apply C07_transforms_left_to_right. exists raw. split; [exact FR|reflexivity]. }
  assert (TR : forall v, transformed O r v = transformed_by O ts v).
  { intro v. unfold transformed, transformed_by. cbn [r r_trans]. revert v. clear. induction ts as [|t ts IH]; intro v; [reflexivity|]. cbn [map fold_left]. apply IH. }
  assert (MV : exists b, match_values O false r (map (transformed O r) raw) = Ret b /\ (b = true <-> C)).
  { clear - RV TR. assert (G : forall l, exists b, match_values O false r (map (transformed O r) l) = Ret b /\ (b = true <-> exists v, In v l /\ rx_match O pat (transformed_by O ts v) = true)).
    { induction l as [|v l (b & B1 & B2)]; [exists false; split; [reflexivity|]; split; [discriminate|intros (v & [] & _)]|].
      cbn [map match_values]. cbn [r r_op r_not op_match]. rewrite TR. destruct (rx_match O pat (transformed_by O ts v)) eqn:M; cbn [Bool.eqb negb].
      - exists true. split; [reflexivity|]. split; [|reflexivity]. intros _. exists v. split; [now left|exact M].
      - exists b. split; [exact B1|]. rewrite B2. split; intros (w & J & W); exists w; split; auto; [now right|]. destruct J as [->|J]; [congruence|exact J]. }
    destruct (G raw) as (b & B1 & B2). exists b. split; [exact B1|]. rewrite B2. split.
    - intros (v & J & W). apply RV in J as (tk & J & R). exists tk, v. auto.
    - intros (tk & v & J & R & W). exists v. split; [apply RV; eauto|exact W]. }
  destruct MV as (b & MV & BC).
  assert (IV : get_iv (with_pos t2 2 0 (-2)) = reset_iv) by (unfold get_iv; cbn; rewrite I1; reflexivity).
  assert (MR : match_rule O e r (with_pos t2 2 0 (-2)) = Ret (with_pos t2 2 0 (-2), b)).
  { unfold match_rule. cbn [r r_vars]. fold r. rewrite FA. cbn [bind]. change (t_abort (with_pos t2 2 0 (-2))) with (t_abort t1). rewrite A1, MV. reflexivity. }
  assert (DR : exists t3, do_rule f O e rs r (with_pos t2 2 0 (-2)) = Ret t3 /\ t_next t3 = -2 /\ t_abort t3 = false /\ t_phase t3 = 2 /\
             i_disruptive (get_iv t3) = b /\ i_status (get_iv t3) = if b then 403 else 200).
  { unfold do_rule. rewrite MR. cbn [bind]. destruct b.
    - cbn [r r_subs match_subs bind r_acts subs_execute]. destruct f as [|f]; [lia|].
      change (actions_execute (S f) rs [ADeny] (with_pos t2 2 0 (-2))) with (Ret (do_deny (with_pos t2 2 0 (-2)))). cbn [bind].
      eexists. split; [reflexivity|]. unfold do_deny. rewrite IV. cbn. rewrite A1, ST. repeat split.
    - eexists. split; [reflexivity|]. rewrite IV. cbn. rewrite A1. repeat split. }
  destruct DR as (t3 & DR & D1 & D2 & D3 & D4 & D5).
  destruct (one_rule_phase f O e rs 2 t2 r t3 E2) as (c2 & n2 & S2); [cbn; lia|lia|exact A1|exact FF|exact DR|exact D1|exact D3|].
  set (t4 := with_pos (touch_iv t3) 2 c2 n2) in *.
  destruct (later_calls f O e rs later t4 (get_iv t3) E3 ltac:(cbn; lia) D2 FF eq_refl LC) as (t5 & S3 & I5 & A5).
  exists (with_iv (touch_iv t5) reset_iv), (get_iv t3). split.
  - assert (SR : steps f O e rs [OpResult] t5 = Ret (with_iv (touch_iv t5) reset_iv, [ObsResult (get_iv t3)])).
    { cbn [steps Engine.step]. unfold result. change (t_abort (touch_iv t5)) with (t_abort t5). rewrite A5. unfold touch_iv, get_iv at 1. cbn. unfold get_iv at 1. rewrite I5. reflexivity. }
    cbn [app steps Engine.step]. change PhaseConnection with 1. rewrite S1. cbn [bind]. change PhaseRequestHeaders with 2. fold t2. rewrite S2. cbn [bind].
    assert (AP : forall a t ta oa tb ob c, steps f O e rs a t = Ret (ta, oa) -> steps f O e rs c ta = Ret (tb, ob) -> steps f O e rs (a ++ c) t = Ret (tb, oa ++ ob)).
    { clear. induction a as [|o a IH]; intros t ta oa tb ob c H1 H2.
      - apply Ret_eq in H1. injection H1 as <- <-. exact H2.
      - cbn [steps app] in *. destruct (Engine.step f O e rs o t) as [[t1 b1]| |]; try discriminate. cbn [bind] in *.
        destruct (steps f O e rs a t1) as [[t2 b2]| |] eqn:E; try discriminate. cbn [bind] in *. apply Ret_eq in H1. injection H1 as <- <-.
        rewrite (IH t1 t2 b2 tb ob c E H2). reflexivity. }
    rewrite (AP later t4 t5 _ _ _ _ S3 SR). reflexivity.
  - destruct b; [left|right]; rewrite D4, D5; (split; [|split; reflexivity]); [now apply BC|]. intro X. apply BC in X. discriminate.
Qed.
Example C66_example : let toks := [KRequestUri; KRequestBasename] in let pat := B "a/b.php?x" in
  deny_text toks [KLowercase] pat 12 = B "SecRule REQUEST_URI|REQUEST_BASENAME ""@rx a/b.php?x"" ""id:12,phase:2,t:lowercase,deny""" /\
  Forall (fun tk => In tk request_scalars) toks /\ plain_pattern pat /\ int64 12 /\
  request_value (demo MpErr) (B "1.2.3.4") (demo_url "/a/B.php" "x") (B "GET") (B "HTTP/1.1") KRequestBasename (B "B.php").
Proof.
  split; [reflexivity|]. split; [repeat constructor; simpl; tauto|]. split; [|split; [split; lia|]].
  - intros c I. unfold B in I. simpl in I. repeat (destruct I as [<-|I]; [split; [|split]; [discriminate|discriminate|intros [X|X]; discriminate]|]). destruct I.
  - constructor. apply (ls_some (B "/a/") (B "B.php") []); [discriminate|repeat constructor; intros [?|?]; discriminate|constructor|].
    right. exists (B "/a"), "/"%char. split; [reflexivity|now left].
Qed.
Print Assumptions C66_deny_blocks_exactly.
