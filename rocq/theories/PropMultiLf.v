(** Multipart forms with lines that end with LF alone: which fields the rules see. *)
From Verif Require Import Base BaseFacts GoStrings Utils Buffer BufferFacts SpecBuffer Types Transforms Operators Transaction Variables Rules Engine
  SpecText NumFacts TextFacts TransFacts SpecVars VarText VarFacts BodyFacts SpecRules PropText PropVars RuleFacts Scanner Registry Loader SpecParse ParseFacts ParseLists ParseFiles ParsePrint
  SpecLoad LoadFacts SpecTxn TxnFacts LoopFacts Witness PropRules PropPhases PropTxn PropLoad PropEnd SpecData PropData SpecGate PropGate PropSafe PropFile SpecBody PropBody SpecVerdict PropVerdict Regex SpecRegex PropRegex Uri SpecUri PropUri
  Media SpecMedia PropMedia Multi SpecMulti PropMulti MultiLf SpecMultiLf.
From Coq Require Import ZifyBool.

Lemma bare_none : forall n bd s r, first_bare n bd s = Some r -> next_part n true false bd s = None.
Proof.
  induction n as [|n IH]; intros bd s r H; [reflexivity|]. cbn [first_bare next_part] in *. destruct (read_line s) as [[line r0]|]; [|discriminate].
  destruct (is_delimiter bd line); [discriminate|]. destruct (bare_delimiter bd line); [reflexivity|]. cbn [andb]. destruct (is_final bd line); [discriminate|]. now apply (IH _ _ r).
Qed.
(** The two readings never disagree: the first delimiter decides which is used. *)
Theorem C90_one_reading : forall bd s r, read_lf_form bd s = Some r -> read_form bd s = None.
Proof.
  intros bd s r H. unfold read_lf_form, read_form in *. destruct bd as [|c bd]; [reflexivity|]. destruct (first_bare (length s) (c :: bd) s) as [x|] eqn:F; [|discriminate].
  destruct (length s) as [|n] eqn:L; [reflexivity|]. cbn [read_parts]. now rewrite L, (bare_none _ _ _ _ F).
Qed.

Section Boundary.
Variable bd : bs.
Hypothesis GB : good_boundary bd.
Let dash := B "--" ++ bd.
Let mark := LF :: B "--" ++ bd.
Let no_lf : ~ In LF dash := dash_no bd GB LF (or_intror eq_refl).

Lemma bare_line : forall w, tabs_and_spaces w -> bare_delimiter bd (dash ++ w ++ [LF]) = true /\ is_delimiter bd (dash ++ w ++ [LF]) = false.
Proof.
  intros w W. unfold bare_delimiter, is_delimiter. fold dash. rewrite prefix_self, skipn_self, lwsp_skip by (assumption || (split; discriminate)). split; reflexivity.
Qed.
Lemma lf_line : forall x r, ~ In LF x -> read_line (B "--" ++ bd ++ x ++ LF :: r) = Some (dash ++ x ++ [LF], r).
Proof.
  intros x r N. replace (B "--" ++ bd ++ x ++ LF :: r) with ((dash ++ x) ++ LF :: r) by (unfold dash; now rewrite <- !app_assoc). unfold read_line.
  rewrite cut_app; [now rewrite <- app_assoc|]. rewrite in_app_iff. intros [I|I]; [exact (no_lf I)|exact (N I)].
Qed.
Lemma lf_delimiter : forall n expect w r, tabs_and_spaces w -> next_lf (S n) expect bd (B "--" ++ bd ++ w ++ LF :: r) = Some (NPart r).
Proof.
  intros n expect w r W. cbn [next_lf]. rewrite lf_line by (apply tabs_no; [exact W|discriminate|discriminate]). now rewrite (proj1 (bare_line w W)).
Qed.
Lemma lf_final_line : forall w s, tabs_and_spaces w -> (match s with [] => True | c :: _ => c <> " "%char /\ c <> TAB end) ->
  bare_delimiter bd (dash ++ B "--" ++ w ++ s) = false /\ is_final_lf bd (dash ++ B "--" ++ w ++ s) = match s with [] => true | r => bs_eqb r [LF] end.
Proof.
  intros w s W E. unfold bare_delimiter, is_final_lf. fold dash. rewrite prefix_self, skipn_self. split; [reflexivity|].
  replace (B "--" ++ bd ++ B "--") with (dash ++ B "--") by (unfold dash; now rewrite <- app_assoc). rewrite (app_assoc dash), prefix_self, skipn_self. rewrite lwsp_skip by assumption. now destruct s.
Qed.
Lemma lf_final : forall n expect w r, tabs_and_spaces w -> next_lf (S n) expect bd (B "--" ++ bd ++ B "--" ++ w ++ LF :: r) = Some NEnd.
Proof.
  intros n expect w r W. cbn [next_lf]. change (B "--" ++ bd ++ B "--" ++ w ++ LF :: r) with (B "--" ++ bd ++ (B "--" ++ w) ++ LF :: r).
  rewrite lf_line.
  - rewrite <- !app_assoc. destruct (lf_final_line w [LF] W) as (-> & ->); [split; discriminate|]. reflexivity.
  - rewrite in_app_iff. intros [I|I]; [cbn in I; intuition discriminate|apply (tabs_no _ _ W) in I; easy].
Qed.
Lemma lf_spoils : forall n expect w x r, tabs_and_spaces w -> ~ In LF x -> (match x with [] => False | c :: _ => c <> " "%char /\ c <> TAB end) ->
  next_lf (S n) expect bd (B "--" ++ bd ++ B "--" ++ w ++ x ++ LF :: r) = Some NErr.
Proof.
  intros n expect w x r W NX BX. cbn [next_lf]. replace (B "--" ++ bd ++ B "--" ++ w ++ x ++ LF :: r) with (B "--" ++ bd ++ (B "--" ++ w ++ x) ++ LF :: r) by now rewrite <- !app_assoc.
  rewrite lf_line.
  - rewrite <- !app_assoc. destruct (lf_final_line w (x ++ [LF]) W) as (-> & ->); [destruct x; [split; discriminate|exact BX]|].
    assert (E : bs_eqb (x ++ [LF]) [LF] = false).
    { destruct (bs_eqb (x ++ [LF]) [LF]) eqn:E; [|reflexivity]. apply bs_eqb_eq in E. apply (app_inj_tail x [] LF LF) in E as [-> _]. destruct BX. }
    rewrite E. destruct (x ++ [LF]) as [|a b] eqn:Q; [now destruct x|]. destruct expect; [reflexivity|].
    destruct (bs_eqb (dash ++ B "--" ++ w ++ a :: b) [LF]) eqn:F; [|reflexivity]. apply bs_eqb_eq in F. discriminate F.
  - rewrite !in_app_iff. intros [I|[I|I]]; [cbn in I; intuition discriminate|apply (tabs_no _ _ W) in I; easy|exact (NX I)].
Qed.
Lemma lf_ending : forall x, skip_lwsp (x ++ [LF]) = [LF] -> tabs_and_spaces x.
Proof.
  intros x E. destruct (lwsp_split (x ++ [LF])) as (w & W & Q). rewrite E in Q. apply app_inj_tail in Q as [-> _]. exact W.
Qed.
Lemma lf_breaks : forall n expect x r, ~ In LF x -> (forall w, tabs_and_spaces w -> x <> w /\ x <> B "--" ++ w) ->
  next_lf (S n) expect bd (B "--" ++ bd ++ x ++ LF :: r) = Some NErr.
Proof.
  intros n expect x r NX NW. cbn [next_lf]. rewrite lf_line by exact NX. unfold bare_delimiter. fold dash. rewrite prefix_self, skipn_self.
  destruct (bs_eqb_spec (skip_lwsp (x ++ [LF])) [LF]) as [E|_]; [apply lf_ending in E; now elim (proj1 (NW x E))|]. cbn [andb].
  assert (F : is_final_lf bd (dash ++ x ++ [LF]) = false).
  { unfold is_final_lf. replace (B "--" ++ bd ++ B "--") with (dash ++ B "--") by (unfold dash; now rewrite <- app_assoc).
    destruct (has_prefix (dash ++ B "--") (dash ++ x ++ [LF])) eqn:P; [|reflexivity]. apply has_prefix_iff in P as (z & P). rewrite <- app_assoc in P. apply app_inv_head in P.
    rewrite P, (app_assoc dash), skipn_self. cbn [andb]. destruct z as [|c' z _] using rev_ind.
    - exfalso. rewrite app_nil_r in P. change (B "--") with ([("-"%char)] ++ ["-"%char]) in P. apply app_inj_tail in P as [_ P]. discriminate.
    - rewrite app_assoc in P. apply app_inj_tail in P as [P <-]. destruct (skip_lwsp (z ++ [LF])) as [|c k] eqn:E.
      + exfalso. destruct (lwsp_split (z ++ [LF])) as (w & W & Q). rewrite E, app_nil_r in Q. subst w. apply Forall_app in W as [_ W]. inversion W as [|? ? [Q|Q] _]; discriminate Q.
      + rewrite <- E. destruct (bs_eqb_spec (skip_lwsp (z ++ [LF])) [LF]) as [Q|_]; [|reflexivity]. exfalso. apply lf_ending in Q. now elim (proj2 (NW z Q)). }
  rewrite F. destruct expect; [reflexivity|].
  destruct (bs_eqb_spec (dash ++ x ++ [LF]) [LF]) as [Q|_]; [unfold dash in Q; discriminate Q|reflexivity].
Qed.

(** ** Values *)
Lemma lf_index : forall v r, ~ occurs mark v -> index_of mark (v ++ mark ++ r) = Some (v, r).
Proof.
  induction v as [|c v IH]; intros r N.
  - cbn [app]. pose proof (prefix_self mark r) as P. destruct (mark ++ r) as [|c s] eqn:E; [discriminate E|]. cbn [index_of]. rewrite P, <- E, skipn_self. reflexivity.
  - cbn [app index_of]. destruct (has_prefix mark (c :: v ++ mark ++ r)) eqn:P.
    + exfalso. apply has_prefix_iff in P as (z & P). change (c :: v ++ mark ++ r) with ((c :: v) ++ mark ++ r) in P. apply app_eq_app in P as (l & [(P1 & P2)|(P1 & P2)]).
      * apply N. exists [], l. exact P1.
      * destruct l as [|d l]; [apply N; exists [], []; rewrite app_nil_r in *; now rewrite P1|]. assert (D : d = LF) by (unfold mark in P2; cbn in P2; congruence). subst d.
        apply no_lf. assert (T : dash = v ++ LF :: l) by (unfold mark in P1; fold dash in P1; cbn [app] in P1; congruence). rewrite T. apply in_app_iff. right. now left.
    + rewrite IH; [reflexivity|]. intros (a & b & E). apply N. exists (c :: a), b. now rewrite E.
Qed.
Lemma lf_value : forall v r, (forall s, v <> dash ++ s) -> ~ occurs mark v -> goes_on r -> value_lf bd (v ++ mark ++ r) = Some (v, mark ++ r).
Proof.
  intros v r N1 N2 G. unfold value_lf. fold dash.
  assert (P : has_prefix dash (v ++ mark ++ r) = false).
  { destruct (has_prefix dash (v ++ mark ++ r)) eqn:P; [|reflexivity]. exfalso. apply has_prefix_iff in P as (z & P). apply app_eq_app in P as (l & [(P1 & P2)|(P1 & P2)]); [now apply (N1 l)|].
    destruct l as [|d l]; [apply (N1 []); rewrite app_nil_r in *; now rewrite P1|]. assert (D : d = LF) by (unfold mark in P2; cbn in P2; congruence). subst d.
    apply no_lf. rewrite P1. apply in_app_iff. right. now left. }
  rewrite P. change ([LF] ++ dash) with mark. rewrite (lf_index v r N2), (goes_after r G). unfold mark. cbn [app]. now rewrite <- !app_assoc.
Qed.
Lemma lf_no_value : forall r, goes_on r -> value_lf bd (dash ++ r) = Some ([], dash ++ r).
Proof. intros r G. unfold value_lf. fold dash. now rewrite prefix_self, skipn_self, (goes_after r G). Qed.

Lemma lf_part_read : forall ps s r, lf_part bd ps s -> goes_on r ->
  exists d nm v r1 r2, disposition (s ++ dash ++ r) = Some (d, r1) /\ form_name (fst d) = Some nm /\ part_decoded (snd d) (value_lf bd r1) = Some (v, r2) /\
    (forall m, (match nm with [] => m | _ => vals_add nm v m end) = add_pairs ps m) /\ (r2 = mark ++ r \/ r2 = dash ++ r).
Proof.
  intros ps s r H G. destruct H as [ps hs h e raw v H E SY P V1 V2|ps hs h e H E SY P]; destruct (said_read _ _ _ (header_values _ _ H) SY) as (q & EN & DE).
  - replace ((h ++ e ++ raw ++ [LF]) ++ dash ++ r) with (h ++ e ++ raw ++ mark ++ r) by (unfold mark, dash; rewrite <- !app_assoc; cbn [app]; now rewrite <- !app_assoc).
    destruct (fields_read v hs ps h e (raw ++ mark ++ r) q H E EN P) as (d & nm & X1 & X2 & X3). exists (d, q), nm, v, (raw ++ mark ++ r), (mark ++ r). split; [exact X1|]. split; [exact X2|].
    split; [|split; [exact X3|now left]]. cbn [snd]. rewrite <- DE. f_equal. apply lf_value; [|exact V2|exact G]. intros x Q. apply (V1 x). unfold dash in Q. now rewrite <- app_assoc in Q.
  - rewrite <- app_assoc. destruct (fields_read [] hs ps h e (dash ++ r) q H E EN P) as (d & nm & X1 & X2 & X3). exists (d, q), nm, [], (dash ++ r), (dash ++ r). split; [exact X1|]. split; [exact X2|].
    split; [cbn [snd]; rewrite <- DE; f_equal; now apply lf_no_value|]. split; [exact X3|now right].
Qed.
Lemma lf_next : forall r r2, r2 = mark ++ r \/ r2 = dash ++ r -> exists n expect, next_lf (length r2) false bd r2 = next_lf (S n) expect bd (B "--" ++ bd ++ r).
Proof.
  intros r r2 [->| ->].
  - exists (S (length (bd ++ r))), true. reflexivity.
  - exists (S (length (bd ++ r))), false. unfold dash. rewrite <- app_assoc. reflexivity.
Qed.

(** ** The form *)
Lemma lf_parts_read : forall last ps s e res, lf_form bd last ps s ->
  (forall n expect w, tabs_and_spaces w -> next_lf (S n) expect bd (B "--" ++ bd ++ B "--" ++ w ++ last ++ e) = Some res) -> (res = NEnd \/ res = NErr) ->
  forall n m, (length s < n)%nat -> lf_parts n bd (s ++ e) m = Some (match res with NErr => MpErr | _ => MpOk (add_pairs ps m) end).
Proof.
  intros last ps s e res H F R. induction H as [p s w P W|p s w ps r P W H IH]; intros n m LE.
  - destruct n as [|n]; [cbn in LE; lia|]. cbn [lf_parts].
    replace ((s ++ B "--" ++ bd ++ B "--" ++ w ++ last) ++ e) with (s ++ dash ++ B "--" ++ w ++ last ++ e) by (unfold dash; now rewrite <- !app_assoc).
    destruct (lf_part_read p s (B "--" ++ w ++ last ++ e) P) as (d & nm & v & r1 & r2 & -> & -> & -> & AP & R2); [right; right; right; right; reflexivity|].
    destruct (lf_next _ _ R2) as (j & x & ->). rewrite (F j x w W), AP. now destruct R as [-> | ->].
  - destruct n as [|n]; [cbn in LE; lia|]. cbn [lf_parts].
    replace ((s ++ B "--" ++ bd ++ w ++ LF :: r) ++ e) with (s ++ dash ++ w ++ LF :: r ++ e) by (unfold dash; rewrite <- !app_assoc; cbn [app]; now rewrite <- ?app_assoc).
    destruct (lf_part_read p s (w ++ LF :: r ++ e) P) as (d & nm & v & r1 & r2 & -> & -> & -> & AP & R2).
    { unfold goes_on. destruct w as [|c w]; [right; left; reflexivity|]. inversion W as [|? ? [-> | ->] _]; subst; cbn; auto. }
    destruct (lf_next _ _ R2) as (j & x & ->). rewrite lf_delimiter by exact W. cbv zeta. rewrite IH.
    + now rewrite AP, add_pairs_app.
    + rewrite !app_length in LE. cbn [length] in LE. lia.
Qed.
Lemma lf_stops_read : forall tail s e, lf_stops bd tail s -> lf_broken tail e -> forall n m, (length s < n)%nat -> lf_parts n bd (s ++ e) m = Some MpErr.
Proof.
  intros tail s e H (x & r' & E & NX & SX & BX). induction H as [p s P|p s w r P W H IH]; intros n m LE.
  - destruct n as [|n]; [cbn in LE; lia|]. cbn [lf_parts].
    replace ((s ++ B "--" ++ bd ++ tail) ++ e) with (s ++ dash ++ x ++ LF :: r') by (rewrite <- E; unfold dash; now rewrite <- !app_assoc).
    destruct (lf_part_read p s (x ++ LF :: r') P) as (d & nm & v & r1 & r2 & -> & -> & -> & AP & R2).
    { unfold goes_on. destruct SX as [(c & y & -> & [->|[->| ->]])|(y & ->)]; cbn; auto. }
    destruct (lf_next _ _ R2) as (j & ex & ->). now rewrite lf_breaks.
  - destruct n as [|n]; [cbn in LE; lia|]. cbn [lf_parts].
    replace ((s ++ B "--" ++ bd ++ w ++ LF :: r) ++ e) with (s ++ dash ++ w ++ LF :: r ++ e) by (unfold dash; rewrite <- !app_assoc; cbn [app]; now rewrite <- ?app_assoc).
    destruct (lf_part_read p s (w ++ LF :: r ++ e) P) as (d & nm & v & r1 & r2 & -> & -> & -> & AP & R2).
    { unfold goes_on. destruct w as [|c w]; [right; left; reflexivity|]. inversion W as [|? ? [-> | ->] _]; subst; cbn; auto. }
    destruct (lf_next _ _ R2) as (j & ex & ->). rewrite lf_delimiter by exact W. cbv zeta. apply IH. rewrite !app_length in LE. cbn [length] in LE. lia.
Qed.
Lemma lf_preamble : forall pre w r, preamble bd pre -> tabs_and_spaces w -> forall n, (length pre < n)%nat -> first_bare n bd (pre ++ B "--" ++ bd ++ w ++ LF :: r) = Some r.
Proof.
  intros pre w r H W. induction H as [|l pre NL0 ND H IH]; intros n LE.
  - destruct n; [lia|]. cbn [app first_bare]. rewrite lf_line by (apply tabs_no; [exact W|discriminate|discriminate]). destruct (bare_line w W) as (-> & ->). reflexivity.
  - destruct n as [|n]; [lia|]. cbn [first_bare]. unfold read_line. rewrite <- app_assoc. cbn [app]. rewrite cut_app by exact NL0.
    assert (P : has_prefix dash (l ++ [LF]) = false).
    { destruct (has_prefix dash (l ++ [LF])) eqn:P; [|reflexivity]. apply has_prefix_iff in P as (z & P). elim (ND z). unfold dash in P. now rewrite <- app_assoc in P. }
    assert (P2 : has_prefix (B "--" ++ bd ++ B "--") (l ++ [LF]) = false).
    { destruct (has_prefix (B "--" ++ bd ++ B "--") (l ++ [LF])) eqn:Q; [|reflexivity]. apply has_prefix_iff in Q as (z & Q). elim (ND (B "--" ++ z)). now rewrite Q, <- !app_assoc. }
    unfold is_delimiter, bare_delimiter, is_final. fold dash. rewrite P, P2. cbn [andb]. apply IH. rewrite app_length in LE. cbn [length] in LE. lia.
Qed.
End Boundary.
Lemma lf_texts : forall bd ps body, good_boundary bd ->
  (forall pre rest, lf_text bd pre (LF :: rest) ps body -> read_lf_form bd (body ++ body) = Some (MpOk (add_pairs ps []))) /\
  (forall pre last, lf_text bd pre last ps body -> lf_spoilt last body -> read_lf_form bd (body ++ body) = Some MpErr) /\
  (forall pre tail, lf_stopped bd pre tail body -> lf_broken tail body -> read_lf_form bd (body ++ body) = Some MpErr).
Proof.
  intros bd ps body GB.
  assert (RF : forall pre w r e, preamble bd pre -> tabs_and_spaces w ->
     read_lf_form bd ((pre ++ B "--" ++ bd ++ w ++ LF :: r) ++ e) = lf_parts (length ((pre ++ B "--" ++ bd ++ w ++ LF :: r) ++ e)) bd (r ++ e) []).
  { intros pre w r e PA W. unfold read_lf_form. replace (first_bare (length ((pre ++ B "--" ++ bd ++ w ++ LF :: r) ++ e)) bd ((pre ++ B "--" ++ bd ++ w ++ LF :: r) ++ e)) with (Some (r ++ e)).
    - destruct bd; [now destruct GB|reflexivity].
    - symmetry. replace ((pre ++ B "--" ++ bd ++ w ++ LF :: r) ++ e) with (pre ++ B "--" ++ bd ++ w ++ LF :: r ++ e) by (rewrite <- !app_assoc; reflexivity).
      apply lf_preamble; auto. rewrite !app_length. cbn [length B list_ascii_of_string]. lia. }
  assert (LN : forall (pre w r e : bs), (length r < length ((pre ++ B "--" ++ bd ++ w ++ LF :: r) ++ e))%nat).
  { intros pre w r e. rewrite !app_length. cbn [length B list_ascii_of_string]. lia. }
  split; [|split].
  - intros pre rest (w & r & E & PA & W & P). rewrite E at 1. rewrite RF by assumption.
    apply (lf_parts_read bd GB _ ps r body NEnd P); [|now left|apply LN]. intros n x w' W'. now apply lf_final.
  - intros pre last (w & r & E & PA & W & P) (x & r' & E' & NX & BX). rewrite E at 1. rewrite RF by assumption.
    apply (lf_parts_read bd GB _ ps r body NErr P); [|now right|apply LN]. intros n ex w' W'. rewrite E'. now apply lf_spoils.
  - intros pre tail (w & r & E & PA & W & P) BR. rewrite E at 1. rewrite RF by assumption. apply (lf_stops_read bd GB _ r _ P BR), LN.
Qed.
Lemma lf_unended : forall bd ps body, good_boundary bd -> lf_text bd [] [] ps body -> lf_spoilt [] body.
Proof.
  intros bd ps body (_ & _ & NL0) (w & r & -> & _ & W & _). exists (B "--" ++ bd ++ w), r. split; [cbn [app]; rewrite <- !app_assoc; reflexivity|]. split.
  - rewrite !in_app_iff. intros [I|[I|I]]; [cbn in I; intuition discriminate|exact (NL0 I)|apply (tabs_no _ _ W) in I; easy].
  - split; discriminate.
Qed.
(** What the library reads of a form whose first delimiter ends with LF alone: the fields when LF ends the delimiters and
    the final one; nothing when one of them is ended with CR LF or has a word behind it, or the text stops after the final one. *)
Theorem C90_lf_multipart_texts : forall bd ps body, good_boundary bd ->
  (forall pre rest, lf_text bd pre (LF :: rest) ps body -> exists m, read_lf_form bd (body ++ body) = Some (MpOk m) /\ gathers ps m) /\
  (forall pre last, lf_text bd pre last ps body -> lf_spoilt last body -> read_lf_form bd (body ++ body) = Some MpErr) /\
  (lf_text bd [] [] ps body -> read_lf_form bd (body ++ body) = Some MpErr) /\
  (forall pre tail, lf_stopped bd pre tail body -> lf_broken tail body -> read_lf_form bd (body ++ body) = Some MpErr).
Proof.
  intros bd ps body GB. destruct (lf_texts bd ps body GB) as (A1 & A2 & A3). split; [|split; [exact A2|split; [intro T; exact (A2 _ _ T (lf_unended _ _ _ GB T))|exact A3]]]. intros pre rest T. eexists. split; [exact (A1 pre rest T)|apply add_pairs_gathers].
Qed.
(** The rules decide on such a form by its fields, and let it through whatever its fields if the library refuses it. *)
Theorem C90_lf_multipart_by_content_type : forall O n lines text fuel, ord_valid O -> library O -> media_library O -> multipart_lf_library O ->
  Forall (fun d => exact (fl_name d) /\ exists M, says (fl_pat d) M) lines -> file_text (form_directives lines) text -> (length text < fuel)%nat ->
  exists l, new_direset fuel O n text = Ret (Some l) /\
    let e := execute l new_engine in
    forall f ip port ip2 port2 u m p h mt qs ct bd pieces body ps later t bl,
      In m body_methods -> first_value (B "Content-Type") h ct -> content_type (B "multipart/" ++ mt) qs ct -> In (B "boundary", bd) qs -> good_boundary bd -> NoDup (map fst qs) ->
      body = concat pieces -> (length body <= 2000)%nat -> Forall after_request later ->
      steps f O e (e_ruleset e) ((([OpConnection ip port ip2 port2; OpRequestURL u m p; OpRequestHeader h] ++ map (fun x => OpAppendRequestBody x NoFault) pieces) ++ OpRequestBody :: later) ++ [OpResult]) (new_txn e) = Ret (t, bl) ->
      exists i bl', bl = bl' ++ [ObsResult i] /\
        (forall pre rest, lf_text bd pre (LF :: rest) ps body -> (i_disruptive i = true <-> Exists (form_line_said O ps) lines)) /\
        (forall pre last, lf_text bd pre last ps body -> lf_spoilt last body -> i_disruptive i = false) /\
        (lf_text bd [] [] ps body -> i_disruptive i = false) /\
        (forall pre tail, lf_stopped bd pre tail body -> lf_broken tail body -> i_disruptive i = false).
Proof.
  intros O n lines text fuel OV L ML MU W FT FU.
  assert (G : Forall (good_form_line O) lines) by (eapply Forall_impl; [|exact W]; intros d (A1 & A2); split; [exact A1|now apply said_ok]).
  destruct (C90_other_types_unread O n lines text fuel OV G FT FU) as (l & LD & _).
  exists l. split; [exact LD|]. intros e f ip port ip2 port2 u m p h mt qs ct bd pieces body ps later t bl BM FV CT IB GB ND BE LB LA H.
  destruct (some_type _ _ _ CT) as (CN & MN). destruct (C20_media_types _ qs ct CT) as (T1 & _).
  destruct (form_engine O n lines text l fuel FT LD) as (RA & L1 & L2). fold e in RA, L1, L2.
  assert (R : exists i bl', bl = bl' ++ [ObsResult i]).
  { apply steps_app in H as (s & c & c2 & _ & H & ->). cbn [steps] in H. apply bind_Ret in H as ([s2 b2] & S & H). cbn [step] in S. apply Ret_inj in S. injection S as _ <-. cbn [bind] in H. apply Ret_inj in H. injection H as _ <-. eauto. }
  destruct R as (i & bl' & ->). exists i, bl'. split; [reflexivity|].
  assert (ONE : forall j b2, bl' ++ [ObsResult i] = b2 ++ [ObsResult j] -> j = i) by (intros j b2 E; apply app_inj_tail in E as [_ E]; now injection E).
  assert (LZ : Z.of_nat (length body) <= 131072) by (clear -LB; lia).
  assert (MD : media_type O ct = (B "multipart/" ++ mt, bd)).
  { destruct (T1 ND) as (bd' & MD & X & _). rewrite (X bd IB) in MD. now apply ML in MD. }
  assert (RD : forall r, read_lf_form bd (body ++ body) = Some r -> forall b, b_readed b = false -> b_file b = None -> b_mem b = body -> fst (multipart O b bd (e_reqmem e)) = r).
  { intros r RF b B1 B2 B3. assert (C : content b = body) by (unfold content; now rewrite B2). apply MU; [exact B1|rewrite C, L2; clear -LB; lia|now rewrite C|now rewrite C]. }
  destruct (lf_texts bd ps body GB) as (A1 & A2 & A3).
  assert (RJ : read_lf_form bd (body ++ body) = Some MpErr -> i_disruptive i = false).
  { intros RE.
    destruct (multipart_refused O n lines text fuel l OV FT LD f ip port ip2 port2 u m p h ct mt bd pieces body later t (bl' ++ [ObsResult i]) FV CN MD BE LZ (RD _ RE) LA H) as (j & b2 & E & D).
    apply ONE in E. now subst j. }
  assert (SP : forall pre last, lf_text bd pre last ps body -> lf_spoilt last body -> i_disruptive i = false) by (intros pre last MT SP; exact (RJ (A2 pre last MT SP))).
  split; [|split; [exact SP|split; [|intros pre tail T BR; exact (RJ (A3 pre tail T BR))]]].
  - intros pre rest MT. assert (BN : body <> []) by (destruct MT as (w & r & -> & _); destruct pre; discriminate).
    destruct (multipart_filter O n lines text fuel l OV G FT LD f ip port ip2 port2 u m p h ct mt bd pieces body ps later t (bl' ++ [ObsResult i]) BM FV CN MD BE BN LZ (RD _ (A1 pre rest MT)) LA H) as (j & b2 & E & D).
    apply ONE in E. subst j. rewrite D, !Exists_exists. rewrite Forall_forall in W.
    split; intros (d & I & k & v & X1 & X2 & X3); exists d; (split; [exact I|]); exists k, v; (split; [exact X1|]); (split; [exact X2|]);
      destruct (W d I) as (_ & S); now apply (said_match O (fl_pat d) _ L S).
  - intro MT. exact (SP [] [] MT (lf_unended _ _ _ GB MT)).
Qed.

(** ** Examples *)
Definition multirl (mp : mpres) : oracles :=
  Oracles (rx_ok (multir mp)) (rx_match (multir mp)) (media_type (multir mp))
    (fun b bd m => (match read_lf_form bd (content b ++ content b) with Some r => r | None => fst (multipart (multir mp) b bd m) end, snd (multipart (multir mp) b bd m)))
    (url_string (multir mp)) (uni_lower (multir mp)) (semi_sep (multir mp)) (ord (multir mp)).
Lemma multirl_ok : forall mp, ord_valid (multirl mp) /\ library (multirl mp) /\ uri_library (multirl mp) /\ media_library (multirl mp) /\ multipart_library (multirl mp) /\ multipart_lf_library (multirl mp).
Proof.
  intro mp. destruct (multir_ok mp) as (A & L & U & M & P). split; [exact A|]. split; [exact L|]. split; [exact U|]. split; [exact M|]. split.
  - intros b bd m r B1 B2 B3 E. cbn [multirl multipart fst]. destruct (read_lf_form bd (content b ++ content b)) as [x|] eqn:Q; [apply C90_one_reading in Q; congruence|]. now apply P.
  - intros b bd m r _ _ _ E. cbn [multirl multipart fst]. now rewrite E.
Qed.
(** A line before the form, a field with a header that ends either way, and a field ended with [tail]; CR before LF belongs to its value. *)
Definition lf_body (before cr tail : bs) : bs :=
  before ++ B "--xyz" ++ [LF] ++ B "content-disposition: form-data; name=a" ++ line_end ++ [LF] ++ B "one" ++ [LF] ++
  B "--xyz " ++ [LF] ++ B "Content-Disposition:form-data; name=""user""" ++ [LF] ++ line_end ++ B "Root" ++ cr ++ [LF] ++ B "--xyz--" ++ tail.
Example C90_lf_body_example : good_boundary (B "xyz") /\ preamble (B "xyz") (B "hello" ++ line_end) /\
  forall before last, preamble (B "xyz") before ->
    lf_text (B "xyz") before last [(B "a", B "one"); (B "user", B "Root")] (lf_body before [] last) /\
    lf_text (B "xyz") before last [(B "a", B "one"); (B "user", B "Root" ++ [CR])] (lf_body before [CR] last).
Proof.
  destruct C90_multi_body_example as (GB & PA & _). split; [exact GB|]. split; [exact PA|]. clear PA. intros before last PA.
  assert (PL : forall s, forallb token_char s = true -> s <> [] -> token_word s).
  { intros s F N. split; [exact N|]. apply Forall_forall. intros c I. apply plain_iff. rewrite forallb_forall in F. auto. }
  assert (SP : forall s, forallb is_space s = true -> spaces s).
  { intros s F. apply Forall_forall. intros c I. apply white_iff. rewrite forallb_forall in F. auto. }
  assert (LO : forall s, in_lower s (lower s)) by (intro s; induction s; constructor; [apply lower_ascii_lowered|assumption]).
  assert (NS : forall s, existsb (Ascii.eqb "*") s = false -> ~ In "*"%char s).
  { intros s E I. assert (X : existsb (Ascii.eqb "*") s = true) by (apply existsb_exists; exists "*"%char; auto). congruence. }
  assert (TX : forall s, forallb header_char s = true -> header_text s).
  { intros s F. apply Forall_forall. intros c I. rewrite forallb_forall in F. specialize (F c I). unfold header_char in F. clear -F. lia. }
  assert (NAME : forall q kw, token_word kw -> (q = kw \/ q = """"%char :: kw ++ [""""%char]) -> content_type (B "form-data") [(B "name", kw)] (B "form-data; name=" ++ q)).
  { intros q kw K3 K4.
    exists [], (B "form-data"), [], (B "; name=" ++ q). split; [reflexivity|]. split; [constructor|]. split; [left; now apply PL|]. split; [constructor|].
    split; [apply (LO (B "form-data"))|]. rewrite <- (app_nil_r (B "; name=" ++ q)). apply pm_one; [|constructor; constructor].
    exists [], (B " "), (B "name"), [], [], q. split; [reflexivity|]. split; [now apply SP|]. split; [now apply SP|]. split; [now apply SP|]. split; [now apply SP|].
    split; [now apply PL|]. split; [now apply NS|]. split; [apply (LO (B "name"))|]. destruct K4 as [K4|K4]; subst q; [left; split; [exact K3|reflexivity]|]. right. exists (kw ++ [""""%char]). split; [|reflexivity].
    destruct K3 as [_ K3]. clear -K3. induction K3 as [|c r C _ IH]; [constructor|]. cbn [app].
    apply qt_plain; try exact IH; try (apply plain_not; [exact C|cbn; tauto]); destruct C as [C _]; [lia| |]; intro; subst c; cbn in C; lia. }
  assert (EDGE : forall (d : bs) c, ~ white c -> no_edges (("f"%char :: d) ++ [c])).
  { intros d c C. split; [intros x r Q; injection Q as <- _; intro W; apply white_iff in W; discriminate W|]. intros x r Q. apply app_inj_tail in Q as [_ <-]. exact C. }
  assert (NM : forall v q kw, token_word kw -> (q = kw \/ q = """"%char :: kw ++ [""""%char]) -> names v [(kw, v)] (B "form-data; name=" ++ q)).
  { intros v q kw K Q. apply (nm_field _ _ [(B "name", kw)]); [now apply NAME|repeat constructor; intros []|now left|apply K|intros f [X|[]]; discriminate X]. }
  assert (ONE : forall key b1 d v e1 e2 ps, token_word key -> lower key = B "content-disposition" -> tabs_and_spaces b1 -> forallb header_char (b1 ++ d) = true -> either_end e1 -> either_end e2 ->
    names v ps d -> no_edges d -> ~ In LF v -> (forall r, v <> B "--xyz" ++ r) -> lf_part (B "xyz") ps ((key ++ ":"%char :: (b1 ++ d) ++ e1 ++ []) ++ e2 ++ v ++ [LF])).
  { intros key b1 d v e1 e2 ps K KL W F E1 E2 N E V1 V2. apply (lp_text _ _ [(B "content-disposition", b1 ++ d)] _ _ _ v).
    - apply ph_line; [exact K|rewrite <- KL; apply LO|now apply TX|exact E1|constructor].
    - exact E2.
    - apply py_itself, no_encoding. cbn; intuition discriminate.
    - apply (pf_disposed _ _ _ d); [|exact N]. exists b1, []. split; [|split; [|split; [constructor|exact E]]].
      + exists [], []. split; [cbn [app]; now rewrite app_nil_r|intros []].
      + exact W.
    - exact V2.
    - intros (a & b & Q). apply V1. rewrite Q. apply in_app_iff. right. now left. }
  assert (ALL : forall cr, ~ In LF cr -> lf_text (B "xyz") before last [(B "a", B "one"); (B "user", B "Root" ++ cr)] (lf_body before cr last)).
  { intros cr C. eexists [], _. split; [unfold lf_body; reflexivity|]. split; [exact PA|]. split; [constructor|].
    assert (P1 := ONE (B "content-disposition") (B " ") (B "form-data; name=a") (B "one") line_end [LF] [(B "a", B "one")] ltac:(now apply PL) eq_refl ltac:(repeat constructor) eq_refl (or_intror eq_refl) (or_introl eq_refl)
      (NM (B "one") (B "a") (B "a") ltac:(now apply PL) (or_introl eq_refl)) ltac:(apply (EDGE (B "orm-data; name=") "a"%char); intro W; apply white_iff in W; discriminate W) ltac:(cbn; intuition discriminate) ltac:(intros r Q; discriminate Q)).
    assert (P2 := ONE (B "Content-Disposition") [] (B "form-data; name=""user""") (B "Root" ++ cr) [LF] line_end [(B "user", B "Root" ++ cr)] ltac:(now apply PL) eq_refl ltac:(constructor) eq_refl (or_introl eq_refl) (or_intror eq_refl)
      (NM (B "Root" ++ cr) (B """user""") (B "user") ltac:(now apply PL) (or_intror eq_refl)) ltac:(apply (EDGE (B "orm-data; name=""user") """"%char); intro W; apply white_iff in W; discriminate W)
      ltac:(rewrite in_app_iff; intros [I|I]; [cbn in I; intuition discriminate|exact (C I)]) ltac:(intros r Q; discriminate Q)).
    pose proof (lf_more _ last _ _ (B " ") _ _ P1 ltac:(repeat constructor) (lf_last (B "xyz") last _ _ [] P2 ltac:(constructor))) as Q.
    rewrite <- !app_assoc in Q. cbn [app B list_ascii_of_string line_end] in Q |- *. rewrite <- ?app_assoc in Q. exact Q. }
  split; [apply (ALL [])|apply (ALL [CR])]; cbn; intuition discriminate.
Qed.
Example C90_lf_spoilt_example : forall body, lf_spoilt line_end body /\ lf_spoilt (B "x" ++ [LF]) body /\ ~ lf_spoilt [LF] body.
Proof.
  intro body. split; [|split].
  - exists [CR], body. split; [reflexivity|]. split; [cbn; intuition discriminate|split; discriminate].
  - exists (B "x"), body. split; [reflexivity|]. split; [cbn; intuition discriminate|split; discriminate].
  - intros (x & r & E & NX & H). destruct x as [|c x]; [exact H|]. injection E as <- _. apply NX. now left.
Qed.
Example C90_lf_stopped_example : let body tail := B "--xyz" ++ [LF] ++ [LF] ++ B "one" ++ [LF] ++ B "--xyz" ++ tail in
  (forall tail, lf_stopped (B "xyz") [] tail (body tail)) /\ (forall s, lf_broken line_end s) /\ (forall s, lf_broken (B " x" ++ [LF]) s) /\ lf_broken (B "-") (body (B "-")) /\
  (forall s, ~ lf_broken (B "  " ++ [LF]) s) /\ (forall s, ~ lf_broken (B "--" ++ [LF]) s) /\
  read_lf_form (B "xyz") (body line_end ++ body line_end) = Some MpErr.
Proof.
  cbv zeta. split; [|split; [|split; [|split; [|split; [|split]]]]].
  - intro tail. exists [], ([LF] ++ B "one" ++ [LF] ++ B "--xyz" ++ tail). split; [reflexivity|]. split; [constructor|]. split; [constructor|].
    apply (ls_here (B "xyz") tail [] ([LF] ++ B "one" ++ [LF])). apply (lp_text (B "xyz") [] [] [] [LF] (B "one") (B "one")); [constructor|now left|apply py_itself, no_encoding; intros []|apply pf_none; intros []|intros r Q; discriminate Q|].
    intros (a & b & E). assert (I : In LF (B "one")) by (rewrite E; apply in_app_iff; right; now left). cbn in I. intuition discriminate.
  - intro s. exists [CR], s. split; [reflexivity|]. split; [cbn; intuition discriminate|]. split; [left; eexists _, _; split; [reflexivity|auto]|].
    intros w W. split; [|discriminate]. intro E. subst w. inversion W as [|? ? [Q|Q] _]; discriminate Q.
  - intro s. exists (B " x"), s. split; [reflexivity|]. split; [cbn; intuition discriminate|]. split; [left; eexists _, _; split; [reflexivity|auto]|].
    intros w W. split; [|discriminate]. intro E. subst w. inversion W as [|? ? _ W']. inversion W' as [|? ? [Q|Q] _]; discriminate Q.
  - eexists (B "---xyz"), _. split; [reflexivity|]. split; [cbn; intuition discriminate|]. split; [right; eexists; reflexivity|]. intros w W. split; intro E.
    + subst w. inversion W as [|? ? [Q|Q] _]; discriminate Q.
    + destruct w as [|c w]; [discriminate E|]. injection E as <- _. inversion W as [|? ? [Q|Q] _]; discriminate Q.
  - intros s (x & r & E & NX & _ & N). destruct (N (B "  ")) as [N1 _]; [repeat (constructor; [now left|]); constructor|]. apply N1. destruct x as [|a x]; [discriminate E|]. injection E as <- E. destruct x as [|a x]; [discriminate E|]. injection E as <- E.
    destruct x as [|a x]; [reflexivity|]. injection E as <- E. elim NX. cbn. auto.
  - intros s (x & r & E & NX & _ & N). destruct (N []) as [_ N2]; [constructor|]. apply N2. destruct x as [|a x]; [discriminate E|]. injection E as <- E. destruct x as [|a x]; [discriminate E|]. injection E as <- E.
    destruct x as [|a x]; [reflexivity|]. injection E as <- E. elim NX. cbn. auto.
  - vm_compute. reflexivity.
Qed.
Example C90_lf_multipart_example : let O := multirl MpErr in
  let lines := [FormLine (B "user") [KLowercase] (B "^root$") 1] in
  let text := B "SecRequestBodyAccess On" ++ [LF] ++ B "SecRule ARGS_POST:user ""@rx ^root$"" ""id:1,phase:3,t:lowercase,deny""" in
  let calls body := [OpConnection [] [] [] []; OpRequestURL (Some (demo_url "/" "")) (B "POST") (B "HTTP/1.1"); OpRequestHeader [(B "Content-Type", [B "multipart/form-data;boundary=xyz"])];
                   OpAppendRequestBody body NoFault; OpRequestBody; OpResult] in
  Forall (fun d => exact (fl_name d) /\ exists M, says (fl_pat d) M) lines /\ file_text (form_directives lines) text /\
  exists l, new_direset 500 O 0 text = Ret (Some l) /\ let e := execute l new_engine in
    let answer body x := exists t bl i, steps 5 O e (e_ruleset e) (calls body) (new_txn e) = Ret (t, bl ++ [ObsResult i]) /\ i_disruptive i = x in
    answer (lf_body [] [] [LF]) true /\ answer (lf_body (B "hello" ++ line_end) [] [LF]) true /\
    answer (lf_body [] [] []) false /\ answer (lf_body [] [] line_end) false /\ answer (lf_body [] [] (B " x" ++ [LF])) false /\ answer (lf_body [] [CR] [LF]) false.
Proof.
  cbv zeta. split; [|split].
  - constructor; [|constructor]. split; [intros p Q; discriminate Q|]. eexists; apply (say_equals (B "root")); now apply plain_by.
  - apply parse_text_iff. exists 500%nat. vm_compute. reflexivity.
  - eexists. split; [vm_compute; reflexivity|]. repeat split; eexists _, [_; _; _; _; _], _; (split; [vm_compute; reflexivity|reflexivity]).
Qed.
Print Assumptions C90_one_reading.
Print Assumptions C90_lf_multipart_texts.
Print Assumptions C90_lf_multipart_by_content_type.
