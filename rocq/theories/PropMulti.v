(** Multipart forms: which fields the rules see, and which forms they do not. *)
From Verif Require Import Base BaseFacts GoStrings Utils Buffer BufferFacts SpecBuffer Types Transforms Operators Transaction Variables Rules Engine
  SpecText NumFacts TextFacts TransFacts SpecVars VarText VarFacts BodyFacts SpecRules PropText PropVars RuleFacts Scanner Registry Loader SpecParse ParseFacts ParseLists ParseFiles ParsePrint
  SpecLoad LoadFacts SpecTxn TxnFacts LoopFacts Witness PropRules PropPhases PropTxn PropLoad PropEnd SpecData PropData SpecGate PropGate PropSafe PropFile SpecBody PropBody SpecVerdict PropVerdict Regex SpecRegex PropRegex Uri SpecUri PropUri
  Media SpecMedia PropMedia Multi SpecMulti.
From Coq Require Import ZifyBool.

(** ** Lines *)
Lemma prefix_self : forall p s, has_prefix p (p ++ s) = true.
Proof. intros p s. apply has_prefix_iff. now exists s. Qed.
Lemma skipn_self : forall (p s : bs), skipn (length p) (p ++ s) = s.
Proof. intros p s. now rewrite skipn_app, skipn_all, Nat.sub_diag. Qed.
Lemma lwsp_skip : forall w s, tabs_and_spaces w -> (match s with [] => True | c :: _ => c <> " "%char /\ c <> TAB end) -> skip_lwsp (w ++ s) = s.
Proof.
  unfold skip_lwsp. induction w as [|c w IH]; intros s W E; cbn [app drop_while].
  - destruct s as [|c s]; [reflexivity|]. destruct E as [E1 E2]. cbn [drop_while]. now rewrite (proj2 (Ascii.eqb_neq c " ") E1), (proj2 (Ascii.eqb_neq c TAB) E2).
  - inversion W as [|? ? [-> | ->] W']; subst; cbn; now apply IH.
Qed.
Lemma line_read : forall a s, ~ In LF a -> read_line (a ++ line_end ++ s) = Some (a ++ line_end, s).
Proof.
  intros a s N. unfold read_line, line_end. change (a ++ [CR; LF] ++ s) with (a ++ [CR] ++ LF :: s). rewrite app_assoc, cut_app.
  - now rewrite <- app_assoc.
  - rewrite in_app_iff. intros [I|[I|[]]]; [contradiction|discriminate].
Qed.
Lemma tabs_no : forall w c, tabs_and_spaces w -> c <> " "%char -> c <> TAB -> ~ In c w.
Proof. intros w c W N1 N2 I. unfold tabs_and_spaces in W. rewrite Forall_forall in W. destruct (W c I); contradiction. Qed.

Section Boundary.
Variable bd : bs.
Hypothesis GB : good_boundary bd.
Let dash := B "--" ++ bd.
Let mark := line_end ++ B "--" ++ bd.

Lemma dash_no : forall c, c = CR \/ c = LF -> ~ In c dash.
Proof. destruct GB as (_ & G1 & G2). intros c [-> | ->] I; unfold dash in I; apply in_app_iff in I as [I|I]; try contradiction; cbn in I; intuition discriminate. Qed.
Lemma next_delimiter : forall n first expect w r, tabs_and_spaces w -> next_part (S n) first expect bd (B "--" ++ bd ++ w ++ line_end ++ r) = Some (NPart r).
Proof.
  intros n first expect w r W. cbn [next_part]. replace (B "--" ++ bd ++ w ++ line_end ++ r) with ((dash ++ w) ++ line_end ++ r) by (unfold dash; now rewrite <- !app_assoc).
  rewrite line_read; [|rewrite in_app_iff; intros [I|I]; [exact (dash_no LF (or_intror eq_refl) I)|apply (tabs_no _ _ W) in I; easy]].
  unfold is_delimiter. fold dash. rewrite <- app_assoc, prefix_self, skipn_self. rewrite lwsp_skip; [reflexivity|exact W|split; discriminate].
Qed.
Lemma final_line : forall w s, tabs_and_spaces w -> (match s with [] => True | c :: _ => c <> " "%char /\ c <> TAB end) ->
  is_delimiter bd (dash ++ B "--" ++ w ++ s) = false /\ bare_delimiter bd (dash ++ B "--" ++ w ++ s) = false /\
  is_final bd (dash ++ B "--" ++ w ++ s) = match s with [] => true | r => bs_eqb r NL end.
Proof.
  intros w s W E. unfold is_delimiter, bare_delimiter, is_final. fold dash. rewrite prefix_self, skipn_self. split; [reflexivity|]. split; [reflexivity|].
  replace (B "--" ++ bd ++ B "--") with (dash ++ B "--") by (unfold dash; now rewrite <- app_assoc). rewrite (app_assoc dash), prefix_self, skipn_self. rewrite lwsp_skip by assumption. now destruct s.
Qed.
Lemma next_final : forall n first expect w r, tabs_and_spaces w -> next_part (S n) first expect bd (B "--" ++ bd ++ B "--" ++ w ++ line_end ++ r) = Some NEnd.
Proof.
  intros n first expect w r W. cbn [next_part]. replace (B "--" ++ bd ++ B "--" ++ w ++ line_end ++ r) with ((dash ++ B "--" ++ w) ++ line_end ++ r) by (unfold dash; now rewrite <- !app_assoc).
  rewrite line_read.
  - rewrite <- !app_assoc. destruct (final_line w line_end W) as (-> & -> & ->); [split; discriminate|]. now rewrite andb_false_r.
  - rewrite !in_app_iff. intros [I|[I|I]]; [exact (dash_no LF (or_intror eq_refl) I)|cbn in I; intuition discriminate|apply (tabs_no _ _ W) in I; easy].
Qed.
(** Something else on the final line. *)
Lemma next_spoilt : forall n expect w x r, tabs_and_spaces w -> ~ In LF x -> (match x with [] => True | c :: _ => c <> " "%char /\ c <> TAB end) -> x <> [CR] ->
  next_part (S n) false expect bd (B "--" ++ bd ++ B "--" ++ w ++ x ++ LF :: r) = Some NErr.
Proof.
  intros n expect w x r W NX BX CX. cbn [next_part].
  replace (B "--" ++ bd ++ B "--" ++ w ++ x ++ LF :: r) with ((dash ++ B "--" ++ w ++ x) ++ LF :: r) by (unfold dash; now rewrite <- !app_assoc).
  unfold read_line. rewrite cut_app.
  - rewrite <- !app_assoc. destruct (final_line w (x ++ [LF]) W) as (-> & -> & ->); [destruct x; [split; discriminate|exact BX]|].
    assert (E : bs_eqb (x ++ [LF]) NL = false).
    { destruct (bs_eqb (x ++ [LF]) NL) eqn:E; [|reflexivity]. apply bs_eqb_eq in E. elim CX. change NL with ([CR] ++ [LF]) in E. now apply app_inj_tail in E. }
    rewrite E. destruct (x ++ [LF]) eqn:Q; [now destruct x|]. now destruct expect.
  - rewrite !in_app_iff. intros [I|[I|[I|I]]]; [exact (dash_no LF (or_intror eq_refl) I)|cbn in I; intuition discriminate|apply (tabs_no _ _ W) in I; easy|exact (NX I)].
Qed.
(** Something else on the line of a delimiter. *)
Lemma lwsp_split : forall s, exists w, tabs_and_spaces w /\ s = w ++ skip_lwsp s.
Proof.
  induction s as [|c s (w & W & E)]; [exists []; split; [constructor|reflexivity]|]. unfold skip_lwsp in *. cbn [drop_while].
  destruct (Ascii.eqb c " " || Ascii.eqb c TAB) eqn:Q; [|exists []; split; [constructor|reflexivity]].
  exists (c :: w). split; [constructor; [|exact W]|cbn [app]; now rewrite <- E]. apply orb_true_iff in Q as [Q|Q]; apply Ascii.eqb_eq in Q; auto.
Qed.
Lemma lwsp_line : forall x, skip_lwsp (x ++ [LF]) = NL -> exists w, tabs_and_spaces w /\ x = w ++ [CR].
Proof.
  intros x E. destruct (lwsp_split (x ++ [LF])) as (w & W & Q). rewrite E in Q. change NL with ([CR] ++ [LF]) in Q. rewrite app_assoc in Q. apply app_inj_tail in Q as [Q _]. eauto.
Qed.
Lemma next_broken : forall n expect x r, ~ In LF x -> (x = [] \/ (exists c y, x = c :: y /\ (c = CR \/ c = " "%char \/ c = TAB)) \/ exists y, x = B "--" ++ y) ->
  (forall w, tabs_and_spaces w -> x <> w ++ [CR] /\ x <> B "--" ++ w ++ [CR]) ->
  next_part (S n) false expect bd (B "--" ++ bd ++ x ++ LF :: r) = Some NErr.
Proof.
  intros n expect x r NX _ NW. cbn [next_part].
  replace (B "--" ++ bd ++ x ++ LF :: r) with ((dash ++ x) ++ LF :: r) by (unfold dash; now rewrite <- !app_assoc).
  unfold read_line. rewrite cut_app by (rewrite in_app_iff; intros [I|I]; [exact (dash_no LF (or_intror eq_refl) I)|exact (NX I)]).
  rewrite <- app_assoc. unfold is_delimiter. fold dash. rewrite prefix_self, skipn_self.
  destruct (bs_eqb_spec (skip_lwsp (x ++ [LF])) NL) as [E|_]; [apply lwsp_line in E as (w & W & E); now elim (proj1 (NW w W))|]. cbn [andb].
  assert (F : is_final bd (dash ++ x ++ [LF]) = false).
  { unfold is_final. replace (B "--" ++ bd ++ B "--") with (dash ++ B "--") by (unfold dash; now rewrite <- app_assoc).
    destruct (has_prefix (dash ++ B "--") (dash ++ x ++ [LF])) eqn:P; [|reflexivity]. apply has_prefix_iff in P as (z & P). rewrite <- app_assoc in P. apply app_inv_head in P.
    rewrite P, (app_assoc dash), skipn_self. cbn [andb]. destruct (skip_lwsp z) as [|c k] eqn:E.
    - exfalso. destruct (lwsp_split z) as (w & W & Q). rewrite E, app_nil_r in Q. subst z. destruct w as [|c w _] using rev_ind.
      + rewrite app_nil_r in P. change (B "--") with ([("-"%char)] ++ ["-"%char]) in P. apply app_inj_tail in P as [_ P]. discriminate.
      + rewrite app_assoc in P. apply app_inj_tail in P as [_ <-]. apply Forall_app in W as [_ W]. inversion W as [|? ? [Q|Q] _]; discriminate Q.
    - rewrite <- E. destruct (bs_eqb_spec (skip_lwsp z) NL) as [Q|_]; [|reflexivity]. exfalso. destruct z as [|c' z _] using rev_ind; [discriminate E|].
      rewrite app_assoc in P. apply app_inj_tail in P as [P <-]. apply lwsp_line in Q as (w & W & ->). now elim (proj2 (NW w W)). }
  rewrite F. destruct expect; [reflexivity|].
  destruct (bs_eqb_spec (dash ++ x ++ [LF]) NL) as [Q|_]; [unfold dash in Q; discriminate Q|reflexivity].
Qed.
Lemma next_line_end : forall n s, next_part (S n) false false bd (line_end ++ s) = next_part n false true bd s.
Proof. intros n s. cbn [next_part]. pose proof (line_read [] s (fun I => I)) as L. cbn [app] in L. rewrite L. reflexivity. Qed.

(** ** Values *)
Lemma index_value : forall v r, ~ occurs mark v -> index_of mark (v ++ mark ++ r) = Some (v, r).
Proof.
  assert (NC : ~ In CR (tl mark)).
  { change (tl mark) with (LF :: dash). intros [I|I]; [discriminate|exact (dash_no CR (or_introl eq_refl) I)]. }
  induction v as [|c v IH]; intros r N.
  - cbn [app]. pose proof (prefix_self mark r) as P. destruct (mark ++ r) as [|c s] eqn:E; [discriminate E|]. cbn [index_of]. rewrite P, <- E, skipn_self. reflexivity.
  - cbn [app index_of]. destruct (has_prefix mark (c :: v ++ mark ++ r)) eqn:P.
    + exfalso. apply has_prefix_iff in P as (z & P). change (c :: v ++ mark ++ r) with ((c :: v) ++ mark ++ r) in P. apply app_eq_app in P as (l & [(P1 & P2)|(P1 & P2)]).
      * apply N. exists [], l. exact P1.
      * destruct l as [|d l]; [apply N; exists [], []; rewrite app_nil_r in *; now rewrite P1|]. assert (D : d = CR) by (unfold mark, line_end in P2; cbn in P2; congruence). subst d.
        apply NC. rewrite P1. cbn [app tl]. apply in_app_iff. right. now left.
    + rewrite IH; [reflexivity|]. intros (a & b & E). apply N. exists (c :: a), b. now rewrite E.
Qed.
Definition goes_on (r : bs) : Prop := has_prefix [CR] r = true \/ has_prefix [LF] r = true \/ has_prefix [" "%char] r = true \/ has_prefix [TAB] r = true \/ has_prefix (B "--") r = true.
Lemma goes_after : forall r, goes_on r -> after_boundary r = true.
Proof. intros r G. unfold after_boundary. rewrite !orb_true_iff. unfold goes_on in G. tauto. Qed.
Lemma part_value : forall v r, (forall s, v <> dash ++ s) -> ~ occurs mark v -> goes_on r -> value_of_part bd (v ++ mark ++ r) = Some (v, mark ++ r).
Proof.
  intros v r N1 N2 G. unfold value_of_part. fold dash.
  assert (P : has_prefix dash (v ++ mark ++ r) = false).
  { destruct (has_prefix dash (v ++ mark ++ r)) eqn:P; [|reflexivity]. exfalso. apply has_prefix_iff in P as (z & P). apply app_eq_app in P as (l & [(P1 & P2)|(P1 & P2)]); [now apply (N1 l)|].
    destruct l as [|d l]; [apply (N1 []); rewrite app_nil_r in *; now rewrite P1|]. assert (D : d = CR) by (unfold mark, line_end in P2; cbn in P2; congruence). subst d.
    apply (dash_no CR (or_introl eq_refl)). rewrite P1. apply in_app_iff. right. now left. }
  rewrite P. change (NL ++ dash) with mark. rewrite (index_value v r N2), (goes_after r G). unfold mark. change NL with line_end. now rewrite <- !app_assoc.
Qed.
Lemma empty_value : forall r, goes_on r -> value_of_part bd (dash ++ r) = Some ([], dash ++ r).
Proof. intros r G. unfold value_of_part. fold dash. now rewrite prefix_self, skipn_self, (goes_after r G). Qed.

(** ** The header of a part *)
Lemma header_char_iff : forall c, header_char c = true <-> (32 <= code c <= 126 \/ code c = 9).
Proof. intro c. unfold header_char. lia. Qed.
Lemma key_chars : forall key l, in_lower key l -> forallb header_char l = true -> ~ In ":"%char l -> forallb header_char key = true /\ ~ In ":"%char key.
Proof.
  intros key l H. induction H as [|x y s l L H IH]; intros F N; [split; [reflexivity|easy]|]. cbn [forallb] in *. apply andb_true_iff in F as [F1 F2].
  destruct IH as (I1 & I2); [exact F2|intro; apply N; now right|]. split.
  - rewrite I1, andb_true_r. apply header_char_iff. apply header_char_iff in F1. destruct L as [[U L]|[U ->]]; [unfold upper in U; lia|exact F1].
  - intros [->|I]; [|contradiction]. apply N. left. destruct L as [[U L]|[U L]]; [exfalso; unfold upper in U; change (code ":") with 58 in U; lia|exact L].
Qed.
Lemma trim_edges : forall a s b, spaces a -> no_edges s -> s <> [] -> spaces b -> trim (a ++ s ++ b) = s.
Proof.
  assert (ED : forall c, ~ white c -> is_space c = false) by (intros c N; destruct (is_space c) eqn:E; [apply white_iff in E; contradiction|reflexivity]).
  intros a s b A (N1 & N2) N B0. unfold trim. rewrite skip_spaces; [|exact A|destruct s as [|c s]; [easy|cbn; apply ED; now apply (N1 c s)]].
  rewrite rev_app_distr, skip_spaces; [apply rev_involutive|apply Forall_rev; exact B0|]. destruct (rev s) as [|d r] eqn:R; [exact I|]. cbn. apply ED. apply (N2 d (rev r)).
  rewrite <- (rev_involutive s), R. reflexivity.
Qed.
Lemma tabs_spaces : forall w, tabs_and_spaces w -> spaces w /\ forallb header_char w = true.
Proof.
  intros w H. induction H as [|c w C H (IH1 & IH2)]; [split; [constructor|reflexivity]|]. split.
  - constructor; [|exact IH1]. destruct C as [-> | ->]; [right|left]; cbn; [reflexivity|split; discriminate].
  - cbn [forallb]. rewrite IH2. now destruct C as [-> | ->].
Qed.
Lemma token_header : forall key, token_word key -> forallb token_char key = true /\ ~ In ":"%char key /\ ~ In CR key /\ bs_eqb key [] = false.
Proof.
  intros key [N F]. assert (T : forallb token_char key = true) by (apply forallb_forall; intros c I; apply plain_iff; rewrite Forall_forall in F; auto).
  split; [exact T|]. rewrite forallb_forall in T. split; [intro I; specialize (T _ I); discriminate T|]. split; [intro I; specialize (T _ I); discriminate T|]. now destruct key.
Qed.
Lemma strip_end : forall a e s, ~ In LF a -> ~ In CR a -> either_end e -> text_line (a ++ e ++ s) = Some (a, s).
Proof.
  intros a e s N1 N2 [->| ->]; unfold text_line.
  - change (a ++ [LF] ++ s) with (a ++ LF :: s). rewrite cut_app by exact N1. do 2 f_equal. unfold strip_cr. destruct (rev a) as [|c r] eqn:R; [reflexivity|]. destruct (Ascii.eqb_spec c CR) as [->|_]; [|reflexivity].
    elim N2. apply in_rev. rewrite R. now left.
  - change (a ++ line_end ++ s) with (a ++ [CR] ++ LF :: s). rewrite app_assoc, cut_app by (rewrite in_app_iff; intros [I|[I|[]]]; [contradiction|discriminate]).
    do 2 f_equal. unfold strip_cr. rewrite rev_app_distr. cbn [rev app]. rewrite Ascii.eqb_refl. apply rev_involutive.
Qed.
Lemma header_plain : forall v, header_text v -> forallb header_char v = true /\ ~ In CR v /\ ~ In LF v.
Proof.
  intros v V. assert (V1 : forallb header_char v = true) by (apply forallb_forall; intros c I; apply header_char_iff; unfold header_text in V; rewrite Forall_forall in V; auto).
  split; [exact V1|]. split; intro I; rewrite forallb_forall in V1; specialize (V1 _ I); discriminate V1.
Qed.
Lemma tabs_text : forall w, tabs_and_spaces w -> header_text w.
Proof. intros w W. eapply Forall_impl; [|exact W]. intros c [-> | ->]; cbn; lia. Qed.
Lemma off_right : forall s b, (forall d r, s = r ++ [d] -> d <> " "%char /\ d <> TAB) -> tabs_and_spaces b -> right_off (s ++ b) = s.
Proof.
  intros s b E W. unfold right_off. rewrite rev_app_distr, lwsp_skip; [apply rev_involutive|apply Forall_rev; exact W|].
  destruct (rev s) as [|c x] eqn:R; [exact I|]. apply (E c (rev x)). apply (f_equal (@rev ascii)) in R. rewrite rev_involutive in R. exact R.
Qed.
Lemma bare_edges : forall x, no_edges x -> (match x with [] => True | c :: _ => c <> " "%char /\ c <> TAB end) /\ forall d r, x = r ++ [d] -> d <> " "%char /\ d <> TAB.
Proof.
  intros x (E1 & E2). assert (K : forall c, ~ white c -> c <> " "%char /\ c <> TAB) by (intros c N; split; intros ->; apply N, white_iff; reflexivity).
  split; [destruct x as [|c x]; [exact I|]; apply K, (E1 c x eq_refl)|]. intros d r Q. apply K, (E2 d r Q).
Qed.
(** What follows a line of a header does not continue it. *)
Definition no_blank (s : bs) : Prop := match s with [] => False | c :: _ => c <> " "%char /\ c <> TAB end.
Lemma no_more_lines : forall n buf s, no_blank s -> more_lines n buf s = Some (buf, s).
Proof. intros n buf [|c s] []. destruct n; cbn [more_lines]; now rewrite (proj2 (Ascii.eqb_neq c " ")), (proj2 (Ascii.eqb_neq c TAB)). Qed.
Lemma more_read : forall c t, continued c t -> forall n buf b s, (length t <= n)%nat -> (forall d r, buf = r ++ [d] -> d <> " "%char /\ d <> TAB) -> tabs_and_spaces b -> no_blank s ->
  more_lines n (buf ++ b) (t ++ s) = Some (match c with [] => buf ++ b | _ => buf ++ c end, s).
Proof.
  intros c t H. induction H as [|w x b' e c t WN W XN X XE B' E H IH]; intros n buf b s LE BE BW NB; [now apply no_more_lines|].
  destruct n as [|n]; [destruct w; [easy|cbn in LE; lia]|].
  assert (L : text_line ((w ++ x ++ b' ++ e ++ t) ++ s) = Some (w ++ x ++ b', t ++ s)).
  { replace ((w ++ x ++ b' ++ e ++ t) ++ s) with ((w ++ x ++ b') ++ e ++ t ++ s) by now rewrite <- !app_assoc.
    apply strip_end; [| |exact E]; rewrite !in_app_iff; intros [I|[I|I]]; revert I; [apply (header_plain w (tabs_text _ W))|apply (header_plain x X)|apply (header_plain b' (tabs_text _ B'))| apply (header_plain w (tabs_text _ W))|apply (header_plain x X)|apply (header_plain b' (tabs_text _ B'))]. }
  destruct (bare_edges x XE) as (X1 & X2).
  assert (O : right_off (skip_lwsp (w ++ x ++ b')) = x).
  { rewrite lwsp_skip; [now apply off_right|exact W|]. destruct x; [easy|exact X1]. }
  destruct ((w ++ x ++ b' ++ e ++ t) ++ s) as [|c0 z] eqn:Z; [destruct w; [easy|discriminate Z]|]. cbn [more_lines].
  assert (C : Ascii.eqb c0 " " || Ascii.eqb c0 TAB = true).
  { destruct w as [|d w]; [easy|]. injection Z as -> _. inversion W as [|? ? [-> | ->] _]; reflexivity. }
  rewrite C, L, O, (off_right buf b BE BW). destruct x as [|x0 x]; [easy|]. rewrite <- (app_nil_r (buf ++ " "%char :: x0 :: x)).
  rewrite IH; [destruct c; do 2 f_equal; rewrite <- ?app_assoc; cbn [app]; now rewrite ?app_nil_r| | |constructor|exact NB].
  - rewrite !app_length in LE. destruct w; [easy|]. cbn [length] in LE. lia.
  - intros d r Q. destruct (exists_last XN) as (x' & d' & XD). rewrite XD in Q. change (" "%char :: x' ++ [d']) with ((" "%char :: x') ++ [d']) in Q. rewrite app_assoc in Q. apply app_inj_tail in Q as [_ <-]. now apply (X2 d' x').
Qed.
Lemma continued_text : forall c t, continued c t -> header_text c.
Proof. intros c t H. induction H as [|w x b e c t WN W XN X XE B' E H IH]; [constructor|]. constructor; [cbn; lia|]. apply Forall_app. split; assumption. Qed.
Lemma end_starts : forall e r, either_end e -> no_blank (e ++ r).
Proof. intros e r [->| ->]; split; discriminate. Qed.
Lemma key_starts : forall key s, token_word key -> no_blank (key ++ s).
Proof.
  intros key s T. destruct (token_header _ T) as (T1 & _ & _ & T4). destruct key as [|c key]; [discriminate T4|]. cbn [forallb] in T1. apply andb_true_iff in T1 as (T1 & _). split; intros ->; discriminate T1.
Qed.
Lemma header_starts : forall hs h e r, part_header hs h -> either_end e -> no_blank (h ++ e ++ r).
Proof. intros hs h e r H E. destruct H; [exact (end_starts e r E)|rewrite <- app_assoc; now apply key_starts|rewrite <- app_assoc; now apply key_starts]. Qed.
Lemma header_read : forall hs h, part_header hs h -> forall n e r, (length hs < n)%nat -> either_end e -> header_lines n (h ++ e ++ r) = Some (hs, r).
Proof.
  assert (ONE : forall n key k v line rest0 rest hs r s, token_word key -> in_lower key k -> header_text v -> text_line s = Some (line, rest0) -> line <> [] ->
    more_lines (length rest0) line rest0 = Some (key ++ ":"%char :: v, rest) -> header_lines n rest = Some (hs, r) -> header_lines (S n) s = Some ((k, v) :: hs, r)).
  { intros n key k v line rest0 rest hs r s T L V LO LN M IH. destruct (token_header _ T) as (T1 & T2 & T3 & T4). destruct (header_plain v V) as (V1 & _).
    cbn [header_lines]. rewrite LO. destruct line as [|c line]; [easy|]. rewrite M, cut_app by exact T2. rewrite T4, T1, V1. cbn [negb andb]. rewrite IH. now rewrite (lower_read _ _ L). }
  assert (NK : forall key v, token_word key -> header_text v -> ~ In LF (key ++ ":"%char :: v) /\ ~ In CR (key ++ ":"%char :: v)).
  { intros key v T V. destruct (token_header _ T) as (T1 & T2 & T3 & T4). destruct (header_plain v V) as (_ & V2 & V3).
    split; rewrite in_app_iff; intros [I|[I|I]]; try contradiction; try discriminate. rewrite forallb_forall in T1. specialize (T1 _ I). discriminate T1. }
  intros hs h H. induction H as [|key k v e0 hs s T L V E0 H IH|key k v b e0 c t hs s T L V VE BW E0 C CN H IH]; intros n e r LE E; (destruct n as [|n]; [cbn in LE; lia|]).
  - cbn [app header_lines]. assert (X := strip_end [] e r (fun I => I) (fun I => I) E). cbn [app] in X. now rewrite X.
  - destruct (NK key v T V) as (N1 & N2).
    replace ((key ++ ":"%char :: v ++ e0 ++ s) ++ e ++ r) with ((key ++ ":"%char :: v) ++ e0 ++ s ++ e ++ r) by (rewrite <- !app_assoc; cbn [app]; rewrite <- !app_assoc; reflexivity).
    apply (ONE n key k v (key ++ ":"%char :: v) (s ++ e ++ r) (s ++ e ++ r)); auto; [now apply strip_end|destruct key; discriminate|apply no_more_lines; now apply (header_starts hs)|apply IH; [cbn in LE; lia|exact E]].
  - assert (VB : header_text (v ++ b)) by (apply Forall_app; split; [exact V|now apply tabs_text]). destruct (NK key (v ++ b) T VB) as (N1 & N2).
    replace ((key ++ ":"%char :: v ++ b ++ e0 ++ t ++ s) ++ e ++ r) with ((key ++ ":"%char :: v ++ b) ++ e0 ++ t ++ s ++ e ++ r) by (rewrite <- !app_assoc; cbn [app]; rewrite <- !app_assoc; reflexivity).
    apply (ONE n key k (v ++ c) (key ++ ":"%char :: v ++ b) (t ++ s ++ e ++ r) (s ++ e ++ r)); auto.
    + apply Forall_app. split; [exact V|exact (continued_text _ _ C)].
    + now apply strip_end.
    + destruct key; discriminate.
    + replace (key ++ ":"%char :: v ++ b) with ((key ++ ":"%char :: v) ++ b) by (rewrite <- app_assoc; reflexivity).
      rewrite (more_read c t C); [destruct c; [easy|]; do 2 f_equal; now rewrite <- app_assoc|rewrite app_length; lia| |exact BW|now apply (header_starts hs)].
      intros d q Q. destruct v as [|v0 v] using rev_ind; [apply app_inj_tail in Q as [_ <-]; split; discriminate|]. change (":"%char :: v ++ [v0]) with ((":"%char :: v) ++ [v0]) in Q. rewrite app_assoc in Q. apply app_inj_tail in Q as [_ <-]. now apply (VE v0 v).
    + apply IH; [cbn in LE; lia|exact E].
Qed.
Lemma header_size : forall hs h, part_header hs h -> (length hs <= length h)%nat.
Proof.
  intros hs h H. induction H as [|key k v e hs s T L V E H IH|key k v b e c t hs s T L V VE BW E C CN H IH]; [cbn; lia| |]; rewrite app_length; cbn [length]; rewrite !app_length; lia.
Qed.
Lemma either_some : forall e, either_end e -> (1 <= length e)%nat.
Proof. intros e [->| ->]; cbn; lia. Qed.
Lemma get_first : forall k v hs, header_line k v hs -> get k hs = Some v.
Proof.
  intros k v hs (a & b & -> & N). induction a as [|[k' v'] a IH]; cbn [app get].
  - now rewrite (proj2 (bs_eqb_eq k k) eq_refl).
  - destruct (bs_eqb k k') eqn:E; [apply bs_eqb_eq in E; subst; elim N; now left|]. apply IH. intro I. apply N. now right.
Qed.
Lemma get_none : forall k (hs : list (bs * bs)), ~ In k (map fst hs) -> get k hs = None.
Proof.
  intros k hs. induction hs as [|[k' v'] hs IH]; intro N; cbn [get]; [reflexivity|]. destruct (bs_eqb k k') eqn:E; [apply bs_eqb_eq in E; subst; elim N; now left|].
  apply IH. intro I. apply N. now right.
Qed.
Lemma names_read : forall v ps d b1 b2, names v ps d -> tabs_and_spaces b1 -> tabs_and_spaces b2 -> no_edges d ->
  exists nm, form_name (b1 ++ d ++ b2) = Some nm /\ forall m, (match nm with [] => m | _ => vals_add nm v m end) = add_pairs ps m.
Proof.
  intros v ps d b1 b2 N W1 W2 NE. destruct (tabs_spaces _ W1) as (S1 & _). destruct (tabs_spaces _ W2) as (S2 & _).
  assert (DN : d <> []) by (destruct N as [d qs k C|d qs f C|d qs C|d mt qs C|d mt qs C]; apply (some_type _ _ _ C)).
  unfold form_name. rewrite trim_edges by assumption.
  destruct N as [d qs k C ND I KN NF|d qs f C ND I FN|d qs C ND NM|d mt qs C ND MT|d mt qs C AO].
  - destruct (proj1 (params_of_type _ _ _ C) ND) as (qs' & -> & ND' & Q). rewrite (proj2 (bs_eqb_eq _ _) eq_refl).
    assert (F : param_of (B "filename") qs' = []).
    { destruct (param_of (B "filename") qs') as [|c f] eqn:E; [reflexivity|]. rewrite <- (NF (c :: f)); [reflexivity|]. apply Q. unfold param_of in E.
      destruct (get (B "filename") qs') as [x|] eqn:G; [|discriminate]. subst x. clear -G. induction qs' as [|[k' v'] l IH]; cbn [get] in G; [discriminate|].
      destruct (bs_eqb (B "filename") k') eqn:E; [apply bs_eqb_eq in E; injection G as <-; subst; now left|right; auto]. }
    rewrite F, (proj1 (param_of_in (B "name") qs' ND') k) by now apply Q. exists k. split; [reflexivity|]. intro m. unfold add_pairs. cbn [fold_left fst snd]. now destruct k.
  - destruct (proj1 (params_of_type _ _ _ C) ND) as (qs' & -> & ND' & Q). rewrite (proj2 (bs_eqb_eq _ _) eq_refl).
    rewrite (proj1 (param_of_in (B "filename") qs' ND') f) by now apply Q. exists []. destruct f; [easy|]. split; reflexivity.
  - destruct (proj1 (params_of_type _ _ _ C) ND) as (qs' & -> & ND' & Q). rewrite (proj2 (bs_eqb_eq _ _) eq_refl).
    exists []. split; [|reflexivity]. destruct (param_of (B "filename") qs'); [|reflexivity]. f_equal.
    destruct (param_of (B "name") qs') as [|c f] eqn:E; [reflexivity|]. rewrite <- (NM (c :: f)); [reflexivity|]. apply Q. unfold param_of in E.
    destruct (get (B "name") qs') as [x|] eqn:G; [|discriminate]. subst x. clear -G. induction qs' as [|[k' v'] l IH]; cbn [get] in G; [discriminate|].
    destruct (bs_eqb (B "name") k') eqn:E; [apply bs_eqb_eq in E; injection G as <-; subst; now left|right; auto].
  - destruct (proj1 (params_of_type _ _ _ C) ND) as (qs' & -> & _). exists []. split; [|reflexivity].
    destruct (bs_eqb mt (B "form-data")) eqn:E; [apply bs_eqb_eq in E; contradiction|reflexivity].
  - rewrite (proj2 (params_of_type _ _ _ C) AO). exists []. split; reflexivity.
Qed.
Lemma get_line : forall k v (hs : list (bs * bs)), get k hs = Some v -> header_line k v hs.
Proof.
  intros k v hs. induction hs as [|[k' v'] hs IH]; cbn [get]; [discriminate|]. destruct (bs_eqb k k') eqn:E; intro H.
  - apply bs_eqb_eq in E. injection H as ->. subst k'. exists [], hs. split; [reflexivity|intros []].
  - destruct (IH H) as (a & b & -> & N). exists ((k', v') :: a), b. split; [reflexivity|]. intros [Q|Q]; [cbn in Q; subst k'; now rewrite (proj2 (bs_eqb_eq k k) eq_refl) in E|exact (N Q)].
Qed.
Lemma left_split : forall s, exists a, s = a ++ trim_space_left s /\ spaces a.
Proof.
  induction s as [|c s (a & E & S)]; [exists []; split; [reflexivity|constructor]|]. unfold trim_space_left in *. cbn [drop_while]. destruct (is_space c) eqn:C.
  - exists (c :: a). split; [cbn [app]; now f_equal|]. constructor; [now apply white_iff|exact S].
  - exists []. split; [reflexivity|constructor].
Qed.
Lemma trim_split : forall s, exists a b, s = a ++ trim s ++ b /\ spaces a /\ spaces b.
Proof.
  intro s. unfold trim. destruct (left_split s) as (a & E & S). destruct (left_split (rev (trim_space_left s))) as (b & E2 & S2). exists a, (rev b).
  split; [|split; [exact S|unfold spaces; apply Forall_rev; exact S2]]. rewrite <- rev_app_distr, <- E2, rev_involutive. exact E.
Qed.
Lemma tabs_of : forall a, spaces a -> header_text a -> tabs_and_spaces a.
Proof.
  intros a S H. unfold spaces, header_text, tabs_and_spaces in *. rewrite Forall_forall in *. intros c I. specialize (S c I). specialize (H c I). unfold white in S.
  destruct (Z.eq_dec (code c) 32) as [E|E]; [left|right; assert (Q : code c = 9) by lia; clear -Q; now apply code_inj]. now apply code_inj.
Qed.
Lemma not_encoded : forall hs, (forall k v, In (k, v) hs -> header_text v) -> unencoded hs -> encoded hs = Some false.
Proof.
  intros hs T U. unfold encoded, param_of. destruct (get (B "content-transfer-encoding") hs) as [w|] eqn:G; [|reflexivity]. apply get_line in G.
  cbv zeta. assert (F : lower (trim w) <> B "quoted-printable").
  2: { destruct (bs_eqb_spec (trim w) (B "quoted-printable")) as [E|_]; [elim F; now rewrite E|]. destruct (bs_eqb_spec (lower (trim w)) (B "quoted-printable")) as [E|_]; [contradiction|reflexivity]. }
  intro E.
  assert (H : header_text w) by (destruct G as (a & b & -> & _); apply (T (B "content-transfer-encoding")); apply in_app_iff; right; now left).
  destruct (trim_split w) as (a & b & W & S1 & S2). unfold header_text in H. rewrite W, !Forall_app in H. destruct H as (H1 & _ & H2). apply (U a (trim w) b).
  - now rewrite <- W.
  - now apply tabs_of.
  - now apply tabs_of.
  - rewrite <- E. generalize (trim w). intro s. induction s; constructor; [apply lower_ascii_lowered|assumption].
Qed.
Lemma no_encoding : forall hs, ~ In (B "content-transfer-encoding") (map fst hs) -> unencoded hs.
Proof. intros hs N b1 v b2 (a & b & -> & _). elim N. rewrite map_app. apply in_app_iff. right. now left. Qed.
Lemma header_values : forall hs h, part_header hs h -> forall k v, In (k, v) hs -> header_text v.
Proof.
  intros hs h H. induction H as [|key k v e hs s T L V E H IH|key k v b e c t hs s T L V VE BW E C CN H IH]; intros k' v' I; [destruct I| |]; (destruct I as [Q|I]; [injection Q as <- <-|exact (IH _ _ I)]); [exact V|].
  apply Forall_app. split; [exact V|exact (continued_text _ _ C)].
Qed.
Lemma printable_encoded : forall hs, in_printable hs -> encoded hs = Some true.
Proof.
  intros hs (b1 & b2 & HL & W1 & W2). unfold encoded, param_of. rewrite (get_first _ _ _ HL). rewrite trim_edges; [reflexivity|now apply tabs_spaces| |discriminate|now apply tabs_spaces].
  split; intros c r Q; [injection Q as <- _|change (B "quoted-printable") with (B "quoted-printabl" ++ ["e"%char]) in Q; apply app_inj_tail in Q as [_ <-]]; intro W; apply white_iff in W; discriminate W.
Qed.
Lemma spelt_read : forall e v, spells_printable e v -> qp_text e = Some v.
Proof.
  intros e v H. induction H as [|c e v N C H IH|h l hi lo b e v H1 H2 E H IH]; [reflexivity| |]; cbn [qp_text].
  - destruct (Ascii.eqb_spec c "="); [easy|]. replace (header_char c || (128 <=? code c)) with true by (unfold header_char; clear -C; lia). now rewrite IH.
  - cbn [Ascii.eqb Bool.eqb]. apply hexdigit_ishex in H1 as (A1 & A2 & A3), H2 as (B1 & B2 & B3). destruct (ishex_same h) as (X1 & X2), (ishex_same l) as (Y1 & Y2).
    rewrite X1, Y1, A1, B1. cbn [andb]. rewrite IH. cbn [option_map]. rewrite X2, Y2 by congruence. rewrite A2, B2. do 2 f_equal. apply code_inj. rewrite code_byte_of_small; lia.
Qed.
Lemma spelt_plain : forall e v, spells_printable e v -> ~ In CR e /\ ~ In LF e /\ forall c r, e = r ++ [c] -> c <> "="%char.
Proof.
  intros e v H. assert (HX : forall h hi, hexdigit h hi -> h <> CR /\ h <> LF /\ h <> "="%char) by (intros h hi X; apply hexdigit_ishex in X as (X & _); repeat split; intros ->; discriminate X).
  induction H as [|c e v N C H (A1 & A2 & A3)|h l hi lo b e v H1 H2 E H (A1 & A2 & A3)].
  - split; [intros []|]. split; [intros []|]. intros c [|d r] Q; discriminate Q.
  - split; [intros [I|I]; [subst c; cbn in C; lia|contradiction]|]. split; [intros [I|I]; [subst c; cbn in C; lia|contradiction]|].
    intros d [|x r] Q; [injection Q as -> _; exact N|]. injection Q as _ Q. exact (A3 d r Q).
  - apply HX in H1 as (X1 & X2 & X3), H2 as (Y1 & Y2 & Y3). split; [intros [I|[I|[I|I]]]; try discriminate; try congruence; contradiction|]. split; [intros [I|[I|[I|I]]]; try discriminate; try congruence; contradiction|].
    intros d [|x [|y [|z r]]] Q; try discriminate Q; [injection Q as _ _ -> _; exact Y3|]. injection Q as _ _ _ Q. exact (A3 d r Q).
Qed.
Lemma cut_end : forall a n s, ~ In LF a -> ~ In CR a -> either_end n -> exists l, cut LF (a ++ n ++ s) = (l, Some s) /\ strip_cr l = a /\ skipn (length a) l ++ [LF] = n.
Proof.
  intros a n s N1 N2 E. pose proof (strip_end a n s N1 N2 E) as X. unfold text_line in X. destruct (cut LF (a ++ n ++ s)) as [l [r|]] eqn:C; [|discriminate X]. injection X as X RS. subst r. exists l. split; [reflexivity|]. split; [exact X|]. clear X.
  destruct E as [->| ->].
  - change (a ++ [LF] ++ s) with (a ++ LF :: s) in C. rewrite cut_app in C by exact N1. apply (f_equal fst) in C. cbn [fst] in C. subst l. now rewrite skipn_all.
  - change (a ++ line_end ++ s) with (a ++ [CR] ++ LF :: s) in C. rewrite app_assoc, cut_app in C by (rewrite in_app_iff; intros [I|[I|[]]]; [contradiction|discriminate]). apply (f_equal fst) in C. cbn [fst] in C. subst l. now rewrite skipn_self.
Qed.
Lemma no_cut : forall s, ~ In LF s -> cut LF s = (s, None).
Proof. induction s as [|c s IH]; intro N; [reflexivity|]. cbn [cut]. destruct (Ascii.eqb_spec c LF) as [->|_]; [elim N; now left|]. rewrite IH; [reflexivity|]. intro I. apply N. now right. Qed.
Lemma lines_spelt : forall raw v, printable_lines raw v -> forall n, (length raw < n)%nat -> qp_lines n raw = Some v.
Proof.
  assert (PW : forall e w v, spells_printable e v -> tabs_and_spaces w -> ~ In LF (e ++ w) /\ ~ In CR (e ++ w)).
  { intros e w v S W. destruct (spelt_plain e v S) as (A1 & A2 & _). destruct (header_plain w (tabs_text _ W)) as (_ & B1 & B2). split; rewrite in_app_iff; intros [I|I]; contradiction. }
  intros raw v H. induction H as [e w v S W E|e w v n r u S W E EN H IH|e v n r u S EN H IH]; intros k LE; (destruct k as [|k]; [lia|]); cbn [qp_lines].
  - destruct (PW e w v S W) as (P1 & _). rewrite (no_cut _ P1), (off_right e w E W). exact (spelt_read e v S).
  - destruct (PW e w v S W) as (P1 & P2). destruct (cut_end (e ++ w) n r P1 P2 EN) as (l & C & SC & SK). rewrite app_assoc, C. cbv zeta. rewrite SC, SK, (off_right e w E W), (spelt_read e v S).
    rewrite IH by (rewrite !app_length in LE; pose proof (either_some n EN); lia). destruct (rev (e ++ w)) as [|c x] eqn:R.
    + apply (f_equal (@rev ascii)) in R. rewrite rev_involutive in R. apply app_eq_nil in R as [-> ->]. inversion S; subst. reflexivity.
    + assert (CE : c <> "="%char).
      { apply (f_equal (@rev ascii)) in R. rewrite rev_involutive in R. cbn [rev] in R. destruct w as [|d w _] using rev_ind.
        - rewrite app_nil_r in R. now apply (proj2 (proj2 (spelt_plain e v S)) c (rev x)).
        - rewrite app_assoc in R. apply app_inj_tail in R as [_ <-]. apply Forall_app in W as [_ W]. inversion W as [|? ? [-> | ->] _]; discriminate. }
      rewrite (proj2 (Ascii.eqb_neq c "=") CE). cbn [option_map]. now rewrite <- app_assoc.
  - destruct (spelt_plain e v S) as (A1 & A2 & _).
    assert (P1 : ~ In LF (e ++ ["="%char])) by (rewrite in_app_iff; intros [I|[I|[]]]; [contradiction|discriminate]).
    assert (P2 : ~ In CR (e ++ ["="%char])) by (rewrite in_app_iff; intros [I|[I|[]]]; [contradiction|discriminate]).
    destruct (cut_end (e ++ ["="%char]) n r P1 P2 EN) as (l & C & SC & SK). replace (e ++ "="%char :: n ++ r) with ((e ++ ["="%char]) ++ n ++ r) by (rewrite <- app_assoc; reflexivity). rewrite C. cbv zeta. rewrite SC, rev_app_distr. cbn [rev app].
    rewrite Ascii.eqb_refl, rev_involutive, (spelt_read e v S), IH; [reflexivity|]. rewrite app_length in LE. cbn [length] in LE. rewrite app_length in LE. lia.
Qed.
Lemma said_read : forall hs raw v, (forall k v, In (k, v) hs -> header_text v) -> part_says hs raw v -> exists q, encoded hs = Some q /\ forall r, part_decoded q (Some (raw, r)) = Some (v, r).
Proof.
  intros hs raw v T H. destruct H as [v U|raw v P L].
  - exists false. split; [now apply not_encoded|reflexivity].
  - exists true. split; [now apply printable_encoded|]. intro r. unfold part_decoded, quoted_printable. rewrite (lines_spelt raw v L); [reflexivity|lia].
Qed.
Lemma fields_read : forall v hs ps h e r q, part_header hs h -> either_end e -> encoded hs = Some q -> part_fields v hs ps ->
  exists d nm, disposition (h ++ e ++ r) = Some (d, q, r) /\ form_name d = Some nm /\ forall m, (match nm with [] => m | _ => vals_add nm v m end) = add_pairs ps m.
Proof.
  intros v hs ps h e r q H E EN P. unfold disposition. rewrite (header_read _ _ H) by (assumption || (rewrite !app_length; pose proof (header_size _ _ H); pose proof (either_some e E); lia)). rewrite EN.
  destruct P as [ps d (b1 & b2 & HL & W1 & W2 & NE) N|ND].
  - unfold param_of. rewrite (get_first _ _ _ HL). destruct (names_read _ _ _ _ _ N W1 W2 NE) as (nm & X1 & X2). exists (b1 ++ d ++ b2), nm. auto.
  - unfold param_of. rewrite (get_none _ _ ND). exists [], []. repeat split; reflexivity.
Qed.
Lemma part_read : forall ps s r, form_part bd ps s -> goes_on r ->
  exists d nm v r1 r2, disposition (s ++ dash ++ r) = Some (d, r1) /\ form_name (fst d) = Some nm /\ part_decoded (snd d) (value_of_part bd r1) = Some (v, r2) /\
    (forall m, (match nm with [] => m | _ => vals_add nm v m end) = add_pairs ps m) /\ (r2 = mark ++ r \/ r2 = dash ++ r).
Proof.
  intros ps s r H G. destruct H as [ps hs h e raw v H E SY P V1 V2|ps hs h e H E SY P]; destruct (said_read _ _ _ (header_values _ _ H) SY) as (q & EN & DE).
  - replace ((h ++ e ++ raw ++ line_end) ++ dash ++ r) with (h ++ e ++ raw ++ mark ++ r) by (unfold mark, dash; now rewrite <- !app_assoc).
    destruct (fields_read v hs ps h e (raw ++ mark ++ r) q H E EN P) as (d & nm & X1 & X2 & X3). exists (d, q), nm, v, (raw ++ mark ++ r), (mark ++ r). split; [exact X1|]. split; [exact X2|].
    split; [|split; [exact X3|now left]]. cbn [snd]. rewrite <- DE. f_equal. apply part_value; [|exact V2|exact G]. intros x Q. apply (V1 x). unfold dash in Q. now rewrite <- app_assoc in Q.
  - rewrite <- app_assoc. destruct (fields_read [] hs ps h e (dash ++ r) q H E EN P) as (d & nm & X1 & X2 & X3). exists (d, q), nm, [], (dash ++ r), (dash ++ r). split; [exact X1|]. split; [exact X2|].
    split; [cbn [snd]; rewrite <- DE; f_equal; now apply empty_value|]. split; [exact X3|now right].
Qed.
(** Where the reader then looks for the delimiter. *)
Lemma delimiter_next : forall r r2, r2 = mark ++ r \/ r2 = dash ++ r -> exists n expect, next_part (length r2) false false bd r2 = next_part (S n) false expect bd (B "--" ++ bd ++ r).
Proof.
  intros r r2 [->| ->].
  - unfold mark. rewrite <- !app_assoc. cbn [line_end app length]. eexists _, true. apply (next_line_end _ (B "--" ++ bd ++ r)).
  - unfold dash. rewrite <- !app_assoc. cbn [app B list_ascii_of_string length]. eexists _, false. reflexivity.
Qed.

(** ** The form *)
(** What becomes of the parts, [e] after the final delimiter. *)
Lemma parts_read : forall last ps s e res, form_parts bd last ps s ->
  (forall n expect w, tabs_and_spaces w -> next_part (S n) false expect bd (B "--" ++ bd ++ B "--" ++ w ++ last ++ e) = Some res) -> (res = NEnd \/ res = NErr) ->
  forall n first m s0, (length s < n)%nat -> next_part (length s0) first false bd s0 = Some (NPart (s ++ e)) ->
  read_parts n first bd s0 m = Some (match res with NErr => MpErr | _ => MpOk (add_pairs ps m) end).
Proof.
  intros last ps s e res H F R. induction H as [p s w P W|p s w ps r P W H IH]; intros n first m s0 LE NX.
  - destruct n as [|n]; [cbn in LE; lia|]. cbn [read_parts]. rewrite NX.
    replace ((s ++ B "--" ++ bd ++ B "--" ++ w ++ last) ++ e) with (s ++ dash ++ B "--" ++ w ++ last ++ e) by (unfold dash; now rewrite <- !app_assoc).
    destruct (part_read p s (B "--" ++ w ++ last ++ e) P) as (d & nm & v & r1 & r2 & -> & -> & -> & AP & R2); [right; right; right; right; reflexivity|].
    destruct n as [|n]; [exfalso; rewrite !app_length in LE; cbn [length B list_ascii_of_string] in LE; lia|]. cbn [read_parts].
    destruct (delimiter_next _ _ R2) as (j & x & ->). rewrite (F j x w W), AP. now destruct R as [-> | ->].
  - destruct n as [|n]; [cbn in LE; lia|]. cbn [read_parts]. rewrite NX.
    replace ((s ++ B "--" ++ bd ++ w ++ line_end ++ r) ++ e) with (s ++ dash ++ w ++ line_end ++ r ++ e) by (unfold dash; now rewrite <- !app_assoc).
    destruct (part_read p s (w ++ line_end ++ r ++ e) P) as (d & nm & v & r1 & r2 & -> & -> & -> & AP & R2).
    { unfold goes_on. destruct w as [|c w]; [left; reflexivity|]. inversion W as [|? ? [-> | ->] _]; subst; cbn; auto. }
    rewrite (IH n false (match nm with [] => m | _ => vals_add nm v m end)).
    + now rewrite AP, add_pairs_app.
    + rewrite !app_length in LE. cbn [length line_end] in LE. lia.
    + destruct (delimiter_next _ _ R2) as (j & x & ->). now apply next_delimiter.
Qed.
(** A delimiter that is none. *)
Lemma stops_read : forall tail s e, form_stops bd tail s -> broken tail e ->
  forall n first m s0, (length s < n)%nat -> next_part (length s0) first false bd s0 = Some (NPart (s ++ e)) -> read_parts n first bd s0 m = Some MpErr.
Proof.
  intros tail s e H (x & r' & E & NX & SX & BX). induction H as [p s P|p s w r P W H IH]; intros n first m s0 LE NXT.
  - destruct n as [|n]; [cbn in LE; lia|]. cbn [read_parts]. rewrite NXT.
    replace ((s ++ B "--" ++ bd ++ tail) ++ e) with (s ++ dash ++ x ++ LF :: r') by (rewrite <- E; unfold dash; now rewrite <- !app_assoc).
    destruct (part_read p s (x ++ LF :: r') P) as (d & nm & v & r1 & r2 & -> & -> & -> & AP & R2).
    { unfold goes_on. destruct SX as [->|[(c & y & -> & [->|[->| ->]])|(y & ->)]]; cbn; auto. }
    destruct n as [|n]; [exfalso; rewrite !app_length in LE; cbn [length B list_ascii_of_string] in LE; lia|]. cbn [read_parts].
    destruct (delimiter_next _ _ R2) as (j & ex & ->). now rewrite next_broken.
  - destruct n as [|n]; [cbn in LE; lia|]. cbn [read_parts]. rewrite NXT.
    replace ((s ++ B "--" ++ bd ++ w ++ line_end ++ r) ++ e) with (s ++ dash ++ w ++ line_end ++ r ++ e) by (unfold dash; now rewrite <- !app_assoc).
    destruct (part_read p s (w ++ line_end ++ r ++ e) P) as (d & nm & v & r1 & r2 & -> & -> & -> & AP & R2).
    { unfold goes_on. destruct w as [|c w]; [left; reflexivity|]. inversion W as [|? ? [-> | ->] _]; subst; cbn; auto. }
    apply IH.
    + rewrite !app_length in LE. cbn [length line_end] in LE. lia.
    + destruct (delimiter_next _ _ R2) as (j & ex & ->). now apply next_delimiter.
Qed.
Lemma preamble_read : forall pre s res, preamble bd pre -> (forall n, next_part (S n) true false bd s = Some res) -> forall n, (length pre < n)%nat -> next_part n true false bd (pre ++ s) = Some res.
Proof.
  intros pre s res H F. induction H as [|l pre NL0 ND H IH]; intros n LE.
  - destruct n; [lia|]. apply F.
  - destruct n as [|n]; [lia|]. cbn [next_part]. unfold read_line. rewrite <- app_assoc. cbn [app]. rewrite cut_app by exact NL0.
    assert (P : has_prefix dash (l ++ [LF]) = false).
    { destruct (has_prefix dash (l ++ [LF])) eqn:P; [|reflexivity]. apply has_prefix_iff in P as (z & P). elim (ND z). unfold dash in P. now rewrite <- app_assoc in P. }
    assert (P2 : has_prefix (B "--" ++ bd ++ B "--") (l ++ [LF]) = false).
    { destruct (has_prefix (B "--" ++ bd ++ B "--") (l ++ [LF])) eqn:Q; [|reflexivity]. apply has_prefix_iff in Q as (z & Q). elim (ND (B "--" ++ z)). now rewrite Q, <- !app_assoc. }
    unfold is_delimiter, bare_delimiter, is_final. fold dash. rewrite P, P2. cbn [andb]. apply IH. rewrite app_length in LE. cbn [length] in LE. lia.
Qed.
End Boundary.
(** A form whose final delimiter stands on a line of its own is read field by field; one with something else on that line
    is refused, so also one whose text stops right after the final delimiter, as the reader then sees the first line of
    the body again. *)
Lemma multipart_texts : forall bd ps body, good_boundary bd ->
  (forall pre rest, multipart_text bd pre (line_end ++ rest) ps body -> read_form bd (body ++ body) = Some (MpOk (add_pairs ps []))) /\
  (forall pre last, multipart_text bd pre last ps body -> spoilt last body -> read_form bd (body ++ body) = Some MpErr) /\
  (forall pre tail, stopped_text bd pre tail body -> broken tail body -> read_form bd (body ++ body) = Some MpErr).
Proof.
  intros bd ps body GB.
  assert (RF : forall s, read_form bd s = read_parts (length s) true bd s []) by (intro s; unfold read_form; destruct bd; [now destruct GB|reflexivity]).
  assert (ST : forall pre w r e, preamble bd pre -> tabs_and_spaces w ->
     next_part (length ((pre ++ B "--" ++ bd ++ w ++ line_end ++ r) ++ e)) true false bd ((pre ++ B "--" ++ bd ++ w ++ line_end ++ r) ++ e) = Some (NPart (r ++ e))).
  { intros pre w r e PA W. replace ((pre ++ B "--" ++ bd ++ w ++ line_end ++ r) ++ e) with (pre ++ B "--" ++ bd ++ w ++ line_end ++ r ++ e) by now rewrite <- !app_assoc.
    apply preamble_read; [exact PA|intro n; now apply next_delimiter|]. rewrite !app_length. cbn [length B list_ascii_of_string]. lia. }
  assert (LN : forall (pre w r e : bs), (length r < length ((pre ++ B "--" ++ bd ++ w ++ line_end ++ r) ++ e))%nat).
  { intros pre w r e. rewrite !app_length. cbn [length B list_ascii_of_string]. lia. }
  split; [|split].
  - intros pre rest (w & r & -> & PA & W & P). rewrite RF.
    apply (parts_read bd GB _ ps r (pre ++ B "--" ++ bd ++ w ++ line_end ++ r) NEnd P); [|now left|apply LN|now apply ST].
    intros n x w' W'. rewrite <- (app_assoc line_end). now apply next_final.
  - intros pre last (w & r & -> & PA & W & P) (x & r' & E & NX & BX & CX). rewrite RF.
    apply (parts_read bd GB _ ps r (pre ++ B "--" ++ bd ++ w ++ line_end ++ r) NErr P); [|now right|apply LN|now apply ST].
    intros n ex w' W'. rewrite E. now apply next_spoilt.
  - intros pre tail (w & r & -> & PA & W & P) BR. rewrite RF. apply (stops_read bd GB _ r _ P BR); [apply LN|now apply ST].
Qed.
Lemma unended_spoilt : forall bd ps body, good_boundary bd -> multipart_text bd [] [] ps body -> spoilt [] body.
Proof.
  intros bd ps body (_ & _ & NL0) (w & r & -> & _ & W & _). exists (B "--" ++ bd ++ w ++ [CR]), r. split; [cbn [app]; rewrite <- !app_assoc; reflexivity|]. split; [|split].
  - rewrite !in_app_iff. intros [I|[I|[I|I]]]; [cbn in I; intuition discriminate|exact (NL0 I)|apply (tabs_no _ _ W) in I; easy|cbn in I; intuition discriminate].
  - split; discriminate.
  - discriminate.
Qed.
Lemma add_pairs_gathers : forall ps, gathers ps (add_pairs ps []).
Proof.
  intro ps. assert (ND : NoDup (map fst (add_pairs ps []))) by (apply add_pairs_nodup; constructor). split; [exact ND|]. intros k vs.
  pose proof (add_pairs_assoc ps [] k) as A. cbn [assoc app] in A. assert (Q : values_of k ps <> [] <-> In k (map fst ps)).
  { clear. unfold values_of. split.
    - induction ps as [|[k' v] ps IH]; cbn [List.filter fst]; [easy|]. destruct (bs_eqb k k') eqn:E; [apply bs_eqb_eq in E; intros _; now left|intro N; right; now apply IH].
    - intro I. apply in_map_iff in I as ([k' v] & Q & I). cbn in Q. subst k'. intro N. apply map_eq_nil in N.
      assert (X : In (k, v) (List.filter (fun p => bs_eqb k (fst p)) ps)) by (apply filter_In; split; [exact I|]; apply bs_eqb_eq; reflexivity). rewrite N in X. destruct X. }
  split.
  - intro I. assert (K : In k (map fst ps)) by (apply add_pairs_names; apply in_map_iff; now exists (k, vs)).
    rewrite (in_assoc _ _ _ _ ND I) in A. split; [exact A|]. subst vs. now apply Q.
  - intros [-> N]. apply Q, add_pairs_names in N. apply in_map_iff in N as ([k' vs] & E & I). cbn in E. subst k'. rewrite (in_assoc _ _ _ _ ND I) in A. now rewrite <- A.
Qed.
(** What the library reads: the fields when the final delimiter stands on a line of its own, nothing when there is
    something else on that line, the text stops right after it, or there is something else on the line of another delimiter. *)
Theorem C90_multipart_texts : forall bd ps body, good_boundary bd ->
  (forall pre rest, multipart_text bd pre (line_end ++ rest) ps body -> exists m, read_form bd (body ++ body) = Some (MpOk m) /\ gathers ps m) /\
  (forall pre last, multipart_text bd pre last ps body -> spoilt last body -> read_form bd (body ++ body) = Some MpErr) /\
  (multipart_text bd [] [] ps body -> read_form bd (body ++ body) = Some MpErr) /\
  (forall pre tail, stopped_text bd pre tail body -> broken tail body -> read_form bd (body ++ body) = Some MpErr).
Proof.
  intros bd ps body GB. destruct (multipart_texts bd ps body GB) as (A1 & A2 & A3). split; [|split; [exact A2|split; [intro T; exact (A2 _ _ T (unended_spoilt _ _ _ GB T))|exact A3]]]. intros pre rest T. eexists. split; [exact (A1 pre rest T)|apply add_pairs_gathers].
Qed.

(** ** Phases whose rules never match *)
(** The request and its body, the abort and the result stayed. *)
Definition quietly (t u : txn) : Prop := sameQ t u /\ get_iv u = get_iv t.
Definition silent (O : oracles) (e : engine) (rs : ruleset) (K : txn -> Prop) (p : Z) : Prop :=
  forall r t t1, In r (phase_rules rs p) -> K t -> ~ all_match O e (r :: r_subs r) t t1 /\ (some_miss O e (r :: r_subs r) t t1 -> K t1).
Lemma silent_phase : forall f O e rs (K : txn -> Prop) p t t', 1 <= p <= 6 -> (forall x, K x -> t_abort x = false) -> (forall x y, quietly x y -> K x -> K y) ->
  silent O e rs K p -> K t -> process_phase f O e rs p t = Ret t' -> K t'.
Proof.
  intros f O e rs K p t t' P KA KQ SI KT H. destruct (Z_lt_le_dec (t_phase t) p) as [L|L]; [|apply phase_works in H as [[_ ->]|(X & _)]; [exact KT|clear -L X; lia]].
  destruct (phase_run _ _ _ _ _ _ _ P L (KA _ KT) H) as (l & VS). destruct (entered_at rs p t ltac:(lia)) as (NX & E & _).
  assert (NQ : forall x n y, next_rule rs x = (n, y) -> quietly x y).
  { intros x n y Q. unfold next_rule in Q. destruct (t_next x =? StatusEndOfRules); injection Q as _ <-; repeat split. }
  assert (KE : K (entered rs p t)) by (eapply KQ; [eapply NQ; exact NX|]; eapply KQ; [|exact KT]; repeat split).
  assert (R : forall d n x y, process_rule d O e rs p n x = Ret y -> K x -> K y).
  { clear -SI. intros d n x y H KX. apply process_rule_cases in H as [[_ ->]|[_ [(r & _ & N & M)|(l & r & t2 & _ & N & M & _)]]]; [exact KX| |].
    - apply nth_error_In in N. destruct (SI r x y N KX) as [_ Q]. now apply Q.
    - apply nth_error_In in N. destruct (SI r x t2 N KX) as [Q _]. now elim Q. }
  revert VS KE. generalize (entered rs p t) as u. clear -R KQ NQ. intros u VS KE. induction VS as [n t X|n t t1 Q N RR D|n t t1 m t2 l t' Q N RR D NX H IH].
  - exact KE.
  - eapply KQ; [|eapply R; eauto]. repeat split.
  - apply IH. eapply KQ; [eapply NQ; exact NX|]. eapply KQ; [|eapply R; eauto]. repeat split.
Qed.
Lemma silent_steps : forall f O e rs (K : txn -> Prop) os t t' bl, (forall x, K x -> t_abort x = false) -> (forall x y, quietly x y -> K x -> K y) ->
  (forall o p, In o os -> op_phase o = Some p -> silent O e rs K p) -> (forall o x, In o os -> K x -> K (given o x)) ->
  (forall o x y b, In o os -> op_phase o = None -> K x -> Engine.step f O e rs o x = Ret (y, b) -> K y) ->
  K t -> steps f O e rs os t = Ret (t', bl) -> K t'.
Proof.
  intros f O e rs K os. induction os as [|o os IH]; intros t t' bl KA KQ SI KG KN KT H.
  - apply Ret_inj in H. now injection H as <- _.
  - apply steps_cons in H as (t1 & b1 & bl' & S & H & _).
    eapply IH; [exact KA|exact KQ|intros x p I; apply SI; now right|intros x y I; apply KG; now right|intros x y z b I; apply KN; now right| |exact H].
    destruct (op_phase o) as [p|] eqn:P.
    + rewrite (step_phase _ _ _ _ _ _ p P) in S. apply bind_Ret in S as (t2 & S & Q). apply Ret_inj in Q. injection Q as -> _.
      eapply silent_phase; [exact (op_phase_range _ _ P)|exact KA|exact KQ|apply (SI o p (or_introl eq_refl) P)| |exact S]. apply KG; [now left|exact KT].
    + eapply KN; [now left|exact P|exact KT|exact S].
Qed.
Lemma calls_coll : forall O cs c ff v, apply_calls O cs (VColl c ff) = Some v -> exists gg, v = VColl c gg.
Proof.
  intros O cs. induction cs as [|x cs IH]; intros c ff v H; cbn [apply_calls] in H; [injection H as <-; eauto|].
  destruct x as [s|s]; cbn [apply_call var_include var_exclude] in H.
  - destruct (filter_include O s ff) as [gg|]; [|discriminate]. eapply IH; exact H.
  - destruct (filter_exclude O s ff) as [gg|]; [|discriminate]. eapply IH; exact H.
Qed.
Lemma form_vars : forall O d r, ord_valid O -> loaded_as O (form_written d) r -> forall v, In v (r_vars r) -> exists ff, v = VColl CArgsPost ff.
Proof.
  intros O d r OV (n & c & H) v I. destruct (C70_rule_as_written _ _ _ _ _ _ _ OV H) as (_ & _ & _ & _ & _ & _ & _ & _ & _ & (keys & ND & KM & F)).
  destruct (forall2_right _ _ _ _ _ _ F I) as ([tk ct] & K & s & K1 & K2). cbn [fst snd] in *.
  apply KM in K as (x & [<-|[]] & <- & <-). cbn [pv_tok pv_count] in *.
  rewrite <- var_means_iff in K1. cbn in K1. injection K1 as <-. eapply calls_coll; exact K2.
Qed.

(** ** Forms the reader refuses *)
Section Blind.
Variables (O : oracles) (e : engine) (ct mt bd body : bs).
Hypothesis (CN : ct <> []) (MT : media_type O ct = (B "multipart/" ++ mt, bd)).
Hypothesis (BAD : forall b, b_readed b = false -> b_file b = None -> b_mem b = body -> fst (multipart O b bd (e_reqmem e)) = MpErr).
(** The body is such a form and was not read, or was read in vain. *)
Definition blind (t : txn) : Prop :=
  header_get (B "Content-Type") (t_reqheader t) = ct /\ b_readed (t_reqbody t) = false /\ b_file (t_reqbody t) = None /\ b_mem (t_reqbody t) = body /\
  (t_cache_mp t = None \/ t_cache_mp t = Some (IForm None)) /\ t_abort t = false /\ i_disruptive (get_iv t) = false.
Lemma blind_quiet : forall t u, quietly t u -> blind t -> blind u.
Proof.
  intros t u ((A & Q & C) & D) (H1 & H2 & H3 & H4 & H5 & H6 & H7). unfold req_bodies in Q. injection Q as B1 B2 B3 B4. unfold request_part in A. injection A; intros.
  unfold blind. rewrite B1, B3, C, D. repeat split; auto. congruence.
Qed.
Lemma blind_fetch : forall ff t t1 out, blind t -> fetch O e (VColl CArgsPost ff) t = Ret (t1, out) -> out = [] /\ blind t1.
Proof.
  intros ff t t1 out BL H. cbn [fetch fetch_coll] in H. unfold fetch_post in H.
  destruct (parses_dec e t) as [P|P]; [|rewrite body_parse_skip in H by exact P; cbn [bind] in H; apply Ret_inj in H; injection H as <- <-; auto].
  rewrite body_parse_eq in H by exact P. pose proof BL as (H1 & H2 & H3 & H4 & H5 & H6 & H7). unfold ctype in H. rewrite H1 in H.
  replace (match ct with [] => B "application/octet-stream" | a :: l => a :: l end) with ct in H by (clear -CN; destruct ct; [easy|reflexivity]). rewrite MT in H. cbn [parse_types bt_ctype fst snd] in H.
  replace (has_prefix (B "application/x-www-form-urlencoded") (B "multipart/" ++ mt)) with false in H by reflexivity.
  replace (has_prefix (B "multipart/") (B "multipart/" ++ mt)) with true in H by reflexivity. cbn [negb cache_get] in H.
  destruct H5 as [H5|H5]; rewrite H5 in H; [|cbn [bind] in H; apply Ret_inj in H; injection H as <- <-; auto].
  cbn [run_parser] in H. pose proof (BAD _ H2 H3 H4) as Q. destruct (multipart O (t_reqbody t) bd (e_reqmem e)) as [mr off]. cbn [fst] in Q. subst mr.
  cbn [bind] in H. apply Ret_inj in H. injection H as <- <-. split; [reflexivity|]. unfold set_off. rewrite H3. repeat split; auto.
Qed.
Lemma blind_evals : forall r t t1 m, (forall v, In v (r_vars r) -> exists ff, v = VColl CArgsPost ff) -> blind t -> evals O e r t t1 m -> m = false /\ blind t1.
Proof.
  intros r t t1 m W BL H. unfold evals, match_rule in H. apply bind_Ret in H as ([t2 vs] & FA & H). apply bind_Ret in H as (m' & MV & H). apply Ret_inj in H. injection H as <- <-.
  assert (X : vs = [] /\ blind t2).
  { clear MV. revert t t2 vs BL FA W. generalize (r_vars r) as l. induction l as [|v l IH]; intros t t2 vs BL FA W; cbn [fetch_all] in FA; [apply Ret_inj in FA; injection FA as <- <-; auto|].
    apply bind_Ret in FA as ([t3 a] & TV & FA). apply bind_Ret in FA as ([t4 b] & FA & Q). apply Ret_inj in Q. injection Q as <- <-.
    unfold transform_variable in TV. apply bind_Ret in TV as ([t5 vals] & FE & TV). destruct (W v (or_introl eq_refl)) as (ff & ->).
    destruct (blind_fetch _ _ _ _ BL FE) as [-> BL5]. cbn in TV. apply Ret_inj in TV. injection TV as <- <-.
    destruct (IH _ _ _ BL5 FA) as [-> BL4]; [intros x I; apply W; now right|]. auto. }
  destruct X as [-> X]. cbn in MV. apply Ret_inj in MV. subst. auto.
Qed.
End Blind.

(** ** The filter of C90_form_filter on multipart forms *)
(** What a load of such a file and such a request have in common. *)
Lemma form_engine : forall O n lines text l fuel, file_text (form_directives lines) text -> new_direset fuel O n text = Ret (Some l) ->
  let e := execute l new_engine in e_reqaccess e = true /\ e_reqlimit e = 134217728 /\ e_reqmem e = 131072.
Proof.
  intros O n lines text l fuel FT LD e.
  destruct (proj1 (C62_texts O n text l) (ex_intro _ fuel LD)) as (ds' & items & F & L & A). pose proof (file_text_fun _ _ _ FT F). subst ds'.
  destruct (C62_nothing_lost _ _ _ _ _ L A) as (_ & N2 & _).
  destruct (C65_execute l new_engine) as (A1 & _ & _ & _ & _ & _ & L1 & L2 & _). fold e in A1, L1, L2. split; [|auto].
  rewrite A1, req_flags_filter, N2, <- req_flags_filter, (loaded_switches _ _ _ _ L). unfold body_switches, form_directives. cbn [flat_map app]. replace (flat_map _ _) with (@nil bool); [reflexivity|].
  clear. induction lines as [|x lines IH]; [reflexivity|]. cbn. exact IH.
Qed.
Definition brought ip port ip2 port2 u m p h (pieces : list bs) : list op :=
  [OpConnection ip port ip2 port2; OpRequestURL u m p; OpRequestHeader h] ++ map (fun x => OpAppendRequestBody x NoFault) pieces.
Section Brought.
Variables (ip port ip2 port2 : bs) (u : option url) (m p : bs) (h : vals) (pieces : list bs) (body : bs) (O : oracles) (e : engine).
Hypothesis (BE : body = concat pieces) (BN : body <> []) (BM : In m body_methods) (RA : e_reqaccess e = true) (L1 : e_reqlimit e = 134217728) (L2 : e_reqmem e = 131072) (LB : Z.of_nat (length body) <= 131072).
Let pre := brought ip port ip2 port2 u m p h pieces.
Lemma brought_writes : request_writes pre = map (fun x => BWrite x NoFault) pieces.
Proof. unfold pre, brought. rewrite request_writes_app, piece_writes. reflexivity. Qed.
Lemma brought_stream : stream (e_reqlimit e) (request_writes pre) = body.
Proof. rewrite brought_writes, L1. unfold stream. rewrite whole_stream; [now rewrite BE|]. cbn [app]. rewrite <- BE. clear -LB. lia. Qed.
Lemma brought_faultless : fault_free (request_writes pre).
Proof. rewrite brought_writes. intros x ft I. apply in_map_iff in I as (y & Y & _). now injection Y. Qed.
Lemma brought_feeding : Forall feeding pre.
Proof. apply Forall_app; split; [repeat constructor|]; apply Forall_map, Forall_forall; easy. Qed.
Lemma brought_ahead : ahead pre 3.
Proof.
  intros o q I Q. apply in_app_iff in I as [[<-|[<-|[<-|[]]]]|I]; try discriminate; try (injection Q as <-; reflexivity). apply in_map_iff in I as (x & <- & _). discriminate.
Qed.
Lemma brought_header : current request_header [] pre h.
Proof.
  left. exists [OpConnection ip port ip2 port2; OpRequestURL u m p]. eexists _, (map (fun x => OpAppendRequestBody x NoFault) pieces).
  split; [reflexivity|]. split; [reflexivity|]. intros o' I. apply in_map_iff in I as (x & <- & _). reflexivity.
Qed.
Lemma brought_multipart : forall ct mt bd, first_value (B "Content-Type") h ct -> ct <> [] -> media_type O ct = (B "multipart/" ++ mt, bd) -> multipart_body O e pre bd body.
Proof.
  intros ct mt bd FV CN MT. split; [exact RA|]. split; [exact BN|]. split.
  - exists u, m, p. split; [|exact BM]. left. exists [OpConnection ip port ip2 port2]. eexists _, (OpRequestHeader h :: map (fun x => OpAppendRequestBody x NoFault) pieces).
    split; [reflexivity|]. split; [reflexivity|]. intros o' [<-|I]; [reflexivity|]. apply in_map_iff in I as (x & <- & _). reflexivity.
  - exists h, ct, mt. split; [exact brought_header|auto].
Qed.
End Brought.
(** A multipart form the library reads is blocked exactly if one of its fields is refused by some line. *)
Lemma multipart_filter : forall O n lines text fuel l, ord_valid O -> Forall (good_form_line O) lines -> file_text (form_directives lines) text ->
  new_direset fuel O n text = Ret (Some l) ->
  let e := execute l new_engine in
  forall f ip port ip2 port2 u m p h ct mt bd pieces body ps later t bl,
    In m body_methods -> first_value (B "Content-Type") h ct -> ct <> [] -> media_type O ct = (B "multipart/" ++ mt, bd) ->
    body = concat pieces -> body <> [] -> Z.of_nat (length body) <= 131072 -> multipart_fields O e bd body (add_pairs ps []) -> Forall after_request later ->
    steps f O e (e_ruleset e) ((brought ip port ip2 port2 u m p h pieces ++ OpRequestBody :: later) ++ [OpResult]) (new_txn e) = Ret (t, bl) ->
    exists i bl', bl = bl' ++ [ObsResult i] /\ (i_disruptive i = true <-> Exists (form_line_matches O ps) lines).
Proof.
  intros O n lines text fuel l OV G FT LD e f ip port ip2 port2 u m p h ct mt bd pieces body ps later t bl BM FV CN MT BE BN LB MF LA H.
  destruct (form_engine O n lines text l fuel FT LD) as (RA & L1 & L2). fold e in RA, L1, L2.
  pose proof (brought_stream ip port ip2 port2 u m p h pieces body e BE L1 LB) as ST. pose proof (brought_faultless ip port ip2 port2 u m p h pieces) as FF.
  pose proof (brought_feeding ip port ip2 port2 u m p h pieces) as FEE. pose proof (brought_ahead ip port ip2 port2 u m p h pieces) as AH.
  pose proof (brought_multipart ip port ip2 port2 u m p h pieces body O e BN BM RA ct mt bd FV CN MT) as MB.
  set (pre := brought ip port ip2 port2 u m p h pieces) in *. clearbody pre.
  assert (LM : Z.of_nat (length body) <= e_reqmem e) by (rewrite L2; exact LB).
  assert (AR : Forall after_request (OpRequestBody :: later)) by (constructor; [exact I|exact LA]).
  destruct (C90_orderly_requests fuel O n text _ l OV FT LD (form_straight lines) (form_bodiless lines 1 ltac:(discriminate)) (form_bodiless lines 2 ltac:(discriminate))
     f pre (OpRequestBody :: later) t bl FF FEE AH (or_multipart _ _ _ _ _ _ (eq_sym ST) MB LM MF) AR H) as (i & bl' & E & X).
  exists i, bl'. split; [exact E|]. rewrite X. fold e.
  assert (M : 0 <= e_reqmem e) by (rewrite L2; discriminate).
  assert (PL : forall q, 1 <= q <= 6 -> plain_actions (e_ruleset e) q) by (intros q Q; eapply text_plain; eauto using form_straight).
  assert (GA : forall q, 1 <= q < 3 -> gate (e_ruleset e) q).
  { intros q Q. eapply text_gate; eauto using form_straight; [clear -Q; lia|apply form_bodiless; clear -Q; lia]. }
  assert (SHOW : forall a o b q s c, pre ++ OpRequestBody :: later = a ++ o :: b -> op_phase o = Some q -> 3 <= q -> steps f O e (e_ruleset e) a (new_txn e) = Ret (s, c) ->
     forall d, In d lines -> (written_matches O e (given o s) (form_written d) <-> form_line_matches O ps d)).
  { intros a o b q s c Q P LE S1 d I. rewrite Forall_forall in G.
    destruct (C87_multipart_shown _ _ _ _ _ _ _ _ _ _ _ _ _ _ _ OV M FF PL GA FEE AH AR (eq_sym ST) MB LM MF Q P LE S1) as (Y1 & _ & Y3).
    now apply form_written_matches; auto. }
  split.
  - intros (a & o & b & q & s & c & Q1 & Q2 & Q3 & Q4 & (w & cs & CI & PH & _ & FA)). apply form_chains in CI as (d & I & EQ). injection EQ as -> ->. cbn in PH. subst q.
    apply Exists_exists. exists d. split; [exact I|]. inversion FA as [|? ? W _]; subst. eapply SHOW; eauto. clear; lia.
  - intro EX. apply Exists_exists in EX as (d & I & W).
    assert (S1 : exists s c, steps f O e (e_ruleset e) pre (new_txn e) = Ret (s, c)) by (rewrite <- app_assoc in H; apply steps_app in H as (s & c & c2 & H & _); eauto).
    destruct S1 as (s & c & S1). exists pre, OpRequestBody, later, 3, s, c. split; [reflexivity|]. split; [reflexivity|]. split; [exact AH|]. split; [exact S1|].
    exists (form_written d), []. split; [apply form_chains; eauto|]. split; [reflexivity|]. split; [left; exists (PAction KDeny []); split; [now left|reflexivity]|].
    constructor; [|constructor]. eapply SHOW; eauto; [reflexivity|clear; lia].
Qed.
(** One the library refuses is let through whatever its fields. *)
Lemma multipart_refused : forall O n lines text fuel l, ord_valid O -> file_text (form_directives lines) text ->
  new_direset fuel O n text = Ret (Some l) ->
  let e := execute l new_engine in
  forall f ip port ip2 port2 u m p h ct mt bd pieces body later t bl,
    first_value (B "Content-Type") h ct -> ct <> [] -> media_type O ct = (B "multipart/" ++ mt, bd) ->
    body = concat pieces -> Z.of_nat (length body) <= 131072 ->
    (forall b, b_readed b = false -> b_file b = None -> b_mem b = body -> fst (multipart O b bd (e_reqmem e)) = MpErr) -> Forall after_request later ->
    steps f O e (e_ruleset e) ((brought ip port ip2 port2 u m p h pieces ++ OpRequestBody :: later) ++ [OpResult]) (new_txn e) = Ret (t, bl) ->
    exists i bl', bl = bl' ++ [ObsResult i] /\ i_disruptive i = false.
Proof.
  intros O n lines text fuel l OV FT LD e f ip port ip2 port2 u m p h ct mt bd pieces body later t bl FV CN MT BE LB BAD LA H.
  destruct (form_engine O n lines text l fuel FT LD) as (RA & L1 & L2). fold e in RA, L1, L2.
  pose proof (brought_stream ip port ip2 port2 u m p h pieces body e BE L1 LB) as ST. pose proof (brought_faultless ip port ip2 port2 u m p h pieces) as FF.
  pose proof (brought_feeding ip port ip2 port2 u m p h pieces) as FEE. pose proof (brought_ahead ip port ip2 port2 u m p h pieces) as AH.
  pose proof (brought_header ip port ip2 port2 u m p h pieces) as CH.
  set (pre := brought ip port ip2 port2 u m p h pieces) in *. clearbody pre.
  assert (M : 0 <= e_reqmem e) by (rewrite L2; discriminate).
  (* the rules of a phase *)
  assert (RU : forall q r, 1 <= q <= 6 -> In r (phase_rules (e_ruleset e) q) -> q = 3 /\ r_subs r = [] /\ forall v, In v (r_vars r) -> exists ff, v = VColl CArgsPost ff).
  { intros q r P I. apply (text_phase l) in I as [I R]; [|exact P]. destruct (text_chains fuel O n text _ l FT LD) as [T1 _]. destruct (T1 r I) as (c & CI & CA).
    pose proof (chain_members _ _ _ CA) as MM. pose proof CI as CI2. apply form_chains in CI2 as (d & _ & ->). split; [|split].
    - rewrite <- R, (chain_phase _ OV _ _ _ CA). reflexivity.
    - inversion MM as [|? ? ? ? _ Q]. inversion Q. reflexivity.
    - inversion MM as [|? ? ? ? Q _]; subst. exact (form_vars _ _ _ OV Q). }
  rewrite <- app_assoc in H. apply steps_app in H as (s & c & c2 & S1 & H & ->).
  apply steps_app in H as (s2 & c3 & c4 & S2 & H & ->). cbn [steps] in H. apply bind_Ret in H as ([s3 b3] & S3 & H). cbn [step] in S3. apply Ret_inj in S3. injection S3 as _ <-. cbn [bind] in H. apply Ret_inj in H. injection H as _ <-.
  exists (get_iv (touch_iv s2)), (c ++ c3). split; [now rewrite app_assoc|].
  (* before the body *)
  assert (U : unparsed s /\ i_disruptive (get_iv s) = false).
  { refine (silent_steps f O e (e_ruleset e) (fun x => unparsed x /\ i_disruptive (get_iv x) = false) pre (new_txn e) s c _ _ _ _ _ _ S1).
    - intros x [(_ & _ & _ & Q) _]. exact Q.
    - intros x y [Q1 Q2] [Q3 Q4]. rewrite Q2. split; [eapply unparsed_same; eauto|exact Q4].
    - intros o q I P r x x1 J _. destruct (RU q r (op_phase_range _ _ P) J) as (-> & _). specialize (AH o 3 I P). clear -AH. lia.
    - intros o x I Q. rewrite Forall_forall in FEE. specialize (FEE o I). now destruct o.
    - intros o x y b I P Q S. rewrite Forall_forall in FEE. specialize (FEE o I). destruct o; try discriminate P; try destruct FEE; cbn [Engine.step] in S.
      + apply Ret_inj in S. injection S as <- _. exact Q.
      + apply bind_Ret in S as ([[z k] er] & _ & S). apply Ret_inj in S. injection S as <- _. exact Q.
      + apply bind_Ret in S as ([[z k] er] & _ & S). apply Ret_inj in S. injection S as <- _. exact Q.
    - repeat split. }
  destruct U as [(U1 & U2 & U3 & U4) U5].
  pose proof (ev_between f O e (e_ruleset e) pre s c S1) as E. pose proof (evaluating_kept _ _ _ _ _ _ M FF E) as K. rewrite ST in K.
  pose proof (evaluating_holds _ _ _ _ _ _ E) as (_ & _ & RH & _).
  pose proof (current_fun _ _ _ _ _ _ CH RH). subst h.
  assert (BL : blind ct body s).
  { split; [eapply first_value_fun; [apply header_first|exact FV]|].
    assert (IM : b_readed (t_reqbody s) = false /\ b_mem (t_reqbody s) = body /\ b_file (t_reqbody s) = None).
    { destruct K as [[(K0 & _ & K1 & K2) _]|(_ & _ & K1 & _)]; [unfold consts in K0; injection K0; auto|]. clear -K1 LB L2. unfold zlen in K1. lia. }
    destruct IM as (I1 & I2 & I3). repeat split; auto. }
  (* from the body on *)
  assert (BL2 : blind ct body s2).
  { assert (AR : Forall after_request (OpRequestBody :: later)) by (constructor; [exact I|exact LA]). rewrite Forall_forall in AR.
    refine (silent_steps f O e (e_ruleset e) (blind ct body) (OpRequestBody :: later) s s2 c3 _ _ _ _ _ BL S2).
    - intros x Q. apply Q.
    - apply blind_quiet.
    - intros o q I P r x x1 J Q. destruct (RU q r (op_phase_range _ _ P) J) as (_ & -> & W). split.
      + intro A. inversion A as [|? ? ? ? ? E1 _]; subst. now apply (blind_evals _ _ _ _ _ _ CN MT BAD _ _ _ _ W Q) in E1 as [E1 _].
      + intro A. inversion A as [? ? ? ? E1|? ? ? ? ? E1 A2]; subst; [now apply (blind_evals _ _ _ _ _ _ CN MT BAD _ _ _ _ W Q) in E1 as [_ E1]|inversion A2].
    - intros o x I Q. specialize (AR o I). now destruct o.
    - intros o x y b I P Q S. specialize (AR o I). destruct o; try discriminate P; try destruct AR; cbn [Engine.step] in S.
      apply bind_Ret in S as ([[z k] er] & _ & S). apply Ret_inj in S. injection S as <- _. exact Q. }
  destruct BL2 as (_ & _ & _ & _ & _ & _ & D). exact D.
Qed.
(** By the text of the Content-Type header and of the body. *)
Theorem C90_multipart_by_content_type : forall O n lines text fuel, ord_valid O -> library O -> media_library O -> multipart_library O ->
  Forall (fun d => exact (fl_name d) /\ exists M, says (fl_pat d) M) lines -> file_text (form_directives lines) text -> (length text < fuel)%nat ->
  exists l, new_direset fuel O n text = Ret (Some l) /\
    let e := execute l new_engine in
    forall f ip port ip2 port2 u m p h mt qs ct bd pieces body ps later t bl,
      In m body_methods -> first_value (B "Content-Type") h ct -> content_type (B "multipart/" ++ mt) qs ct -> In (B "boundary", bd) qs -> good_boundary bd ->
      body = concat pieces -> (length body <= 2000)%nat -> Forall after_request later ->
      steps f O e (e_ruleset e) ((([OpConnection ip port ip2 port2; OpRequestURL u m p; OpRequestHeader h] ++ map (fun x => OpAppendRequestBody x NoFault) pieces) ++ OpRequestBody :: later) ++ [OpResult]) (new_txn e) = Ret (t, bl) ->
      exists i bl', bl = bl' ++ [ObsResult i] /\
        (forall pre rest, NoDup (map fst qs) -> multipart_text bd pre (line_end ++ rest) ps body -> (i_disruptive i = true <-> Exists (form_line_said O ps) lines)) /\
        (forall pre last, NoDup (map fst qs) -> multipart_text bd pre last ps body -> spoilt last body -> i_disruptive i = false) /\
        (NoDup (map fst qs) -> multipart_text bd [] [] ps body -> i_disruptive i = false) /\
        (forall pre tail, NoDup (map fst qs) -> stopped_text bd pre tail body -> broken tail body -> i_disruptive i = false) /\
        (at_odds qs -> i_disruptive i = false).
Proof.
  intros O n lines text fuel OV L ML MU W FT FU.
  assert (G : Forall (good_form_line O) lines) by (eapply Forall_impl; [|exact W]; intros d (A1 & A2); split; [exact A1|now apply said_ok]).
  destruct (C90_other_types_unread O n lines text fuel OV G FT FU) as (l & LD & Q').
  exists l. split; [exact LD|]. intros e f ip port ip2 port2 u m p h mt qs ct bd pieces body ps later t bl BM FV CT IB GB BE LB LA H.
  destruct (some_type _ _ _ CT) as (CN & MN). destruct (C20_media_types _ qs ct CT) as (T1 & T2).
  destruct (form_engine O n lines text l fuel FT LD) as (RA & L1 & L2). fold e in RA, L1, L2.
  assert (R : exists i bl', bl = bl' ++ [ObsResult i]).
  { apply steps_app in H as (s & c & c2 & _ & H & ->). cbn [steps] in H. apply bind_Ret in H as ([s2 b2] & S & H). cbn [step] in S. apply Ret_inj in S. injection S as _ <-. cbn [bind] in H. apply Ret_inj in H. injection H as _ <-. eauto. }
  destruct R as (i & bl' & ->). exists i, bl'. split; [reflexivity|].
  assert (ONE : forall j b2, bl' ++ [ObsResult i] = b2 ++ [ObsResult j] -> j = i) by (intros j b2 E; apply app_inj_tail in E as [_ E]; now injection E).
  assert (LZ : Z.of_nat (length body) <= 131072) by (clear -LB; lia).
  assert (MD : NoDup (map fst qs) -> media_type O ct = (B "multipart/" ++ mt, bd)).
  { intro ND. destruct (T1 ND) as (bd' & MD & X & _). rewrite (X bd IB) in MD. now apply ML in MD. }
  assert (RD : forall r, read_form bd (body ++ body) = Some r -> forall b, b_readed b = false -> b_file b = None -> b_mem b = body -> fst (multipart O b bd (e_reqmem e)) = r).
  { intros r RF b B1 B2 B3. assert (C : content b = body) by (unfold content; now rewrite B2). apply MU; [exact B1|rewrite C, L2; clear -LB; lia|now rewrite C|now rewrite C]. }
  destruct (multipart_texts bd ps body GB) as (A1 & A2 & A3).
  assert (RJ : NoDup (map fst qs) -> read_form bd (body ++ body) = Some MpErr -> i_disruptive i = false).
  { intros ND RE.
    destruct (multipart_refused O n lines text fuel l OV FT LD f ip port ip2 port2 u m p h ct mt bd pieces body later t (bl' ++ [ObsResult i]) FV CN (MD ND) BE LZ (RD _ RE) LA H) as (j & b2 & E & D).
    apply ONE in E. now subst j. }
  assert (SP : forall pre last, NoDup (map fst qs) -> multipart_text bd pre last ps body -> spoilt last body -> i_disruptive i = false) by (intros pre last ND MT SP; exact (RJ ND (A2 pre last MT SP))).
  split; [|split; [exact SP|split; [|split; [intros pre tail ND T BR; exact (RJ ND (A3 pre tail T BR))|]]]].
  - intros pre rest ND MT. assert (BN : body <> []) by (destruct MT as (w & r & -> & _); destruct pre; discriminate).
    destruct (multipart_filter O n lines text fuel l OV G FT LD f ip port ip2 port2 u m p h ct mt bd pieces body ps later t (bl' ++ [ObsResult i]) BM FV CN (MD ND) BE BN LZ (RD _ (A1 pre rest MT)) LA H) as (j & b2 & E & D).
    apply ONE in E. subst j. rewrite D, !Exists_exists. rewrite Forall_forall in W.
    split; intros (d & I & k & v & X1 & X2 & X3); exists d; (split; [exact I|]); exists k, v; (split; [exact X1|]); (split; [exact X2|]);
      destruct (W d I) as (_ & S); now apply (said_match O (fl_pat d) _ L S).
  - intros ND MT. exact (SP [] [] ND MT (unended_spoilt _ _ _ GB MT)).
  - intro AO. specialize (T2 AO). apply ML in T2.
    destruct (Q' f ip port ip2 port2 u m p h ct pieces later t (bl' ++ [ObsResult i]) FV CN) as (j & b2 & E & X); try assumption; try (rewrite T2; discriminate). apply ONE in E. subst j. exact X.
Qed.

(** The library's regular expressions, URLs, content types and multipart forms, and the rest as in Witness.v. *)
Definition multir (mp : mpres) : oracles :=
  Oracles (rx_ok (mimer mp)) (rx_match (mimer mp)) (media_type (mimer mp))
    (fun b bd m => (match read_form bd (content b ++ content b) with Some r => r | None => mp end, snd (multipart (mimer mp) b bd m)))
    (url_string (mimer mp)) (uni_lower (mimer mp)) (semi_sep (mimer mp)) (ord (mimer mp)).
Lemma multir_ok : forall mp, ord_valid (multir mp) /\ library (multir mp) /\ uri_library (multir mp) /\ media_library (multir mp) /\ multipart_library (multir mp).
Proof.
  intro mp. destruct (mimer_ok mp) as (A & L & U & M). split; [exact A|]. split; [exact L|]. split; [exact U|]. split; [exact M|].
  intros b bd m r _ _ _ E. cbn [multir multipart]. now rewrite E.
Qed.
(** A line before the form, a field, and another one whose disposition ends in [how]. *)
Definition multi_body (before how tail : bs) : bs :=
  before ++ B "--xyz" ++ line_end ++ B "Content-Type: text/plain" ++ line_end ++ B "content-disposition: form-data; name=a" ++ line_end ++ line_end ++ B "one" ++ line_end ++
  B "--xyz " ++ line_end ++ B "Content-Disposition:form-data; name=""user""" ++ how ++ line_end ++ line_end ++ B "Root" ++ line_end ++ B "--xyz--" ++ tail.
Example C90_multi_body_example : good_boundary (B "xyz") /\ preamble (B "xyz") (B "hello" ++ line_end) /\
  forall before last, preamble (B "xyz") before ->
    multipart_text (B "xyz") before last [(B "a", B "one"); (B "user", B "Root")] (multi_body before [] last) /\
    multipart_text (B "xyz") before last [(B "a", B "one")] (multi_body before (B ";filename=f") last).
Proof.
  assert (PL : forall s, forallb token_char s = true -> s <> [] -> token_word s).
  { intros s F N. split; [exact N|]. apply Forall_forall. intros c I. apply plain_iff. rewrite forallb_forall in F. auto. }
  assert (SP : forall s, forallb is_space s = true -> spaces s).
  { intros s F. apply Forall_forall. intros c I. apply white_iff. rewrite forallb_forall in F. auto. }
  assert (LO : forall s, in_lower s (lower s)) by (intro s; induction s; constructor; [apply lower_ascii_lowered|assumption]).
  assert (NS : forall s, existsb (Ascii.eqb "*") s = false -> ~ In "*"%char s).
  { intros s E I. assert (X : existsb (Ascii.eqb "*") s = true) by (apply existsb_exists; exists "*"%char; auto). congruence. }
  split; [split; [discriminate|]; split; cbn; intuition discriminate|].
  split; [apply (pa_line _ (B "hello" ++ [CR]) []); [cbn; intuition discriminate|intros r Q; discriminate Q|constructor]|].
  intros before last PA.
  assert (TX : forall s, forallb header_char s = true -> header_text s).
  { intros s F. apply Forall_forall. intros c I. rewrite forallb_forall in F. specialize (F c I). unfold header_char in F. clear -F. lia. }
  assert (NAME : forall q kw tl qs, token_word kw -> (q = kw \/ q = """"%char :: kw ++ [""""%char]) -> parameters qs tl -> content_type (B "form-data") ((B "name", kw) :: qs) (B "form-data; name=" ++ q ++ tl)).
  { intros q kw tl qs K3 K4 TL.
    exists [], (B "form-data"), [], (B "; name=" ++ q ++ tl). split; [reflexivity|]. split; [constructor|]. split; [left; now apply PL|]. split; [constructor|].
    split; [apply (LO (B "form-data"))|]. replace (B "; name=" ++ q ++ tl) with ((B "; name=" ++ q) ++ tl) by now rewrite <- app_assoc. apply pm_one; [|exact TL].
    exists [], (B " "), (B "name"), [], [], q. split; [reflexivity|]. split; [now apply SP|]. split; [now apply SP|]. split; [now apply SP|]. split; [now apply SP|].
    split; [now apply PL|]. split; [now apply NS|]. split; [apply (LO (B "name"))|]. destruct K4 as [K4|K4]; subst q; [left; split; [exact K3|reflexivity]|]. right. exists (kw ++ [""""%char]). split; [|reflexivity].
    destruct K3 as [_ K3]. clear -K3. induction K3 as [|c r C _ IH]; [constructor|]. cbn [app].
    apply qt_plain; try exact IH; try (apply plain_not; [exact C|cbn; tauto]); destruct C as [C _]; [lia| |]; intro; subst c; cbn in C; lia. }
  assert (NN : parameters [] []) by (constructor; constructor).
  assert (FN : parameters [(B "filename", B "f")] (B ";filename=f")).
  { change (B ";filename=f") with (B ";filename=f" ++ []). apply pm_one; [|exact NN].
    exists [], [], (B "filename"), [], [], (B "f"). split; [reflexivity|]. split; [now apply SP|]. split; [now apply SP|]. split; [now apply SP|]. split; [now apply SP|].
    split; [now apply PL|]. split; [now apply NS|]. split; [apply (LO (B "filename"))|]. left. split; [now apply PL|reflexivity]. }
  assert (EDGE : forall (d : bs) c, ~ white c -> no_edges (("f"%char :: d) ++ [c])).
  { intros d c C. split; [intros x r Q; injection Q as <- _; intro W; apply white_iff in W; discriminate W|]. intros x r Q. apply app_inj_tail in Q as [_ <-]. exact C. }
  assert (FIRST : form_part (B "xyz") [(B "a", B "one")] ((B "Content-Type" ++ ":"%char :: B " text/plain" ++ line_end ++ B "content-disposition" ++ ":"%char :: B " form-data; name=a" ++ line_end ++ []) ++ line_end ++ B "one" ++ line_end)).
  { apply (fp_text _ _ [(B "content-type", B " text/plain"); (B "content-disposition", B " form-data; name=a")] _ line_end _ (B "one")).
    - apply ph_line; [now apply PL|apply (LO (B "Content-Type"))|now apply TX|now right|]. apply ph_line; [now apply PL|apply (LO (B "content-disposition"))|now apply TX|now right|constructor].
    - now right.
    - apply py_itself, no_encoding. cbn; intuition discriminate.
    - apply (pf_disposed _ _ _ (B "form-data; name=a")).
      + exists (B " "), []. split; [|split; [repeat constructor|split; [constructor|]]].
        * exists [(B "content-type", B " text/plain")], []. split; [reflexivity|cbn; intuition discriminate].
        * apply (EDGE (B "orm-data; name=") "a"%char). intro W; apply white_iff in W; discriminate W.
      + apply (nm_field _ _ [(B "name", B "a")]); [apply (NAME (B "a") (B "a") [] []); [now apply PL|now left|exact NN]|repeat constructor; intros []|now left|discriminate|intros f [Q|[]]; discriminate Q].
    - intros r Q. discriminate Q.
    - intros (a & b & Q). assert (In CR (B "one")) by (rewrite Q; apply in_app_iff; right; now left). cbn in *; intuition discriminate. }
  assert (SECOND : forall d ps, names (B "Root") ps d -> no_edges d -> forallb header_char d = true ->
    form_part (B "xyz") ps ((B "Content-Disposition" ++ ":"%char :: d ++ line_end ++ []) ++ line_end ++ B "Root" ++ line_end)).
  { intros d ps N E F. apply (fp_text _ _ [(B "content-disposition", d)] _ line_end _ (B "Root")).
    - apply ph_line; [now apply PL|apply (LO (B "Content-Disposition"))|now apply TX|now right|constructor].
    - now right.
    - apply py_itself, no_encoding. cbn; intuition discriminate.
    - apply (pf_disposed _ _ _ d); [|exact N]. exists [], []. split; [|split; [constructor|split; [constructor|exact E]]].
      exists [], []. split; [cbn [app]; now rewrite app_nil_r|intros []].
    - intros r Q. discriminate Q.
    - intros (a & b & Q). assert (In CR (B "Root")) by (rewrite Q; apply in_app_iff; right; now left). cbn in *; intuition discriminate. }
  assert (ALL : forall how ps, form_part (B "xyz") ps ((B "Content-Disposition" ++ ":"%char :: (B "form-data; name=" ++ B """user""" ++ how) ++ line_end ++ []) ++ line_end ++ B "Root" ++ line_end) ->
    multipart_text (B "xyz") before last ((B "a", B "one") :: ps) (multi_body before how last)).
  { intros how ps P. eexists [], _. split; [unfold multi_body; reflexivity|]. split; [exact PA|]. split; [constructor|].
    pose proof (fps_more _ last _ _ (B " ") _ _ FIRST ltac:(repeat constructor) (fps_last (B "xyz") last _ _ [] P ltac:(constructor))) as Q.
    rewrite <- !app_assoc in Q. cbn [app B list_ascii_of_string line_end] in Q |- *. rewrite <- !app_assoc in Q. exact Q. }
  split.
  - apply (ALL []). apply SECOND; [|apply (EDGE (B "orm-data; name=""user") """"%char); intro W; apply white_iff in W; discriminate W|reflexivity].
    apply (nm_field _ _ [(B "name", B "user")]); [apply (NAME (B """user""") (B "user") [] []); [now apply PL|now right|exact NN]|repeat constructor; intros []|now left|discriminate|intros f [Q|[]]; discriminate Q].
  - apply (ALL (B ";filename=f")). apply SECOND; [|apply (EDGE (B "orm-data; name=""user"";filename=") "f"%char); intro W; apply white_iff in W; discriminate W|reflexivity].
    apply (nm_file _ _ [(B "name", B "user"); (B "filename", B "f")] (B "f")); [apply (NAME (B """user""") (B "user") (B ";filename=f") [(B "filename", B "f")]); [now apply PL|now right|exact FN]| |right; now left|discriminate].
    constructor; [cbn; intuition discriminate|constructor; [intros []|constructor]].
Qed.
(** One and the same form, refused when its last line is ended and let through when it is not, and when the field is
    sent as a file. *)
Example C90_spoilt_example : forall body, spoilt [LF] body /\ spoilt (B "x" ++ line_end) body /\ ~ spoilt line_end body.
Proof.
  intro body. split; [|split].
  - exists [], body. split; [reflexivity|]. split; [intros []|]. split; [exact I|discriminate].
  - exists (B "x" ++ [CR]), body. split; [reflexivity|]. split; [cbn; intuition discriminate|]. split; [split; discriminate|discriminate].
  - intros (x & r & E & NX & _ & CX). destruct x as [|c x]; [discriminate E|]. injection E as <- E. destruct x as [|d x]; [now apply CX|]. injection E as <- _. apply NX. right. now left.
Qed.
Example C90_multipart_example : let O := multir MpErr in
  let lines := [FormLine (B "user") [KLowercase] (B "^root") 1] in
  let text := B "SecRequestBodyAccess On" ++ [LF] ++ B "SecRule ARGS_POST:user ""@rx ^root"" ""id:1,phase:3,t:lowercase,deny""" in
  let calls body := [OpConnection [] [] [] []; OpRequestURL (Some (demo_url "/" "")) (B "POST") (B "HTTP/1.1"); OpRequestHeader [(B "Content-Type", [B "multipart/form-data;boundary=xyz"])];
                   OpAppendRequestBody body NoFault; OpRequestBody; OpResult] in
  Forall (fun d => exact (fl_name d) /\ exists M, says (fl_pat d) M) lines /\ file_text (form_directives lines) text /\
  exists l, new_direset 500 O 0 text = Ret (Some l) /\ let e := execute l new_engine in
    let answer body x := exists t bl i, steps 5 O e (e_ruleset e) (calls body) (new_txn e) = Ret (t, bl ++ [ObsResult i]) /\ i_disruptive i = x in
    answer (multi_body [] [] line_end) true /\ answer (multi_body (B "hello" ++ line_end) [] line_end) true /\
    answer (multi_body [] [] []) false /\ answer (multi_body [] [] [LF]) false /\ answer (multi_body (B "hello" ++ line_end) [] (B " x" ++ line_end)) false /\ answer (multi_body [] (B ";filename=f") line_end) false.
Proof.
  cbv zeta. split; [|split].
  - constructor; [|constructor]. split; [intros p Q; discriminate Q|]. eexists; apply (say_starts (B "root")); now apply plain_by.
  - apply parse_text_iff. exists 500%nat. vm_compute. reflexivity.
  - eexists. split; [vm_compute; reflexivity|]. repeat split; eexists _, [_; _; _; _; _], _; (split; [vm_compute; reflexivity|reflexivity]).
Qed.
(** A part, and a delimiter that ends with LF alone, has a word behind it, or is followed by the body read again. *)
Example C90_stopped_example : let body tail := B "--xyz" ++ line_end ++ line_end ++ B "one" ++ line_end ++ B "--xyz" ++ tail in
  (forall tail, stopped_text (B "xyz") [] tail (body tail)) /\ (forall s, broken [LF] s) /\ (forall s, broken (B " x" ++ line_end) s) /\ broken (B "-") (body (B "-")) /\
  (forall s, ~ broken (B "  " ++ line_end) s) /\ (forall s, ~ broken (B "--" ++ line_end) s) /\
  read_form (B "xyz") (body (LF :: B "x") ++ body (LF :: B "x")) = Some MpErr.
Proof.
  cbv zeta. split; [|split; [|split; [|split; [|split; [|split]]]]].
  - intro tail. exists [], (line_end ++ B "one" ++ line_end ++ B "--xyz" ++ tail). split; [reflexivity|]. split; [constructor|]. split; [constructor|].
    apply (fst_here (B "xyz") tail [] (line_end ++ B "one" ++ line_end)). apply (fp_text (B "xyz") [] [] [] line_end (B "one") (B "one")); [constructor|now right|apply py_itself, no_encoding; intros []|apply pf_none; intros []|intros r Q; discriminate Q|].
    intros (a & b & E). assert (I : In CR (B "one")) by (rewrite E; apply in_app_iff; right; now left). cbn in I. intuition discriminate.
  - intro s. exists [], s. split; [reflexivity|]. split; [intros []|]. split; [now left|]. intros w _. split; [destruct w; discriminate|discriminate].
  - intro s. exists (B " x" ++ [CR]), s. split; [reflexivity|]. split; [cbn; intuition discriminate|]. split; [right; left; eexists _, _; split; [reflexivity|auto]|].
    intros w W. split; [|discriminate]. intro E. apply app_inj_tail in E as [E _]. subst w. inversion W as [|? ? _ W']. inversion W' as [|? ? [Q|Q] _]; discriminate Q.
  - eexists (B "---xyz" ++ [CR]), _. split; [reflexivity|]. split; [cbn; intuition discriminate|]. split; [right; right; eexists; reflexivity|]. intros w W. split; intro E.
    + apply app_inj_tail in E as [E _]. subst w. inversion W as [|? ? [Q|Q] _]; discriminate Q.
    + rewrite app_assoc in E. apply app_inj_tail in E as [E _]. destruct w as [|c w]; [discriminate E|]. injection E as <- _. inversion W as [|? ? [Q|Q] _]; discriminate Q.
  - intros s (x & r & E & NX & _ & N). destruct (N (B "  ")) as [N1 _]; [repeat (constructor; [now left|]); constructor|]. apply N1. destruct x as [|a x]; [discriminate E|]. injection E as <- E. destruct x as [|a x]; [discriminate E|]. injection E as <- E.
    destruct x as [|a x]; [discriminate E|]. injection E as <- E. destruct x as [|a x]; [reflexivity|]. injection E as <- E. elim NX. cbn. auto.
  - intros s (x & r & E & NX & _ & N). destruct (N []) as [_ N2]; [constructor|]. apply N2. destruct x as [|a x]; [discriminate E|]. injection E as <- E. destruct x as [|a x]; [discriminate E|]. injection E as <- E.
    destruct x as [|a x]; [discriminate E|]. injection E as <- E. destruct x as [|a x]; [reflexivity|]. injection E as <- E. elim NX. cbn. auto.
  - vm_compute. reflexivity.
Qed.
(** Every value can be sent in quoted-printable, on one line of printable bytes: nothing of it need be seen in the text. *)
Theorem C90_every_value_printable : forall hs v, in_printable hs ->
  exists raw, part_says hs raw v /\ quoted_printable raw = Some v /\ length raw = (3 * length v)%nat /\ Forall (fun c => c = "="%char \/ exists x, hexdigit c x) raw.
Proof.
  intros hs v IP.
  assert (HX : forall z, 0 <= z < 16 -> exists h, hexdigit h z) by (intros z Z; exists (hex_digit z); split; [lia|right; now apply hex_up]).
  assert (K : exists raw, spells_printable raw v /\ length raw = (3 * length v)%nat /\ Forall (fun c => c = "="%char \/ exists x, hexdigit c x) raw).
  { induction v as [|c v (raw & S & L & F)]; [exists []; repeat constructor|]. pose proof (code_range c) as R.
    destruct (HX (code c / 16)) as (h & H1); [split; [apply Z.div_pos; lia|apply Z.div_lt_upper_bound; lia]|]. destruct (HX (code c mod 16)) as (l & H2); [apply Z.mod_pos_bound; lia|].
    exists ("="%char :: h :: l :: raw). split; [|split; [cbn [length]; lia|repeat (constructor; [eauto|]); exact F]].
    apply (sq_hex h l (code c / 16) (code c mod 16)); [exact H1|exact H2|apply Z.div_mod; lia|exact S]. }
  destruct K as (raw & S & L & F).
  assert (P : printable_lines raw v).
  { rewrite <- (app_nil_r raw). apply pl_last; [exact S|constructor|]. intros c r E. rewrite E in F. apply Forall_app in F as [_ F]. inversion F as [|? ? [-> |(x & X)] _]; [split; discriminate|].
    apply hexdigit_ishex in X as (X & _). split; intros ->; discriminate X. }
  exists raw. split; [now apply py_printable|]. split; [unfold quoted_printable; apply lines_spelt; [exact P|lia]|auto].
Qed.
(** A part that names another encoding is read as it is, one in quoted-printable decoded. *)
Example C90_encoding_example : unencoded [(B "content-transfer-encoding", B " 8bit"); (B "content-transfer-encoding", B "quoted-printable")] /\
  ~ unencoded [(B "content-transfer-encoding", B " Quoted-Printable")] /\
  let body how := B "--xyz" ++ line_end ++ B "Content-Transfer-Encoding: " ++ how ++ line_end ++ B "Content-Disposition: form-data; name=a" ++ line_end ++ line_end ++ B "on=65" ++ line_end ++ B "--xyz--" ++ line_end in
  read_form (B "xyz") (body (B "base64") ++ body (B "base64")) = Some (MpOk [(B "a", [B "on=65"])]) /\
  read_form (B "xyz") (body (B "quoted-printable") ++ body (B "quoted-printable")) = Some (MpOk [(B "a", [B "one"])]) /\
  (forall hs, in_printable ((B "content-transfer-encoding", B "quoted-printable ") :: hs) /\ part_says ((B "content-transfer-encoding", B "quoted-printable ") :: hs) (B "on=65 ") (B "one")) /\
  printable_lines (B "o=" ++ line_end ++ B "ne " ++ [LF]) (B "one" ++ [LF]) /\ quoted_printable (B "o=" ++ line_end ++ B "ne " ++ [LF]) = Some (B "one" ++ [LF]).
Proof.
  assert (IP : forall hs, in_printable ((B "content-transfer-encoding", B "quoted-printable ") :: hs)).
  { intro hs. exists [], (B " "). split; [exists [], hs; split; [reflexivity|intros []]|]. split; [constructor|repeat constructor]. }
  split; [|split; [|split; [vm_compute; reflexivity|split; [vm_compute; reflexivity|split; [|split; [|vm_compute; reflexivity]]]]]].
  - intros b1 v b2 (a & b & E & N) W1 W2 L. destruct a as [|p a]; [|injection E as <- _; elim N; now left]. injection E as E _.
    assert (LE : length v = 16%nat) by (change 16%nat with (length (B "quoted-printable")); clear -L; induction L; cbn [length]; congruence). apply (f_equal (@length ascii)) in E. rewrite !app_length, LE in E. cbn in E. lia.
  - intro U. apply (U (B " ") (B "Quoted-Printable") []).
    + exists [], []. split; [reflexivity|intros []].
    + repeat constructor.
    + constructor.
    + assert (LO : forall s, in_lower s (lower s)) by (intro s; induction s; constructor; [apply lower_ascii_lowered|assumption]). apply (LO (B "Quoted-Printable")).
  - intro hs. split; [apply IP|]. apply py_printable; [apply IP|]. apply (pl_last (B "on=65") (B " ")); [|repeat constructor|].
    + do 2 (apply sq_same; [discriminate|cbn; lia|]). apply (sq_hex "6" "5" 6 5); [split; [lia|left; reflexivity]|split; [lia|left; reflexivity]|reflexivity|constructor].
    + intros c r Q. change (B "on=65") with (B "on=6" ++ ["5"%char]) in Q. apply app_inj_tail in Q as [_ <-]. split; discriminate.
  - assert (SS : forall s, forallb (fun c => header_char c && negb (Ascii.eqb c "=")) s = true -> spells_printable s s).
    { induction s as [|c s IH]; intro F; [constructor|]. cbn [forallb] in F. apply andb_true_iff in F as (F & F2). apply andb_true_iff in F as (F0 & F1). apply sq_same; [intros ->; discriminate F1|unfold header_char in F0; clear -F0; lia|exact (IH F2)]. }
    apply (pl_goes_on (B "o") (B "o") line_end (B "ne " ++ [LF]) (B "ne" ++ [LF])); [now apply SS|now right|].
    apply (pl_line (B "ne") (B " ") (B "ne") [LF] [] []); [now apply SS|repeat constructor| |now left|].
    + intros c r Q. change (B "ne") with (B "n" ++ ["e"%char]) in Q. apply app_inj_tail in Q as [_ <-]. split; discriminate.
    + apply (pl_last [] [] []); [constructor|constructor|]. intros c [|d r] Q; discriminate Q.
Qed.
(** A field written with = and digits is seen by the rules as what it stands for, if the part says so. *)
Example C90_printable_example : let O := multir MpErr in
  let text := B "SecRequestBodyAccess On" ++ [LF] ++ B "SecRule ARGS_POST:user ""@rx ^root"" ""id:1,phase:3,t:lowercase,deny""" in
  let body how := B "--xyz" ++ line_end ++ B "Content-Transfer-Encoding: " ++ how ++ line_end ++ B "Content-Disposition: form-data; name=user" ++ line_end ++ line_end ++ B "=52o=6ft" ++ line_end ++ B "--xyz--" ++ line_end in
  let calls how := [OpConnection [] [] [] []; OpRequestURL (Some (demo_url "/" "")) (B "POST") (B "HTTP/1.1"); OpRequestHeader [(B "Content-Type", [B "multipart/form-data;boundary=xyz"])];
                   OpAppendRequestBody (body how) NoFault; OpRequestBody; OpResult] in
  exists l, new_direset 500 O 0 text = Ret (Some l) /\ let e := execute l new_engine in
    let answer how x := exists t bl i, steps 5 O e (e_ruleset e) (calls how) (new_txn e) = Ret (t, bl ++ [ObsResult i]) /\ i_disruptive i = x in
    answer (B "quoted-printable") true /\ answer (B "8bit") false.
Proof.
  cbv zeta. eexists. split; [vm_compute; reflexivity|]. split; eexists _, [_; _; _; _; _], _; (split; [vm_compute; reflexivity|reflexivity]).
Qed.
(** A disposition over two lines, one of which ends with LF alone, and the rule that sees the field. *)
Example C90_folded_example : let O := multir MpErr in
  let text := B "SecRequestBodyAccess On" ++ [LF] ++ B "SecRule ARGS_POST:user ""@rx ^root"" ""id:1,phase:3,t:lowercase,deny""" in
  let header := B "Content-Disposition: form-data;  " ++ line_end ++ TAB :: B " name=user " ++ [LF] in
  let body := B "--xyz" ++ line_end ++ header ++ line_end ++ B "root" ++ line_end ++ B "--xyz--" ++ line_end in
  let calls := [OpConnection [] [] [] []; OpRequestURL (Some (demo_url "/" "")) (B "POST") (B "HTTP/1.1"); OpRequestHeader [(B "Content-Type", [B "multipart/form-data;boundary=xyz"])];
                   OpAppendRequestBody body NoFault; OpRequestBody; OpResult] in
  part_header [(B "content-disposition", B " form-data; name=user")] header /\ read_form (B "xyz") (body ++ body) = Some (MpOk [(B "user", [B "root"])]) /\
  exists l, new_direset 500 O 0 text = Ret (Some l) /\ let e := execute l new_engine in
    exists t bl i, steps 5 O e (e_ruleset e) calls (new_txn e) = Ret (t, bl ++ [ObsResult i]) /\ i_disruptive i = true.
Proof.
  cbv zeta. split; [|split; [vm_compute; reflexivity|]].
  - assert (LO : forall s, in_lower s (lower s)) by (intro s; induction s; constructor; [apply lower_ascii_lowered|assumption]).
    assert (TX : forall s, forallb header_char s = true -> header_text s).
    { intros s F. apply Forall_forall. intros c I. rewrite forallb_forall in F. specialize (F c I). unfold header_char in F. clear -F. lia. }
    apply (ph_more (B "Content-Disposition") (B "content-disposition") (B " form-data;") (B "  ") line_end (" "%char :: B "name=user" ++ []) (B "	 " ++ B "name=user" ++ B " " ++ [LF] ++ []) [] []).
    + split; [discriminate|]. apply Forall_forall. intros c I. apply plain_iff. revert c I. apply (proj1 (forallb_forall _ (B "Content-Disposition"))). reflexivity.
    + apply (LO (B "Content-Disposition")).
    + now apply TX.
    + intros d r Q. change (B " form-data;") with (B " form-data" ++ [";"%char]) in Q. apply app_inj_tail in Q as [_ <-]. split; discriminate.
    + repeat constructor.
    + now right.
    + apply ct_line; [discriminate|constructor; [now right|repeat constructor]|discriminate|now apply TX| |repeat constructor|now left|constructor].
      split; intros c r Q; [injection Q as <- _|change (B "name=user") with (B "name=use" ++ ["r"%char]) in Q; apply app_inj_tail in Q as [_ <-]]; intro W; apply white_iff in W; discriminate W.
    + discriminate.
    + constructor.
  - eexists. split; [vm_compute; reflexivity|]. eexists _, [_; _; _; _; _], _. split; [vm_compute; reflexivity|reflexivity].
Qed.
Print Assumptions C90_every_value_printable.
Print Assumptions C90_multipart_texts.
Print Assumptions C90_multipart_by_content_type.
