(** Directives and files: the parser accepts exactly the texts of the grammar,
    and runs forever on exactly the stuck texts. *)
From Verif Require Import Base BaseFacts GoStrings Buffer Types Variables SpecText NumFacts SpecVars VarText Scanner SpecParse ParseFacts ParseLists.
From Coq Require Import ZifyBool.

(** ** Letters *)
Lemma lower_ascii_lowered : forall c, lowered c (lower_ascii c).
Proof.
  intro c. unfold lowered, upper, lower_ascii, in_range. change (code "A") with 65. change (code "Z") with 90.
  pose proof (code_range c) as R. destruct ((65 <=? code c) && (code c <=? 90)) eqn:E.
  - left. split; [lia|]. now rewrite code_byte_of_small by lia.
  - right. split; [lia|reflexivity].
Qed.
Lemma lowered_ascii : forall c d, lowered c d -> d = lower_ascii c.
Proof.
  intros c d H. pose proof (lower_ascii_lowered c) as K. destruct H as [[U E]|[U ->]], K as [[U' E']|[U' E']]; try contradiction.
  - apply code_inj. congruence.
  - congruence.
Qed.
Lemma same_letters_iff : forall a b, same_letters a b <-> map lower_ascii a = map lower_ascii b.
Proof.
  unfold same_letters. induction a as [|x a IH]; intros [|y b]; split; intro H; try discriminate; try constructor; try (now inversion H).
  - inversion H as [|? ? ? ? (z & L1 & L2) F]; subst. apply lowered_ascii in L1, L2. simpl. f_equal; [congruence|]. now apply IH.
  - exists (lower_ascii x). split; [apply lower_ascii_lowered|]. injection H as H _. rewrite H. apply lower_ascii_lowered.
  - apply IH. now injection H.
Qed.
Lemma lower_letter : forall x y, lower_ascii x = lower_ascii y -> letter y -> letter x.
Proof.
  assert (K : forall c, isAlphabet (lower_ascii c) = isAlphabet c).
  { intro c. apply eqb_prop. revert c. apply (for_all_bytes (fun c => eqb (isAlphabet (lower_ascii c)) (isAlphabet c))). vm_compute. reflexivity. }
  intros x y E L. apply letter_iff. rewrite <- K, E, K. now apply letter_iff.
Qed.
Lemma same_letters_letters : forall a b, same_letters a b -> Forall letter b -> Forall letter a.
Proof.
  intros a b H. induction H as [|x y a b (z & L1 & L2) H IH]; intro F; constructor; inversion F as [|? ? F1 F2]; subst; [|auto].
  apply (lower_letter x y); [|exact F1]. apply lowered_ascii in L1, L2. congruence.
Qed.
Lemma dir_name_letters : forall d, Forall letter (dir_name d).
Proof. intros []; unfold dir_name, B; simpl; repeat (apply Forall_cons; [apply letter_iff; reflexivity|]); apply Forall_nil. Qed.
Lemma dir_from_string_iff : forall w d, dir_from_string w = Some d <-> same_letters w (dir_name d).
Proof.
  intros w d. rewrite same_letters_iff. unfold dir_from_string.
  apply (table_iff _ (fun d => map lower_ascii (dir_name d))); [repeat constructor|intros []; reflexivity].
Qed.
Lemma value_iff : forall s v, fold_eqb s (value_text v) = true <-> same_letters s (value_text v).
Proof. intros s v. rewrite same_letters_iff. unfold fold_eqb. destruct (bs_eqb_spec (map lower_ascii s) (map lower_ascii (value_text v))); split; congruence. Qed.
Lemma same_letters_fun : forall s v v', same_letters s (value_text v) -> same_letters s (value_text v') -> v = v'.
Proof. intros s v v' H1 H2. apply same_letters_iff in H1, H2. rewrite H1 in H2. destruct v, v'; try reflexivity; discriminate. Qed.
Lemma parse_value_iff : forall tks s v, parse_value tks s = ROk v <-> In v tks /\ same_letters s (value_text v).
Proof.
  intros tks s v. unfold parse_value. destruct (find (fun tk => fold_eqb s (value_text tk)) tks) as [x|] eqn:E.
  - apply find_some in E as [I E]. apply value_iff in E. split.
    + intro H. injection H as <-. auto.
    + intros [_ H]. f_equal. now apply (same_letters_fun s).
  - split; [discriminate|]. intros [I H]. apply (find_none _ _ E) in I. apply value_iff in H. congruence.
Qed.

(** ** Words *)
Lemma word_loop_spec : forall inp buf, exists w k, inp = w ++ k /\ Forall letter w /\ ~ starts_with letter k /\ word_loop inp buf = (k, buf ++ w).
Proof.
  induction inp as [|c r IH]; intro buf; simpl.
  - exists [], []. rewrite (app_nil_r buf). repeat split; [constructor|]. intros (c & r & X & _). discriminate.
  - destruct (isAlphabet c) eqn:E.
    + destruct (IH (buf ++ [c])) as (w & k & -> & F & N & ->). exists (c :: w), k. rewrite <- app_assoc. repeat split; auto.
      constructor; [now apply letter_iff|exact F].
    + exists [], (c :: r). rewrite (app_nil_r buf). repeat split; [constructor|]. intros (d & r' & X & L). injection X as <- <-.
      apply letter_iff in L. congruence.
Qed.
Lemma word_loop_app : forall w k buf, Forall letter w -> ~ starts_with letter k -> word_loop (w ++ k) buf = (k, buf ++ w).
Proof.
  induction w as [|c w IH]; intros k buf F N; simpl.
  - rewrite app_nil_r. destruct k as [|d r]; [reflexivity|]. simpl. destruct (isAlphabet d) eqn:E; [|reflexivity].
    elim N. exists d, r. split; [reflexivity|]. now apply letter_iff.
  - inversion F as [|? ? F1 F2]; subst. rewrite (proj2 (letter_iff c) F1), IH by assumption. now rewrite <- app_assoc.
Qed.
Lemma keyword_letters : forall d k w, keyword d k w -> Forall letter w /\ ~ starts_with letter k.
Proof. intros d k w [H N]. split; [|exact N]. apply (same_letters_letters _ _ H), dir_name_letters. Qed.
Lemma read_keyword : forall d k w line, keyword d k w -> read_word (Scanner false (w ++ k) [] line) = (Scanner false k [] line, w).
Proof. intros d k w line H. destruct (keyword_letters _ _ _ H) as [F N]. unfold read_word. cbn [s_bos s_inp s_buf s_line]. now rewrite word_loop_app. Qed.
Lemma keyword_starts : forall d k w, keyword d k w -> exists c r, w = c :: r /\ letter c.
Proof.
  intros d k w H. destruct (keyword_letters _ _ _ H) as [F _]. destruct H as [H _]. destruct w as [|c r].
  - destruct d; inversion H.
  - inversion F; subst. eauto.
Qed.

(** ** Arguments once more: every text is read or blocks *)
Lemma skip_reads : forall k g line, after_gap k -> gap k g -> forall buf, exists line', forall f, (length (g ++ k) < f)%nat ->
  skip_blank f (Scanner false (g ++ k) buf line) = Ret (Scanner false k buf line').
Proof.
  intros k g line A G buf. destruct (skip_gap k g A G (S (length (g ++ k))) buf line ltac:(lia)) as (l & E). exists l.
  intros f F. now apply (skip_mono _ f _ _ E).
Qed.
Lemma string_cases : forall inp line,
  (exists g k, inp = g ++ k /\ gap k g /\ stray k /\ forall f, read_string f (Scanner false inp [] line) = Timeout) \/
  exists sc r, forall f, (length inp < f)%nat -> read_string f (Scanner false inp [] line) = Ret (sc, r).
Proof.
  intros inp line. destruct (gap_cases inp) as (g & k & -> & G & [A|A]).
  - right. destruct (skip_reads k g line A G []) as (l & K).
    assert (X : exists p, read_rest (Scanner false k [] l) = Ret p).
    { unfold read_rest. cbn [s_inp]. destruct k as [|c r]; [eauto|]. destruct (isNewLine c); [eauto|].
      destruct (Ascii.eqb c DQ); [eauto|]. destruct (Ascii.eqb c SQ); eauto. }
    destruct X as ([sc r] & X). exists sc, r. intros f F. rewrite read_string_rest, (K f F). exact X.
  - left. exists g, k. split; [reflexivity|]. split; [exact G|]. split; [exact A|]. intro f. rewrite read_string_rest.
    now rewrite (skip_stray k g A G).
Qed.
(** Reading an argument and parsing its value. *)
Definition read_with {A} (parse : bs -> out (res A)) (f : nat) (s : scanner) : out (scanner * res A) :=
  '(s1, r) <- read_string f s ;;
  match r with RErr e => Ret (s1, RErr e) | ROk x => v <- parse x ;; Ret (s1, v) end.
Lemma read_with_ok : forall A (parse : bs -> out (res A)) k s e v, argument k s e -> parse s = Ret (ROk v) ->
  forall f line, (length (e ++ k) < f)%nat -> exists line', read_with parse f (Scanner false (e ++ k) [] line) = Ret (Scanner false k [] line', ROk v).
Proof.
  intros A parse k s e v H P f line F. destruct (read_argument k s e H f line F) as (l & E). exists l. unfold read_with. rewrite E. cbn [bind].
  now rewrite P.
Qed.
Lemma read_with_inv : forall A (parse : bs -> out (res A)) f inp line sc v, read_with parse f (Scanner false inp [] line) = Ret (sc, ROk v) ->
  exists s e k line', inp = e ++ k /\ argument k s e /\ parse s = Ret (ROk v) /\ sc = Scanner false k [] line'.
Proof.
  intros A parse f inp line sc v H. unfold read_with in H. apply bind_Ret in H as ([s1 r] & H1 & H2). destruct r as [x|e]; [|discriminate].
  apply read_argument_inv in H1 as (e & k & l & -> & H1 & ->). apply bind_Ret in H2 as (y & H2 & H3). apply Ret_eq in H3. injection H3 as <- ->.
  exists x, e, k, l. auto.
Qed.
Lemma read_with_cases : forall A (parse : bs -> out (res A)), (forall s, exists r, parse s = Ret r) -> forall inp line,
  (exists g k, inp = g ++ k /\ gap k g /\ stray k /\ forall f, read_with parse f (Scanner false inp [] line) = Timeout) \/
  (exists sc e0, forall f, (length inp < f)%nat -> read_with parse f (Scanner false inp [] line) = Ret (sc, RErr e0)) \/
  exists s e k v line', inp = e ++ k /\ argument k s e /\ parse s = Ret (ROk v) /\
    forall f, (length inp < f)%nat -> read_with parse f (Scanner false inp [] line) = Ret (Scanner false k [] line', ROk v).
Proof.
  intros A parse P inp line. destruct (string_cases inp line) as [(g & k & E & G & S1 & T)|(sc & r & K)].
  - left. exists g, k. split; [exact E|]. split; [exact G|]. split; [exact S1|]. intro f. unfold read_with. now rewrite T.
  - right. destruct r as [x|e0].
    + destruct (P x) as ([v|e0] & PX).
      * right. destruct (read_argument_inv (S (length inp)) inp line sc x (K _ (Nat.lt_succ_diag_r _))) as (e & k & l & -> & H & ->).
        exists x, e, k, v, l. split; [reflexivity|]. split; [exact H|]. split; [exact PX|]. intros f F. unfold read_with. rewrite (K f F). cbn [bind].
        now rewrite PX.
      * left. exists sc, e0. intros f F. unfold read_with. rewrite (K f F). cbn [bind]. now rewrite PX.
    + left. exists sc, e0. intros f F. unfold read_with. now rewrite (K f F).
Qed.
Lemma read_with_mono : forall A (parse : bs -> out (res A)) f s sc r, read_with parse f s = Ret (sc, r) -> forall f', (f <= f')%nat ->
  read_with parse f' s = Ret (sc, r).
Proof.
  intros A parse f s sc r H f' L. unfold read_with in *. apply bind_Ret in H as ([s1 x] & H1 & H2). unfold read_string in *.
  apply bind_Ret in H1 as (s0 & H0 & H1). rewrite (skip_mono _ f' _ _ H0 L). cbn [bind]. rewrite H1. exact H2.
Qed.
Lemma skip_no_panic : forall f s, skip_blank f s <> Panic.
Proof.
  induction f as [|f IH]; intro s; [discriminate|]. simpl. destruct (s_bos s); [apply IH|]. destruct (s_inp s) as [|c t]; [discriminate|].
  destruct (isBlank c); [apply IH|]. destruct (Ascii.eqb c BSL); [|discriminate].
  destruct t as [|n t]; [apply IH|]. destruct (Ascii.eqb n LF); apply IH.
Qed.
Lemma read_with_no_panic : forall A (parse : bs -> out (res A)) f s, (forall s, exists r, parse s = Ret r) -> read_with parse f s <> Panic.
Proof.
  intros A parse f s P H. unfold read_with in H. rewrite read_string_rest in H. pose proof (skip_no_panic f s) as N.
  destruct (skip_blank f s) as [s1| |]; [|easy|discriminate]. cbn [bind] in H. unfold read_rest in H.
  assert (X : forall (p : scanner * res bs), ('(s1, r) <- Ret p ;; match r with RErr e => Ret (s1, RErr e) | ROk x => v <- parse x ;; Ret (s1, v) end) <> Panic).
  { intros [s2 [x|e]]; [|discriminate]. cbn [bind]. destruct (P x) as (r & ->). discriminate. }
  destruct (s_inp s1) as [|c t]; [now apply X in H|]. destruct (isNewLine c); [now apply X in H|].
  destruct (Ascii.eqb c DQ); [now apply X in H|]. destruct (Ascii.eqb c SQ); now apply X in H.
Qed.
Definition p_ops (s : bs) : out (res poper) := Ret (parse_operator s).
Definition p_acts (s : bs) : out (res pactions) := Ret (parse_actions s).
Definition p_val (tks : list vktok) (s : bs) : out (res vktok) := Ret (parse_value tks s).
Lemma read_rule_with : forall f s, read_rule f s =
  ('(s1, vs) <- read_with parse_variables f s ;;
   match vs with RErr e => Ret (s1, RErr e) | ROk vs =>
     '(s2, o) <- read_with p_ops f s1 ;;
     match o with RErr e => Ret (s2, RErr e) | ROk o =>
       '(s3, a) <- read_with p_acts f s2 ;;
       match a with RErr e => Ret (s3, RErr e) | ROk a => Ret (s3, ROk (DRule vs o a)) end end end).
Proof.
  reflexivity.
Qed.

Lemma read_value_with : forall f tks s, read_value f tks s = read_with (p_val tks) f s.
Proof. reflexivity. Qed.
Lemma p_ops_returns : forall s, exists r, p_ops s = Ret r.
Proof. intro s. unfold p_ops. eauto. Qed.
Lemma p_acts_returns : forall s, exists r, p_acts s = Ret r.
Proof. intro s. unfold p_acts. eauto. Qed.
Lemma p_val_returns : forall tks s, exists r, p_val tks s = Ret r.
Proof. intros tks s. unfold p_val. eauto. Qed.

(** ** Directives *)
Lemma app_len2 : forall (a b : bs) f, (length (a ++ b) < f)%nat -> (length b < f)%nat.
Proof. intros a b f H. rewrite app_length in H. lia. Qed.
Lemma flag_iff : forall s v, parse_value [KOn; KOff] s = ROk v <-> flag_value s (match v with KOn => true | _ => false end) /\ v <> KElse.
Proof.
  intros s v. rewrite parse_value_iff. unfold flag_value. simpl. destruct v; intuition (try discriminate; try congruence; auto).
Qed.
Definition mode_of (v : vktok) : Z := match v with KOn => TriBoolTrue | KElse => TriBoolElse | KOff => TriBoolFalse end.
Lemma mode_iff : forall s z, mode_value s z <-> exists v, z = mode_of v /\ parse_value [KOn; KOff; KElse] s = ROk v.
Proof.
  intros s z. split.
  - intros [[-> H]|[[-> H]|[-> H]]]; [exists KOn|exists KOff|exists KElse]; (split; [reflexivity|]); apply parse_value_iff; simpl; auto.
  - intros (v & -> & H). apply parse_value_iff in H as [_ H]. unfold mode_value. destruct v; simpl; auto.
Qed.
Lemma read_body_ok : forall k d e, directive_text k d e -> forall f line, (length (e ++ k) < f)%nat ->
  exists line', read_directive_body f (Scanner false (e ++ k) [] line) = Ret (Scanner false k [] line', ROk d).
Proof.
  intros k d e H f line F. unfold read_directive_body.
  destruct H as [w vs o a s1 s2 s3 e1 e2 e3 K A1 A2 A3 V P Q|w v s e K A V|w b s e K A V|w b s e K A V];
    rewrite <- ?app_assoc in *; pose proof (app_len2 _ _ _ F) as F1; rewrite (read_keyword _ _ _ _ K); destruct K as [K _];
    apply dir_from_string_iff in K; rewrite K.
  - rewrite read_rule_with. apply parse_variables_iff in V. apply parse_operator_iff in P. apply parse_actions_iff in Q.
    assert (P' : p_ops s2 = Ret (ROk o)) by (unfold p_ops; now rewrite P). assert (Q' : p_acts s3 = Ret (ROk a)) by (unfold p_acts; now rewrite Q).
    destruct (read_with_ok _ _ _ _ _ _ A1 V f line F1) as (l1 & ->). cbn [bind]. apply app_len2 in F1.
    destruct (read_with_ok _ _ _ _ _ _ A2 P' f l1 F1) as (l2 & ->). cbn [bind]. apply app_len2 in F1.
    destruct (read_with_ok _ _ _ _ _ _ A3 Q' f l2 F1) as (l3 & ->). cbn [bind]. now exists l3.
  - unfold read_tribool. rewrite read_value_with. apply mode_iff in V as (x & -> & V).
    assert (V' : p_val [KOn; KOff; KElse] s = Ret (ROk x)) by (unfold p_val; now rewrite V).
    destruct (read_with_ok _ _ _ _ _ _ A V' f line F1) as (l1 & ->). cbn [bind]. exists l1. reflexivity.
  - unfold read_bool. rewrite read_value_with.
    assert (V' : p_val [KOn; KOff] s = Ret (ROk (if b then KOn else KOff))).
    { unfold p_val. f_equal. apply flag_iff. destruct b; split; auto; discriminate. }
    destruct (read_with_ok _ _ _ _ _ _ A V' f line F1) as (l1 & ->). cbn [bind]. exists l1. now destruct b.
  - unfold read_bool. rewrite read_value_with.
    assert (V' : p_val [KOn; KOff] s = Ret (ROk (if b then KOn else KOff))).
    { unfold p_val. f_equal. apply flag_iff. destruct b; split; auto; discriminate. }
    destruct (read_with_ok _ _ _ _ _ _ A V' f line F1) as (l1 & ->). cbn [bind]. exists l1. now destruct b.
Qed.
(** What happens on any text, given fuel for all of it. *)
Inductive outcome (stuckP : Prop) (run : nat -> out (scanner * res directive)) (inp : bs) : Prop :=
| oc_stuck : stuckP -> (forall f, run f = Timeout) -> outcome stuckP run inp
| oc_err : forall sc e, (forall f, (length inp < f)%nat -> run f = Ret (sc, RErr e)) -> outcome stuckP run inp
| oc_ok : forall d e k line', inp = e ++ k -> directive_text k d e ->
    (forall f, (length inp < f)%nat -> run f = Ret (Scanner false k [] line', ROk d)) -> outcome stuckP run inp.
Lemma value_outcome : forall tks (mk : vktok -> directive) w inp line dt,
  keyword dt inp w ->
  (forall k s e v, argument k s e -> inp = e ++ k -> parse_value tks s = ROk v -> directive_text k (mk v) (w ++ e)) ->
  outcome (stuck (w ++ inp)) (fun f => '(s1, v) <- read_with (p_val tks) f (Scanner false inp [] line) ;;
             match v with RErr e => Ret (s1, RErr e) | ROk v => Ret (s1, ROk (mk v)) end) (w ++ inp).
Proof.
  intros tks mk w inp line dt K H. destruct (read_with_cases _ _ (p_val_returns tks) inp line) as [(g & k & -> & G & ST & T)|[(sc & e0 & E)|(s & e & k & v & l & -> & A & P & E)]].
  - apply oc_stuck; [now apply (sk_first dt)|]. intro f. now rewrite T.
  - apply (oc_err _ _ _ sc e0). intros f F. rewrite (E f (app_len2 _ _ _ F)). reflexivity.
  - apply (oc_ok _ _ _ (mk v) (w ++ e) k l); [now rewrite app_assoc| |].
    + apply (H k s e v A eq_refl). unfold p_val in P. now apply Ret_eq in P.
    + intros f F. rewrite (E f (app_len2 _ _ _ F)). reflexivity.
Qed.
Lemma body_outcome : forall inp line,
  outcome (stuck inp) (fun f => read_directive_body f (Scanner false inp [] line)) inp.
Proof.
  intros inp line. unfold read_directive_body, read_word. cbn [s_bos s_inp s_buf s_line].
  destruct (word_loop_spec inp []) as (w & k0 & -> & FW & NK & ->). cbn [app].
  destruct (dir_from_string w) as [dt|] eqn:ED; [|apply (oc_err _ _ _ (Scanner false k0 [] line) EOther); reflexivity].
  apply dir_from_string_iff in ED. assert (K : keyword dt k0 w) by (split; assumption). destruct dt.
  - destruct (read_with_cases _ _ parse_variables_returns k0 line) as [(g & k & -> & G & ST & T)|[(sc & e0 & E)|(s1 & e1 & k1 & vs & l1 & -> & A1 & P1 & E1)]].
    { apply oc_stuck; [now apply (sk_first KDirRule)|]. intro f. now rewrite read_rule_with, T. }
    { apply (oc_err _ _ _ sc e0). intros f F. rewrite read_rule_with, (E f (app_len2 _ _ _ F)). reflexivity. }
    destruct (read_with_cases _ _ p_ops_returns k1 l1) as [(g & k & -> & G & ST & T)|[(sc & e0 & E)|(s2 & e2 & k2 & o & l2 & -> & A2 & P2 & E2)]].
    { apply oc_stuck; [apply (sk_second w e1 s1 vs); auto; now apply parse_variables_iff|]. intro f. rewrite read_rule_with.
      destruct (read_with parse_variables f (Scanner false (e1 ++ g ++ k) [] line)) as [[sc r]| |] eqn:R; [| |reflexivity].
      - destruct r as [vs'|e0]; [|].
        + pose proof (read_with_mono _ _ _ _ _ _ R (S (f + length (w ++ e1 ++ g ++ k))) ltac:(lia)) as R'.
          rewrite E1 in R' by (rewrite !app_length; lia). injection R' as <- <-. cbn [bind]. now rewrite T.
        + pose proof (read_with_mono _ _ _ _ _ _ R (S (f + length (w ++ e1 ++ g ++ k))) ltac:(lia)) as R'.
          rewrite E1 in R' by (rewrite !app_length; lia). discriminate.
      - exfalso. now apply read_with_no_panic in R; [|exact parse_variables_returns]. }
    { apply (oc_err _ _ _ sc e0). intros f F. apply app_len2 in F. rewrite read_rule_with, (E1 f F). cbn [bind]. apply app_len2 in F. now rewrite (E f F). }
    destruct (read_with_cases _ _ p_acts_returns k2 l2) as [(g & k & -> & G & ST & T)|[(sc & e0 & E)|(s3 & e3 & k3 & a & l3 & -> & A3 & P3 & E3)]].
    { apply oc_stuck; [apply (sk_third w e1 s1 vs e2 s2 o); auto; [now apply parse_variables_iff|apply parse_operator_iff; unfold p_ops in P2; now apply Ret_eq in P2]|].
      intro f. rewrite read_rule_with.
      destruct (read_with parse_variables f (Scanner false (e1 ++ e2 ++ g ++ k) [] line)) as [[sc r]| |] eqn:R; [| |reflexivity].
      - pose proof (read_with_mono _ _ _ _ _ _ R (S (f + length (w ++ e1 ++ e2 ++ g ++ k))) ltac:(lia)) as R'.
        rewrite E1 in R' by (rewrite !app_length; lia). injection R' as <- <-. cbn [bind].
        destruct (read_with p_ops f (Scanner false (e2 ++ g ++ k) [] l1)) as [[sc r]| |] eqn:R2; [| |reflexivity].
        + pose proof (read_with_mono _ _ _ _ _ _ R2 (S (f + length (w ++ e1 ++ e2 ++ g ++ k))) ltac:(lia)) as R'.
          rewrite E2 in R' by (rewrite !app_length; lia). injection R' as <- <-. cbn [bind]. now rewrite T.
        + exfalso. now apply read_with_no_panic in R2; [|exact p_ops_returns].
      - exfalso. now apply read_with_no_panic in R; [|exact parse_variables_returns]. }
    { apply (oc_err _ _ _ sc e0). intros f F. apply app_len2 in F. rewrite read_rule_with, (E1 f F). cbn [bind]. apply app_len2 in F. rewrite (E2 f F).
      cbn [bind]. apply app_len2 in F. now rewrite (E f F). }
    unfold p_ops in P2. unfold p_acts in P3. apply Ret_eq in P2, P3. apply parse_variables_iff in P1. apply parse_operator_iff in P2. apply parse_actions_iff in P3.
    apply (oc_ok _ _ _ (DRule vs o a) (w ++ e1 ++ e2 ++ e3) k3 l3); [now rewrite <- !app_assoc|now apply (dt_rule _ w vs o a s1 s2 s3)|].
    intros f F. apply app_len2 in F. rewrite read_rule_with, (E1 f F). cbn [bind]. apply app_len2 in F. rewrite (E2 f F).
    cbn [bind]. apply app_len2 in F. rewrite (E3 f F). reflexivity.
  - apply (value_outcome [KOn; KOff; KElse] (fun v => DRuleEng (mode_of v)) w k0 line _ K). intros k s e v A -> P.
    apply dt_engine with (s := s); [exact K|exact A|]. apply mode_iff. eauto.
  - apply (value_outcome [KOn; KOff] (fun v => DReqBody (match v with KOn => true | _ => false end)) w k0 line _ K). intros k s e v A -> P.
    apply dt_reqbody with (s := s); [exact K|exact A|]. now apply flag_iff in P.
  - apply (value_outcome [KOn; KOff] (fun v => DResBody (match v with KOn => true | _ => false end)) w k0 line _ K). intros k s e v A -> P.
    apply dt_resbody with (s := s); [exact K|exact A|]. now apply flag_iff in P.
Qed.

(** ** Fuel *)
Lemma read_with_small : forall A (parse : bs -> out (res A)) f f' s, (forall s, exists r, parse s = Ret r) -> (f <= f')%nat ->
  read_with parse f s = Timeout \/ read_with parse f s = read_with parse f' s.
Proof.
  intros A parse f f' s P L. destruct (read_with parse f s) as [[sc r]| |] eqn:E.
  - right. now rewrite (read_with_mono _ _ _ _ _ _ E f' L).
  - now apply read_with_no_panic in E.
  - now left.
Qed.
Lemma body_small : forall f f' s, (f <= f')%nat ->
  read_directive_body f s = Timeout \/ read_directive_body f s = read_directive_body f' s.
Proof.
  intros f f' s L. unfold read_directive_body. destruct (read_word s) as [s1 w].
  assert (KV : forall tks (mk : vktok -> directive), 
    ('(s2, v) <- read_with (p_val tks) f s1 ;; match v with RErr e => Ret (s2, RErr e) | ROk v => Ret (s2, ROk (mk v)) end) = Timeout \/
    ('(s2, v) <- read_with (p_val tks) f s1 ;; match v with RErr e => Ret (s2, RErr e) | ROk v => Ret (s2, ROk (mk v)) end) =
    ('(s2, v) <- read_with (p_val tks) f' s1 ;; match v with RErr e => Ret (s2, RErr e) | ROk v => Ret (s2, ROk (mk v)) end)).
  { intros tks mk. destruct (read_with_small _ (p_val tks) f f' s1 (p_val_returns tks) L) as [->| ->]; auto. }
  destruct (dir_from_string w) as [[]|]; [|apply (KV _ (fun v => DRuleEng (mode_of v)))|apply (KV _ (fun v => DReqBody _))|apply (KV _ (fun v => DResBody _))|auto].
  rewrite !read_rule_with.
  destruct (read_with_small _ parse_variables f f' s1 parse_variables_returns L) as [->| ->]; [auto|].
  destruct (read_with parse_variables f' s1) as [[s2 [vs|e]]| |]; cbn [bind]; auto.
  destruct (read_with_small _ p_ops f f' s2 p_ops_returns L) as [->| ->]; [auto|].
  destruct (read_with p_ops f' s2) as [[s3 [o|e]]| |]; cbn [bind]; auto.
  destruct (read_with_small _ p_acts f f' s3 p_acts_returns L) as [->| ->]; auto.
Qed.
Lemma directive_small : forall f f' s, (f <= f')%nat -> read_directive f s = Timeout \/ read_directive f s = read_directive f' s.
Proof.
  intros f f' s L. unfold read_directive. destruct (skip_between _ _) as [inp line]. destruct inp as [|c r]; [auto|].
  destruct (body_small f f' (Scanner false (c :: r) (s_buf (if s_bos s then advance s else s)) line) L) as [->| ->]; auto.
Qed.
Lemma all_small : forall f f' s, (f <= f')%nat -> all_directive f s = Timeout \/ all_directive f s = all_directive f' s.
Proof.
  induction f as [|f IH]; intros f' s L; [now left|]. destruct f' as [|f']; [lia|]. cbn [all_directive].
  destruct (directive_small (S f) (S f') s L) as [->| ->]; [auto|].
  destruct (read_directive (S f') s) as [[s1 [d|e]]| |]; cbn [bind]; auto.
  destruct (IH f' s1 ltac:(lia)) as [->| ->]; auto.
Qed.

(** ** Between directives *)
Definition sep_char (c : ascii) : Prop := blank c \/ newline c \/ c = "000"%char.
Lemma skip_between_spec : forall inp line, exists g k line', inp = g ++ k /\ separators g /\ ~ starts_with sep_char k /\ skip_between inp line = (k, line').
Proof.
  induction inp as [inp IH] using strong_length_ind. intro line. destruct inp as [|c r].
  - exists [], [], line. repeat split; [constructor|]. intros (c & r & X & _). discriminate.
  - cbn [skip_between]. destruct (isNewLine c) eqn:N.
    + apply newline_iff in N. destruct r as [|d r].
      * exists [c], [], (line + 1). repeat split; [apply Forall_cons; [auto|constructor]|]. intros (x & y & X & _). discriminate.
      * destruct (isNewLine d && negb (Ascii.eqb d c)) eqn:E.
        -- destruct (IH r ltac:(simpl; lia) (line + 1)) as (g & k & l & -> & S1 & NK & ->). exists (c :: d :: g), k, l.
           repeat split; auto. apply andb_true_iff in E as [E _]. apply newline_iff in E. apply Forall_cons; [auto|]. apply Forall_cons; auto.
        -- destruct (IH (d :: r) ltac:(simpl; lia) (line + 1)) as (g & k & l & E2 & S1 & NK & R). exists (c :: g), k, l.
           split; [now rewrite E2|]. split; [apply Forall_cons; auto|]. split; [exact NK|exact R].
    + destruct (isBlank c || Ascii.eqb c NUL) eqn:E.
      * destruct (IH r ltac:(simpl; lia) line) as (g & k & l & -> & S1 & NK & ->). exists (c :: g), k, l. repeat split; auto.
        apply Forall_cons; [|exact S1]. apply orb_true_iff in E as [E|E]; [left; now apply blank_iff|]. apply Ascii.eqb_eq in E. auto.
      * exists [], (c :: r), line. repeat split; [constructor|]. intros (x & y & X & S1). injection X as <- <-.
        apply orb_false_iff in E as [E1 E2]. destruct S1 as [S1|[S1|S1]].
        -- apply blank_iff in S1. congruence.
        -- apply newline_iff in S1. congruence.
        -- apply Ascii.eqb_neq in E2. easy.
Qed.
Lemma skip_between_app : forall g k line, separators g -> ~ starts_with sep_char k -> exists line', skip_between (g ++ k) line = (k, line').
Proof.
  intros g k line S1 N. destruct (skip_between_spec (g ++ k) line) as (g' & k' & l & E & S2 & N' & R). exists l. rewrite R. f_equal.
  clear R l line. revert g' E S2. induction S1 as [|c g H S1 IH]; intros [|c' g'] E S2; simpl in E.
  - symmetry. exact E.
  - exfalso. apply N. inversion S2 as [|? ? H ?]; subst. exists c', (g' ++ k'). auto.
  - exfalso. apply N'. exists c, (g ++ k). auto.
  - injection E as <- E. inversion S2; subst. now apply (IH g').
Qed.
Lemma letter_no_sep : forall c, letter c -> ~ sep_char c.
Proof.
  assert (K : forall c, negb (isAlphabet c && (isBlank c || (isNewLine c || Ascii.eqb c NUL))) = true).
  { apply for_all_bytes. vm_compute. reflexivity. }
  intros c L X. specialize (K c). apply letter_iff in L. rewrite L in K.
  assert (Y : isBlank c || (isNewLine c || Ascii.eqb c NUL) = true).
  { rewrite !orb_true_iff, Ascii.eqb_eq, blank_iff, newline_iff. exact X. }
  rewrite Y in K. discriminate.
Qed.
Lemma word_no_sep : forall d k w t, keyword d k w -> ~ starts_with sep_char (w ++ t).
Proof.
  intros d k w t K (c & r & E & X). destruct (keyword_starts _ _ _ K) as (c' & r' & -> & L). injection E as -> _. now apply letter_no_sep in X.
Qed.
Lemma directive_keyword : forall k d e, directive_text k d e -> exists dt k' w e', e = w ++ e' /\ keyword dt k' w.
Proof. intros k d e [w vs o a s1 s2 s3 e1 e2 e3 K|w v s e' K|w b s e' K|w b s e' K]; eauto 6. Qed.
Lemma stuck_keyword : forall t, stuck t -> exists dt k' w e', t = w ++ e' /\ keyword dt k' w.
Proof. intros t [d w g k K|w e1 s1 vs g k K|w e1 s1 vs e2 s2 o g k K]; eauto 6. Qed.
Lemma directive_no_sep : forall k d e t, directive_text k d e -> ~ starts_with sep_char (e ++ t).
Proof. intros k d e t H. destruct (directive_keyword _ _ _ H) as (dt & k' & w & e' & -> & K). rewrite <- app_assoc. now apply (word_no_sep dt k'). Qed.
Lemma directive_pos : forall k d e, directive_text k d e -> (1 <= length e)%nat.
Proof.
  intros k d e H. destruct (directive_keyword _ _ _ H) as (dt & k' & w & e' & -> & K). destruct (keyword_starts _ _ _ K) as (c & r & -> & _). simpl. lia.
Qed.
Lemma nonempty_no_sep : forall P (s : bs), starts_with P s -> s <> [].
Proof. intros P s (c & r & -> & _). discriminate. Qed.

(** Reading one directive after separators. *)
Lemma read_directive_body_eq : forall f g k line, separators g -> ~ starts_with sep_char k -> k <> [] -> exists line',
  read_directive f (Scanner false (g ++ k) [] line) =
  ('(s1, r) <- read_directive_body f (Scanner false k [] line') ;; match r with RErr EEOS => Ret (s1, RErr EOther) | _ => Ret (s1, r) end).
Proof.
  intros f g k line S1 N NE. unfold read_directive. cbn [s_bos s_inp s_buf s_line].
  destruct (skip_between_app g k line S1 N) as (l & ->). exists l. destruct k; [easy|reflexivity].
Qed.
Lemma stuck_body : forall t, stuck t -> forall f line, read_directive_body f (Scanner false t [] line) = Timeout.
Proof.
  intros t H f line. unfold read_directive_body.
  destruct H as [d w g k K G ST|w e1 s1 vs g k K A1 V G ST|w e1 s1 vs e2 s2 o g k K A1 V A2 P G ST];
    rewrite (read_keyword _ _ _ _ K); destruct K as [K _]; apply dir_from_string_iff in K; rewrite K.
  - assert (T : forall A (parse : bs -> out (res A)), read_with parse f (Scanner false (g ++ k) [] line) = Timeout).
    { intros A parse. unfold read_with. rewrite read_string_rest. now rewrite (skip_stray k g ST G). }
    destruct d; [rewrite read_rule_with|unfold read_tribool; rewrite read_value_with|unfold read_bool; rewrite read_value_with..]; now rewrite T.
  - rewrite read_rule_with. apply parse_variables_iff in V.
    destruct (read_with_ok _ _ _ _ _ _ A1 V (S (f + length (e1 ++ g ++ k))) line ltac:(lia)) as (l1 & E1).
    destruct (read_with_small _ parse_variables f (S (f + length (e1 ++ g ++ k))) (Scanner false (e1 ++ g ++ k) [] line) parse_variables_returns ltac:(lia))
      as [->| ->]; [reflexivity|]. rewrite E1. cbn [bind]. unfold read_with. rewrite read_string_rest. now rewrite (skip_stray k g ST G).
  - rewrite read_rule_with. apply parse_variables_iff in V. apply parse_operator_iff in P.
    assert (P' : p_ops s2 = Ret (ROk o)) by (unfold p_ops; now rewrite P).
    destruct (read_with_ok _ _ _ _ _ _ A1 V (S (f + length (e1 ++ e2 ++ g ++ k))) line ltac:(lia)) as (l1 & E1).
    destruct (read_with_small _ parse_variables f (S (f + length (e1 ++ e2 ++ g ++ k))) (Scanner false (e1 ++ e2 ++ g ++ k) [] line) parse_variables_returns ltac:(lia))
      as [->| ->]; [reflexivity|]. rewrite E1. cbn [bind].
    destruct (read_with_ok _ _ _ _ _ _ A2 P' (S (f + length (e2 ++ g ++ k))) l1 ltac:(lia)) as (l2 & E2).
    destruct (read_with_small _ p_ops f (S (f + length (e2 ++ g ++ k))) (Scanner false (e2 ++ g ++ k) [] l1) p_ops_returns ltac:(lia))
      as [->| ->]; [reflexivity|]. rewrite E2. cbn [bind]. unfold read_with. rewrite read_string_rest. now rewrite (skip_stray k g ST G).
Qed.
Lemma stuck_all : forall inp, stuck_file inp -> forall f line, all_directive f (Scanner false inp [] line) = Timeout.
Proof.
  intros inp H. induction H as [g t S1 ST|g d e k S1 D ST IH]; intros f line; (destruct f as [|f]; [reflexivity|]); cbn [all_directive].
  - destruct (stuck_keyword _ ST) as (dt & k' & w & e' & E & K).
    destruct (read_directive_body_eq (S f) g t line S1) as (l & ->).
    + rewrite E. now apply (word_no_sep dt k').
    + destruct (keyword_starts _ _ _ K) as (c & r & -> & _). rewrite E. discriminate.
    + now rewrite (stuck_body t ST).
  - destruct (directive_keyword _ _ _ D) as (dt & k' & w & e' & E & K).
    destruct (read_directive_body_eq (S f) g (e ++ k) line S1) as (l & ->).
    + now apply (directive_no_sep k d).
    + destruct (keyword_starts _ _ _ K) as (c & r & -> & _). rewrite E. discriminate.
    + destruct (read_body_ok _ _ _ D (S (f + length (e ++ k))) l ltac:(lia)) as (l' & EB).
      destruct (body_small (S f) (S (f + length (e ++ k))) (Scanner false (e ++ k) [] l) ltac:(lia)) as [->| ->]; [reflexivity|].
      rewrite EB. cbn [bind]. now rewrite IH.
Qed.
Lemma file_all : forall ds inp, file_text ds inp -> forall f line, (length inp < f)%nat -> all_directive f (Scanner false inp [] line) = Ret (ROk ds).
Proof.
  intros ds inp H. induction H as [g S1|g d e ds k S1 D H IH]; intros f line F; (destruct f as [|f]; [simpl in F; lia|]); cbn [all_directive].
  - unfold read_directive. cbn [s_bos s_inp s_buf s_line]. destruct (skip_between_app g [] line S1) as (l & E).
    + intros (c & r & X & _). discriminate.
    + rewrite app_nil_r in E. rewrite E. reflexivity.
  - destruct (directive_keyword _ _ _ D) as (dt & k' & w & e' & E & K). pose proof (directive_pos _ _ _ D) as DP.
    destruct (read_directive_body_eq (S f) g (e ++ k) line S1) as (l & ->).
    + now apply (directive_no_sep k d).
    + destruct (keyword_starts _ _ _ K) as (c & r & -> & _). rewrite E. discriminate.
    + rewrite !app_length in F. destruct (read_body_ok _ _ _ D (S f) l ltac:(rewrite app_length; lia)) as (l' & ->). cbn [bind].
      rewrite IH by lia. reflexivity.
Qed.
Lemma file_outcome : forall inp line, stuck_file inp \/ (exists ds, file_text ds inp) \/
  exists e, forall f, (length inp < f)%nat -> all_directive f (Scanner false inp [] line) = Ret (RErr e).
Proof.
  induction inp as [inp IH] using strong_length_ind. intro line. destruct (skip_between_spec inp line) as (g & k & l & -> & S1 & N & R).
  destruct k as [|c r].
  - right. left. exists []. rewrite app_nil_r. now constructor.
  - destruct (body_outcome (c :: r) l) as [ST T|sc e E|d e k' l' E D RB].
    + left. now apply sf_here.
    + right. right. exists EOther. intros f F. destruct f as [|f]; [lia|]. cbn [all_directive].
      assert (F' : (length (c :: r) < S f)%nat) by (rewrite app_length in F; lia).
      unfold read_directive. cbn [s_bos s_inp s_buf s_line]. rewrite R, (E (S f) F'). cbn [bind]. destruct e; reflexivity.
    + rewrite E in *. pose proof (directive_pos _ _ _ D) as DP.
      destruct (IH k' ltac:(rewrite !app_length; lia) l') as [X|[(ds & X)|(e0 & X)]].
      * left. now apply sf_later with (d := d).
      * right. left. exists (d :: ds). now constructor.
      * right. right. exists e0. intros f F. destruct f as [|f]; [lia|]. cbn [all_directive]. rewrite !app_length in F.
        unfold read_directive. cbn [s_bos s_inp s_buf s_line]. rewrite R. destruct (e ++ k') as [|x y] eqn:EX; [discriminate|]. rewrite <- EX in *.
        rewrite (RB (S f)) by (rewrite app_length; lia). cbn [bind]. rewrite X by lia. now destruct e0.
Qed.

(** ** The whole parser *)
Lemma parse_text_bos : forall f text, parse_text f text = all_directive f (Scanner false text [] 1).
Proof. intros [|f] text; reflexivity. Qed.
Lemma parse_text_iff : forall text ds, (exists f, parse_text f text = Ret (ROk ds)) <-> file_text ds text.
Proof.
  intros text ds. split.
  - intros (f & H). rewrite parse_text_bos in H. destruct (file_outcome text 1) as [X|[(ds' & X)|(e & X)]].
    + rewrite (stuck_all _ X) in H. discriminate.
    + pose proof (file_all _ _ X (S (f + length text)) 1 ltac:(lia)) as Y.
      destruct (all_small f (S (f + length text)) (Scanner false text [] 1) ltac:(lia)) as [Z|Z]; [congruence|].
      rewrite Z, Y in H. injection H as <-. exact X.
    + pose proof (X (S (f + length text)) ltac:(lia)) as Y.
      destruct (all_small f (S (f + length text)) (Scanner false text [] 1) ltac:(lia)) as [Z|Z]; congruence.
  - intro H. exists (S (length text)). rewrite parse_text_bos. apply file_all; [exact H|lia].
Qed.
Lemma parse_text_file : forall text ds f, file_text ds text -> (length text < f)%nat -> parse_text f text = Ret (ROk ds).
Proof. intros text ds f H F. rewrite parse_text_bos. now apply file_all. Qed.
Lemma parse_text_stuck : forall text, stuck_file text <-> forall f, parse_text f text = Timeout.
Proof.
  intro text. split.
  - intros H f. rewrite parse_text_bos. now apply stuck_all.
  - intro H. destruct (file_outcome text 1) as [X|[(ds & X)|(e & X)]]; [exact X| |]; specialize (H (S (length text))); rewrite parse_text_bos in H.
    + rewrite (file_all _ _ X) in H by lia. discriminate.
    + rewrite X in H by lia. discriminate.
Qed.
Lemma parse_text_cases : forall text, stuck_file text \/ exists r, forall f, (length text < f)%nat -> parse_text f text = Ret r.
Proof.
  intro text. destruct (file_outcome text 1) as [X|[(ds & X)|(e & X)]]; [now left| |]; right.
  - exists (ROk ds). intros f F. now apply parse_text_file.
  - exists (RErr e). intros f F. rewrite parse_text_bos. now apply X.
Qed.
