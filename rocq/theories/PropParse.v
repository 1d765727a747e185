(** Property theorems C52-C60: reading SecLang texts. *)
From Verif Require Import Base BaseFacts GoStrings Buffer Types Transaction Variables SpecText NumFacts SpecVars VarText
  Operators Scanner Loader SpecParse ParseFacts ParseLists ParseFiles ParsePrint Witness.
From Coq Require Import ZifyBool.

(** ** C52 *)
Theorem C52_quoted_round_trip : forall q s rest line fuel, quote_char q -> (length (quoted q s ++ rest) < fuel)%nat ->
  exists line', read_string fuel (Scanner false (quoted q s ++ rest) [] line) = Ret (Scanner false rest [] line', ROk s).
Proof. intros q s rest line fuel Q F. apply read_argument; [|exact F]. now apply (quoted_argument [] q s rest Q). Qed.
(** Every other way to write an argument, with what is in front of it. *)
Theorem C52_arguments_exactly : forall rest s e line,
  (exists fuel line', read_string fuel (Scanner false (e ++ rest) [] line) = Ret (Scanner false rest [] line', ROk s)) <->
  argument rest s e.
Proof.
  intros rest s e line. split.
  - intros (f & l & H). apply read_argument_inv in H as (e' & k & l' & E & A & S1). injection S1 as <- _. apply app_inv_tail in E. now subst.
  - intro A. exists (S (length (e ++ rest))). apply (read_argument _ _ _ A). lia.
Qed.
(** More fuel changes nothing. *)
Theorem C52_fuel : forall rest s e line fuel, argument rest s e -> (length (e ++ rest) < fuel)%nat ->
  exists line', read_string fuel (Scanner false (e ++ rest) [] line) = Ret (Scanner false rest [] line', ROk s).
Proof. intros rest s e line fuel A F. now apply (read_argument _ _ _ A). Qed.
Example C52_example : let s := B "a'b""c\d" ++ [LF; CR; NUL] in
  quoted "'" s = B "'a\'b\""c\\d\n\r" ++ [NUL] ++ B "'" /\
  read_string 40 (Scanner false (quoted "'" s ++ B " rest") [] 1) = Ret (Scanner false (B " rest") [] 1, ROk s).
Proof. split; vm_compute; reflexivity. Qed.
Print Assumptions C52_quoted_round_trip.
Print Assumptions C52_arguments_exactly.
Print Assumptions C52_fuel.

(** ** C53: false of the code: a backslash where an argument should start, not
    followed by a line feed, is never passed. *)
Theorem C53_terminates_refuted : exists text, text = B "SecRuleEngine \x" /\ forall fuel, parse_text fuel text = Timeout.
Proof.
  eexists. split; [reflexivity|]. apply parse_text_stuck. apply (sf_here []); [constructor|].
  apply (sk_first KDirRuleEng (B "SecRuleEngine") (B " ") (B "\x")).
  - apply keyword_exact. apply space_not_letter.
  - apply gap_blank; [now left|constructor].
  - exists (B "x"). split; [reflexivity|]. intros (c & r & E & <-). discriminate.
Qed.
(** These are exactly the texts without an end; all others are read with fuel
    linear in their length, and nothing ever panics. *)
Theorem C53_hangs_exactly : forall text, (forall fuel, parse_text fuel text = Timeout) <-> stuck_file text.
Proof. intro text. symmetry. apply parse_text_stuck. Qed.
Theorem C53_terminates_partial : forall text, ~ stuck_file text ->
  exists r, forall fuel, (length text < fuel)%nat -> parse_text fuel text = Ret r.
Proof. intros text N. now destruct (parse_text_cases text). Qed.
Theorem C53_no_panic : forall text fuel, parse_text fuel text <> Panic.
Proof.
  intros text fuel H. destruct (parse_text_cases text) as [X|(r & X)].
  - rewrite (proj1 (parse_text_stuck text) X) in H. discriminate.
  - specialize (X (S (fuel + length text)) ltac:(lia)). rewrite parse_text_bos in X, H.
    destruct (all_small fuel (S (fuel + length text)) (Scanner false text [] 1) ltac:(lia)) as [Y|Y]; congruence.
Qed.
(** The hanging texts all contain a backslash that is not followed by a line feed,
    behind a blank, a line end, a quote or the name of a directive. *)
Lemma stuck_stray : forall t, stuck t -> exists a k, t = a ++ k /\ stray k.
Proof.
  intros t [d w g k K G ST|w e1 s1 vs g k K A1 V G ST|w e1 s1 vs e2 s2 o g k K A1 V A2 P G ST].
  - exists (w ++ g), k. now rewrite <- app_assoc.
  - exists (w ++ e1 ++ g), k. now rewrite <- !app_assoc.
  - exists (w ++ e1 ++ e2 ++ g), k. now rewrite <- !app_assoc.
Qed.
Theorem C53_hanging_texts : forall text, stuck_file text -> exists a r, text = a ++ "\"%char :: r /\ ~ starts_with (eq "010"%char) r.
Proof.
  intros text H. induction H as [g t S1 ST|g d e k S1 D ST (a & r & -> & N)].
  - destruct (stuck_stray _ ST) as (a & k & -> & (r & -> & N)). exists (g ++ a), r. now rewrite <- app_assoc.
  - exists (g ++ e ++ a), r. now rewrite <- !app_assoc.
Qed.
Corollary C53_no_backslash : forall text, ~ In "\"%char text -> exists r, forall fuel, (length text < fuel)%nat -> parse_text fuel text = Ret r.
Proof.
  intros text N. apply C53_terminates_partial. intro H. apply C53_hanging_texts in H as (a & r & -> & _). apply N. apply in_or_app. right. now left.
Qed.
Example C53_example : exists e, parse_text 100 (B "SecRule ARGS ""@rx \\d"" id:1,") = Ret (RErr e).
Proof. eexists. vm_compute. reflexivity. Qed.
Example C53_not_stuck : ~ stuck_file (B "SecRule ARGS ""@rx \\d"" id:1").
Proof. intro H. apply C53_hangs_exactly with (fuel := 100%nat) in H. vm_compute in H. discriminate. Qed.
Print Assumptions C53_terminates_refuted.
Print Assumptions C53_hangs_exactly.
Print Assumptions C53_terminates_partial.
Print Assumptions C53_no_panic.
Print Assumptions C53_hanging_texts.
Print Assumptions C53_no_backslash.

(** ** C54: false of the code: inside quotes backslashes are escapes. *)
Theorem C54_pattern_as_written_refuted : exists p q f l l',
  p = B "\d+" /\ read_operator f (Scanner false (B """@rx " ++ p ++ B """") [] l) = Ret (Scanner false [] [] l', ROk (POper KRx false q)) /\ q = B "d+".
Proof. exists (B "\d+"), (B "d+"), 20%nat, 1, 1. split; [reflexivity|]. split; [vm_compute; reflexivity|reflexivity]. Qed.
(** Without backslashes, newlines and the delimiting quote the pattern arrives. *)
Theorem C54_pattern_as_written_partial : forall O q p rest line fuel, quote_char q ->
  (forall c, In c p -> c <> q /\ c <> "\"%char /\ ~ newline c) ->
  (length (q :: B "@rx " ++ p ++ q :: rest) < fuel)%nat -> rx_ok O p = true ->
  exists line', read_operator fuel (Scanner false (q :: B "@rx " ++ p ++ q :: rest) [] line)
                = Ret (Scanner false rest [] line', ROk (POper KRx false p)) /\
                operator_factory O (POper KRx false p) = Some (OpRx p).
Proof.
  intros O q p rest line fuel Q H F RX.
  assert (A : argument rest (B "@rx " ++ p) ([] ++ q :: (B "@rx " ++ p) ++ [q])).
  { apply ar_quoted; [exact Q|constructor|]. apply letters_escaped. intros c I.
    assert (X : c <> q /\ c <> "\"%char /\ ~ newline c).
    { apply in_app_iff in I as [I|I]; [|now apply H]. unfold B in I. simpl in I.
      repeat (destruct I as [<-|I]; [split; [|split]; [destruct Q; subst; discriminate|discriminate|intros [X|X]; discriminate]|]). destruct I. }
    destruct X as (X1 & X2 & X3). split; [|auto]. intros [->|[]]. easy. }
  assert (E : (([] ++ q :: (B "@rx " ++ p) ++ [q]) ++ rest) = q :: B "@rx " ++ p ++ q :: rest) by (cbn [app]; now rewrite <- !app_assoc).
  destruct (read_argument _ _ _ A fuel line) as (l & R); [now rewrite E|]. rewrite E in R. exists l. unfold read_operator. rewrite R. cbn [bind]. split.
  - now rewrite (proj2 (parse_operator_iff (B "@rx " ++ p) (POper KRx false p)) (ot_named KRx p (" "%char :: p) (or_intror eq_refl))).
  - unfold operator_factory, new_rx. cbn [po_tok po_arg]. now rewrite RX.
Qed.
(** Every pattern can be written so that it arrives. *)
Theorem C54_pattern_escaped : forall q p rest line fuel, quote_char q ->
  (length (quoted q (B "@rx " ++ p) ++ rest) < fuel)%nat ->
  exists line', read_operator fuel (Scanner false (quoted q (B "@rx " ++ p) ++ rest) [] line)
                = Ret (Scanner false rest [] line', ROk (POper KRx false p)).
Proof.
  intros q p rest line fuel Q F. destruct (C52_quoted_round_trip q (B "@rx " ++ p) rest line fuel Q F) as (l & R). exists l.
  unfold read_operator. rewrite R. cbn [bind]. now rewrite (proj2 (parse_operator_iff (B "@rx " ++ p) (POper KRx false p)) (ot_named KRx p (" "%char :: p) (or_intror eq_refl))).
Qed.
Example C54_example : read_operator 30 (Scanner false (quoted """" (B "@rx \d+") ++ B " x") [] 1) = Ret (Scanner false (B " x") [] 1, ROk (POper KRx false (B "\d+"))) /\
  (forall c, In c (B "a(b|c)[d-f]*$") -> c <> """"%char /\ c <> "\"%char /\ ~ newline c).
Proof.
  split; [vm_compute; reflexivity|]. intros c I. unfold B in I. simpl in I.
  repeat (destruct I as [<-|I]; [split; [|split]; [discriminate|discriminate|intros [X|X]; discriminate]|]). destruct I.
Qed.
Print Assumptions C54_pattern_as_written_refuted.
Print Assumptions C54_pattern_as_written_partial.
Print Assumptions C54_pattern_escaped.

(** ** C55 *)
Theorem C55_variables : forall s vs, parse_variables s = Ret (ROk vs) <-> variables_text vs s.
Proof. exact parse_variables_iff. Qed.
(** Every list of variables can be written, with any choice of separators. *)
Theorem C55_round_trip : forall vs parts s, vs <> [] -> Forall wf_var vs -> map show_var vs = parts -> joined (B ",|") parts s ->
  parse_variables s = Ret (ROk vs).
Proof.
  intros vs parts s NE W <- J. apply parse_variables_iff. exists (map show_var vs). split; [exact J|]. split.
  - apply Forall_map. eapply Forall_impl; [|exact W]. apply show_var_free.
  - clear NE J. induction W as [|v vs W1 W IH]; constructor; [now apply show_var_text|exact IH].
Qed.
Theorem C55_splitter : forall s, exists parts, split_multi s = Ret parts /\ joined (B ",|") parts s /\ Forall (free_of (B ",|")) parts /\
  forall parts', joined (B ",|") parts' s -> Forall (free_of (B ",|")) parts' -> parts' = parts.
Proof.
  intro s. destruct (split_multi_returns s) as (parts & E). exists parts. pose proof E as E'. apply split_multi_iff in E' as [J F].
  split; [exact E|]. split; [exact J|]. split; [exact F|]. intros ps J' F'.
  assert (E2 : split_multi s = Ret ps) by (apply split_multi_iff; auto). rewrite E in E2. now apply Ret_eq in E2.
Qed.
Theorem C55_always_answers : forall s, exists r, parse_variables s = Ret r.
Proof. exact parse_variables_returns. Qed.
Theorem C55_unknown_name : forall s parts p, joined (B ",|") parts s -> Forall (free_of (B ",|")) parts -> In p parts ->
  (forall v, ~ variable_text v p) -> exists e, parse_variables s = Ret (RErr e).
Proof.
  intros s parts p J F I N. destruct (parse_variables_returns s) as ([vs|e] & E); [|eauto]. exfalso.
  apply parse_variables_iff in E as (ps & J' & F' & V). destruct (C55_splitter s) as (u & _ & _ & _ & U).
  rewrite (U _ J F) in I. rewrite (U _ J' F') in V. clear - V I N. induction V as [|v q vs qs H V IH]; [destruct I|].
  destruct I as [->|I]; [now apply (N v)|auto].
Qed.
Example C55_example : parse_variables (B "ARGS:a.b|!REQUEST_HEADERS:User-Agent,&ARGS_NAMES") =
  Ret (ROk [PVar KArgs (B "a.b") false false; PVar KRequestHeaders (B "User-Agent") false true; PVar KArgsNames [] true false]) /\
  Forall wf_var [PVar KArgs (B "a.b") false false; PVar KRequestHeaders (B "User-Agent") false true; PVar KArgsNames [] true false] /\
  parse_variables (B "ARGS|NOPE") = Ret (RErr EOther).
Proof.
  split; [vm_compute; reflexivity|]. split; [|vm_compute; reflexivity].
  apply (proj2 (variables_wf _ (B "ARGS:a.b|!REQUEST_HEADERS:User-Agent,&ARGS_NAMES") ltac:(apply parse_variables_iff; vm_compute; reflexivity))).
Qed.
Print Assumptions C55_variables.
Print Assumptions C55_round_trip.
Print Assumptions C55_splitter.
Print Assumptions C55_always_answers.
Print Assumptions C55_unknown_name.

(** ** C56 *)
Theorem C56_operators : forall s o, parse_operator s = ROk o <-> operator_text o s.
Proof. exact parse_operator_iff. Qed.
Theorem C56_named : forall t a, parse_operator (B "@" ++ op_name t ++ B " " ++ a) = ROk (POper t false a) /\
  parse_operator (B "!@" ++ op_name t ++ B " " ++ a) = ROk (POper t true a).
Proof.
  intros t a. assert (K : operator_text (POper t false a) (B "@" ++ op_name t ++ B " " ++ a)) by (apply ot_named; now right).
  split; apply parse_operator_iff; [exact K|now apply ot_not].
Qed.
Theorem C56_pattern : forall c s, c <> "@"%char -> c <> "!"%char -> parse_operator (c :: s) = ROk (POper KRx false (c :: s)) /\
  parse_operator ("!"%char :: c :: s) = ROk (POper KRx true (c :: s)).
Proof.
  intros c s N1 N2. assert (K : operator_text (POper KRx false (c :: s)) (c :: s)) by (apply ot_pattern; exists c, s; auto).
  split; apply parse_operator_iff; [exact K|now apply ot_not].
Qed.
Theorem C56_unknown : forall name rest, ~ In " "%char name -> (forall t, name <> op_name t) -> (rest = [] \/ starts_with (eq " "%char) rest) ->
  parse_operator ("@"%char :: name ++ rest) = RErr EOther /\ parse_operator ("!"%char :: "@"%char :: name ++ rest) = RErr EOther.
Proof.
  intros name rest NS N R.
  assert (K : assoc name operatorMap = None).
  { destruct (assoc name operatorMap) as [t|] eqn:E; [|reflexivity]. apply operator_iff in E. now apply N in E. }
  assert (C : fst (cut " " ("@"%char :: name ++ rest)) = "@"%char :: name).
  { assert (NS' : ~ In " "%char ("@"%char :: name)) by (intros [X|X]; [discriminate|easy]).
    destruct R as [->|(c & r & -> & <-)]; [rewrite app_nil_r|change ("@"%char :: name ++ " "%char :: r) with (("@"%char :: name) ++ " "%char :: r)].
    - now rewrite (cut_none _ _ NS').
    - now rewrite (cut_app _ _ _ NS'). }
  assert (P : parse_op ("@"%char :: name ++ rest) false = RErr EOther /\ parse_op ("@"%char :: name ++ rest) true = RErr EOther).
  { unfold parse_op. change (negb (Ascii.eqb "@" "@")) with false. cbv iota. destruct (cut " " ("@"%char :: name ++ rest)) as [n a]. simpl in C. subst n.
    cbn [tl]. rewrite K. auto. }
  rewrite !parse_operator_op. change (Ascii.eqb "@" "!") with false. change (Ascii.eqb "!" "!") with true. exact P.
Qed.
Theorem C56_empty : parse_operator [] = RErr EOther /\ parse_operator (B "!") = RErr EOther.
Proof. split; reflexivity. Qed.
Example C56_example : parse_operator (B "!@ge 5 6") = ROk (POper KGe true (B "5 6")) /\ parse_operator (B "a b") = ROk (POper KRx false (B "a b")) /\
  parse_operator (B "@contains x") = RErr EOther /\ (forall t, B "contains" <> op_name t) /\ ~ In " "%char (B "contains").
Proof.
  split; [reflexivity|]. split; [reflexivity|]. split; [reflexivity|]. split; [intros []; discriminate|].
  intro I. unfold B in I. kill I.
Qed.
Print Assumptions C56_operators.
Print Assumptions C56_named.
Print Assumptions C56_pattern.
Print Assumptions C56_unknown.
Print Assumptions C56_empty.

(** ** C57 *)
Theorem C57_actions : forall s a, parse_actions s = ROk a <-> actions_text a s.
Proof. exact parse_actions_iff. Qed.
(** An item that says nothing makes the whole list an error. *)
Theorem C57_bad_item : forall s core parts p, trimmed_of s core -> joined (B ",") parts core -> Forall (free_of (B ",")) parts ->
  In p parts -> (forall i, ~ item_text i p) -> exists e, parse_actions s = RErr e.
Proof.
  intros s core parts p T J F I N. destruct (parse_actions s) as [a|e] eqn:E; [|eauto]. exfalso.
  apply parse_actions_iff in E as (core' & parts' & items & T' & _ & J' & F' & FI & _).
  apply trim_iff in T, T'. rewrite T in T'. subst core'. clear T.
  assert (E1 : split "," core = parts) by (apply joined_comma; auto). assert (E2 : split "," core = parts') by (apply joined_comma; auto).
  rewrite E1 in E2. clear E1. subst parts'. clear - FI I N.
  induction FI as [|i q is qs H FI IH]; [destruct I|]. destruct I as [->|I]; [now apply (N i)|auto].
Qed.
(** What says nothing. *)
Definition names_action (w1 w2 sel p : bs) (t : atok) (v : bs) : Prop :=
  white w1 /\ white w2 /\ (sel = [] /\ v = [] \/ sel = ":"%char :: v) /\ p = w1 ++ act_name t ++ w2 ++ sel.
Lemma item_text_names : forall w1 w2 sel p t v i, names_action w1 w2 sel p t v -> item_text i p -> item_value t v i.
Proof.
  intros w1 w2 sel p t v i (W1 & W2 & HS & E) H. assert (P : parse_action p = ROk (t, v)) by (apply parse_action_iff; exists w1, w2, sel; auto).
  destruct H as [t' w1' w2' sel' v' i W1' W2' HS' HI].
  assert (P' : parse_action (w1' ++ act_name t' ++ w2' ++ sel') = ROk (t', v')) by (apply parse_action_iff; exists w1', w2', sel'; auto).
  rewrite P in P'. injection P' as -> ->. exact HI.
Qed.
Theorem C57_unknown_action : forall p n v, ~ In ":"%char n -> (p = n \/ p = n ++ ":"%char :: v) ->
  (forall w1 w2 t, white w1 -> white w2 -> n <> w1 ++ act_name t ++ w2) -> forall i, ~ item_text i p.
Proof.
  intros p n v NC HP N i H. destruct H as [t w1 w2 sel x i W1 W2 HS HI].
  assert (NC2 : ~ In ":"%char (w1 ++ act_name t ++ w2)).
  { rewrite !in_app_iff. intros [I|[I|I]]; revert I; [apply white_free|apply act_name_free|apply white_free]; simpl; auto. }
  assert (EP : fst (cut ":" (w1 ++ act_name t ++ w2 ++ sel)) = w1 ++ act_name t ++ w2).
  { replace (w1 ++ act_name t ++ w2 ++ sel) with ((w1 ++ act_name t ++ w2) ++ sel) by now rewrite <- !app_assoc.
    destruct HS as [[-> ->]| ->]; [rewrite app_nil_r, (cut_none _ _ NC2)|rewrite (cut_app _ _ _ NC2)]; reflexivity. }
  apply (N w1 w2 t W1 W2). destruct HP as [HP|HP]; rewrite HP in EP; [rewrite (cut_none _ _ NC) in EP|rewrite (cut_app _ _ _ NC) in EP]; exact EP.
Qed.
Lemma unquoted_fun : forall s x y, unquoted s x -> unquoted s y -> x = y.
Proof. intros s x y H1 H2. apply trimQuote_iff in H1, H2. congruence. Qed.
Theorem C57_bad_phase : forall w1 w2 sel p v x, names_action w1 w2 sel p KPhase v -> unquoted v x ->
  ~ In x [B "request"; B "response"; B "logging"] -> (forall n, denotes x n -> ~ (1 <= n <= 5)) -> forall i, ~ item_text i p.
Proof.
  intros w1 w2 sel p v x HN U NA ND i H. apply (item_text_names _ _ _ _ _ _ _ HN) in H.
  inversion H as [|s y n U' I|s y n U' D R| | | | |t s NT]; subst.
  - rewrite (unquoted_fun _ _ _ U U') in NA. apply NA. simpl in I. destruct I as [I|[I|[I|[]]]]; injection I as <- _; simpl; auto.
  - rewrite (unquoted_fun _ _ _ U U') in ND. now apply (ND n D).
  - elim NT. simpl. tauto.
Qed.
Theorem C57_bad_severity : forall w1 w2 sel p v x, names_action w1 w2 sel p KSeverity v -> unquoted v x ->
  ~ In x severity_names -> (forall n, denotes x n -> ~ (0 <= n <= 7)) -> forall i, ~ item_text i p.
Proof.
  intros w1 w2 sel p v x HN U NA ND i H. apply (item_text_names _ _ _ _ _ _ _ HN) in H.
  inversion H as [| | | | |s y n U' I P|s y n U' D R|t s NT]; subst.
  - rewrite (unquoted_fun _ _ _ U U') in NA. apply NA. now apply nth_error_In in I.
  - rewrite (unquoted_fun _ _ _ U U') in ND. now apply (ND n D).
  - elim NT. simpl. tauto.
Qed.
Theorem C57_bad_transformation : forall w1 w2 sel p v x, names_action w1 w2 sel p KT v -> unquoted v x ->
  (forall t, x <> trans_name t) -> forall i, ~ item_text i p.
Proof.
  intros w1 w2 sel p v x HN U NA i H. apply (item_text_names _ _ _ _ _ _ _ HN) in H.
  inversion H as [| | | |s t U'| | |t s NT]; subst.
  - now apply (NA t), (unquoted_fun v).
  - elim NT. simpl. tauto.
Qed.
Theorem C57_bad_id : forall w1 w2 sel p v x, names_action w1 w2 sel p KId v -> unquoted v x ->
  (forall n, denotes x n -> ~ int64 n) -> forall i, ~ item_text i p.
Proof.
  intros w1 w2 sel p v x HN U NA i H. apply (item_text_names _ _ _ _ _ _ _ HN) in H.
  inversion H as [s y n U' D R| | | | | | |t s NT]; subst.
  - rewrite (unquoted_fun _ _ _ U U') in NA. now apply (NA n D).
  - elim NT. simpl. tauto.
Qed.
Example C57_example : parse_actions (B " id:'7',phase:request, t:lowercase,deny,chain,severity:ERROR,t:none,msg:'x y' ") =
  ROk (PActions 7 2 true [KLowercase; KNone] [PAction KDeny []; PAction KSeverity (B "3"); PAction KMsg (B "'x y'")]) /\
  parse_actions (B "id:1,phase:6") = RErr EOther /\ parse_actions (B "id:1,severity:8") = RErr EOther /\
  parse_actions (B "id:1,nolog") = RErr EOther /\ parse_actions (B "id:1,t:base64") = RErr EOther /\ parse_actions (B "  ") = RErr EOther.
Proof. repeat split; vm_compute; reflexivity. Qed.
Example C57_bad_phase_example : names_action [] [] (B ":'6'") (B "phase:'6'") KPhase (B "'6'") /\ unquoted (B "'6'") (B "6") /\
  ~ In (B "6") [B "request"; B "response"; B "logging"] /\ (forall n, denotes (B "6") n -> ~ (1 <= n <= 5)).
Proof.
  split; [split; [constructor|split; [constructor|split; [now right|reflexivity]]]|]. split; [apply trimQuote_iff; reflexivity|].
  split; [simpl; intuition discriminate|]. intros n D. assert (K : denotes (B "6") 6) by (change (B "6") with (itoa 6); apply itoa_denotes).
  rewrite (denotes_unique _ _ _ D K). lia.
Qed.
Print Assumptions C57_actions.
Print Assumptions C57_bad_item.
Print Assumptions C57_unknown_action.
Print Assumptions C57_bad_phase.
Print Assumptions C57_bad_severity.
Print Assumptions C57_bad_transformation.
Print Assumptions C57_bad_id.

(** ** C58: false of the code: the list is split at every comma. *)
Theorem C58_commas_refuted : exists s e, s = B "id:1,msg:'a,b'" /\ parse_actions s = RErr e.
Proof. exists (B "id:1,msg:'a,b'"), EOther. split; vm_compute; reflexivity. Qed.
(** No argument of an action ever contains a comma. *)
Theorem C58_never_a_comma : forall s a x, parse_actions s = ROk a -> In x (pas_acts a) -> ~ In ","%char (pa_arg x).
Proof.
  intros s a x H I. apply parse_actions_iff, actions_wf in H as (_ & _ & F). rewrite Forall_forall in F. now apply F in I as [I _].
Qed.
(** Any other argument arrives as it is written, quotes included. *)
Theorem C58_commas_partial : forall t v, ~ In t [KId; KPhase; KChain; KT; KSeverity] -> ~ In ","%char v ->
  parse_actions (act_name t ++ B ":" ++ v ++ B ",id:1") = ROk (PActions 1 0 false [] [PAction t v]).
Proof.
  intros t v NT NC. pose (a := PActions 1 0 false [] [PAction t v]).
  assert (W : wf_actions a).
  { split; [unfold int64; simpl; lia|]. split; [simpl; lia|]. constructor; [|constructor]. split; [exact NC|]. split; [simpl in *; tauto|].
    cbn [pa_tok]. intros ->. elim NT. simpl. tauto. }
  apply show_actions_text, parse_actions_iff in W. unfold show_actions in W. cbn [a pas_acts pas_trans pas_phase pas_chain pas_id map app Z.eqb listed pa_tok pa_arg] in W.
  rewrite <- !app_assoc in W. exact W.
Qed.
Example C58_example : ~ In ","%char (B "'it is: ""so"" '") /\ parse_actions (B "msg:'it is: ""so"" ',id:1") = ROk (PActions 1 0 false [] [PAction KMsg (B "'it is: ""so"" '")]).
Proof. split; [intro I; unfold B in I; kill I|vm_compute; reflexivity]. Qed.
Print Assumptions C58_commas_refuted.
Print Assumptions C58_never_a_comma.
Print Assumptions C58_commas_partial.

(** ** C59 *)
Theorem C59_round_trip : forall ds fuel, Forall wf_directive ds -> (length (show_file ds) < fuel)%nat ->
  parse_text fuel (show_file ds) = Ret (ROk ds).
Proof. intros ds fuel W F. apply parse_text_file; [now apply show_file_text|exact F]. Qed.
(** Nothing else can be the result of reading a text. *)
Theorem C59_only_these : forall text fuel ds, parse_text fuel text = Ret (ROk ds) -> Forall wf_directive ds.
Proof. intros text fuel ds H. apply (file_wf ds text). apply parse_text_iff. eauto. Qed.
(** All ways to write the directives. *)
Theorem C59_files_exactly : forall text ds, (exists fuel, parse_text fuel text = Ret (ROk ds)) <-> file_text ds text.
Proof. exact parse_text_iff. Qed.
Definition demo_directives : list directive :=
  [DRuleEng 1; DReqBody true;
   DRule [PVar KArgs (B "q") false false; PVar KRequestHeaders [] true false] (POper KRx true (B "a""\d'" ++ [LF] ++ B "b"))
     (PActions 12 2 true [KLowercase; KUrlDecode] [PAction KDeny []; PAction KSeverity (B "3"); PAction KMsg (B " 'x")]);
   DResBody false].
Lemma demo_directives_wf : Forall wf_directive demo_directives.
Proof.
  repeat (apply Forall_cons || apply Forall_nil); simpl; auto; try lia. split; [discriminate|]. split.
  - repeat (apply Forall_cons || apply Forall_nil); (split; [intros c [<-|[<-|[]]] I; kill I|intros [X Y]; discriminate]).
  - split; [unfold int64; simpl; lia|]. split; [simpl; lia|]. repeat (apply Forall_cons || apply Forall_nil).
    + split; [intros []|]. split; [simpl; intuition discriminate|discriminate].
    + split; [intro I; kill I|]. split; [simpl; intuition discriminate|]. intros _. exists 3. split; [lia|reflexivity].
    + split; [intro I; kill I|]. split; [simpl; intuition discriminate|discriminate].
Qed.
Example C59_example : Forall wf_directive demo_directives /\ parse_text 400 (show_file demo_directives) = Ret (ROk demo_directives).
Proof. split; [exact demo_directives_wf|vm_compute; reflexivity]. Qed.
Print Assumptions C59_round_trip.
Print Assumptions C59_only_these.
Print Assumptions C59_files_exactly.

(** ** C60 *)
Theorem C60_directive_names : forall w d, dir_from_string w = Some d <-> same_letters w (dir_name d).
Proof. exact dir_from_string_iff. Qed.
Theorem C60_values : forall s v tks, parse_value tks s = ROk v <-> In v tks /\ same_letters s (value_text v).
Proof. intros s v tks. apply parse_value_iff. Qed.
(** A word and a value on one line. *)
Lemma word_value_file : forall w c v, Forall letter w -> w <> [] -> letter c -> Forall letter v -> dir_from_string w <> Some KDirRule ->
  forall fuel, (length (w ++ B " " ++ c :: v) < fuel)%nat -> parse_text fuel (w ++ B " " ++ c :: v) =
  match dir_from_string w with
  | Some KDirRuleEng => match parse_value [KOn; KOff; KElse] (c :: v) with ROk x => Ret (ROk [DRuleEng (mode_of x)]) | RErr _ => Ret (RErr EOther) end
  | Some KDirReqBody => match parse_value [KOn; KOff] (c :: v) with ROk x => Ret (ROk [DReqBody (match x with KOn => true | _ => false end)]) | RErr _ => Ret (RErr EOther) end
  | Some KDirResBody => match parse_value [KOn; KOff] (c :: v) with ROk x => Ret (ROk [DResBody (match x with KOn => true | _ => false end)]) | RErr _ => Ret (RErr EOther) end
  | _ => Ret (RErr EOther)
  end.
Proof.
  intros w c v LW NW LC LV NR fuel F. destruct fuel as [|fuel]; [lia|]. rewrite parse_text_bos. cbn [all_directive].
  assert (NS : ~ starts_with sep_char (w ++ B " " ++ c :: v)).
  { intros (x & r & E & X). destruct w as [|y w]; [easy|]. injection E as <- _. inversion LW; subst. now apply letter_no_sep in X. }
  destruct (read_directive_body_eq (S fuel) [] (w ++ B " " ++ c :: v) 1) as (l & E); [constructor|exact NS|destruct w; [easy|discriminate]|].
  cbn [app] in E. rewrite E. unfold read_directive_body, read_word. cbn [s_bos s_inp s_buf s_line].
  rewrite (word_loop_app w (B " " ++ c :: v) [] LW (space_not_letter _)). cbn [app].
  assert (A : argument [] (c :: v) (B " " ++ c :: v)).
  { apply ar_last; [reflexivity|exists c, v; split; [reflexivity|apply letter_plain in LC; tauto]|apply gap_blank; [now left|constructor]|].
    apply letters_escaped. intros d I. assert (LD : letter d) by (destruct I as [<-|I]; [exact LC|rewrite Forall_forall in LV; auto]).
    apply letter_plain in LD. tauto. }
  destruct (read_argument _ _ _ A (S fuel) l) as (l' & R). { rewrite app_nil_r. rewrite app_length in F. lia. } rewrite app_nil_r in R.
  assert (EOS : exists x, all_directive (S x) (Scanner false [] [] l') = Ret (ROk [])) by (exists 0%nat; reflexivity).
  assert (FU : exists x, fuel = S x) by (rewrite !app_length in F; simpl in F; destruct fuel; [lia|eauto]).
  destruct FU as (x & ->).
  destruct (dir_from_string w) as [[]|] eqn:ED; [| | | |reflexivity].
  - easy.
  - unfold read_tribool, read_value. rewrite R. cbn [bind]. destruct (parse_value [KOn; KOff; KElse] (c :: v)) as [y|[]] eqn:P; cbn [bind].
    + reflexivity.
    + reflexivity.
    + reflexivity.
  - unfold read_bool, read_value. rewrite R. cbn [bind]. destruct (parse_value [KOn; KOff] (c :: v)) as [y|[]]; reflexivity.
  - unfold read_bool, read_value. rewrite R. cbn [bind]. destruct (parse_value [KOn; KOff] (c :: v)) as [y|[]]; reflexivity.
Qed.
(** Words that name no directive are errors whatever follows, and a flag directive
    takes exactly the case variants of its values. *)
Theorem C60_word_and_value : forall w c v, Forall letter w -> w <> [] -> letter c -> Forall letter v ->
  (forall b, (exists fuel, parse_text fuel (w ++ B " " ++ c :: v) = Ret (ROk [DReqBody b])) <->
     same_letters w (B "SecRequestBodyAccess") /\ flag_value (c :: v) b) /\
  (forall b, (exists fuel, parse_text fuel (w ++ B " " ++ c :: v) = Ret (ROk [DResBody b])) <->
     same_letters w (B "SecResponseBodyAccess") /\ flag_value (c :: v) b) /\
  (forall z, (exists fuel, parse_text fuel (w ++ B " " ++ c :: v) = Ret (ROk [DRuleEng z])) <->
     same_letters w (B "SecRuleEngine") /\ mode_value (c :: v) z).
Proof.
  intros w c v LW NW LC LV. set (t := w ++ B " " ++ c :: v).
  assert (UP : forall fuel r, parse_text fuel t = Ret r -> parse_text (S (fuel + length t)) t = Ret r).
  { intros fuel r H. rewrite parse_text_bos in *. destruct (all_small fuel (S (fuel + length t)) (Scanner false t [] 1) ltac:(lia)) as [X|X]; congruence. }
  pose proof (word_value_file w c v LW NW LC LV) as K.
  fold t in K.
  assert (RULE : forall ds, dir_from_string w = Some KDirRule -> forall f, parse_text f t = Ret (ROk ds) -> forall d, ds = [d] -> exists vs o a, d = DRule vs o a).
  { intros ds ED f H d ->. assert (HF : file_text [d] t) by (apply parse_text_iff; eauto).
    inversion HF as [|g d' e ds' k S1 D HF' EQ1 EQ2]; subst.
    assert (G : g = []).
    { destruct g as [|x g]; [reflexivity|]. destruct w as [|y w]; [easy|]. injection EQ2 as -> _. apply Forall_inv in S1, LW. now apply letter_no_sep in LW. }
    subst g. cbn [app] in EQ2. apply dir_from_string_iff in ED.
    inversion D as [w' vs o a s1 s2 s3 e1 e2 e3 KW|w' z s e' KW|w' b s e' KW|w' b s e' KW]; subst; [eauto|exfalso..];
      pose proof KW as KW'; apply keyword_letters in KW' as [LW' NL']; destruct KW as [KW _];
      (assert (X : w' = w) by (
         assert (W1 : word_loop t [] = (e' ++ k, w')) by (rewrite <- EQ2, <- app_assoc; now rewrite word_loop_app);
         assert (W2 : word_loop t [] = (B " " ++ c :: v, w)) by (unfold t; rewrite (word_loop_app w (B " " ++ c :: v) [] LW (space_not_letter _)); reflexivity);
         congruence); subst w'; apply same_letters_iff in ED, KW; rewrite ED in KW; discriminate). }
  split; [|split]; intro z; (split; [intros (fuel & H)|intros [H1 H2]]).
  - pose proof H as H0. apply UP in H. rewrite K in H by (lia || (intro ED; destruct (RULE _ ED _ H0 _ eq_refl) as (? & ? & ? & ?); discriminate)).
    destruct (dir_from_string w) as [[]|] eqn:ED; try discriminate.
    + destruct (parse_value [KOn; KOff; KElse] (c :: v)); discriminate.
    + destruct (parse_value [KOn; KOff] (c :: v)) as [y|] eqn:P; [|discriminate]. injection H as <-. apply flag_iff in P as [P _].
      apply dir_from_string_iff in ED. auto.
    + destruct (parse_value [KOn; KOff] (c :: v)); discriminate.
  - exists (S (length t)). apply (dir_from_string_iff w KDirReqBody) in H1. rewrite K by (lia || congruence). rewrite H1.
    rewrite (proj2 (flag_iff (c :: v) (if z then KOn else KOff))); [now destruct z|]. destruct z; split; auto; discriminate.
  - pose proof H as H0. apply UP in H. rewrite K in H by (lia || (intro ED; destruct (RULE _ ED _ H0 _ eq_refl) as (? & ? & ? & ?); discriminate)).
    destruct (dir_from_string w) as [[]|] eqn:ED; try discriminate.
    + destruct (parse_value [KOn; KOff; KElse] (c :: v)); discriminate.
    + destruct (parse_value [KOn; KOff] (c :: v)); discriminate.
    + destruct (parse_value [KOn; KOff] (c :: v)) as [y|] eqn:P; [|discriminate]. injection H as <-. apply flag_iff in P as [P _].
      apply dir_from_string_iff in ED. auto.
  - exists (S (length t)). apply (dir_from_string_iff w KDirResBody) in H1. rewrite K by (lia || congruence). rewrite H1.
    rewrite (proj2 (flag_iff (c :: v) (if z then KOn else KOff))); [now destruct z|]. destruct z; split; auto; discriminate.
  - pose proof H as H0. apply UP in H. rewrite K in H by (lia || (intro ED; destruct (RULE _ ED _ H0 _ eq_refl) as (? & ? & ? & ?); discriminate)).
    destruct (dir_from_string w) as [[]|] eqn:ED; try discriminate.
    + destruct (parse_value [KOn; KOff; KElse] (c :: v)) as [y|] eqn:P; [|discriminate]. injection H as <-.
      apply dir_from_string_iff in ED. split; [exact ED|]. apply mode_iff. eauto.
    + destruct (parse_value [KOn; KOff] (c :: v)); discriminate.
    + destruct (parse_value [KOn; KOff] (c :: v)); discriminate.
  - exists (S (length t)). apply (dir_from_string_iff w KDirRuleEng) in H1. rewrite K by (lia || congruence). rewrite H1.
    apply mode_iff in H2 as (y & -> & ->). reflexivity.
Qed.
Theorem C60_unknown_word : forall w c v, Forall letter w -> w <> [] -> letter c -> Forall letter v ->
  (forall d, ~ same_letters w (dir_name d)) -> forall fuel, (length (w ++ B " " ++ c :: v) < fuel)%nat ->
  parse_text fuel (w ++ B " " ++ c :: v) = Ret (RErr EOther).
Proof.
  intros w c v LW NW LC LV N fuel F. assert (E : dir_from_string w = None).
  { destruct (dir_from_string w) as [d|] eqn:E; [|reflexivity]. apply dir_from_string_iff in E. now apply N in E. }
  rewrite (word_value_file w c v LW NW LC LV ltac:(congruence) fuel F). now rewrite E.
Qed.
Example C60_example : parse_text 100 (B "sEcRULEEngine detectionONLY") = Ret (ROk [DRuleEng 2]) /\
  parse_text 100 (B "SecRequestBodyAccess DetectionOnly") = Ret (RErr EOther) /\ parse_text 100 (B "SecRulez On") = Ret (RErr EOther) /\
  parse_text 100 (B "SECREQUESTBODYACCESS oN") = Ret (ROk [DReqBody true]).
Proof. repeat split; vm_compute; reflexivity. Qed.
Print Assumptions C60_directive_names.
Print Assumptions C60_values.
Print Assumptions C60_word_and_value.
Print Assumptions C60_unknown_word.
