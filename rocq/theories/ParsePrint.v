(** Written directives are texts of the grammar, and every directive the grammar
    can express can be written. *)
From Verif Require Import Base BaseFacts GoStrings Buffer Types Variables SpecText NumFacts SpecVars VarText Scanner SpecParse ParseFacts ParseLists ParseFiles.
From Coq Require Import ZifyBool.

Ltac one := apply Forall_cons; [|apply Forall_nil].
(** ** Quoting *)
Lemma written_escaped : forall q k s, quote_char q -> escaped [q] (q :: k) s (flat_map written s).
Proof.
  intros q k s Q. induction s as [|c s IH]; [constructor|]. cbn [flat_map]. unfold written.
  destruct (Ascii.eqb_spec c "\") as [->|N1]; [apply es_named; [simpl; tauto|exact IH]|].
  destruct (Ascii.eqb_spec c "'") as [->|N2]; [apply es_named; [simpl; tauto|exact IH]|].
  destruct (Ascii.eqb_spec c """") as [->|N3]; [apply es_named; [simpl; tauto|exact IH]|].
  destruct (Ascii.eqb_spec c "010") as [->|N4]; [apply es_named; [simpl; tauto|exact IH]|].
  destruct (Ascii.eqb_spec c "013") as [->|N5]; [apply es_named; [simpl; tauto|exact IH]|].
  apply es_plain; [|exact N1| |exact IH].
  - intros [<-|[]]. destruct Q; congruence.
  - intros [->| ->]; congruence.
Qed.
Lemma quoted_argument : forall g q s k, quote_char q -> Forall blank g -> argument k s (g ++ quoted q s).
Proof.
  intros g q s k Q G. apply ar_quoted; [exact Q| |now apply written_escaped]. induction G; constructor; assumption.
Qed.

(** ** Lists *)
Lemma listed_joined : forall c seps l, In c seps -> l <> [] -> joined seps l (listed c l).
Proof.
  intros c seps l I. induction l as [|x l IH]; intro NE; [easy|]. destruct l as [|y l]; [constructor|].
  change (listed c (x :: y :: l)) with (x ++ c :: listed c (y :: l)). constructor; [exact I|]. apply IH. discriminate.
Qed.
Lemma var_name_commas : forall t c, In c (B ",|") -> ~ In c (var_name t).
Proof. intros t c H I. simpl in H. destruct H as [<-|[<-|[]]]; destruct t; unfold var_name, B in I; kill I. Qed.
Lemma show_var_free : forall v, wf_var v -> free_of (B ",|") (show_var v).
Proof.
  intros [t i co ex] [F _] c H. unfold show_var. cbn [pv_tok pv_index pv_count pv_excl] in *. rewrite !in_app_iff. intros [I|[I|I]].
  - assert (X : In c (B "!") \/ In c (B "&")) by (destruct ex; [auto|destruct co; [auto|destruct I]]).
    simpl in H, X. destruct H as [<-|[<-|[]]]; destruct X as [[X|[]]|[X|[]]]; discriminate.
  - now apply (var_name_commas t c H).
  - apply (F c H). destruct i as [|x i]; [destruct I|]. destruct I as [<-|I]; [|exact I].
    simpl in H. destruct H as [X|[X|[]]]; discriminate.
Qed.
Lemma show_var_text : forall v, wf_var v -> variable_text v (show_var v).
Proof.
  intros [t i co ex] [_ N]. unfold show_var. cbn [pv_tok pv_index pv_count pv_excl] in *. apply vt_text.
  - destruct ex, co; auto. elim N. auto.
  - destruct i as [|x i]; [now left|]. right. exists ":"%char. split; [now left|reflexivity].
Qed.
Lemma show_vars_text : forall vs, vs <> [] -> Forall wf_var vs -> variables_text vs (listed "|" (map show_var vs)).
Proof.
  intros vs NE F. exists (map show_var vs). split; [apply listed_joined; [simpl; auto|destruct vs; easy]|]. split.
  - apply Forall_map. eapply Forall_impl; [|exact F]. apply show_var_free.
  - clear NE. induction F as [|v vs W F IH]; constructor; [now apply show_var_text|exact IH].
Qed.
Lemma show_op_text : forall o, operator_text o (show_op o).
Proof.
  intros [t n a]. unfold show_op. cbn [po_tok po_not po_arg].
  assert (K : operator_text (POper t false a) (B "@" ++ op_name t ++ B " " ++ a)) by (apply ot_named; now right).
  destruct n; [now apply ot_not|exact K].
Qed.

(** ** Actions *)
Lemma digits_chars : forall s n, digits s n -> Forall (fun c => In c (B "0123456789")) s /\ exists r c, s = r ++ [c] /\ In c (B "0123456789").
Proof.
  intros s n H. induction H as [c d [_ D]|s n c d H [IH _] [_ D]]; apply nth_error_In in D.
  - split; [one; exact D|]. exists [], c. auto.
  - split; [apply Forall_app; split; [exact IH|one; exact D]|]. exists s, c. auto.
Qed.
Lemma denotes_chars : forall s n, denotes s n -> Forall (fun c => In c (B "+-0123456789")) s /\ exists r c, s = r ++ [c] /\ In c (B "0123456789").
Proof.
  intros s n H.
  assert (K : forall s, Forall (fun c => In c (B "0123456789")) s -> Forall (fun c => In c (B "+-0123456789")) s).
  { intros x F. eapply Forall_impl; [|exact F]. simpl. tauto. }
  destruct H as [s n D|s n D|s n D]; apply digits_chars in D as [F (r & c & E & I)].
  - split; [now apply K|]. eauto.
  - split; [apply Forall_cons; [simpl; tauto|now apply K]|]. exists ("+"%char :: r), c. now rewrite E.
  - split; [apply Forall_cons; [simpl; tauto|now apply K]|]. exists ("-"%char :: r), c. now rewrite E.
Qed.
Lemma denotes_no : forall s n c, denotes s n -> ~ In c (B "+-0123456789") -> ~ In c s.
Proof. intros s n c D N I. apply denotes_chars in D as [F _]. rewrite Forall_forall in F. now apply F in I. Qed.
Lemma denotes_unquoted : forall s n, denotes s n -> unquoted s s.
Proof.
  intros s n D. apply uq_plain. intros a m b -> [Q _].
  apply (denotes_no _ _ a D); [|now left]. destruct Q as [->| ->]; intro I; unfold B in I; kill I.
Qed.
Lemma atok_dec : forall a b : atok, {a = b} + {a <> b}.
Proof. decide equality. Qed.
Definition items_of (a : pactions) : list item :=
  map (fun x => ItAct (pa_tok x) (pa_arg x)) (pas_acts a) ++ map ItTrans (pas_trans a) ++
  (if pas_phase a =? 0 then [] else [ItPhase (pas_phase a)]) ++ (if pas_chain a then [ItChain] else []) ++ [ItId (pas_id a)].
Lemma items_collect : forall a, collects (items_of a) a.
Proof.
  intros [id ph ch tr ac]. unfold collects, items_of, id_of, phase_of, trans_of, acts_of. cbn [pas_id pas_phase pas_chain pas_trans pas_acts].
  rewrite !flat_map_app.
  assert (A : forall X (f : item -> list X), (forall t a, f (ItAct t a) = []) -> flat_map f (map (fun x => ItAct (pa_tok x) (pa_arg x)) ac) = []).
  { intros X f E. induction ac; [reflexivity|]. simpl. now rewrite E. }
  assert (T : forall X (f : item -> list X), (forall t, f (ItTrans t) = []) -> flat_map f (map ItTrans tr) = []).
  { intros X f E. induction tr; [reflexivity|]. simpl. now rewrite E. }
  assert (A2 : flat_map (fun i => match i with ItAct t a => [PAction t a] | _ => [] end) (map (fun x => ItAct (pa_tok x) (pa_arg x)) ac) = ac).
  { clear A. induction ac as [|[t x] ac IH]; [reflexivity|]. cbn [map flat_map pa_tok pa_arg app]. now rewrite IH. }
  assert (T2 : flat_map (fun i => match i with ItTrans t => [t] | _ => [] end) (map ItTrans tr) = tr).
  { clear T. induction tr as [|t tr IH]; [reflexivity|]. cbn [map flat_map app]. now rewrite IH. }
  rewrite A2, T2, !A, !T by reflexivity. cbn [app].
  repeat split.
  - destruct (ph =? 0), ch; reflexivity.
  - destruct (Z.eqb_spec ph 0) as [->|N], ch; reflexivity.
  - intros ->. rewrite !in_app_iff. right. right. right. left. now left.
  - rewrite !in_app_iff, !in_map_iff. intros [(x & X & _)|[(x & X & _)|[I|[I|[I|[]]]]]]; try discriminate; [|now destruct ch].
    destruct (ph =? 0); [destruct I|]. destruct I as [I|[]]. discriminate.
  - destruct (ph =? 0), ch; cbn; now rewrite ?app_nil_r.
  - destruct (ph =? 0), ch; cbn; now rewrite ?app_nil_r.
Qed.
Lemma itoa_no_comma : forall z, ~ In ","%char (itoa z).
Proof. intro z. apply (denotes_no _ _ _ (itoa_denotes z)). intro I. unfold B in I. kill I. Qed.
Lemma comma_free : forall s, ~ In ","%char s -> free_of (B ",") s.
Proof. intros s N c [<-|[]]. exact N. Qed.
Lemma no_comma_app : forall a b, ~ In ","%char a -> ~ In ","%char b -> free_of (B ",") (a ++ b).
Proof. intros a b H1 H2. apply comma_free. rewrite in_app_iff. tauto. Qed.
Lemma act_item : forall t v i, item_value t v i -> item_text i (act_name t ++ B ":" ++ v).
Proof. intros t v i H. apply (it_text t [] [] (":"%char :: v) v i); [apply white_nil..|right; reflexivity|exact H]. Qed.
Lemma trans_name_no_comma : forall t, ~ In ","%char (trans_name t).
Proof. intros [] I; unfold trans_name, B in I; kill I. Qed.
Lemma show_actions_items : forall a, wf_actions a -> exists parts,
  show_actions a = listed "," parts /\ parts <> [] /\ Forall (free_of (B ",")) parts /\ Forall2 item_text (items_of a) parts /\
  (exists t r, hd [] parts = act_name t ++ r) /\ exists r, last parts [] = B "id:" ++ r /\ denotes r (pas_id a).
Proof.
  intros [id ph ch tr ac] (I & P & F). unfold show_actions, items_of. cbn [pas_id pas_phase pas_chain pas_trans pas_acts] in *.
  eexists. split; [reflexivity|]. split; [|split; [|split; [|split]]].
  - intro X. apply app_eq_nil in X as [_ X]. apply app_eq_nil in X as [_ X]. apply app_eq_nil in X as [_ X]. apply app_eq_nil in X as [_ X]. discriminate.
  - rewrite !Forall_app. split; [|split; [|split; [|split]]].
    + apply Forall_map. eapply Forall_impl; [|exact F]. intros x (W & _). apply no_comma_app.
      * apply act_name_free. simpl. auto.
      * intros [X|X]; [discriminate|]. easy.
    + apply Forall_map. apply Forall_forall. intros t _. apply no_comma_app; [intro X; unfold B in X; kill X|apply trans_name_no_comma].
    + destruct (ph =? 0); [apply Forall_nil|one]. apply no_comma_app; [intro X; unfold B in X; kill X|apply itoa_no_comma].
    + destruct ch; [one|apply Forall_nil]. apply comma_free. intro X; unfold B in X; kill X.
    + one. apply no_comma_app; [intro X; unfold B in X; kill X|apply itoa_no_comma].
  - repeat apply Forall2_app.
    + clear - F. induction F as [|[t v] ac (W1 & W2 & W3) F IH]; constructor; [|exact IH]. cbn [pa_tok pa_arg] in *. apply act_item.
      destruct (atok_dec t KSeverity) as [->|N].
      * destruct (W3 eq_refl) as (n & R & ->). apply (iv_severity _ (itoa n)); [apply (denotes_unquoted _ n), itoa_denotes|apply itoa_denotes|exact R].
      * apply iv_other. simpl in *. intuition congruence.
    + clear. induction tr as [|t tr IH]; constructor; [|exact IH]. apply (act_item KT). apply iv_trans. apply trimQuote_iff. now destruct t.
    + destruct (Z.eqb_spec ph 0) as [->|N]; constructor; [|constructor]. apply (act_item KPhase). apply (iv_phase _ (itoa ph)); [apply (denotes_unquoted _ ph), itoa_denotes|apply itoa_denotes|lia].
    + destruct ch; constructor; [|constructor]. apply (it_text KChain [] [] [] [] ItChain); [apply white_nil..|auto|constructor].
    + constructor; [|constructor]. apply (act_item KId). apply (iv_id _ (itoa id)); [apply (denotes_unquoted _ id), itoa_denotes|apply itoa_denotes|exact I].
  - destruct ac as [|x ac]; [|eexists _, _; reflexivity]. destruct tr as [|t tr]; [|exists KT; eexists; reflexivity].
    destruct (ph =? 0); [|exists KPhase; eexists; reflexivity]. destruct ch; [exists KChain, []; reflexivity|exists KId; eexists; reflexivity].
  - exists (itoa id). split; [|apply itoa_denotes]. rewrite !app_assoc. apply last_last.
Qed.
Lemma white_first : forall c w, white (c :: w) -> ~ letter c.
Proof.
  intros c w W L. apply white_encs in W as (ws & E & F). destruct ws as [|e ws]; [discriminate|]. inversion F as [|? ? I _]; subst.
  assert (K : forallb (fun e => match e with c :: _ => negb (isAlphabet c) | [] => false end) space_encs = true) by (vm_compute; reflexivity).
  rewrite forallb_forall in K. specialize (K e I). destruct e as [|c' e]; [discriminate|]. injection E as -> _. apply letter_iff in L. now rewrite L in K.
Qed.
Lemma white_last : forall c w, white (w ++ [c]) -> ~ In c (B "0123456789").
Proof.
  intros c w W L. apply white_encs in W as (ws & E & F). destruct (exists_last (l := ws)) as (ws' & e & ->).
  { intros ->. destruct w; discriminate. }
  apply Forall_app in F as [_ F]. inversion F as [|? ? I _]; subst.
  assert (K : forallb (fun e => match e with [] => false | _ => negb (mem_byte (last e " "%char) (B "0123456789")) end) space_encs = true) by (vm_compute; reflexivity).
  rewrite forallb_forall in K. specialize (K e I). rewrite concat_app in E. simpl in E. rewrite app_nil_r in E.
  destruct e as [|x e]; [discriminate|]. destruct (exists_last (l := x :: e)) as (e' & y & Y); [discriminate|]. rewrite Y in *.
  rewrite app_assoc in E. apply app_inj_tail in E as [_ ->]. rewrite last_last in K. apply mem_iff in L. destruct (e' ++ [y]); [discriminate|].
  now rewrite L in K.
Qed.
Lemma listed_hd : forall c p l, exists r, listed c (p :: l) = p ++ r.
Proof. intros c p [|y l]; [exists []; symmetry; apply app_nil_r|]. eexists. reflexivity. Qed.
Lemma listed_last : forall c l, l <> [] -> exists r, listed c l = r ++ last l [].
Proof.
  intros c l. induction l as [|x l IH]; intro NE; [easy|]. destruct l as [|y l]; [exists []; reflexivity|].
  destruct (IH ltac:(discriminate)) as (r & E). exists (x ++ c :: r). change (listed c (x :: y :: l)) with (x ++ c :: listed c (y :: l)).
  rewrite E, <- app_assoc. reflexivity.
Qed.
Lemma act_name_letter : forall t, exists c r, act_name t = c :: r /\ letter c.
Proof. intros []; eexists _, _; (split; [reflexivity|apply letter_iff; reflexivity]). Qed.
Lemma show_actions_text : forall a, wf_actions a -> actions_text a (show_actions a).
Proof.
  intros a W. destruct (show_actions_items a W) as (parts & E & NE & FR & FI & (t & r & H) & (r2 & L & D)).
  exists (show_actions a), parts, (items_of a).
  destruct (act_name_letter t) as (c & r0 & EC & LC). destruct (denotes_chars _ _ D) as (_ & r3 & c3 & E3 & I3).
  assert (HD : exists x, show_actions a = c :: x).
  { rewrite E. destruct parts as [|p l]; [easy|]. destruct (listed_hd "," p l) as (x & ->). simpl in H. rewrite H, EC. eexists. reflexivity. }
  assert (TL : exists x, show_actions a = x ++ [c3]).
  { rewrite E. destruct (listed_last "," parts NE) as (x & ->). rewrite L, E3. exists (x ++ B "id:" ++ r3). now rewrite <- !app_assoc. }
  split; [|split; [|split; [|split; [|split]]]].
  - exists [], []. rewrite app_nil_r. split; [reflexivity|]. split; [constructor|]. split; [constructor|].
    intros w x WW NW. split; intro X.
    + destruct w as [|cw w]; [easy|]. destruct HD as (y & HD). rewrite HD in X. injection X as <- _. now apply white_first in WW.
    + destruct (exists_last NW) as (w' & cw & ->). destruct TL as (y & TL). rewrite TL, app_assoc in X. apply app_inj_tail in X as [_ <-]. now apply white_last in WW.
  - destruct HD as (y & ->). discriminate.
  - rewrite E. apply listed_joined; [now left|exact NE].
  - exact FR.
  - exact FI.
  - apply items_collect.
Qed.

(** ** Directives and files *)
Lemma keyword_exact : forall d k, ~ starts_with letter k -> keyword d k (dir_name d).
Proof. intros d k N. split; [now apply same_letters_iff|exact N]. Qed.
Lemma space_not_letter : forall k, ~ starts_with letter (" "%char :: k).
Proof. intros k (c & r & E & L). injection E as <- _. apply letter_iff in L. discriminate. Qed.
Lemma letters_escaped : forall D k s, (forall c, In c s -> ~ In c D /\ c <> "\"%char /\ ~ newline c) -> escaped D k s s.
Proof.
  intros D k s H. induction s as [|c s IH]; [constructor|]. destruct (H c (or_introl eq_refl)) as (N1 & N2 & N3). apply es_plain; auto.
  apply IH. intros d I. apply H. now right.
Qed.
Lemma letter_plain : forall c, letter c -> ~ In c ends /\ c <> "\"%char /\ ~ newline c /\ ~ quote_char c.
Proof.
  assert (K : forall c, negb (isAlphabet c && (mem_byte c ends || Ascii.eqb c "\" || isNewLine c || isQuote c)) = true).
  { apply for_all_bytes. vm_compute. reflexivity. }
  intros c L. specialize (K c). apply letter_iff in L. rewrite L in K. cbn [andb] in K. apply negb_true_iff in K. rewrite !orb_false_iff in K.
  destruct K as (((K1 & K2) & K3) & K4). apply mem_not in K1. apply Ascii.eqb_neq in K2. apply newline_not in K3. rewrite <- quote_iff, K4. auto.
Qed.
Lemma bare_argument : forall c v k, letter c -> Forall letter v -> argument k (c :: v) (B " " ++ (c :: v) ++ ["010"%char]).
Proof.
  intros c v k L F. apply ar_bare.
  - simpl. auto 8.
  - exists c, v. split; [reflexivity|]. apply letter_plain in L. tauto.
  - apply gap_blank; [now left|apply gap_nil].
  - apply letters_escaped. intros d I. assert (LD : letter d) by (destruct I as [<-|I]; [exact L|rewrite Forall_forall in F; auto]).
    apply letter_plain in LD. tauto.
Qed.
Ltac letters := repeat (apply Forall_cons; [apply letter_iff; reflexivity|]); try apply Forall_nil.
Lemma flag_argument : forall b k, argument k (show_flag b) (B " " ++ show_flag b ++ ["010"%char]).
Proof. intros [] k; apply bare_argument; try (apply letter_iff; reflexivity); letters. Qed.
Lemma same_letters_refl : forall s, same_letters s s.
Proof. intro s. now apply same_letters_iff. Qed.
Lemma file_newline : forall ds t, file_text ds t -> file_text ds ("010"%char :: t).
Proof.
  intros ds t [g S1|g d e ds' k S1 D H].
  - constructor. apply Forall_cons; [right; left; now left|exact S1].
  - rewrite app_comm_cons. constructor; [|exact D|exact H]. apply Forall_cons; [right; left; now left|exact S1].
Qed.
Lemma show_directive_text : forall d ds k, wf_directive d -> file_text ds k -> file_text (d :: ds) (show_directive d ++ "010"%char :: k).
Proof.
  intros d ds k W H. destruct d as [vs o a|v|b|b].
  - destruct W as (NE & FV & WA).
    apply (ft_cons [] (DRule vs o a) (show_directive (DRule vs o a)) ds ("010"%char :: k)); [constructor| |now apply file_newline].
    change (show_directive (DRule vs o a)) with (dir_name KDirRule ++ (B " " ++ quoted """" (listed "|" (map show_var vs))) ++
      (B " " ++ quoted """" (show_op o)) ++ (B " " ++ quoted """" (show_actions a))).
    apply dt_rule with (s1 := listed "|" (map show_var vs)) (s2 := show_op o) (s3 := show_actions a).
    + apply keyword_exact. apply space_not_letter.
    + apply quoted_argument; [now right|one; now left].
    + apply quoted_argument; [now right|one; now left].
    + apply quoted_argument; [now right|one; now left].
    + now apply show_vars_text.
    + apply show_op_text.
    + now apply show_actions_text.
  - replace (show_directive (DRuleEng v) ++ "010"%char :: k) with ([] ++ (show_directive (DRuleEng v) ++ ["010"%char]) ++ k) by (simpl; now rewrite <- app_assoc).
    constructor; [constructor| |exact H]. cbn [show_directive]. simpl in W.
    assert (X : v = 0 \/ v = 1 \/ v = 2) by lia.
    assert (A : forall s, (exists c r, s = c :: r) -> Forall letter s -> mode_value s v -> directive_text k (DRuleEng v) (dir_name KDirRuleEng ++ (B " " ++ s ++ ["010"%char]))).
    { intros s (c & r & ->) F M. inversion F; subst. apply dt_engine with (s := c :: r); [apply keyword_exact, space_not_letter|now apply bare_argument|exact M]. }
    destruct X as [->|[->| ->]]; cbn [Z.eqb Pos.eqb];
      [apply (A (B "Off"))|apply (A (B "On"))|apply (A (B "DetectionOnly"))]; try (eexists _, _; reflexivity); try (unfold B; simpl; letters).
    + right. left. split; [reflexivity|apply same_letters_refl].
    + left. split; [reflexivity|apply same_letters_refl].
    + right. right. split; [reflexivity|apply same_letters_refl].
  - replace (show_directive (DReqBody b) ++ "010"%char :: k) with ([] ++ (dir_name KDirReqBody ++ (B " " ++ show_flag b ++ ["010"%char])) ++ k)
      by (simpl; now rewrite <- app_assoc).
    constructor; [constructor| |exact H]. apply dt_reqbody with (s := show_flag b); [apply keyword_exact, space_not_letter|apply flag_argument|].
    destruct b; apply same_letters_refl.
  - replace (show_directive (DResBody b) ++ "010"%char :: k) with ([] ++ (dir_name KDirResBody ++ (B " " ++ show_flag b ++ ["010"%char])) ++ k)
      by (simpl; now rewrite <- app_assoc).
    constructor; [constructor| |exact H]. apply dt_resbody with (s := show_flag b); [apply keyword_exact, space_not_letter|apply flag_argument|].
    destruct b; apply same_letters_refl.
Qed.
Lemma show_file_text : forall ds, Forall wf_directive ds -> file_text ds (show_file ds).
Proof.
  intros ds F. induction F as [|d ds W F IH]; [apply (ft_nil []); constructor|]. unfold show_file in *. cbn [flat_map]. rewrite <- app_assoc.
  now apply show_directive_text.
Qed.
(** Nothing else is ever parsed. *)
Lemma variable_wf : forall v s, variable_text v s -> free_of (B ",|") s -> wf_var v.
Proof.
  intros v s [t i co ex mark sel HM HS] F. split; cbn [pv_index pv_count pv_excl].
  - intros c C I. apply (F c C). rewrite !in_app_iff. right. right. destruct HS as [[-> ->]|(d & _ & ->)]; [destruct I|now right].
  - intros [-> ->]. destruct HM as [(_ & X & Y)|[(_ & X & Y)|(_ & X & Y)]]; discriminate.
Qed.
Lemma variables_wf : forall vs s, variables_text vs s -> vs <> [] /\ Forall wf_var vs.
Proof.
  intros vs s (parts & J & F & V). split.
  - intros ->. inversion V; subst. inversion J.
  - clear J. induction V as [|v p vs ps H V IH]; constructor; inversion F; subst; [now apply (variable_wf v p)|auto].
Qed.
Lemma item_wf : forall i p, item_text i p -> ~ In ","%char p ->
  match i with ItId n => int64 n | ItPhase n => 1 <= n <= 5 | ItAct t x => wf_act (PAction t x) | _ => True end.
Proof.
  intros i p [t w1 w2 sel v i' W1 W2 HS HI] N. assert (NV : ~ In ","%char v).
  { intro I. apply N. rewrite !in_app_iff. right. right. right. destruct HS as [[-> ->]| ->]; [destruct I|now right]. }
  destruct HI as [s x n U D I|s x n U I|s x n U D R|s|s t U|s x n U E P|s x n U D R|t s NT]; auto.
  - simpl in I. repeat (destruct I as [I|I]; [injection I as _ <-; lia|]). destruct I.
  - assert (L : (Z.to_nat n < 8)%nat) by (apply (nth_error_Some severity_names (Z.to_nat n)); congruence).
    split; [apply itoa_no_comma|]. split; [simpl; intuition discriminate|]. intros _. exists n. split; [lia|reflexivity].
  - split; [apply itoa_no_comma|]. split; [simpl; intuition discriminate|]. intros _. exists n. auto.
  - split; [exact NV|]. split; [simpl in *; tauto|]. intro E. cbn [pa_tok] in E. subst. elim NT. simpl. tauto.
Qed.
Lemma last_in : forall A (l : list A) d, l = [] \/ In (last l d) l.
Proof. intros A. induction l as [|x l IH]; intro d; [now left|]. right. rewrite last_next. destruct (IH x) as [->|I]; [now left|now right]. Qed.
Lemma actions_wf : forall a s, actions_text a s -> wf_actions a.
Proof.
  intros a s (core & parts & items & _ & _ & _ & F & FI & C1 & C2 & _ & _ & C5).
  assert (K : Forall (fun i => match i with ItId n => int64 n | ItPhase n => 1 <= n <= 5 | ItAct t x => wf_act (PAction t x) | _ => True end) items).
  { clear - F FI. induction FI as [|i p is ps H FI IH]; constructor; inversion F as [|? ? F1 F2]; subst; [|auto]. apply (item_wf i p H). apply F1. now left. }
  rewrite Forall_forall in K. split; [|split].
  - rewrite C1. destruct (last_in _ (id_of items) 0) as [->|I]; [simpl; unfold int64; lia|].
    unfold id_of in I at 2. apply in_flat_map in I as (i & I & X). specialize (K i I). destruct i; try destruct X as [<-|[]]; try destruct X. exact K.
  - rewrite C2. destruct (last_in _ (phase_of items) 0) as [->|I]; [simpl; lia|].
    unfold phase_of in I at 2. apply in_flat_map in I as (i & I & X). specialize (K i I). destruct i; try destruct X as [<-|[]]; try destruct X. lia.
  - rewrite C5. apply Forall_forall. intros x I. apply in_flat_map in I as (i & I & X). specialize (K i I). destruct i; try destruct X as [<-|[]]; try destruct X. exact K.
Qed.
Lemma directive_wf : forall k d e, directive_text k d e -> wf_directive d.
Proof.
  intros k d e [w vs o a s1 s2 s3 e1 e2 e3 K A1 A2 A3 V P Q|w v s e' K A V|w b s e' K A V|w b s e' K A V]; simpl; auto.
  - apply variables_wf in V as [NE F]. apply actions_wf in Q. auto.
  - destruct V as [[-> _]|[[-> _]|[-> _]]]; lia.
Qed.
Lemma file_wf : forall ds t, file_text ds t -> Forall wf_directive ds.
Proof. intros ds t H. induction H as [|g d e ds k S1 D H IH]; constructor; [now apply directive_wf in D|exact IH]. Qed.
