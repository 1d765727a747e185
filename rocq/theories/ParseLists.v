(** Variable lists, operators and action lists: the parser accepts exactly the
    texts of the grammar. *)
From Verif Require Import Base BaseFacts GoStrings Buffer Types Variables SpecText NumFacts SpecVars VarText Scanner SpecParse ParseFacts.
From Coq Require Import ZifyBool.

Lemma table_iff : forall A (name : A -> bs) (m : list (bs * A)),
  Forall (fun p => fst p = name (snd p)) m -> (forall t, assoc (name t) m = Some t) ->
  forall s t, assoc s m = Some t <-> s = name t.
Proof.
  intros A name m F H s t. split; [|intros ->; apply H]. intro E. apply assoc_in in E. rewrite Forall_forall in F. now apply F in E.
Qed.
Lemma variable_iff : forall s t, assoc s variableMap = Some t <-> s = var_name t.
Proof. apply table_iff; [repeat constructor|intros []; reflexivity]. Qed.
Lemma operator_iff : forall s t, assoc s operatorMap = Some t <-> s = op_name t.
Proof. apply table_iff; [repeat constructor|intros []; reflexivity]. Qed.
Lemma action_iff : forall s t, assoc s actionMap = Some t <-> s = act_name t.
Proof. apply table_iff; [repeat constructor|intros []; reflexivity]. Qed.
Lemma transformation_iff : forall s t, assoc s transformationMap = Some t <-> s = trans_name t.
Proof. apply table_iff; [repeat constructor|intros []; reflexivity]. Qed.

(** ** Splitting at several separators *)
Lemma index_any_some : forall seps s n, index_any seps s = Some n ->
  exists a c r, s = a ++ c :: r /\ length a = n /\ In c seps /\ free_of seps a.
Proof.
  intros seps. induction s as [|x s IH]; intros n H; [discriminate|]. simpl in H.
  destruct (existsb (Ascii.eqb x) seps) eqn:E.
  - injection H as <-. exists [], x, s. split; [reflexivity|]. split; [reflexivity|]. split; [now apply mem_iff|]. intros c _ [].
  - destruct (index_any seps s) as [m|] eqn:EI; [|discriminate]. injection H as <-. destruct (IH m eq_refl) as (a & c & r & -> & <- & I & F).
    exists (x :: a), c, r. split; [reflexivity|]. split; [reflexivity|]. split; [exact I|]. intros d D [->|J]; [|now apply (F d)].
    apply mem_not in E. easy.
Qed.
Lemma index_any_none : forall seps s, index_any seps s = None <-> free_of seps s.
Proof.
  intros seps. induction s as [|x s IH]; simpl; [split; [intros _ c _ []|reflexivity]|].
  destruct (existsb (Ascii.eqb x) seps) eqn:E.
  - split; [discriminate|]. intro F. elim (F x); [now apply mem_iff|now left].
  - destruct (index_any seps s) as [m|]; split; intro H; try discriminate; try reflexivity.
    + assert (F : free_of seps s) by (intros c C I; apply (H c C); now right). apply IH in F. discriminate.
    + intros c C [->|I]; [apply mem_not in E; easy|]. now apply (proj1 IH eq_refl c).
Qed.
Lemma index_any_app : forall seps a c r, free_of seps a -> In c seps -> index_any seps (a ++ c :: r) = Some (length a).
Proof.
  intros seps. induction a as [|x a IH]; intros c r F I; simpl.
  - fold (mem_byte c seps). now rewrite (proj2 (mem_iff c seps) I).
  - fold (mem_byte x seps). rewrite (proj2 (mem_not x seps)); [|intro J; apply (F x J); now left]. rewrite IH; [reflexivity| |exact I].
    intros d D J. apply (F d D). now right.
Qed.
Lemma firstn_app_len : forall A (a b : list A), firstn (length a) (a ++ b) = a.
Proof. intros. rewrite firstn_app, Nat.sub_diag, firstn_all, firstn_O. apply app_nil_r. Qed.
Lemma skipn_app_len : forall A (a b : list A) c, skipn (S (length a)) (a ++ c :: b) = b.
Proof. intros A a b c. induction a; simpl; auto. Qed.
Lemma count_app : forall c a b, count_byte c (a ++ b) = (count_byte c a + count_byte c b)%nat.
Proof. intros. unfold count_byte. now rewrite filter_app, app_length. Qed.
Lemma count_free : forall c a, ~ In c a -> count_byte c a = 0%nat.
Proof.
  intros c a. unfold count_byte. induction a as [|x a IH]; simpl; intro H; [reflexivity|].
  destruct (Ascii.eqb_spec c x) as [->|N]; [elim H; now left|apply IH; tauto].
Qed.
Definition seps_in (s : bs) : nat := (count_byte "," s + count_byte "|" s)%nat.
Lemma seps_app : forall a c r, free_of (B ",|") a -> In c (B ",|") -> seps_in (a ++ c :: r) = S (seps_in r).
Proof.
  intros a c r F I. unfold seps_in. rewrite !count_app, !(count_free _ a) by (apply F; simpl; auto).
  unfold count_byte. simpl in *. destruct I as [<-|[<-|[]]]; simpl; lia.
Qed.
Lemma split_multi_loop_joined : forall parts s, joined (B ",|") parts s -> Forall (free_of (B ",|")) parts ->
  forall f count i, (length s < f)%nat -> (i + seps_in s < count)%nat -> split_multi_loop f count i s = Ret parts.
Proof.
  intros parts s J. induction J as [p|p c ps s I J IH]; intros F f count i L C; (destruct f as [|f]; [lia|]); cbn [split_multi_loop].
  - destruct (Nat.leb_spec count i); [lia|]. inversion F; subst. rewrite (proj2 (index_any_none _ _)) by assumption. reflexivity.
  - inversion F as [|? ? F1 F2]; subst. destruct (Nat.leb_spec count i); [lia|]. rewrite index_any_app by assumption.
    rewrite skipn_app_len, firstn_app_len. rewrite seps_app in C by assumption. rewrite app_length in L. simpl in L.
    rewrite (IH F2) by lia. reflexivity.
Qed.
Lemma joined_exists : forall s, exists parts, joined (B ",|") parts s /\ Forall (free_of (B ",|")) parts.
Proof.
  induction s as [s IH] using strong_length_ind. destruct (index_any (B ",|") s) as [n|] eqn:E.
  - apply index_any_some in E as (a & c & r & -> & _ & I & F). destruct (IH r) as (ps & J & FP); [rewrite app_length; simpl; lia|].
    exists (a :: ps). split; constructor; assumption.
  - apply index_any_none in E. exists [s]. split; repeat constructor. exact E.
Qed.
Lemma split_multi_iff : forall s parts, split_multi s = Ret parts <-> joined (B ",|") parts s /\ Forall (free_of (B ",|")) parts.
Proof.
  intros s parts.
  assert (K : forall ps, joined (B ",|") ps s -> Forall (free_of (B ",|")) ps -> split_multi s = Ret ps).
  { intros ps J F. unfold split_multi. apply split_multi_loop_joined; [exact J|exact F|lia|unfold seps_in; lia]. }
  split; [|intros [J F]; now apply K]. intro H. destruct (joined_exists s) as (ps & J & F). pose proof (K ps J F) as H2. rewrite H in H2.
  apply Ret_eq in H2. now subst.
Qed.
Lemma split_multi_returns : forall s, exists parts, split_multi s = Ret parts.
Proof. intro s. destruct (joined_exists s) as (ps & H). exists ps. now apply split_multi_iff. Qed.

(** ** Variables *)
Lemma var_name_free : forall t, free_of (B ":.") (var_name t) /\ free_of (B ".:") (var_name t) /\
  exists c r, var_name t = c :: r /\ c <> "!"%char /\ c <> "&"%char.
Proof.
  intro t. repeat split.
  - intros c [<-|[<-|[]]] I; destruct t; unfold B in I; kill I.
  - intros c [<-|[<-|[]]] I; destruct t; unfold B in I; kill I.
  - destruct t; eexists _, _; (split; [reflexivity|split; discriminate]).
Qed.
(** Reading a name with its selector. *)
Definition name_index (a : bs) : bs * bs :=
  match index_any (B ".:") a with Some (S i) => (firstn (S i) a, skipn (S (S i)) a) | _ => (a, []) end.
Lemma name_index_iff : forall a t i, let '(n, x) := name_index a in
  (assoc n variableMap = Some t /\ x = i) <->
  exists sel, a = var_name t ++ sel /\ (sel = [] /\ i = [] \/ exists c, In c (B ":.") /\ sel = c :: i).
Proof.
  intros a t i. destruct (var_name_free t) as (F1 & F2 & c0 & r0 & E0 & _). unfold name_index. destruct (index_any (B ".:") a) as [[|n]|] eqn:E.
  - apply index_any_some in E as (b & c & r & -> & L & I & F). destruct b; [|discriminate]. rewrite variable_iff. split.
    + intros [X _]. simpl in X. elim (F2 c I). rewrite <- X. now left.
    + intros (sel & X & _). rewrite E0 in X. injection X as -> _. elim (F2 c0 I). rewrite E0. now left.
  - apply index_any_some in E as (b & c & r & -> & L & I & F). rewrite <- L, firstn_app_len, skipn_app_len, variable_iff. split.
    + intros [-> ->]. exists (c :: i). split; [reflexivity|]. right. exists c. split; [|reflexivity]. simpl in *. intuition auto.
    + intros (sel & X & [[-> ->]|(d & D & ->)]).
      * rewrite app_nil_r in X. elim (F2 c I). rewrite <- X. apply in_or_app. right. now left.
      * assert (K : index_any (B ".:") (b ++ c :: r) = index_any (B ".:") (var_name t ++ d :: i)) by now rewrite X.
        rewrite !index_any_app in K; [|exact F2|simpl in *; intuition auto|exact F|exact I]. injection K as K.
        assert (K1 : firstn (length b) (b ++ c :: r) = firstn (length (var_name t)) (var_name t ++ d :: i)) by now rewrite X, K.
        assert (K2 : skipn (S (length b)) (b ++ c :: r) = skipn (S (length (var_name t))) (var_name t ++ d :: i)) by now rewrite X, K.
        rewrite !firstn_app_len in K1. rewrite !skipn_app_len in K2. auto.
  - apply index_any_none in E. rewrite variable_iff. split.
    + intros [-> <-]. exists []. split; [symmetry; apply app_nil_r|]. now left.
    + intros (sel & -> & [[-> ->]|(d & D & ->)]); [now rewrite app_nil_r|].
      elim (E d); [simpl in *; intuition auto|]. apply in_or_app. right. now left.
Qed.
Definition parse_marked (a : bs) (count excl : bool) : res pvar :=
  let '(name, index) := name_index a in
  match assoc name variableMap with None => RErr EOther | Some tk => ROk (PVar tk index count excl) end.
Lemma parse_marked_iff : forall a count excl v, parse_marked a count excl = ROk v <->
  pv_count v = count /\ pv_excl v = excl /\
  exists sel, a = var_name (pv_tok v) ++ sel /\ (sel = [] /\ pv_index v = [] \/ exists c, In c (B ":.") /\ sel = c :: pv_index v).
Proof.
  intros a count excl [t i c e]. cbn [pv_tok pv_index pv_count pv_excl]. pose proof (name_index_iff a t i) as K. unfold parse_marked.
  destruct (name_index a) as [n x]. rewrite <- K. destruct (assoc n variableMap) as [t'|].
  - split; [intro H; injection H as -> -> -> ->; auto|]. intros (-> & -> & H & ->). now injection H as ->.
  - split; [discriminate|]. intros (_ & _ & H & _). discriminate.
Qed.
Lemma parse_variable_marked : forall c r, parse_variable (c :: r) =
  if Ascii.eqb c "!" then parse_marked r false true else if Ascii.eqb c "&" then parse_marked r true false else parse_marked (c :: r) false false.
Proof.
  intros c r. unfold parse_variable, parse_marked, name_index. destruct (Ascii.eqb c "!"); [reflexivity|].
  destruct (Ascii.eqb c "&"); reflexivity.
Qed.
Lemma parse_variable_iff : forall a v, parse_variable a = ROk v <-> variable_text v a.
Proof.
  intros a v. destruct v as [t i count excl]. destruct (var_name_free t) as (_ & _ & c0 & r0 & E0 & N1 & N2). split.
  - destruct a as [|c r]; [discriminate|]. rewrite parse_variable_marked.
    destruct (Ascii.eqb_spec c "!") as [->|H1]; [|destruct (Ascii.eqb_spec c "&") as [->|H2]]; intro H; apply parse_marked_iff in H;
      cbn [pv_tok pv_index pv_count pv_excl] in H; destruct H as (-> & -> & sel & E & HS).
    + rewrite E. apply (vt_text t i false true (B "!") sel); auto.
    + rewrite E. apply (vt_text t i true false (B "&") sel); auto.
    + rewrite E. apply (vt_text t i false false [] sel); auto.
  - intro H. inversion H as [t' i' count' excl' mark sel HM HS]; subst. destruct HM as [(-> & -> & ->)|[(-> & -> & ->)|(-> & -> & ->)]].
    + cbn [app]. assert (K : parse_marked (var_name t ++ sel) false false = ROk (PVar t i false false)).
      { apply parse_marked_iff. cbn. eauto 6. }
      rewrite E0 in K |- *. cbn [app] in *. rewrite parse_variable_marked.
      destruct (Ascii.eqb_spec c0 "!"); [easy|]. destruct (Ascii.eqb_spec c0 "&"); [easy|]. exact K.
    + change (B "!" ++ var_name t ++ sel) with ("!"%char :: (var_name t ++ sel)). rewrite parse_variable_marked.
      apply parse_marked_iff. cbn. eauto 6.
    + change (B "&" ++ var_name t ++ sel) with ("&"%char :: (var_name t ++ sel)). rewrite parse_variable_marked.
      apply parse_marked_iff. cbn. eauto 6.
Qed.
Lemma parse_variable_list_iff : forall l vs, parse_variable_list l = ROk vs <-> Forall2 variable_text vs l.
Proof.
  induction l as [|a l IH]; intro vs; simpl.
  - split; [intro H; injection H as <-; constructor|intro H; now inversion H].
  - destruct (parse_variable a) as [v|e] eqn:E.
    + destruct (parse_variable_list l) as [vs'|e'] eqn:EL.
      * split; [intro H; injection H as <-; constructor; [now apply parse_variable_iff|now apply IH]|].
        intro H. inversion H as [|v2 a2 vs2 l2 H1 H2]; subst. apply parse_variable_iff in H1. apply IH in H2. congruence.
      * split; [discriminate|]. intro H. inversion H as [|v2 a2 vs2 l2 H1 H2]; subst. apply IH in H2. discriminate.
    + split; [discriminate|]. intro H. inversion H as [|v2 a2 vs2 l2 H1 H2]; subst. apply parse_variable_iff in H1. congruence.
Qed.
Lemma variable_text_nonempty : forall v, ~ variable_text v [].
Proof. intros v H. apply parse_variable_iff in H. discriminate. Qed.
Lemma parse_variables_iff : forall s vs, parse_variables s = Ret (ROk vs) <-> variables_text vs s.
Proof.
  intros s vs. unfold variables_text. destruct s as [|c r].
  - split; [discriminate|]. intros (parts & J & _ & F). inversion J as [p E|p c ps s I J' E]; subst.
    + inversion F as [|v a ? ? H]; subst. now apply variable_text_nonempty in H.
    + destruct p; discriminate.
  - unfold parse_variables. destruct (split_multi_returns (c :: r)) as (parts & E). rewrite E. cbn [bind]. split.
    + intro H. apply Ret_eq in H. exists parts. apply split_multi_iff in E. apply parse_variable_list_iff in H. tauto.
    + intros (ps & J & F & V). assert (E2 : split_multi (c :: r) = Ret ps) by now apply split_multi_iff.
      rewrite E in E2. apply Ret_eq in E2. subst. f_equal. now apply parse_variable_list_iff.
Qed.
Lemma parse_variables_returns : forall s, exists r, parse_variables s = Ret r.
Proof. intros [|c s]; [now exists (RErr EOther)|]. unfold parse_variables. destruct (split_multi_returns (c :: s)) as (p & ->). now eexists. Qed.

(** ** Operators *)
Lemma op_name_free : forall t, ~ In " "%char (op_name t).
Proof. intros t I. destruct t; unfold op_name, B in I; kill I. Qed.
Definition parse_op (op : bs) (neg : bool) : res poper :=
  match op with
  | [] => RErr EOther
  | c :: _ =>
      if negb (Ascii.eqb c "@") then ROk (POper KRx neg op)
      else let '(name, arg) := cut " " op in
           match assoc (tl name) operatorMap with
           | None => RErr EOther
           | Some tk => ROk (POper tk neg (match arg with Some a => a | None => [] end))
           end
  end.
Lemma parse_operator_op : forall s, parse_operator s = match s with [] => RErr EOther | c :: r => if Ascii.eqb c "!" then parse_op r true else parse_op s false end.
Proof. intros [|c r]; [reflexivity|]. unfold parse_operator, parse_op. now destruct (Ascii.eqb c "!"). Qed.
Lemma parse_op_iff : forall s neg o, parse_op s neg = ROk o <-> po_not o = neg /\
  (po_tok o = KRx /\ po_arg o = s /\ starts_with (fun c => c <> "@"%char) s \/
   exists sel, (sel = [] /\ po_arg o = [] \/ sel = " "%char :: po_arg o) /\ s = "@"%char :: op_name (po_tok o) ++ sel).
Proof.
  intros s neg [t n a]. cbn [po_not po_tok po_arg]. destruct s as [|c r]; cbn [parse_op].
  - split; [discriminate|]. intros (_ & [(_ & _ & c & r & X & _)|(sel & _ & X)]); discriminate.
  - destruct (Ascii.eqb_spec c "@") as [->|NA]; cbn [negb].
    + pose proof (cut_spec " " r) as K. cbn [cut]. change (Ascii.eqb "@" " ") with false. cbv iota.
      destruct (cut " " r) as [name arg] eqn:EC. destruct K as [K1 K2]. cbn [tl]. split.
      * destruct (assoc name operatorMap) as [tk|] eqn:E; [|discriminate]. intro H. injection H as <- <- <-. apply operator_iff in E. split; [reflexivity|].
        right. destruct arg as [b|].
        -- exists (" "%char :: b). split; [now right|]. now rewrite K2, E.
        -- exists []. split; [now left|]. now rewrite K2, E, app_nil_r.
      * intros (-> & [(_ & _ & c & r' & X & N)|(sel & S1 & X)]); [injection X as <- <-; easy|]. injection X as X.
        destruct S1 as [[-> ->]| ->].
        -- rewrite app_nil_r in X. rewrite X, (cut_none _ _ (op_name_free t)) in EC. injection EC as <- <-.
           now rewrite (proj2 (operator_iff _ t) eq_refl).
        -- rewrite X, (cut_app _ _ _ (op_name_free t)) in EC. injection EC as <- <-. now rewrite (proj2 (operator_iff _ t) eq_refl).
    + split.
      * intro H. injection H as <- <- <-. split; [reflexivity|]. left. split; [reflexivity|]. split; [reflexivity|]. exists c, r. auto.
      * intros (-> & [(-> & -> & _)|(sel & _ & X)]); [reflexivity|]. injection X as X _. easy.
Qed.
Lemma classic_bang : forall s, starts_with (eq "!"%char) s \/ ~ starts_with (eq "!"%char) s.
Proof.
  intros [|c r]; [right; intros (c & r & X & _); discriminate|]. destruct (ascii_dec "!" c) as [<-|N].
  - left. now exists "!"%char, r.
  - right. intros (d & r' & X & <-). injection X as X _. now elim N.
Qed.
Lemma operator_text_plain : forall t a s, operator_text (POper t false a) s <->
  ~ starts_with (eq "!"%char) s /\
  (t = KRx /\ a = s /\ starts_with (fun c => c <> "@"%char) s \/
   exists sel, (sel = [] /\ a = [] \/ sel = " "%char :: a) /\ s = "@"%char :: op_name t ++ sel).
Proof.
  intros t a s. split.
  - intro H. inversion H as [t' a' sel HS|s' HS| |]; subst.
    + split; [intros (c & r & X & Y); injection X as <- <-; discriminate|]. right. eauto.
    + split; [|left; split; [reflexivity|]; split; [reflexivity|]; destruct HS as (c & r & -> & N & _); exists c, r; auto].
      intros (c & r & -> & <-). destruct HS as (c & r' & X & _ & N). injection X as <- <-. easy.
  - intros [N [(-> & -> & c & r & -> & NA)|(sel & HS & ->)]]; [|now constructor].
    apply ot_pattern. exists c, r. split; [reflexivity|]. split; [exact NA|]. intros ->. apply N. now exists "!"%char, r.
Qed.
Lemma parse_operator_iff : forall s o, parse_operator s = ROk o <-> operator_text o s.
Proof.
  intros s [t n a]. rewrite parse_operator_op. destruct s as [|c r].
  - split; [discriminate|]. intro H. inversion H as [t' a' sel HS|s' HS| |]; subst. destruct HS as (c & r & X & _). discriminate.
  - destruct (Ascii.eqb_spec c "!") as [->|NB]; rewrite parse_op_iff; cbn [po_not po_tok po_arg].
    + split.
      * intros (-> & H). destruct (classic_bang r) as [HB|HB].
        -- destruct H as [(-> & -> & _)|(sel & _ & ->)]; [now apply ot_not_bang|]. destruct HB as (c & r & X & <-). discriminate.
        -- apply ot_not. apply operator_text_plain. auto.
      * intro H. inversion H as [t' a' sel HS EQ1 EQ2|s' HS EQ1 EQ2|t' a' s' HS EQ1 EQ2|s' HS EQ1 EQ2]; subst.
        -- destruct HS as (c & r' & X & _ & N). injection X as <- <-. easy.
        -- apply operator_text_plain in HS as [_ HS]. auto.
        -- split; [reflexivity|]. left. split; [reflexivity|]. split; [reflexivity|]. destruct HS as (c & r' & -> & <-). exists "!"%char, r'.
           split; [reflexivity|discriminate].
    + split.
      * intros (-> & H). apply operator_text_plain. split; [|exact H]. intros (d & r' & X & <-). injection X as -> _. easy.
      * intro H. destruct n; [inversion H; subst; easy|]. apply operator_text_plain in H as [_ H]. auto.
Qed.

(** ** Actions *)
Lemma trim_iff : forall s core, trim_space s = core <-> trimmed_of s core.
Proof.
  intros s core. split.
  - intros <-. destruct (trim_shape s) as (w1 & w2 & E & W1 & W2 & S1 & S2). exists w1, w2. split; [exact E|]. split; [exact W1|]. split; [exact W2|].
    intros w r W NE. apply white_encs in W as (ws & -> & F). split; intro X.
    + destruct ws as [|e ws]; [now elim NE|]. inversion F; subst. simpl in X. rewrite <- app_assoc in X.
      apply (proj1 (strip_one_none _ _) S1) in X; assumption.
    + destruct (exists_last (l := ws)) as (ws' & e & ->); [intros ->; now elim NE|]. apply Forall_app in F as [_ F]. inversion F as [|? ? I]; subst.
      rewrite concat_app in X. simpl in X. rewrite app_nil_r, app_assoc in X. rewrite X in S2. rewrite rev_app_distr in S2.
      apply (proj1 (strip_one_none _ _) S2) with (e := rev e) (r := rev (r ++ concat ws')); [now apply in_map|reflexivity].
  - intros (w1 & w2 & -> & W1 & W2 & T). rewrite trim_pad by assumption. now apply trimmed_trim.
Qed.
Lemma trimQuote_ends : forall a m b, trimQuote (a :: m ++ [b]) = if isQuote a && isQuote b then m else a :: m ++ [b].
Proof.
  intros a m b. unfold trimQuote. destruct (m ++ [b]) as [|x r] eqn:E; [destruct m; discriminate|]. rewrite <- E.
  now rewrite last_last, removelast_last.
Qed.
Lemma short_or_ends : forall s : bs, (s = [] \/ exists a, s = [a]) \/ exists a m b, s = a :: m ++ [b].
Proof.
  intros [|a [|b r]]; [auto|eauto|]. right. destruct (exists_last (l := b :: r)) as (m & c & E); [discriminate|]. rewrite E. eauto.
Qed.
Lemma trimQuote_iff : forall s x, trimQuote s = x <-> unquoted s x.
Proof.
  intros s x. split.
  - intros <-. destruct (short_or_ends s) as [[->|(a & ->)]|(a & m & b & ->)].
    + constructor. intros a m b E; discriminate.
    + constructor. intros a' m b E; destruct m; discriminate.
    + rewrite trimQuote_ends. destruct (isQuote a && isQuote b) eqn:Q.
      * apply andb_true_iff in Q as [Q1 Q2]. constructor; now apply quote_iff.
      * constructor. intros a' m' b' E [Q1 Q2]. injection E as <- E. apply app_inj_tail in E as [_ <-].
        apply quote_iff in Q1, Q2. rewrite Q1, Q2 in Q. discriminate.
  - intros [s' HN|a m b Q1 Q2].
    + destruct (short_or_ends s') as [[->|(a & ->)]|(a & m & b & ->)]; [reflexivity..|].
      rewrite trimQuote_ends. destruct (isQuote a && isQuote b) eqn:Q; [|reflexivity]. apply andb_true_iff in Q as [Q1 Q2].
      elim (HN a m b eq_refl). split; now apply quote_iff.
    + apply quote_iff in Q1, Q2. now rewrite trimQuote_ends, Q1, Q2.
Qed.

(** One item. *)
Definition step (a : pactions) (i : item) : pactions :=
  match i with
  | ItId n => PActions n (pas_phase a) (pas_chain a) (pas_trans a) (pas_acts a)
  | ItPhase p => PActions (pas_id a) p (pas_chain a) (pas_trans a) (pas_acts a)
  | ItChain => PActions (pas_id a) (pas_phase a) true (pas_trans a) (pas_acts a)
  | ItTrans t => PActions (pas_id a) (pas_phase a) (pas_chain a) (pas_trans a ++ [t]) (pas_acts a)
  | ItAct t x => add_act a (PAction t x)
  end.
Definition item_of (tk : atok) (arg : bs) : option item :=
  match tk with
  | KId => option_map ItId (atoi (trimQuote arg))
  | KSeverity =>
      match assoc (trimQuote arg) severityMap with
      | Some n => Some (ItAct KSeverity (itoa n))
      | None => match atoi (trimQuote arg) with
                | Some n => if (0 <=? n) && (n <=? 7) then Some (ItAct KSeverity (itoa n)) else None
                | None => None
                end
      end
  | KT => option_map ItTrans (assoc (trimQuote arg) transformationMap)
  | KPhase =>
      match assoc (trimQuote arg) phaseAlias with
      | Some p => Some (ItPhase p)
      | None => match atoi (trimQuote arg) with
                | Some p => if (p <? 1) || (5 <? p) then None else Some (ItPhase p)
                | None => None
                end
      end
  | KChain => Some ItChain
  | _ => Some (ItAct tk arg)
  end.
Lemma process_action_item : forall a s, process_action a s =
  match parse_action s with
  | RErr e => RErr e
  | ROk (tk, arg) => match item_of tk arg with Some i => ROk (step a i) | None => RErr EOther end
  end.
Proof.
  intros a s. unfold process_action. destruct (parse_action s) as [[tk arg]|]; [|reflexivity]. destruct tk; try reflexivity; cbn [item_of].
  - now destruct (atoi (trimQuote arg)).
  - destruct (assoc (trimQuote arg) severityMap); [reflexivity|]. destruct (atoi (trimQuote arg)); [|reflexivity].
    now destruct ((0 <=? z) && (z <=? 7)).
  - destruct (assoc (trimQuote arg) phaseAlias); [reflexivity|]. destruct (atoi (trimQuote arg)); [|reflexivity].
    unfold PPhaseRequestHeaders, PPhaseLogging. now destruct ((z <? 1) || (5 <? z)).
  - now destruct (assoc (trimQuote arg) transformationMap).
Qed.
Lemma denotes_digit : forall s z, denotes s z -> ~ exists c r, s = c :: r /\ letter c.
Proof.
  intros s z D (c & r & -> & L).
  assert (K : forall s n, digits s n -> forall c r, s = c :: r -> ~ letter c).
  { clear. intros s n H. induction H as [c d D|s n c d H IH D]; intros c0 r0 E L.
    - injection E as -> _. destruct D as [D0 D]. revert L. unfold letter. apply nth_error_In in D. unfold B in D. simpl in D.
      repeat (destruct D as [<-|D]; [vm_compute; intuition congruence|]). destruct D.
    - destruct s as [|x s]; [inversion H as [|s' ? ? ? ? ? E']; destruct s'; discriminate|]. injection E as -> _. now apply (IH c0 s eq_refl). }
  inversion D as [s' n H|s' n H|s' n H]; subst; [now apply (K _ _ H c r)|unfold letter in L; vm_compute in L; intuition congruence..].
Qed.
Lemma severity_iff : forall x n, assoc x severityMap = Some n <-> nth_error severity_names (Z.to_nat n) = Some x /\ 0 <= n.
Proof.
  intros x n. split.
  - intro H. apply assoc_in in H. unfold severityMap in H. simpl in H.
    repeat (destruct H as [H|H]; [injection H as <- <-; split; [reflexivity|lia]|]). destruct H.
  - intros [H P]. assert (L : (Z.to_nat n < 8)%nat) by (apply (nth_error_Some severity_names (Z.to_nat n)); congruence).
    assert (K : n = 0 \/ n = 1 \/ n = 2 \/ n = 3 \/ n = 4 \/ n = 5 \/ n = 6 \/ n = 7) by lia.
    repeat (destruct K as [->|K]; [injection H as <-; reflexivity|]). subst n. injection H as <-. reflexivity.
Qed.
Lemma alias_iff : forall x n, assoc x phaseAlias = Some n <-> In (x, n) [(B "request", 2); (B "response", 4); (B "logging", 5)].
Proof.
  intros x n. split; [apply assoc_in|]. intro H. apply in_assoc; [|exact H].
  unfold phaseAlias. simpl. repeat constructor; simpl; intuition discriminate.
Qed.
Lemma alias_letter : forall x n, assoc x phaseAlias = Some n -> exists c r, x = c :: r /\ letter c.
Proof.
  intros x n H. apply alias_iff in H. simpl in H.
  repeat (destruct H as [H|H]; [injection H as <- _; eexists _, _; split; [reflexivity|right; vm_compute; intuition congruence]|]). destruct H.
Qed.
Lemma severity_letter : forall x n, assoc x severityMap = Some n -> exists c r, x = c :: r /\ letter c.
Proof.
  intros x n H. apply assoc_in in H. unfold severityMap in H. simpl in H.
  repeat (destruct H as [H|H]; [injection H as <- _; eexists _, _; split; [reflexivity|left; vm_compute; intuition congruence]|]). destruct H.
Qed.
Lemma small_int64 : forall n, 0 <= n <= 7 -> int64 n.
Proof. intros n H. unfold int64. lia. Qed.
Lemma item_iff : forall t s i, item_of t s = Some i <-> item_value t s i.
Proof.
  intros t s i. split.
  - destruct t; try (intro H; injection H as <-; constructor; simpl; intuition discriminate); cbn [item_of].
    + destruct (atoi (trimQuote s)) as [n|] eqn:E; [|discriminate]. intro H; injection H as <-. apply parse_int64_iff in E as [D I].
      apply (iv_id s (trimQuote s)); [now apply trimQuote_iff|exact D|exact I].
    + destruct (assoc (trimQuote s) severityMap) as [n|] eqn:E.
      * intro H; injection H as <-. apply severity_iff in E as [E P]. apply (iv_severity_name s (trimQuote s)); [now apply trimQuote_iff|exact E|exact P].
      * destruct (atoi (trimQuote s)) as [n|] eqn:EA; [|discriminate]. apply parse_int64_iff in EA as [D I].
        destruct ((0 <=? n) && (n <=? 7)) eqn:R; [|discriminate]. intro H; injection H as <-.
        apply (iv_severity s (trimQuote s)); [now apply trimQuote_iff|exact D|lia].
    + destruct (assoc (trimQuote s) phaseAlias) as [n|] eqn:E.
      * intro H; injection H as <-. apply alias_iff in E. apply (iv_phase_alias s (trimQuote s)); [now apply trimQuote_iff|exact E].
      * destruct (atoi (trimQuote s)) as [n|] eqn:EA; [|discriminate]. apply parse_int64_iff in EA as [D I].
        destruct ((n <? 1) || (5 <? n)) eqn:R; [discriminate|]. intro H; injection H as <-.
        apply (iv_phase s (trimQuote s)); [now apply trimQuote_iff|exact D|lia].
    + destruct (assoc (trimQuote s) transformationMap) as [tf|] eqn:E; [|discriminate]. intro H; injection H as <-.
      apply iv_trans. apply trimQuote_iff. now apply transformation_iff.
  - intro H. destruct H as [s x n U D I|s x n U I|s x n U D R|s|s t U|s x n U E P|s x n U D R|t s N]; cbn [item_of];
      try (apply trimQuote_iff in U; rewrite U).
    + unfold atoi. now rewrite (proj2 (parse_int64_iff x n) (conj D I)).
    + now rewrite (proj2 (alias_iff x n) I).
    + destruct (assoc x phaseAlias) as [p|] eqn:E; [apply alias_letter in E; now apply denotes_digit in D|].
      unfold atoi. rewrite (proj2 (parse_int64_iff x n)); [|split; [exact D|apply small_int64; lia]].
      destruct ((n <? 1) || (5 <? n)) eqn:B; [lia|reflexivity].
    + reflexivity.
    + now rewrite (proj2 (transformation_iff _ t) eq_refl).
    + now rewrite (proj2 (severity_iff x n) (conj E P)).
    + destruct (assoc x severityMap) as [p|] eqn:E; [apply severity_letter in E; now apply denotes_digit in D|].
      unfold atoi. rewrite (proj2 (parse_int64_iff x n)); [|split; [exact D|apply small_int64; lia]].
      destruct ((0 <=? n) && (n <=? 7)) eqn:B; [reflexivity|lia].
    + destruct t; try reflexivity; elim N; simpl; auto 8.
Qed.
Lemma white_free : forall w c, white w -> In c (B ":,") -> ~ In c w.
Proof.
  intros w c W H I. apply white_encs in W as (ws & -> & F). apply in_concat in I as (e & E & I).
  rewrite Forall_forall in F. specialize (F e E). revert I.
  assert (K : forallb (fun e => forallb (fun c => negb (Ascii.eqb c ":" || Ascii.eqb c ",")) e) space_encs = true) by (vm_compute; reflexivity).
  rewrite forallb_forall in K. specialize (K e F). rewrite forallb_forall in K. intro I. specialize (K c I).
  simpl in H. destruct H as [<-|[<-|[]]]; discriminate.
Qed.
Lemma act_name_free : forall t c, In c (B ":,") -> ~ In c (act_name t).
Proof. intros t c H I. simpl in H. destruct H as [<-|[<-|[]]]; destruct t; unfold act_name, B in I; kill I. Qed.
Lemma act_name_trim : forall t, trim_space (act_name t) = act_name t.
Proof. intros []; vm_compute; reflexivity. Qed.
Lemma parse_action_iff : forall s t v, parse_action s = ROk (t, v) <->
  exists w1 w2 sel, white w1 /\ white w2 /\ (sel = [] /\ v = [] \/ sel = ":"%char :: v) /\ s = w1 ++ act_name t ++ w2 ++ sel.
Proof.
  intros s t v. unfold parse_action. pose proof (cut_spec ":" s) as K. split.
  - destruct (cut ":" s) as [n a]. destruct K as [K1 K2]. destruct (assoc (trim_space n) actionMap) as [t'|] eqn:E; [|discriminate].
    intro H. injection H as -> H. apply action_iff in E. destruct (trim_shape n) as (w1 & w2 & EN & W1 & W2 & _). rewrite E in EN.
    exists w1, w2. destruct a as [b|].
    + exists (":"%char :: b). subst. split; [exact W1|]. split; [exact W2|]. split; [now right|]. now rewrite <- !app_assoc.
    + exists []. subst. split; [exact W1|]. split; [exact W2|]. split; [now left|]. now rewrite app_nil_r.
  - intros (w1 & w2 & sel & W1 & W2 & HS & ->).
    assert (N : ~ In ":"%char (w1 ++ act_name t ++ w2)).
    { rewrite !in_app_iff. intros [I|[I|I]]; revert I; [apply white_free|apply act_name_free|apply white_free]; simpl; auto. }
    replace (w1 ++ act_name t ++ w2 ++ sel) with ((w1 ++ act_name t ++ w2) ++ sel) by now rewrite <- !app_assoc.
    destruct HS as [[-> ->]| ->]; [rewrite app_nil_r, (cut_none _ _ N)|rewrite (cut_app _ _ _ N)];
      rewrite (trim_pad _ _ _ W1 W2), act_name_trim, (proj2 (action_iff _ t) eq_refl); reflexivity.
Qed.
Lemma process_action_iff : forall a s a', process_action a s = ROk a' <-> exists i, item_text i s /\ a' = step a i.
Proof.
  intros a s a'. rewrite process_action_item. split.
  - destruct (parse_action s) as [[t v]|] eqn:E; [|discriminate]. destruct (item_of t v) as [i|] eqn:EI; [|discriminate].
    intro H. injection H as <-. exists i. split; [|reflexivity]. apply parse_action_iff in E as (w1 & w2 & sel & W1 & W2 & HS & ->).
    apply item_iff in EI. now apply (it_text t w1 w2 sel v).
  - intros (i & H & ->). destruct H as [t w1 w2 sel v i W1 W2 HS HI]. apply item_iff in HI.
    rewrite (proj2 (parse_action_iff _ t v)) by (exists w1, w2, sel; auto). now rewrite HI.
Qed.
Lemma process_actions_iff : forall l a a', process_actions l a = ROk a' <-> exists items, Forall2 item_text items l /\ a' = fold_left step items a.
Proof.
  induction l as [|s l IH]; intros a a'; simpl.
  - split; [intro H; injection H as <-; exists []; split; [constructor|reflexivity]|]. intros (items & F & ->). inversion F. reflexivity.
  - destruct (process_action a s) as [a1|e] eqn:E.
    + split.
      * intro H. apply IH in H as (items & F & ->). apply process_action_iff in E as (i & I & ->). exists (i :: items). split; [now constructor|reflexivity].
      * intros (items & F & ->). inversion F as [|i s' is l' I F']; subst.
        assert (E2 : process_action a s = ROk (step a i)) by (apply process_action_iff; eauto). rewrite E in E2. injection E2 as ->.
        apply IH. exists is. auto.
    + split; [discriminate|]. intros (items & F & ->). inversion F as [|i s' is l' I F']; subst.
      assert (E2 : process_action a s = ROk (step a i)) by (apply process_action_iff; eauto). congruence.
Qed.
Lemma last_next : forall A (l : list A) x d, last (x :: l) d = last l x.
Proof. intros A. induction l as [|y l IH]; intros x d; [reflexivity|]. change (last (x :: y :: l) d) with (last (y :: l) d). now rewrite !IH. Qed.
Lemma fold_step : forall l a, let a' := fold_left step l a in
  pas_id a' = last (id_of l) (pas_id a) /\ pas_phase a' = last (phase_of l) (pas_phase a) /\
  (pas_chain a' = true <-> pas_chain a = true \/ In ItChain l) /\
  pas_trans a' = pas_trans a ++ trans_of l /\ pas_acts a' = pas_acts a ++ acts_of l.
Proof.
  induction l as [|i l IH]; intro a; cbn [fold_left].
  - cbn. rewrite !app_nil_r. intuition auto.
  - specialize (IH (step a i)). cbv zeta in *. destruct IH as (E1 & E2 & E3 & E4 & E5). rewrite E1, E2, E3, E4, E5.
    destruct i; cbn [step pas_id pas_phase pas_chain pas_trans pas_acts add_act id_of phase_of trans_of acts_of flat_map];
      fold (id_of l) (phase_of l) (trans_of l) (acts_of l); cbn [app]; rewrite ?last_next, <- ?app_assoc; cbn [app In];
      (repeat split; try reflexivity; try (intuition (auto; discriminate))).
Qed.
Lemma collects_fold : forall l a, collects l a <-> a = fold_left step l no_actions.
Proof.
  intros l a. pose proof (fold_step l no_actions) as K. cbv zeta in K. destruct K as (E1 & E2 & E3 & E4 & E5). unfold collects.
  cbn [no_actions pas_id pas_phase pas_chain pas_trans pas_acts app] in *. split.
  - intros (H1 & H2 & H3 & H4 & H5). destruct a as [i p c t x], (fold_left step l no_actions) as [i' p' c' t' x']. cbn in *. subst.
    f_equal. assert (K : c = true <-> c' = true) by (rewrite H3, E3; intuition discriminate). destruct c, c'; intuition.
  - intros ->. rewrite E1, E2, E3, E4, E5. intuition discriminate.
Qed.
Lemma joined_comma : forall parts s, joined (B ",") parts s /\ Forall (free_of (B ",")) parts <-> split "," s = parts.
Proof.
  intros parts s. split.
  - intros [J F]. induction J as [p|p c ps s I J IH]; inversion F as [|? ? F1 F2]; subst.
    + apply split_no. apply F1. now left.
    + destruct I as [<-|[]]. rewrite split_cons by (apply F1; now left). f_equal. auto.
  - intros <-. induction s as [s IH] using strong_length_ind. pose proof (cut_spec "," s) as K. destruct (cut "," s) as [a [b|]]; destruct K as [K1 ->].
    + rewrite split_cons by exact K1. destruct (IH b) as [J F]; [rewrite app_length; simpl; lia|]. split.
      * constructor; [now left|exact J].
      * constructor; [|exact F]. intros c [<-|[]]. exact K1.
    + rewrite split_no by exact K1. split; [constructor|]. constructor; [|constructor]. intros c [<-|[]]. exact K1.
Qed.
Lemma parse_actions_iff : forall s a, parse_actions s = ROk a <-> actions_text a s.
Proof.
  intros s a. unfold parse_actions, actions_text. split.
  - intro H. exists (trim_space s), (split "," (trim_space s)). destruct (trim_space s) as [|c r] eqn:E; [discriminate|]. rewrite <- E in *.
    apply process_actions_iff in H as (items & F & ->). exists items. split; [now apply trim_iff|]. split; [congruence|].
    destruct (proj2 (joined_comma (split "," (trim_space s)) (trim_space s)) eq_refl) as [J1 J2]. split; [exact J1|]. split; [exact J2|].
    split; [exact F|]. now apply collects_fold.
  - intros (core & parts & items & T & NE & J & F & FI & C). apply trim_iff in T. rewrite T. destruct core as [|c r]; [easy|].
    rewrite (proj1 (joined_comma parts _) (conj J F)). apply process_actions_iff. exists items. split; [exact FI|]. now apply collects_fold.
Qed.
