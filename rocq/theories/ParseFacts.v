(** The scanner and parser accept exactly the texts of the grammar. *)
From Verif Require Import Base BaseFacts GoStrings Buffer Types Variables SpecText NumFacts SpecVars VarText Scanner SpecParse.
From Coq Require Import ZifyBool.

Lemma Ret_eq : forall A (x y : A), Ret x = Ret y -> x = y.
Proof. intros A x y H. now injection H. Qed.

(** ** Characters *)
Lemma newline_iff : forall c, isNewLine c = true <-> newline c.
Proof. intro c. unfold isNewLine, newline, LF, CR. rewrite orb_true_iff, !Ascii.eqb_eq. reflexivity. Qed.
Lemma newline_not : forall c, isNewLine c = false <-> ~ newline c.
Proof. intro c. rewrite <- newline_iff. destruct (isNewLine c); split; congruence. Qed.
Lemma blank_iff : forall c, isBlank c = true <-> blank c.
Proof.
  intro c. unfold isBlank, blank, SP, FF, TAB, VT. rewrite !orb_true_iff, !Ascii.eqb_eq. simpl. intuition auto.
Qed.
Lemma blank_not : forall c, isBlank c = false <-> ~ blank c.
Proof. intro c. rewrite <- blank_iff. destruct (isBlank c); split; congruence. Qed.
Lemma quote_iff : forall c, isQuote c = true <-> quote_char c.
Proof. intro c. unfold isQuote, quote_char, SQ, DQ. rewrite orb_true_iff, !Ascii.eqb_eq. intuition auto. Qed.
Lemma letter_iff : forall c, isAlphabet c = true <-> letter c.
Proof.
  intro c. unfold isAlphabet, letter, in_range. change (code "a") with 97. change (code "z") with 122.
  change (code "A") with 65. change (code "Z") with 90. lia.
Qed.
Lemma mem_iff : forall c l, mem_byte c l = true <-> In c l.
Proof.
  intros c l. unfold mem_byte. rewrite existsb_exists. split.
  - intros (x & I & E). apply Ascii.eqb_eq in E. now subst.
  - intro I. exists c. split; [exact I|apply Ascii.eqb_refl].
Qed.
Lemma mem_not : forall c l, mem_byte c l = false <-> ~ In c l.
Proof. intros c l. rewrite <- mem_iff. destruct (mem_byte c l); split; congruence. Qed.
Ltac kill H := simpl in H; repeat (destruct H as [H|H]; [discriminate H|]); try discriminate H; try destruct H.
Lemma blank_newline : forall c, blank c -> ~ newline c.
Proof. intros c H [->| ->]; unfold blank in H; kill H. Qed.
Lemma quote_newline : forall c, quote_char c -> ~ newline c.
Proof. intros c [->| ->] [H|H]; discriminate. Qed.

(** ** Line ends *)
Lemma after_newline_end : forall c r, newline c -> exists n, line_end (after_newline (c :: r)) n /\ c :: r = n ++ after_newline (c :: r) /\
  (exists r', n = c :: r').
Proof.
  intros c r N. simpl. destruct r as [|d r].
  - exists [c]. split; [constructor; [exact N|discriminate]|]. split; [reflexivity|now exists []].
  - destruct (isNewLine d) eqn:D; [destruct (Ascii.eqb_spec d c) as [->|NE]|]; simpl.
    + exists [c]. split; [constructor; [exact N|]|split; [reflexivity|now exists []]]. intros d r' E _. now injection E.
    + exists [c; d]. split; [apply le_two; [exact N|now apply newline_iff|congruence]|]. split; [reflexivity|now exists [d]].
    + exists [c]. split; [constructor; [exact N|]|split; [reflexivity|now exists []]]. intros d' r' E ND. injection E as <- <-.
      apply newline_iff in ND. congruence.
Qed.
Lemma line_end_after : forall n k, line_end k n -> exists c r, n = c :: r /\ newline c /\ after_newline (n ++ k) = k.
Proof.
  intros n k [c N H|c d N1 N2 NE].
  - exists c, []. split; [reflexivity|]. split; [exact N|]. simpl. destruct k as [|d r]; [reflexivity|].
    destruct (isNewLine d) eqn:D; [|reflexivity]. rewrite (H d r eq_refl (proj1 (newline_iff d) D)), Ascii.eqb_refl. reflexivity.
  - exists c, [d]. split; [reflexivity|]. split; [exact N1|]. simpl. rewrite (proj2 (newline_iff d) N2).
    destruct (Ascii.eqb_spec d c); [congruence|reflexivity].
Qed.

(** ** Escapes *)
Lemma escape_some : forall d x, escape d = Some x <-> In (d, x) escapes.
Proof.
  intros d x. unfold escape, escapes, FF, LF, CR, TAB, VT, BSL, DQ, SQ. split.
  - intro H. repeat match type of H with (if Ascii.eqb d ?z then _ else _) = _ =>
      destruct (Ascii.eqb_spec d z) as [->|?]; [injection H as <-; simpl; tauto|] end. discriminate.
  - intro H. simpl in H. repeat (destruct H as [H|H]; [injection H as <- <-; reflexivity|]). destruct H.
Qed.
Lemma escape_none : forall d, escape d = None <-> ~ In d (map fst escapes).
Proof.
  intro d. split.
  - intros H I. apply in_map_iff in I as ([l c] & E & I). simpl in E. subst. apply escape_some in I. congruence.
  - intro H. destruct (escape d) as [x|] eqn:E; [|reflexivity]. apply escape_some in E. elim H. apply in_map_iff. exists (d, x). auto.
Qed.
Lemma escape_newline : forall d, newline d -> escape d = None.
Proof. intros d [->| ->]; reflexivity. Qed.

(** The loop on an escaped text. *)
Lemma string_loop_escaped : forall D eos k s e, ~ In BSL D -> escaped D k s e ->
  starts_with (fun d => In d D) k \/ k = [] /\ eos = true ->
  forall buf line, exists line', string_loop D eos (e ++ k) buf line = (Scanner false (tl k) [] line', ROk (buf ++ s)).
Proof.
  intros D eos k s e B H E. induction H as [|c s e N1 N2 N3 H IH|l c s e I H IH|d s e N1 N2 H IH|n s e L H IH]; intros buf line.
  - exists line. simpl. rewrite app_nil_r. destruct E as [(d & k' & -> & I)|[-> ->]]; simpl; [|reflexivity].
    now rewrite (proj2 (mem_iff d D) I).
  - simpl. rewrite (proj2 (mem_not c D) N1), (proj2 (newline_not c) N3). change "\"%char with BSL in N2.
    destruct (Ascii.eqb_spec c BSL); [easy|]. destruct (IH (buf ++ [c]) line) as (line' & R). exists line'. rewrite R, <- app_assoc. reflexivity.
  - cbn [app string_loop]. change "\"%char with BSL. rewrite (proj2 (mem_not BSL D) B). change (isNewLine BSL) with false. rewrite Ascii.eqb_refl.
    rewrite (proj2 (escape_some l c) I). destruct (IH (buf ++ [c]) line) as (line' & R). exists line'. rewrite R, <- app_assoc. reflexivity.
  - cbn [app string_loop]. change "\"%char with BSL. rewrite (proj2 (mem_not BSL D) B). change (isNewLine BSL) with false. rewrite Ascii.eqb_refl.
    rewrite (proj2 (escape_none d) N1), (proj2 (newline_not d) N2). destruct (IH (buf ++ [d]) line) as (line' & R). exists line'.
    rewrite R, <- app_assoc. reflexivity.
  - destruct (IH (buf ++ [LF]) (line + 1)) as (line' & R). exists line'. rewrite <- app_assoc in R. 
    rewrite <- app_comm_cons, <- app_assoc. change "\"%char with BSL. destruct (line_end_after _ _ L) as (c & r & EN & NC & AN). rewrite EN in AN |- *.
    cbn [app string_loop]. rewrite (proj2 (mem_not BSL D) B). change (isNewLine BSL) with false. rewrite Ascii.eqb_refl.
    rewrite (escape_newline c NC), (proj2 (newline_iff c) NC). cbn [app after_newline] in AN.
    destruct (r ++ e ++ k) as [|d2 r2]; [|destruct (isNewLine d2 && negb (Ascii.eqb d2 c))]; rewrite <- AN in R; exact R.
Qed.
(** And back. *)
Lemma string_loop_inv : forall D eos inp buf line sc v, ~ In BSL D -> string_loop D eos inp buf line = (sc, ROk v) ->
  exists s e k line', inp = e ++ k /\ escaped D k s e /\ v = buf ++ s /\ sc = Scanner false (tl k) [] line' /\
    (starts_with (fun d => In d D) k \/ k = [] /\ (eos = true \/ v = [])).
Proof.
  intros D eos inp. induction inp as [inp IH] using strong_length_ind. intros buf line sc v B H.
  destruct inp as [|c r]; cbn [string_loop] in H.
  - exists [], [], [], line. destruct eos.
    + injection H as <- <-. rewrite (app_nil_r buf). split; [reflexivity|]. split; [constructor|]. auto 8.
    + destruct buf; [|discriminate]. injection H as <- <-. split; [reflexivity|]. split; [constructor|]. auto 8.
  - destruct (mem_byte c D) eqn:M.
    { injection H as <- <-. exists [], [], (c :: r), line. rewrite (app_nil_r buf). split; [reflexivity|]. split; [constructor|].
      split; [reflexivity|]. split; [reflexivity|]. left. exists c, r. split; [reflexivity|]. now apply mem_iff. }
    apply mem_not in M. destruct (isNewLine c) eqn:N; [discriminate|]. apply newline_not in N.
    destruct (Ascii.eqb_spec c BSL) as [->|NB].
    2:{ apply IH in H as (s & e & k & line' & -> & E & -> & -> & T); [|simpl; lia|exact B].
        exists (c :: s), (c :: e), k, line'. split; [reflexivity|]. split; [now constructor|]. rewrite <- app_assoc in *. auto. }
    destruct r as [|d r1]; [discriminate|]. destruct (escape d) as [x|] eqn:ES.
    { apply IH in H as (s & e & k & line' & -> & E & -> & -> & T); [|simpl; lia|exact B].
      exists (x :: s), (BSL :: d :: e), k, line'. split; [reflexivity|]. split; [apply es_named; [now apply escape_some|exact E]|].
      rewrite <- app_assoc in *. auto. }
    apply escape_none in ES. destruct (isNewLine d) eqn:ND.
    + apply newline_iff in ND. destruct (after_newline_end d r1 ND) as (n & LE & EQ & _).
      assert (H' : string_loop D eos (after_newline (d :: r1)) (buf ++ [LF]) (line + 1) = (sc, ROk v)).
      { simpl. destruct r1 as [|d2 r2]; [exact H|]. destruct (isNewLine d2 && negb (Ascii.eqb d2 d)); exact H. }
      apply IH in H' as (s & e & k & line' & EA & E & -> & -> & T); [| |exact B].
      * exists (LF :: s), (BSL :: n ++ e), k, line'. rewrite EA in LE, EQ. split; [simpl; now rewrite EQ, app_assoc|].
        split; [now apply es_line|]. rewrite <- app_assoc in *. auto.
      * simpl. destruct r1 as [|d2 r2]; [simpl; lia|]. destruct (isNewLine d2 && negb (Ascii.eqb d2 d)); simpl; lia.
    + apply newline_not in ND. apply IH in H as (s & e & k & line' & -> & E & -> & -> & T); [|simpl; lia|exact B].
      exists (d :: s), (BSL :: d :: e), k, line'. split; [reflexivity|]. split; [now apply es_other|]. rewrite <- app_assoc in *. auto.
Qed.

(** ** Gaps *)
Definition after_gap (k : bs) : Prop := ~ starts_with (fun c => blank c \/ c = "\"%char) k.
Lemma skip_gap : forall k g, after_gap k -> gap k g -> forall f buf line, (length (g ++ k) < f)%nat ->
  exists line', skip_blank f (Scanner false (g ++ k) buf line) = Ret (Scanner false k buf line').
Proof.
  intros k g A H. induction H as [|c g Hb H IH|n g Hs L H IH]; intros f buf line F; (destruct f as [|f]; [simpl in F; lia|]).
  - exists line. simpl. destruct k as [|c r]; [reflexivity|]. destruct (isBlank c) eqn:E; [elim A; exists c, r; split; [reflexivity|left; now apply blank_iff]|].
    destruct (Ascii.eqb_spec c BSL) as [->|N]; [elim A; exists BSL, r; auto|reflexivity].
  - cbn [app skip_blank s_bos s_inp]. rewrite (proj2 (blank_iff c) Hb). unfold advance. simpl. apply IH. simpl in F. lia.
  - destruct Hs as (x & r & -> & <-). destruct (line_end_after _ _ L) as (c & r' & EN & NC & AN). injection EN as <- <-.
    rewrite <- app_comm_cons, <- app_assoc in *. cbn [app skip_blank s_bos s_inp].
    change (isBlank "\") with false. change (Ascii.eqb "\" BSL) with true. change (Ascii.eqb "010" LF) with true. cbv iota.
    unfold advance, incr_line. cbn [s_bos s_inp s_buf s_line tl]. cbn [app] in AN. rewrite AN. apply IH. simpl in F. rewrite !app_length in *. lia.
Qed.
Lemma skip_mono : forall f f' s r, skip_blank f s = Ret r -> (f <= f')%nat -> skip_blank f' s = Ret r.
Proof.
  induction f as [|f IH]; intros f' s r H L; [discriminate|]. destruct f' as [|f']; [lia|]. simpl in *.
  destruct (s_bos s); [apply IH; [exact H|lia]|]. destruct (s_inp s) as [|c t]; [exact H|].
  destruct (isBlank c); [apply IH; [exact H|lia]|]. destruct (Ascii.eqb c BSL); [|exact H].
  destruct t as [|n t]; [apply IH; [exact H|lia]|]. destruct (Ascii.eqb n LF); apply IH; first [exact H|lia].
Qed.
Lemma skip_stray : forall k g, stray k -> gap k g -> forall f buf line, skip_blank f (Scanner false (g ++ k) buf line) = Timeout.
Proof.
  intros k g (r & -> & N) H f. revert g H. induction f as [|f IH]; intros g H buf line; [reflexivity|].
  destruct H as [|c g Hb H|n g Hs L H].
  - cbn [app skip_blank s_bos s_inp]. change (isBlank "\") with false. change (Ascii.eqb "\" BSL) with true. cbv iota.
    destruct r as [|n r]; [apply (IH [] (gap_nil _))|].
    destruct (Ascii.eqb_spec n LF) as [->|NE]; [elim N; exists LF, r; auto|]. apply (IH [] (gap_nil _)).
  - cbn [app skip_blank s_bos s_inp]. rewrite (proj2 (blank_iff c) Hb). unfold advance. simpl. now apply IH.
  - destruct Hs as (x & r' & -> & <-). destruct (line_end_after _ _ L) as (c & r2 & EN & NC & AN). injection EN as <- <-.
    rewrite <- app_comm_cons, <- app_assoc in *. cbn [app skip_blank s_bos s_inp].
    change (isBlank "\") with false. change (Ascii.eqb "\" BSL) with true. change (Ascii.eqb "010" LF) with true. cbv iota.
    unfold advance, incr_line. cbn [s_bos s_inp s_buf s_line tl]. cbn [app] in AN. rewrite AN. now apply IH.
Qed.
Lemma gap_cases : forall inp, exists g k, inp = g ++ k /\ gap k g /\ (after_gap k \/ stray k).
Proof.
  induction inp as [inp IH] using strong_length_ind. destruct inp as [|c r].
  - exists [], []. split; [reflexivity|]. split; [constructor|]. left. intros (c & r & E & _). discriminate.
  - destruct (isBlank c) eqn:E.
    + destruct (IH r) as (g & k & -> & G & T); [simpl; lia|]. exists (c :: g), k. split; [reflexivity|]. split; [|exact T].
      constructor; [now apply blank_iff|exact G].
    + destruct (Ascii.eqb_spec c BSL) as [->|NB].
      * destruct r as [|n r].
        -- exists [], [BSL]. split; [reflexivity|]. split; [constructor|]. right. exists []. split; [reflexivity|]. intros (x & y & X & _). discriminate.
        -- destruct (Ascii.eqb_spec n LF) as [->|NL].
           ++ destruct (after_newline_end LF r ltac:(now left)) as (m & LE & EQ & r' & EM).
              destruct (IH (after_newline (LF :: r))) as (g & k & EG & G & T).
              { simpl. destruct r as [|d r]; [simpl; lia|]. destruct (isNewLine d && _); simpl; lia. }
              exists (BSL :: m ++ g), k. rewrite EG in EQ, LE. split; [simpl; now rewrite EQ, app_assoc|]. split; [|exact T].
              apply gap_line; [exists LF, r'; auto|exact LE|exact G].
           ++ exists [], (BSL :: n :: r). split; [reflexivity|]. split; [constructor|]. right. exists (n :: r). split; [reflexivity|].
              intros (x & y & X & <-). injection X as X _. now elim NL.
      * exists [], (c :: r). split; [reflexivity|]. split; [constructor|]. left. intros (x & y & X & [Hx|Hx]); injection X as <- <-.
        -- apply blank_not in E. easy.
        -- now elim NB.
Qed.

(** ** Arguments *)
Lemma quote_after_gap : forall q r, quote_char q -> after_gap (q :: r).
Proof. intros q r H (c & r' & E & [X|X]); injection E as <- <-; destruct H as [->| ->]; unfold blank in X; kill X. Qed.
Lemma bare_after_gap : forall k, starts_with (fun c => ~ quote_char c /\ ~ In c ends /\ c <> "\"%char) k -> after_gap k.
Proof.
  intros k (c & r & -> & (_ & H & N)) (c' & r' & E & [X|X]); injection E as <- <-; [|easy]. apply H. unfold blank, ends in *. simpl in *. intuition auto.
Qed.
Lemma newline_after_gap : forall c r, newline c -> after_gap (c :: r).
Proof. intros c r N (c' & r' & E & [X|X]); injection E as <- <-; [now apply blank_newline in X|]. subst. destruct N; discriminate. Qed.
Lemma bsl_ends : ~ In BSL ends.
Proof. intro H. unfold ends in H. kill H. Qed.
Lemma bsl_quote : forall q, quote_char q -> ~ In BSL [q].
Proof. intros q [->| ->] [H|[]]; discriminate. Qed.
Lemma ends_not : forall c, ~ In c ends -> ~ newline c /\ ~ blank c.
Proof. intros c H. split; intro X; apply H; unfold ends; simpl; [destruct X as [->| ->]; auto 8|unfold blank in X; simpl in X; intuition auto]. Qed.
(** Reading after the blanks. *)
Definition read_rest (s1 : scanner) : out (scanner * res bs) :=
  match s_inp s1 with
  | [] => Ret (s1, RErr EEOS)
  | c :: _ =>
      if isNewLine c then Ret (incr_line s1, ROk [])
      else if Ascii.eqb c DQ then Ret (read_delim [DQ] false s1)
      else if Ascii.eqb c SQ then Ret (read_delim [SQ] false s1)
      else Ret (read_delim [SP; FF; TAB; VT; LF; CR] true s1)
  end.
Lemma read_string_rest : forall f s, read_string f s = (s1 <- skip_blank f s ;; read_rest s1).
Proof. reflexivity. Qed.
Lemma rest_quote : forall q r buf line, quote_char q ->
  read_rest (Scanner false (q :: r) buf line) = Ret (string_loop [q] false r buf line).
Proof.
  intros q r buf line Q. unfold read_rest. cbn [s_inp]. rewrite (proj2 (newline_not q) (quote_newline q Q)).
  destruct Q as [->| ->]; reflexivity.
Qed.
Lemma rest_bare : forall c r buf line, ~ quote_char c -> ~ In c ends ->
  read_rest (Scanner false (c :: r) buf line) = Ret (string_loop ends true (c :: r) buf line).
Proof.
  intros c r buf line Q E. unfold read_rest. cbn [s_inp]. destruct (ends_not c E) as [N _]. rewrite (proj2 (newline_not c) N).
  destruct (Ascii.eqb_spec c DQ) as [->|N1]; [elim Q; now right|]. destruct (Ascii.eqb_spec c SQ) as [->|N2]; [elim Q; now left|].
  unfold read_delim. cbn [s_inp s_buf s_line]. change [SP; FF; TAB; VT; LF; CR] with ends. now rewrite (proj2 (mem_not c ends) E).
Qed.
Lemma rest_line : forall c r buf line, newline c ->
  read_rest (Scanner false (c :: r) buf line) = Ret (Scanner false (after_newline (c :: r)) buf (line + 1), ROk []).
Proof. intros c r buf line N. unfold read_rest. cbn [s_inp]. now rewrite (proj2 (newline_iff c) N). Qed.

Lemma read_argument : forall k s e, argument k s e -> forall f line, (length (e ++ k) < f)%nat ->
  exists line', read_string f (Scanner false (e ++ k) [] line) = Ret (Scanner false k [] line', ROk s).
Proof.
  intros k s e H f line F. rewrite read_string_rest.
  destruct H as [g q s e Q G E|g d s e D S G E|g s e -> S G E|g n G L|g q -> Q G].
  - replace ((g ++ q :: e ++ [q]) ++ k) with (g ++ q :: e ++ q :: k) in * by (now rewrite <- !app_assoc, <- app_comm_cons, <- app_assoc).
    destruct (skip_gap _ _ (quote_after_gap q (e ++ q :: k) Q) G f [] line F) as (l1 & ->). cbn [bind]. rewrite rest_quote by exact Q.
    destruct (string_loop_escaped [q] false (q :: k) s e (bsl_quote q Q) E) with (buf := @nil ascii) (line := l1) as (l2 & ->).
    { left. exists q, k. split; [reflexivity|now left]. } now exists l2.
  - replace ((g ++ e ++ [d]) ++ k) with (g ++ e ++ d :: k) in * by (now rewrite <- !app_assoc).
    assert (S' : starts_with (fun c => ~ quote_char c /\ ~ In c ends /\ c <> "\"%char) (e ++ d :: k)).
    { destruct S as (c & r & -> & S). exists c, (r ++ d :: k). auto. }
    destruct (skip_gap _ _ (bare_after_gap _ S') G f [] line F) as (l1 & ->). cbn [bind].
    destruct S as (c & r & EC & S1 & S2 & _). assert (EE : e ++ d :: k = c :: (r ++ d :: k)) by now rewrite EC.
    rewrite EE, rest_bare by auto. rewrite <- EE.
    destruct (string_loop_escaped ends true (d :: k) s e bsl_ends E) with (buf := @nil ascii) (line := l1) as (l2 & ->).
    { left. exists d, k. auto. } now exists l2.
  - rewrite app_nil_r in *.
    destruct (skip_gap _ _ (bare_after_gap _ S) G f [] line F) as (l1 & ->). cbn [bind].
    destruct S as (c & r & EC & S1 & S2 & _). rewrite EC, rest_bare by auto. rewrite <- EC.
    destruct (string_loop_escaped ends true [] s e bsl_ends E) with (buf := @nil ascii) (line := l1) as (l2 & R); [now right|].
    rewrite app_nil_r in R. rewrite R. now exists l2.
  - rewrite <- app_assoc in *. destruct (line_end_after _ _ L) as (c & r & -> & N & AN). cbn [app] in *.
    destruct (skip_gap _ _ (newline_after_gap c (r ++ k) N) G f [] line F) as (l1 & ->). cbn [bind app].
    rewrite rest_line by exact N. cbn [app] in AN. rewrite AN. now exists (l1 + 1).
  - rewrite app_nil_r in *. destruct (skip_gap _ _ (quote_after_gap q [] Q) G f [] line F) as (l1 & ->). cbn [bind].
    rewrite rest_quote by exact Q. now exists l1.
Qed.
Lemma read_argument_inv : forall f inp line sc v, read_string f (Scanner false inp [] line) = Ret (sc, ROk v) ->
  exists e k line', inp = e ++ k /\ argument k v e /\ sc = Scanner false k [] line'.
Proof.
  intros f inp line sc v H. rewrite read_string_rest in H. apply bind_Ret in H as (s1 & H1 & H2).
  destruct (gap_cases inp) as (g & k & -> & G & [A|A]).
  2:{ rewrite (skip_stray _ _ A G) in H1. discriminate. }
  destruct (skip_gap k g A G (S (length (g ++ k) + f)) [] line ltac:(lia)) as (l1 & E).
  rewrite (skip_mono _ (S (length (g ++ k) + f)) _ _ H1 ltac:(lia)) in E. injection E as ->.
  unfold read_rest in H2. cbn [s_inp] in H2. destruct k as [|c r]; [discriminate|].
  destruct (isNewLine c) eqn:N.
  { injection H2 as <- <-. apply newline_iff in N. destruct (after_newline_end c r N) as (n & LE & EQ & _).
    exists (g ++ n), (after_newline (c :: r)), (l1 + 1). split; [now rewrite <- app_assoc, <- EQ|].
    split; [apply ar_line; [now rewrite <- EQ|exact LE]|reflexivity]. }
  destruct (isQuote c) eqn:Q.
  { apply quote_iff in Q. fold (read_rest (Scanner false (c :: r) [] l1)) in *.
    assert (H3 : string_loop [c] false r [] l1 = (sc, ROk v)).
    { destruct Q as [->| ->]; injection H2 as H2; exact H2. }
    apply string_loop_inv in H3 as (s & e & k & line' & -> & E & -> & -> & T); [|now apply bsl_quote].
    destruct T as [(d & k' & -> & [<-|[]])|[-> [T|T]]]; [|discriminate|].
    - exists (g ++ c :: e ++ [c]), k', line'. split; [now rewrite <- !app_assoc, <- app_comm_cons, <- app_assoc|].
      split; [now apply ar_quoted|reflexivity].
    - simpl in T. subst s. inversion E; subst. exists (g ++ [c]), [], line'. split; [symmetry; apply app_nil_r|].
      split; [now apply ar_open|reflexivity]. }
  assert (NQ : ~ quote_char c) by (rewrite <- quote_iff; congruence). clear Q.
  destruct (Ascii.eqb_spec c DQ) as [->|N1]; [elim NQ; now right|]. destruct (Ascii.eqb_spec c SQ) as [->|N2]; [elim NQ; now left|].
  assert (NE : ~ In c ends).
  { intro I. assert (I' : blank c \/ newline c).
    { unfold ends in I. unfold blank, newline. simpl in *. intuition auto. }
    destruct I' as [I'|I']; [apply A; exists c, r; auto|]. apply newline_iff in I'. congruence. }
  assert (NB : c <> "\"%char) by (intros ->; apply A; exists "\"%char, r; auto).
  unfold read_delim in H2. cbn [s_inp s_buf s_line] in H2. change [SP; FF; TAB; VT; LF; CR] with ends in H2.
  rewrite (proj2 (mem_not c ends) NE) in H2. apply Ret_eq in H2.
  apply string_loop_inv in H2 as (s & e & k & line' & EE & E & -> & -> & T); [|exact bsl_ends].
  assert (EC : exists e', e = c :: e').
  { destruct e as [|c' e']; [|injection EE as <- _; eauto]. simpl in EE. subst k.
    destruct T as [(d & k' & X & I)|[X _]]; [injection X as <- <-; easy|discriminate]. }
  destruct EC as (e' & ->).
  destruct T as [(d & k' & -> & I)|[-> _]].
  - exists (g ++ (c :: e') ++ [d]), k', line'. split; [rewrite <- !app_assoc, EE; reflexivity|]. split; [|reflexivity].
    apply ar_bare; [exact I|exists c, e'; auto|rewrite <- EE; exact G|exact E].
  - exists (g ++ c :: e'), [], line'. rewrite app_nil_r in EE |- *. split; [now rewrite EE|]. split; [|reflexivity].
    apply ar_last; [reflexivity|exists c, e'; auto|rewrite <- EE; exact G|exact E].
Qed.
