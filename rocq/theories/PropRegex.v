(** Regular expressions: what patterns match; flag words; rules with plain patterns, in bytes. *)
From Verif Require Import Base BaseFacts GoStrings Utils Buffer BufferFacts SpecBuffer Types Transforms Operators Transaction Variables Rules Engine
  SpecText NumFacts TextFacts TransFacts SpecVars VarText VarFacts BodyFacts SpecRules PropText PropVars RuleFacts Scanner Registry Loader SpecParse ParseFacts ParseLists ParseFiles ParsePrint
  SpecLoad LoadFacts SpecTxn TxnFacts LoopFacts Witness PropRules PropPhases PropTxn PropLoad PropEnd SpecData PropData SpecGate PropGate PropSafe PropFile SpecBody PropBody SpecVerdict PropVerdict
  PropRegistry PropParse Regex SpecRegex RegexFacts.
From Coq Require Import ZifyBool.

(** ** Texts of bytes and of characters *)
Lemma decode_before_ascii : forall x a c b, code c < 128 -> decode_rune (x :: a ++ c :: b) = decode_rune (x :: a).
Proof.
  intros x a c b L. assert (NC : cont c = false) by (unfold cont, zin; lia). assert (NZ : forall lo hi, 128 <= lo -> zin lo hi (code c) = false) by (intros lo hi H; unfold zin; lia).
  unfold decode_rune. destruct (code x <? 128); [reflexivity|]. destruct (zin 194 223 (code x)).
  - destruct a as [|y a]; cbn [app]; [now rewrite NC|reflexivity].
  - destruct (zin 224 239 (code x)).
    + destruct a as [|y [|z a]]; cbn [app].
      * destruct b as [|b0 b]; [reflexivity|]. rewrite NZ by (destruct (code x =? 224); lia). reflexivity.
      * rewrite NC. now rewrite andb_false_r.
      * reflexivity.
    + destruct (zin 240 244 (code x)); [|reflexivity]. destruct a as [|y [|z [|v a]]]; cbn [app]; try reflexivity.
      * destruct b as [|b0 [|b1 b]]; try reflexivity. rewrite NZ by (destruct (code x =? 240); lia). reflexivity.
      * destruct b as [|b0 b]; [reflexivity|]. rewrite NC. now rewrite andb_false_r.
      * rewrite NC. now rewrite andb_false_r.
Qed.
Lemma decode_width : forall x a, (1 <= snd (decode_rune (x :: a)) <= length (x :: a))%nat.
Proof.
  intros x a. unfold decode_rune. destruct (code x <? 128); [cbn; lia|]. destruct (zin 194 223 (code x)); [destruct a as [|y a]; [cbn; lia|destruct (cont y); cbn; lia]|].
  destruct (zin 224 239 (code x)); [destruct a as [|y [|z a]]; try (cbn; lia); destruct (_ && _); cbn; lia|].
  destruct (zin 240 244 (code x)); [destruct a as [|y [|z [|v a]]]; try (cbn; lia); destruct (_ && _); cbn; lia|cbn; lia].
Qed.
Lemma decode_high : forall x a, 128 <= code x -> 128 <= fst (decode_rune (x :: a)).
Proof.
  intros x a H. unfold decode_rune. assert (E : (code x <? 128) = false) by lia. rewrite E. unfold rune_error.
  destruct (zin 194 223 (code x)) eqn:Z2; [destruct a as [|y a]; [cbn; lia|destruct (cont y) eqn:C; cbn [fst]; unfold cont, zin in *; lia]|].
  destruct (zin 224 239 (code x)) eqn:Z3.
  - destruct a as [|y [|z a]]; try (cbn; lia). destruct (_ && _) eqn:C; cbn [fst]; [|lia]. unfold cont, zin in *. destruct (code x =? 224) eqn:Q; lia.
  - destruct (zin 240 244 (code x)) eqn:Z4; [|cbn; lia]. destruct a as [|y [|z [|v a]]]; try (cbn; lia). destruct (_ && _) eqn:C; cbn [fst]; [|lia]. unfold cont, zin in *.
    destruct (code x =? 240) eqn:Q; lia.
Qed.
Lemma runes_at_ascii : forall a c b, code c < 128 -> runes (a ++ c :: b) = runes a ++ code c :: runes b.
Proof.
  intro a. remember (length a) as n eqn:N. revert a N. induction n as [n IH] using lt_wf_ind. intros a N c b L. destruct a as [|x a].
  - cbn [app]. change (c :: b) with ([c] ++ b). rewrite (runes_utf8_app (code c) [c]) by (constructor; lia). reflexivity.
  - rewrite (runes_cons ((x :: a) ++ c :: b)) by discriminate. rewrite (runes_cons (x :: a)) by discriminate. cbn [app]. rewrite (decode_before_ascii x a c b L).
    destruct (decode_rune (x :: a)) as [r w] eqn:D. pose proof (decode_width x a) as W. rewrite D in W. cbn [fst snd] in *.
    change (x :: a ++ c :: b) with ((x :: a) ++ c :: b). rewrite skipn_app. replace (w - length (x :: a))%nat with 0%nat by lia. cbn [skipn]. cbn [app]. f_equal.
    apply (IH (length (skipn w (x :: a)))); [rewrite skipn_length; lia|reflexivity|exact L].
Qed.
Lemma runes_high : forall a, Forall (fun c => 128 <= code c) a -> Forall (fun r => 128 <= r) (runes a).
Proof.
  intro a. remember (length a) as n eqn:N. revert a N. induction n as [n IH] using lt_wf_ind. intros a N H. destruct a as [|x a]; [constructor|].
  rewrite (runes_cons (x :: a)) by discriminate. destruct (decode_rune (x :: a)) as [r w] eqn:D. pose proof (decode_width x a) as W. rewrite D in W. cbn [fst snd] in *. constructor.
  - inversion H; subst. pose proof (decode_high x a) as Q. rewrite D in Q. now apply Q.
  - apply (IH (length (skipn w (x :: a)))); [rewrite skipn_length; lia|reflexivity|]. rewrite <- (firstn_skipn w (x :: a)) in H. now apply Forall_app in H.
Qed.
Lemma runes_nil : forall a, runes a = [] -> a = [].
Proof. intros [|x a] H; [reflexivity|]. rewrite runes_cons in H by discriminate. destruct (decode_rune (x :: a)). discriminate H. Qed.
Lemma first_ascii : forall s : bs, Forall (fun c => 128 <= code c) s \/ exists a c b, s = a ++ c :: b /\ Forall (fun c => 128 <= code c) a /\ code c < 128.
Proof.
  induction s as [|x s IH]; [left; constructor|]. destruct (Z.lt_ge_cases (code x) 128) as [L|G].
  - right. exists [], x, s. split; [reflexivity|]. split; [constructor|exact L].
  - destruct IH as [IH|(a & c & b & -> & H & L)]; [left; now constructor|]. right. exists (x :: a), c, b. split; [reflexivity|]. split; [now constructor|exact L].
Qed.
Lemma runes_back : forall s x c y, code c < 128 -> runes s = x ++ code c :: y -> exists a b, s = a ++ c :: b /\ runes a = x /\ runes b = y.
Proof.
  intro s. remember (length s) as n eqn:N. revert s N. induction n as [n IH] using lt_wf_ind. intros s N x c y L H.
  destruct (first_ascii s) as [HI|(a & d & b & -> & HI & D)].
  - apply runes_high in HI. rewrite H, Forall_app in HI. destruct HI as (_ & HI). inversion HI; lia.
  - rewrite (runes_at_ascii a d b D) in H. apply runes_high in HI. remember (runes a) as u eqn:U.
    assert (C : (x = u /\ code d = code c /\ y = runes b) \/ exists x', x = u ++ code d :: x' /\ runes b = x' ++ code c :: y).
    { clear -H HI L. revert x H. induction u as [|r u IU]; intros x H; cbn [app] in *.
      - destruct x as [|q x]; cbn [app] in H; injection H as E H; [left; now repeat split|right]. exists x. now subst.
      - inversion HI as [|? ? H1 H2]; subst. destruct x as [|q x]; cbn [app] in H; injection H as E H; [lia|]. subst q. destruct (IU H2 x H) as [(-> & A)|(x' & -> & A)]; [left; now split|right; now exists x']. }
    destruct C as [(-> & E & ->)|(x' & -> & E)].
    + exists a, b. apply code_inj in E as ->. now split.
    + apply (IH (length b)) in E as (a' & b' & -> & A & Bq); [|subst n; rewrite app_length; cbn [length]; lia|reflexivity|exact L].
      exists (a ++ d :: a'), b'. split; [now rewrite <- app_assoc|]. split; [|exact Bq]. rewrite (runes_at_ascii a d a' D), A. now rewrite U.
Qed.
Definition low (w : bs) : Prop := Forall (fun c => code c < 128) w.
Lemma runes_word : forall w b, low w -> runes (w ++ b) = map code w ++ runes b.
Proof. intros w b H. induction H as [|c w L H IH]; [reflexivity|]. cbn [app map]. rewrite <- IH. exact (runes_at_ascii [] c (w ++ b) L). Qed.
Lemma runes_begin : forall w s y, low w -> runes s = map code w ++ y -> exists b, s = w ++ b /\ runes b = y.
Proof.
  intros w. induction w as [|c w IH]; intros s y H E; cbn [map app] in *; [now exists s|]. inversion H as [|? ? L H']; subst.
  destruct (runes_back s [] c (map code w ++ y) L E) as (a & b & -> & A & E'). apply runes_nil in A as ->. apply IH in E' as (b' & -> & Q); [|exact H']. now exists b'.
Qed.

(** ** Reading common patterns *)
Fixpoint word_re (fold : bool) (w : bs) (q : re) : re := match w with [] => q | c :: w' => RSeq (char_re fold c) (word_re fold w' q) end.
Lemma plain_by : forall w, forallb is_literal w = true -> plain_word w.
Proof. intros w H. rewrite forallb_forall in H. apply Forall_forall. intros c I. apply literal_is. now apply H. Qed.
Ltac plain := first [now apply plain_by | repeat (apply Forall_cons; [now apply plain_by|]); now apply Forall_nil].
Lemma literal_low : forall w, plain_word w -> low w.
Proof. intros w H. induction H as [|c w L H IH]; constructor; [|exact IH]. destruct L as (L & _). lia. Qed.
Lemma literal_no_rep : forall c s, literal c -> no_rep (c :: s).
Proof. intros c s H. change (existsb (Ascii.eqb c) (B "*+?{") = false). cbn. not_special H. reflexivity. Qed.
Lemma word_no_rep : forall w s, plain_word w -> no_rep s -> no_rep (w ++ s).
Proof. intros [|c w] s H N; [exact N|]. inversion H; subst. now apply literal_no_rep. Qed.
Lemma repeated_plain : forall a s, no_rep s -> repeated a s = Some (a, s).
Proof.
  intros a [|c s] N; [reflexivity|]. unfold no_rep, is_rep in N. cbn [existsb B list_ascii_of_string] in N. unfold repeated.
  destruct (Ascii.eqb c "*"), (Ascii.eqb c "+"), (Ascii.eqb c "?"), (Ascii.eqb c "{"); try discriminate N. reflexivity.
Qed.
Lemma alone_plain : forall a s, no_rep s -> alone a s = Some (a, s).
Proof. intros a [|c s] N; [reflexivity|]. unfold no_rep in N. unfold alone. now rewrite N. Qed.
Lemma item_literal : forall n fold c s, literal c -> no_rep s -> (1 <= n)%nat -> p_item n fold (c :: s) = Some (char_re fold c, s).
Proof. intros [|n] fold c s H N L; [lia|]. cbn [p_item]. not_special H. apply literal_is in H. rewrite H. now apply repeated_plain. Qed.
Lemma seq_word : forall w fold s q s', plain_word w -> no_rep s -> forall k, (1 <= k)%nat ->
  (forall n, (k <= n)%nat -> p_seq n fold s = Some (q, s')) -> forall n, (k + length w <= n)%nat -> p_seq n fold (w ++ s) = Some (word_re fold w q, s').
Proof.
  induction w as [|c w IH]; intros fold s q s' H N k K Q n L; [apply Q; cbn [length] in L; lia|]. inversion H as [|? ? C H']; subst. cbn [length] in L. destruct n as [|n]; [lia|].
  cbn [p_seq app word_re]. unfold stops. not_special C. cbn [orb]. rewrite item_literal; [|exact C|now apply word_no_rep|lia].
  rewrite (IH fold s q s' H' N k K Q n ltac:(lia)). reflexivity.
Qed.
Lemma seq_nil : forall fold n, (1 <= n)%nat -> p_seq n fold [] = Some (REmpty, []).
Proof. intros fold [|n] L; [lia|reflexivity]. Qed.
Lemma seq_bar : forall fold s n, (1 <= n)%nat -> p_seq n fold ("|"%char :: s) = Some (REmpty, "|"%char :: s).
Proof. intros fold s [|n] L; [lia|reflexivity]. Qed.
Lemma seq_end : forall fold n, (2 <= n)%nat -> p_seq n fold (B "$") = Some (RSeq REnd REmpty, []).
Proof. intros fold [|[|n]] L; [lia|lia|reflexivity]. Qed.
Lemma seq_begin : forall fold s q s' k, no_rep s -> (1 <= k)%nat -> (forall n, (k <= n)%nat -> p_seq n fold s = Some (q, s')) ->
  forall n, (k + 1 <= n)%nat -> p_seq n fold ("^"%char :: s) = Some (RSeq RBegin q, s').
Proof.
  intros fold s q s' k N K Q n L. destruct n as [|n]; [lia|]. cbn [p_seq]. unfold stops. cbn [Ascii.eqb Bool.eqb orb].
  assert (E : p_item n fold ("^"%char :: s) = Some (RBegin, s)) by (destruct n; [lia|exact (alone_plain RBegin s N)]). rewrite E, (Q n ltac:(lia)). reflexivity.
Qed.
Lemma alt_last : forall n fold s q, p_seq n fold s = Some (q, []) -> p_alt (Datatypes.S n) fold s = Some (q, []).
Proof. intros n fold s q H. cbn [p_alt]. now rewrite H. Qed.
Lemma alt_bar : forall n fold s s1 q r, p_seq n fold s = Some (q, "|"%char :: s1) -> p_alt n fold s1 = Some (r, []) -> p_alt (Datatypes.S n) fold s = Some (RAlt q r, []).
Proof. intros n fold s s1 q r H1 H2. cbn [p_alt]. rewrite H1. cbn [Ascii.eqb Bool.eqb]. now rewrite H2. Qed.
Lemma no_flag : forall w s, plain_word w -> w <> [] -> has_prefix (B "(?i)") (w ++ s) = false.
Proof. intros [|c w] s H NE; [easy|]. inversion H as [|? ? L _]; subst. change (has_prefix (B "(?i)") ((c :: w) ++ s)) with (Ascii.eqb "(" c && has_prefix (B "?i)") (w ++ s)). rewrite Ascii.eqb_sym. not_special L. reflexivity. Qed.
Lemma compile_plain : forall p q, has_prefix (B "(?i)") p = false -> p_alt (4 * length p + 4) false p = Some (q, []) -> compile p = Some q.
Proof. intros p q F H. unfold compile. now rewrite F, H. Qed.
(** A word, perhaps at the beginning, perhaps at the end, perhaps whatever its case. *)
Definition at_end (e : bool) : re := if e then RSeq REnd REmpty else REmpty.
Definition at_begin (b : bool) (r : re) : re := if b then RSeq RBegin r else r.
Definition body (b e : bool) (w : bs) : bs := (if b then B "^" else []) ++ w ++ (if e then B "$" else []).
Definition anchored (fold b e : bool) (w : bs) : bs := (if fold then B "(?i)" else []) ++ body b e w.
Lemma seq_at_end : forall fold (e : bool) n, (2 <= n)%nat -> p_seq n fold (if e then B "$" else []) = Some (at_end e, []).
Proof. intros fold [] n L; [now apply seq_end|apply seq_nil; lia]. Qed.
Lemma alt_body : forall fold b e w n, plain_word w -> (length w + 4 <= n)%nat -> p_alt n fold (body b e w) = Some (at_begin b (word_re fold w (at_end e)), []).
Proof.
  intros fold b e w n H L. destruct n as [|n]; [lia|]. apply alt_last. unfold body.
  assert (Q : forall m, (2 + length w <= m)%nat -> p_seq m fold (w ++ (if e then B "$" else [])) = Some (word_re fold w (at_end e), [])).
  { intros m M. apply (seq_word w fold _ _ [] H) with (k := 2%nat); [now destruct e|lia|apply seq_at_end|lia]. }
  destruct b; cbn [at_begin app]; [|apply Q; lia]. change (B "^") with ["^"%char]. cbn [app]. apply (seq_begin fold (w ++ (if e then B "$" else [])) _ [] (2 + length w)%nat); [|lia|exact Q|lia].
  apply word_no_rep; [exact H|now destruct e].
Qed.
Lemma anchored_pattern : forall fold b e w, plain_word w -> compile (anchored fold b e w) = Some (at_begin b (word_re fold w (at_end e))).
Proof.
  intros fold b e w H. unfold anchored. assert (L : (length w <= length (body b e w))%nat) by (unfold body; rewrite !app_length; lia). destruct fold.
  - unfold compile. change (has_prefix (B "(?i)") (B "(?i)" ++ body b e w)) with true. cbv iota zeta. change (skipn 4 (B "(?i)" ++ body b e w)) with (body b e w).
    rewrite (alt_body true b e w _ H); [reflexivity|]. rewrite app_length. lia.
  - cbn [app]. apply compile_plain; [|apply alt_body; [exact H|lia]]. unfold body. destruct b; [reflexivity|]. destruct w as [|c w]; [now destruct e|]. exact (no_flag (c :: w) _ H ltac:(discriminate)).
Qed.
(** Two words with a bar, as one flag word: the beginning belongs to the one and the end to the other. *)
Lemma flag_two_pattern : forall w1 w2, plain_word w1 -> plain_word w2 ->
  compile (value_pattern (w1 ++ B "|" ++ w2)) = Some (RAlt (RSeq RBegin (word_re true w1 REmpty)) (word_re true w2 (RSeq REnd REmpty))).
Proof.
  intros w1 w2 H1 H2. unfold compile, value_pattern. change (has_prefix (B "(?i)") (B "(?i)^" ++ (w1 ++ B "|" ++ w2) ++ B "$")) with true. cbv iota zeta.
  change (skipn 4 (B "(?i)^" ++ (w1 ++ B "|" ++ w2) ++ B "$")) with ("^"%char :: (w1 ++ B "|" ++ w2) ++ B "$"). rewrite !app_length.
  replace (4 * _ + 4)%nat with (Datatypes.S (Datatypes.S (4 * length w1 + 4 * length w2 + 30))) by (cbn; lia).
  rewrite (alt_bar _ _ _ (w2 ++ B "$") (RSeq RBegin (word_re true w1 REmpty)) (word_re true w2 (RSeq REnd REmpty))); [reflexivity| |].
  - rewrite <- !app_assoc. change (B "|" ++ w2 ++ B "$") with ("|"%char :: w2 ++ B "$").
    apply (seq_begin true (w1 ++ "|"%char :: w2 ++ B "$") _ _ (1 + length w1)%nat); [now apply word_no_rep|lia| |lia].
    intros n L. apply (seq_word w1 true ("|"%char :: w2 ++ B "$") REmpty _ H1 eq_refl 1); [lia|apply seq_bar|lia].
  - apply alt_last. apply (seq_word w2 true (B "$") _ [] H2 eq_refl 2); [lia|apply seq_end|lia].
Qed.
Fixpoint alts (w : bs) (ws : list bs) : re := match ws with [] => word_re false w REmpty | w' :: ws' => RAlt (word_re false w REmpty) (alts w' ws') end.
Lemma any_alt : forall ws w, plain_word w -> Forall plain_word ws -> forall n, (length (any_of (w :: ws)) + 2 <= n)%nat -> p_alt n false (any_of (w :: ws)) = Some (alts w ws, []).
Proof.
  induction ws as [|w' ws IH]; intros w H F n L.
  - cbn [any_of alts] in *. destruct n as [|n]; [lia|]. apply alt_last. rewrite <- (app_nil_r w) at 1. apply (seq_word w false [] REmpty [] H I 1); [lia|apply seq_nil|lia].
  - inversion F; subst. change (any_of (w :: w' :: ws)) with (w ++ "|"%char :: any_of (w' :: ws)) in *. rewrite app_length in L. cbn [length] in L. destruct n as [|n]; [lia|].
    cbn [alts]. apply alt_bar with (s1 := any_of (w' :: ws)); [|apply IH; [assumption|assumption|lia]].
    apply (seq_word w false ("|"%char :: any_of (w' :: ws)) REmpty _ H eq_refl 1); [lia|apply seq_bar|lia].
Qed.
Lemma any_pattern : forall w ws, plain_word w -> Forall plain_word ws -> compile (any_of (w :: ws)) = Some (alts w ws).
Proof.
  intros w ws H F. apply compile_plain; [|apply any_alt; [assumption|assumption|lia]]. destruct w as [|c w].
  - destruct ws as [|w' ws]; [reflexivity|]. reflexivity.
  - destruct ws as [|w' ws]; [rewrite <- (app_nil_r (any_of _))|]; now apply (no_flag (c :: w)).
Qed.

(** ** What they match *)
Definition word_is (fold : bool) : bs -> list Z -> Prop := Forall2 (fun c r => in_ranges (if fold then folded c else [(code c, code c)]) r = true).
Definition spelled (fold : bool) (w w' : bs) : Prop := if fold then same_word w w' else w' = w.
Lemma fits_word : forall fold w q b x a, fits (word_re fold w q) b x a <-> exists u v, x = u ++ v /\ word_is fold w u /\ fits q (b ++ u) v a.
Proof.
  intros fold w q. induction w as [|c w IH]; intros b x a; cbn [word_re].
  - split.
    + intro H. exists [], x. split; [reflexivity|]. split; [constructor|]. now rewrite app_nil_r.
    + intros (u & v & -> & U & H). inversion U; subst. now rewrite app_nil_r in H.
  - split.
    + intro H. inversion H as [| |? ? ? w1 w2 ? F1 F2| | | | | | |]; subst. inversion F1 as [? ? ? r ? I| | | | | | | | |]; subst. apply IH in F2 as (u & v & -> & U & F).
      exists (r :: u), v. split; [reflexivity|]. split; [constructor; [apply in_ranges_iff; now apply I|exact U]|]. now rewrite <- app_assoc in F.
    + intros (u & v & -> & U & H). inversion U as [|? r ? u' I U']; subst. change ((r :: u') ++ v) with ([r] ++ (u' ++ v)). constructor.
      * constructor. split; [reflexivity|]. intros _. now apply in_ranges_iff.
      * apply IH. exists u', v. split; [reflexivity|]. split; [exact U'|]. now rewrite <- app_assoc.
Qed.
Lemma folded_iff : forall c r, literal c -> ~ In c ["k"; "K"; "s"; "S"]%char -> (in_ranges (folded c) r = true <-> exists d, same_letter c d /\ code d < 128 /\ r = code d).
Proof.
  intros c r L N. assert (Lc : code c < 128) by (unfold literal in L; lia). pose proof (code_range c) as Rc.
  assert (K : Ascii.eqb c "k" = false /\ Ascii.eqb c "K" = false /\ Ascii.eqb c "s" = false /\ Ascii.eqb c "S" = false)
    by (repeat split; apply Ascii.eqb_neq; intro E; apply N; cbn; subst; tauto).
  destruct K as (K1 & K2 & K3 & K4). unfold folded. rewrite K1, K2, K3, K4.
  assert (UP : forall z, 0 <= z < 256 -> exists d, code d = z) by (intros z H; exists (byte_of z); now apply code_byte_of_small).
  unfold in_range. change (code "a") with 97. change (code "z") with 122. change (code "A") with 65. change (code "Z") with 90. unfold same_letter.
  destruct ((97 <=? code c) && (code c <=? 122)) eqn:E1; [|destruct ((65 <=? code c) && (code c <=? 90)) eqn:E2]; cbn [in_ranges existsb fst snd]; unfold in_ranges, zin; cbn [existsb fst snd]; split.
  - intro H. assert (D : r = code c \/ r = code c - 32) by lia. destruct D as [->| ->]; [now exists c; auto|]. destruct (UP (code c - 32) ltac:(lia)) as (d & D). exists d. split; [right; left; lia|lia].
  - intros (d & [<-|[(H1 & H2)|(H1 & H2)]] & _ & ->); lia.
  - intro H. assert (D : r = code c \/ r = code c + 32) by lia. destruct D as [->| ->]; [now exists c; auto|]. destruct (UP (code c + 32) ltac:(lia)) as (d & D). exists d. split; [right; right; lia|lia].
  - intros (d & [<-|[(H1 & H2)|(H1 & H2)]] & _ & ->); lia.
  - intro H. assert (r = code c) by lia. subst. exists c. auto.
  - intros (d & [<-|[(H1 & H2)|(H1 & H2)]] & _ & ->); lia.
Qed.
Lemma word_is_iff : forall fold w u, plain_word w -> (fold = true -> no_odd_letter w) -> (word_is fold w u <-> exists w', spelled fold w w' /\ low w' /\ u = map code w').
Proof.
  intros [] w u H O; cbn [spelled].
  - specialize (O eq_refl). revert u. induction H as [|c w L H IH]; intro u.
    + split; [intro U; inversion U; exists []; repeat split; constructor|]. intros (w' & S & _ & ->). inversion S; subst. constructor.
    + inversion O as [|? ? N O']; subst. specialize (IH O'). split.
      * intro U. inversion U as [|? r ? u' I U']; subst. apply (folded_iff c r L N) in I as (d & D & Ld & ->). apply IH in U' as (w' & S & Lw & ->). exists (d :: w'). repeat split; now constructor.
      * intros (w' & S & Lw & ->). inversion S as [|? d ? w2 D S']; subst. inversion Lw; subst. constructor; [apply (folded_iff c (code d) L N); now exists d|]. apply IH. now exists w2.
  - split.
    + intro U. exists w. split; [reflexivity|]. split; [now apply literal_low|]. clear -U. induction U as [|c r w u I U IH]; [reflexivity|]. cbn [map]. f_equal; [|exact IH].
      unfold in_ranges, zin in I. cbn [existsb fst snd] in I. lia.
    + intros (w' & -> & _ & ->). clear. induction w as [|c w IH]; constructor; [|exact IH]. unfold in_ranges, zin. cbn [existsb fst snd]. lia.
Qed.
Lemma fits_at_end : forall e b x a, fits (at_end e) b x a <-> x = [] /\ (e = true -> a = []).
Proof.
  intros [] b x a; cbn [at_end].
  - split.
    + intro H. inversion H as [| |? ? ? w1 w2 ? F1 F2| | | | | | |]; subst. inversion F2; subst. inversion F1; subst. now split.
    + intros (-> & H). rewrite (H eq_refl). apply (fi_seq REnd REmpty b [] [] []); constructor.
  - split; [intro H; inversion H; now split|]. intros (-> & _). constructor.
Qed.
Lemma matches_word : forall fold e w s, plain_word w -> (fold = true -> no_odd_letter w) ->
  (match_string (word_re fold w (at_end e)) s = true <-> exists w' a b, spelled fold w w' /\ s = a ++ w' ++ b /\ (e = true -> b = [])).
Proof.
  intros fold e w s H O. unfold match_string. rewrite search_iff. unfold occurs. split.
  - intros (b & x & a & E & F). apply fits_word in F as (u & v & -> & U & F). apply fits_at_end in F as (-> & EE). rewrite app_nil_r in E.
    apply (word_is_iff fold w u H O) in U as (w' & SP & Lw & ->). exists w'. destruct w' as [|c w'].
    + exists s, []. cbn [app]. now rewrite app_nil_r.
    + inversion Lw as [|? ? Lc Lw']; subst. cbn [map app] in E. destruct (runes_back s b c _ Lc E) as (p & r & -> & P & R).
      destruct (runes_begin w' r a Lw' R) as (q & -> & Q). exists p, q. split; [exact SP|]. split; [reflexivity|]. intro T. specialize (EE T). subst a. now apply runes_nil.
  - intros (w' & a & b & SP & -> & EE). assert (U : word_is fold w (map code w')).
    { apply (word_is_iff fold w _ H O). exists w'. split; [exact SP|]. split; [|reflexivity]. apply literal_low in H. clear -SP H. destruct fold; cbn [spelled] in SP; [|now subst].
      induction SP as [|c d w w' D SP IH]; constructor; inversion H; subst; [|now apply IH]. destruct D as [<-|[(D1 & D2)|(D1 & D2)]]; lia. }
    assert (Lw : low w').
    { apply literal_low in H. clear -SP H. destruct fold; cbn [spelled] in SP; [|now subst].
      induction SP as [|c d w w' D SP IH]; constructor; inversion H; subst; [|now apply IH]. destruct D as [<-|[(D1 & D2)|(D1 & D2)]]; lia. }
    destruct w' as [|c w'].
    + exists (runes (a ++ b)), [], []. split; [now rewrite !app_nil_r|]. apply fits_word. exists [], []. split; [reflexivity|]. split; [exact U|]. now apply fits_at_end.
    + inversion Lw as [|? ? Lc Lw']; subst. exists (runes a), (map code (c :: w')), (runes b). split.
      * cbn [app map]. rewrite (runes_at_ascii a c (w' ++ b) Lc), (runes_word w' b Lw'). reflexivity.
      * apply fits_word. exists (map code (c :: w')), []. rewrite app_nil_r. split; [reflexivity|]. split; [exact U|]. apply fits_at_end. split; [reflexivity|]. intro T. now rewrite (EE T).
Qed.
Lemma matches_begin : forall fold e w s, plain_word w -> (fold = true -> no_odd_letter w) ->
  (match_string (RSeq RBegin (word_re fold w (at_end e))) s = true <-> exists w' b, spelled fold w w' /\ s = w' ++ b /\ (e = true -> b = [])).
Proof.
  intros fold e w s H O. unfold match_string. rewrite search_iff. unfold occurs. split.
  - intros (b & x & a & E & F). inversion F as [| |? ? ? w1 w2 ? F1 F2| | | | | | |]; subst. inversion F1; subst. cbn [app] in *. apply fits_word in F2 as (u & v & -> & U & F2).
    apply fits_at_end in F2 as (-> & EE). rewrite app_nil_r in E. apply (word_is_iff fold w u H O) in U as (w' & SP & Lw & ->).
    destruct (runes_begin w' s a Lw E) as (q & -> & Q). exists w', q. split; [exact SP|]. split; [reflexivity|]. intro T. specialize (EE T). subst a. now apply runes_nil.
  - intros (w' & b & SP & -> & EE). assert (Lw : low w').
    { apply literal_low in H. clear -SP H. destruct fold; cbn [spelled] in SP; [|now subst].
      induction SP as [|c d w w' D SP IH]; constructor; inversion H; subst; [|now apply IH]. destruct D as [<-|[(D1 & D2)|(D1 & D2)]]; lia. }
    exists [], (map code w'), (runes b). split; [cbn [app]; now apply runes_word|]. change (map code w') with ([] ++ map code w'). constructor; [constructor|]. apply fits_word.
    exists (map code w'), []. rewrite app_nil_r. split; [reflexivity|]. split; [apply (word_is_iff fold w _ H O); now exists w'|]. apply fits_at_end. split; [reflexivity|]. intro T. now rewrite (EE T).
Qed.
Lemma matches_alt : forall r1 r2 s, match_string (RAlt r1 r2) s = true <-> match_string r1 s = true \/ match_string r2 s = true.
Proof.
  intros r1 r2 s. unfold match_string. rewrite !search_iff. unfold occurs. split.
  - intros (b & x & a & E & F). inversion F; subst; [left|right]; now exists b, x, a.
  - intros [(b & x & a & E & F)|(b & x & a & E & F)]; exists b, x, a; (split; [exact E|]); [now apply fi_left|now apply fi_right].
Qed.

(** ** Patterns and the texts they match *)
Theorem C66_regex_meaning : forall O p r s, library O -> compile p = Some r -> rx_ok O p = true /\ (rx_match O p s = true <-> occurs r (runes s)).
Proof. intros O p r s L C. destruct (L p r C) as (A & M). split; [exact A|]. rewrite M. unfold match_string. apply search_iff. Qed.
Theorem C66_patterns_say : forall O p M, library O -> says p M -> rx_ok O p = true /\ forall s, rx_match O p s = true <-> M s.
Proof.
  intros O p M L H.
  assert (A : forall fold b e w, plain_word w -> rx_ok O (anchored fold b e w) = true /\ forall s, rx_match O (anchored fold b e w) s = match_string (at_begin b (word_re fold w (at_end e))) s)
    by (intros fold b e w P; apply L; now apply anchored_pattern).
  destruct H as [w P|w P|w P|w P|w P ws W|w P N|w P N|w P N|w P N|p M R].
  - destruct (A false false false w P) as (A1 & A2). unfold anchored, body in *. cbn [app] in *. rewrite app_nil_r in *. split; [exact A1|]. intro s. rewrite A2. cbn [at_begin].
    rewrite (matches_word false false w s P ltac:(discriminate)). cbn [spelled]. split; [intros (w' & a & b & -> & E & _); now exists a, b|intros (a & b & E); exists w, a, b; repeat split; [exact E|discriminate]].
  - destruct (A false true false w P) as (A1 & A2). unfold anchored, body in *. cbn [app] in A1, A2. rewrite app_nil_r in *. split; [exact A1|]. intro s. rewrite A2. cbn [at_begin].
    rewrite (matches_begin false false w s P ltac:(discriminate)). cbn [spelled]. split; [intros (w' & b & -> & E & _); now exists b|intros (b & E); exists w, b; repeat split; [exact E|discriminate]].
  - destruct (A false false true w P) as (A1 & A2). unfold anchored, body in *. cbn [app] in A1, A2. split; [exact A1|]. intro s. rewrite A2. cbn [at_begin].
    rewrite (matches_word false true w s P ltac:(discriminate)). cbn [spelled].
    split; [intros (w' & a & b & -> & E & EE); exists a; rewrite (EE eq_refl), app_nil_r in E; exact E|intros (a & E); exists w, a, []; rewrite app_nil_r; now repeat split].
  - destruct (A false true true w P) as (A1 & A2). unfold anchored, body in *. cbn [app] in A1, A2. split; [exact A1|]. intro s. rewrite A2. cbn [at_begin].
    rewrite (matches_begin false true w s P ltac:(discriminate)). cbn [spelled].
    split; [intros (w' & b & -> & E & EE); rewrite (EE eq_refl), app_nil_r in E; exact E|intros ->; exists w, []; rewrite app_nil_r; now repeat split].
  - destruct (L _ _ (any_pattern w ws P W)) as (A1 & A2). split; [exact A1|]. intro s. rewrite A2. clear -P W.
    assert (ONE : forall w, plain_word w -> match_string (word_re false w REmpty) s = true <-> contains w s).
    { intros v V. rewrite (matches_word false false v s V ltac:(discriminate)). cbn [spelled]. split; [intros (w' & a & b & -> & E & _); now exists a, b|intros (a & b & E); exists v, a, b; repeat split; [exact E|discriminate]]. }
    revert w P. induction W as [|w' ws W' W IH]; intros w P; cbn [alts].
    + rewrite (ONE w P). split; [intro H; exists w; split; [now left|exact H]|intros (v & [<-|[]] & H); exact H].
    + rewrite matches_alt, (ONE w P), (IH w' W'). split.
      * intros [H|(v & I & H)]; [exists w; split; [now left|exact H]|exists v; split; [now right|exact H]].
      * intros (v & [<-|I] & H); [now left|right; now exists v].
  - destruct (A true false false w P) as (A1 & A2). unfold anchored, body in *. cbn [app] in A1, A2. rewrite app_nil_r in *. split; [exact A1|]. intro s. rewrite A2. cbn [at_begin].
    rewrite (matches_word true false w s P (fun _ => N)). cbn [spelled]. split; [intros (w' & a & b & S & E & _); exists w'; split; [exact S|now exists a, b]|intros (w' & S & a & b & E); exists w', a, b; repeat split; [exact S|exact E|discriminate]].
  - destruct (A true true false w P) as (A1 & A2). unfold anchored, body in *. cbn [app] in A1, A2. rewrite app_nil_r in *. split; [exact A1|]. intro s. rewrite A2. cbn [at_begin].
    rewrite (matches_begin true false w s P (fun _ => N)). cbn [spelled]. split; [intros (w' & b & S & E & _); exists w'; split; [exact S|now exists b]|intros (w' & S & b & E); exists w', b; repeat split; [exact S|exact E|discriminate]].
  - destruct (A true false true w P) as (A1 & A2). unfold anchored, body in *. cbn [app] in A1, A2. split; [exact A1|]. intro s. rewrite A2. cbn [at_begin].
    rewrite (matches_word true true w s P (fun _ => N)). cbn [spelled].
    split; [intros (w' & a & b & S & E & EE); exists w'; split; [exact S|exists a; rewrite (EE eq_refl), app_nil_r in E; exact E]|intros (w' & S & a & E); exists w', a, []; rewrite app_nil_r; now repeat split].
  - destruct (A true true true w P) as (A1 & A2). unfold anchored, body in *. cbn [app] in A1, A2. split; [exact A1|]. intro s. rewrite A2. cbn [at_begin].
    rewrite (matches_begin true true w s P (fun _ => N)). cbn [spelled].
    split; [intros (w' & b & S & E & EE); rewrite (EE eq_refl), app_nil_r in E; now subst|intro S; exists s, []; rewrite app_nil_r; now repeat split].
  - destruct (reads_compile p M R) as (r & C & SA). destruct (L p r C) as (A1 & A2). split; [exact A1|]. intro s. rewrite A2. unfold match_string. rewrite search_iff. unfold occurs, found.
    split; intros (b & w & a & E & F); exists b, w, a; (split; [exact E|]); now apply SA.
Qed.
(** The patterns by their text: whatever is written as SpecRegex.v says is compiled, to an expression with that meaning,
    and nothing else is among the patterns described here. *)
Theorem C66_pattern_texts : forall O p, library O ->
  (forall M, reads p M -> rx_ok O p = true /\ forall s, rx_match O p s = true <-> found M s) /\
  ((exists r, compile p = Some r) <-> exists M, reads p M).
Proof.
  intros O p L. split.
  - intros M R. exact (C66_patterns_say O p _ L (say_reads p M R)).
  - split; [intros (r & C); destruct (compile_reads p r C) as (M & R & _); now exists M|intros (M & R); destruct (reads_compile p M R) as (r & C & _); now exists r].
Qed.

(** ** Flag words *)
Lemma word_says : forall O w, library O -> plain_word w -> no_odd_letter w -> rx_ok O (value_pattern w) = true /\ forall s, rx_match O (value_pattern w) s = true <-> same_word w s.
Proof. intros O w L P N. exact (C66_patterns_say O _ _ L (say_case_equals w P N)). Qed.
Lemma last_word_snoc : forall l k v tk w, last_word (l ++ [(k, v)]) tk w <-> (tk = k /\ w = v) \/ (tk <> k /\ last_word l tk w).
Proof.
  intros l k v tk w. split.
  - intros (a & b & E & N). destruct b as [|x b] using rev_ind; [|clear IHb].
    + apply app_inj_tail in E as (_ & E). injection E as -> ->. now left.
    + rewrite app_comm_cons, app_assoc in E. apply app_inj_tail in E as (-> & <-). rewrite map_app, in_app_iff in N. right. split; [intros ->; apply N; right; now left|].
      exists a, b. split; [reflexivity|]. tauto.
  - intros [(-> & ->)|(NE & a & b & -> & N)]; [exists l, []; split; [reflexivity|easy]|].
    exists a, (b ++ [(k, v)]). split; [now rewrite <- app_assoc|]. rewrite map_app, in_app_iff. cbn. intros [I|[I|[]]]; [easy|]. now subst.
Qed.
Lemma register_values_app : forall O l1 l2 vs, register_values O (l1 ++ l2) vs = bind (register_values O l1 vs) (register_values O l2).
Proof.
  intros O l1 l2. induction l1 as [|[tk w] l1 IH]; intro vs; [reflexivity|]. cbn [app register_values]. destruct (register_value O tk w vs) as [vs'| |]; try reflexivity. cbn [bind]. apply IH.
Qed.
(** Registering panics exactly if the library refuses some word's pattern; otherwise each token has the last word registered for it. *)
Theorem C60_registrations : forall O l,
  ((exists tk w, In (tk, w) l /\ rx_ok O (value_pattern w) = false) /\ register_values O l [] = Panic) \/
  ((forall tk w, In (tk, w) l -> rx_ok O (value_pattern w) = true) /\ exists vs, register_values O l [] = Ret vs /\ forall tk w, zmap_get tk vs = Some w <-> last_word l tk w).
Proof.
  intros O l. induction l as [|[k v] l IH] using rev_ind.
  - right. split; [easy|]. exists []. split; [reflexivity|]. intros tk w. split; [discriminate|]. intros (a & b & E & _). destruct a; discriminate E.
  - rewrite register_values_app. destruct IH as [((tk & w & I & R) & ->)|(A & vs & -> & G)].
    + left. split; [|reflexivity]. exists tk, w. split; [apply in_app_iff; now left|exact R].
    + cbn [bind register_values]. unfold register_value. destruct (rx_ok O (value_pattern v)) eqn:R; cbn [bind].
      * right. split; [intros tk w I; apply in_app_iff in I as [I|[I|[]]]; [now apply (A tk)|injection I as <- <-; exact R]|]. eexists. split; [reflexivity|].
        intros tk w. rewrite zmap_get_set, last_word_snoc, <- G. destruct (Z.eqb_spec tk k) as [->|NE].
        -- split; [intro E; injection E as <-; now left|intros [(_ & ->)|(F & _)]; [reflexivity|easy]].
        -- split; [intro E; right; now split|intros [(F & _)|(_ & E)]; [easy|exact E]].
      * left. split; [|reflexivity]. exists k, v. split; [apply in_app_iff; right; now left|exact R].
Qed.
(** Reading a value: the first token offered whose word is the text, whatever its case. *)
Theorem C60_registered_words : forall O l, library O -> (forall tk w, In (tk, w) l -> plain_word w /\ no_odd_letter w) ->
  exists vs, register_values O l [] = Ret vs /\
    forall tks s tk, value_of O vs tks s = ROk tk <->
      exists pre post w, tks = pre ++ tk :: post /\ last_word l tk w /\ same_word w s /\ Forall (fun k => exists v, last_word l k v /\ ~ same_word v s) pre.
Proof.
  intros O l L P. destruct (C60_registrations O l) as [((tk & w & I & R) & _)|(_ & vs & E & G)].
  { destruct (P tk w I) as (P1 & P2). destruct (word_says O w L P1 P2) as (K & _). rewrite K in R. discriminate R. }
  exists vs. split; [exact E|]. intros tks s tk.
  assert (M : forall k w, last_word l k w -> forall s, rx_match O (value_pattern w) s = true <-> same_word w s).
  { intros k w (a & b & -> & _). destruct (P k w) as (P1 & P2); [apply in_app_iff; right; now left|]. now apply word_says. }
  induction tks as [|k tks IH]; cbn [value_of].
  - split; [discriminate|]. intros ([|x pre] & post & w & F & _); discriminate F.
  - destruct (zmap_get k vs) as [w|] eqn:Z.
    + apply G in Z. pose proof (M k w Z s) as Q. destruct (rx_match O (value_pattern w) s).
      * split.
        -- intro H. injection H as ->. exists [], tks, w. split; [reflexivity|]. split; [exact Z|]. split; [now apply Q|constructor].
        -- intros ([|x pre] & post & v & F & LW & SW & FA); cbn [app] in F; injection F as F1 F2; [now subst|]. subst x. inversion FA as [|? ? (v' & LV & NV) _]; subst.
           apply G in LV, Z. rewrite LV in Z. injection Z as ->. elim NV. now apply Q.
      * rewrite IH. split.
        -- intros (pre & post & v & -> & LW & SW & FA). exists (k :: pre), post, v. split; [reflexivity|]. split; [exact LW|]. split; [exact SW|]. constructor; [|exact FA].
           exists w. split; [exact Z|]. intro X. apply Q in X. discriminate X.
        -- intros ([|x pre] & post & v & F & LW & SW & FA); cbn [app] in F; injection F as F1 F2.
           ++ subst k. apply G in LW, Z. rewrite LW in Z. injection Z as ->. apply Q in SW. discriminate SW.
           ++ subst. inversion FA; subst. now exists pre, post, v.
    + split; [discriminate|]. intros ([|x pre] & post & v & F & LW & SW & FA); cbn [app] in F; injection F as F1 F2.
      * subst k. apply G in LW. rewrite LW in Z. discriminate Z.
      * subst x. inversion FA as [|? ? (v' & LV & NV) _]; subst. apply G in LV. rewrite LV in Z. discriminate Z.
Qed.
(** The words of [init], through the library, are read as Scanner.v has it. *)
Lemma same_word_fold : forall w s, same_word w s <-> fold_eqb s w = true.
Proof.
  intros w s. unfold fold_eqb, same_word. transitivity (map lower_ascii s = map lower_ascii w); [|destruct (bs_eqb_spec (map lower_ascii s) (map lower_ascii w)); split; congruence].
  assert (K : forall c d, same_letter c d <-> lower_ascii d = lower_ascii c).
  { intros c d. pose proof (code_range c). pose proof (code_range d). unfold same_letter, lower_ascii, in_range. change (code "A") with 65. change (code "Z") with 90.
    destruct ((65 <=? code c) && (code c <=? 90)) eqn:E1; destruct ((65 <=? code d) && (code d <=? 90)) eqn:E2; split.
    - intros [<-|[?|?]]; [reflexivity|lia|lia].
    - intro H1. left. apply code_inj. apply (f_equal code) in H1. rewrite !code_byte_of_small in H1 by lia. lia.
    - intros [<-|[?|(? & ?)]]; [lia|lia|]. apply code_inj. rewrite code_byte_of_small by lia. lia.
    - intros ->. right; right. rewrite code_byte_of_small by lia. lia.
    - intros [<-|[?|?]]; [lia| |lia]. apply code_inj. rewrite code_byte_of_small by lia. lia.
    - intro H1. right; left. apply (f_equal code) in H1. rewrite code_byte_of_small in H1 by lia. lia.
    - intros [<-|[?|?]]; [reflexivity|lia|lia].
    - intros ->. now left. }
  split.
  - intro H. induction H as [|c d w s L H IH]; [reflexivity|]. cbn [map]. f_equal; [now apply K|exact IH].
  - revert s. induction w as [|c w IH]; intros [|d s] H; try discriminate; [constructor|]. cbn [map] in H. injection H as H1 H2. constructor; [now apply K|now apply IH].
Qed.
Lemma value_text_plain : forall v, plain_word (value_text v) /\ no_odd_letter (value_text v).
Proof. intros []; (split; [repeat constructor|]); unfold no_odd_letter, value_text, B; cbn; repeat constructor; cbn; intuition discriminate. Qed.
Theorem C60_library_values : forall O, library O -> exists vs, init_values O = Ret vs /\
  forall tks fuel s, read_value_from O vs fuel (map vk_code tks) s =
    ('(s1, r) <- read_value fuel tks s ;; Ret (s1, match r with ROk v => ROk (vk_code v) | RErr e => RErr e end)).
Proof.
  intros O L. assert (W : forall v, rx_ok O (value_pattern (value_text v)) = true /\ forall s, rx_match O (value_pattern (value_text v)) s = true <-> same_word (value_text v) s)
    by (intro v; destruct (value_text_plain v); now apply word_says).
  unfold init_values, register_value. change (B "DetectionOnly") with (value_text KElse). change (B "Off") with (value_text KOff). change (B "On") with (value_text KOn).
  rewrite !(proj1 (W _)). cbn [bind]. eexists. split; [reflexivity|]. set (vs := zmap_set _ _ _). assert (G : forall v, zmap_get (vk_code v) vs = Some (value_text v)) by (intros []; reflexivity).
  assert (V : forall tks str, value_of O vs (map vk_code tks) str = match parse_value tks str with ROk v => ROk (vk_code v) | RErr e => RErr e end).
  { intros tks str. unfold parse_value. induction tks as [|v tks IH]; [reflexivity|]. cbn [map value_of find]. rewrite G.
    assert (E : rx_match O (value_pattern (value_text v)) str = fold_eqb str (value_text v)).
    { pose proof (proj2 (W v) str) as Q. rewrite same_word_fold in Q. destruct (rx_match _ _ _), (fold_eqb _ _); try reflexivity; [symmetry; now apply Q|now apply Q]. }
    rewrite E. destruct (fold_eqb str (value_text v)); [reflexivity|exact IH]. }
  intros tks fuel s. unfold read_value_from, read_value. destruct (read_string fuel s) as [[s1 [str|e]]| |]; try reflexivity. cbn [bind]. now rewrite V.
Qed.
(** A word with a bar is not one of two words: the pattern's beginning belongs to the first and its end to the second. *)
Theorem C60_word_with_bar : forall O w1 w2, library O -> plain_word w1 -> no_odd_letter w1 -> plain_word w2 -> no_odd_letter w2 ->
  rx_ok O (value_pattern (w1 ++ B "|" ++ w2)) = true /\
  forall s, rx_match O (value_pattern (w1 ++ B "|" ++ w2)) s = true <-> (exists v, same_word w1 v /\ begins_with v s) \/ (exists v, same_word w2 v /\ ends_with v s).
Proof.
  intros O w1 w2 L P1 N1 P2 N2. destruct (L _ _ (flag_two_pattern w1 w2 P1 P2)) as (A & M). split; [exact A|]. intro s. rewrite M, matches_alt.
  change (RSeq RBegin (word_re true w1 REmpty)) with (RSeq RBegin (word_re true w1 (at_end false))). change (RSeq REnd REmpty) with (at_end true).
  rewrite (matches_begin true false w1 s P1 (fun _ => N1)), (matches_word true true w2 s P2 (fun _ => N2)). cbn [spelled]. split.
  - intros [(v & b & S & E & _)|(v & a & b & S & E & EE)]; [left|right]; exists v; (split; [exact S|]); [now exists b|]. exists a. rewrite (EE eq_refl), app_nil_r in E. exact E.
  - intros [(v & S & b & E)|(v & S & a & E)]; [left; exists v, b|right; exists v, a, []]; (split; [exact S|]); [split; [exact E|discriminate]|rewrite app_nil_r; now split].
Qed.
(** A library as described, and the rest of the world as in Witness.v. *)
Definition libr (mp : mpres) : oracles :=
  Oracles (fun p => match compile p with Some _ => true | None => false end) (fun p s => match compile p with Some r => match_string r s | None => false end)
    (media_type (demo mp)) (multipart (demo mp)) (url_string (demo mp)) (uni_lower (demo mp)) (semi_sep (demo mp)) (ord (demo mp)).
Lemma libr_library : forall mp, library (libr mp).
Proof. intros mp p r C. cbn. rewrite C. now split. Qed.
Lemma libr_ord : forall mp, ord_valid (libr mp).
Proof. intros mp n A m. apply Permutation_refl. Qed.
(** "Yes|No" is read in "Yesterday"; a word with a k is read in a text with the Kelvin sign. *)
Theorem C60_other_words_looser : exists O l vs, library O /\ ord_valid O /\ register_values O l [] = Ret vs /\ last_word l 1 (B "Yes|No") /\ last_word l 2 (B "Ok") /\
  value_of O vs [1] (B "Yesterday") = ROk 1 /\ value_of O vs [2] (B "O" ++ encode_rune 8490) = ROk 2 /\ ~ same_word (B "Ok") (B "O" ++ encode_rune 8490).
Proof.
  eexists (libr MpErr), [(1, B "Yes|No"); (2, B "Ok")], _. split; [apply libr_library|]. split; [apply libr_ord|]. split; [vm_compute; reflexivity|].
  split; [exists [], [(2, B "Ok")]; split; [reflexivity|intros [X|[]]; discriminate]|]. split; [exists [(1, B "Yes|No")], []; split; [reflexivity|easy]|].
  split; [vm_compute; reflexivity|]. split; [vm_compute; reflexivity|]. intro H. inversion H as [|? ? ? ? _ H1]; subst. inversion H1 as [|? ? ? ? _ H2]; subst. inversion H2.
Qed.
Example C60_registered_example : let O := libr MpErr in exists vs, register_values O [(1, B "Abort"); (2, B "Deny"); (1, B "Halt")] [] = Ret vs /\
  value_of O vs [2; 1] (B "hALT") = ROk 1 /\ value_of O vs [2; 1] (B "Abort") = RErr EOther /\ value_of O vs [3; 2] (B "Deny") = RErr EOther /\
  plain_word (B "Halt") /\ no_odd_letter (B "Halt") /\ init_values O = Ret [(132, B "DetectionOnly"); (133, B "Off"); (134, B "On")].
Proof.
  cbn zeta. eexists. split; [vm_compute; reflexivity|]. split; [vm_compute; reflexivity|]. split; [vm_compute; reflexivity|]. split; [vm_compute; reflexivity|].
  split; [now apply plain_by|]. split; [unfold no_odd_letter, B; cbn; repeat constructor; cbn; intuition discriminate|vm_compute; reflexivity].
Qed.

(** ** Rules with such patterns *)
Lemma said_match : forall O p s, library O -> (exists M, says p M) -> (rx_match O p s = true <-> said p s).
Proof.
  intros O p s L (M & H). destruct (C66_patterns_say O p M L H) as (_ & Q). split.
  - intro R. exists M. split; [exact H|now apply Q].
  - intros (M' & H' & R). destruct (C66_patterns_say O p M' L H') as (_ & Q'). now apply Q'.
Qed.
Lemma said_ok : forall O p, library O -> (exists M, says p M) -> rx_ok O p = true.
Proof. intros O p L (M & H). now destruct (C66_patterns_say O p M L H). Qed.
Theorem C66_word_rule_blocks : forall O n toks ts pat id fuel, ord_valid O -> library O ->
  toks <> [] -> Forall (fun tk => In tk request_scalars) toks -> plain_pattern pat -> (exists M, says pat M) -> int64 id ->
  (length (deny_text toks ts pat id) < fuel)%nat ->
  exists l, new_direset fuel O n (deny_text toks ts pat id) = Ret (Some l) /\
    let e := execute l new_engine in
    forall f ip port ip2 port2 u m p h later, (2 <= f)%nat -> Forall later_call later ->
      exists t i, steps f O e (e_ruleset e) ([OpConnection ip port ip2 port2; OpRequestURL (Some u) m p; OpRequestHeader h] ++ later ++ [OpResult]) (new_txn e) =
          Ret (t, [ObsNone; ObsNone; ObsNone] ++ map (fun _ => ObsNone) later ++ [ObsResult i]) /\
        (((exists tk v, In tk toks /\ request_value O ip u m p tk v /\ said pat (transformed_by O ts v)) /\ i_disruptive i = true /\ i_status i = 403) \/
         (~ (exists tk v, In tk toks /\ request_value O ip u m p tk v /\ said pat (transformed_by O ts v)) /\ i_disruptive i = false /\ i_status i = 200)).
Proof.
  intros O n toks ts pat id fuel OV L NE F PP S I FU.
  destruct (C66_deny_blocks_exactly O n toks ts pat id fuel OV NE F PP (said_ok O pat L S) I FU) as (l & LD & Q). exists l. split; [exact LD|].
  intros e f ip port ip2 port2 u m p h later FF LC. destruct (Q f ip port ip2 port2 u m p h later FF LC) as (t & i & E & D). exists t, i. split; [exact E|].
  assert (X : (exists tk v, In tk toks /\ request_value O ip u m p tk v /\ rx_match O pat (transformed_by O ts v) = true) <->
              (exists tk v, In tk toks /\ request_value O ip u m p tk v /\ said pat (transformed_by O ts v))).
  { split; intros (tk & v & A1 & A2 & A3); exists tk, v; (split; [exact A1|]); (split; [exact A2|]); now apply (said_match O pat _ L S). }
  destruct D as [(D1 & D2)|(D1 & D2)]; [left|right]; (split; [|exact D2]); [now apply X|]. intro Y. apply D1. now apply X.
Qed.
Definition word_line (d : deny_line) : Prop :=
  dl_toks d <> [] /\ Forall (fun tk => In tk request_scalars) (dl_toks d) /\ plain_pattern (dl_pat d) /\ (exists M, says (dl_pat d) M) /\ int64 (dl_id d).
Definition line_said (O : oracles) (ip : bs) (u : url) (m p : bs) (d : deny_line) : Prop :=
  exists tk v, In tk (dl_toks d) /\ request_value O ip u m p tk v /\ said (dl_pat d) (transformed_by O (dl_trans d) v).
Theorem C79_word_file_blocks : forall O n lines fuel, ord_valid O -> library O -> Forall word_line lines ->
  (length (SpecParse.listed LF (map line_text lines)) < fuel)%nat ->
  exists l, new_direset fuel O n (SpecParse.listed LF (map line_text lines)) = Ret (Some l) /\
    let e := execute l new_engine in
    forall f ip port ip2 port2 u m p h later, (length lines + 2 <= f)%nat -> Forall feeding later ->
      exists t bl i, steps f O e (e_ruleset e) ((OpConnection ip port ip2 port2 :: OpRequestURL (Some u) m p :: OpRequestHeader h :: later) ++ [OpResult]) (new_txn e) =
          Ret (t, bl ++ [ObsResult i]) /\
        ((exists d, In d lines /\ line_said O ip u m p d) /\ i_disruptive i = true /\ i_status i = 403 \/
         ~ (exists d, In d lines /\ line_said O ip u m p d) /\ i_disruptive i = false /\ i_status i = 200).
Proof.
  intros O n lines fuel OV L W FU. rewrite Forall_forall in W.
  destruct (C79_file_blocks_exactly O n lines fuel OV) as (l & LD & Q); [|exact FU|].
  { apply Forall_forall. intros d I. destruct (W d I) as (A1 & A2 & A3 & A4 & A5). split; [exact A1|]. split; [exact A2|]. split; [exact A3|]. split; [now apply said_ok|exact A5]. }
  exists l. split; [exact LD|]. intros e f ip port ip2 port2 u m p h later FF LC. destruct (Q f ip port ip2 port2 u m p h later FF LC) as (t & bl & i & E & D). exists t, bl, i. split; [exact E|].
  assert (X : (exists d, In d lines /\ line_matches O ip u m p d) <-> (exists d, In d lines /\ line_said O ip u m p d)).
  { split; intros (d & I & tk & v & A1 & A2 & A3); exists d; (split; [exact I|]); exists tk, v; (split; [exact A1|]); (split; [exact A2|]);
      destruct (W d I) as (_ & _ & _ & S & _); now apply (said_match O (dl_pat d) _ L S). }
  destruct D as [(D1 & D2)|(D1 & D2)]; [left|right]; (split; [|exact D2]); [now apply X|]. intro Y. apply D1. now apply X.
Qed.
Definition form_line_said (O : oracles) (ps : list (bs * bs)) (d : form_line) : Prop :=
  exists k v, In (k, v) ps /\ (fl_name d = [] \/ fl_name d = k) /\ said (fl_pat d) (changed O (fl_trans d) v).
Theorem C90_word_form_filter : forall O n lines text fuel, ord_valid O -> library O -> Forall (fun d => exact (fl_name d) /\ exists M, says (fl_pat d) M) lines ->
  file_text (form_directives lines) text -> (length text < fuel)%nat ->
  exists l, new_direset fuel O n text = Ret (Some l) /\
    let e := execute l new_engine in
    forall f ip port ip2 port2 u m p h ct pieces body ps later t bl,
      In m body_methods -> first_value (B "Content-Type") h ct -> ct <> [] -> fst (media_type O ct) = B "application/x-www-form-urlencoded" ->
      body = concat pieces -> body <> [] -> Z.of_nat (length body) <= 131072 -> form_pairs ps body -> Forall after_request later ->
      steps f O e (e_ruleset e) ((([OpConnection ip port ip2 port2; OpRequestURL u m p; OpRequestHeader h] ++ map (fun x => OpAppendRequestBody x NoFault) pieces) ++ OpRequestBody :: later) ++ [OpResult]) (new_txn e) = Ret (t, bl) ->
      exists i bl', bl = bl' ++ [ObsResult i] /\ (i_disruptive i = true <-> Exists (form_line_said O ps) lines).
Proof.
  intros O n lines text fuel OV L W FT FU. rewrite Forall_forall in W.
  destruct (C90_form_filter O n lines text fuel OV) as (l & LD & Q); [|exact FT|exact FU|].
  { apply Forall_forall. intros d I. destruct (W d I) as (A1 & A2). split; [exact A1|now apply said_ok]. }
  exists l. split; [exact LD|]. intros e f ip port ip2 port2 u m p h ct pieces bd ps later t bl H1 H2 H3 H4 H5 H6 H7 H8 H9 H.
  destruct (Q f ip port ip2 port2 u m p h ct pieces bd ps later t bl H1 H2 H3 H4 H5 H6 H7 H8 H9 H) as (i & bl' & E & D). exists i, bl'. split; [exact E|]. rewrite D, !Exists_exists.
  split; intros (d & I & k & v & A1 & A2 & A3); exists d; (split; [exact I|]); exists k, v; (split; [exact A1|]); (split; [exact A2|]);
    destruct (W d I) as (_ & S); now apply (said_match O (fl_pat d) _ L S).
Qed.
(** Selectors with such patterns. *)
Theorem C13_word_selectors : forall O e c cs v t t' out, ord_valid O -> library O ->
  (forall s p, In (Inc s) cs \/ In (Exc s) cs -> pattern s p -> exists M, says p M) ->
  apply_calls O cs (VColl c empty_filter) = Some v -> fetch O e v t = Ret (t', out) ->
  exists m kept, entries O e t c m /\ keeps (fun kv => selected_words cs (fst kv)) m kept /\
    (value_coll c = true -> Permutation out (flat_map snd kept)) /\ (value_coll c = false -> Permutation out (map fst kept)).
Proof.
  intros O e c cs v t t' out OV L W A F. destruct (C13_selectors O e c cs v t t' out OV A F) as (m & kept & E & K & V1 & V2). exists m, kept. split; [exact E|].
  split; [|split; [exact V1|intro X; now apply V2]]. clear -K L W.
  assert (Q : forall k, selected (rx_match O) cs k <-> selected_words cs k).
  { intro k. unfold selected, selected_words. 
    assert (R1 : (exists s p, In (Inc s) cs /\ pattern s p /\ rx_match O p k = true) <-> (exists s p, In (Inc s) cs /\ pattern s p /\ said p k))
      by (split; intros (s & p & I & P & R); exists s, p; (split; [exact I|]); (split; [exact P|]); now apply (said_match O p k L (W s p (or_introl I) P))).
    assert (R2 : (exists s p, In (Exc s) cs /\ pattern s p /\ rx_match O p k = true) <-> (exists s p, In (Exc s) cs /\ pattern s p /\ said p k))
      by (split; intros (s & p & I & P & R); exists s, p; (split; [exact I|]); (split; [exact P|]); now apply (said_match O p k L (W s p (or_intror I) P))).
    now rewrite R1, R2. }
  induction K as [|x m' k' P K IH|x m' k' P K IH]; [constructor|apply keeps_in|apply keeps_out]; try exact IH; [now apply Q|]. intro X. apply P. now apply Q.
Qed.
(** An expression of the whole fragment, and what it matches. *)
Example C66_regex_example : let O := libr MpErr in let p := B "(?:un|de)ion[ +a-c]*\d+$|^\w\.[^x-z]" in
  (exists r, compile p = Some r) /\ rx_match O p (B "x=union+ab 42") = true /\ rx_match O p (B "x=union+ab 42;") = false /\ rx_match O p (B "a.b") = true /\ rx_match O p (B "a.y") = false /\
  (let q := B "(?i:[a-z_]{2,3}\b)\.[\w-]$" in (exists r, compile q = Some r) /\ rx_match O q (B "1aK.-") = true /\ rx_match O q (B "1a.-") = false /\ rx_match O q (B "1aK.--") = false) /\
  (exists r, compile (B "a]}+") = Some r) /\ rx_match O (B "a]}+$") (B "a]}}") = true /\ rx_match O (B "a]}+$") (B "a]") = false /\
  compile (B "a{3,2}") = None /\ compile (B "a{1001}") = None /\ compile (B "a**") = None /\ compile (B "(a") = None /\ compile (B "a)") = None.
Proof. cbn zeta. split; [eexists; vm_compute; reflexivity|]. repeat split; try (eexists; vm_compute; reflexivity); vm_compute; reflexivity. Qed.
(** The pattern of the rule 942160 in examples/parser.go: a call of sleep or of benchmark, whatever the case. *)
Definition sleep_pattern : bs := B "(?i:sleep\(\s*?\d*?\s*?\)|benchmark\(.*?\,.*?\))".
Definition any_case (w : bs) (u : list Z) : Prop := Forall2 (fun c z => whatever_case true (fun x => x = code c) z) w u.
Lemma row_of_chars : forall P n b w a, in_row n (single P) b w a <-> length w = n /\ Forall P w.
Proof.
  intros P n. induction n as [|n IH]; intros b w a; cbn [in_row].
  - split; [intros ->; split; [reflexivity|constructor]|]. intros (L & _). now destruct w.
  - split.
    + intros (w1 & w2 & -> & (z & -> & Z0) & R). apply IH in R as (L & F). split; [cbn [app length]; lia|now constructor].
    + intros (L & F). destruct w as [|z w]; [discriminate L|]. inversion F; subst. exists [z], w. split; [reflexivity|]. split; [now exists z|]. apply IH. split; [now injection L|assumption].
Qed.
Lemma many_chars : forall P b w a, as_often (fun _ => True) (single P) b w a <-> Forall P w.
Proof. intros P b w a. split; [intros (n & _ & R); now apply row_of_chars in R|]. intro F. exists (length w). split; [exact I|]. now apply row_of_chars. Qed.
Lemma word_any_case : forall w u, plain_word w -> (word_is true w u <-> any_case w u).
Proof.
  intros w u W. unfold word_is, any_case. revert u. induction W as [|c w C W IH]; intro u; (split; intro H; inversion H; subst; constructor);
    try (apply (char_case_iff true c); [unfold literal in C; lia|assumption]); now apply IH.
Qed.
Theorem C66_example_pattern : forall O s, library O -> rx_ok O sleep_pattern = true /\
  (rx_match O sleep_pattern s = true <-> exists b w a, runes s = b ++ w ++ a /\
    ((exists f x y z, w = f ++ code "(" :: x ++ y ++ z ++ [code ")"] /\ any_case (B "sleep") f /\
       Forall (fun c => c = 9 \/ c = 10 \/ c = 12 \/ c = 13 \/ c = 32) x /\ Forall (fun c => 48 <= c <= 57) y /\ Forall (fun c => c = 9 \/ c = 10 \/ c = 12 \/ c = 13 \/ c = 32) z) \/
     (exists f x y, w = f ++ code "(" :: x ++ code "," :: y ++ [code ")"] /\ any_case (B "benchmark") f /\ Forall (fun c => c <> 10) x /\ Forall (fun c => c <> 10) y))).
Proof.
  intros O s L.
  set (ch := fun c : ascii => RSet true [(code c, code c)]). set (bl := RStar (RSet true (folded_ranges true Regex.spaces))). set (dg := RStar (RSet true (folded_ranges true digits))). set (ln := RStar (RSet false [(10, 10)])).
  set (r := RSeq (RAlt (word_re true (B "sleep") (RSeq (ch "("%char) (RSeq bl (RSeq dg (RSeq bl (RSeq (ch ")"%char) REmpty))))))
                       (word_re true (B "benchmark") (RSeq (ch "("%char) (RSeq ln (RSeq (ch ","%char) (RSeq ln (RSeq (ch ")"%char) REmpty))))))) REmpty).
  assert (C : compile sleep_pattern = Some r) by (vm_compute; reflexivity). destruct (C66_regex_meaning O _ r s L C) as (A & M). split; [exact A|]. rewrite M. unfold occurs.
  assert (CH : forall c, same (fits (ch c)) (single (fun z => z = code c))).
  { intro c. apply set_same. intro z. unfold in_ranges, zin. cbn [existsb fst snd]. split; [intros X; lia|intros ->; split; [reflexivity|lia]]. }
  assert (ST : forall inside l P, (forall z, (in_ranges l z = true <-> inside = true) <-> P z) -> forall b w a, fits (RStar (RSet inside l)) b w a <-> Forall P w).
  { intros inside l P H b w a. rewrite (fits_star _ _ (set_same _ _ _ H) b w a). apply many_chars. }
  assert (BL : forall b w a, fits bl b w a <-> Forall (fun c => c = 9 \/ c = 10 \/ c = 12 \/ c = 13 \/ c = 32) w) by (apply ST; intro z; unfold in_ranges, zin; cbn [existsb fst snd folded_ranges flat_map fold_range Regex.spaces app]; cbn; lia).
  assert (DG : forall b w a, fits dg b w a <-> Forall (fun c => 48 <= c <= 57) w) by (apply ST; intro z; unfold in_ranges, zin; cbn [existsb fst snd folded_ranges flat_map fold_range digits app]; cbn; lia).
  assert (LN : forall b w a, fits ln b w a <-> Forall (fun c => c <> 10) w) by (apply ST; intro z; unfold in_ranges, zin; cbn [existsb fst snd]; split; [intros (X & _) ->; discriminate (X eq_refl)|intro E; split; [lia|discriminate]]).
  assert (SQ : forall r1 r2 b w a, fits (RSeq r1 r2) b w a <-> exists w1 w2, w = w1 ++ w2 /\ fits r1 b w1 (w2 ++ a) /\ fits r2 (b ++ w1) w2 a).
  { intros r1 r2 b w a. split; [intro F; inversion F; subst; eauto 6|intros (w1 & w2 & -> & F1 & F2); now constructor]. }
  assert (AL : forall r1 r2 b w a, fits (RAlt r1 r2) b w a <-> fits r1 b w a \/ fits r2 b w a).
  { intros r1 r2 b w a. split; [intro F; inversion F; subst; auto|intros [F|F]; [now apply fi_left|now apply fi_right]]. }
  assert (ONE : forall c b w a, fits (ch c) b w a <-> w = [code c]).
  { intros c b w a. rewrite (CH c b w a). split; [intros (z & -> & ->); reflexivity|intros ->; now exists (code c)]. }
  assert (EM : forall b w a, fits REmpty b w a <-> w = []) by (intros; apply fits_empty).
  assert (W1 : plain_word (B "sleep") /\ plain_word (B "benchmark")) by (split; plain). destruct W1 as (W1 & W2).
  assert (X : forall b w a, fits r b w a <->
    ((exists f x y z, w = f ++ code "(" :: x ++ y ++ z ++ [code ")"] /\ any_case (B "sleep") f /\
       Forall (fun c => c = 9 \/ c = 10 \/ c = 12 \/ c = 13 \/ c = 32) x /\ Forall (fun c => 48 <= c <= 57) y /\ Forall (fun c => c = 9 \/ c = 10 \/ c = 12 \/ c = 13 \/ c = 32) z) \/
     (exists f x y, w = f ++ code "(" :: x ++ code "," :: y ++ [code ")"] /\ any_case (B "benchmark") f /\ Forall (fun c => c <> 10) x /\ Forall (fun c => c <> 10) y))).
  { intros b w a. unfold r. rewrite SQ. clearbody ch bl dg ln. split.
    - intros (w1 & w2 & -> & F & E). apply EM in E. subst w2. rewrite app_nil_r. apply AL in F as [G|G]; [left|right]; apply fits_word in G as (f & v & -> & U & G).
      + apply SQ in G as (o & v1 & -> & G1 & G). apply ONE in G1. subst o. apply SQ in G as (x & v2 & -> & G1 & G). apply BL in G1. apply SQ in G as (y & v3 & -> & G2 & G). apply DG in G2.
        apply SQ in G as (z & v4 & -> & G3 & G). apply BL in G3. apply SQ in G as (o & v5 & -> & G4 & G). apply ONE in G4. apply EM in G. subst. exists f, x, y, z. split; [reflexivity|]. split; [now apply word_any_case|]. now repeat split.
      + apply SQ in G as (o & v1 & -> & G1 & G). apply ONE in G1. subst o. apply SQ in G as (x & v2 & -> & G1 & G). apply LN in G1. apply SQ in G as (o & v3 & -> & G2 & G). apply ONE in G2. subst o.
        apply SQ in G as (y & v4 & -> & G3 & G). apply LN in G3. apply SQ in G as (o & v5 & -> & G4 & G). apply ONE in G4. apply EM in G. subst. exists f, x, y. split; [reflexivity|]. split; [now apply word_any_case|]. now repeat split.
    - intro H. exists w, []. split; [now rewrite app_nil_r|]. split; [|now apply EM]. destruct H as [(f & x & y & z & -> & U & G1 & G2 & G3)|(f & x & y & -> & U & G1 & G2)]; apply AL; [left|right]; apply fits_word.
      + exists f, (code "(" :: x ++ y ++ z ++ [code ")"]). split; [reflexivity|]. split; [now apply word_any_case|]. apply SQ. exists [code "("], (x ++ y ++ z ++ [code ")"]). split; [reflexivity|]. split; [now apply ONE|].
        apply SQ. exists x, (y ++ z ++ [code ")"]). split; [reflexivity|]. split; [now apply BL|]. apply SQ. exists y, (z ++ [code ")"]). split; [reflexivity|]. split; [now apply DG|].
        apply SQ. exists z, [code ")"]. split; [reflexivity|]. split; [now apply BL|]. apply SQ. exists [code ")"], []. split; [reflexivity|]. split; [now apply ONE|now apply EM].
      + exists f, (code "(" :: x ++ code "," :: y ++ [code ")"]). split; [reflexivity|]. split; [now apply word_any_case|]. apply SQ. exists [code "("], (x ++ code "," :: y ++ [code ")"]). split; [reflexivity|]. split; [now apply ONE|].
        apply SQ. exists x, (code "," :: y ++ [code ")"]). split; [reflexivity|]. split; [now apply LN|]. apply SQ. exists [code ","], (y ++ [code ")"]). split; [reflexivity|]. split; [now apply ONE|].
        apply SQ. exists y, [code ")"]. split; [reflexivity|]. split; [now apply LN|]. apply SQ. exists [code ")"], []. split; [reflexivity|]. split; [now apply ONE|now apply EM]. }
  split; intros (b & w & a & E & F); exists b, w, a; (split; [exact E|]); [exact (proj1 (X b w a) F)|exact (proj2 (X b w a) F)].
Qed.
Example C66_example_pattern_example : let O := libr MpErr in (exists M, reads sleep_pattern M) /\
  rx_match O sleep_pattern (B "id=1 or SLEEP( 12 )") = true /\ rx_match O sleep_pattern (B "id=1 or sleep(x)") = false /\ rx_match O sleep_pattern (B "BenchMark(1,md5(2))--") = true.
Proof.
  cbn zeta. split; [apply (C66_pattern_texts (libr MpErr) sleep_pattern (libr_library MpErr)); eexists; vm_compute; reflexivity|]. repeat split; vm_compute; reflexivity.
Qed.
Example C66_patterns_example : says (B "/admin") (contains (B "/admin")) /\ says (B "^GET$") (fun s => s = B "GET") /\
  said (B "abc|/etc|x y") (B "q=/etc/hosts") /\ said (B "(?i)^union") (B "UniON all") /\ ~ said (B "^GET$") (B "GETX").
Proof.
  split; [apply say_contains; plain|]. split; [apply (say_equals (B "GET")); plain|]. split.
  { eexists. split; [apply (say_any (B "abc") ltac:(plain) [B "/etc"; B "x y"]); plain|]. exists (B "/etc"). split; [right; now left|]. now exists (B "q="), (B "/hosts"). }
  assert (W : exists M, says (B "^GET$") M) by (eexists; apply (say_equals (B "GET")); plain).
  assert (U : exists M, says (B "(?i)^union") M).
  { eexists. apply (say_case_starts (B "union")); [plain|]. unfold no_odd_letter, B. cbn. repeat constructor; cbn; intuition discriminate. }
  split; [apply (said_match (libr MpErr) _ _ (libr_library _) U); vm_compute; reflexivity|].
  intro X. apply (said_match (libr MpErr) _ _ (libr_library _) W) in X. vm_compute in X. discriminate X.
Qed.
Example C79_word_example : let O := libr MpErr in
  let lines := [DenyLine [KRequestMethod] [KLowercase] (B "^trace$") 1; DenyLine [KRequestUri; KQueryString] [] (B "/etc/|cmd=") 2] in
  let text := SpecParse.listed LF (map line_text lines) in
  Forall word_line lines /\
  exists l, new_direset 300 O 0 text = Ret (Some l) /\
    let e := execute l new_engine in
    let os m q := [OpConnection (B "1.2.3.4") [] [] []; OpRequestURL (Some (demo_url "/" q)) m (B "HTTP/1.1"); OpRequestHeader []; OpAppendRequestBody (B "x") NoFault; OpRequestBody; OpResult] in
    (exists t bl i, steps 4 O e (e_ruleset e) (os (B "TRACE") "a=b"%string) (new_txn e) = Ret (t, bl ++ [ObsResult i]) /\ i_disruptive i = true /\ i_status i = 403) /\
    (exists t bl i, steps 4 O e (e_ruleset e) (os (B "GET") "f=/etc/passwd"%string) (new_txn e) = Ret (t, bl ++ [ObsResult i]) /\ i_disruptive i = true /\ i_status i = 403) /\
    (exists t bl i, steps 4 O e (e_ruleset e) (os (B "TRACES") "f=/etc"%string) (new_txn e) = Ret (t, bl ++ [ObsResult i]) /\ i_disruptive i = false /\ i_status i = 200).
Proof.
  cbv zeta. split.
  - assert (PP : forall s, forallb (fun c => negb (Ascii.eqb c """" || Ascii.eqb c "\" || isNewLine c)) s = true -> plain_pattern s).
    { intros s F c I. rewrite forallb_forall in F. apply F in I. apply negb_true_iff in I. rewrite !orb_false_iff in I. destruct I as ((X1 & X2) & X3).
      apply Ascii.eqb_neq in X1, X2. apply newline_not in X3. auto. }
    constructor; [|constructor; [|constructor]]; (split; [discriminate|]); (split; [repeat (constructor; [simpl; tauto|]); constructor|]); (split; [apply PP; reflexivity|]); (split; [|split; simpl; lia]).
    + eexists. apply (say_equals (B "trace")). plain.
    + eexists. apply (say_any (B "/etc/") ltac:(plain) [B "cmd="]). plain.
  - eexists. split; [vm_compute; reflexivity|].
    split; [|split]; eexists _, [_; _; _; _; _], _; (split; [vm_compute; reflexivity|split; reflexivity]).
Qed.
Example C90_word_example : let O := libr MpErr in
  let lines := [FormLine (B "user") [KLowercase] (B "^root") 1; FormLine [] [] (B "x y") 2] in
  let text := B "SecRequestBodyAccess On" ++ [LF] ++ B "SecRule ARGS_POST:user ""@rx ^root"" ""id:1,phase:3,t:lowercase,deny""" ++ [LF] ++ B "SecRule ARGS_POST ""@rx x y"" ""id:2,phase:3,deny""" in
  Forall (fun d => exact (fl_name d) /\ exists M, says (fl_pat d) M) lines /\ file_text (form_directives lines) text /\
  form_line_said O [(B "user", B "Root"); (B "a", B "b")] (FormLine (B "user") [KLowercase] (B "^root") 1).
Proof.
  cbv zeta. assert (W : exists M, says (B "^root") M) by (eexists; apply (say_starts (B "root")); plain). split; [|split].
  - constructor; [|constructor; [|constructor]]; (split; [intros p Q; discriminate Q|]); [exact W|eexists; apply say_contains; plain].
  - apply parse_text_iff. exists 500%nat. vm_compute. reflexivity.
  - exists (B "user"), (B "Root"). split; [now left|]. split; [now right|]. apply (said_match (libr MpErr) _ _ (libr_library _) W). vm_compute. reflexivity.
Qed.
Example C13_word_example : let O := libr MpErr in
  let t := with_reqheader (demo_post "x" "") [(B "x-a", [B "1"; B "2"]); (B "y", [B "3"]); (B "x-b", [B "4"])] in
  exists v, apply_calls O [Inc (B "/^x-/"); Exc (B "/b$/")] (VColl CRequestHeaders empty_filter) = Some v /\
  fetch O (demo_engine new_ruleset) v t = Ret (tick t, [B "1"; B "2"]) /\ selected_words [Inc (B "/^x-/"); Exc (B "/b$/")] (B "x-a").
Proof.
  cbn zeta. eexists. split; [vm_compute; reflexivity|]. split; [vm_compute; reflexivity|].
  assert (W1 : exists M, says (B "^x-") M) by (eexists; apply (say_starts (B "x-")); plain).
  assert (W2 : exists M, says (B "b$") M) by (eexists; apply (say_ends (B "b")); plain).
  unfold selected_words. split; [|split; [|split]].
  - intros (s & [E|[E|[]]] & X); try discriminate E. injection E as <-. elim (X (B "^x-")). reflexivity.
  - intros _. exists (B "/^x-/"), (B "^x-"). split; [now left|]. split; [reflexivity|]. apply (said_match (libr MpErr) _ _ (libr_library _) W1). vm_compute. reflexivity.
  - intros ([E|[E|[]]] & _); discriminate E.
  - intros (s & p & [E|[E|[]]] & P & X); try discriminate E. injection E as <-. assert (p = B "b$") as ->.
    { unfold pattern, B in P. injection P as P. now apply (app_inj_tail (B "b$") p "/"%char "/"%char) in P as (<- & _). }
    apply (said_match (libr MpErr) _ _ (libr_library _) W2) in X. vm_compute in X. discriminate X.
Qed.
Print Assumptions C66_regex_meaning.
Print Assumptions C66_pattern_texts.
Print Assumptions C66_example_pattern.
Print Assumptions C66_patterns_say.
Print Assumptions C66_word_rule_blocks.
Print Assumptions C60_registrations.
Print Assumptions C60_registered_words.
Print Assumptions C60_library_values.
Print Assumptions C60_word_with_bar.
Print Assumptions C60_other_words_looser.
Print Assumptions C79_word_file_blocks.
Print Assumptions C90_word_form_filter.
Print Assumptions C13_word_selectors.
