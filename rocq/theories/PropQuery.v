(** Query strings, urlencoded bodies and cookie headers of any shape: what rules see
    of them.  Completes C17, C18 and C21, whose theorems in PropVars speak of well formed
    texts. *)
From Verif Require Import Base BaseFacts GoStrings Utils Buffer SpecBuffer BufferFacts Types Transaction Variables Rules Engine
  SpecText TextFacts NumFacts SpecVars VarFacts VarText PropText BodyFacts Witness SpecQuery PropVars.
From Coq Require Import ZifyBool.

(** ** Decoding *)
Lemma decoded_unescape : forall s e, decoded s e -> query_unescape e = Some s.
Proof.
  induction 1.
  - reflexivity.
  - now rewrite query_unescape_plain, IHdecoded.
  - simpl. now rewrite IHdecoded.
  - apply hexdigit_ishex in H as (A1 & A2 & A3). apply hexdigit_ishex in H0 as (C1 & C2 & C3).
    rewrite unescape_hex by (rewrite ?is_hex_same; tauto).
    rewrite IHdecoded. simpl. do 2 f_equal.
    rewrite (unhex_same h A1), (unhex_same l C1).
    transitivity (byte_of (code c)); [f_equal; rewrite A2, C2, H1; ring|apply byte_of_code].
Qed.
Lemma unescape_decoded : forall n e, (length e <= n)%nat -> forall s, query_unescape e = Some s -> decoded s e.
Proof.
  assert (OM : forall (c : ascii) o s, option_map (cons c) o = Some s -> exists r, o = Some r /\ s = c :: r).
  { intros c [r|] s H; [|discriminate]. injection H as <-. eauto. }
  induction n as [|n IH]; intros e L s H.
  - destruct e; [|simpl in L; lia]. injection H as <-. constructor.
  - destruct e as [|c e]; [injection H as <-; constructor|]. cbn [length] in L.
    destruct (ascii_dec c "%") as [->|N1].
    + destruct e as [|a [|b e]]; try discriminate. cbn [query_unescape] in H.
      destruct (is_hex a && is_hex b) eqn:X; [|discriminate]. apply andb_true_iff in X as [Xa Xb].
      rewrite is_hex_same in Xa, Xb. apply OM in H as (r & H & ->).
      rewrite (unhex_same _ Xa), (unhex_same _ Xb).
      destruct (proj1 (ishex_iff a) Xa) as (hi & Ha). destruct (proj1 (ishex_iff b) Xb) as (lo & Hb).
      destruct (hexdigit_ishex _ _ Ha) as (_ & Ea & Ra). destruct (hexdigit_ishex _ _ Hb) as (_ & Eb & Rb).
      eapply dc_hex; [exact Ha|exact Hb| |apply IH; [cbn [length] in L; lia|exact H]].
      rewrite Ea, Eb, code_byte_of_small by lia. lia.
    + destruct (ascii_dec c "+") as [->|N2].
      * change (query_unescape ("+"%char :: e)) with (option_map (cons SP) (query_unescape e)) in H.
        apply OM in H as (r & H & ->). apply dc_plus. apply IH; [lia|exact H].
      * rewrite query_unescape_plain in H by assumption. apply OM in H as (r & H & ->).
        apply dc_plain; auto. apply IH; [lia|exact H].
Qed.
Lemma unescape_iff : forall e s, query_unescape e = Some s <-> decoded s e.
Proof. intros e s. split; [apply (unescape_decoded (length e)); lia|apply decoded_unescape]. Qed.

Lemma spoiled_dec : forall semi f, negb semi && existsb (Ascii.eqb ";") f = true <-> spoiled semi f.
Proof.
  intros semi f. rewrite andb_true_iff, negb_true_iff, existsb_exists. unfold spoiled. split.
  - intros [-> (x & I & E)]. apply Ascii.eqb_eq in E. subst. auto.
  - intros [-> I]. split; [reflexivity|]. exists ";"%char. auto.
Qed.

Lemma parse_field_iff : forall semi f p, parse_field semi f = Some p <-> ~ spoiled semi f /\ field p f.
Proof.
  intros semi f p. unfold parse_field.
  destruct (negb semi && existsb (Ascii.eqb ";") f) eqn:S.
  - split; [discriminate|]. intros [N _]. elim N. now apply spoiled_dec.
  - assert (NS : ~ spoiled semi f) by (intro Q; apply spoiled_dec in Q; congruence).
    pose proof (cut_spec "=" f) as C. destruct (cut "=" f) as [k v] eqn:CUT. destruct C as [I E]. split.
    + intro H. split; [exact NS|].
      destruct (query_unescape k) as [k'|] eqn:K; [|discriminate].
      destruct (query_unescape _) as [v'|] eqn:V in H; [|discriminate]. injection H as <-.
      apply unescape_iff in K. destruct v as [v|]; subst f.
      * apply unescape_iff in V. now constructor.
      * injection V as <-. now constructor.
    + intros [_ F]. destruct F as [k1 v1 ek ev N K V|k1 ek N K].
      * rewrite cut_app in CUT by exact N. injection CUT as <- <-. apply unescape_iff in K, V. now rewrite K, V.
      * rewrite cut_none in CUT by exact N. injection CUT as <- <-. apply unescape_iff in K. now rewrite K.
Qed.

(** ** Fields *)
Definition piece_of (semi : bool) (f : bs) : list (bs * bs) * nat :=
  match f with
  | [] => ([], 0%nat)
  | _ => match parse_field semi f with Some p => ([p], 0%nat) | None => ([], 1%nat) end
  end.
Lemma piece_iff : forall semi ps n f, piece semi ps n f <-> piece_of semi f = (ps, n).
Proof.
  intros semi ps n f. split.
  - intros [|p g N S F|g N H]; [reflexivity| |].
    + unfold piece_of. rewrite (proj2 (parse_field_iff semi g p) (conj S F)). now destruct g.
    + unfold piece_of. destruct (parse_field semi g) as [p|] eqn:P; [|now destruct g].
      apply parse_field_iff in P as [S F]. destruct H as [H|H]; [contradiction|]. elim (H p F).
  - unfold piece_of. destruct f as [|c f]; [intro H; injection H as <- <-; constructor|].
    destruct (parse_field semi (c :: f)) as [p|] eqn:P; intro H; injection H as <- <-.
    + apply parse_field_iff in P as [S F]. now constructor.
    + apply pc_bad; [discriminate|].
      destruct (negb semi && existsb (Ascii.eqb ";") (c :: f)) eqn:S; [left; now apply spoiled_dec|].
      right. intros p F. assert (NS : ~ spoiled semi (c :: f)) by (intro Q; apply spoiled_dec in Q; congruence).
      rewrite (proj2 (parse_field_iff semi _ p) (conj NS F)) in P. discriminate.
Qed.

Lemma sep_dec : forall semi c, Ascii.eqb c "&" || (semi && Ascii.eqb c ";") = true <-> separates semi c.
Proof.
  intros semi c. unfold separates. rewrite orb_true_iff, andb_true_iff, !Ascii.eqb_eq. tauto.
Qed.
Lemma split_last : forall semi f, Forall (fun c => ~ separates semi c) f -> split_fields semi f = [f].
Proof.
  induction 1 as [|c f N F IH]; [reflexivity|]. cbn [split_fields].
  destruct (Ascii.eqb c "&" || (semi && Ascii.eqb c ";")) eqn:E; [apply sep_dec in E; contradiction|].
  now rewrite IH.
Qed.
Lemma split_more : forall semi f c q, Forall (fun c => ~ separates semi c) f -> separates semi c ->
  split_fields semi (f ++ c :: q) = f :: split_fields semi q.
Proof.
  induction 1 as [|x f N F IH]; intro S; cbn [app split_fields].
  - rewrite (proj2 (sep_dec semi c) S). reflexivity.
  - destruct (Ascii.eqb x "&" || (semi && Ascii.eqb x ";")) eqn:E; [apply sep_dec in E; contradiction|].
    now rewrite IH.
Qed.
(** Every text is one field, or a field, a separator and a text. *)
Lemma first_sep : forall semi q, Forall (fun c => ~ separates semi c) q \/
  exists f c r, q = f ++ c :: r /\ Forall (fun c => ~ separates semi c) f /\ separates semi c.
Proof.
  induction q as [|x q IH]; [left; constructor|].
  destruct (Ascii.eqb x "&" || (semi && Ascii.eqb x ";")) eqn:E.
  - right. exists [], x, q. split; [reflexivity|]. split; [constructor|now apply sep_dec].
  - assert (N : ~ separates semi x) by (intro Q; apply sep_dec in Q; congruence).
    destruct IH as [F|(f & c & r & -> & F & S)]; [left; now constructor|].
    right. exists (x :: f), c, r. split; [reflexivity|]. auto.
Qed.

Definition fields_read (semi : bool) (fs : list bs) : list (bs * bs) * nat :=
  (flat_map (fun f => fst (piece_of semi f)) fs, list_sum (map (fun f => snd (piece_of semi f)) fs)).
Lemma query_fields : forall semi ps n q, query semi ps n q -> fields_read semi (split_fields semi q) = (ps, n).
Proof.
  induction 1 as [ps n f F P|ps n f c qs m q F P S Q IH].
  - rewrite split_last by exact F. apply piece_iff in P. unfold fields_read. simpl. rewrite P. simpl.
    rewrite app_nil_r, Nat.add_0_r. reflexivity.
  - rewrite split_more by assumption. apply piece_iff in P. unfold fields_read in *. simpl. rewrite P.
    injection IH as E1 E2. simpl. now rewrite E1, E2.
Qed.
Lemma query_exists : forall semi q, exists ps n, query semi ps n q.
Proof.
  intros semi q. remember (length q) as k eqn:K. assert (L : (length q <= k)%nat) by lia. clear K. revert q L.
  assert (PE : forall f, exists ps n, piece semi ps n f).
  { intro f. destruct (piece_of semi f) as [ps n] eqn:E. exists ps, n. now apply piece_iff. }
  induction k as [|k IH]; intros q L.
  - destruct q; [|simpl in L; lia]. destruct (PE []) as (ps & n & P). exists ps, n. now constructor.
  - destruct (first_sep semi q) as [F|(f & c & r & -> & F & S)].
    + destruct (PE q) as (ps & n & P). exists ps, n. now constructor.
    + destruct (PE f) as (ps & n & P). destruct (IH r) as (qs & m & Q); [rewrite app_length in L; simpl in L; lia|].
      exists (ps ++ qs), (n + m)%nat. now constructor.
Qed.
Lemma parse_fields_read : forall semi fs m bad,
  parse_fields semi fs m bad = (add_pairs (fst (fields_read semi fs)) m, bad || negb (Nat.eqb (snd (fields_read semi fs)) 0)).
Proof.
  induction fs as [|f fs IH]; intros m bad.
  - cbn. now rewrite orb_false_r.
  - unfold fields_read in *. cbn [fst snd flat_map map list_sum] in *. destruct f as [|c f].
    + cbn [parse_fields piece_of fst snd app]. rewrite IH. reflexivity.
    + assert (P1 : piece_of semi (c :: f) = match parse_field semi (c :: f) with Some p => ([p], 0%nat) | None => ([], 1%nat) end) by reflexivity.
      cbn [parse_fields]. cbn [list_sum fold_right]. rewrite P1. destruct (parse_field semi (c :: f)) as [[k v]|]; rewrite IH; cbn [fst snd app].
      * reflexivity.
      * cbn. now rewrite orb_true_r.
Qed.
Lemma query_parse : forall semi ps n q, query semi ps n q -> parse_query semi q = (add_pairs ps [], negb (Nat.eqb n 0)).
Proof. intros semi ps n q H. unfold parse_query. rewrite parse_fields_read, (query_fields _ _ _ _ H). reflexivity. Qed.

(** ** Selecting and grouping *)
Lemma add_selected : forall (P : bs -> bool) ps m,
  List.filter (fun kv : bs * list bs => P (fst kv)) (add_pairs ps m) =
  add_pairs (List.filter (fun p => P (fst p)) ps) (List.filter (fun kv => P (fst kv)) m).
Proof.
  intro P. assert (A : forall k v m, List.filter (fun kv : bs * list bs => P (fst kv)) (vals_add k v m) =
    if P k then vals_add k v (List.filter (fun kv => P (fst kv)) m) else List.filter (fun kv => P (fst kv)) m).
  { intros k v m. induction m as [|[k' vs] m IH]; simpl.
    - destruct (P k); reflexivity.
    - destruct (bs_eqb_spec k k') as [->|N].
      + simpl. destruct (P k'); simpl; [|reflexivity]. now rewrite bs_eqb_refl.
      + simpl. rewrite IH. destruct (P k'), (P k); simpl; try reflexivity. now rewrite (proj2 (bs_eqb_neq k k') N). }
  induction ps as [|[k v] ps IH]; intro m; [reflexivity|]. cbn [add_pairs fold_left List.filter fst snd].
  fold (add_pairs ps (vals_add k v m)). rewrite IH, A. destruct (P k); reflexivity.
Qed.
Lemma kept_pairs : forall O cs ps, exists kept,
  keeps (fun p => selected (rx_match O) cs (fst p)) ps kept /\
  fetch_with_names O (filter_of cs) (add_pairs ps []) = add_pairs kept [].
Proof.
  intros O cs ps. exists (List.filter (fun p => negb (filter_drops O (filter_of cs) (fst p))) ps). split.
  - induction ps as [|[k v] ps IH]; [constructor|].
    pose proof (fetch_keeps O cs [(k, [v])]) as K. unfold fetch_with_names in K. cbn [List.filter fst] in K |- *.
    destruct (negb (filter_drops O (filter_of cs) k)); inversion K; subst; now constructor.
  - unfold fetch_with_names. apply (add_selected (fun k => negb (filter_drops O (filter_of cs) k))).
Qed.
Lemma assoc_in_nodup : forall (m : vals) k l, NoDup (map fst m) -> In (k, l) m -> assoc k m = Some l.
Proof.
  induction m as [|[k' l'] m IH]; intros k l N I; [easy|]. inversion N; subst. simpl.
  destruct I as [I|I]; [injection I as -> ->; now rewrite bs_eqb_refl|].
  destruct (bs_eqb_spec k k') as [->|E]; [|now apply IH].
  elim H1. apply in_map_iff. exists (k', l). auto.
Qed.
Lemma grouped : forall m kept, Permutation m (add_pairs kept []) ->
  by_name kept (flat_map snd m) /\ names_once kept (map fst m).
Proof.
  intros m kept P.
  assert (N0 : NoDup (map fst (add_pairs kept []))) by (apply add_pairs_nodup; constructor).
  assert (NO : names_once kept (map fst m)).
  { pose proof (Permutation_map fst P) as Q. split.
    - eapply Permutation_NoDup; [apply Permutation_sym; exact Q|exact N0].
    - intro k. rewrite <- (add_pairs_names kept k). split; apply Permutation_in; [exact Q|now apply Permutation_sym]. }
  split; [|exact NO]. exists (map fst m). split; [apply NO|]. split; [apply NO|].
  assert (V : forall k l, In (k, l) m -> l = values_of k kept).
  { intros k l I. apply (Permutation_in _ P) in I. apply assoc_in_nodup in I; [|exact N0].
    pose proof (add_pairs_assoc kept [] k) as A. rewrite I in A. exact A. }
  clear -V. induction m as [|[k l] m IH]; [reflexivity|]. simpl.
  rewrite (V k l) by now left. rewrite IH; [reflexivity|]. intros k' l' I. apply V. now right.
Qed.
Lemma fetch_by_name : forall O cs ps t, ord_valid O -> exists kept,
  keeps (fun p => selected (rx_match O) cs (fst p)) ps kept /\
  by_name kept (snd (filter_fetch O (filter_of cs) (add_pairs ps []) t)) /\
  names_once kept (snd (filter_names O (filter_of cs) (add_pairs ps []) t)).
Proof.
  intros O cs ps t V. destruct (kept_pairs O cs ps) as (kept & K & E). exists kept. split; [exact K|].
  unfold filter_fetch, filter_names. cbn [snd]. rewrite E. apply grouped, V.
Qed.
Lemma calls_filter : forall O cs c v, apply_calls O cs (VColl c empty_filter) = Some v -> v = VColl c (filter_of cs).
Proof.
  intros O cs c v A. apply apply_calls_coll in A as (f & A & ->). apply filter_calls_of in A.
  rewrite filter_cat_empty in A. now subst.
Qed.

(** ** C17: every query text *)
(** A query text of any shape is read in exactly one way. *)
Theorem C17_any_query_is_read : forall semi q, exists ps n, query semi ps n q /\
  forall ps' n', query semi ps' n' q -> ps' = ps /\ n' = n.
Proof.
  intros semi q. destruct (query_exists semi q) as (ps & n & Q). exists ps, n. split; [exact Q|].
  intros ps' n' Q'. apply query_fields in Q, Q'. rewrite Q in Q'. injection Q' as -> ->. auto.
Qed.
(** The well formed texts of C17 are read as their pairs. *)
Theorem C17_form_encoding_is_read : forall semi ps q, form_pairs ps q -> query semi ps 0 q.
Proof.
  assert (DT : forall s e, form_text s e -> decoded s e).
  { induction 1; [constructor| |now constructor|econstructor; eauto].
    constructor; auto; intros ->; apply H; vm_compute; auto. }
  assert (PF : forall semi p f, form_pair p f -> piece semi [p] 0 f /\ Forall (fun c => ~ separates semi c) f).
  { intros semi p f F. destruct (form_pair_field semi p f F) as (P & N & A & S). split.
    - apply pc_pair; [exact N| |].
      + intros [_ I]. contradiction.
      + apply (parse_field_iff semi). exact P.
    - apply Forall_forall. intros c I [->|[_ ->]]; contradiction. }
  induction 1 as [|p f F|p f ps q F _ IH|ps q _ IH].
  - apply qu_last; constructor.
  - destruct (PF semi _ _ F). now apply qu_last.
  - destruct (PF semi _ _ F). apply (qu_more semi [p] 0 f "&" ps 0 q); auto. now left.
  - apply (qu_more semi [] 0 [] "&" ps 0 q); auto; [constructor|now left].
Qed.
(** ARGS_GET under any selectors: the values of the selected pairs, name by name. *)
Theorem C17_any_query_values : forall O e u ps n cs v t t' out, ord_valid O ->
  t_url t = Some u -> query (semi_sep O) ps n (u_rawquery u) ->
  apply_calls O cs (VColl CArgsGet empty_filter) = Some v -> fetch O e v t = Ret (t', out) ->
  exists kept, keeps (fun p => selected (rx_match O) cs (fst p)) ps kept /\ by_name kept out.
Proof.
  intros O e u ps n cs v t t' out V U Q A H. apply calls_filter in A. subst v. cbn [fetch fetch_coll] in H. rewrite U in H.
  unfold url_query in H. rewrite (query_parse _ _ _ _ Q) in H. cbn [fst] in H.
  destruct (fetch_by_name O cs ps t V) as (kept & K & R & _). exists kept. split; [exact K|].
  apply Ret_inj in H. rewrite H in R. exact R.
Qed.
Theorem C17_any_query_names : forall O e u ps n cs v t t' out, ord_valid O ->
  t_url t = Some u -> query (semi_sep O) ps n (u_rawquery u) ->
  apply_calls O cs (VColl CArgsGetNames empty_filter) = Some v -> fetch O e v t = Ret (t', out) ->
  exists kept, keeps (fun p => selected (rx_match O) cs (fst p)) ps kept /\ names_once kept out.
Proof.
  intros O e u ps n cs v t t' out V U Q A H. apply calls_filter in A. subst v. cbn [fetch fetch_coll] in H. rewrite U in H.
  unfold url_query in H. rewrite (query_parse _ _ _ _ Q) in H. cbn [fst] in H.
  destruct (fetch_by_name O cs ps t V) as (kept & K & _ & R). exists kept. split; [exact K|].
  apply Ret_inj in H. rewrite H in R. exact R.
Qed.
Example C17_any_example :
  query true [(B "a", B "1=2 "); (B "b", []); ([], B "x")] 1 (B "a=1=2+&%zz=0;b&;=x") /\
  query false [(B "a", B "1=2 ")] 2 (B "a=1=2+&%zz=0;b&;=x").
Proof.
  assert (NSA : forall semi s, existsb (fun c => Ascii.eqb c "&" || (semi && Ascii.eqb c ";")) s = false -> Forall (fun c => ~ separates semi c) s).
  { intros semi s E. apply Forall_forall. intros c I S. apply sep_dec in S.
    assert (X : existsb (fun c => Ascii.eqb c "&" || (semi && Ascii.eqb c ";")) s = true) by (apply existsb_exists; eauto). congruence. }
  split.
  - apply (qu_more true [(B "a", B "1=2 ")] 0 (B "a=1=2+") "&" [(B "b", []); ([], B "x")] 1);
      [now apply NSA|apply piece_iff; reflexivity|now left|].
    apply (qu_more true [] 1 (B "%zz=0") ";" [(B "b", []); ([], B "x")] 0); [now apply NSA|apply piece_iff; reflexivity|now right|].
    apply (qu_more true [(B "b", [])] 0 (B "b") "&" [([], B "x")] 0); [now apply NSA|apply piece_iff; reflexivity|now left|].
    apply (qu_more true [] 0 [] ";" [([], B "x")] 0); [now apply NSA|apply piece_iff; reflexivity|now right|].
    apply qu_last; [now apply NSA|apply piece_iff; reflexivity].
  - apply (qu_more false [(B "a", B "1=2 ")] 0 (B "a=1=2+") "&" [] 2); [now apply NSA|apply piece_iff; reflexivity|now left|].
    apply (qu_more false [] 1 (B "%zz=0;b") "&" [] 1); [now apply NSA|apply piece_iff; reflexivity|now left|].
    apply qu_last; [now apply NSA|apply piece_iff; reflexivity].
Qed.
Print Assumptions C17_any_query_is_read.
Print Assumptions C17_form_encoding_is_read.
Print Assumptions C17_any_query_values.
Print Assumptions C17_any_query_names.

(** ** C18: every cookie header *)
Definition part_pairs (p : bs) : list (bs * bs) :=
  match trim_space p with
  | [] => []
  | q => let '(k, v) := cut "=" q in [(k, match v with Some v => v | None => [] end)]
  end.
Definition line_pairs (l : bs) : list (bs * bs) := flat_map part_pairs (split ";" l).

Lemma parts_pairs : forall ps parts, cookie_parts ps parts -> flat_map part_pairs parts = ps.
Proof.
  induction 1 as [|p x ps w1 w2 parts T W1 W2 _ IH|ps w parts W _ IH]; [reflexivity| |].
  - cbn [flat_map]. rewrite IH. unfold part_pairs. rewrite trim_pad by assumption. destruct T as [k v N _ _ T|k NE N _ T].
    + rewrite trimmed_trim by exact T. pose proof (cut_app "=" k v N) as C.
      destruct (k ++ "="%char :: v) as [|c r] eqn:E; [now destruct k|]. rewrite C. reflexivity.
    + rewrite trimmed_trim by exact T. pose proof (cut_none "=" k N) as C. destruct k; [easy|]. rewrite C. reflexivity.
  - cbn [flat_map]. rewrite IH. unfold part_pairs. now rewrite trim_white.
Qed.
Lemma lines_pairs : forall ps lines, cookie_lines ps lines -> flat_map line_pairs lines = ps.
Proof.
  induction 1 as [|ps qs parts lines P _ IH]; [reflexivity|]. cbn [flat_map]. rewrite IH. f_equal.
  unfold line_pairs. pose proof (cookie_parts_fold _ _ P []) as [_ F]. apply parts_pairs in P.
  destruct parts as [|p parts]; [now rewrite <- P|]. rewrite split_join; [exact P|easy|exact F].
Qed.
Lemma trim_trimmed : forall s, trimmed (trim_space s).
Proof.
  intros s. destruct (trim_shape s) as (_ & _ & _ & _ & _ & S1 & S2). intros w r W NE.
  apply white_encs in W as (ws & -> & F). split; intro Q.
  - destruct ws as [|e ws]; [easy|]. inversion F as [|? ? I _]; subst. cbn [concat] in Q. rewrite <- app_assoc in Q.
    exact (proj1 (strip_one_none _ _) S1 e _ I Q).
  - destruct ws as [|e ws] using rev_ind; [easy|]. clear IHws. apply Forall_app in F as [_ F]. inversion F as [|? ? I _]; subst.
    rewrite concat_app in Q. cbn [concat] in Q. rewrite app_nil_r in Q. apply (f_equal (@rev ascii)) in Q.
    rewrite !rev_app_distr in Q. rewrite <- app_assoc in Q.
    exact (proj1 (strip_one_none _ _) S2 (rev e) _ (in_map _ _ _ I) Q).
Qed.
Lemma split_no_sep : forall c s, Forall (fun p => ~ In c p) (split c s) /\ join c (split c s) = s.
Proof.
  intros c s. induction s as [|x s [F J]]; [simpl; auto|]. cbn [split]. destruct (Ascii.eqb_spec x c) as [->|N].
  - split; [constructor; auto|]. pose proof (split_nonempty c s) as NE. destruct (split c s) as [|p ps]; [easy|].
    cbn [join app]. change (c :: join c (p :: ps) = c :: s). now rewrite J.
  - pose proof (split_nonempty c s) as NE. destruct (split c s) as [|p ps]; [easy|]. inversion F; subst. split.
    + constructor; [|assumption]. intros [E|E]; [congruence|contradiction].
    + destruct ps; reflexivity.
Qed.
Lemma parts_exist : forall parts, Forall (fun p => ~ In ";"%char p) parts -> exists ps, cookie_parts ps parts.
Proof.
  induction 1 as [|p parts N F (ps & IH)]; [exists []; constructor|].
  destruct (trim_shape p) as (w1 & w2 & E & W1 & W2 & _). pose proof (trim_trimmed p) as T.
  destruct (trim_space p) as [|c core].
  - exists ps. apply cps_blank; [|exact IH]. rewrite E. simpl. now apply white_app.
  - assert (NC : ~ In ";"%char (c :: core)) by (intro I; apply N; rewrite E; apply in_app_iff; right; apply in_app_iff; now left).
    pose proof (cut_spec "=" (c :: core)) as C. destruct (cut "=" (c :: core)) as [k v]. destruct C as [I Q].
    rewrite E. destruct v as [v|]; rewrite Q in *.
    + exists ((k, v) :: ps). apply cps_cons; auto. apply ck_pair; auto; intro J; apply NC; apply in_app_iff; [now left|right; now right].
    + exists ((k, []) :: ps). apply cps_cons; auto. apply ck_name; auto. rewrite <- Q. discriminate.
Qed.
Theorem C18_any_header_is_read : forall lines, exists ps, cookie_lines ps lines /\
  forall ps', cookie_lines ps' lines -> ps' = ps.
Proof.
  intro lines. assert (E : exists ps, cookie_lines ps lines).
  { induction lines as [|l lines (qs & IH)]; [exists []; constructor|].
    destruct (split_no_sep ";" l) as [F J]. destruct (parts_exist _ F) as (ps & P).
    exists (ps ++ qs). rewrite <- J. now constructor. }
  destruct E as (ps & P). exists ps. split; [exact P|]. intros ps' P'. apply lines_pairs in P, P'. congruence.
Qed.
Theorem C18_any_header_values : forall O e ps cs v t t' out, ord_valid O ->
  cookie_lines ps (match assoc (B "Cookie") (t_reqheader t) with Some lines => lines | None => [] end) ->
  apply_calls O cs (VColl CRequestCookies empty_filter) = Some v -> fetch O e v t = Ret (t', out) ->
  exists kept, keeps (fun p => selected (rx_match O) cs (fst p)) ps kept /\ by_name kept out.
Proof.
  intros O e ps cs v t t' out V L A H. apply calls_filter in A. subst v. cbn [fetch fetch_coll] in H.
  assert (R : read_cookie (t_reqheader t) = add_pairs ps []).
  { unfold read_cookie. destruct (assoc _ _); [now apply cookie_lines_fold|]. now inversion L. }
  rewrite R in H. destruct (fetch_by_name O cs ps t V) as (kept & K & G & _). exists kept. split; [exact K|].
  apply Ret_inj in H. rewrite H in G. exact G.
Qed.
Theorem C18_any_header_names : forall O e ps cs v t t' out, ord_valid O ->
  cookie_lines ps (match assoc (B "Cookie") (t_reqheader t) with Some lines => lines | None => [] end) ->
  apply_calls O cs (VColl CRequestCookiesNames empty_filter) = Some v -> fetch O e v t = Ret (t', out) ->
  exists kept, keeps (fun p => selected (rx_match O) cs (fst p)) ps kept /\ names_once kept out.
Proof.
  intros O e ps cs v t t' out V L A H. apply calls_filter in A. subst v. cbn [fetch fetch_coll] in H.
  assert (R : read_cookie (t_reqheader t) = add_pairs ps []).
  { unfold read_cookie. destruct (assoc _ _); [now apply cookie_lines_fold|]. now inversion L. }
  rewrite R in H. destruct (fetch_by_name O cs ps t V) as (kept & K & _ & G). exists kept. split; [exact K|].
  apply Ret_inj in H. rewrite H in G. exact G.
Qed.
Lemma yields : forall O e v t x, match fetch O e v t with Ret (_, y) => y = x | _ => False end -> exists t', fetch O e v t = Ret (t', x).
Proof. intros O e v t x. destruct (fetch O e v t) as [[s y]| |]; intros H; [subst; eauto|easy|easy]. Qed.
Example C18_any_example : 
  let t := with_reqheader (demo_post "x" "") [(B "Cookie", [B " a=1=2 ;; flag"; B "a=x y"])] in
  exists v t', apply_calls (demo MpErr) [Inc (B "a")] (VColl CRequestCookies empty_filter) = Some v /\
    fetch (demo MpErr) (demo_engine new_ruleset) v t = Ret (t', [B "1=2"; B "x y"]).
Proof.
  cbv zeta. eexists. match goal with |- exists t', ?A /\ fetch ?O ?e ?v ?t = Ret (t', ?x) => enough (X : A /\ exists t', fetch O e v t = Ret (t', x)) by (destruct X as (X & t' & Y); eauto) end.
  split; [reflexivity|]. apply yields. vm_compute. reflexivity.
Qed.
Print Assumptions C18_any_header_is_read.
Print Assumptions C18_any_header_values.
Print Assumptions C18_any_header_names.

(** ** C21: every body *)
Lemma quiet_cache : forall O e v t t' a, reads_form v = false -> fetch O e v t = Ret (t', a) -> t_cache_url t' = t_cache_url t.
Proof.
  intros O e v. induction v as [c f|s|g p|g p|v IH]; intros t t' a R H; cbn [reads_form fetch] in R, H; try discriminate.
  - destruct c; try discriminate; cbn [fetch_coll] in H; try destruct (t_url t); apply Ret_inj in H; injection H as <- _; reflexivity.
  - apply Ret_inj in H. pose proof (proj1 (scalar_caches O e s t)) as S. rewrite H in S. exact S.
  - apply bind_Ret in H as ([t1 b] & H1 & H). apply Ret_inj in H. injection H as <- _. eauto.
Qed.
Lemma url_parse_sets : forall O e body t t' r, url_body O e body t -> cache_coherent O body t ->
  request_body_parse O e t = Ret (t', r) -> t_cache_url t' <> None.
Proof.
  intros O e body t t' r U CC H. rewrite (url_parse _ _ _ _ U) in H.
  destruct CC as [CC|CC]; rewrite CC in H.
  - destruct (snd (parse_query (semi_sep O) body)); cbn in H; apply Ret_inj in H; injection H as <- _; simpl; discriminate.
  - apply Ret_inj in H. injection H as <- _. congruence.
Qed.
Lemma post_sets : forall O e body f t t' a, url_body O e body t -> cache_coherent O body t ->
  fetch_post O e f t = Ret (t', a) \/ fetch_post_names O e f t = Ret (t', a) -> t_cache_url t' <> None.
Proof.
  intros O e body f t t' a U CC H.
  destruct H as [H|H]; unfold fetch_post, fetch_post_names in H; apply bind_Ret in H as ([t1 r] & H1 & H);
  apply (url_parse_sets _ _ _ _ _ _ U CC) in H1;
  destruct r as [[[] [|m|[m|]]]|]; try discriminate; apply Ret_inj in H; unfold filter_fetch, filter_names in H; injection H as <- _; exact H1.
Qed.
Lemma reading_sets : forall O e body v t t' a, reads_form v = true -> url_body O e body t -> cache_coherent O body t ->
  fetch O e v t = Ret (t', a) -> t_cache_url t' <> None.
Proof.
  intros O e body v. induction v as [c f|s|g p|g p|v IH]; intros t t' a R U CC H; cbn [reads_form fetch] in R, H; try discriminate.
  - destruct c; try discriminate; cbn [fetch_coll] in H; eapply post_sets; eauto.
  - apply bind_Ret in H as ([t1 x] & H1 & H). apply bind_Ret in H as ([t2 y] & H2 & H). apply Ret_inj in H. injection H as <- _.
    assert (FR : fetch O e (VColl CArgsGet g) t = Ret (t1, x)) by exact H1.
    assert (UC := U). destruct UC as (_ & _ & Fi & Me).
    eapply post_sets; [| |left; exact H2].
    + eapply frame_url_body; [eapply frame_fetch; exact FR|exact U].
    + eapply coherent_fetch; [exact Fi|exact Me|exact CC|exact FR].
  - apply bind_Ret in H as ([t1 x] & H1 & H). apply bind_Ret in H as ([t2 y] & H2 & H). apply Ret_inj in H. injection H as <- _.
    assert (FR : fetch O e (VColl CArgsGetNames g) t = Ret (t1, x)) by exact H1.
    assert (UC := U). destruct UC as (_ & _ & Fi & Me).
    eapply post_sets; [| |right; exact H2].
    + eapply frame_url_body; [eapply frame_fetch; exact FR|exact U].
    + eapply coherent_fetch; [exact Fi|exact Me|exact CC|exact FR].
  - apply bind_Ret in H as ([t1 b] & H1 & H). apply Ret_inj in H. injection H as <- _. eauto.
Qed.
Lemma fetched_cache : forall O e body vs t t1 raw, fetched O e vs t t1 raw -> url_body O e body t -> cache_coherent O body t ->
  (existsb reads_form vs = true -> t_cache_url t1 <> None) /\ (existsb reads_form vs = false -> t_cache_url t1 = t_cache_url t).
Proof.
  induction 1 as [|v vs t t1 t2 a b Hv Hvs IH]; intros U CC; cbn [existsb]; [split; [discriminate|reflexivity]|].
  assert (UC := U). destruct UC as (_ & _ & Fi & Me).
  assert (CC1 := coherent_fetch _ _ _ _ _ _ _ Fi Me CC Hv).
  assert (U1 := frame_url_body _ _ _ _ _ (frame_fetch _ _ _ _ _ _ Hv) U). destruct (IH U1 CC1) as [I1 I2]. split; intro R.
  - destruct (reads_form v) eqn:Q; [|now apply I1].
    apply cached_fetched in Hvs as [K _]. pose proof (reading_sets _ _ _ _ _ _ _ Q U CC Hv) as S.
    destruct (t_cache_url t1) as [i|]; [|easy]. rewrite (K i eq_refl). discriminate.
  - apply orb_false_iff in R as [Q R]. rewrite (I2 R). eapply quiet_cache; eauto.
Qed.

(** Whatever the body: a well formed one always shows the values of its selected pairs,
    name by name; one with malformed fields shows nothing to the variable that reads it
    first, and the values of its well formed fields to all later ones. *)
Theorem C21_any_body_partial : forall O e ps n body cs v vs t t1 raw t' out, ord_valid O ->
  url_body O e body t -> t_cache_url t = None -> query (semi_sep O) ps n body ->
  fetched O e vs t t1 raw ->
  apply_calls O cs (VColl CArgsPost empty_filter) = Some v -> fetch O e v t1 = Ret (t', out) ->
  (n = 0%nat \/ existsb reads_form vs = true ->
   exists kept, keeps (fun p => selected (rx_match O) cs (fst p)) ps kept /\ by_name kept out) /\
  (n <> 0%nat -> existsb reads_form vs = false -> out = []).
Proof.
  intros O e ps n body cs v vs t t1 raw t' out V U C Q F A H. apply calls_filter in A. subst v.
  assert (C0 : cache_coherent O body t) by now left.
  destruct (fetched_cache _ _ _ _ _ _ _ F U C0) as [K1 K2]. rewrite C in K2.
  pose proof (fetched_frame _ _ _ _ _ _ F) as FR.
  assert (U1 := frame_url_body _ _ _ _ _ FR U).
  assert (CC : cache_coherent O body t1) by (destruct U as (_ & _ & Fi & Me); eapply fetched_coherent; eauto).
  assert (UM : url_map O body = add_pairs ps []) by (unfold url_map; now rewrite (query_parse _ _ _ _ Q)).
  cbn [fetch fetch_coll] in H. unfold fetch_post in H. rewrite (url_parse _ _ _ _ U1) in H. rewrite (query_parse _ _ _ _ Q), UM in H.
  cbn [snd] in H. split.
  - intro N. destruct CC as [CC|CC]; rewrite CC in H.
    + destruct N as [->|N]; [|now elim (K1 N)]. cbn [Nat.eqb negb] in H. cbv zeta in H. cbn [bind] in H. apply Ret_inj in H.
      destruct (fetch_by_name O cs ps (with_cache_url t1 (Some (IValues (add_pairs ps [])))) V) as (kept & K & G & _).
      exists kept. split; [exact K|]. rewrite H in G. exact G.
    + rewrite UM in H. cbn [bind] in H. apply Ret_inj in H.
      destruct (fetch_by_name O cs ps t1 V) as (kept & K & G & _).
      exists kept. split; [exact K|]. rewrite H in G. exact G.
  - intros N R. rewrite (K2 R) in H. apply Nat.eqb_neq in N. rewrite N in H. cbn [negb] in H. cbv zeta in H. cbn [bind] in H.
    apply Ret_inj in H. now injection H as _ <-.
Qed.
Theorem C21_any_body_names_partial : forall O e ps n body cs v vs t t1 raw t' out, ord_valid O ->
  url_body O e body t -> t_cache_url t = None -> query (semi_sep O) ps n body ->
  fetched O e vs t t1 raw ->
  apply_calls O cs (VColl CArgsPostNames empty_filter) = Some v -> fetch O e v t1 = Ret (t', out) ->
  (n = 0%nat \/ existsb reads_form vs = true ->
   exists kept, keeps (fun p => selected (rx_match O) cs (fst p)) ps kept /\ names_once kept out) /\
  (n <> 0%nat -> existsb reads_form vs = false -> out = []).
Proof.
  intros O e ps n body cs v vs t t1 raw t' out V U C Q F A H. apply calls_filter in A. subst v.
  assert (C0 : cache_coherent O body t) by now left.
  destruct (fetched_cache _ _ _ _ _ _ _ F U C0) as [K1 K2]. rewrite C in K2.
  pose proof (fetched_frame _ _ _ _ _ _ F) as FR.
  assert (U1 := frame_url_body _ _ _ _ _ FR U).
  assert (CC : cache_coherent O body t1) by (destruct U as (_ & _ & Fi & Me); eapply fetched_coherent; eauto).
  assert (UM : url_map O body = add_pairs ps []) by (unfold url_map; now rewrite (query_parse _ _ _ _ Q)).
  cbn [fetch fetch_coll] in H. unfold fetch_post_names in H. rewrite (url_parse _ _ _ _ U1) in H. rewrite (query_parse _ _ _ _ Q), UM in H.
  cbn [snd] in H. split.
  - intro N. destruct CC as [CC|CC]; rewrite CC in H.
    + destruct N as [->|N]; [|now elim (K1 N)]. cbn [Nat.eqb negb] in H. cbv zeta in H. cbn [bind] in H. apply Ret_inj in H.
      destruct (fetch_by_name O cs ps (with_cache_url t1 (Some (IValues (add_pairs ps [])))) V) as (kept & K & _ & G).
      exists kept. split; [exact K|]. rewrite H in G. exact G.
    + rewrite UM in H. cbn [bind] in H. apply Ret_inj in H.
      destruct (fetch_by_name O cs ps t1 V) as (kept & K & _ & G).
      exists kept. split; [exact K|]. rewrite H in G. exact G.
  - intros N R. rewrite (K2 R) in H. apply Nat.eqb_neq in N. rewrite N in H. cbn [negb] in H. cbv zeta in H. cbn [bind] in H.
    apply Ret_inj in H. now injection H as _ <-.
Qed.
Example C21_any_example : exists v1 v2 t1 t2,
  let O := demo MpErr in let e := demo_engine new_ruleset in
  url_body O e (B "a=1&b=%zz&a=2") (demo_post "application/x-www-form-urlencoded" "a=1&b=%zz&a=2") /\
  apply_calls O [Exc (B "b")] (VColl CArgsPostNames empty_filter) = Some v1 /\
  apply_calls O [Exc (B "b")] (VColl CArgsPost empty_filter) = Some v2 /\
  fetch O e v1 (demo_post "application/x-www-form-urlencoded" "a=1&b=%zz&a=2") = Ret (t1, []) /\
  fetch O e v2 t1 = Ret (t2, [B "1"; B "2"]).
Proof.
  eexists _, _, _, _. cbv zeta. split.
  - split; [split; [now left|split; [reflexivity|vm_compute; discriminate]]|].
    split; [vm_compute; reflexivity|split; vm_compute; reflexivity].
  - split; [vm_compute; reflexivity|]. split; [vm_compute; reflexivity|]. split; vm_compute; reflexivity.
Qed.
Print Assumptions C21_any_body_partial.
Print Assumptions C21_any_body_names_partial.

(** ** C16: ARGS of a whole request, whatever its query and body *)
Theorem C16_args_of_any_request : forall O e u ps n qs m body cs v vs t t1 raw t' out, ord_valid O ->
  t_url t = Some u -> query (semi_sep O) ps n (u_rawquery u) ->
  url_body O e body t -> t_cache_url t = None -> query (semi_sep O) qs m body ->
  fetched O e vs t t1 raw ->
  apply_calls O cs (VArgs empty_filter empty_filter) = Some v -> fetch O e v t1 = Ret (t', out) ->
  exists a b, out = a ++ b /\
    (exists kept, keeps (fun p => selected (rx_match O) cs (fst p)) ps kept /\ by_name kept a) /\
    (m = 0%nat \/ existsb reads_form vs = true ->
     exists kept, keeps (fun p => selected (rx_match O) cs (fst p)) qs kept /\ by_name kept b) /\
    (m <> 0%nat -> existsb reads_form vs = false -> b = []).
Proof.
  intros O e u ps n qs m body cs v vs t t1 raw t' out V U Q UB C QB F A H.
  destruct (C16_args_is_get_then_post O e cs v t1 A) as (vg & vp & AG & AP & W).
  destruct (proj1 (W _ _) H) as (t2 & a & b & HG & HP & ->). clear W H. exists a, b. split; [reflexivity|].
  assert (U1 : t_url t1 = Some u).
  { destruct (fetched_frame _ _ _ _ _ _ F) as (R & _). unfold request_part in R. inversion R. congruence. }
  split; [eapply C17_any_query_values; eauto|].
  assert (F2 : exists raw2, fetched O e (vs ++ [vg]) t t2 raw2).
  { clear -F HG. induction F as [t|v vs t s1 s2 x y Hv Hvs IH].
    - exists (a ++ []). econstructor; [exact HG|constructor].
    - destruct (IH HG) as (r & R). exists (x ++ r). cbn [app]. econstructor; eauto. }
  destruct F2 as (raw2 & F2).
  assert (NG : reads_form vg = false) by (apply calls_filter in AG; subst vg; reflexivity).
  assert (EX : existsb reads_form (vs ++ [vg]) = existsb reads_form vs) by (rewrite existsb_app; cbn [existsb]; rewrite NG, !orb_false_r; reflexivity).
  rewrite <- EX. eapply C21_any_body_partial; eauto.
Qed.
Example C16_any_example : exists v t',
  let O := demo MpErr in let e := demo_engine new_ruleset in
  let t := with_request (demo_post "application/x-www-form-urlencoded" "a=1&b=2&a=3")
             (Some (demo_url "/p" "a=x&%&c=y")) (B "POST") [] in
  url_body O e (B "a=1&b=2&a=3") t /\
  apply_calls O [Inc (B "a")] (VArgs empty_filter empty_filter) = Some v /\
  fetch O e v t = Ret (t', [B "x"; B "1"; B "3"]).
Proof.
  cbv zeta. eexists. match goal with |- exists t', ?U /\ ?A /\ fetch ?O ?e ?v ?t = Ret (t', ?x) => enough (X : U /\ A /\ exists t', fetch O e v t = Ret (t', x)) by (destruct X as (U0 & X & t' & Y); eauto) end.
  split.
  - split; [split; [now left|split; [reflexivity|vm_compute; discriminate]]|].
    split; [vm_compute; reflexivity|split; vm_compute; reflexivity].
  - split; [reflexivity|]. apply yields. vm_compute. reflexivity.
Qed.
Print Assumptions C16_args_of_any_request.

(** ** C14: exactly which names of the union are not inspected *)
(** A name of the union is inspected unless both kinds of include selectors are present
    and it is not named by both. *)
Theorem C14_exactly_which_names_partial : forall rx cs k, selected rx cs k <->
  selected_union rx cs k /\
  ((exists s, In (Inc s) cs /\ exact s) -> (exists s p, In (Inc s) cs /\ pattern s p) ->
   (In (Inc k) cs /\ exact k) /\ exists s p, In (Inc s) cs /\ pattern s p /\ rx p k = true).
Proof.
  assert (D : forall s, exact s \/ exists p, pattern s p).
  { intro s. destruct (is_regex s) eqn:R; [right; now apply is_regex_pattern|left; now apply exact_not_regex]. }
  intros rx cs k. unfold selected, selected_union, named. split.
  - intros (H1 & H2 & H3 & H4). split; [split|].
    + intros (s & I). destruct (D s) as [X|(p & P)].
      * destruct (H1 (ex_intro _ s (conj I X))) as [J E]. exists k. auto.
      * destruct (H2 (ex_intro _ s (ex_intro _ p (conj I P)))) as (s' & p' & J & P' & R). exists s'. eauto 6.
    + intros (s & I & [[E ->]|(p & P & R)]); [apply H3; auto|apply H4; eauto].
    + intros E P. split; [apply H1, E|apply H2, P].
  - intros [[H1 H2] H3]. split; [|split; [|split]].
    + intros (s & I & E). destruct (H1 (ex_intro _ s I)) as (s' & J & [[E' ->]|(p & P & R)]); [auto|].
      apply H3; eauto.
    + intros (s & p & I & P). destruct (H1 (ex_intro _ s I)) as (s' & J & [[E' ->]|(p' & P' & R)]); [|eauto 6].
      apply H3; eauto.
    + intros [I E]. apply H2. exists k. split; [exact I|]. left. auto.
    + intros (s & p & I & P & R). apply H2. exists s. split; [exact I|]. right. eauto.
Qed.
Example C14_exactly_example : selected (rx_match (demo MpErr)) [Inc (B "a"); Inc (B "/a/"); Inc (B "b")] (B "a") /\
  ~ selected (rx_match (demo MpErr)) [Inc (B "a"); Inc (B "/a/"); Inc (B "b")] (B "b").
Proof.
  assert (X : forall c : ascii, exact [c]) by (intros c p Q; destruct p; discriminate).
  assert (PA : pattern (B "/a/") (B "a")) by reflexivity. split.
  - apply C14_exactly_which_names_partial. split; [split|].
    + intros _. exists (B "a"). split; [now left|]. left. split; [apply X|reflexivity].
    + intros (s & [J|[J|[J|[]]]] & _); discriminate.
    + intros _ _. split; [split; [now left|apply X]|]. exists (B "/a/"), (B "a"). split; [right; now left|]. split; [exact PA|reflexivity].
  - intros (_ & H & _). destruct H as (s & p & I & P & R).
    + exists (B "/a/"), (B "a"). split; [right; now left|exact PA].
    + destruct I as [I|[I|[I|[]]]]; injection I as <-; [exact (X _ _ P)| |exact (X _ _ P)].
      unfold pattern in P, PA. injection P as P. change ["a"%char; "/"%char] with (["a"%char] ++ B "/") in P.
      apply app_inj_tail in P as [<- _]. discriminate.
Qed.
Print Assumptions C14_exactly_which_names_partial.
