(** Facts about the text formats variables read: query strings, cookie lines, paths. *)
From Verif Require Import Base BaseFacts GoStrings Utils Variables SpecText TextFacts NumFacts SpecVars.
From Coq Require Import ZifyBool.

(** ** Adding pairs to a multi-map *)
Definition add_pairs (ps : list (bs * bs)) (m : vals) : vals :=
  fold_left (fun m p => vals_add (fst p) (snd p) m) ps m.

Lemma add_pairs_nodup : forall ps m, NoDup (map fst m) -> NoDup (map fst (add_pairs ps m)).
Proof. induction ps as [|p ps IH]; simpl; intros m H; [exact H|]. apply IH, vals_add_nodup, H. Qed.
Lemma add_pairs_keys : forall ps m k,
  In k (map fst (add_pairs ps m)) <-> In k (map fst ps) \/ In k (map fst m).
Proof.
  induction ps as [|p ps IH]; simpl; intros m k; [tauto|].
  rewrite IH, vals_add_keys. intuition.
Qed.
Lemma add_pairs_values : forall ps m,
  Permutation (flat_map snd (add_pairs ps m)) (map snd ps ++ flat_map snd m).
Proof.
  induction ps as [|p ps IH]; simpl; intro m; [apply Permutation_refl|].
  rewrite IH, vals_add_values. rewrite <- Permutation_middle. apply Permutation_refl.
Qed.
Lemma add_pairs_assoc : forall ps m k,
  match assoc k (add_pairs ps m) with Some l => l | None => [] end =
  match assoc k m with Some l => l | None => [] end ++ values_of k ps.
Proof.
  induction ps as [|[k' v] ps IH]; simpl; intros m k; [now rewrite app_nil_r|].
  rewrite IH, vals_add_assoc. unfold values_of. simpl.
  destruct (bs_eqb_spec k k') as [->|N]; simpl; [|reflexivity].
  destruct (assoc k' m) as [l|]; simpl; [|reflexivity]. now rewrite <- app_assoc.
Qed.
Lemma add_pairs_app : forall a b m, add_pairs (a ++ b) m = add_pairs b (add_pairs a m).
Proof. intros. unfold add_pairs. apply fold_left_app. Qed.

(** ** Query strings *)
Lemma query_unescape_plain : forall c s, c <> "%"%char -> c <> "+"%char ->
  query_unescape (c :: s) = option_map (cons c) (query_unescape s).
Proof.
  intros c s H1 H2. destruct c as [[] [] [] [] [] [] [] []]; try reflexivity; now elim H1 || now elim H2.
Qed.

Lemma unescape_hex : forall a b s, is_hex a = IsHex a -> is_hex a = true -> is_hex b = true ->
  query_unescape ("%"%char :: a :: b :: s) = option_map (cons (byte_of (unhex a * 16 + unhex b))) (query_unescape s).
Proof. intros a b s _ H1 H2. simpl. now rewrite H1, H2. Qed.

Lemma is_hex_same : forall c, is_hex c = IsHex c.
Proof.
  intro c. apply eqb_prop. revert c. apply (for_all_bytes (fun c => eqb (is_hex c) (IsHex c))).
  vm_compute. reflexivity.
Qed.
Lemma unhex_same : forall c, IsHex c = true -> unhex c = UnHex c.
Proof.
  intros c H. revert c H.
  assert (K : forall c, implb (IsHex c) (unhex c =? UnHex c) = true)
    by (apply for_all_bytes; vm_compute; reflexivity).
  intros c H. specialize (K c). rewrite H in K. simpl in K. lia.
Qed.

Lemma form_text_unescape : forall s e, form_text s e -> query_unescape e = Some s.
Proof.
  induction 1.
  - reflexivity.
  - rewrite query_unescape_plain, IHform_text; [reflexivity| |]; intros ->; apply H; vm_compute; auto.
  - simpl. now rewrite IHform_text.
  - apply hexdigit_ishex in H as (A1 & A2 & A3). apply hexdigit_ishex in H0 as (C1 & C2 & C3).
    rewrite unescape_hex by (rewrite ?is_hex_same; tauto).
    rewrite IHform_text. simpl. do 2 f_equal.
    rewrite (unhex_same h A1), (unhex_same l C1).
    transitivity (byte_of (code c)); [f_equal; rewrite A2, C2, H1; ring|apply byte_of_code].
Qed.

Lemma hexdigit_plain : forall h hi c, hexdigit h hi -> In c (B "&=;") -> h <> c.
Proof.
  intros h hi c H I. apply hexdigit_ishex in H as [H _]. intros ->.
  simpl in I. destruct I as [<-|[<-|[<-|[]]]]; discriminate.
Qed.

Lemma form_text_clean : forall s e, form_text s e -> forall c, In c (B "&=;") -> ~ In c e.
Proof.
  induction 1; intros x X I; simpl in I.
  - exact I.
  - destruct I as [->|I]; [|eapply IHform_text; eauto]. apply H.
    simpl in X |- *. intuition.
  - destruct I as [<-|I]; [|eapply IHform_text; eauto]. simpl in X. intuition discriminate.
  - destruct I as [<-|[<-|[<-|I]]].
    + simpl in X. intuition discriminate.
    + exact (hexdigit_plain _ _ _ H X eq_refl).
    + exact (hexdigit_plain _ _ _ H0 X eq_refl).
    + eapply IHform_text; eauto.
Qed.

Lemma cut_app : forall c k v, ~ In c k -> cut c (k ++ c :: v) = (k, Some v).
Proof.
  induction k as [|x k IH]; intros v H; simpl.
  - now rewrite Ascii.eqb_refl.
  - destruct (Ascii.eqb_spec x c) as [->|N]; [elim H; now left|]. rewrite IH; [reflexivity|]. intro I. apply H. now right.
Qed.
Lemma cut_none : forall c k, ~ In c k -> cut c k = (k, None).
Proof.
  induction k as [|x k IH]; intro H; simpl; [reflexivity|].
  destruct (Ascii.eqb_spec x c) as [->|N]; [elim H; now left|]. rewrite IH; [reflexivity|]. intro I. apply H. now right.
Qed.
Lemma existsb_not_in : forall c s, ~ In c s -> existsb (Ascii.eqb c) s = false.
Proof.
  intros c s H. apply not_true_iff_false. intro E. apply existsb_exists in E as (x & I & E).
  apply Ascii.eqb_eq in E. now subst.
Qed.

Lemma form_pair_field : forall semi p f, form_pair p f ->
  parse_field semi f = Some p /\ f <> [] /\ ~ In "&"%char f /\ ~ In ";"%char f.
Proof.
  intros semi p f H. destruct H as [k v ek ev Hk Hv|k ek Hk N].
  - assert (C1 : ~ In "="%char ek) by (eapply form_text_clean; eauto; vm_compute; auto).
    assert (C2 : ~ In ";"%char (ek ++ "="%char :: ev)).
    { intro I. apply in_app_iff in I as [I|[I|I]]; [|discriminate|];
      eapply form_text_clean in I; eauto; vm_compute; auto. }
    assert (C3 : ~ In "&"%char (ek ++ "="%char :: ev)).
    { intro I. apply in_app_iff in I as [I|[I|I]]; [|discriminate|];
      eapply form_text_clean in I; eauto; vm_compute; auto. }
    unfold parse_field. rewrite existsb_not_in, andb_false_r by exact C2.
    rewrite cut_app by exact C1. rewrite (form_text_unescape _ _ Hk), (form_text_unescape _ _ Hv).
    repeat split; auto. now destruct ek.
  - assert (C1 : ~ In "="%char ek) by (eapply form_text_clean; eauto; vm_compute; auto).
    assert (C2 : ~ In ";"%char ek) by (eapply form_text_clean; eauto; vm_compute; auto).
    assert (C3 : ~ In "&"%char ek) by (eapply form_text_clean; eauto; vm_compute; auto).
    unfold parse_field. rewrite existsb_not_in, andb_false_r by exact C2.
    rewrite cut_none by exact C1. rewrite (form_text_unescape _ _ Hk). simpl. auto.
Qed.

Lemma split_fields_nonempty : forall semi s, split_fields semi s <> [].
Proof.
  destruct s as [|x s]; simpl; [easy|]. destruct (_ || _); [easy|]. now destruct (split_fields semi s).
Qed.
Lemma split_fields_app : forall semi f q, ~ In "&"%char f -> ~ In ";"%char f ->
  split_fields semi (f ++ "&"%char :: q) = f :: split_fields semi q.
Proof.
  induction f as [|x f IH]; intros q H1 H2.
  - reflexivity.
  - cbn [app split_fields].
    destruct (Ascii.eqb_spec x "&") as [->|N1]; [elim H1; now left|].
    destruct (Ascii.eqb_spec x ";") as [->|N2]; [elim H2; now left|].
    rewrite andb_false_r. cbn [orb].
    rewrite IH; [reflexivity|intro I; apply H1; now right|intro I; apply H2; now right].
Qed.
Lemma split_fields_one : forall semi f, ~ In "&"%char f -> ~ In ";"%char f -> split_fields semi f = [f].
Proof.
  induction f as [|x f IH]; intros H1 H2.
  - reflexivity.
  - cbn [split_fields].
    destruct (Ascii.eqb_spec x "&") as [->|N1]; [elim H1; now left|].
    destruct (Ascii.eqb_spec x ";") as [->|N2]; [elim H2; now left|].
    rewrite andb_false_r. cbn [orb].
    rewrite IH; [reflexivity|intro I; apply H1; now right|intro I; apply H2; now right].
Qed.

Lemma parse_fields_cons : forall semi f fs m bad p, f <> [] -> parse_field semi f = Some p ->
  parse_fields semi (f :: fs) m bad = parse_fields semi fs (vals_add (fst p) (snd p) m) bad.
Proof. intros semi [|c f] fs m bad [k v] H E; [easy|]. cbn [parse_fields]. rewrite E. reflexivity. Qed.

Lemma form_pairs_parse : forall semi ps q, form_pairs ps q -> forall m bad,
  parse_fields semi (split_fields semi q) m bad = (add_pairs ps m, bad).
Proof.
  induction 1; intros m bad.
  - reflexivity.
  - apply (form_pair_field semi) in H as (P & N & A & S).
    rewrite split_fields_one by assumption. erewrite parse_fields_cons by eassumption. reflexivity.
  - apply (form_pair_field semi) in H as (P & N & A & S).
    rewrite split_fields_app by assumption. erewrite parse_fields_cons by eassumption. rewrite IHform_pairs. reflexivity.
  - change ("&"%char :: q) with ([] ++ "&"%char :: q). rewrite split_fields_app by easy. cbn [parse_fields].
    apply IHform_pairs.
Qed.

Lemma form_pairs_query : forall semi ps q, form_pairs ps q -> parse_query semi q = (add_pairs ps [], false).
Proof. intros. unfold parse_query. now apply form_pairs_parse. Qed.

Lemma parse_fields_nodup : forall semi fs m bad, NoDup (map fst m) ->
  NoDup (map fst (fst (parse_fields semi fs m bad))).
Proof.
  induction fs as [|f fs IH]; intros m bad H; [exact H|]. cbn [parse_fields].
  destruct f as [|c f]; [auto|]. destruct (parse_field semi (c :: f)) as [[k v]|]; [|auto].
  apply IH, vals_add_nodup, H.
Qed.
Lemma parse_query_nodup : forall semi q, NoDup (map fst (fst (parse_query semi q))).
Proof. intros. apply parse_fields_nodup. constructor. Qed.

(** Undecodable fields *)
Lemma unescape_bad : forall a r, ~ In "%"%char a -> bad_escape r -> query_unescape (a ++ "%"%char :: r) = None.
Proof.
  assert (NH : forall c, (forall v, ~ hexdigit c v) -> is_hex c = false).
  { intros c H. destruct (is_hex c) eqn:E; [|reflexivity]. rewrite is_hex_same in E.
    apply ishex_iff in E as [v V]. elim (H v V). }
  induction a as [|c a IH]; intros r N H; cbn [app].
  - destruct r as [|c [|d r]]; try reflexivity. simpl in H. cbn [query_unescape].
    destruct H as [H|H]; rewrite (NH _ H), ?andb_false_r; reflexivity.
  - assert (N' : ~ In "%"%char a) by (intro I; apply N; now right).
    destruct (ascii_dec c "+") as [->|P].
    + cbn [query_unescape]. now rewrite IH.
    + rewrite query_unescape_plain; [|intros ->; apply N; now left|exact P]. now rewrite IH.
Qed.

Lemma cut_spec : forall c s, let '(a, b) := cut c s in
  ~ In c a /\ match b with None => s = a | Some b => s = a ++ c :: b end.
Proof.
  induction s as [|x s IH]; simpl; [auto|].
  destruct (Ascii.eqb_spec x c) as [->|N]; [auto|].
  destruct (cut c s) as [a b]. destruct IH as [I E]. split; [intros [->|J]; auto|].
  destruct b; simpl; congruence.
Qed.

Lemma bad_escape_prefix : forall r1 r2, ~ In "="%char r1 -> bad_escape (r1 ++ "="%char :: r2) -> bad_escape r1.
Proof.
  intros [|c [|d r1]] r2 N H; simpl in *; auto.
Qed.

Lemma bad_field_parse : forall semi f, bad_field f ->
  parse_field semi f = None /\ f <> [] /\ ~ In "&"%char f /\ ~ In ";"%char f.
Proof.
  intros semi f [a r N H A S].
  assert (NF : forall c, c <> "%"%char -> ~ In c (a ++ r) -> ~ In c (a ++ "%"%char :: r)).
  { intros c C K I. apply K. apply in_app_iff in I as [I|[I|I]]; [| congruence |]; apply in_app_iff; auto. }
  assert (S' : ~ In ";"%char (a ++ "%"%char :: r)) by (apply NF; [discriminate|exact S]).
  split; [|split; [now destruct a|split; [apply NF; [discriminate|exact A]|exact S']]].
  unfold parse_field. rewrite existsb_not_in, andb_false_r by exact S'.
  pose proof (cut_spec "=" (a ++ "%"%char :: r)) as C.
  destruct (cut "=" (a ++ "%"%char :: r)) as [k v]. destruct C as [I E].
  destruct v as [v|].
  - apply app_eq_app in E as (l & [[E1 E2]|[E1 E2]]).
    + (* a = k ++ l *) subst a. destruct l as [|x l]; [discriminate|]. cbn [app] in E2. injection E2 as <- ->.
      assert (NL : ~ In "%"%char l) by (intro Q; apply N; apply in_app_iff; right; now right).
      rewrite (unescape_bad l r NL H). now destruct (query_unescape k).
    + (* k = a ++ l *) subst k. destruct l as [|x l]; [discriminate|]. cbn [app] in E2. injection E2 as <- ->.
      rewrite unescape_bad; [reflexivity|exact N|]. eapply bad_escape_prefix; [|exact H].
      intro Q. apply I. apply in_app_iff. right. now right.
  - subst k. now rewrite (unescape_bad a r N H).
Qed.

Lemma parse_fields_bad : forall semi f fs m bad, f <> [] -> parse_field semi f = None ->
  parse_fields semi (f :: fs) m bad = parse_fields semi fs m true.
Proof. intros semi [|c f] fs m bad H E; [easy|]. cbn [parse_fields]. rewrite E. reflexivity. Qed.

Lemma form_mix_parse : forall semi ps n q, form_mix ps n q -> forall m bad,
  parse_fields semi (split_fields semi q) m bad = (add_pairs ps m, bad || negb (Nat.eqb n 0)).
Proof.
  induction 1; intros m bad.
  - cbn. now rewrite orb_false_r.
  - apply (form_pair_field semi) in H as (P & N & A & S).
    rewrite split_fields_one by assumption. erewrite parse_fields_cons by eassumption. cbn. now rewrite orb_false_r.
  - apply (bad_field_parse semi) in H as (P & N & A & S).
    rewrite split_fields_one by assumption. rewrite parse_fields_bad by assumption. cbn. now rewrite orb_true_r.
  - apply (form_pair_field semi) in H as (P & N & A & S).
    rewrite split_fields_app by assumption. erewrite parse_fields_cons by eassumption. rewrite IHform_mix. reflexivity.
  - apply (bad_field_parse semi) in H as (P & N & A & S).
    rewrite split_fields_app by assumption. rewrite parse_fields_bad by assumption. rewrite IHform_mix. cbn.
    now rewrite orb_true_r.
  - change ("&"%char :: q) with ([] ++ "&"%char :: q). rewrite split_fields_app by easy. cbn [parse_fields].
    apply IHform_mix.
Qed.
Lemma form_mix_query : forall semi ps n q, form_mix ps n q ->
  parse_query semi q = (add_pairs ps [], negb (Nat.eqb n 0)).
Proof. intros. unfold parse_query. now rewrite (form_mix_parse semi ps n q H [] false). Qed.

(** Every list of pairs has an encoding. *)
Lemma form_text_exists : forall s, exists e, form_text s e /\ (s <> [] -> e <> []).
Proof.
  induction s as [|c s (e & H & _)]; [exists []; split; [constructor|auto]|].
  destruct (pct_encoding_exists [c]) as (x & X). inversion X; subst. 
  match goal with [ H1 : hexdigit ?h ?hi, H2 : hexdigit ?l ?lo |- _ ] =>
    exists ("%"%char :: h :: l :: e); split; [eapply ft_hex; eauto|discriminate] end.
Qed.
Lemma form_pairs_exists : forall ps, exists q, form_pairs ps q.
Proof.
  induction ps as [|[k v] ps (q & H)]; [exists []; constructor|].
  destruct (form_text_exists k) as (ek & K & _). destruct (form_text_exists v) as (ev & V & _).
  exists ((ek ++ "="%char :: ev) ++ "&"%char :: q). constructor; [now constructor|exact H].
Qed.

(** ** White space *)
Definition lead (c : ascii) : Prop := code c < 128 \/ 192 <= code c.
Lemma enc_shape : forall e, In e space_encs -> exists c r, e = c :: r /\ lead c /\ Forall (fun x => ~ lead x) r.
Proof.
  assert (K : forallb (fun e => match e with c :: r => ((code c <? 128) || (192 <=? code c)) &&
                forallb (fun x => (128 <=? code x) && (code x <? 192)) r | [] => false end) space_encs = true)
    by (vm_compute; reflexivity).
  intros e I. rewrite forallb_forall in K. specialize (K e I). destruct e as [|c r]; [easy|].
  exists c, r. split; [reflexivity|]. apply andb_true_iff in K as [K1 K2]. split; [unfold lead; lia|].
  rewrite forallb_forall in K2. apply Forall_forall. intros x X. specialize (K2 x X). unfold lead. lia.
Qed.

Lemma has_prefix_iff : forall p s, has_prefix p s = true <-> exists r, s = p ++ r.
Proof.
  induction p as [|a p IH]; intro s; simpl.
  - split; [exists s; reflexivity|reflexivity].
  - destruct s as [|b s]; [split; [easy|intros [r R]; discriminate]|].
    rewrite andb_true_iff, Ascii.eqb_eq, IH. split.
    + intros [-> [r ->]]. exists r. reflexivity.
    + intros [r R]. inversion R. split; [reflexivity|]. eauto.
Qed.

Lemma strip_one_none : forall encs s, strip_one encs s = None <-> forall e r, In e encs -> s <> e ++ r.
Proof.
  intros encs s. unfold strip_one. destruct (find _ encs) as [e|] eqn:F.
  - split; [discriminate|]. intro H. apply find_some in F as [I P]. apply has_prefix_iff in P as [r R].
    elim (H e r I R).
  - split; [|reflexivity]. intros _ e r I E. eapply find_none in F; [|exact I]. cbv beta in F.
    assert (has_prefix e s = true) by (apply has_prefix_iff; eauto). congruence.
Qed.

Lemma white_app : forall a b, white a -> white b -> white (a ++ b).
Proof.
  intros a b A Hb. apply white_encs in A as (wa & -> & Fa). apply white_encs in Hb as (wb & -> & Fb).
  apply white_encs. exists (wa ++ wb). split; [now rewrite concat_app|]. apply Forall_app. auto.
Qed.
Lemma white_nil : white [].
Proof. apply white_encs. exists []. auto. Qed.
Lemma white_enc : forall e, In e space_encs -> white e.
Proof. intros e I. apply white_encs. exists [e]. simpl. rewrite app_nil_r. auto. Qed.

Lemma white_head : forall w, white w -> w = [] \/ exists c r, w = c :: r /\ lead c.
Proof.
  intros w W. apply white_encs in W as (ws & -> & F). destruct ws as [|e ws]; [now left|].
  inversion F as [|? ? I F']; subst. apply enc_shape in I as (c & r & -> & L & _). right. exists c, (r ++ concat ws). auto.
Qed.

(** A text that starts with no space still does not when white space follows. *)
Lemma stops_app_white : forall s w, s <> [] -> white w -> stops space_encs s -> stops space_encs (s ++ w).
Proof.
  intros s w N W H. unfold stops in *. apply strip_one_none. intros e r I E.
  assert (K := proj1 (strip_one_none _ _) H).
  apply app_eq_app in E as (l & [[E1 E2]|[E1 E2]]).
  - (* s = e ++ l *) eapply K; eauto.
  - (* e = s ++ l, w = l ++ r *)
    destruct l as [|c l]; [rewrite app_nil_r in E1; apply (K e [] I); rewrite app_nil_r; auto|].
    destruct (white_head _ W) as [->|(c' & r' & -> & L)]; [discriminate|].
    simpl in E2. inversion E2; subst c'. clear E2.
    apply enc_shape in I as (x & y & -> & _ & F). destruct s as [|a s]; [easy|]. simpl in E1. inversion E1; subst.
    rewrite Forall_app in F. destruct F as [_ F]. inversion F. contradiction.
Qed.

(** Any text: white, text that starts and ends with no space, white. *)
Lemma trim_fuel_stops : forall encs, (forall e, In e encs -> (1 <= length e)%nat) ->
  forall n s, (length s <= n)%nat -> stops encs (trim_left_fuel n encs s).
Proof.
  intros encs P. induction n as [|n IH]; intros s L; simpl.
  - destruct s; [|simpl in L; lia]. unfold stops. apply strip_one_none. intros e r I E.
    specialize (P e I). destruct e; [simpl in P; lia|discriminate].
  - destruct (strip_one encs s) as [s'|] eqn:E; [|exact E].
    apply strip_one_enc in E as (e & I & ->). apply IH. rewrite app_length in L. specialize (P e I). lia.
Qed.
Lemma space_encs_rev_pos : forall e, In e (map (@rev ascii) space_encs) -> (1 <= length e)%nat.
Proof. intros e I. apply in_map_iff in I as (x & <- & I). rewrite rev_length. now apply space_encs_pos. Qed.

Lemma trim_left_decomp2 : forall s, exists w, s = w ++ trim_left s /\ white w /\ stops space_encs (trim_left s).
Proof.
  intro s. unfold trim_left. destruct (trim_left_decomp space_encs (length s) s) as (ws & E & F).
  exists (concat ws). split; [exact E|]. split; [apply white_encs; eauto|].
  apply trim_fuel_stops; [apply space_encs_pos|lia].
Qed.
Lemma trim_right_decomp : forall s, exists w, s = trim_right s ++ w /\ white w /\
  stops (map (@rev ascii) space_encs) (rev (trim_right s)).
Proof.
  intro s. unfold trim_right.
  destruct (trim_left_decomp (map (@rev ascii) space_encs) (length s) (rev s)) as (ws & E & F).
  exists (rev (concat ws)). split; [|split].
  - rewrite <- rev_app_distr, <- E. now rewrite rev_involutive.
  - rewrite concat_rev. apply white_encs. exists (map (@rev ascii) (rev ws)). split; [reflexivity|].
    apply Forall_forall. intros x X. apply in_map_iff in X as (y & <- & Y). apply in_rev in Y.
    rewrite Forall_forall in F. specialize (F y Y). apply in_map_iff in F as (z & <- & Z). now rewrite rev_involutive.
  - rewrite rev_involutive. apply trim_fuel_stops; [apply space_encs_rev_pos|rewrite rev_length; lia].
Qed.

Lemma stops_prefix : forall s w, stops space_encs (s ++ w) -> stops space_encs s.
Proof.
  intros s w H. unfold stops in *. apply strip_one_none. intros e r I ->.
  apply strip_one_none with (e := e) (r := r ++ w) in H; [|exact I]. rewrite app_assoc in H. now elim H.
Qed.

Lemma trim_shape : forall s, exists w1 w2, s = w1 ++ trim_space s ++ w2 /\ white w1 /\ white w2 /\
  stops space_encs (trim_space s) /\ stops (map (@rev ascii) space_encs) (rev (trim_space s)).
Proof.
  intro s. destruct (trim_left_decomp2 s) as (w1 & E1 & W1 & S1).
  destruct (trim_right_decomp (trim_left s)) as (w2 & E2 & W2 & S2).
  exists w1, w2. unfold trim_space. split; [now rewrite <- E2|]. split; [exact W1|]. split; [exact W2|].
  split; [|exact S2]. rewrite E2 in S1. now apply stops_prefix in S1.
Qed.

Lemma trim_core : forall w1 core w2, white w1 -> white w2 -> core <> [] ->
  stops space_encs core -> stops (map (@rev ascii) space_encs) (rev core) ->
  trim_space (w1 ++ core ++ w2) = core.
Proof. intros. apply trim_space_core; auto. now apply stops_app_white. Qed.

Lemma stops_nil : stops space_encs [] /\ stops (map (@rev ascii) space_encs) (rev []).
Proof. split; vm_compute; reflexivity. Qed.

Lemma trim_white : forall w, white w -> trim_space w = [].
Proof.
  intros w W. rewrite <- (app_nil_r w). change (w ++ []) with (w ++ [] ++ []).
  destruct stops_nil as [A C].
  apply trim_space_core; auto using white_nil.
Qed.

Lemma trim_pad : forall w1 s w2, white w1 -> white w2 -> trim_space (w1 ++ s ++ w2) = trim_space s.
Proof.
  intros w1 s w2 W1 W2. destruct (trim_shape s) as (a & c & E & A & C & S1 & S2).
  destruct (trim_space s) as [|x core] eqn:T.
  - rewrite E. simpl. apply trim_white. repeat apply white_app; auto.
  - rewrite E. replace (w1 ++ (a ++ (x :: core) ++ c) ++ w2) with ((w1 ++ a) ++ (x :: core) ++ (c ++ w2))
      by now rewrite <- !app_assoc.
    apply trim_core; auto using white_app. discriminate.
Qed.

Lemma trimmed_trim : forall s, trimmed s -> trim_space s = s.
Proof.
  intros s T. destruct (trim_shape s) as (a & c & E & A & C & _).
  destruct a as [|x a]; [|exfalso; apply (proj1 (T _ (trim_space s ++ c) A ltac:(easy))); exact E].
  destruct c as [|x c].
  - rewrite app_nil_r in E. symmetry. exact E.
  - exfalso. apply (proj2 (T _ (trim_space s) C ltac:(easy))). exact E.
Qed.

(** ** Cookies *)
Lemma white_no : forall w c, white w -> code c = 59 \/ code c = 61 -> ~ In c w.
Proof.
  intros w c W H I. apply white_encs in W as (ws & -> & F). apply in_concat in I as (e & E & I).
  rewrite Forall_forall in F. specialize (F e E). revert I.
  assert (K : forallb (fun e => forallb (fun c => negb ((code c =? 59) || (code c =? 61))) e) space_encs = true)
    by (vm_compute; reflexivity).
  rewrite forallb_forall in K. specialize (K e F). rewrite forallb_forall in K. intro I. specialize (K c I). lia.
Qed.

Lemma white_no_semi : forall w, white w -> ~ In ";"%char w.
Proof. intros w W. apply white_no; [exact W|]. left. reflexivity. Qed.

Lemma split_no : forall c s, ~ In c s -> split c s = [s].
Proof.
  induction s as [|x s IH]; intro H; simpl; [reflexivity|].
  destruct (Ascii.eqb_spec x c) as [->|N]; [elim H; now left|]. rewrite IH; [reflexivity|]. intro I. apply H. now right.
Qed.
Lemma split_cons : forall c a s, ~ In c a -> split c (a ++ c :: s) = a :: split c s.
Proof.
  induction a as [|x a IH]; intros s H; simpl.
  - now rewrite Ascii.eqb_refl.
  - destruct (Ascii.eqb_spec x c) as [->|N]; [elim H; now left|]. rewrite IH; [reflexivity|]. intro I. apply H. now right.
Qed.
Lemma split_join : forall c parts, parts <> [] -> Forall (fun p => ~ In c p) parts -> split c (join c parts) = parts.
Proof.
  induction parts as [|p ps IH]; intros N F; [easy|]. inversion F; subst.
  destruct ps as [|p' ps]; [simpl; now apply split_no|].
  change (join c (p :: p' :: ps)) with (p ++ c :: join c (p' :: ps)).
  rewrite split_cons by assumption. rewrite IH; [reflexivity|easy|assumption].
Qed.
Lemma split_nonempty : forall c s, split c s <> [].
Proof. destruct s as [|x s]; simpl; [easy|]. destruct (Ascii.eqb x c); [easy|]. now destruct (split c s). Qed.

(** Padding a text pads its first and last part. *)
Lemma split_app_left : forall c w s, ~ In c w ->
  exists p ps, split c s = p :: ps /\ split c (w ++ s) = (w ++ p) :: ps.
Proof.
  intros c w s H. destruct (split c s) as [|p ps] eqn:E; [elim (split_nonempty _ _ E)|].
  exists p, ps. split; [reflexivity|]. induction w as [|x w IH]; simpl; [exact E|].
  destruct (Ascii.eqb_spec x c) as [->|N]; [elim H; now left|]. rewrite IH; [reflexivity|]. intro I. apply H. now right.
Qed.
Lemma split_app_right : forall c w s, ~ In c w ->
  exists p ps, split c s = ps ++ [p] /\ split c (s ++ w) = ps ++ [p ++ w].
Proof.
  intros c w s H. induction s as [|x s (p & ps & E1 & E2)].
  - exists [], []. simpl. split; [reflexivity|]. now apply split_no.
  - simpl. rewrite E1, E2. destruct (Ascii.eqb x c).
    + exists p, ([] :: ps). auto.
    + destruct ps as [|q ps]; simpl; [exists (x :: p), []; auto|exists p, ((x :: q) :: ps); auto].
Qed.

Definition cookie_fold (parts : list bs) (m : vals) : vals := fold_left (fun m p => cookie_part p m) parts m.

Lemma cookie_part_pad : forall w1 p w2 m, white w1 -> white w2 -> cookie_part (w1 ++ p ++ w2) m = cookie_part p m.
Proof. intros. unfold cookie_part. now rewrite trim_pad. Qed.

Lemma cookie_fold_pad : forall w1 s w2 m, white w1 -> white w2 ->
  cookie_fold (split ";" (w1 ++ s ++ w2)) m = cookie_fold (split ";" s) m.
Proof.
  intros w1 s w2 m W1 W2.
  destruct (split_app_left ";" w1 (s ++ w2) (white_no_semi _ W1)) as (p & ps & E1 & ->).
  destruct (split_app_right ";" w2 s (white_no_semi _ W2)) as (q & qs & E2 & E3).
  assert (L : forall l, cookie_part (w1 ++ l) = cookie_part l).
  { intro l. unfold cookie_part. replace (w1 ++ l) with (w1 ++ l ++ []) by now rewrite app_nil_r.
    now rewrite trim_pad by auto using white_nil. }
  assert (R : forall l, cookie_part (l ++ w2) = cookie_part l).
  { intro l. unfold cookie_part. change (l ++ w2) with ([] ++ l ++ w2). now rewrite trim_pad by auto using white_nil. }
  assert (A : cookie_fold ((w1 ++ p) :: ps) m = cookie_fold (p :: ps) m) by (unfold cookie_fold; simpl; now rewrite L).
  rewrite A, <- E1, E3, E2. unfold cookie_fold. rewrite !fold_left_app. simpl. now rewrite R.
Qed.

Lemma cookie_line_fold : forall line m, cookie_line line m = cookie_fold (split ";" line) m.
Proof.
  intros line m. destruct (trim_shape line) as (w1 & w2 & E & W1 & W2 & _).
  assert (K : cookie_line line m = cookie_fold (split ";" (trim_space line)) m).
  { unfold cookie_line, cookie_fold. destruct (split ";" (trim_space line)) as [|[|c p] [|q ps]]; reflexivity. }
  rewrite K. rewrite E at 2. now rewrite cookie_fold_pad.
Qed.

Lemma cookie_text_part : forall p x w1 w2 m, cookie_text p x -> white w1 -> white w2 ->
  cookie_part (w1 ++ x ++ w2) m = vals_add (fst p) (snd p) m /\ ~ In ";"%char (w1 ++ x ++ w2).
Proof.
  intros p x w1 w2 m H W1 W2. split.
  - rewrite cookie_part_pad by assumption. unfold cookie_part. destruct H.
    + rewrite trimmed_trim by assumption.
      assert (C := cut_app "=" k v H). destruct (k ++ "="%char :: v) as [|c r] eqn:E; [now destruct k|].
      rewrite C. reflexivity.
    + rewrite trimmed_trim by assumption. pose proof (cut_none "=" k H0) as C.
      destruct k as [|c r]; [easy|]. rewrite C. reflexivity.
  - assert (N1 := white_no_semi w1 W1). assert (N2 := white_no_semi w2 W2).
    rewrite !in_app_iff. intros [I|[I|I]]; try contradiction. destruct H; [|contradiction].
    apply in_app_iff in I as [I|[I|I]]; try contradiction. discriminate.
Qed.

Lemma cookie_parts_fold : forall ps parts, cookie_parts ps parts -> forall m,
  cookie_fold parts m = add_pairs ps m /\ Forall (fun p => ~ In ";"%char p) parts.
Proof.
  induction 1; intro m.
  - split; [reflexivity|constructor].
  - destruct (cookie_text_part p x w1 w2 m H H0 H1) as [E N].
    destruct (IHcookie_parts (vals_add (fst p) (snd p) m)) as [E2 F]. split; [|constructor; auto].
    unfold cookie_fold. cbn [fold_left]. rewrite E. exact E2.
  - destruct (IHcookie_parts m) as [E2 F]. split.
    + unfold cookie_fold. cbn [fold_left]. replace (cookie_part w m) with m; [exact E2|].
      unfold cookie_part. now rewrite trim_white.
    + constructor; auto. apply white_no_semi; auto.
Qed.

Lemma cookie_lines_fold : forall ps lines, cookie_lines ps lines -> forall m,
  fold_left (fun m l => cookie_line l m) lines m = add_pairs ps m.
Proof.
  induction 1; intro m; simpl; [reflexivity|].
  rewrite cookie_line_fold, add_pairs_app.
  destruct (cookie_parts_fold _ _ H m) as [E F].
  destruct parts as [|p parts].
  - simpl. inversion H; subst. simpl. rewrite IHcookie_lines. unfold cookie_fold. reflexivity.
  - rewrite split_join by (easy || assumption). rewrite E. apply IHcookie_lines.
Qed.

Lemma cookie_fold_nodup : forall parts m, NoDup (map fst m) -> NoDup (map fst (cookie_fold parts m)).
Proof.
  unfold cookie_fold. induction parts as [|p parts IH]; simpl; intros m H; [exact H|]. apply IH.
  unfold cookie_part. destruct (trim_space p); [exact H|]. destruct (cut _ _). now apply vals_add_nodup.
Qed.
Lemma read_cookie_nodup : forall h, NoDup (map fst (read_cookie h)).
Proof.
  intro h. unfold read_cookie. destruct (assoc _ h) as [lines|]; [|constructor].
  assert (G : forall m, NoDup (map fst m) -> NoDup (map fst (fold_left (fun m l => cookie_line l m) lines m))).
  { induction lines as [|l lines IH]; simpl; intros m H; [exact H|]. apply IH. rewrite cookie_line_fold.
    now apply cookie_fold_nodup. }
  apply G. constructor.
Qed.

(** ** Base name *)
Lemma sep_iff : forall c, is_path_sep c = true <-> separator c.
Proof.
  intro c. unfold is_path_sep, separator, BSL. rewrite orb_true_iff, !Ascii.eqb_eq. tauto.
Qed.
Lemma drop_while_split : forall p s, exists a, s = a ++ drop_while p s /\ Forall (fun c => p c = true) a /\
  match drop_while p s with [] => True | c :: _ => p c = false end.
Proof.
  induction s as [|c s (a & E & F & G)]; simpl; [exists []; auto|].
  destruct (p c) eqn:P; [|exists []; auto]. exists (c :: a). split; [simpl; now rewrite <- E|]. auto.
Qed.
Lemma take_while_split : forall p s, exists b, s = take_while p s ++ b /\ Forall (fun c => p c = true) (take_while p s) /\
  match b with [] => True | c :: _ => p c = false end.
Proof.
  induction s as [|c s (b & E & F & G)]; simpl; [exists []; auto|].
  destruct (p c) eqn:P; [|exists (c :: s); auto]. exists b. split; [simpl; now rewrite <- E|]. auto.
Qed.

Lemma Forall_rev' : forall A (P : A -> Prop) l, Forall P (rev l) <-> Forall P l.
Proof.
  intros A P l. rewrite !Forall_forall. split; intros H x X; apply H.
  - now apply in_rev in X.
  - now apply in_rev.
Qed.

Lemma basename_last : forall path, last_segment path (basename path).
Proof.
  intro path. assert (E : basename path =
    match drop_while is_path_sep (rev path) with
    | [] => B "/"
    | r => match rev (take_while (fun c => negb (is_path_sep c)) r) with [] => B "/" | p => p end
    end) by (destruct path as [|x path]; [reflexivity|]; unfold basename;
             destruct (drop_while is_path_sep (rev (x :: path))); reflexivity).
  rewrite E. clear E.
  destruct (drop_while_split is_path_sep (rev path)) as (a & E1 & F1 & G1).
  remember (drop_while is_path_sep (rev path)) as r eqn:R. clear R.
  apply (f_equal (@rev ascii)) in E1. rewrite rev_involutive, rev_app_distr in E1.
  destruct r as [|c r].
  - simpl in E1. subst path. apply ls_none. apply Forall_rev'. eapply Forall_impl; [|exact F1]. intros x X. now apply sep_iff.
  - destruct (take_while_split (fun c => negb (is_path_sep c)) (c :: r)) as (b & E2 & F2 & G2).
    remember (take_while (fun c => negb (is_path_sep c)) (c :: r)) as seg eqn:S.
    destruct (rev seg) as [|x sg] eqn:RS.
    + exfalso. cbn [take_while] in S. rewrite G1 in S. simpl in S. subst seg. simpl in RS.
      apply app_eq_nil in RS as [_ Q]. discriminate.
    + rewrite <- RS. rewrite E2 in E1. rewrite rev_app_distr in E1. rewrite <- app_assoc in E1. rewrite E1.
      constructor.
      * rewrite RS. discriminate.
      * apply Forall_rev'. eapply Forall_impl; [|exact F2]. intros y Y. cbv beta in Y. rewrite <- sep_iff.
        destruct (is_path_sep y); [discriminate|easy].
      * apply Forall_rev'. eapply Forall_impl; [|exact F1]. intros y Y. now apply sep_iff.
      * destruct b as [|y b]; [now left|]. right. exists (rev b), y. split; [reflexivity|].
        apply sep_iff. destruct (is_path_sep y); [reflexivity|discriminate].
Qed.

(** The specification determines the segment. *)
Lemma last_segment_fun : forall path s1 s2, last_segment path s1 -> last_segment path s2 -> s1 = s2.
Proof.
  assert (NS : forall l x, Forall separator l -> In x l -> separator x) by (intros l x F I; rewrite Forall_forall in F; auto).
  assert (K : forall before seg after, seg <> [] -> Forall (fun c => ~ separator c) seg ->
    Forall separator (before ++ seg ++ after) -> False).
  { intros before seg after N F G. destruct seg as [|c seg]; [easy|]. inversion F; subst. apply H1.
    eapply NS; [exact G|]. apply in_app_iff. right. now left. }
  assert (A : forall after a2 seg s2 x y, Forall separator after -> Forall separator a2 ->
    Forall (fun c => ~ separator c) seg -> Forall (fun c => ~ separator c) s2 -> seg <> [] -> s2 <> [] ->
    rev after ++ rev seg ++ x = rev a2 ++ rev s2 ++ y -> rev after = rev a2 /\ rev seg ++ x = rev s2 ++ y).
  { intros after a2 seg s2 x y Fa Fb Fs Fs2 N1 N2.
    apply Forall_rev' in Fa, Fb, Fs, Fs2.
    assert (rev seg <> []) by (intro Q; apply N1; now rewrite <- (rev_involutive seg), Q).
    assert (rev s2 <> []) by (intro Q; apply N2; now rewrite <- (rev_involutive s2), Q).
    generalize dependent (rev a2). generalize dependent (rev seg). generalize dependent (rev s2).
    intros s2' Fs2 N2' seg' Fs N1'. induction (rev after) as [|c l IH]; intros l2 Fb E; simpl in E.
    - destruct l2 as [|d l2]; [auto|]. destruct seg' as [|e seg']; [easy|]. simpl in E. inversion E; subst.
      inversion Fs; inversion Fb; contradiction.
    - destruct l2 as [|d l2].
      + destruct s2' as [|e s2']; [easy|]. simpl in E. inversion E; subst. inversion Fs2; inversion Fa; contradiction.
      + simpl in E. inversion E; subst. inversion Fa; inversion Fb; subst. destruct (IH ltac:(assumption) l2) as [E1 E2]; auto.
        subst. auto. }
  assert (Bq : forall s1 s2 b1 b2, Forall (fun c => ~ separator c) s1 -> Forall (fun c => ~ separator c) s2 ->
    (b1 = [] \/ exists b c, b1 = b ++ [c] /\ separator c) -> (b2 = [] \/ exists b c, b2 = b ++ [c] /\ separator c) ->
    rev s1 ++ rev b1 = rev s2 ++ rev b2 -> s1 = s2).
  { intros s1 s2 b1 b2 F1 F2 P1 P2 E. apply Forall_rev' in F1, F2.
    rewrite <- (rev_involutive s1), <- (rev_involutive s2). f_equal.
    assert (Q1 : rev b1 = [] \/ exists c l, rev b1 = c :: l /\ separator c).
    { destruct P1 as [->|(b & c & -> & S)]; [now left|]. right. exists c, (rev b). now rewrite rev_app_distr. }
    assert (Q2 : rev b2 = [] \/ exists c l, rev b2 = c :: l /\ separator c).
    { destruct P2 as [->|(b & c & -> & S)]; [now left|]. right. exists c, (rev b). now rewrite rev_app_distr. }
    revert E F1 F2 Q1 Q2. generalize (rev b1) (rev b2) (rev s2). clear.
    induction (rev s1) as [|c l IH]; intros b1 b2 l2 E F1 F2 Q1 Q2; simpl in E.
    - destruct l2 as [|d l2]; [reflexivity|]. simpl in E. subst b1. destruct Q1 as [Q|(x & y & Q & S)]; [discriminate|].
      inversion Q; subst. inversion F2; contradiction.
    - destruct l2 as [|d l2].
      + simpl in E. subst b2. destruct Q2 as [Q|(x & y & Q & S)]; [discriminate|].
        inversion Q; subst. inversion F1; contradiction.
      + simpl in E. inversion E; subst. inversion F1; inversion F2; subst. f_equal. eapply IH; eauto. }
  intros path s1 s2 H1 H2. destruct H1 as [path F|b1 s1 a1 N1 F1 A1 P1].
  - inversion H2; subst; [reflexivity|]. exfalso. eapply K; eauto.
  - inversion H2 as [p F E1 E2|b2 s2' a2 N2 F2 A2 P2 E1 E2]; subst.
    + exfalso. eapply K; eauto.
    + apply (f_equal (@rev ascii)) in E1. rewrite !rev_app_distr, <- !app_assoc in E1.
      symmetry in E1. apply A in E1 as [_ E1]; auto. exact (Bq s1 s2 b1 b2 F1 F2 P1 P2 E1).
Qed.
