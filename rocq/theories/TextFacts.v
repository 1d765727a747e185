From Verif Require Import Base BaseFacts GoStrings Utils SpecText.
From Coq Require Import ZifyBool.
Ltac Zify.zify_post_hook ::= Z.to_euclidean_division_equations.

(** ** Hex digits *)

Lemma hexdigit_ishex : forall c v, hexdigit c v -> IsHex c = true /\ UnHex c = v /\ 0 <= v < 16.
Proof.
  intros c v [H0 H].
  assert (R : (Z.to_nat v < 16)%nat).
  { assert (Q : nth_error (B "0123456789abcdef") (Z.to_nat v) <> None
             \/ nth_error (B "0123456789ABCDEF") (Z.to_nat v) <> None)
      by (destruct H; [left|right]; congruence).
    destruct Q as [Q|Q]; apply nth_error_Some in Q; simpl in Q; lia. }
  assert (E : v = Z.of_nat (Z.to_nat v)) by lia.
  remember (Z.to_nat v) as n eqn:En. clear En. subst v.
  do 16 (destruct n as [|n]; [simpl in H; destruct H as [H|H]; inversion H; subst; vm_compute;
    repeat split; congruence|]).
  lia.
Qed.

Definition hex_ok (c : ascii) : bool :=
  if IsHex c then
    (0 <=? UnHex c) &&
    (match nth_error (B "0123456789abcdef") (Z.to_nat (UnHex c)) with Some d => Ascii.eqb d c | None => false end
     || match nth_error (B "0123456789ABCDEF") (Z.to_nat (UnHex c)) with Some d => Ascii.eqb d c | None => false end)
  else true.
Lemma ishex_hexdigit : forall c, IsHex c = true -> hexdigit c (UnHex c).
Proof.
  intros c H.
  assert (K : hex_ok c = true) by (apply for_all_bytes; vm_compute; reflexivity).
  unfold hex_ok in K. rewrite H in K. apply andb_true_iff in K as [K1 K2].
  split; [lia|]. apply orb_true_iff in K2 as [K2|K2]; [left|right];
  destruct (nth_error _ _); try discriminate; apply Ascii.eqb_eq in K2; now subst.
Qed.

Lemma ishex_iff : forall c, IsHex c = true <-> exists v, hexdigit c v.
Proof.
  intro c; split; intro H.
  - eexists. now apply ishex_hexdigit.
  - destruct H as [v H]. now apply hexdigit_ishex in H.
Qed.

Lemma unhex_range : forall c, 0 <= UnHex c < 16.
Proof.
  intro c. assert (K : ((0 <=? UnHex c) && (UnHex c <? 16)) = true)
    by (apply (for_all_bytes (fun c => (0 <=? UnHex c) && (UnHex c <? 16))); vm_compute; reflexivity).
  lia.
Qed.

(** ** UTF-8 *)

Ltac bools :=
  repeat match goal with
  | H : (_ && _)%bool = true |- _ => apply andb_true_iff in H; destruct H
  | H : (_ || _)%bool = false |- _ => apply orb_false_iff in H; destruct H
  end.

Lemma encode_rune_utf8 : forall r, scalar_value r -> utf8 r (encode_rune r).
Proof.
  intros r H. unfold encode_rune, scalar_value in *.
  assert (E : ((r <? 0) || (1114111 <? r) || ((55296 <=? r) && (r <=? 57343))) = false) by lia.
  rewrite E. clear E.
  destruct (r <? 128) eqn:E1.
  { assert (code (byte_of r) = r) by (apply code_byte_of_small; lia).
    rewrite <- H0 at 1. constructor. lia. }
  destruct (r <? 2048) eqn:E2.
  { apply utf8_2; unfold trail; rewrite ?code_byte_of_small by lia; lia. }
  destruct (r <? 65536) eqn:E3.
  { apply utf8_3; unfold trail, scalar_value; rewrite ?code_byte_of_small by lia; lia. }
  apply utf8_4; unfold trail; rewrite ?code_byte_of_small by lia; lia.
Qed.

Lemma encode_rune_bad : forall r, ~ scalar_value r -> encode_rune r = encode_rune 65533.
Proof.
  intros r H. unfold encode_rune, scalar_value in *.
  assert (E : ((r <? 0) || (1114111 <? r) || ((55296 <=? r) && (r <=? 57343))) = true) by lia.
  rewrite E. reflexivity.
Qed.

Lemma scalar_dec : forall r, scalar_value r \/ ~ scalar_value r.
Proof. intro r. unfold scalar_value. lia. Qed.

Lemma utf8_scalar : forall r e, utf8 r e -> scalar_value r.
Proof.
  intros r e H. inversion H; subst; unfold scalar_value, trail in *; try lia.
  pose proof (code_range a). lia.
Qed.

(** The decoder inverts the specification. *)
Lemma decode_utf8 : forall r e s, utf8 r e -> decode_rune (e ++ s) = (r, length e).
Proof.
  intros r e s H. inversion H; subst; simpl app; unfold decode_rune, cont, zin, trail in *.
  - pose proof (code_range a). assert (E : (code a <? 128) = true) by lia. now rewrite E.
  - assert (E : (code a <? 128) = false) by lia. rewrite E.
    assert (E2 : ((194 <=? code a) && (code a <=? 223)) = true) by lia. rewrite E2.
    assert (E3 : ((128 <=? code b) && (code b <=? 191)) = true) by lia. rewrite E3. reflexivity.
  - unfold scalar_value in *.
    assert (E : (code a <? 128) = false) by lia. rewrite E.
    assert (E2 : ((194 <=? code a) && (code a <=? 223)) = false) by lia. rewrite E2.
    assert (E3 : ((224 <=? code a) && (code a <=? 239)) = true) by lia. rewrite E3.
    assert (E4 : (((if code a =? 224 then 160 else 128) <=? code b) &&
                  (code b <=? (if code a =? 237 then 159 else 191)) &&
                  ((128 <=? code c) && (code c <=? 191))) = true)
      by (destruct (code a =? 224) eqn:Q; destruct (code a =? 237) eqn:Q2; lia).
    rewrite E4. reflexivity.
  - assert (E : (code a <? 128) = false) by lia. rewrite E.
    assert (E2 : ((194 <=? code a) && (code a <=? 223)) = false) by lia. rewrite E2.
    assert (E3 : ((224 <=? code a) && (code a <=? 239)) = false) by lia. rewrite E3.
    assert (E5 : ((240 <=? code a) && (code a <=? 244)) = true) by lia. rewrite E5.
    assert (E4 : (((if code a =? 240 then 144 else 128) <=? code b) &&
                  (code b <=? (if code a =? 244 then 143 else 191)) &&
                  ((128 <=? code c) && (code c <=? 191)) &&
                  ((128 <=? code d) && (code d <=? 191))) = true)
      by (destruct (code a =? 240) eqn:Q; destruct (code a =? 244) eqn:Q2; lia).
    rewrite E4. reflexivity.
Qed.

Lemma utf8_len : forall r e, utf8 r e -> (1 <= length e <= 4)%nat.
Proof. intros r e H. inversion H; simpl; lia. Qed.

(** Every decoded rune is a scalar value, and the width is positive and fits. *)
Lemma decode_rune_spec : forall s, s <> [] ->
  let '(r, w) := decode_rune s in
  scalar_value r /\ (1 <= w <= length s)%nat.
Proof.
  intros s H. destruct s as [|a s]; [easy|]. clear H.
  unfold decode_rune, cont, zin, rune_error, scalar_value.
  pose proof (code_range a).
  repeat match goal with
  | |- context [match ?l with [] => _ | _ :: _ => _ end] => destruct l as [|? ?]
  | |- context [if ?b then _ else _] => let E := fresh "E" in destruct b eqn:E
  end;
  repeat match goal with
  | H : context [if ?b then _ else _] |- _ => let E := fresh "E" in destruct b eqn:E
  end; simpl length; lia.
Qed.

(** Induction principle for the rune list of a string. *)
Lemma runes_fuel_more : forall n s, (length s <= n)%nat -> runes_fuel n s = runes_fuel (length s) s.
Proof.
  intros n s. revert n.
  induction s as [s IH] using strong_length_ind. intros n H.
  destruct s as [|a s]; [now destruct n|].
  destruct n as [|n]; [simpl in H; lia|].
  pose proof (decode_rune_spec (a :: s) ltac:(easy)) as D.
  cbn [length] in *. cbn [runes_fuel].
  destruct (decode_rune (a :: s)) as [r w]. destruct D as [_ D].
  f_equal.
  assert (L : (length (skipn w (a :: s)) < S (length s))%nat)
    by (rewrite skipn_length; cbn [length]; lia).
  rewrite (IH _ L n ltac:(lia)). symmetry. apply IH; [exact L|lia].
Qed.

Lemma runes_cons : forall s, s <> [] ->
  runes s = fst (decode_rune s) :: runes (skipn (snd (decode_rune s)) s).
Proof.
  intros s H. destruct s as [|a s]; [easy|].
  pose proof (decode_rune_spec (a :: s) H) as D.
  unfold runes. cbn [length runes_fuel].
  destruct (decode_rune (a :: s)) as [r w]. cbn [fst snd].
  f_equal. destruct D as [_ D].
  apply runes_fuel_more. rewrite skipn_length. cbn [length] in *. lia.
Qed.

Lemma runes_utf8_app : forall r e s, utf8 r e -> runes (e ++ s) = r :: runes s.
Proof.
  intros r e s H. pose proof (utf8_len _ _ H).
  rewrite runes_cons by (destruct e; simpl in *; [lia|easy]).
  rewrite (decode_utf8 r e s H). cbn [fst snd].
  rewrite skipn_app, skipn_all, Nat.sub_diag. reflexivity.
Qed.

Lemma runes_text : forall rs s, utf8_text rs s -> runes s = rs.
Proof.
  induction 1; [reflexivity|].
  rewrite (runes_utf8_app r e s H). now f_equal.
Qed.

Lemma runes_scalar : forall s, Forall scalar_value (runes s).
Proof.
  induction s as [s IH] using strong_length_ind.
  destruct s as [|a s]; [constructor|].
  rewrite runes_cons by easy.
  pose proof (decode_rune_spec (a :: s) ltac:(easy)) as D.
  destruct (decode_rune (a :: s)) as [r w]. cbn [fst snd]. destruct D as [D1 D2].
  constructor; [easy|]. apply IH. rewrite skipn_length. cbn [length] in *. lia.
Qed.

(** Writing scalar values and reading them back. *)
Lemma encode_text : forall rs, Forall scalar_value rs ->
  utf8_text rs (flat_map encode_rune rs).
Proof.
  induction 1; simpl; constructor; [now apply encode_rune_utf8|easy].
Qed.

Lemma runes_encode : forall rs, Forall scalar_value rs -> runes (flat_map encode_rune rs) = rs.
Proof. intros. now apply runes_text, encode_text. Qed.

(** [utf8] is a function of the rune. *)
Lemma utf8_encode : forall r e, utf8 r e -> e = encode_rune r.
Proof.
  intros r e H.
  pose proof (encode_rune_utf8 r (utf8_scalar _ _ H)) as H2.
  assert (P : forall x y : bs, utf8 r x -> utf8 r y -> x = y).
  { intros x y Hx Hy.
    inversion Hx; inversion Hy; subst; unfold trail, scalar_value in *;
    repeat match goal with H : code ?a = code ?b |- _ => apply code_inj in H; subst end;
    try reflexivity; try lia;
    repeat (f_equal; try (apply code_inj; lia)). }
  now apply P.
Qed.

Lemma utf8_text_encode : forall rs s, utf8_text rs s -> s = flat_map encode_rune rs.
Proof.
  induction 1; simpl; [reflexivity|]. now rewrite <- (utf8_encode _ _ H), IHutf8_text.
Qed.

(** A byte below 128 only occurs in the encoding of itself. *)
Lemma utf8_low : forall r e c, utf8 r e -> In c e -> code c <= 127 -> r = code c /\ e = [c].
Proof.
  intros r e c H I L. inversion H; subst; unfold trail in *; simpl in I;
  repeat match goal with H : _ \/ _ |- _ => destruct H end; subst; try easy; lia.
Qed.

(** ** urlDecode *)

Definition uni_branch (rec : bs -> bs * Z) (uni : bool) (s1 : bs) : bs * Z :=
  match s1 with
  | u :: h0 :: h1 :: h2 :: h3 :: s6 =>
      if uni && (Ascii.eqb u "u" || Ascii.eqb u "U")
         && IsHex h0 && IsHex h1 && IsHex h2 && IsHex h3
      then let '(o, e) := rec s6 in
           (encode_rune (uni_value (UnHex h0) (UnHex h1) (UnHex h2) (UnHex h3)) ++ o, e)
      else let '(o, e) := rec s1 in ("%"%char :: o, e + 1)
  | _ => let '(o, e) := rec s1 in ("%"%char :: o, e + 1)
  end.
Lemma urldecode_pct : forall uni s1,
  urldecode uni ("%"%char :: s1) =
  match s1 with
  | a :: b :: s3 =>
      if IsHex a && IsHex b
      then let '(o, e) := urldecode uni s3 in (byte_of (UnHex a * 16 + UnHex b) :: o, e)
      else uni_branch (urldecode uni) uni s1
  | _ => uni_branch (urldecode uni) uni s1
  end.
Proof. reflexivity. Qed.

Lemma urldecode_cons_other : forall uni c s,
  c <> "%"%char -> c <> "+"%char ->
  urldecode uni (c :: s) = (c :: fst (urldecode uni s), snd (urldecode uni s)).
Proof.
  intros uni c s H1 H2. cbn [urldecode].
  apply Ascii.eqb_neq in H1, H2. rewrite H1, H2. now destruct (urldecode uni s).
Qed.

Lemma urldecode_plus : forall uni s,
  urldecode uni ("+"%char :: s) = (" "%char :: fst (urldecode uni s), snd (urldecode uni s)).
Proof. intros. cbn. now destruct (urldecode uni s). Qed.

Lemma urldecode_hex : forall uni a b s, IsHex a = true -> IsHex b = true ->
  urldecode uni ("%"%char :: a :: b :: s) =
  (byte_of (UnHex a * 16 + UnHex b) :: fst (urldecode uni s), snd (urldecode uni s)).
Proof.
  intros uni a b s Ha Hb. rewrite urldecode_pct, Ha, Hb. cbn [andb].
  now destruct (urldecode uni s).
Qed.

Lemma u_not_hex : forall u, u = "u"%char \/ u = "U"%char -> IsHex u = false.
Proof. intros u [->| ->]; reflexivity. Qed.

Lemma urldecode_uni : forall u h0 h1 h2 h3 s, u = "u"%char \/ u = "U"%char ->
  IsHex h0 = true -> IsHex h1 = true -> IsHex h2 = true -> IsHex h3 = true ->
  urldecode true ("%"%char :: u :: h0 :: h1 :: h2 :: h3 :: s) =
  (encode_rune (uni_value (UnHex h0) (UnHex h1) (UnHex h2) (UnHex h3)) ++ fst (urldecode true s),
   snd (urldecode true s)).
Proof.
  intros u h0 h1 h2 h3 s Hu A0 A1 A2 A3.
  rewrite urldecode_pct. rewrite (u_not_hex u Hu). cbn [andb]. unfold uni_branch.
  rewrite A0, A1, A2, A3.
  assert (E : (Ascii.eqb u "u" || Ascii.eqb u "U") = true) by (destruct Hu; subst; reflexivity).
  rewrite E. cbn [andb]. now destruct (urldecode true s).
Qed.

Lemma urldecode_bad : forall uni s,
  (forall a b r, s = a :: b :: r -> IsHex a && IsHex b = false) ->
  (uni = true -> forall u h0 h1 h2 h3 r, s = u :: h0 :: h1 :: h2 :: h3 :: r ->
     (Ascii.eqb u "u" || Ascii.eqb u "U") && IsHex h0 && IsHex h1 && IsHex h2 && IsHex h3 = false) ->
  urldecode uni ("%"%char :: s) =
  ("%"%char :: fst (urldecode uni s), snd (urldecode uni s) + 1).
Proof.
  intros uni s H1 H2.
  assert (Q : uni_branch (urldecode uni) uni s =
     ("%"%char :: fst (urldecode uni s), snd (urldecode uni s) + 1)).
  { unfold uni_branch.
    assert (M : (let '(o, e) := urldecode uni s in ("%"%char :: o, e + 1)) =
      ("%"%char :: fst (urldecode uni s), snd (urldecode uni s) + 1))
      by now destruct (urldecode uni s).
    destruct s as [|u [|h0 [|h1 [|h2 [|h3 s]]]]]; try exact M.
    destruct uni; cbn [andb]; [|exact M].
    rewrite (H2 eq_refl u h0 h1 h2 h3 s eq_refl). exact M. }
  rewrite urldecode_pct.
  destruct s as [|a [|b s]]; try exact Q.
  now rewrite (H1 a b s eq_refl).
Qed.

Lemma not_hex_escape : forall s, ~ hex_escape s ->
  forall a b r, s = a :: b :: r -> IsHex a && IsHex b = false.
Proof.
  intros s H a b r ->. destruct (IsHex a) eqn:Ea; [|reflexivity].
  destruct (IsHex b) eqn:Eb; [|reflexivity]. exfalso. apply H.
  exists a, b, (UnHex a), (UnHex b), r. split; [reflexivity|].
  split; now apply ishex_hexdigit.
Qed.

Lemma not_uni_escape : forall s, ~ uni_escape s ->
  forall u h0 h1 h2 h3 r, s = u :: h0 :: h1 :: h2 :: h3 :: r ->
  (Ascii.eqb u "u" || Ascii.eqb u "U") && IsHex h0 && IsHex h1 && IsHex h2 && IsHex h3 = false.
Proof.
  intros s H u h0 h1 h2 h3 r ->.
  destruct ((Ascii.eqb u "u" || Ascii.eqb u "U") && IsHex h0 && IsHex h1 && IsHex h2 && IsHex h3) eqn:E;
    [|reflexivity].
  exfalso. apply H. bools.
  exists u, h0, h1, h2, h3, (UnHex h0), (UnHex h1), (UnHex h2), (UnHex h3), r.
  repeat split; try (now apply ishex_hexdigit).
  match goal with H : (_ || _)%bool = true |- _ => apply orb_true_iff in H; destruct H as [K|K] end;
  apply Ascii.eqb_eq in K; auto.
Qed.

Lemma uni_value_folded : forall a b c d, 0 <= a < 16 -> 0 <= b < 16 -> 0 <= c < 16 -> 0 <= d < 16 ->
  uni_value a b c d = folded (4096 * a + 256 * b + 16 * c + d).
Proof.
  intros. unfold uni_value, folded.
  destruct (a * 16 + b =? 255) eqn:E; destruct (65280 <=? 4096 * a + 256 * b + 16 * c + d) eqn:E2; lia.
Qed.

Lemma utf8_or_fffd_iff : forall cp e, utf8_or_fffd cp e <-> e = encode_rune cp.
Proof.
  intros cp e. unfold utf8_or_fffd. split.
  - intros [[_ H]|[H1 H2]]; [now apply utf8_encode|].
    rewrite (encode_rune_bad cp H1). now apply utf8_encode.
  - intros ->. destruct (scalar_dec cp) as [H|H]; [left|right]; split; try easy.
    + now apply encode_rune_utf8.
    + rewrite encode_rune_bad by easy. apply encode_rune_utf8. unfold scalar_value. lia.
Qed.

Lemma decodes_sound : forall uni s o e, decodes uni s o e -> urldecode uni s = (o, e).
Proof.
  induction 1.
  - reflexivity.
  - apply hexdigit_ishex in H as (Hh & Vh & _). apply hexdigit_ishex in H0 as (Hl & Vl & _).
    rewrite urldecode_hex by easy. rewrite IHdecodes. cbn [fst snd]. f_equal. f_equal.
    apply code_inj. rewrite Vh, Vl, code_byte_of, H1. pose proof (code_range b). rewrite H1 in H.
    rewrite Z.mod_small by lia. lia.
  - subst uni. apply hexdigit_ishex in H1 as (A0 & B0 & C0), H2 as (A1 & B1 & C1),
      H3 as (A2 & B2 & C2), H4 as (A3 & B3 & C3).
    rewrite urldecode_uni by easy. rewrite IHdecodes, B0, B1, B2, B3. cbn [fst snd].
    apply utf8_or_fffd_iff in H5. rewrite H5, uni_value_folded by easy. reflexivity.
  - rewrite urldecode_bad.
    + now rewrite IHdecodes.
    + now apply not_hex_escape.
    + intro Hu. apply not_uni_escape. tauto.
  - now rewrite urldecode_plus, IHdecodes.
  - now rewrite urldecode_cons_other, IHdecodes.
Qed.

Lemma hex_escape_dec : forall s, hex_escape s \/ ~ hex_escape s.
Proof.
  intros [|a [|b s]].
  1,2: right; intros (?&?&?&?&?&E&_); discriminate.
  destruct (IsHex a) eqn:Ea; [destruct (IsHex b) eqn:Eb|].
  - left. exists a, b, (UnHex a), (UnHex b), s. split; [easy|]. split; now apply ishex_hexdigit.
  - right. intros (h&l&hi&lo&r&E&H1&H2). inversion E; subst. apply hexdigit_ishex in H2. destruct H2. congruence.
  - right. intros (h&l&hi&lo&r&E&H1&H2). inversion E; subst. apply hexdigit_ishex in H1. destruct H1. congruence.
Qed.

Lemma uni_escape_dec : forall s, uni_escape s \/ ~ uni_escape s.
Proof.
  intros s.
  destruct s as [|u [|h0 [|h1 [|h2 [|h3 s]]]]].
  1-5: right; intros (?&?&?&?&?&?&?&?&?&?&E&_); discriminate.
  destruct ((Ascii.eqb u "u" || Ascii.eqb u "U") && IsHex h0 && IsHex h1 && IsHex h2 && IsHex h3) eqn:E.
  - left. bools.
    exists u, h0, h1, h2, h3, (UnHex h0), (UnHex h1), (UnHex h2), (UnHex h3), s.
    repeat split; try (now apply ishex_hexdigit).
    match goal with H : (_ || _)%bool = true |- _ => apply orb_true_iff in H; destruct H as [K|K] end;
    apply Ascii.eqb_eq in K; auto.
  - right. intros (u'&a&b&c&d&v0&v1&v2&v3&r&Q&Hu&H0&H1&H2&H3). inversion Q; subst.
    apply hexdigit_ishex in H0 as (A0&_), H1 as (A1&_), H2 as (A2&_), H3 as (A3&_).
    rewrite A0, A1, A2, A3 in E.
    destruct Hu as [->| ->]; discriminate.
Qed.

Lemma decodes_complete : forall uni s, exists o e, decodes uni s o e.
Proof.
  intros uni s. induction s as [s IH] using strong_length_ind.
  destruct s as [|c s]; [exists [], 0; constructor|].
  destruct (ascii_dec c "%") as [->|Hp].
  - destruct (hex_escape_dec s) as [H|H].
    + destruct H as (h&l&hi&lo&r&->&H1&H2).
      destruct (IH r ltac:(simpl; lia)) as (o & e & D).
      exists (byte_of (16 * hi + lo) :: o), e. eapply dec_hex; eauto.
      apply hexdigit_ishex in H1 as (_&_&?), H2 as (_&_&?). apply code_byte_of_small. lia.
    + destruct (uni_escape_dec s) as [U|U].
      * destruct uni.
        -- destruct U as (u&h0&h1&h2&h3&v0&v1&v2&v3&r&->&Hu&A0&A1&A2&A3).
           destruct (IH r ltac:(simpl; lia)) as (o & e & D).
           eexists _, e. eapply dec_uni; eauto. now apply utf8_or_fffd_iff.
        -- destruct (IH s ltac:(simpl; lia)) as (o & e & D).
           exists ("%"%char :: o), (e + 1). apply dec_bad; auto. intros [E _]; discriminate.
      * destruct (IH s ltac:(simpl; lia)) as (o & e & D).
        exists ("%"%char :: o), (e + 1). apply dec_bad; auto. tauto.
  - destruct (IH s ltac:(simpl; lia)) as (o & e & D).
    destruct (ascii_dec c "+") as [->|Hq].
    + eexists _, _. apply dec_plus. eauto.
    + eexists _, _. apply dec_other; eauto.
Qed.

Lemma urldecode_iff : forall uni s o e, urldecode uni s = (o, e) <-> decodes uni s o e.
Proof.
  intros uni s o e; split; intro H.
  - destruct (decodes_complete uni s) as (o' & e' & D).
    pose proof (decodes_sound _ _ _ _ D) as E. rewrite H in E. inversion E; now subst.
  - now apply decodes_sound.
Qed.

Lemma pct_encodes_decodes : forall uni s e, pct_encodes s e -> decodes uni e s 0.
Proof. induction 1; [constructor|]. eapply dec_hex; eauto. Qed.

Lemma pct_encoding_exists : forall s, exists e, pct_encodes s e.
Proof.
  induction s as [|b s [e IH]]; [exists []; constructor|].
  assert (K : forall c : ascii, exists h l hi lo, hexdigit h hi /\ hexdigit l lo /\ code c = 16 * hi + lo).
  { intro c. pose proof (code_range c).
    assert (D : forall v, 0 <= v < 16 -> exists h, hexdigit h v).
    { intros v Hv. destruct (nth_error (B "0123456789abcdef") (Z.to_nat v)) as [h|] eqn:E.
      - exists h. split; [lia|auto].
      - apply nth_error_None in E. simpl in E. lia. }
    destruct (D (code c / 16) ltac:(lia)) as [h Hh].
    destruct (D (code c mod 16) ltac:(lia)) as [l Hl].
    exists h, l, (code c / 16), (code c mod 16). split; [exact Hh|]. split; [exact Hl|]. lia. }
  destruct (K b) as (h&l&hi&lo&Hh&Hl&E).
  exists ("%"%char :: h :: l :: e). exact (pe_byte b s h l hi lo e Hh Hl E IH).
Qed.

Lemma encode_rune_len : forall r, (1 <= length (encode_rune r) <= 4)%nat.
Proof.
  intro r. destruct (scalar_dec r) as [H|H].
  - eapply utf8_len. now apply encode_rune_utf8.
  - rewrite encode_rune_bad by easy. simpl. lia.
Qed.

Lemma decodes_length : forall uni s o e, decodes uni s o e -> (length o <= length s)%nat.
Proof.
  induction 1; simpl; try lia.
  rewrite app_length. apply utf8_or_fffd_iff in H5. subst w.
  match goal with |- context [encode_rune ?r] => pose proof (encode_rune_len r) end.
  simpl in *. lia.
Qed.

Lemma decodes_plain : forall uni s, ~ In "%"%char s -> ~ In "+"%char s -> decodes uni s s 0.
Proof.
  induction s as [|c s IH]; intros H1 H2; [constructor|]. simpl in *.
  apply dec_other; [intros ->; tauto|intros ->; tauto|]. apply IH; tauto.
Qed.

(** Error count: one per malformed escape, so at most the number of '%'. *)
Lemma decodes_count : forall uni s o e, decodes uni s o e ->
  0 <= e <= Z.of_nat (length (List.filter (Ascii.eqb "%") s)).
Proof.
  induction 1; cbn [List.filter Ascii.eqb Bool.eqb length] in *;
  repeat match goal with
  | |- context [if ?b then _ else _] => destruct b
  end; cbn [length]; lia.
Qed.

(** [%u] occurs in s *)
Fixpoint has_pct_u (s : bs) : bool :=
  match s with
  | [] => false
  | c :: r => (Ascii.eqb c "%" && match r with
                                  | u :: _ => Ascii.eqb u "u" || Ascii.eqb u "U"
                                  | [] => false end) || has_pct_u r
  end.

Lemma has_pct_u_tail : forall c s, has_pct_u (c :: s) = false -> has_pct_u s = false.
Proof. intros c s H. simpl in H. apply orb_false_iff in H. tauto. Qed.

Lemma decodes_agree : forall s o e, decodes true s o e ->
  has_pct_u s = false -> decodes false s o e.
Proof.
  induction 1; intro N.
  - constructor.
  - eapply dec_hex; eauto. apply IHdecodes. repeat apply has_pct_u_tail in N. exact N.
  - exfalso. simpl in N. destruct H0 as [->| ->]; discriminate.
  - apply dec_bad; auto; [intros [E _]; discriminate|]. apply IHdecodes.
    now apply has_pct_u_tail in N.
  - apply dec_plus, IHdecodes. now apply has_pct_u_tail in N.
  - apply dec_other; auto. apply IHdecodes. now apply has_pct_u_tail in N.
Qed.
