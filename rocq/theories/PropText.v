(** Property theorems C01-C12 and C67: text utilities, transformations, numeric
    operators. *)
From Verif Require Import Base BaseFacts GoStrings Utils Buffer Types Transforms Operators
  Transaction Variables Rules SpecText TextFacts TransFacts NumFacts.

(** ** C01 *)
Theorem C01_percent_round_trip : forall s e, pct_encodes s e ->
  UrlDecode e = (s, 0) /\ UrlDecodeUni e = (s, 0).
Proof.
  intros s e H. split; apply decodes_sound; now apply pct_encodes_decodes.
Qed.
(** So do the transformations t:urlDecode and t:urlDecodeUni. *)
Theorem C01_transformations_round_trip : forall O s e, pct_encodes s e ->
  apply_trans O TUrlDecode e = s /\ apply_trans O TUrlDecodeUni e = s.
Proof. intros O s e H. cbn [apply_trans]. destruct (C01_percent_round_trip s e H) as [-> ->]. split; reflexivity. Qed.
(** Every byte string has such an encoding. *)
Theorem C01_every_string_encodable : forall s, exists e, pct_encodes s e.
Proof. exact pct_encoding_exists. Qed.
Example C01_example : pct_encodes [NUL; "/"%char; "171"%char] (B "%00%2F%aB").
Proof.
  apply (pe_byte _ _ "0" "0" 0 0); try (split; [lia|vm_compute; auto]); try reflexivity.
  apply (pe_byte _ _ "2" "F" 2 15); try (split; [lia|vm_compute; auto]); try reflexivity.
  apply (pe_byte _ _ "a" "B" 10 11); try (split; [lia|vm_compute; auto]); try reflexivity.
  constructor.
Qed.
Print Assumptions C01_percent_round_trip.
Print Assumptions C01_transformations_round_trip.

(** ** C02 *)
Theorem C02_urldecode_grammar : forall s o e,
  (UrlDecode s = (o, e) <-> decodes false s o e) /\
  (UrlDecodeUni s = (o, e) <-> decodes true s o e).
Proof. intros. split; apply urldecode_iff. Qed.
(** The transformations yield exactly the decoded text. *)
Theorem C02_transformations : forall O s o,
  (apply_trans O TUrlDecode s = o <-> exists e, decodes false s o e) /\
  (apply_trans O TUrlDecodeUni s = o <-> exists e, decodes true s o e).
Proof.
  intros O s o. cbn [apply_trans]. split; split.
  - intros <-. exists (snd (UrlDecode s)). apply C02_urldecode_grammar, surjective_pairing.
  - intros (e & D). apply C02_urldecode_grammar in D. now rewrite D.
  - intros <-. exists (snd (UrlDecodeUni s)). apply (C02_urldecode_grammar s), surjective_pairing.
  - intros (e & D). apply (C02_urldecode_grammar s) in D. now rewrite D.
Qed.
Theorem C02_output_not_longer : forall s,
  (length (fst (UrlDecode s)) <= length s)%nat /\ (length (fst (UrlDecodeUni s)) <= length s)%nat.
Proof.
  intro s. split; eapply decodes_length; apply urldecode_iff; apply surjective_pairing.
Qed.
Theorem C02_plain_text_unchanged : forall s, ~ In "%"%char s -> ~ In "+"%char s ->
  UrlDecode s = (s, 0) /\ UrlDecodeUni s = (s, 0).
Proof. intros s H1 H2. split; apply decodes_sound; now apply decodes_plain. Qed.
Theorem C02_variants_agree : forall s,
  (forall a u b, s = a ++ "%"%char :: u :: b -> u <> "u"%char /\ u <> "U"%char) ->
  UrlDecode s = UrlDecodeUni s.
Proof.
  intros s H.
  assert (N : has_pct_u s = false).
  { clear -H. induction s as [|c s IH]; [reflexivity|]. simpl. apply orb_false_iff. split.
    - destruct (Ascii.eqb_spec c "%") as [->|]; [|reflexivity]. destruct s as [|u s]; [reflexivity|]. simpl.
      destruct (H [] u s eq_refl) as [N1 N2].
      apply Ascii.eqb_neq in N1, N2. now rewrite N1, N2.
    - apply IH. intros a u b ->. apply (H (c :: a) u b). reflexivity. }
  destruct (decodes_complete true s) as (o & e & D). unfold UrlDecode, UrlDecodeUni.
  rewrite (decodes_sound _ _ _ _ D). apply decodes_sound. now apply decodes_agree.
Qed.
Theorem C02_error_count_bounded : forall s,
  0 <= snd (UrlDecode s) <= Z.of_nat (length (List.filter (Ascii.eqb "%") s)) /\
  0 <= snd (UrlDecodeUni s) <= Z.of_nat (length (List.filter (Ascii.eqb "%") s)).
Proof.
  intro s. split; eapply decodes_count; apply urldecode_iff; apply surjective_pairing.
Qed.
Example C02_example : UrlDecodeUni (B "a+%u0041%uFF01%zz%4") = (B "a A!%zz%4", 2)
  /\ UrlDecode (B "a+%u0041%zz%41") = (B "a %u0041%zzA", 2).
Proof. split; reflexivity. Qed.
Print Assumptions C02_urldecode_grammar.
Print Assumptions C02_transformations.
Print Assumptions C02_variants_agree.

(** ** C03 *)
Theorem C03_lowercase_ascii : forall O s, ascii_text s ->
  Forall2 lowered s (apply_trans O TLowercase s) /\
  length (apply_trans O TLowercase s) = length s /\
  apply_trans O TLowercase (apply_trans O TLowercase s) = apply_trans O TLowercase s.
Proof.
  intros O s H. cbn [apply_trans]. split; [now apply lower_ascii_text|].
  destruct (lower_idem (uni_lower O) s H). auto.
Qed.
Theorem C03_lowercase_no_upper : forall O s,
  (forall r, 128 <= r -> ~ 65 <= uni_lower O r <= 90) ->
  Forall (fun c => ~ upper c) (apply_trans O TLowercase s).
Proof. intros O s H. now apply lower_no_upper. Qed.
Example C03_example : ascii_text (B "GeT /Index") /\ (forall r : Z, 128 <= r -> ~ 65 <= r <= 90).
Proof. split; [repeat constructor; vm_compute; discriminate|intros; lia]. Qed.
Print Assumptions C03_lowercase_ascii.
Print Assumptions C03_lowercase_no_upper.

(** ** C04 *)
Theorem C04_remove_replace_utf8 : forall O s, is_utf8 s ->
  apply_trans O TRemoveNulls s = List.filter (fun x => negb (Ascii.eqb x NUL)) s /\
  apply_trans O TRemoveWhitespace s = List.filter (fun x => negb (Ascii.eqb x SP)) s /\
  apply_trans O TReplaceNulls s = map (fun x => if Ascii.eqb x NUL then SP else x) s.
Proof.
  intros O s H. cbn [apply_trans]. repeat split.
  - apply (remove_text NUL); [vm_compute; discriminate|exact H].
  - apply (remove_text SP); [vm_compute; discriminate|exact H].
  - apply (replace_text NUL SP); [vm_compute; discriminate..|exact H].
Qed.
Theorem C04_remove_replace_any : forall O s,
  ~ In NUL (apply_trans O TRemoveNulls s) /\
  ~ In SP (apply_trans O TRemoveWhitespace s) /\
  ~ In NUL (apply_trans O TReplaceNulls s).
Proof.
  intros O s. cbn [apply_trans].
  repeat split; apply repl_removes; try reflexivity; try (vm_compute; discriminate); lia.
Qed.
Example C04_example : is_utf8 [NUL; "195"%char; "169"%char; SP; "a"%char].
Proof.
  exists [0; 233; 32; 97].
  apply (ut_cons 0 [NUL]); [apply (utf8_1 NUL); vm_compute; discriminate|].
  apply (ut_cons 233 ["195"%char; "169"%char]).
  { apply utf8_2; unfold trail; vm_compute; repeat split; discriminate. }
  apply (ut_cons 32 [SP]); [apply (utf8_1 SP); vm_compute; discriminate|].
  apply (ut_cons 97 ["a"%char]); [apply (utf8_1 "a"%char); vm_compute; discriminate|]. constructor.
Qed.
Print Assumptions C04_remove_replace_utf8.
Print Assumptions C04_remove_replace_any.

(** ** C05 *)
Theorem C05_compress_any : forall O s,
  (forall a b, apply_trans O TCompressWhitespace s <> a ++ SP :: SP :: b) /\
  apply_trans O TCompressWhitespace (apply_trans O TCompressWhitespace s)
    = apply_trans O TCompressWhitespace s.
Proof. intros O s. split; [apply compress_no_double|apply compress_idem]. Qed.
Theorem C05_compress_utf8 : forall O s o, is_utf8 s ->
  (apply_trans O TCompressWhitespace s = o <-> squeezed s o).
Proof. intros O s o H. now apply compress_text. Qed.
Theorem C05_compress_keeps_the_rest : forall O s, is_utf8 s ->
  List.filter (fun x => negb (Ascii.eqb x SP)) (apply_trans O TCompressWhitespace s)
  = List.filter (fun x => negb (Ascii.eqb x SP)) s.
Proof. intros O s H. apply squeezed_same_rest. now apply compress_text. Qed.
Example C05_example : forall O,
  apply_trans O TCompressWhitespace (B "  a   b c ") = B " a b c ".
Proof. reflexivity. Qed.
Print Assumptions C05_compress_any.
Print Assumptions C05_compress_utf8.

(** ** C06: false of the code; only U+0020 is treated. *)
Definition C06_claim : Prop := forall O s, is_utf8 s ->
  (forall c, In c [TAB; LF; VT; FF; CR; SP] -> ~ In c (apply_trans O TRemoveWhitespace s)).
Theorem C06_whitespace_refuted : forall O, exists s, is_utf8 s /\
  (exists c, In c [TAB; LF; VT; FF; CR; SP] /\ In c (apply_trans O TRemoveWhitespace s)) /\
  apply_trans O TCompressWhitespace s = s /\ s = [TAB; TAB].
Proof.
  intro O. exists [TAB; TAB]. split; [|split; [|split; reflexivity]].
  - exists [9; 9]. repeat (apply (ut_cons 9 [TAB]); [apply (utf8_1 TAB); vm_compute; discriminate|]). constructor.
  - exists TAB. split; [simpl; auto|]. vm_compute. auto.
Qed.
(** What does hold: every white-space character other than the space is kept. *)
Theorem C06_whitespace_partial : forall O s c, is_utf8 s -> In c [TAB; LF; VT; FF; CR] ->
  (In c (apply_trans O TRemoveWhitespace s) <-> In c s) /\
  (In c (apply_trans O TCompressWhitespace s) <-> In c s).
Proof.
  intros O s c U I.
  assert (N : c <> SP) by (simpl in I; intros ->; intuition discriminate).
  assert (F : forall l : bs, In c (List.filter (fun x => negb (Ascii.eqb x SP)) l) <-> In c l).
  { intro l. rewrite filter_In. apply Ascii.eqb_neq in N. rewrite N. simpl. tauto. }
  split.
  - destruct (C04_remove_replace_utf8 O s U) as (_ & E & _). now rewrite E.
  - rewrite <- (F (apply_trans _ _ _)), (C05_compress_keeps_the_rest O s U). apply F.
Qed.
Print Assumptions C06_whitespace_refuted.
Print Assumptions C06_whitespace_partial.

(** ** C07 *)
(** The values of the listed variables, fetched one after the other. *)
Inductive fetched (O : oracles) (e : engine) : list variable -> txn -> txn -> list bs -> Prop :=
| fd_nil : forall t, fetched O e [] t t []
| fd_cons : forall v vs t t1 t2 a b,
    fetch O e v t = Ret (t1, a) -> fetched O e vs t1 t2 b -> fetched O e (v :: vs) t t2 (a ++ b).

Theorem C07_transforms_left_to_right : forall O e r vs t t' out,
  fetch_all O e r vs t = Ret (t', out) <->
  exists raw, fetched O e vs t t' raw /\
    out = map (fun x => fold_left (fun v tr => apply_trans O tr v) (r_trans r) x) raw.
Proof.
  intros O e r vs. induction vs as [|v vs IH]; intros t t' out.
  - simpl. split.
    + intro H. inversion H; subst. exists []. split; [constructor|reflexivity].
    + intros (raw & F & ->). inversion F; subst. reflexivity.
  - simpl. unfold transform_variable. split.
    + intro H. apply bind_Ret in H as ([t1 a] & H1 & H). apply bind_Ret in H1 as ([t2 a2] & H1 & H2).
      inversion H2; subst. apply bind_Ret in H as ([t3 b] & H3 & H). inversion H; subst.
      apply IH in H3 as (raw & F & ->). exists (a2 ++ raw). split; [now apply fd_cons with t1|].
      rewrite map_app. f_equal. apply map_ext. intro x. now rewrite transform_fold.
    + intros (raw & F & ->). inversion F as [|v0 vs0 t0 t1 t2 a b Hv Hvs]; subst. rewrite Hv. simpl.
      assert (Q : fetch_all O e r vs t1 = Ret (t', map (fun x => fold_left (fun v tr => apply_trans O tr v) (r_trans r) x) b))
        by (apply IH; eauto).
      rewrite Q. simpl. rewrite map_app.
      rewrite (map_ext _ _ (transform_fold O (r_trans r)) a). reflexivity.
Qed.
Theorem C07_transforms_compose : forall O t1 t2 s,
  transform_string O (t1 ++ t2) s = transform_string O t2 (transform_string O t1 s).
Proof. exact transform_app. Qed.
(** The order matters. *)
Example C07_example : forall O,
  transform_string O [TUrlDecode; TLowercase] (B "%41") = B "a" /\
  transform_string O [TLowercase; TUrlDecode] (B "%41") = B "A".
Proof. split; reflexivity. Qed.
Print Assumptions C07_transforms_left_to_right.

(** ** C08: false of the code; t:none is the identity. *)
Definition C08_claim : Prop := forall O ts s, transform_string O (ts ++ [TNone]) s = s.
Theorem C08_none_resets_refuted : forall O, exists ts s, transform_string O (ts ++ [TNone]) s <> s.
Proof. intro O. exists [TLowercase], (B "A"). discriminate. Qed.
Theorem C08_none_resets_partial : forall O t1 t2 s,
  transform_string O (t1 ++ TNone :: t2) s = transform_string O (t1 ++ t2) s.
Proof. exact transform_none. Qed.
Print Assumptions C08_none_resets_refuted.
Print Assumptions C08_none_resets_partial.

(** ** C09 *)
Theorem C09_compare_exact : forall O c arg a v z,
  padded_int arg a -> padded_int v z ->
  exists o, new_compare c arg = Some o /\
    (op_match O o v = true <->
     match c with CEq => z = a | CGe => z >= a | CGt => z > a | CLe => z <= a | CLt => z < a end).
Proof. exact cmp_numeric. Qed.
Theorem C09_decimal_text_qualifies : forall z, int64 z -> padded_int (itoa z) z.
Proof. exact itoa_padded. Qed.
Example C09_example : padded_int (B " -12" ++ [TAB]) (-12).
Proof. apply padded_iff. reflexivity. Qed.
Print Assumptions C09_compare_exact.

(** ** C10 *)
Theorem C10_total_order : forall O arg lt eq gt ge le v,
  new_compare CLt arg = Some lt -> new_compare CEq arg = Some eq -> new_compare CGt arg = Some gt ->
  new_compare CGe arg = Some ge -> new_compare CLe arg = Some le ->
  ((op_match O lt v = true /\ op_match O eq v = false /\ op_match O gt v = false) \/
   (op_match O lt v = false /\ op_match O eq v = true /\ op_match O gt v = false) \/
   (op_match O lt v = false /\ op_match O eq v = false /\ op_match O gt v = true)) /\
  op_match O ge v = negb (op_match O lt v) /\ op_match O le v = negb (op_match O gt v).
Proof. exact cmp_trichotomy. Qed.
Theorem C10_non_numeric_is_zero : forall O c arg o v, new_compare c arg = Some o ->
  (~ exists z, padded_int v z) -> op_match O o v = op_match O o (B "0").
Proof. exact cmp_not_numeric. Qed.
Example C10_example : (exists o, new_compare CGe (B "5") = Some o) /\ ~ exists z, padded_int (B "12abc") z.
Proof.
  split; [eexists; reflexivity|]. intros [z H]. apply padded_iff in H. vm_compute in H. discriminate.
Qed.
Print Assumptions C10_total_order.
Print Assumptions C10_non_numeric_is_zero.

(** ** C11 *)
Theorem C11_constructor_domain : forall c arg,
  (exists o, new_compare c arg = Some o) <-> exists z, padded_int arg z.
Proof. exact cmp_constructor. Qed.
Example C11_example : new_compare CEq (B "9223372036854775808") = None /\
  new_compare CEq (B "-9223372036854775808") = Some (OpCmp CEq (-9223372036854775808)) /\ new_compare CEq (B "") = None /\
  new_compare CEq (B "+") = None.
Proof. repeat split; vm_compute; reflexivity. Qed.
Print Assumptions C11_constructor_domain.

(** ** C12: false beyond int64: the value is taken as 0. *)
Definition C12_claim : Prop := forall O arg a o v z,
  padded_int arg a -> new_compare CGt arg = Some o -> denotes v z -> z > a -> op_match O o v = true.
Theorem C12_large_decimals_refuted : forall O, exists arg a o v z,
  padded_int arg a /\ new_compare CGt arg = Some o /\ denotes v z /\ z > a /\ op_match O o v = false.
Proof.
  intro O. exists (B "10"), 10, (OpCmp CGt 10), (B "99999999999999999999"), 99999999999999999999.
  split; [apply padded_iff; reflexivity|]. split; [reflexivity|].
  split; [apply denotes_iff; reflexivity|]. split; [lia|reflexivity].
Qed.
(** Exactly what happens: inside int64 the comparison is exact (C09), outside it
    the input counts as 0. *)
Theorem C12_large_decimals_partial : forall O c arg a o v z,
  padded_int arg a -> new_compare c arg = Some o -> denotes v z ->
  (op_match O o v = true <->
   rel c (if (- 2 ^ 63 <=? z) && (z <=? 2 ^ 63 - 1) then z else 0) a).
Proof.
  intros O c arg a o v z Ha Ho D.
  destruct ((- 2 ^ 63 <=? z) && (z <=? 2 ^ 63 - 1)) eqn:E.
  - assert (I : int64 z) by (unfold int64; apply andb_true_iff in E as [E1 E2];
      apply Z.leb_le in E1, E2; auto).
    assert (P : padded_int v z) by (exists [], v, []; rewrite app_nil_r; split; [reflexivity|]; split; [constructor|]; split; [constructor|]; auto).
    destruct (cmp_numeric O c arg a v z Ha P) as (o' & E' & R). rewrite Ho in E'. now inversion E'; subst.
  - eapply cmp_out_of_range; eauto. unfold int64. intros [H1 H2].
    apply andb_false_iff in E as [E|E]; apply Z.leb_gt in E; lia.
Qed.
Print Assumptions C12_large_decimals_refuted.
Print Assumptions C12_large_decimals_partial.

(** ** C67 *)
Theorem C67_same_string_slice : forall x y, SameStringSlice x y = true <-> Permutation x y.
Proof. exact same_slice_iff. Qed.
Example C67_example : SameStringSlice [B "a"; B "b"; B "a"] [B "b"; B "a"; B "a"] = true /\
  SameStringSlice [B "a"; B "b"; B "b"] [B "b"; B "a"; B "a"] = false.
Proof. split; reflexivity. Qed.
Print Assumptions C67_same_string_slice.
