From Verif Require Import Base BaseFacts GoStrings Utils Buffer Types Transforms SpecText TextFacts.
From Coq Require Import ZifyBool.
Ltac Zify.zify_post_hook ::= Z.to_euclidean_division_equations.

(** ** strings.Map with a mapping that keeps scalar values *)

(** Runes written by a stateful mapping. *)
Fixpoint mapped {S : Type} (f : S -> Z -> S * Z) (st : S) (rs : list Z) : list Z :=
  match rs with
  | [] => []
  | r :: rs' => let '(st', r') := f st r in
                (if r' <? 0 then [] else [r']) ++ mapped f st' rs'
  end.
Lemma map_runes_mapped : forall S (f : S -> Z -> S * Z) rs st,
  map_runes f st rs = flat_map encode_rune (mapped f st rs).
Proof.
  induction rs as [|r rs IH]; intro st; simpl; [reflexivity|].
  destruct (f st r) as [st' r']. rewrite IH.
  destruct (r' <? 0); simpl; [reflexivity|reflexivity].
Qed.

(** Bytes below 128 in an encoded list. *)
Lemma low_in_encoded : forall rs c, Forall scalar_value rs -> code c <= 127 ->
  In c (flat_map encode_rune rs) -> In (code c) rs.
Proof.
  induction 1 as [|r rs Hr Hrs IH]; simpl; [easy|]. intros L I.
  apply in_app_or in I as [I|I]; [left|right; auto].
  pose proof (encode_rune_utf8 r Hr) as U. now apply (utf8_low r _ c U I L).
Qed.

(** ** lowercase *)

Lemma encode_ascii : forall c, code c <= 127 -> encode_rune (code c) = [c].
Proof.
  intros c H. symmetry. apply utf8_encode. now constructor.
Qed.

Lemma ascii_runes : forall s, ascii_text s -> runes s = map code s.
Proof.
  induction 1 as [|c s H Hs IH]; [reflexivity|].
  change (c :: s) with ([c] ++ s). rewrite (runes_utf8_app (code c) [c]) by now constructor.
  simpl. now f_equal.
Qed.

Lemma lower_ascii_text : forall ul s, ascii_text s -> Forall2 lowered s (to_lower ul s).
Proof.
  intros ul s H. unfold to_lower, strings_map. rewrite (ascii_runes s H).
  induction H as [|c s H Hs IH]; simpl; [constructor|].
  pose proof (code_range c) as R.
  unfold lower_rune, zin. assert (E : (code c <? 128) = true) by lia. rewrite E.
  destruct ((65 <=? code c) && (code c <=? 90)) eqn:U.
  - assert (N : (code c + 32 <? 0) = false) by lia. rewrite N.
    assert (Q : code (byte_of (code c + 32)) = code c + 32) by (apply code_byte_of_small; lia).
    rewrite <- Q, encode_ascii by (rewrite Q; lia).
    constructor; [|exact IH]. left. unfold upper. lia.
  - assert (N : (code c <? 0) = false) by lia. rewrite N, encode_ascii by easy.
    constructor; [|exact IH]. right. unfold upper. split; [lia|reflexivity].
Qed.

Lemma lowered_fun : forall s o1 o2, Forall2 lowered s o1 -> Forall2 lowered s o2 -> o1 = o2.
Proof.
  intros s o1 o2 H. revert o2. induction H; intros o2 K; inversion K; subst; [reflexivity|].
  f_equal; [|auto]. destruct H as [[? ?]|[? ?]]; destruct H3 as [[? ?]|[? ?]]; try easy.
  - apply code_inj. congruence.
  - congruence.
Qed.

Lemma lowered_again : forall s o, ascii_text s -> Forall2 lowered s o ->
  ascii_text o /\ Forall2 lowered o o /\ length o = length s.
Proof.
  intros s o A H. induction H as [|a b s o Hab H IH]; [repeat constructor|].
  inversion A; subst. destruct (IH ltac:(easy)) as (I1 & I2 & I3).
  unfold lowered, upper in *.
  repeat split; simpl; [constructor| constructor |now f_equal]; try assumption.
  - destruct Hab as [[? ?]|[? ?]]; subst; lia.
  - right. split; [|reflexivity]. destruct Hab as [[? ?]|[? ?]]; subst; lia.
Qed.

Lemma lower_idem : forall ul s, ascii_text s ->
  to_lower ul (to_lower ul s) = to_lower ul s /\ length (to_lower ul s) = length s.
Proof.
  intros ul s A. pose proof (lower_ascii_text ul s A) as H.
  destruct (lowered_again s _ A H) as (A' & H' & L). split; [|exact L].
  pose proof (lower_ascii_text ul _ A') as H2. now apply (lowered_fun _ _ _ H2 H').
Qed.

Lemma mapped_from_const : forall (f : Z -> Z) rs x,
  In x (mapped (fun (_ : unit) r => (tt, f r)) tt rs) -> exists r, In r rs /\ x = f r /\ 0 <= x.
Proof.
  induction rs as [|r rs IH]; simpl; intros x I; [easy|].
  apply in_app_or in I as [I|I].
  - destruct (f r <? 0) eqn:E; simpl in I; [easy|]. destruct I as [I|[]]. exists r. subst. repeat split; auto. lia.
  - destruct (IH x I) as (r' & ? & ?). exists r'. auto.
Qed.

(** A byte below 128 of the encoding of any integer is that integer. *)
Lemma encode_rune_low : forall r c, In c (encode_rune r) -> code c <= 127 -> r = code c.
Proof.
  intros r c I L. destruct (scalar_dec r) as [H|H].
  - now apply (utf8_low r _ c (encode_rune_utf8 r H) I L).
  - rewrite (encode_rune_bad r H) in I.
    simpl in I. repeat (destruct I as [<-|I]; [exfalso; apply L; reflexivity|]). destruct I.
Qed.

Lemma low_in_encoded_any : forall rs c, code c <= 127 ->
  In c (flat_map encode_rune rs) -> In (code c) rs.
Proof.
  intros rs c L I. apply in_flat_map in I as (r & Hr & I).
  apply encode_rune_low in I; [|exact L]. now subst.
Qed.

Lemma lower_no_upper : forall ul s,
  (forall r, 128 <= r -> ~ 65 <= ul r <= 90) ->
  Forall (fun c => ~ upper c) (to_lower ul s).
Proof.
  intros ul s H. apply Forall_forall. intros c I U. unfold upper in U.
  unfold to_lower, strings_map in I. rewrite map_runes_mapped in I.
  apply low_in_encoded_any in I; [|lia].
  apply (mapped_from_const (lower_rune ul)) in I as (r & _ & E & _).
  unfold lower_rune, zin in E.
  destruct (r <? 128) eqn:Q.
  - destruct ((65 <=? r) && (r <=? 90)) eqn:Q2; lia.
  - apply (H r); lia.
Qed.

(** ** replaceRune *)

Definition repl (from to : Z) (r : Z) : Z := if r =? from then to else r.
Lemma replace_rune_const : forall from to rs,
  mapped (replace_rune from to) tt rs = mapped (fun (_ : unit) r => (tt, repl from to r)) tt rs.
Proof.
  induction rs as [|r rs IH]; [reflexivity|]. cbn [mapped].
  replace (replace_rune from to tt r) with (tt, repl from to r)
    by (unfold replace_rune, repl; now destruct (r =? from)).
  now rewrite IH.
Qed.

Lemma repl_removes : forall from to s c, code c <= 127 -> code c = from -> to <> from ->
  ~ In c (strings_map (replace_rune from to) tt s).
Proof.
  intros from to s c L E N I. unfold strings_map in I.
  rewrite map_runes_mapped, replace_rune_const in I.
  apply low_in_encoded_any in I; [|exact L].
  apply (mapped_from_const (repl from to)) in I as (r & _ & Q & _).
  unfold repl in Q. destruct (r =? from) eqn:K; lia.
Qed.

Lemma filter_keep : forall (c : ascii) e, ~ In c e ->
  List.filter (fun x => negb (Ascii.eqb x c)) e = e.
Proof.
  induction e as [|x e IH]; simpl; intro H; [reflexivity|].
  destruct (Ascii.eqb_spec x c); [exfalso; tauto|]. simpl. f_equal. tauto.
Qed.

Lemma remove_text : forall c s, code c <= 127 -> is_utf8 s ->
  strings_map (replace_rune (code c) (-1)) tt s = List.filter (fun x => negb (Ascii.eqb x c)) s.
Proof.
  intros c s L [rs H]. unfold strings_map. rewrite (runes_text _ _ H).
  induction H as [|r e rs s U H IH]; simpl; [reflexivity|].
  pose proof (utf8_scalar _ _ U) as V. rewrite List.filter_app.
  unfold replace_rune at 1. destruct (r =? code c) eqn:E.
  - simpl. rewrite IH.
    assert (r = code c) by lia. subst r.
    rewrite (utf8_encode _ _ U), (encode_ascii c L). simpl. rewrite Ascii.eqb_refl. reflexivity.
  - unfold scalar_value in V. assert (N : (r <? 0) = false) by lia. rewrite N, IH.
    rewrite <- (utf8_encode _ _ U).
    rewrite (filter_keep c e); [reflexivity|].
    intro I. destruct (utf8_low _ _ c U I L). lia.
Qed.

Lemma map_keep : forall (c d : ascii) e, ~ In c e ->
  map (fun x => if Ascii.eqb x c then d else x) e = e.
Proof.
  induction e as [|x e IH]; simpl; intro H; [reflexivity|].
  destruct (Ascii.eqb_spec x c); [exfalso; tauto|]. f_equal. tauto.
Qed.

Lemma replace_text : forall c d s, code c <= 127 -> code d <= 127 -> is_utf8 s ->
  strings_map (replace_rune (code c) (code d)) tt s = map (fun x => if Ascii.eqb x c then d else x) s.
Proof.
  intros c d s L M [rs H]. unfold strings_map. rewrite (runes_text _ _ H).
  pose proof (code_range d) as Rd.
  induction H as [|r e rs s U H IH]; simpl; [reflexivity|].
  pose proof (utf8_scalar _ _ U) as V. rewrite map_app.
  unfold replace_rune at 1. destruct (r =? code c) eqn:E.
  - assert (N : (code d <? 0) = false) by lia. rewrite N, IH.
    assert (r = code c) by lia. subst r.
    rewrite (utf8_encode _ _ U), (encode_ascii c L), (encode_ascii d M). simpl. rewrite Ascii.eqb_refl. reflexivity.
  - unfold scalar_value in V. assert (N : (r <? 0) = false) by lia. rewrite N, IH.
    rewrite <- (utf8_encode _ _ U).
    rewrite (map_keep c d e); [reflexivity|].
    intro I. destruct (utf8_low _ _ c U I L). lia.
Qed.

(** ** compressWhitespace *)

Fixpoint sqz (p : bool) (s : bs) : bs :=
  match s with
  | [] => []
  | c :: s' => if Ascii.eqb c " " then (if p then sqz true s' else " "%char :: sqz true s')
               else c :: sqz false s'
  end.

Lemma sqz_app : forall e s p, e <> [] -> ~ In " "%char e -> sqz p (e ++ s) = e ++ sqz false s.
Proof.
  induction e as [|c e IH]; intros s p N H; [easy|]. simpl in *.
  destruct (Ascii.eqb_spec c " "); [exfalso; tauto|]. f_equal.
  destruct e as [|d e]; [reflexivity|]. apply IH; [easy|tauto].
Qed.

Lemma compress_sqz : forall rs s p, utf8_text rs s -> map_runes compress_step p rs = sqz p s.
Proof.
  intros rs s p H. revert p. induction H as [|r e rs s U H IH]; intro p; [reflexivity|].
  cbn [map_runes]. unfold compress_step at 1.
  pose proof (utf8_scalar _ _ U) as V.
  destruct (r =? 32) eqn:E.
  - assert (r = code " "%char) by (change (code " "%char) with 32; lia). subst r.
    rewrite (utf8_encode _ _ U), (encode_ascii " "%char) by (vm_compute; easy).
    destruct p; simpl; now rewrite IH.
  - unfold scalar_value in V. assert (N : (r <? 0) = false) by lia. rewrite N, IH, <- (utf8_encode _ _ U).
    symmetry. apply sqz_app.
    + pose proof (utf8_len _ _ U). destruct e; [simpl in *; lia|easy].
    + intro I. destruct (utf8_low _ _ " "%char U I ltac:(vm_compute; easy)) as [Q _].
      change (code " "%char) with 32 in Q. lia.
Qed.

Lemma sqz_true_lead : forall s, no_lead s -> sqz true s = sqz false s.
Proof.
  intros [|c s] H; [reflexivity|]. simpl.
  destruct (Ascii.eqb_spec c " "); [subst; now elim (H s)|reflexivity].
Qed.

Lemma sqz_true_run : forall n s, sqz true (repeat " "%char n ++ s) = sqz true s.
Proof. induction n; intro s; simpl; auto. Qed.

Lemma squeezed_sqz : forall s o, squeezed s o -> sqz false s = o.
Proof.
  induction 1; simpl.
  - reflexivity.
  - destruct (Ascii.eqb_spec c " "); [easy|]. now f_equal.
  - f_equal. rewrite sqz_true_run, sqz_true_lead; auto.
Qed.

Lemma run_split : forall s, exists n s', s = repeat " "%char n ++ s' /\ no_lead s'.
Proof.
  induction s as [|c s (n & s' & E & N)].
  - exists O, []. split; [reflexivity|]. intros r Q; discriminate.
  - destruct (ascii_dec c " ") as [->|H].
    + exists (S n), s'. split; [simpl; now f_equal|easy].
    + exists O, (c :: s). split; [reflexivity|]. intros r Q. inversion Q. contradiction.
Qed.

Lemma sqz_squeezed : forall s, squeezed s (sqz false s).
Proof.
  induction s as [s IH] using strong_length_ind.
  destruct s as [|c s]; [constructor|].
  destruct (ascii_dec c " ") as [->|H].
  - destruct (run_split s) as (n & s' & -> & N).
    change (" "%char :: repeat " "%char n ++ s') with (repeat " "%char (S n) ++ s').
    assert (E : sqz false (repeat " "%char (S n) ++ s') = " "%char :: sqz false s').
    { simpl. f_equal. now rewrite sqz_true_run, sqz_true_lead. }
    rewrite E. apply sq_run; [exact N|]. apply IH. simpl. rewrite app_length. lia.
  - simpl. destruct (Ascii.eqb_spec c " "); [contradiction|]. apply sq_other; [exact H|].
    apply IH. simpl. lia.
Qed.

Lemma compress_text : forall s o, is_utf8 s ->
  (strings_map compress_step false s = o <-> squeezed s o).
Proof.
  intros s o [rs H]. unfold strings_map. rewrite (runes_text _ _ H), (compress_sqz _ _ _ H).
  split; [intros <-; apply sqz_squeezed|apply squeezed_sqz].
Qed.

(** Output of every input, also invalid UTF-8: its runes are squeezed. *)
Definition no_double (s : bs) : Prop := forall a b, s <> a ++ " "%char :: " "%char :: b.

Lemma sqz_lead : forall s r, sqz true s <> " "%char :: r.
Proof.
  induction s as [|c s IH]; intros r; simpl; [easy|].
  destruct (Ascii.eqb_spec c " "); [apply IH|]. congruence.
Qed.

Lemma sqz_no_double : forall s p, no_double (sqz p s).
Proof.
  induction s as [|c s IH]; intros p a b; simpl.
  - destruct a; discriminate.
  - destruct (Ascii.eqb_spec c " ").
    + destruct p; [apply IH|]. intro E. destruct a as [|x a]; inversion E.
      * eapply sqz_lead; eauto.
      * eapply IH; eauto.
    + intro E. destruct a as [|x a]; inversion E; [congruence|]. eapply IH; eauto.
Qed.

Lemma compress_as_text : forall s, exists s', is_utf8 s' /\
  forall p, map_runes compress_step p (runes s) = sqz p s'.
Proof.
  intro s. exists (flat_map encode_rune (runes s)). pose proof (encode_text _ (runes_scalar s)) as U.
  split; [eexists; eauto|]. intro p. now apply compress_sqz.
Qed.

Lemma mapped_scalar : forall rs p, Forall scalar_value rs ->
  Forall scalar_value (mapped compress_step p rs).
Proof.
  induction rs as [|r rs IH]; intros p H; simpl; [constructor|].
  inversion H; subst. unfold compress_step at 1.
  destruct (r =? 32).
  - destruct p; simpl; [auto|]. destruct (r <? 0); simpl; auto.
  - destruct (r <? 0); simpl; auto.
Qed.

Lemma sqz_id : forall s, no_double s -> sqz false s = s.
Proof.
  induction s as [|c s IH]; intro N; [reflexivity|]. simpl.
  assert (Ns : no_double s) by (intros a b E; apply (N (c :: a) b); simpl; now f_equal).
  destruct (Ascii.eqb_spec c " ") as [->|H].
  - f_equal. rewrite sqz_true_lead; [auto|]. intros r E. subst. apply (N [] r). reflexivity.
  - f_equal. auto.
Qed.

Lemma compress_no_double : forall s, no_double (strings_map compress_step false s).
Proof.
  intro s. unfold strings_map. destruct (compress_as_text s) as (s' & _ & E).
  rewrite E. apply sqz_no_double.
Qed.

Lemma compress_idem : forall s,
  strings_map compress_step false (strings_map compress_step false s) = strings_map compress_step false s.
Proof.
  intro s. unfold strings_map at 1.
  assert (U : is_utf8 (strings_map compress_step false s)).
  { unfold strings_map. rewrite map_runes_mapped. eexists. apply encode_text, mapped_scalar, runes_scalar. }
  destruct U as [rs U]. rewrite (runes_text _ _ U), (compress_sqz _ _ _ U).
  apply sqz_id, compress_no_double.
Qed.

Lemma squeezed_same_rest : forall s o, squeezed s o ->
  List.filter (fun x => negb (Ascii.eqb x " ")) o = List.filter (fun x => negb (Ascii.eqb x " ")) s.
Proof.
  induction 1; simpl; [reflexivity| |].
  - destruct (negb (Ascii.eqb c " ")); congruence.
  - rewrite IHsqueezed, List.filter_app.
    assert (E : List.filter (fun x => negb (Ascii.eqb x " ")) (repeat " "%char n) = [])
      by (induction n; simpl; auto).
    now rewrite E.
Qed.

(** ** Transformation lists *)
Lemma transform_app : forall O t1 t2 s,
  transform_string O (t1 ++ t2) s = transform_string O t2 (transform_string O t1 s).
Proof. induction t1; simpl; auto. Qed.

Lemma transform_fold : forall O ts s,
  transform_string O ts s = fold_left (fun v t => apply_trans O t v) ts s.
Proof. induction ts; simpl; auto. Qed.

Lemma transform_none : forall O t1 t2 s,
  transform_string O (t1 ++ TNone :: t2) s = transform_string O (t1 ++ t2) s.
Proof. intros. rewrite !transform_app. reflexivity. Qed.
