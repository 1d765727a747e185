From Verif Require Import Base BaseFacts GoStrings Utils Buffer Types Operators SpecText TextFacts.
From Coq Require Import ZifyBool DecimalZ DecimalPos.

(** ** White space *)

Definition stops (encs : list bs) (s : bs) : Prop := strip_one encs s = None.

Lemma strip_enc : forall e s, In e space_encs -> strip_one space_encs (e ++ s) = Some s.
Proof.
  intros e s I. unfold space_encs in I. simpl in I.
  repeat (destruct I as [<-|I]; [reflexivity|]). easy.
Qed.
Lemma strip_rev_enc : forall e s, In e space_encs ->
  strip_one (map (@rev ascii) space_encs) (rev e ++ s) = Some s.
Proof.
  intros e s I. unfold space_encs in I. simpl in I.
  repeat (destruct I as [<-|I]; [reflexivity|]). easy.
Qed.

Lemma space_encs_pos : forall e, In e space_encs -> (1 <= length e)%nat.
Proof.
  intros e I. unfold space_encs in I. simpl in I.
  repeat (destruct I as [<-|I]; [simpl; lia|]). easy.
Qed.

Lemma white_encs : forall w, white w <-> exists ws, w = concat ws /\ Forall (fun e => In e space_encs) ws.
Proof.
  assert (K : map encode_rune space_points = space_encs) by (vm_compute; reflexivity).
  intro w; split.
  - induction 1 as [|r e w I U H (ws & -> & F)]; [exists []; auto|].
    exists (e :: ws). split; [reflexivity|]. constructor; [|exact F].
    rewrite <- K, (utf8_encode _ _ U). now apply in_map.
  - intros (ws & -> & F). induction F as [|e ws I F IH]; simpl; [constructor|].
    rewrite <- K in I. apply in_map_iff in I as (r & <- & I).
    econstructor; eauto. apply encode_rune_utf8.
    unfold space_points in I. simpl in I. unfold scalar_value.
    repeat (destruct I as [<-|I]; [lia|]). easy.
Qed.

Lemma trim_strip : forall encs (rv : bs -> bs),
  (forall e s, In e space_encs -> strip_one encs (rv e ++ s) = Some s) ->
  (forall e, In e space_encs -> (1 <= length (rv e))%nat) ->
  forall ws s n, Forall (fun e => In e space_encs) ws -> stops encs s ->
  (length (concat (map rv ws) ++ s) <= n)%nat ->
  trim_left_fuel n encs (concat (map rv ws) ++ s) = s.
Proof.
  intros encs rv H P ws s n F. revert n.
  induction F as [|e ws I F IH]; intros n S L; simpl in *.
  - destruct n; simpl; [reflexivity|]. now rewrite S.
  - rewrite <- app_assoc in *. rewrite app_length in L. specialize (P e I).
    destruct n as [|n]; [lia|]. simpl. rewrite H by exact I. apply IH; [exact S|lia].
Qed.

Lemma concat_rev : forall ws : list bs, rev (concat ws) = concat (map (@rev ascii) (rev ws)).
Proof.
  induction ws as [|w ws IH]; simpl; [reflexivity|].
  rewrite rev_app_distr, IH, map_app, concat_app. simpl. now rewrite app_nil_r.
Qed.

Lemma trim_space_core : forall w1 core w2, white w1 -> white w2 ->
  stops space_encs (core ++ w2) ->
  stops (map (@rev ascii) space_encs) (rev core) ->
  trim_space (w1 ++ core ++ w2) = core.
Proof.
  intros w1 core w2 H1 H2 S1 S2. unfold trim_space, trim_left, trim_right.
  apply white_encs in H1 as (ws1 & -> & F1). apply white_encs in H2 as (ws2 & -> & F2).
  replace (concat ws1) with (concat (map (fun x : bs => x) ws1)) by now rewrite map_id.
  rewrite (trim_strip space_encs (fun x => x) strip_enc space_encs_pos ws1 (core ++ concat ws2)); auto.
  rewrite rev_app_distr, concat_rev.
  rewrite (trim_strip _ (@rev ascii) strip_rev_enc); auto.
  - apply rev_involutive.
  - intros e I. rewrite rev_length. now apply space_encs_pos.
  - now apply Forall_rev.
  - rewrite <- concat_rev, <- rev_app_distr, rev_length. lia.
Qed.

Lemma strip_one_enc : forall encs s s', strip_one encs s = Some s' -> exists e, In e encs /\ s = e ++ s'.
Proof.
  intros encs s s' H. unfold strip_one in H.
  destruct (find _ encs) as [e|] eqn:F; [|discriminate]. inversion H; subst.
  apply find_some in F as [I P]. exists e. split; [exact I|].
  clear -P. revert s P. induction e as [|a e IH]; intros [|b s] P; simpl in *; try easy.
  apply andb_true_iff in P as [P1 P2]. apply Ascii.eqb_eq in P1. subst. f_equal. auto.
Qed.

Lemma trim_left_decomp : forall encs n s, exists ws,
  s = concat ws ++ trim_left_fuel n encs s /\ Forall (fun e => In e encs) ws.
Proof.
  induction n as [|n IH]; intro s; simpl; [exists []; auto|].
  destruct (strip_one encs s) as [s'|] eqn:E; [|exists []; auto].
  apply strip_one_enc in E as (e & I & ->). destruct (IH s') as (ws & Q & F).
  exists (e :: ws). split; [simpl; rewrite <- app_assoc; now f_equal|now constructor].
Qed.

Lemma trim_space_decomp : forall s, exists w1 w2, s = w1 ++ trim_space s ++ w2 /\ white w1 /\ white w2.
Proof.
  intro s. unfold trim_space, trim_right, trim_left.
  destruct (trim_left_decomp space_encs (length s) s) as (ws1 & E1 & F1).
  set (t := trim_left_fuel (length s) space_encs s) in *.
  destruct (trim_left_decomp (map (@rev ascii) space_encs) (length t) (rev t)) as (ws2 & E2 & F2).
  set (u := trim_left_fuel (length t) (map (@rev ascii) space_encs) (rev t)) in *.
  exists (concat ws1), (rev (concat ws2)). split; [|split].
  - rewrite <- rev_app_distr, <- E2, rev_involutive. exact E1.
  - apply white_encs. eauto.
  - apply white_encs. exists (map (@rev ascii) (rev ws2)). split; [apply concat_rev|].
    apply Forall_forall. intros e I. apply in_map_iff in I as (x & <- & I). apply in_rev in I.
    rewrite Forall_forall in F2. apply F2 in I. apply in_map_iff in I as (y & <- & I).
    now rewrite rev_involutive.
Qed.

(** ** Decimal numerals *)

Lemma decdigit_iff : forall c d, decdigit c d <-> is_digit c = true /\ d = code c - 48.
Proof.
  intros c d. split.
  - intros [H0 H]. assert (R : (Z.to_nat d < 10)%nat).
    { assert (Q : nth_error (B "0123456789") (Z.to_nat d) <> None) by congruence.
      apply nth_error_Some in Q. simpl in Q. lia. }
    assert (E : d = Z.of_nat (Z.to_nat d)) by lia.
    remember (Z.to_nat d) as n eqn:En. clear En. subst d.
    do 10 (destruct n as [|n]; [simpl in H; inversion H; subst; vm_compute; auto|]). lia.
  - intros [H ->].
    set (f := fun c => if is_digit c then
       (0 <=? code c - 48) && match nth_error (B "0123456789") (Z.to_nat (code c - 48)) with
       | Some x => Ascii.eqb x c | None => false end else true).
    assert (K : f c = true) by (apply for_all_bytes; vm_compute; reflexivity).
    unfold f in K. rewrite H in K. apply andb_true_iff in K as [K1 K2]. split; [lia|].
    destruct (nth_error _ _); [|discriminate]. apply Ascii.eqb_eq in K2. now subst.
Qed.

Lemma digits_val_snoc : forall s acc c,
  digits_val acc (s ++ [c]) =
  match digits_val acc s with
  | Some n => if is_digit c then Some (10 * n + (code c - 48)) else None
  | None => None
  end.
Proof.
  induction s as [|x s IH]; intros acc c; simpl; [reflexivity|].
  destruct (is_digit x); [apply IH|reflexivity].
Qed.

Lemma digits_nonempty : forall s n, digits s n -> s <> [].
Proof. intros s n H. inversion H; subst; [easy|]. now destruct s0. Qed.

Lemma digits_iff : forall s n, digits s n <-> s <> [] /\ digits_val 0 s = Some n.
Proof.
  intros s n. split.
  - intro H. split; [now apply digits_nonempty in H|].
    induction H as [c d H|s n c d H IH D].
    + apply decdigit_iff in H as [H ->]. simpl. rewrite H. f_equal. 
    + rewrite digits_val_snoc, IH. apply decdigit_iff in D as [D ->]. now rewrite D.
  - intros [N H]. revert n H. induction s as [|c s IH] using rev_ind; intros n H; [easy|].
    rewrite digits_val_snoc in H. destruct (digits_val 0 s) as [m|] eqn:E; [|discriminate].
    destruct (is_digit c) eqn:D; [|discriminate]. inversion H; subst.
    destruct s as [|x s].
    + simpl in E. inversion E; subst. simpl. apply dg_one, decdigit_iff. split; [exact D|lia].
    + apply dg_snoc; [apply IH; [easy|reflexivity]|]. apply decdigit_iff. auto.
Qed.

Lemma parse_digits_iff : forall s n, parse_digits s = Some n <-> digits s n.
Proof.
  intros s n. rewrite digits_iff. destruct s; simpl; split; easy.
Qed.

Lemma digits_head : forall s n, digits s n -> exists c r, s = c :: r /\ is_digit c = true.
Proof.
  intros s n H. apply digits_iff in H as [N H]. destruct s as [|c s]; [easy|].
  exists c, s. split; [reflexivity|]. simpl in H. destruct (is_digit c); [reflexivity|discriminate].
Qed.
Lemma digits_last : forall s n, digits s n -> exists c r, s = r ++ [c] /\ is_digit c = true.
Proof.
  intros s n H. inversion H; subst.
  - exists c, []. split; [reflexivity|]. now apply decdigit_iff in H0.
  - exists c, s0. split; [reflexivity|]. now apply decdigit_iff in H1.
Qed.

(** The value [parse_int64] computes before the range check. *)
Definition int_value (s : bs) : option Z :=
  match s with
  | [] => None
  | c :: r => if Ascii.eqb c "-" then option_map Z.opp (parse_digits r)
              else if Ascii.eqb c "+" then parse_digits r else parse_digits s
  end.
Lemma parse_int64_value : forall s,
  parse_int64 s = match int_value s with Some z => if in_int64 z then Some z else None | None => None end.
Proof.
  intros [|c s]; [reflexivity|].
  unfold parse_int64, int_value.
  destruct c as [[] [] [] [] [] [] [] []]; reflexivity.
Qed.

Lemma sign_not_digit : is_digit "-" = false /\ is_digit "+" = false.
Proof. split; reflexivity. Qed.

Lemma denotes_iff : forall s z, denotes s z <-> int_value s = Some z.
Proof.
  intros s z. split.
  - intro H. inversion H; subst.
    + destruct (digits_head _ _ H0) as (c & r & -> & D). unfold int_value.
      destruct (Ascii.eqb_spec c "-"); [subst; discriminate|].
      destruct (Ascii.eqb_spec c "+"); [subst; discriminate|].
      now apply parse_digits_iff.
    + simpl. now apply parse_digits_iff.
    + simpl. apply parse_digits_iff in H0. now rewrite H0.
  - unfold int_value. destruct s as [|c r]; [easy|].
    destruct (Ascii.eqb_spec c "-") as [->|].
    + intro H. destruct (parse_digits r) as [n|] eqn:E; [|discriminate]. inversion H; subst.
      apply den_minus. now apply parse_digits_iff.
    + destruct (Ascii.eqb_spec c "+") as [->|]; intro H; [apply den_plus|apply den_plain]; now apply parse_digits_iff.
Qed.

Lemma in_int64_iff : forall z, in_int64 z = true <-> int64 z.
Proof. intro z. unfold in_int64, int64, min_int64, max_int64. lia. Qed.

Lemma parse_int64_iff : forall s z, parse_int64 s = Some z <-> denotes s z /\ int64 z.
Proof.
  intros s z. rewrite parse_int64_value, denotes_iff, <- in_int64_iff.
  destruct (int_value s) as [x|]; [|split; [easy|intros [? ?]; easy]].
  destruct (in_int64 x) eqn:E; split.
  - intro H; inversion H; subst. auto.
  - intros [H _]. exact H.
  - easy.
  - intros [H1 H2]. inversion H1; subst. congruence.
Qed.

Lemma denotes_stops : forall s z w, denotes s z ->
  stops space_encs (s ++ w) /\ stops (map (@rev ascii) space_encs) (rev s).
Proof.
  intros s z w H.
  assert (D : forall c r, is_digit c = true -> stops space_encs (c :: r) /\
                         stops (map (@rev ascii) space_encs) (c :: r)).
  { intros c r Hc.
    assert (K : In c (B "0123456789")).
    { assert (P : decdigit c (code c - 48)) by now apply decdigit_iff.
      destruct P as [_ P]. now apply nth_error_In in P. }
    simpl in K. repeat (destruct K as [<-|K]; [split; reflexivity|]). easy. }
  assert (S : forall n t, digits t n -> stops (map (@rev ascii) space_encs) (rev t)).
  { intros n t Ht. destruct (digits_last _ _ Ht) as (c & r & -> & Hc). rewrite rev_app_distr.
    exact (proj2 (D c _ Hc)). }
  assert (R : forall n t x, digits t n -> stops (map (@rev ascii) space_encs) (rev (x :: t))).
  { intros n t x Ht. destruct (digits_last _ _ Ht) as (c & r & -> & Hc).
    change (x :: r ++ [c]) with ((x :: r) ++ [c]). rewrite rev_app_distr.
    exact (proj2 (D c _ Hc)). }
  inversion H; subst.
  - split; [|eauto]. destruct (digits_head _ _ H0) as (c & r & -> & Hc). exact (proj1 (D c (r ++ w) Hc)).
  - split; [reflexivity|eauto].
  - split; [reflexivity|eauto].
Qed.

Lemma padded_iff : forall s z, padded_int s z <-> parse_int64 (trim_space s) = Some z.
Proof.
  intros s z. split.
  - intros (w1 & core & w2 & -> & W1 & W2 & D & I).
    destruct (denotes_stops core z w2 D) as [S1 S2].
    rewrite trim_space_core by assumption. now apply parse_int64_iff.
  - intro H. apply parse_int64_iff in H as [D I].
    destruct (trim_space_decomp s) as (w1 & w2 & E & W1 & W2).
    exists w1, (trim_space s), w2. auto.
Qed.

(** ** The decimal text of an integer *)
Fixpoint uint_val (acc : Z) (d : Decimal.uint) : Z :=
  match d with
  | Decimal.Nil => acc
  | Decimal.D0 d => uint_val (10 * acc) d
  | Decimal.D1 d => uint_val (10 * acc + 1) d
  | Decimal.D2 d => uint_val (10 * acc + 2) d
  | Decimal.D3 d => uint_val (10 * acc + 3) d
  | Decimal.D4 d => uint_val (10 * acc + 4) d
  | Decimal.D5 d => uint_val (10 * acc + 5) d
  | Decimal.D6 d => uint_val (10 * acc + 6) d
  | Decimal.D7 d => uint_val (10 * acc + 7) d
  | Decimal.D8 d => uint_val (10 * acc + 8) d
  | Decimal.D9 d => uint_val (10 * acc + 9) d
  end.
Lemma uint_digits : forall d acc, digits_val acc (uint_bs d) = Some (uint_val acc d).
Proof.
  induction d; intro acc; simpl; try reflexivity; rewrite IHd; f_equal;
  f_equal; lia.
Qed.
Lemma pos_of_uint_acc : forall d acc, Z.pos (Pos.of_uint_acc d acc) = uint_val (Z.pos acc) d.
Proof.
  induction d; intro acc; simpl uint_val; cbn [Pos.of_uint_acc]; try reflexivity; rewrite IHd; f_equal; lia.
Qed.
Lemma of_uint_val : forall d, Z.of_uint d = uint_val 0 d.
Proof.
  unfold Z.of_uint. induction d; cbn [Pos.of_uint Z.of_N]; try reflexivity;
  try (rewrite pos_of_uint_acc; reflexivity).
  rewrite IHd. reflexivity.
Qed.
Lemma uint_bs_nonempty : forall d, d <> Decimal.Nil -> uint_bs d <> [].
Proof. destruct d; simpl; congruence. Qed.

Lemma itoa_denotes : forall z, denotes (itoa z) z.
Proof.
  intro z. unfold itoa. pose proof (DecimalZ.of_to z) as E.
  assert (D : forall d, d <> Decimal.Nil -> digits (uint_bs d) (Z.of_uint d)).
  { intros d Hd. apply digits_iff. split; [now apply uint_bs_nonempty|].
    rewrite uint_digits, of_uint_val. reflexivity. }
  destruct z as [|p|p]; simpl Z.to_int in *; cbn [Z.of_int] in E.
  - apply den_plain. apply (D (Decimal.D0 Decimal.Nil)). discriminate.
  - rewrite <- E. apply den_plain, D, Unsigned.to_uint_nonnil.
  - rewrite <- E. apply den_minus, D, Unsigned.to_uint_nonnil.
Qed.

Lemma itoa_padded : forall z, int64 z -> padded_int (itoa z) z.
Proof.
  intros z H. exists [], (itoa z), []. simpl. rewrite app_nil_r.
  split; [reflexivity|]. split; [constructor|]. split; [constructor|]. split; [apply itoa_denotes|exact H].
Qed.

(** ** Comparison operators *)
Definition rel (c : cmpop) (v a : Z) : Prop :=
  match c with CEq => v = a | CGe => v >= a | CGt => v > a | CLe => v <= a | CLt => v < a end.

Lemma cmp_rel : forall c v a, cmp_fn c v a = true <-> rel c v a.
Proof. intros [] v a; simpl; lia. Qed.
Lemma cmp_in_int64 : forall c s a, padded_int s a -> new_compare c s = Some (OpCmp c a).
Proof. intros c s a H. apply padded_iff in H. unfold new_compare. now rewrite H. Qed.

Lemma new_compare_some : forall c s o, new_compare c s = Some o ->
  exists a, padded_int s a /\ o = OpCmp c a.
Proof.
  intros c s o H. unfold new_compare in H.
  destruct (parse_int64 (trim_space s)) as [a|] eqn:E; [|discriminate].
  inversion H; subst. exists a. split; [now apply padded_iff|reflexivity].
Qed.

Lemma cmp_numeric : forall O c s a v z,
  padded_int s a -> padded_int v z ->
  exists o, new_compare c s = Some o /\ (op_match O o v = true <-> rel c z a).
Proof.
  intros O c s a v z Ha Hv. exists (OpCmp c a). split; [now apply cmp_in_int64|].
  simpl. apply padded_iff in Hv. rewrite Hv. apply cmp_rel.
Qed.

Lemma cmp_not_numeric : forall O c arg o v, new_compare c arg = Some o ->
  (~ exists z, padded_int v z) -> op_match O o v = op_match O o (B "0").
Proof.
  intros O c arg o v H N. apply new_compare_some in H as (a & _ & ->). simpl.
  destruct (parse_int64 (trim_space v)) as [z|] eqn:E; [|reflexivity].
  exfalso. apply N. exists z. now apply padded_iff.
Qed.

Lemma cmp_trichotomy : forall O arg lt eq gt ge le v,
  new_compare CLt arg = Some lt -> new_compare CEq arg = Some eq -> new_compare CGt arg = Some gt ->
  new_compare CGe arg = Some ge -> new_compare CLe arg = Some le ->
  ((op_match O lt v = true /\ op_match O eq v = false /\ op_match O gt v = false) \/
   (op_match O lt v = false /\ op_match O eq v = true /\ op_match O gt v = false) \/
   (op_match O lt v = false /\ op_match O eq v = false /\ op_match O gt v = true)) /\
  op_match O ge v = negb (op_match O lt v) /\ op_match O le v = negb (op_match O gt v).
Proof.
  intros O arg lt eq gt ge le v H1 H2 H3 H4 H5.
  unfold new_compare in *. destruct (parse_int64 (trim_space arg)) as [a|]; [|discriminate].
  inversion H1; inversion H2; inversion H3; inversion H4; inversion H5; subst. simpl.
  destruct (parse_int64 (trim_space v)) as [z|]; lia.
Qed.

Lemma cmp_constructor : forall c arg,
  (exists o, new_compare c arg = Some o) <-> exists z, padded_int arg z.
Proof.
  intros c arg. split.
  - intros [o H]. apply new_compare_some in H as (a & H & _). eauto.
  - intros [z H]. exists (OpCmp c z). now apply cmp_in_int64.
Qed.

Lemma denotes_unique : forall s a b, denotes s a -> denotes s b -> a = b.
Proof. intros s a b H1 H2. apply denotes_iff in H1, H2. congruence. Qed.

Lemma trim_denotes : forall s z, denotes s z -> trim_space s = s.
Proof.
  intros s z H. destruct (denotes_stops s z [] H) as [S1 S2].
  pose proof (trim_space_core [] s [] white_nil white_nil S1 S2) as E.
  simpl in E. now rewrite app_nil_r in E.
Qed.

Lemma cmp_out_of_range : forall O c arg a o v z,
  padded_int arg a -> new_compare c arg = Some o -> denotes v z -> ~ int64 z ->
  (op_match O o v = true <-> rel c 0 a).
Proof.
  intros O c arg a o v z Ha Ho D N.
  rewrite (cmp_in_int64 _ _ _ Ha) in Ho. inversion Ho; subst. simpl.
  assert (E : parse_int64 (trim_space v) = None).
  { rewrite (trim_denotes _ _ D). destruct (parse_int64 v) as [x|] eqn:E; [|reflexivity].
    apply parse_int64_iff in E as [D2 I]. rewrite (denotes_unique _ _ _ D D2) in N. contradiction. }
  rewrite E. apply cmp_rel.
Qed.

(** ** SameStringSlice *)
Definition dget (k : bs) (d : list (bs * Z)) : Z := match assoc k d with Some n => n | None => 0 end.
Definition dok (d : list (bs * Z)) : Prop := NoDup (map fst d) /\ Forall (fun e => 0 < snd e) d.
Definition cnt (k : bs) (l : list bs) : Z := Z.of_nat (count_occ bs_eq_dec l k).

Lemma incr_keys : forall x d y, In y (map fst (diff_incr x d)) <-> y = x \/ In y (map fst d).
Proof.
  induction d as [|[k n] d IH]; simpl; intro y; [intuition congruence|].
  destruct (bs_eqb_spec x k) as [->|]; simpl; [intuition congruence|]. rewrite IH. intuition congruence.
Qed.
Lemma incr_ok : forall x d, dok d -> dok (diff_incr x d).
Proof.
  unfold dok. induction d as [|[k n] d IH]; simpl; intros [N F].
  - split; [repeat constructor; easy|]. repeat constructor. 
  - inversion N; subst. inversion F; subst. simpl in *.
    destruct (bs_eqb_spec x k) as [->|]; simpl.
    + split; [now constructor|]. constructor; [simpl; lia|easy].
    + destruct (IH (conj H2 H4)) as [N' F']. split; [|now constructor].
      constructor; [|exact N']. rewrite incr_keys. intros [E|E]; [congruence|contradiction].
Qed.
Lemma incr_get : forall x d k, dget k (diff_incr x d) = dget k d + (if bs_eqb k x then 1 else 0).
Proof.
  unfold dget. induction d as [|[k' n] d IH]; simpl; intro k.
  - destruct (bs_eqb k x); reflexivity.
  - destruct (bs_eqb_spec x k') as [->|N]; simpl.
    + destruct (bs_eqb k k'); lia.
    + destruct (bs_eqb_spec k k') as [->|]; [|apply IH].
      destruct (bs_eqb_spec k' x); [congruence|lia].
Qed.

Lemma decr_none : forall y d, diff_decr y d = None <-> ~ In y (map fst d).
Proof.
  induction d as [|[k n] d IH]; simpl; [easy|].
  destruct (bs_eqb_spec y k) as [->|N]; [split; [easy|tauto]|].
  destruct (diff_decr y d) as [d'|] eqn:E; simpl.
  - split; [easy|]. intro H. assert (Some d' = None) by (apply IH; tauto). discriminate.
  - split; [|easy]. intros _ [H|H]; [congruence|]. now apply (proj1 IH eq_refl).
Qed.

Lemma decr_some : forall y d d', dok d -> diff_decr y d = Some d' ->
  dok d' /\ (forall k, dget k d' = dget k d - (if bs_eqb k y then 1 else 0)) /\
  (forall k, In k (map fst d') -> In k (map fst d)).
Proof.
  unfold dok. induction d as [|[k n] d IH]; simpl; intros d' [N F] H; [discriminate|].
  inversion N; inversion F; subst. simpl in *.
  destruct (bs_eqb_spec y k) as [->|Ny].
  - destruct (n - 1 =? 0) eqn:E; inversion H; subst.
    + split; [easy|]. split; [|tauto]. intro x. unfold dget. simpl.
      destruct (bs_eqb_spec x k) as [->|]; [|lia].
      assert (A : assoc k d' = None) by (apply assoc_none; exact H2). rewrite A. lia.
    + split; [split; [now constructor|]|].
      * constructor; [simpl; lia|easy].
      * split; [|simpl; tauto]. intro x. unfold dget. simpl. destruct (bs_eqb x k); lia.
  - destruct (diff_decr y d) as [d1|] eqn:E; [|discriminate]. inversion H; subst.
    destruct (IH d1 (conj H3 H7) eq_refl) as ([N1 F1] & G & K).
    split; [split; [|now constructor]|].
    + simpl. constructor; [|exact N1]. intro I. apply K in I. contradiction.
    + split.
      * intro x. unfold dget in *. simpl. destruct (bs_eqb_spec x k) as [->|]; [|apply G].
        destruct (bs_eqb_spec k y); [congruence|lia].
      * simpl. intros x [I|I]; auto.
Qed.

Lemma dget_pos_in : forall d k, dok d -> (In k (map fst d) <-> 0 < dget k d).
Proof.
  intros d k [N F]. unfold dget. destruct (assoc k d) as [n|] eqn:E.
  - pose proof (assoc_in _ _ _ _ E) as I. rewrite Forall_forall in F. pose proof (F _ I) as P. simpl in P.
    split; [easy|]. intros _. now apply (in_map fst) in I.
  - apply assoc_none in E. split; [easy|lia].
Qed.

Lemma dok_empty : forall d, dok d -> (forall k, dget k d = 0) -> d = [].
Proof.
  intros [|[k n] d] H E; [reflexivity|]. specialize (E k).
  pose proof (dget_pos_in _ k H) as P. simpl in P. rewrite E in P. exfalso. apply Z.lt_irrefl with 0. tauto.
Qed.

Lemma cnt_cons : forall k x l, cnt k (x :: l) = cnt k l + (if bs_eqb k x then 1 else 0).
Proof.
  intros k x l. unfold cnt. simpl. destruct (bs_eq_dec x k) as [->|N].
  - rewrite bs_eqb_refl. lia.
  - destruct (bs_eqb_spec k x); [congruence|lia].
Qed.

Lemma fold_incr : forall x d, dok d ->
  dok (fold_left (fun d v => diff_incr v d) x d) /\
  forall k, dget k (fold_left (fun d v => diff_incr v d) x d) = dget k d + cnt k x.
Proof.
  induction x as [|v x IH]; intros d H; simpl.
  - split; [exact H|]. intro k. unfold cnt. simpl. lia.
  - destruct (IH _ (incr_ok v d H)) as [K G]. split; [exact K|].
    intro k. rewrite G, incr_get, cnt_cons. lia.
Qed.

Lemma diff_all_spec : forall y d, dok d ->
  ((exists d', diff_all y d = Some d' /\ dok d' /\ forall k, dget k d' = dget k d - cnt k y)
   /\ forall k, cnt k y <= dget k d)
  \/ (diff_all y d = None /\ exists k, dget k d < cnt k y).
Proof.
  induction y as [|v y IH]; intros d H; simpl.
  - left. split.
    + exists d. split; [reflexivity|]. split; [exact H|]. intro k. unfold cnt; simpl; lia.
    + intro k. unfold cnt, dget. simpl. destruct (assoc k d) as [n|] eqn:E; [|lia].
      apply assoc_in in E. destruct H as [_ F]. rewrite Forall_forall in F. apply F in E. simpl in E. lia.
  - destruct (diff_decr v d) as [d1|] eqn:E.
    + destruct (decr_some _ _ _ H E) as (H1 & G & _).
      destruct (IH d1 H1) as [[(d' & A & K & Q) L]|[A (k & Q)]]; [left|right].
      * split.
        -- exists d'. split; [exact A|]. split; [exact K|]. intro k. rewrite Q, G, cnt_cons. lia.
        -- intro k. specialize (L k). rewrite G in L. rewrite cnt_cons. lia.
      * split; [exact A|]. exists k. rewrite G in Q. rewrite cnt_cons. lia.
    + right. split; [reflexivity|]. exists v. apply decr_none in E.
      rewrite (dget_pos_in d v H) in E. rewrite cnt_cons, bs_eqb_refl. unfold cnt. lia.
Qed.

Lemma same_slice_iff : forall x y, SameStringSlice x y = true <-> Permutation x y.
Proof.
  intros x y. unfold SameStringSlice.
  assert (D0 : dok []) by (split; constructor).
  destruct (fold_incr x [] D0) as [K G]. set (d := fold_left _ x []) in *.
  assert (Gx : forall k, dget k d = cnt k x) by (intro k; rewrite G; unfold dget; simpl; lia).
  rewrite (Permutation_count_occ bs_eq_dec). unfold cnt in Gx.
  destruct (Nat.eqb_spec (length x) (length y)) as [L|L]; simpl.
  - destruct (diff_all_spec y d K) as [[(d' & A & K' & Q) Le]|[A (k & Q)]]; rewrite A.
    + split.
      * intros E k. apply Nat.eqb_eq in E. destruct d'; [|discriminate].
        specialize (Q k). rewrite Gx in Q. unfold dget, cnt in Q. simpl in Q. lia.
      * intro E. rewrite (dok_empty d' K'); [reflexivity|].
        intro k. rewrite Q, Gx. unfold cnt. rewrite E. lia.
    + split; [easy|]. intro E. exfalso. rewrite Gx in Q. unfold cnt in Q. rewrite E in Q. lia.
  - split; [easy|]. intro E. exfalso. apply L.
    apply Permutation_length. now apply (Permutation_count_occ bs_eq_dec).
Qed.

(** ** Exactly the decimal text *)
Lemma digits_uint : forall s n, digits s n -> exists d, s = uint_bs d /\ d <> Decimal.Nil /\ Z.of_uint d = n.
Proof.
  intros s n H. apply digits_iff in H as [N V].
  assert (G : forall s acc n, digits_val acc s = Some n -> exists d, s = uint_bs d /\ uint_val acc d = n).
  { clear. intro s. induction s as [|c s IH]; intros acc n H; cbn [digits_val] in H.
    - exists Decimal.Nil. injection H as <-. auto.
    - destruct (is_digit c) eqn:D; [|discriminate]. destruct (IH _ _ H) as (d & -> & V).
      remember (code c - 48) as k eqn:K.
      destruct c as [[] [] [] [] [] [] [] []]; try discriminate D; vm_compute in K; subst k;
      first [exists (Decimal.D0 d); split; [reflexivity|cbn [uint_val]; rewrite <- V; f_equal; lia]
        |exists (Decimal.D1 d); split; [reflexivity|cbn [uint_val]; rewrite <- V; f_equal; lia]
        |exists (Decimal.D2 d); split; [reflexivity|cbn [uint_val]; rewrite <- V; f_equal; lia]
        |exists (Decimal.D3 d); split; [reflexivity|cbn [uint_val]; rewrite <- V; f_equal; lia]
        |exists (Decimal.D4 d); split; [reflexivity|cbn [uint_val]; rewrite <- V; f_equal; lia]
        |exists (Decimal.D5 d); split; [reflexivity|cbn [uint_val]; rewrite <- V; f_equal; lia]
        |exists (Decimal.D6 d); split; [reflexivity|cbn [uint_val]; rewrite <- V; f_equal; lia]
        |exists (Decimal.D7 d); split; [reflexivity|cbn [uint_val]; rewrite <- V; f_equal; lia]
        |exists (Decimal.D8 d); split; [reflexivity|cbn [uint_val]; rewrite <- V; f_equal; lia]
        |exists (Decimal.D9 d); split; [reflexivity|cbn [uint_val]; rewrite <- V; f_equal; lia]]. }
  destruct (G _ _ _ V) as (d & -> & E). exists d. split; [reflexivity|]. split; [intros ->; now apply N|]. now rewrite of_uint_val.
Qed.
Lemma uint_bs_inj : forall a b, uint_bs a = uint_bs b -> a = b.
Proof. induction a; intros []; simpl; intro H; try discriminate; try reflexivity; f_equal; apply IHa; congruence. Qed.
Lemma unorm_digits : forall d, d <> Decimal.Nil -> (forall r, uint_bs d = "0"%char :: r -> r = []) -> Decimal.unorm d = d.
Proof.
  intros d N Z0. destruct d; try reflexivity; [easy|]. specialize (Z0 (uint_bs d) eq_refl). destruct d; try discriminate. reflexivity.
Qed.
Lemma nzhead_digits : forall d, (forall r, uint_bs d <> "0"%char :: r) -> Decimal.nzhead d = d.
Proof. intros d Z0. destruct d; try reflexivity. now elim (Z0 (uint_bs d)). Qed.
Lemma nzhead_no_zero : forall d r, uint_bs (Decimal.nzhead d) <> "0"%char :: r.
Proof. induction d; intro r; simpl; try discriminate. apply IHd. Qed.
Lemma itoa_decimal : forall z, decimal (itoa z) z.
Proof.
  intro z. split; [apply itoa_denotes|].
  assert (N : forall p r, uint_bs (Pos.to_uint p) <> "0"%char :: r).
  { intros p r.
    pose proof (DecimalZ.to_of (Decimal.Pos (Pos.to_uint p))) as T. simpl in T.
    assert (E : Z.of_uint (Pos.to_uint p) = Z.pos p) by (pose proof (DecimalZ.of_to (Z.pos p)) as Q; exact Q).
    cbn [Z.of_int] in T. rewrite E in T. simpl in T. injection T as T. unfold Decimal.unorm in T.
    destruct (Decimal.nzhead (Pos.to_uint p)) eqn:Q.
    1:{ exfalso. pose proof E as E2. rewrite T in E2. discriminate. }
    all: rewrite T, <- Q; apply nzhead_no_zero. }
  destruct z as [|p|p]; unfold itoa; simpl Z.to_int; cbn iota.
  - repeat split; try discriminate. intros r H. now injection H.
  - repeat split.
    + intros r H. destruct (Pos.to_uint p); discriminate.
    + intros r H. now apply N in H.
    + intros r H. destruct (Pos.to_uint p); discriminate.
  - repeat split; try discriminate. intros r H. injection H as H. now apply N in H.
Qed.
Lemma decimal_itoa : forall s z, decimal s z <-> s = itoa z.
Proof.
  intros s z. split; [|intros ->; apply itoa_decimal].
  intros (D & P & Z0 & M). unfold itoa. destruct D as [s n D|s n D|s n D].
  - apply digits_uint in D as (d & -> & N & <-). change (Z.of_uint d) with (Z.of_int (Decimal.Pos d)). rewrite DecimalZ.to_of.
    cbn [Decimal.norm]. now rewrite unorm_digits.
  - now elim (P s).
  - apply digits_uint in D as (d & -> & N & <-). change (- Z.of_uint d) with (Z.of_int (Decimal.Neg d)). rewrite DecimalZ.to_of.
    cbn [Decimal.norm]. rewrite nzhead_digits.
    + destruct d; [easy| |reflexivity..]. now elim (M (uint_bs d)).
    + intros r H. apply (M r). now rewrite H.
Qed.
