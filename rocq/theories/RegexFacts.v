(** The reading and the matching of patterns, as SpecRegex.v says it. *)
From Verif Require Import Base BaseFacts GoStrings Utils Types Transforms SpecText NumFacts TextFacts Regex SpecRegex.
From Coq Require Import ZifyBool.

(** ** The matcher finds just what the expression stands for *)
Lemma in_ranges_iff : forall l c, in_ranges l c = true <-> exists lo hi, In (lo, hi) l /\ lo <= c <= hi.
Proof.
  intros l c. unfold in_ranges. rewrite existsb_exists. split.
  - intros ([lo hi] & I & H). exists lo, hi. split; [exact I|]. unfold zin in H. cbn [fst snd] in H. lia.
  - intros (lo & hi & I & H). exists (lo, hi). split; [exact I|]. unfold zin. cbn [fst snd]. lia.
Qed.
Lemma eqb_iff : forall a b, Bool.eqb a b = true <-> (b = true <-> a = true).
Proof. intros [] []; cbn; split; intros; try tauto; try discriminate; destruct H as [H1 H2]; auto. Qed.
Lemma star_step : forall r b w a, fits (RStar r) b w a -> w = [] \/ exists w1 w2, w1 <> [] /\ w = w1 ++ w2 /\ fits r b w1 (w2 ++ a) /\ fits (RStar r) (b ++ w1) w2 a.
Proof.
  intros r b w a H. remember (RStar r) as q eqn:Q. revert r Q. induction H; intros r0 Q; try discriminate Q.
  - now left.
  - injection Q as <-. destruct w1 as [|c w1].
    + cbn [app] in *. rewrite app_nil_r in *. now apply IHfits2.
    + right. exists (c :: w1), w2. now repeat split.
Qed.
Lemma letters_iff : forall z, in_ranges letters z = true <-> word_char z.
Proof. intro z. unfold in_ranges, letters, zin, word_char. cbn [existsb fst snd]. lia. Qed.
Lemma edge_iff : forall b rest, edge_at (b ++ rest) (length b) = true <-> word_edge b rest.
Proof.
  intros b rest. unfold edge_at. assert (A : word_at (b ++ rest) (length b) = true <-> word_after rest).
  { unfold word_at. rewrite nth_error_app2, Nat.sub_diag by lia. destruct rest as [|z r]; cbn [nth_error].
    - split; [discriminate|]. intros (z & r & E & _). discriminate E.
    - rewrite letters_iff. split; [intro W; now exists z, r|]. intros (z' & r' & E & W). injection E as -> _. exact W. }
  assert (C : (match length b with O => false | S j => word_at (b ++ rest) j end) = true <-> word_before b).
  { destruct b as [|z b] using rev_ind; [split; [discriminate|intros (b' & z & E & _); destruct b'; discriminate E]|]. rewrite app_length, Nat.add_1_r. unfold word_at.
    rewrite <- app_assoc, nth_error_app2, Nat.sub_diag by lia. cbn [app nth_error]. rewrite letters_iff. split; [intro W; now exists b, z|].
    intros (b' & z' & E & W). apply app_inj_tail in E as (_ & ->). exact W. }
  unfold word_edge. destruct (word_at (b ++ rest) (length b)), (match length b with O => false | S j => word_at (b ++ rest) j end); cbn [xorb]; intuition discriminate.
Qed.
Lemma wp_iff : forall r s P b rest, s = b ++ rest ->
  (wp r s P (length b) = true <-> exists w a, rest = w ++ a /\ fits r b w a /\ P (length b + length w)%nat = true).
Proof.
  induction r as [inside l| |r1 IH1 r2 IH2|r1 IH1 r2 IH2|r IH| | |yes]; intros s P b rest ->; cbn [wp].
  - rewrite nth_error_app2, Nat.sub_diag by lia. destruct rest as [|c rest]; cbn [nth_error].
    + split; [discriminate|]. intros (w & a & E & F & _). inversion F; subst. destruct a; discriminate E.
    + rewrite andb_true_iff, eqb_iff, in_ranges_iff. split.
      * intros (I & H). exists [c], rest. split; [reflexivity|]. split; [now constructor|]. cbn [length]. now rewrite Nat.add_1_r.
      * intros (w & a & E & F & H). inversion F as [? ? ? c' ? I| | | | | | | | |]; subst. injection E as -> ->. split; [exact I|]. cbn [length] in H. now rewrite Nat.add_1_r in H.
  - split.
    + intro H. exists [], rest. split; [reflexivity|]. split; [constructor|]. now rewrite Nat.add_0_r.
    + intros (w & a & E & F & H). inversion F; subst. cbn [length] in H. now rewrite Nat.add_0_r in H.
  - rewrite (IH1 _ _ b rest eq_refl). split.
    + intros (w1 & a1 & -> & F1 & H). rewrite <- app_length in H. apply (IH2 _ P (b ++ w1) a1) in H as (w2 & a & -> & F2 & H); [|now rewrite <- app_assoc].
      exists (w1 ++ w2), a. split; [now rewrite <- app_assoc|]. split; [now constructor|]. rewrite app_length in *. now rewrite Nat.add_assoc.
    + intros (w & a & -> & F & H). inversion F as [| |? ? ? w1 w2 ? F1 F2| | | | | | |]; subst. exists w1, (w2 ++ a). split; [now rewrite <- app_assoc|]. split; [exact F1|].
      rewrite <- app_length. apply (IH2 _ P (b ++ w1) (w2 ++ a)); [now rewrite <- !app_assoc|]. exists w2, a. split; [reflexivity|]. split; [exact F2|].
      rewrite app_length in *. now rewrite Nat.add_assoc in H.
  - rewrite orb_true_iff, (IH1 _ _ b rest eq_refl), (IH2 _ _ b rest eq_refl). split.
    + intros [(w & a & E & F & H)|(w & a & E & F & H)]; exists w, a; (split; [exact E|]); (split; [|exact H]); [now apply fi_left|now apply fi_right].
    + intros (w & a & E & F & H). inversion F; subst; [left|right]; exists w, a; now repeat split.
  - assert (FW : forall n b rest, star_loop (wp r (b ++ rest)) P n (length b) = true -> exists w a, rest = w ++ a /\ fits (RStar r) b w a /\ P (length b + length w)%nat = true).
    { induction n as [|n IN]; intros b0 rest0 H; cbn [star_loop] in H; apply orb_true_iff in H as [H|H]; try discriminate H;
        try (exists [], rest0; split; [reflexivity|]; split; [constructor|now rewrite Nat.add_0_r]).
      apply (IH _ _ b0 rest0 eq_refl) in H as (w1 & a1 & -> & F1 & H). rewrite <- app_length, app_assoc in H. apply IN in H as (w2 & a & -> & F2 & H).
      exists (w1 ++ w2), a. split; [now rewrite <- app_assoc|]. split; [now constructor|]. rewrite app_length in *. now rewrite Nat.add_assoc. }
    assert (BW : forall n b w a, (length w <= n)%nat -> fits (RStar r) b w a -> P (length b + length w)%nat = true -> star_loop (wp r (b ++ w ++ a)) P n (length b) = true).
    { induction n as [|n IN]; intros b0 w a L F H; cbn [star_loop].
      - destruct w; [|cbn [length] in L; lia]. cbn [length] in H. rewrite Nat.add_0_r in H. now rewrite H.
      - apply star_step in F as [->|(w1 & w2 & NE & -> & F1 & F2)]; [cbn [length] in H; rewrite Nat.add_0_r in H; now rewrite H|].
        apply orb_true_iff. right. apply (IH _ _ b0 ((w1 ++ w2) ++ a) eq_refl). exists w1, (w2 ++ a). split; [now rewrite <- app_assoc|]. split; [exact F1|].
        rewrite <- app_length. rewrite <- app_assoc, (app_assoc b0 w1). apply IN; [|exact F2|].
        + rewrite app_length in L. destruct w1; [easy|]. cbn [length] in L. lia.
        + rewrite app_length in *. now rewrite Nat.add_assoc in H. }
    split; [apply FW|]. intros (w & a & -> & F & H). apply BW; [|exact F|exact H]. rewrite !app_length. lia.
  - rewrite andb_true_iff. split.
    + intros (E & H). destruct b; [|discriminate E]. exists [], rest. split; [reflexivity|]. split; [constructor|exact H].
    + intros (w & a & E & F & H). inversion F; subst. now split.
  - rewrite andb_true_iff. split.
    + intros (E & H). rewrite app_length in E. destruct rest; [|cbn [length] in E; lia]. exists [], []. split; [reflexivity|]. split; [constructor|]. now rewrite Nat.add_0_r.
    + intros (w & a & E & F & H). inversion F; subst. cbn [app length] in *. rewrite Nat.add_0_r in H. rewrite app_nil_r. split; [apply Nat.eqb_refl|exact H].
  - rewrite andb_true_iff, eqb_iff, edge_iff. split.
    + intros (E & H). exists [], rest. split; [reflexivity|]. split; [now constructor|]. now rewrite Nat.add_0_r.
    + intros (w & a & E & F & H). inversion F; subst. cbn [app length] in *. rewrite Nat.add_0_r in H. now split.
Qed.
Lemma search_iff : forall r s, search r s = true <-> occurs r s.
Proof.
  intros r s. unfold search. rewrite existsb_exists. split.
  - intros (i & I & H). apply in_seq in I. assert (L : length (firstn i s) = i) by (rewrite firstn_length; lia). rewrite <- L in H.
    apply (wp_iff r s _ (firstn i s) (skipn i s)) in H as (w & a & E & F & _); [|now rewrite firstn_skipn]. exists (firstn i s), w, a. split; [|exact F]. rewrite <- E. now rewrite firstn_skipn.
  - intros (b & w & a & -> & F). exists (length b). split; [apply in_seq; rewrite !app_length; lia|]. apply (wp_iff r _ _ b (w ++ a) eq_refl). exists w, a. now repeat split.
Qed.


(** ** Reading the text of a pattern *)
Definition same (M N : meaning) : Prop := forall b w a, M b w a <-> N b w a.
Definition low_ranges (l : list (Z * Z)) : Prop := Forall (fun r => 0 <= fst r /\ snd r < 128) l.
Lemma in_ranges_app : forall l1 l2 z, in_ranges (l1 ++ l2) z = in_ranges l1 z || in_ranges l2 z.
Proof. intros. apply existsb_app. Qed.
Lemma fold_range_iff : forall lo hi z, 0 <= lo -> hi < 128 ->
  (in_ranges (fold_range (lo, hi)) z = true <-> lo <= z <= hi \/ exists x, lo <= x <= hi /\ same_fold x z).
Proof.
  intros lo hi z L H. unfold fold_range, same_fold. cbn [app]. change (in_ranges ((lo, hi) :: ?r) z) with (zin lo hi z || in_ranges r z). unfold in_ranges. cbn [existsb fst snd].
  rewrite existsb_app. split.
  - intro E. destruct (zin lo hi z) eqn:E1; [left; unfold zin in E1; lia|]. cbn [orb] in E. right.
    destruct (zin (Z.max lo 65 + 32) (Z.min hi 90 + 32) z) eqn:E2; [exists (z - 32); unfold zin in E2; lia|]. cbn [orb] in E.
    destruct (zin (Z.max lo 97 - 32) (Z.min hi 122 - 32) z) eqn:E3; [exists (z + 32); unfold zin in E3; lia|]. cbn [orb] in E. apply orb_true_iff in E as [E|E].
    + destruct (zin lo hi 75) eqn:K1; [|destruct (zin lo hi 107) eqn:K2]; cbn [orb existsb fst snd] in E; try discriminate E; unfold zin in *; [exists 75|exists 107]; lia.
    + destruct (zin lo hi 83) eqn:K1; [|destruct (zin lo hi 115) eqn:K2]; cbn [orb existsb fst snd] in E; try discriminate E; unfold zin in *; [exists 83|exists 115]; lia.
  - intros [E|(x & X & F)]; [unfold zin; lia|]. rewrite !orb_true_iff. destruct F as [F|[F|[(F & ->)|(F & ->)]]].
    + right; right; left. unfold zin. lia.
    + right; left. unfold zin. lia.
    + right; right; right; left. assert (K : zin lo hi 75 || zin lo hi 107 = true) by (unfold zin; lia). rewrite K. reflexivity.
    + right; right; right; right. assert (K : zin lo hi 83 || zin lo hi 115 = true) by (unfold zin; lia). rewrite K. reflexivity.
Qed.
Lemma folded_ranges_iff : forall fold l P z, low_ranges l -> (forall z, in_ranges l z = true <-> P z) ->
  (in_ranges (folded_ranges fold l) z = true <-> whatever_case fold P z).
Proof.
  intros fold l P z L H. unfold whatever_case. destruct fold; cbn [folded_ranges]; [|rewrite H; intuition discriminate].
  transitivity (exists x, in_ranges l x = true /\ (x = z \/ same_fold x z)).
  - clear H. induction L as [|[lo hi] l (A & B) L IH]; cbn [flat_map].
    + split; [discriminate|]. intros (x & X & _). discriminate X.
    + rewrite in_ranges_app, orb_true_iff, (fold_range_iff lo hi z A B), IH. cbn [fst snd] in *. split.
      * intros [[E|(x & X & F)]|(x & X & F)]; [exists z|exists x|exists x]; (split; [match goal with |- in_ranges _ ?y = true => change (zin lo hi y || in_ranges l y = true) end; apply orb_true_iff; first [right; exact X|left; unfold zin; lia]|tauto]).
      * intros (x & X & F). change (zin lo hi x || in_ranges l x = true) in X. apply orb_true_iff in X as [X|X].
        -- left. assert (lo <= x <= hi) by (unfold zin in X; lia). destruct F as [<-|F]; [now left|right; now exists x].
        -- right. now exists x.
  - split.
    + intros (x & X & [<-|F]); [left; now apply H|right; split; [reflexivity|]; exists x; split; [now apply H|exact F]].
    + intros [Q|(_ & x & X & F)]; [exists z|exists x]; (split; [now apply H|tauto]).
Qed.
Lemma char_case_iff : forall (fold : bool) c z, code c < 128 ->
  (in_ranges (if fold then folded c else [(code c, code c)]) z = true <-> whatever_case fold (fun x => x = code c) z).
Proof.
  intros fold c z L. unfold whatever_case. destruct fold; [|unfold in_ranges, zin; cbn [existsb fst snd]; intuition (try discriminate; try lia)].
  assert (Q : (exists x, x = code c /\ same_fold x z) <-> same_fold (code c) z) by (split; [intros (x & -> & F); exact F|intro F; now exists (code c)]).
  rewrite Q. clear Q. pose proof (code_range c) as R.
  assert (K : (Ascii.eqb c "k" = true <-> code c = 107) /\ (Ascii.eqb c "K" = true <-> code c = 75) /\ (Ascii.eqb c "s" = true <-> code c = 115) /\ (Ascii.eqb c "S" = true <-> code c = 83)).
  { repeat split; intro E; try (apply Ascii.eqb_eq in E; subst c; reflexivity); apply Ascii.eqb_eq; now apply code_inj. }
  destruct K as (K1 & K2 & K3 & K4). unfold folded, in_range, same_fold. change (code "a") with 97. change (code "z") with 122. change (code "A") with 65. change (code "Z") with 90.
  destruct ((97 <=? code c) && (code c <=? 122)) eqn:E1; [|destruct ((65 <=? code c) && (code c <=? 90)) eqn:E2].
  - destruct (Ascii.eqb c "k") eqn:C1; [|destruct (Ascii.eqb c "s") eqn:C2]; unfold in_ranges, zin; cbn [existsb fst snd]; clear -E1 K1 K3 L; lia.
  - destruct (Ascii.eqb c "K") eqn:C1; [|destruct (Ascii.eqb c "S") eqn:C2]; unfold in_ranges, zin; cbn [existsb fst snd]; clear -E2 K2 K4 L; lia.
  - unfold in_ranges, zin; cbn [existsb fst snd]. lia.
Qed.
(** Classes and escapes. *)
Lemma perl_iff : forall c P, class_letter c P -> exists l, perl_class c = Some (true, l) /\ low_ranges l /\ l <> [] /\ forall z, in_ranges l z = true <-> P z.
Proof.
  intros c P H. destruct H; eexists; (split; [reflexivity|]); (split; [repeat constructor; cbn; lia|]); (split; [discriminate|]); intro z; [| |apply letters_iff];
    unfold in_ranges, digits, spaces, zin; cbn [existsb fst snd]; lia.
Qed.
Lemma escaped_iff : forall c d, escaped c = Some d <-> stands_for c d.
Proof.
  intros c d. unfold escaped. split.
  - repeat match goal with |- context [Ascii.eqb c ?x] => destruct (Ascii.eqb_spec c x) as [->|_]; [intro E; injection E as <-; constructor|] end.
    match goal with |- context [if ?x then _ else _] => destruct x eqn:E; [|discriminate] end. intro Q. injection Q as <-.
    apply sf_other; unfold in_range, is_digit, in_range, alphanumeric in *; change (code "a") with 97 in *; change (code "z") with 122 in *; change (code "A") with 65 in *; change (code "Z") with 90 in *; change (code "0") with 48 in *; change (code "9") with 57 in *; lia.
  - intro H. destruct H as [| | | | |c L N]; try reflexivity.
    assert (X : forall x, alphanumeric x -> Ascii.eqb c x = false) by (intros x A; apply Ascii.eqb_neq; now intros ->).
    rewrite !X by (unfold alphanumeric; cbn; lia).
    assert (E : (code c <? 128) && negb (in_range "a" "z" c || in_range "A" "Z" c || is_digit c) = true); [|now rewrite E].
    unfold in_range, is_digit, in_range, alphanumeric in *; change (code "a") with 97 in *; change (code "z") with 122 in *; change (code "A") with 65 in *; change (code "Z") with 90 in *; change (code "0") with 48 in *; change (code "9") with 57 in *; lia.
Qed.
Lemma stands_not_letter : forall c d, stands_for c d -> perl_class c = None /\ place_re c = None /\ code d < 128.
Proof.
  intros c d H. destruct H as [| | | | |c L N]; try (repeat split; reflexivity).
  assert (X : forall x, alphanumeric x -> Ascii.eqb c x = false) by (intros x A; apply Ascii.eqb_neq; now intros ->).
  unfold perl_class, place_re. rewrite !X by (unfold alphanumeric; cbn; lia). now repeat split.
Qed.
(** Brackets. *)
Lemma bracket_char_read : forall x c rest, bracket_char x c -> class_char (x ++ rest) = Some (c, rest) /\ class_perl (x ++ rest) = None /\ has_prefix (B "]") (x ++ rest) = false /\ (1 <= length x)%nat /\ code c < 128.
Proof.
  intros x c rest H. destruct H as [c L N|c d S].
  - assert (X : forall y, In y ["["; "]"; "\"]%char -> Ascii.eqb c y = false) by (intros y I; apply Ascii.eqb_neq; now intros ->).
    assert (E : Ascii.eqb c "\" = false) by (apply X; cbn; tauto). assert (E1 : Ascii.eqb c "]" = false) by (apply X; cbn; tauto). assert (E2 : Ascii.eqb c "[" = false) by (apply X; cbn; tauto).
    cbn [app class_char class_perl]. rewrite E. split; [|split; [now destruct rest|split; [cbn [has_prefix B list_ascii_of_string]; now rewrite Ascii.eqb_sym, E1|split; [cbn; lia|exact L]]]].
    assert (S : class_single c = true) by (unfold class_single; cbn [existsb B list_ascii_of_string]; rewrite E, E1, E2; cbn; lia). now rewrite S.
  - destruct (stands_not_letter _ _ S) as (P & _ & L). apply escaped_iff in S. cbn [app class_char class_perl]. cbn [Ascii.eqb Bool.eqb]. rewrite S, P. repeat split; try reflexivity; [cbn; lia|exact L].
Qed.
Lemma range_goes_char : forall y d rest, bracket_char y d -> range_goes ("-"%char :: y ++ rest) = true.
Proof.
  intros y d rest H. destruct H as [c L N|c d S]; [|reflexivity]. cbn [app range_goes]. destruct (Ascii.eqb_spec c "]") as [->|_]; [elim N; cbn; tauto|reflexivity].
Qed.
Lemma bracket_read : forall s P, bracket s P -> exists l, low_ranges l /\ (s <> [] -> l <> []) /\ (forall z, in_ranges l z = true <-> P z) /\
  forall n rest, (length s < n)%nat -> class_items n (s ++ "]"%char :: rest) = Some (l, rest).
Proof.
  intros s P H. induction H as [|c P s Q C H IH|x c s Q X H IH NM|x c y d s Q X Y LE H IH].
  - exists []. split; [constructor|]. split; [easy|]. split; [intro z; split; [discriminate|intros []]|]. intros [|n] rest L; [cbn in L; lia|reflexivity].
  - destruct IH as (l & L1 & L2 & L3 & L4). destruct (perl_iff _ _ C) as (k & E & K1 & K2 & K3). exists (k ++ l). split; [apply Forall_app; now split|]. split; [intros _; destruct k; easy|].
    split; [intro z; rewrite in_ranges_app, orb_true_iff, K3, L3; tauto|]. intros [|n] rest L; [cbn in L; lia|]. cbn [class_items app has_prefix B list_ascii_of_string]. cbn [Ascii.eqb Bool.eqb andb]. cbn [class_perl]. cbn [Ascii.eqb Bool.eqb].
    rewrite E, L4 by (cbn in L; lia). reflexivity.
  - destruct IH as (l & L1 & L2 & L3 & L4).
    pose proof (fun rest => bracket_char_read x c rest X) as BX. pose proof (code_range c) as CR0. destruct (BX []) as (_ & _ & _ & XL & CL).
    exists ((code c, code c) :: l). split; [constructor; [cbn [fst snd]; lia|exact L1]|]. split; [discriminate|].
    split; [intro z; change (in_ranges ((code c, code c) :: l) z) with (zin (code c) (code c) z || in_ranges l z); rewrite orb_true_iff, L3; unfold zin; split; intros [E|E]; try tauto; left; lia|].
    intros [|n] rest L; [cbn in L; lia|]. rewrite app_length in L. rewrite <- app_assoc. cbn [class_items]. destruct (BX (s ++ "]"%char :: rest)) as (-> & -> & -> & _ & _).
    assert (G : range_goes (s ++ "]"%char :: rest) = false).
    { destruct s as [|m s]; [now destruct rest|]. cbn [app range_goes]. destruct (Ascii.eqb_spec m "-") as [->|_]; [|now destruct (s ++ "]"%char :: rest)]. rewrite (NM s eq_refl). reflexivity. }
    rewrite G, L4 by lia. reflexivity.
  - destruct IH as (l & L1 & L2 & L3 & L4). pose proof (fun rest => bracket_char_read x c rest X) as BX. pose proof (fun rest => bracket_char_read y d rest Y) as BY.
    pose proof (code_range c) as CR0. destruct (BX []) as (_ & _ & _ & XL & CL). destruct (BY []) as (_ & _ & _ & YL & DL).
    exists ((code c, code d) :: l). split; [constructor; [cbn [fst snd]; lia|exact L1]|]. split; [discriminate|].
    split; [intro z; change (in_ranges ((code c, code d) :: l) z) with (zin (code c) (code d) z || in_ranges l z); rewrite orb_true_iff, L3; unfold zin; split; intros [E|E]; try tauto; left; lia|].
    intros [|n] rest L; [cbn in L; lia|]. rewrite app_length in L. cbn [length] in L. rewrite app_length in L. rewrite <- app_assoc. cbn [app]. rewrite <- app_assoc. cbn [class_items].
    destruct (BX ("-"%char :: y ++ s ++ "]"%char :: rest)) as (-> & -> & -> & _ & _). rewrite (range_goes_char y d (s ++ "]"%char :: rest) Y). cbn [skipn]. destruct (BY (s ++ "]"%char :: rest)) as (-> & _).
    assert (E : code c <=? code d = true) by lia. rewrite E, L4 by lia. reflexivity.
Qed.
(** One character. *)
Definition no_rep (s : bs) : Prop := match s with [] => True | c :: _ => is_rep c = false end.
Definition opens (s : bs) : Prop := exists c r, s = c :: r /\ is_rep c = false /\ Ascii.eqb c "|" = false /\ Ascii.eqb c ")" = false.
Lemma literal_is : forall c, literal c <-> is_literal c = true.
Proof.
  intro c. unfold literal, is_literal. rewrite andb_true_iff, negb_true_iff. fold special.
  assert (X : In c special <-> existsb (Ascii.eqb c) special = true).
  { rewrite existsb_exists. split; [intro I; exists c; split; [exact I|apply Ascii.eqb_refl] | intros (d & I & E); apply Ascii.eqb_eq in E as ->; exact I]. }
  rewrite <- not_true_iff_false, <- X. rewrite Z.ltb_lt. tauto.
Qed.
Lemma literal_not : forall c d, literal c -> In d special -> Ascii.eqb c d = false.
Proof.
  intros c d H I. apply literal_is in H. unfold is_literal in H. apply andb_true_iff in H as (_ & H). apply negb_true_iff in H. destruct (Ascii.eqb c d) eqn:E; [|reflexivity].
  rewrite <- H. symmetry. apply existsb_exists. now exists d.
Qed.
Ltac not_special H := repeat (rewrite (literal_not _ _ H); [|cbn; tauto]).
Lemma one_read : forall fold s P, one fold s P -> exists inside l, (forall z, (in_ranges l z = true <-> inside = true) <-> P z) /\
  forall n rest, (1 <= n)%nat -> p_item n fold (s ++ rest) = repeated (RSet inside l) rest.
Proof.
  intros fold s P H. destruct H as [c L| |c d S|c P C|c d P N C|s P H NE NC|s P H NE].
  - exists true, (if fold then folded c else [(code c, code c)]). split.
    + intro z. rewrite (char_case_iff fold c z) by (unfold literal in L; lia). tauto.
    + intros [|n] rest LE; [lia|]. cbn [app p_item]. not_special L. apply literal_is in L. now rewrite L.
  - exists false, [(10, 10)]. split; [intro z; unfold in_ranges, zin; cbn [existsb fst snd]; split; [intros (X & _) ->; discriminate (X eq_refl)|intro E; split; [lia|discriminate]]|]. intros [|n] rest LE; [lia|reflexivity].
  - exists true, [(code d, code d)]. split; [intro z; unfold in_ranges, zin; cbn [existsb fst snd]; split; [intros X; lia|intros ->; split; [reflexivity|lia]]|].
    intros [|n] rest LE; [lia|]. destruct (stands_not_letter _ _ S) as (PC & PL & _). apply escaped_iff in S. cbn [app p_item]. cbn [Ascii.eqb Bool.eqb]. unfold escape_re. now rewrite PL, PC, S.
  - destruct (perl_iff _ _ C) as (l & E & L1 & L2 & L3). exists true, (folded_ranges fold l). split; [intro z; rewrite (folded_ranges_iff fold l P z L1 L3); tauto|].
    intros [|n] rest LE; [lia|]. cbn [app p_item]. cbn [Ascii.eqb Bool.eqb]. assert (PL : place_re c = None) by now destruct C. unfold escape_re. now rewrite PL, E.
  - destruct (perl_iff _ _ C) as (l & E & L1 & L2 & L3). exists false, (folded_ranges fold l). split; [intro z; rewrite (folded_ranges_iff fold l P z L1 L3); intuition discriminate|].
    intros [|n] rest LE; [lia|]. cbn [app p_item]. cbn [Ascii.eqb Bool.eqb].
    assert (PL : place_re c = None /\ perl_class c = Some (false, l)) by (destruct N; inversion C; subst; injection E as <-; split; reflexivity). destruct PL as (PL & PC). unfold escape_re. now rewrite PL, PC.
  - destruct (bracket_read _ _ H) as (l & L1 & L2 & L3 & L4). exists true, (folded_ranges fold l). split; [intro z; rewrite (folded_ranges_iff fold l P z L1 L3); tauto|].
    intros [|n] rest LE; [lia|]. cbn [app]. rewrite <- app_assoc. cbn [app p_item B list_ascii_of_string]. cbn [Ascii.eqb Bool.eqb]. unfold class_re.
    assert (HP : has_prefix (B "^") (s ++ "]"%char :: rest) = false).
    { destruct s as [|c s]; [easy|]. cbn [app has_prefix B list_ascii_of_string]. destruct (Ascii.eqb_spec "^" c) as [<-|_]; [now elim (NC s)|reflexivity]. }
    rewrite HP, L4 by (rewrite app_length; cbn [length]; lia). destruct l as [|x l]; [now elim L2|reflexivity].
  - destruct (bracket_read _ _ H) as (l & L1 & L2 & L3 & L4). exists false, (folded_ranges fold l). split; [intro z; rewrite (folded_ranges_iff fold l P z L1 L3); intuition discriminate|].
    intros [|n] rest LE; [lia|]. rewrite <- !app_assoc. cbn [app p_item B list_ascii_of_string]. cbn [Ascii.eqb Bool.eqb]. unfold class_re. cbn [has_prefix B list_ascii_of_string]. cbn [Ascii.eqb Bool.eqb andb skipn].
    rewrite L4 by (rewrite app_length; cbn [length]; lia). destruct l as [|x l]; [now elim L2|reflexivity].
Qed.
Lemma one_opens : forall fold s P, one fold s P -> opens s.
Proof.
  intros fold s P H. destruct H as [c L| |c d S|c P C|c d P N C|s P H NE NC|s P H NE]; try (eexists _, _; split; [reflexivity|repeat split; reflexivity]).
  exists c, []. split; [reflexivity|]. split; [unfold is_rep; cbn [existsb B list_ascii_of_string]; not_special L; reflexivity|]. split; not_special L; reflexivity.
Qed.
(** How often. *)
Lemma lazy_read : forall r l rest, preferred l -> no_rep rest -> lazy r (l ++ rest) = Some (r, rest).
Proof.
  intros r l rest [->| ->] N; unfold lazy.
  - cbn [app]. assert (H : has_prefix (B "?") rest = false).
    { destruct rest as [|c rest]; [reflexivity|]. cbn [has_prefix B list_ascii_of_string]. destruct (Ascii.eqb_spec "?" c) as [<-|_]; [discriminate N|reflexivity]. }
    rewrite H. destruct rest as [|c rest]; [reflexivity|]. unfold no_rep in N. now rewrite N.
  - cbn [app B list_ascii_of_string has_prefix]. cbn [Ascii.eqb Bool.eqb andb skipn]. destruct rest as [|c rest]; [reflexivity|]. unfold no_rep in N. now rewrite N.
Qed.
Lemma fits_same_seq : forall r1 r2 M1 M2, same (fits r1) M1 -> same (fits r2) M2 -> same (fits (RSeq r1 r2)) (followed M1 M2).
Proof.
  intros r1 r2 M1 M2 H1 H2 b w a. split.
  - intro F. inversion F as [| |? ? ? w1 w2 ? F1 F2| | | | | | |]; subst. exists w1, w2. split; [reflexivity|]. split; [now apply H1|now apply H2].
  - intros (w1 & w2 & -> & F1 & F2). constructor; [now apply H1|now apply H2].
Qed.
Lemma fits_same_alt : forall r1 r2 M1 M2, same (fits r1) M1 -> same (fits r2) M2 -> same (fits (RAlt r1 r2)) (fun b w a => M1 b w a \/ M2 b w a).
Proof.
  intros r1 r2 M1 M2 H1 H2 b w a. split.
  - intro F. inversion F; subst; [left; now apply H1|right; now apply H2].
  - intros [F|F]; [apply fi_left; now apply H1|apply fi_right; now apply H2].
Qed.
Lemma fits_empty : same (fits REmpty) (fun _ w _ => w = []).
Proof. intros b w a. split; [intro F; now inversion F|intros ->; constructor]. Qed.
Lemma followed_same : forall M1 M2 N1 N2, same M1 N1 -> same M2 N2 -> same (followed M1 M2) (followed N1 N2).
Proof. intros M1 M2 N1 N2 H1 H2 b w a. split; intros (w1 & w2 & -> & F1 & F2); exists w1, w2; (split; [reflexivity|]); (split; [now apply H1|now apply H2]). Qed.
Lemma fits_times : forall r M n, same (fits r) M -> same (fits (times n r)) (in_row n M).
Proof. intros r M n H. induction n as [|n IH]; cbn [times in_row]; [apply fits_empty|now apply fits_same_seq]. Qed.
Lemma fits_star : forall r M, same (fits r) M -> same (fits (RStar r)) (as_often (fun _ => True) M).
Proof.
  intros r M H b w a. split.
  - intro F. remember (RStar r) as q eqn:Q. revert r H Q. induction F; intros r0 H0 Q; try discriminate Q.
    + exists 0%nat. now split.
    + injection Q as <-. destruct (IHF2 _ H0 eq_refl) as (n & _ & R). exists (S n). split; [exact I|]. exists w1, w2. split; [reflexivity|]. split; [now apply H0|exact R].
  - intros (n & _ & R). revert b w R. induction n as [|n IH]; intros b w R; cbn [in_row] in R; [subst; constructor|]. destruct R as (w1 & w2 & -> & F1 & F2). constructor; [now apply H|now apply IH].
Qed.
Lemma fits_up_to : forall r M n, same (fits r) M -> same (fits (up_to n r)) (as_often (fun k => (k <= n)%nat) M).
Proof.
  intros r M n H. induction n as [|n IH]; intros b w a; cbn [up_to].
  - rewrite (fits_empty b w a). split; [intros ->; exists 0%nat; now split|]. intros (k & K & R). assert (k = 0%nat) by lia. now subst.
  - rewrite (fits_same_alt _ _ _ _ (fits_same_seq _ _ _ _ H IH) fits_empty b w a). split.
    + intros [(w1 & w2 & -> & F1 & k & K & R)| ->]; [|exists 0%nat; split; [lia|reflexivity]]. exists (S k). split; [lia|]. now exists w1, w2.
    + intros ([|k] & K & R); [now right|]. left. destruct R as (w1 & w2 & -> & F1 & R). exists w1, w2. split; [reflexivity|]. split; [exact F1|]. exists k. split; [lia|exact R].
Qed.
Lemma in_row_app : forall M n m, same (followed (in_row n M) (in_row m M)) (in_row (n + m) M).
Proof.
  intros M n m. induction n as [|n IH]; intros b w a; cbn [in_row Nat.add].
  - split; [intros (w1 & w2 & -> & -> & R); now rewrite app_nil_r in R|]. intro R. exists [], w. split; [reflexivity|]. split; [reflexivity|]. now rewrite app_nil_r.
  - split.
    + intros (w1 & w2 & -> & (u & v & -> & F & R) & R2). rewrite <- ?app_assoc in *. exists u, (v ++ w2). split; [reflexivity|]. rewrite <- ?app_assoc. split; [exact F|]. apply IH. exists v, w2. rewrite <- ?app_assoc. now repeat split.
    + intros (u & x & -> & F & R). apply IH in R as (v & w2 & -> & R & R2). rewrite <- ?app_assoc in *. exists (u ++ v), w2. rewrite <- ?app_assoc. split; [reflexivity|]. split; [|exact R2]. exists u, v. rewrite <- ?app_assoc. now repeat split.
Qed.
Lemma fits_more : forall r M n K, same (fits r) M -> forall q, same (fits q) (as_often K M) -> same (fits (RSeq (times n r) q)) (as_often (fun k => (n <= k)%nat /\ K (k - n)%nat) M).
Proof.
  intros r M n K H q Q b w a. rewrite (fits_same_seq _ _ _ _ (fits_times r M n H) Q b w a). split.
  - intros (w1 & w2 & -> & F1 & k & KK & R). exists (n + k)%nat. split; [split; [lia|now replace (n + k - n)%nat with k by lia]|]. apply in_row_app. now exists w1, w2.
  - intros (k & (L & KK) & R). replace k with (n + (k - n))%nat in R by lia. apply in_row_app in R as (w1 & w2 & -> & F1 & R). exists w1, w2. split; [reflexivity|]. split; [exact F1|]. now exists (k - n)%nat.
Qed.
Lemma as_often_same : forall K1 K2 M1 M2, (forall n, K1 n <-> K2 n) -> same M1 M2 -> same (as_often K1 M1) (as_often K2 M2).
Proof.
  intros K1 K2 M1 M2 HK HM. assert (R : forall n, same (in_row n M1) (in_row n M2)) by (intro n; induction n as [|n IH]; cbn [in_row]; [intros b w a; reflexivity|now apply followed_same]).
  intros b w a. split; intros (n & A & X); exists n; (split; [now apply HK|now apply R]).
Qed.
Lemma mark_read : forall q K r M, mark q K -> same (fits r) M ->
  exists r', same (fits r') (as_often K M) /\ forall l rest, preferred l -> no_rep rest -> repeated r (q ++ l ++ rest) = Some (r', rest).
Proof.
  intros q K r M H F. destruct H; eexists; (split; [|intros l rest P N; cbn [app B list_ascii_of_string repeated]; cbn [Ascii.eqb Bool.eqb]; rewrite (lazy_read _ _ _ P N); reflexivity]).
  - now apply fits_star.
  - intros b w a. rewrite (fits_same_seq _ _ _ _ F (fits_star _ _ F) b w a). split.
    + intros (w1 & w2 & -> & F1 & n & _ & R). exists (S n). split; [lia|]. now exists w1, w2.
    + intros ([|n] & L & R); [lia|]. destruct R as (w1 & w2 & -> & F1 & R). exists w1, w2. split; [reflexivity|]. split; [exact F1|]. now exists n.
  - intros b w a. rewrite <- (fits_up_to r M 1 F b w a). cbn [up_to].
    split; intro X; inversion X; subst; try (now apply fi_right); apply fi_left.
    + rewrite <- (app_nil_r w). constructor; [assumption|constructor].
    + match goal with Y : fits (RSeq _ _) _ _ _ |- _ => inversion Y; subst end. match goal with Y : fits REmpty _ _ _ |- _ => inversion Y; subst end. now rewrite app_nil_r.
Qed.
(** Numerals. *)
Lemma digit_iff : forall c, is_digit c = true <-> 48 <= code c <= 57.
Proof. intro c. unfold is_digit, in_range. change (code "0") with 48. change (code "9") with 57. lia. Qed.
Lemma digit_nat : forall c, 48 <= code c <= 57 -> (nat_of_ascii c - 48 <= 9)%nat /\ (nat_of_ascii c - 48 = 0 -> c = "0"%char)%nat.
Proof.
  intros c H. assert (E : Z.of_nat (nat_of_ascii c) = code c) by (unfold code, nat_of_ascii; now rewrite N_nat_Z). split; [lia|]. intro Z0. apply code_inj. change (code "0") with 48. lia.
Qed.
Lemma numeral_read : forall d n, numeral d n -> (n <= 1000)%nat -> forall rest, (forall c r, rest = c :: r -> is_digit c = false) -> read_count (d ++ rest) = Some (n, rest).
Proof.
  assert (SP : forall d rest, Forall (fun c => is_digit c = true) d -> (forall c r, rest = c :: r -> is_digit c = false) -> span_digits (d ++ rest) = (d, rest)).
  { intros d rest F N. induction F as [|c d C F IH]; cbn [app span_digits]; [destruct rest as [|c r]; [reflexivity|cbn [span_digits]; now rewrite (N c r eq_refl)]|]. now rewrite C, IH. }
  assert (INV : forall d n, numeral d n -> Forall (fun c => is_digit c = true) d /\ value_of_digits d = n /\ d <> [] /\ ((0 < n)%nat -> (10 ^ (length d - 1) <= n)%nat /\ forall r, d <> "0"%char :: r) /\ (n = 0%nat -> length d = 1%nat)).
  { intros d n H. induction H as [c C|d n c H IH P C].
    - destruct (digit_nat c C) as (D1 & D2). split; [repeat constructor; now apply digit_iff|]. split; [reflexivity|]. split; [discriminate|]. split; [|reflexivity]. intro G. split; [cbn; lia|].
      intros r E. injection E as -> _. cbn in G. lia.
    - destruct IH as (I1 & I2 & I3 & I4 & I5). destruct (I4 P) as (G1 & G2). split; [apply Forall_app; split; [exact I1|repeat constructor; now apply digit_iff]|].
      split; [unfold value_of_digits in *; rewrite fold_left_app, I2; cbn [fold_left]; lia|]. split; [destruct d; discriminate|]. split; [|lia]. intros _. split.
      + rewrite app_length. cbn [length]. replace (length d + 1 - 1)%nat with (S (length d - 1)) by (destruct d; [easy|cbn; lia]). rewrite Nat.pow_succ_r'. lia.
      + intros r E. destruct d as [|x d]; [easy|]. injection E as -> _. now elim (G2 d). }
  intros d n H L rest N. destruct (INV d n H) as (I1 & I2 & I3 & I4 & I5). unfold read_count. rewrite (SP d rest I1 N). destruct d as [|c d]; [easy|].
  assert (A : (Ascii.eqb c "0" && negb (bs_eqb d [])) || (4 <? length (c :: d))%nat = false).
  { destruct n as [|n].
    - specialize (I5 eq_refl). destruct d; [|discriminate I5]. cbn. now rewrite andb_false_r.
    - destruct (I4 ltac:(lia)) as (G1 & G2). apply orb_false_iff. split.
      + destruct (Ascii.eqb_spec c "0") as [->|_]; [now elim (G2 d)|reflexivity].
      + apply Nat.ltb_ge. destruct (Nat.le_gt_cases (length (c :: d)) 4) as [Q|Q]; [exact Q|]. exfalso. pose proof (Nat.pow_le_mono_r 10 4 (length (c :: d) - 1) ltac:(lia) ltac:(lia)) as X. change (10 ^ 4)%nat with (10 * (10 * (10 * (10 * 1))))%nat in X. lia. }
  rewrite A, I2. assert (E : (n <=? 1000)%nat = true) by now apply Nat.leb_le. now rewrite E.
Qed.
Lemma count_read : forall q K inside l M, count q K -> same (fits (RSet inside l)) M ->
  exists r', same (fits r') (as_often K M) /\ forall p rest, preferred p -> no_rep rest -> repeated (RSet inside l) (q ++ p ++ rest) = Some (r', rest).
Proof.
  intros q K inside l M H F. destruct H as [d n D L|d n D L|d n e m D E L]; eexists; (split; [|intros p rest P N; rewrite <- ?app_assoc; cbn [app B list_ascii_of_string repeated]; cbn [Ascii.eqb Bool.eqb counted]]).
  - intros b w a. rewrite (fits_times _ M n F b w a). split; [intro R; now exists n|]. intros (k & -> & R). exact R.
  - rewrite (numeral_read d n D L) by (intros c r Q; injection Q as <- _; reflexivity). cbn [has_prefix B list_ascii_of_string]. cbn [Ascii.eqb Bool.eqb andb skipn]. now rewrite (lazy_read _ _ _ P N).
  - intros b w a. rewrite (fits_more _ M n _ F _ (fits_star _ _ F) b w a). apply as_often_same; [intro k; tauto|intros ? ? ?; reflexivity].
  - rewrite (numeral_read d n D L) by (intros c r Q; injection Q as <- _; reflexivity). cbn [has_prefix B list_ascii_of_string]. cbn [Ascii.eqb Bool.eqb andb skipn]. now rewrite (lazy_read _ _ _ P N).
  - intros b w a. rewrite (fits_more _ M n _ F _ (fits_up_to _ _ (m - n) F) b w a). apply as_often_same; [intro k; lia|intros ? ? ?; reflexivity].
  - rewrite (numeral_read d n D ltac:(lia)) by (intros c r Q; injection Q as <- _; reflexivity).
    assert (NP : has_prefix (B ",}") (","%char :: e ++ "}"%char :: p ++ rest) = false).
    { change (has_prefix (B ",}") (","%char :: e ++ "}"%char :: p ++ rest)) with (has_prefix (B "}") (e ++ "}"%char :: p ++ rest)). clear -E. assert (X : exists c r, e = c :: r /\ 48 <= code c <= 57).
      { induction E as [c C|d n c E IH]; [now exists c, []|]. destruct IH as (x & r & -> & X). now exists x, (r ++ [c]). }
      destruct X as (c & r & -> & X). change (Ascii.eqb "}" c && true = false). destruct (Ascii.eqb_spec "}" c) as [<-|_]; [cbn in X; lia|reflexivity]. }
    change (has_prefix (B "}") (","%char :: e ++ "}"%char :: p ++ rest)) with false. change (has_prefix (B ",") (","%char :: e ++ "}"%char :: p ++ rest)) with true. cbv iota. rewrite NP. cbn [skipn].
    rewrite (numeral_read e m E ltac:(lia)) by (intros c r Q; injection Q as <- _; reflexivity). assert (LE : (n <=? m)%nat = true) by (apply Nat.leb_le; lia). rewrite LE. cbn [has_prefix andb skipn]. cbn [Ascii.eqb Bool.eqb andb].
    now rewrite (lazy_read _ _ _ P N).
Qed.
Lemma placed_read : forall fold s P, placed s P -> opens s /\ exists r, same (fits r) (fun b w a => w = [] /\ P b a) /\ forall n rest, (1 <= n)%nat -> no_rep rest -> p_item n fold (s ++ rest) = Some (r, rest).
Proof.
  intros fold s P H. assert (AL : forall r rest, no_rep rest -> alone r rest = Some (r, rest)) by (intros r [|c rest] N; [reflexivity|unfold no_rep in N; unfold alone; now rewrite N]).
  assert (BG : same (fits RBegin) (fun b w a => w = [] /\ b = [])) by (intros b w a; split; [intro F; inversion F; subst; now split|intros (-> & ->); constructor]).
  assert (EN : same (fits REnd) (fun b w a => w = [] /\ a = [])) by (intros b w a; split; [intro F; inversion F; subst; now split|intros (-> & ->); constructor]).
  assert (EY : same (fits (REdge true)) (fun b w a => w = [] /\ word_edge b a)).
  { intros b w a; split; [intro F; inversion F as [| | | | | | | | |? ? ? X]; subst; split; [reflexivity|now apply X]|intros (-> & E); constructor; tauto]. }
  assert (EF : same (fits (REdge false)) (fun b w a => w = [] /\ ~ word_edge b a)).
  { intros b w a; split; [intro F; inversion F as [| | | | | | | | |? ? ? X]; subst; split; [reflexivity|intro W; apply X in W; discriminate W]|intros (-> & E); constructor; split; [tauto|discriminate]]. }
  destruct H; (split; [eexists _, _; split; [reflexivity|repeat split; reflexivity]|]).
  - exists RBegin. split; [exact BG|]. intros [|n] rest LE NR; [lia|]. now apply AL.
  - exists RBegin. split; [exact BG|]. intros [|n] rest LE NR; [lia|]. now apply AL.
  - exists REnd. split; [exact EN|]. intros [|n] rest LE NR; [lia|]. now apply AL.
  - exists REnd. split; [exact EN|]. intros [|n] rest LE NR; [lia|]. now apply AL.
  - exists (REdge true). split; [exact EY|]. intros [|n] rest LE NR; [lia|]. now apply AL.
  - exists (REdge false). split; [exact EF|]. intros [|n] rest LE NR; [lia|]. now apply AL.
Qed.
(** The whole. *)
Scheme item_ind4 := Induction for item Sort Prop with factor_ind4 := Induction for factor Sort Prop with sequence_ind4 := Induction for sequence Sort Prop with choice_ind4 := Induction for choice Sort Prop.
Combined Scheme pattern_ind from item_ind4, factor_ind4, sequence_ind4, choice_ind4.
Definition closes (s : bs) : Prop := s = [] \/ exists r, s = ")"%char :: r.
Lemma opens_app : forall s r, opens s -> stops (s ++ r) = false /\ no_rep (s ++ r).
Proof. intros s r (c & x & -> & A & B & C). cbn [app stops no_rep]. now rewrite A, B, C. Qed.
Lemma opens_head : forall s r, opens s -> opens (s ++ r).
Proof. intros s r (c & x & -> & H). now exists c, (x ++ r). Qed.
Lemma group_read : forall n fold f pre s rest r, (pre = [] /\ f = fold \/ pre = B "?:" /\ f = fold \/ pre = B "?i:" /\ f = true) -> (s = [] \/ opens s \/ exists x, s = "|"%char :: x) ->
  p_alt n f (s ++ ")"%char :: rest) = Some (r, ")"%char :: rest) -> p_item (S n) fold (B "(" ++ (pre ++ s ++ B ")") ++ rest) = repeated r rest.
Proof.
  intros n fold f pre s rest r PR HS H. rewrite <- !app_assoc. cbn [app B list_ascii_of_string p_item]. cbn [Ascii.eqb Bool.eqb].
  destruct PR as [(-> & ->)|[(-> & ->)|(-> & ->)]]; cbn [app].
  - assert (Q : forall x, has_prefix ("?"%char :: x) (s ++ ")"%char :: rest) = false).
    { intro x. destruct HS as [->|[(c & y & -> & A & _)|(y & ->)]]; try reflexivity. cbn [app has_prefix]. destruct (Ascii.eqb_spec "?" c) as [<-|_]; [discriminate A|reflexivity]. }
    cbn [B list_ascii_of_string]. rewrite !Q, orb_false_r, H. reflexivity.
  - cbn [B list_ascii_of_string has_prefix app]. cbn [Ascii.eqb Bool.eqb andb skipn]. rewrite orb_false_r, H. reflexivity.
  - cbn [B list_ascii_of_string has_prefix app]. cbn [Ascii.eqb Bool.eqb andb skipn]. rewrite orb_true_r, H. reflexivity.
Qed.
Lemma set_same : forall inside l P, (forall z, (in_ranges l z = true <-> inside = true) <-> P z) -> same (fits (RSet inside l)) (single P).
Proof.
  intros inside l P A b w a. split; [intro F; inversion F as [? ? ? c ? I| | | | | | | | |]; subst; exists c; split; [reflexivity|]; apply A; rewrite in_ranges_iff; exact I|].
  intros (z & -> & Z0). constructor. rewrite <- in_ranges_iff. now apply A.
Qed.
Lemma patterns_read :
  (forall fold s M, item fold s M -> opens s /\ exists r, same (fits r) M /\ forall n rest, (4 * length s <= n)%nat -> p_item n fold (s ++ rest) = repeated r rest) /\
  (forall fold s M, factor fold s M -> opens s /\ exists r, same (fits r) M /\ forall n rest, (4 * length s <= n)%nat -> no_rep rest -> p_item n fold (s ++ rest) = Some (r, rest)) /\
  (forall fold s M, sequence fold s M -> (s = [] \/ opens s) /\ exists r, same (fits r) M /\ forall n rest, (4 * length s + 1 <= n)%nat -> stops rest = true -> p_seq n fold (s ++ rest) = Some (r, rest)) /\
  (forall fold s M, choice fold s M -> (s = [] \/ opens s \/ exists x, s = "|"%char :: x) /\ exists r, same (fits r) M /\ forall n rest, (4 * length s + 2 <= n)%nat -> closes rest -> p_alt n fold (s ++ rest) = Some (r, rest)).
Proof.
  apply pattern_ind.
  - intros fold s P H. split; [now apply (one_opens fold s P)|]. destruct (one_read fold s P H) as (inside & l & A & R). exists (RSet inside l). split; [now apply set_same|].
    intros n rest L. apply R. destruct (one_opens fold s P H) as (c & x & -> & _). cbn [length] in L. lia.
  - intros fold s M H (HS & r & A & R). split; [eexists _, _; split; [reflexivity|repeat split; reflexivity]|]. exists r. split; [exact A|]. intros [|n] rest L; [rewrite !app_length in L; cbn in L; lia|].
    rewrite !app_length in L. cbn [length B list_ascii_of_string] in L. apply (group_read n fold fold [] s rest r); [tauto|exact HS|]. apply R; [lia|right; now exists rest].
  - intros fold s M H (HS & r & A & R). split; [eexists _, _; split; [reflexivity|repeat split; reflexivity]|]. exists r. split; [exact A|]. intros [|n] rest L; [rewrite !app_length in L; cbn in L; lia|].
    rewrite !app_length in L. cbn [length B list_ascii_of_string] in L. apply (group_read n fold fold (B "?:") s rest r); [tauto|exact HS|]. apply R; [lia|right; now exists rest].
  - intros fold s M H (HS & r & A & R). split; [eexists _, _; split; [reflexivity|repeat split; reflexivity]|]. exists r. split; [exact A|]. intros [|n] rest L; [rewrite !app_length in L; cbn in L; lia|].
    rewrite !app_length in L. cbn [length B list_ascii_of_string] in L. apply (group_read n fold true (B "?i:") s rest r); [tauto|exact HS|]. apply R; [lia|right; now exists rest].
  - intros fold s M H (HS & r & A & R). split; [exact HS|]. exists r. split; [exact A|]. intros n rest L N. rewrite (R n rest L). destruct rest as [|c rest]; [reflexivity|].
    unfold repeated, no_rep, is_rep in *. cbn [existsb B list_ascii_of_string] in N. destruct (Ascii.eqb c "*"), (Ascii.eqb c "+"), (Ascii.eqb c "?"), (Ascii.eqb c "{"); try discriminate N. reflexivity.
  - intros fold s M q K l H (HS & r & A & R) MK PR. split; [now apply opens_head|]. destruct (mark_read q K r M MK A) as (r' & A' & R').
    exists r'. split; [exact A'|]. intros n rest L N. rewrite <- !app_assoc. rewrite !app_length in L. rewrite R by lia. now apply R'.
  - intros fold s P q K l H CO PR. pose proof (one_opens fold s P H) as HS. split; [now apply opens_head|]. destruct (one_read fold s P H) as (inside & k & A & R).
    destruct (count_read q K inside k (single P) CO (set_same _ _ _ A)) as (r' & A' & R'). exists r'. split; [exact A'|]. intros n rest L N. rewrite <- !app_assoc. rewrite !app_length in L.
    rewrite R; [now apply R'|]. destruct HS as (c & x & -> & _). cbn [length] in L. lia.
  - intros fold s P H. destruct (placed_read fold s P H) as (HS & r & A & R). split; [exact HS|]. exists r. split; [exact A|]. intros n rest L N. apply R; [|exact N]. destruct HS as (c & x & -> & _). cbn [length] in L. lia.
  - intro fold. split; [now left|]. exists REmpty. split; [apply fits_empty|]. intros [|n] rest L ST; [lia|]. cbn [app p_seq]. now rewrite ST.
  - intros fold s1 M1 s2 M2 H1 (HS1 & r1 & A1 & R1) H2 (HS2 & r2 & A2 & R2). split; [right; now apply opens_head|]. exists (RSeq r1 r2). split; [now apply fits_same_seq|].
    intros [|n] rest L ST; [lia|]. rewrite app_length in L. rewrite <- app_assoc. cbn [p_seq]. destruct (opens_app s1 (s2 ++ rest) HS1) as (-> & _).
    assert (1 <= length s1)%nat by (destruct HS1 as (c & x & -> & _); cbn; lia).
    rewrite R1; [|lia|]. { now rewrite R2 by (exact ST || lia). }
    destruct HS2 as [->|HS2]; [|now apply opens_app]. cbn [app]. destruct rest as [|c rest]; [exact I|]. cbn [stops no_rep] in *. apply orb_true_iff in ST as [E|E]; apply Ascii.eqb_eq in E; subst c; reflexivity.
  - intros fold s M H (HS & r & A & R). split; [tauto|]. exists r. split; [exact A|]. intros [|n] rest L CL; [lia|]. cbn [p_alt]. rewrite R; [|lia|destruct CL as [->|(x & ->)]; reflexivity].
    destruct CL as [->|(x & ->)]; reflexivity.
  - intros fold s1 M1 s2 M2 H1 (HS1 & r1 & A1 & R1) H2 (HS2 & r2 & A2 & R2). split; [destruct HS1 as [->|HS1]; [right; right; now exists s2|right; left; now apply opens_head]|].
    exists (RAlt r1 r2). split; [now apply fits_same_alt|]. intros [|n] rest L CL; [lia|]. rewrite app_length in L. cbn [length] in L. rewrite <- app_assoc. cbn [p_alt app].
    rewrite R1; [|lia|reflexivity]. cbn [Ascii.eqb Bool.eqb]. now rewrite R2 by (exact CL || lia).
Qed.
Lemma flag_free :
  (forall fold s M, item fold s M -> forall r, has_prefix (B "(?i)") (s ++ r) = false) /\
  (forall fold s M, factor fold s M -> forall r, has_prefix (B "(?i)") (s ++ r) = false) /\
  (forall fold s M, sequence fold s M -> s = [] \/ forall r, has_prefix (B "(?i)") (s ++ r) = false) /\
  (forall fold s M, choice fold s M -> has_prefix (B "(?i)") s = false).
Proof.
  destruct patterns_read as (_ & _ & _ & PC). apply pattern_ind.
  - intros fold s P H r. destruct H as [c L| |c d S|c P C|c d P N C|s P H NE NC|s P H NE]; try reflexivity.
    change (Ascii.eqb "(" c && has_prefix (B "?i)") r = false). now rewrite Ascii.eqb_sym, (literal_not c "(" L) by (cbn; tauto).
  - intros fold s M H _ r. destruct (PC fold s M H) as (HS & _). rewrite <- !app_assoc. change (has_prefix (B "?i)") (s ++ B ")" ++ r) = false).
    destruct HS as [->|[(c & x & -> & A & _)|(x & ->)]]; try reflexivity. change (Ascii.eqb "?" c && has_prefix (B "i)") (x ++ B ")" ++ r) = false). destruct (Ascii.eqb_spec "?" c) as [<-|_]; [discriminate A|reflexivity].
  - reflexivity.
  - reflexivity.
  - auto.
  - intros fold s M q K l H IH _ _ r. rewrite <- !app_assoc. apply IH.
  - intros fold s P q K l H _ _ r. rewrite <- !app_assoc. destruct H as [c L| |c d S|c P C|c d P N C|s P H NE NC|s P H NE]; try reflexivity.
    change (Ascii.eqb "(" c && has_prefix (B "?i)") (q ++ l ++ r) = false). now rewrite Ascii.eqb_sym, (literal_not c "(" L) by (cbn; tauto).
  - intros fold s P H r. now destruct H.
  - now left.
  - intros fold s1 M1 s2 M2 H1 IH1 H2 IH2. right. intro r. rewrite <- app_assoc. apply IH1.
  - intros fold s M H [->|IH]; [reflexivity|]. rewrite <- (app_nil_r s). apply IH.
  - intros fold s1 M1 s2 M2 H1 [->|IH] H2 _; [reflexivity|apply IH].
Qed.
Lemma reads_compile : forall p M, reads p M -> exists r, compile p = Some r /\ same (fits r) M.
Proof.
  intros p M [H|(q & -> & H)]; destruct patterns_read as (_ & _ & _ & PC); destruct (PC _ _ _ H) as (_ & r & A & R); exists r; (split; [|exact A]); unfold compile.
  - destruct flag_free as (_ & _ & _ & FF). rewrite (FF _ _ _ H). specialize (R (4 * length p + 4)%nat []). rewrite app_nil_r in R. rewrite R; [reflexivity|lia|now left].
  - change (has_prefix (B "(?i)") (B "(?i)" ++ q)) with true. cbv iota zeta. change (skipn 4 (B "(?i)" ++ q)) with q. specialize (R (4 * length (B "(?i)" ++ q) + 4)%nat []). rewrite app_nil_r in R.
    rewrite R; [reflexivity|rewrite app_length; lia|now left].
Qed.

(** ** What is read is a pattern *)
Lemma prefix_split : forall p s, has_prefix p s = true -> s = p ++ skipn (length p) s.
Proof.
  induction p as [|c p IH]; intros s H; [reflexivity|]. destruct s as [|d s]; [discriminate H|]. cbn [has_prefix] in H. apply andb_true_iff in H as (E & H). apply Ascii.eqb_eq in E. subst d.
  cbn [length skipn app]. f_equal. now apply IH.
Qed.
Lemma perl_back : forall c inside l, perl_class c = Some (inside, l) -> low_ranges l /\ exists d P, class_letter d P /\ (forall z, in_ranges l z = true <-> P z) /\ (if inside then c = d else not_class_letter c d).
Proof.
  intros c inside l H. unfold perl_class in H.
  assert (D : low_ranges digits /\ forall z, in_ranges digits z = true <-> 48 <= z <= 57) by (split; [repeat constructor; cbn; lia|intro z; unfold in_ranges, digits, zin; cbn [existsb fst snd]; lia]).
  assert (S : low_ranges spaces /\ forall z, in_ranges spaces z = true <-> (z = 9 \/ z = 10 \/ z = 12 \/ z = 13 \/ z = 32)) by (split; [repeat constructor; cbn; lia|intro z; unfold in_ranges, spaces, zin; cbn [existsb fst snd]; lia]).
  assert (W : low_ranges letters /\ forall z, in_ranges letters z = true <-> word_char z) by (split; [repeat constructor; cbn; lia|apply letters_iff]).
  repeat match type of H with context [Ascii.eqb c ?x] => destruct (Ascii.eqb_spec c x) as [->|_];
    [injection H as <- <-; (split; [tauto|]); eexists _, _; split; [|split; [first [apply D|apply S|apply W]|constructor || reflexivity]]; constructor|] end. discriminate H.
Qed.
Lemma class_char_back : forall s c r, class_char s = Some (c, r) -> exists x, s = x ++ r /\ bracket_char x c.
Proof.
  intros [|a s] c r H; [discriminate H|]. cbn [class_char] in H. destruct (Ascii.eqb_spec a "\") as [->|N].
  - destruct s as [|d s]; [discriminate H|]. destruct (escaped d) as [e|] eqn:E; [|discriminate H]. injection H as <- <-. exists ["\"%char; d]. split; [reflexivity|]. constructor. now apply escaped_iff.
  - destruct (class_single a) eqn:E; [|discriminate H]. injection H as <- <-. exists [a]. split; [reflexivity|]. unfold class_single in E. apply andb_true_iff in E as (E1 & E2). apply negb_true_iff in E2. constructor; [lia|].
    intro I. assert (X : existsb (Ascii.eqb a) (B "[]\") = true); [|congruence]. apply existsb_exists. exists a. split; [cbn in I |- *; tauto|apply Ascii.eqb_refl].
Qed.
Lemma bracket_low : forall x c, bracket_char x c -> 0 <= code c < 128.
Proof. intros x c H. destruct (bracket_char_read x c [] H) as (_ & _ & _ & _ & L). pose proof (code_range c). lia. Qed.
Lemma bracket_head : forall s P, bracket s P -> (forall r, s <> "]"%char :: r) /\ forall r, s <> "-"%char :: "]"%char :: r.
Proof.
  intros s P H. induction H as [|c P s Q C H IH|x c s Q X H IH NM|x c y d s Q X Y LE H IH].
  - split; discriminate.
  - split; discriminate.
  - destruct X as [c L N|c d S]; (split; [|intros r E]); try discriminate.
    + intros r E. injection E as -> _. apply N. cbn. tauto.
    + injection E as -> E. now apply (proj1 IH r).
  - destruct X as [c L N|c e S]; (split; [|intros r E]); try discriminate.
    intros r E. injection E as -> _. apply N. cbn. tauto.
Qed.
Lemma class_items_back : forall n s l r, class_items n s = Some (l, r) -> exists t P, s = t ++ "]"%char :: r /\ bracket t P /\ low_ranges l /\ (l <> [] -> t <> []) /\ forall z, in_ranges l z = true <-> P z.
Proof.
  induction n as [|n IH]; intros s l r H; [discriminate H|]. cbn [class_items] in H. destruct (has_prefix (B "]") s) eqn:E.
  - injection H as <- <-. apply prefix_split in E. exists [], (fun _ => False). split; [exact E|]. split; [constructor|]. split; [constructor|]. split; [easy|]. intro z. split; [discriminate|intros []].
  - destruct (class_perl s) as [(k, s1)|] eqn:CP.
    + destruct (class_items n s1) as [(l', r')|] eqn:CI; [|discriminate H]. injection H as <- <-. apply IH in CI as (t & P & -> & B1 & B2 & B3 & B4).
      destruct s as [|a [|d s]]; try discriminate CP. cbn [class_perl] in CP. destruct (Ascii.eqb_spec a "\") as [->|_]; [|discriminate CP]. destruct (perl_class d) as [([] & k0)|] eqn:PC; try discriminate CP. injection CP as -> ->.
      destruct (perl_back _ _ _ PC) as (L & d' & Q & CL & X & E1). cbn in E1. subst d'. exists ("\"%char :: d :: t), (fun z => Q z \/ P z). split; [reflexivity|]. split; [now constructor|]. split; [apply Forall_app; now split|]. split; [discriminate|].
      intro z. now rewrite in_ranges_app, orb_true_iff, X, B4.
    + destruct (class_char s) as [(lo & s1)|] eqn:CC; [|discriminate H]. apply class_char_back in CC as (x & -> & BX). pose proof (bracket_low _ _ BX) as LX. destruct (range_goes s1) eqn:RG.
      * destruct s1 as [|m [|d s1]]; try discriminate RG. cbn [range_goes] in RG. destruct (Ascii.eqb_spec m "-") as [->|_]; [|discriminate RG]. cbn [skipn] in H.
        destruct (class_char (d :: s1)) as [(hi & s2)|] eqn:C2; [|discriminate H]. destruct (code lo <=? code hi) eqn:LE; [|discriminate H]. destruct (class_items n s2) as [(l', r')|] eqn:CI; [|discriminate H]. injection H as <- <-.
        apply IH in CI as (t & P & -> & B1 & B2 & B3 & B4). apply class_char_back in C2 as (y & -> & BY). pose proof (bracket_low _ _ BY) as LY.
        exists (x ++ "-"%char :: y ++ t), (fun z => code lo <= z <= code hi \/ P z). split; [rewrite <- !app_assoc; cbn [app]; now rewrite <- app_assoc|]. split; [constructor; try assumption; lia|].
        split; [constructor; [cbn [fst snd]; lia|exact B2]|]. split; [intros _; destruct BX; discriminate|]. intro z. transitivity (zin (code lo) (code hi) z || in_ranges l' z = true); [reflexivity|]. rewrite orb_true_iff, B4. unfold zin. split; intros [X|X]; try tauto; left; lia.
      * destruct (class_items n s1) as [(l', r')|] eqn:CI; [|discriminate H]. injection H as <- <-. apply IH in CI as (t & P & -> & B1 & B2 & B3 & B4).
        exists (x ++ t), (fun z => z = code lo \/ P z). split; [now rewrite <- app_assoc|]. split.
        { constructor; try assumption. intros q ->. cbn [app range_goes] in RG. cbn [Ascii.eqb Bool.eqb andb] in RG. destruct q as [|c q]; [reflexivity|]. cbn [app] in RG. destruct (Ascii.eqb_spec c "]") as [->|_]; [|discriminate RG].
          exfalso. now apply (proj2 (bracket_head _ _ B1) q). }
        split; [constructor; [cbn [fst snd]; lia|exact B2]|]. split; [intros _; destruct BX; discriminate|]. intro z. transitivity (zin (code lo) (code lo) z || in_ranges l' z = true); [reflexivity|]. rewrite orb_true_iff, B4. unfold zin. split; intros [X|X]; try tauto; left; lia.
Qed.

Lemma lazy_back : forall r s r' rest, lazy r s = Some (r', rest) -> r' = r /\ exists l, s = l ++ rest /\ preferred l.
Proof.
  intros r s r' rest H. unfold lazy in H. destruct (has_prefix (B "?") s) eqn:E; cbv zeta in H.
  - apply prefix_split in E. cbn [length B list_ascii_of_string] in E. destruct (skipn 1 s) as [|c x]; [|destruct (is_rep c); [discriminate H|]]; injection H as <- <-; (split; [reflexivity|]); exists (B "?"); (split; [exact E|now right]).
  - destruct s as [|c x]; [|destruct (is_rep c); [discriminate H|]]; injection H as <- <-; (split; [reflexivity|]); exists []; (split; [reflexivity|now left]).
Qed.
Lemma span_back : forall s d r, span_digits s = (d, r) -> s = d ++ r /\ Forall (fun c => is_digit c = true) d.
Proof.
  induction s as [|c s IH]; intros d r H; cbn [span_digits] in H; [injection H as <- <-; split; constructor|]. destruct (is_digit c) eqn:E; [|injection H as <- <-; split; constructor].
  destruct (span_digits s) as (a, b). injection H as <- <-. destruct (IH a b eq_refl) as (-> & F). split; [reflexivity|now constructor].
Qed.
Lemma count_back : forall s n r, read_count s = Some (n, r) -> exists d, s = d ++ r /\ numeral d n /\ (n <= 1000)%nat.
Proof.
  intros s n r H. unfold read_count in H. destruct (span_digits s) as (d, r0) eqn:SP. apply span_back in SP as (-> & F). destruct d as [|c d]; [discriminate H|].
  destruct ((Ascii.eqb c "0" && negb (bs_eqb d [])) || (4 <? length (c :: d))%nat) eqn:Z0; [discriminate H|]. cbv zeta in H. destruct (value_of_digits (c :: d) <=? 1000)%nat eqn:LE; [|discriminate H]. injection H as <- <-.
  exists (c :: d). split; [reflexivity|]. split; [|now apply Nat.leb_le]. clear LE. apply orb_false_iff in Z0 as (Z0 & _).
  assert (NU : forall e, Forall (fun c => is_digit c = true) e -> (e = [] \/ c <> "0"%char) -> numeral (c :: e) (value_of_digits (c :: e)) /\ (c <> "0"%char -> (0 < value_of_digits (c :: e))%nat)).
  { inversion F as [|? ? C F']; subst. apply digit_iff in C. destruct (digit_nat c C) as (_ & D0). intro e. induction e as [|x e IH] using rev_ind; intros FE NZ.
    - split; [apply (nu_digit c C)|]. intro NE. change (value_of_digits [c]) with (nat_of_ascii c - 48)%nat. destruct (nat_of_ascii c - 48)%nat; [now elim NE; apply D0|lia].
    - apply Forall_app in FE as (FE & FX). inversion FX as [|? ? X _]; subst. apply digit_iff in X. assert (NE : c <> "0"%char) by (destruct NZ as [Q|Q]; [destruct e; discriminate Q|exact Q]).
      destruct (IH FE (or_intror NE)) as (I1 & I2). specialize (I2 NE).
      assert (V : value_of_digits (c :: e ++ [x]) = (10 * value_of_digits (c :: e) + (nat_of_ascii x - 48))%nat) by (unfold value_of_digits; rewrite app_comm_cons, fold_left_app; cbn [fold_left]; lia).
      rewrite V. split; [|lia]. rewrite app_comm_cons. now apply nu_more. }
  inversion F as [|? ? C F']; subst. apply NU; [exact F'|]. destruct (Ascii.eqb_spec c "0") as [->|N]; [|now right]. left. destruct d; [reflexivity|discriminate Z0].
Qed.
(** After an item: what follows it is a mark or nothing; braces only follow a single character. *)
Lemma repeated_back : forall fold t M a s r rest, item fold t M -> same (fits a) M -> (forall inside l, a = RSet inside l -> exists P, one fold t P /\ same (fits a) (single P)) ->
  repeated a s = Some (r, rest) -> exists q N, s = q ++ rest /\ factor fold (t ++ q) N /\ same (fits r) N.
Proof.
  intros fold t M a s r rest IT A ON H. destruct s as [|c s]; cbn [repeated] in H.
  { injection H as <- <-. exists [], M. split; [reflexivity|]. rewrite app_nil_r. split; [now constructor|exact A]. }
  assert (MK : forall q K r0, mark q K -> (forall p x, preferred p -> no_rep x -> repeated a (q ++ p ++ x) = Some (r0, x)) -> same (fits r0) (as_often K M) -> c :: s = q ++ s -> lazy r0 s = Some (r, rest) ->
    exists q N, c :: s = q ++ rest /\ factor fold (t ++ q) N /\ same (fits r) N).
  { intros q K r0 Q _ SA E LZ. apply lazy_back in LZ as (-> & l & EL & PL). exists (q ++ l), (as_often K M). split; [now rewrite E, EL, <- app_assoc|]. split; [now constructor|exact SA]. }
  destruct (Ascii.eqb_spec c "*") as [->|_].
  { destruct (mark_read _ _ a M mk_star A) as (r0 & S0 & R0). apply (MK (B "*") _ (RStar a) mk_star); [intros p x P N; cbn [app B list_ascii_of_string repeated]; cbn [Ascii.eqb Bool.eqb]; now apply lazy_read| |reflexivity|exact H].
    now apply fits_star. }
  destruct (Ascii.eqb_spec c "+") as [->|_].
  { destruct (mark_read _ _ a M mk_plus A) as (r0 & S0 & R0). pose proof (R0 [] [] (or_introl eq_refl) I) as E. change (Some (RSeq a (RStar a), @nil ascii) = Some (r0, @nil ascii)) in E. injection E as E.
    apply (MK (B "+") _ r0 mk_plus R0 S0 eq_refl). now rewrite <- E. }
  destruct (Ascii.eqb_spec c "?") as [->|_].
  { destruct (mark_read _ _ a M mk_may A) as (r0 & S0 & R0). pose proof (R0 [] [] (or_introl eq_refl) I) as E. change (Some (RAlt a REmpty, @nil ascii) = Some (r0, @nil ascii)) in E. injection E as E.
    apply (MK (B "?") _ r0 mk_may R0 S0 eq_refl). now rewrite <- E. }
  destruct (Ascii.eqb_spec c "{") as [->|_].
  2: { injection H as <- <-. exists [], M. split; [reflexivity|]. rewrite app_nil_r. split; [now constructor|exact A]. }
  unfold counted in H. destruct a as [inside l| | | | | | |]; try discriminate H. destruct (ON inside l eq_refl) as (P & O1 & SP).
  destruct (read_count s) as [(n, s1)|] eqn:RC; [|discriminate H]. apply count_back in RC as (d & -> & ND & NL0).
  assert (CO : forall q K r0 x, count q K -> same (fits r0) (as_often K (single P)) -> "{"%char :: d ++ s1 = q ++ x -> lazy r0 x = Some (r, rest) ->
    exists q N, "{"%char :: d ++ s1 = q ++ rest /\ factor fold (t ++ q) N /\ same (fits r) N).
  { intros q K r0 x Q SA E LZ. apply lazy_back in LZ as (-> & p & EL & PL). exists (q ++ p), (as_often K (single P)). split; [now rewrite E, EL, <- app_assoc|]. split; [now constructor|exact SA]. }
  destruct (has_prefix (B "}") s1) eqn:E1; [|destruct (has_prefix (B ",}") s1) eqn:E2; [|destruct (has_prefix (B ",") s1) eqn:E3; [|discriminate H]]].
  - apply prefix_split in E1. cbn [length B list_ascii_of_string] in E1. refine (CO _ _ _ _ (co_just d n ND NL0) _ _ H).
    + intros b w a0. rewrite (fits_times _ _ n SP b w a0). split; [intro R; now exists n|intros (k & -> & R); exact R].
    + rewrite E1 at 1. now rewrite <- !app_assoc.
  - apply prefix_split in E2. cbn [length B list_ascii_of_string] in E2. refine (CO _ _ _ _ (co_from d n ND NL0) _ _ H).
    + intros b w a0. rewrite (fits_more _ _ n _ SP _ (fits_star _ _ SP) b w a0). apply as_often_same; [intro k; tauto|intros ? ? ?; reflexivity].
    + rewrite E2 at 1. now rewrite <- !app_assoc.
  - apply prefix_split in E3. cbn [length B list_ascii_of_string] in E3. destruct (read_count (skipn 1 s1)) as [(m, s2)|] eqn:R2; [|discriminate H]. apply count_back in R2 as (e & E4 & NE & ML).
    destruct ((n <=? m)%nat && has_prefix (B "}") s2) eqn:E5; [|discriminate H]. apply andb_true_iff in E5 as (LE & E5). apply Nat.leb_le in LE. apply prefix_split in E5. cbn [length B list_ascii_of_string] in E5.
    refine (CO _ _ _ _ (co_between d n e m ND NE (conj LE ML)) _ _ H).
    + intros b w a0. rewrite (fits_more _ _ n _ SP _ (fits_up_to _ _ (m - n) SP) b w a0). apply as_often_same; [intro k; lia|intros ? ? ?; reflexivity].
    + rewrite E3, E4 at 1. rewrite E5 at 1. now rewrite <- !app_assoc.
Qed.
Lemma alone_back : forall a s r rest, alone a s = Some (r, rest) -> r = a /\ rest = s.
Proof. intros a [|c s] r rest H; unfold alone in H; [now injection H as <- <-|]. destruct (is_rep c); [discriminate H|]. now injection H as <- <-. Qed.
Lemma placed_same : forall s P, placed s P -> forall fold, exists r, same (fits r) (fun b w a => w = [] /\ P b a) /\ p_item 1 fold s = Some (r, []).
Proof. intros s P H fold. destruct (placed_read fold s P H) as (_ & r & A & R). exists r. split; [exact A|]. rewrite <- (app_nil_r s). now apply R. Qed.
Definition no_set (r : re) : Prop := forall inside l, r <> RSet inside l.
Lemma parsed_is_pattern : forall n,
  (forall fold s r rest, p_alt n fold s = Some (r, rest) -> no_set r /\ exists t M, s = t ++ rest /\ choice fold t M /\ same (fits r) M) /\
  (forall fold s r rest, p_seq n fold s = Some (r, rest) -> no_set r /\ exists t M, s = t ++ rest /\ sequence fold t M /\ same (fits r) M) /\
  (forall fold s r rest, p_item n fold s = Some (r, rest) -> exists t M, s = t ++ rest /\ factor fold t M /\ same (fits r) M).
Proof.
  induction n as [|n (IA & IS & II)]; [split; [|split]; intros fold s r rest H; discriminate H|]. split; [|split]; intros fold s r rest H.
  - cbn [p_alt] in H. destruct (p_seq n fold s) as [(a, x)|] eqn:E; [|discriminate H]. apply IS in E as (NS & t & M & -> & SQ & A).
    assert (L : Some (a, x) = Some (r, rest) -> no_set r /\ exists t0 M0, t ++ x = t0 ++ rest /\ choice fold t0 M0 /\ same (fits r) M0).
    { intro Q. injection Q as <- <-. split; [exact NS|]. exists t, M. split; [reflexivity|]. split; [now constructor|exact A]. }
    destruct x as [|c x]; [now apply L|]. destruct (Ascii.eqb_spec c "|") as [->|_]; [|now apply L]. destruct (p_alt n fold x) as [(b, y)|] eqn:E2; [|discriminate H]. injection H as <- <-.
    apply IA in E2 as (_ & t2 & M2 & -> & CH & A2). split; [intros ? ? Q; discriminate Q|]. exists (t ++ "|"%char :: t2), (fun b w a => M b w a \/ M2 b w a). split; [now rewrite <- app_assoc|]. split; [now constructor|now apply fits_same_alt].
  - cbn [p_seq] in H. destruct (stops s).
    + injection H as <- <-. split; [intros ? ? Q; discriminate Q|]. exists [], (fun _ w _ => w = []). split; [reflexivity|]. split; [constructor|apply fits_empty].
    + destruct (p_item n fold s) as [(a, x)|] eqn:E; [|discriminate H]. apply II in E as (t & M & -> & F & A). destruct (p_seq n fold x) as [(b, y)|] eqn:E2; [|discriminate H]. injection H as <- <-.
      apply IS in E2 as (_ & t2 & M2 & -> & SQ & A2). split; [intros ? ? Q; discriminate Q|]. exists (t ++ t2), (followed M M2). split; [now rewrite <- app_assoc|]. split; [now constructor|now apply fits_same_seq].
  - cbn [p_item] in H. destruct s as [|c s]; [discriminate H|].
    assert (ONE : forall t P inside l x, one fold t P -> same (fits (RSet inside l)) (single P) -> c :: s = t ++ x -> repeated (RSet inside l) x = Some (r, rest) -> exists t M, c :: s = t ++ rest /\ factor fold t M /\ same (fits r) M).
    { intros t P inside l x O1 A E R. destruct (repeated_back fold t (single P) _ x r rest (im_one fold t P O1) A) as (q & N & -> & F & A2); [|exact R|].
      - intros i k Q. injection Q as <- <-. now exists P.
      - exists (t ++ q), N. split; [now rewrite <- app_assoc|]. now split. }
    assert (PLC : forall t P r0 x, placed t P -> (forall f, p_item 1 f t = Some (r0, [])) -> c :: s = t ++ x -> alone r0 x = Some (r, rest) -> exists t M, c :: s = t ++ rest /\ factor fold t M /\ same (fits r) M).
    { intros t P r0 x PL PI E AL. apply alone_back in AL as (-> & ->). exists t, (fun b w a => w = [] /\ P b a). split; [exact E|]. split; [now constructor|]. destruct (placed_same t P PL fold) as (r1 & A & E1). rewrite PI in E1. injection E1 as <-. exact A. }
    destruct (Ascii.eqb_spec c "(") as [->|_].
    { destruct (p_alt n _ _) as [(a, [|c' s2])|] eqn:E; try discriminate H. destruct (Ascii.eqb_spec c' ")") as [->|_]; [|discriminate H]. apply IA in E as (NS & t & M & E & CH & A).
      assert (G : exists g, "("%char :: s = g ++ s2 /\ item fold g M).
      { destruct (has_prefix (B "?:") s) eqn:P1; [|destruct (has_prefix (B "?i:") s) eqn:P2].
        - apply prefix_split in P1. cbn [length B list_ascii_of_string] in P1. assert (P2 : has_prefix (B "?i:") s = false) by (rewrite P1; reflexivity). rewrite P2, orb_false_r in CH.
          exists (B "(?:" ++ t ++ B ")"). split; [rewrite P1, E; now rewrite <- !app_assoc|now constructor].
        - apply prefix_split in P2. cbn [length B list_ascii_of_string] in P2. rewrite orb_true_r in CH. exists (B "(?i:" ++ t ++ B ")"). split; [rewrite P2, E; now rewrite <- !app_assoc|now constructor].
        - rewrite orb_false_r in CH. exists (B "(" ++ t ++ B ")"). split; [rewrite E; now rewrite <- !app_assoc|now constructor]. }
      destruct G as (g & EG & IT). destruct (repeated_back fold g M a s2 r rest IT A) as (q & N & -> & F & A2); [intros i l Q; now elim (NS i l)|exact H|]. exists (g ++ q), N. split; [now rewrite EG, <- app_assoc|]. now split. }
    destruct (Ascii.eqb_spec c "^") as [->|_]; [apply (PLC (B "^") _ RBegin s pl_begin); [reflexivity|reflexivity|exact H]|].
    destruct (Ascii.eqb_spec c "$") as [->|_]; [apply (PLC (B "$") _ REnd s pl_end); [reflexivity|reflexivity|exact H]|].
    destruct (Ascii.eqb_spec c ".") as [->|_].
    { apply (ONE (B ".") (fun z => z <> 10) false [(10, 10)] s); [constructor| |reflexivity|exact H]. apply set_same. intro z. unfold in_ranges, zin. cbn [existsb fst snd]. split; [intros (X & _) ->; discriminate (X eq_refl)|intro E; split; [lia|discriminate]]. }
    destruct (Ascii.eqb_spec c "[") as [->|_].
    { destruct (class_re fold s) as [(a, s2)|] eqn:E; [|discriminate H]. unfold class_re in E. destruct (has_prefix (B "^") s) eqn:P1; cbv zeta in E.
      - apply prefix_split in P1. cbn [length B list_ascii_of_string] in P1. destruct (class_items _ _) as [([|x l], y)|] eqn:CI; try discriminate E. injection E as <- <-. apply class_items_back in CI as (t & P & E1 & BR & LR & NE & X).
        apply (ONE (B "[^" ++ t ++ B "]") (fun z => ~ whatever_case fold P z) false (folded_ranges fold (x :: l)) y); [constructor; [exact BR|now apply NE]| |rewrite P1, E1; now rewrite <- !app_assoc|exact H].
        apply set_same. intro z. rewrite (folded_ranges_iff fold _ P z LR X). intuition discriminate.
      - destruct (class_items _ _) as [([|x l], y)|] eqn:CI; try discriminate E. injection E as <- <-. apply class_items_back in CI as (t & P & E1 & BR & LR & NE & X).
        apply (ONE ("["%char :: t ++ B "]") (whatever_case fold P) true (folded_ranges fold (x :: l)) y); [constructor; [exact BR|now apply NE|]| |rewrite E1; cbn [app]; now rewrite <- app_assoc|exact H].
        + intros q ->. rewrite E1 in P1. discriminate P1.
        + apply set_same. intro z. rewrite (folded_ranges_iff fold _ P z LR X). tauto. }
    destruct (Ascii.eqb_spec c "\") as [->|_].
    { destruct s as [|d s2]; [discriminate H|]. destruct (place_re d) as [a|] eqn:PR.
      - unfold place_re in PR. destruct (Ascii.eqb_spec d "A") as [->|_]; [injection PR as <-; apply (PLC (B "\A") _ RBegin s2 pl_start); [reflexivity|reflexivity|exact H]|].
        destruct (Ascii.eqb_spec d "z") as [->|_]; [injection PR as <-; apply (PLC (B "\z") _ REnd s2 pl_stop); [reflexivity|reflexivity|exact H]|].
        destruct (Ascii.eqb_spec d "b") as [->|_]; [injection PR as <-; apply (PLC (B "\b") _ (REdge true) s2 pl_edge); [reflexivity|reflexivity|exact H]|].
        destruct (Ascii.eqb_spec d "B") as [->|_]; [injection PR as <-; apply (PLC (B "\B") _ (REdge false) s2 pl_no_edge); [reflexivity|reflexivity|exact H]|]. discriminate PR.
      - unfold escape_re in H. destruct (perl_class d) as [(inside, l)|] eqn:PC.
        + destruct (perl_back _ _ _ PC) as (LR & d' & P & CL & X & E). destruct inside; cbn in E.
          * subst d'. apply (ONE ["\"%char; d] (whatever_case fold P) true (folded_ranges fold l) s2); [now constructor| |reflexivity|exact H]. apply set_same. intro z. rewrite (folded_ranges_iff fold _ P z LR X). tauto.
          * apply (ONE ["\"%char; d] (fun z => ~ whatever_case fold P z) false (folded_ranges fold l) s2); [now apply (on_not_class fold d d' P)| |reflexivity|exact H]. apply set_same. intro z. rewrite (folded_ranges_iff fold _ P z LR X). intuition discriminate.
        + destruct (escaped d) as [e|] eqn:ES; [|discriminate H]. apply escaped_iff in ES. apply (ONE ["\"%char; d] (fun z => z = code e) true [(code e, code e)] s2); [now constructor| |reflexivity|exact H].
          apply set_same. intro z. unfold in_ranges, zin. cbn [existsb fst snd]. split; [intros X; lia|intros ->; split; [reflexivity|lia]]. }
    destruct (is_literal c) eqn:L; [|discriminate H]. apply literal_is in L.
    apply (ONE [c] (whatever_case fold (fun z => z = code c)) true (if fold then folded c else [(code c, code c)]) s); [now constructor| |reflexivity|exact H].
    apply set_same. intro z. rewrite (char_case_iff fold c z) by (unfold literal in L; lia). tauto.
Qed.
Lemma compile_reads : forall p r, compile p = Some r -> exists M, reads p M /\ same (fits r) M.
Proof.
  intros p r H. unfold compile in H. destruct (has_prefix (B "(?i)") p) eqn:E.
  - apply prefix_split in E. cbn [length B list_ascii_of_string] in E. destruct (p_alt _ _ _) as [(a, [|c x])|] eqn:P; try discriminate H. injection H as <-. apply parsed_is_pattern in P as (_ & t & M & ET & CH & A).
    rewrite app_nil_r in ET. rewrite ET in E. exists M. split; [|exact A]. right. now exists t.
  - destruct (p_alt _ _ _) as [(a, [|c x])|] eqn:P; try discriminate H. injection H as <-. apply parsed_is_pattern in P as (_ & t & M & -> & CH & A). rewrite app_nil_r in *. exists M. split; [now left|exact A].
Qed.
