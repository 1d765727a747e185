(** No index is out of range: each of the functions of Index.v, with the indexes and slices of the source, returns on every
    input, and returns what the models without indexes say.  The theorems about the latter are therefore about the former,
    and the word "panic" in them covers the runtime's index checks. *)
From Coq Require Import Lia ZifyBool.
From Verif Require Import Base GoStrings Utils Buffer Types Transaction Variables Scanner Registry Witness Index.

(** *** Indexes *)
Lemma size_app : forall {A} (a b : list A), size (a ++ b) = size a + size b.
Proof. intros A a b. unfold size. rewrite app_length. lia. Qed.
Lemma size_cons : forall {A} (x : A) b, size (x :: b) = size b + 1.
Proof. intros A x b. unfold size. cbn [length]. lia. Qed.
Lemma size_nonneg : forall {A} (a : list A), 0 <= size a.
Proof. intros A a. unfold size. lia. Qed.
Lemma at_past : forall {A} (pre rest : list A) (k : nat),
  at_ (pre ++ rest) (size pre + Z.of_nat k) = match nth_error rest k with Some c => Ret c | None => Panic end.
Proof.
  intros A pre rest k. unfold at_, size. replace (_ <? 0) with false by lia.
  replace (Z.to_nat _) with (length pre + k)%nat by lia. rewrite nth_error_app2 by lia. now replace (length pre + k - length pre)%nat with k by lia.
Qed.
Lemma at_here : forall {A} (pre : list A) c rest i, i = size pre -> at_ (pre ++ c :: rest) i = Ret c.
Proof. intros A pre c rest i ->. rewrite <- (Z.add_0_r (size pre)). exact (at_past pre (c :: rest) 0). Qed.
Lemma sub_middle : forall {A} (a b c : list A) lo hi, lo = size a -> hi = size a + size b -> sub_ (a ++ b ++ c) lo hi = Ret b.
Proof.
  intros A a b c lo hi -> ->. unfold sub_. rewrite !size_app. pose proof (size_nonneg a); pose proof (size_nonneg b); pose proof (size_nonneg c).
  replace (_ && _ && _) with true by lia. f_equal. unfold size.
  replace (Z.to_nat (Z.of_nat (length a) + Z.of_nat (length b) - Z.of_nat (length a))) with (length b) by lia.
  rewrite Nat2Z.id, skipn_app, skipn_all, Nat.sub_diag. cbn [skipn app]. now rewrite firstn_app, firstn_all, Nat.sub_diag, firstn_O, app_nil_r.
Qed.
Lemma sub_front : forall {A} (a b : list A) hi, hi = size a -> sub_ (a ++ b) 0 hi = Ret a.
Proof. intros A a b hi ->. exact (sub_middle [] a b 0 (size a) eq_refl eq_refl). Qed.
Lemma sub_back : forall {A} (a b : list A) lo hi, lo = size a -> hi = size a + size b -> sub_ (a ++ b) lo hi = Ret b.
Proof. intros A a b lo hi H1 H2. rewrite <- (app_nil_r b) at 1. now apply sub_middle. Qed.
Lemma store_here : forall {A} (a : list A) x c y i, i = size a -> store_ (a ++ x :: c) i y = Ret (a ++ y :: c).
Proof.
  intros A a x c y i ->. unfold store_. rewrite size_app, size_cons. pose proof (size_nonneg a); pose proof (size_nonneg c).
  replace (_ && _) with true by lia. unfold size. rewrite Nat2Z.id. f_equal.
  rewrite firstn_app, firstn_all, Nat.sub_diag, firstn_O, app_nil_r. f_equal. f_equal.
  rewrite skipn_app. replace (S (length a) - length a)%nat with 1%nat by lia. now rewrite skipn_all2 by lia.
Qed.

(** *** utils/urlencode.go *)
Lemma low_bits : forall a b, 0 <= b < 16 -> Z.lor (Z.shiftl a 4) b = a * 16 + b.
Proof.
  intros a b H.
  assert (L : Z.land (Z.shiftl a 4) b = 0).
  { apply Z.bits_inj'. intros n Hn. rewrite Z.land_spec, Z.bits_0. destruct (Z.ltb_spec n 4) as [Q | Q].
    - now rewrite Z.shiftl_spec_low.
    - replace b with (b mod 2 ^ 4) by (apply Z.mod_small; exact H). rewrite Z.mod_pow2_bits_high by lia. apply Bool.andb_false_r. }
  rewrite <- Z.lxor_lor by exact L. rewrite <- Z.add_nocarry_lxor by exact L. now rewrite Z.shiftl_mul_pow2 by lia.
Qed.
Lemma unhex_range : forall c, 0 <= UnHex c < 16.
Proof.
  assert (F : forallb (fun n => let v := UnHex (ascii_of_nat n) in (0 <=? v) && (v <? 16)) (seq 0 256) = true) by (vm_compute; reflexivity).
  intro c. rewrite forallb_forall in F. specialize (F (nat_of_ascii c)). rewrite ascii_nat_embedding in F. cbv zeta in F.
  assert (I : In (nat_of_ascii c) (seq 0 256)) by (apply in_seq; pose proof (nat_ascii_bounded c); lia).
  specialize (F I). lia.
Qed.
Lemma uni_bits : forall a b c d,
  (let v := Z.lor (Z.shiftl (UnHex a) 4) (UnHex b) in
   if v =? 255 then Z.lor (Z.shiftl (UnHex c) 4) (UnHex d) + 32
   else let v := Z.lor (Z.shiftl v 4) (UnHex c) in Z.lor (Z.shiftl v 4) (UnHex d)) = uni_value (UnHex a) (UnHex b) (UnHex c) (UnHex d).
Proof.
  intros a b c d. pose proof (unhex_range a); pose proof (unhex_range b); pose proof (unhex_range c); pose proof (unhex_range d).
  cbv zeta. rewrite !low_bits by assumption. unfold uni_value. reflexivity.
Qed.

Lemma at_k : forall {A} (pre rest : list A) (k : nat) i, i = size pre + Z.of_nat k ->
  at_ (pre ++ rest) i = match nth_error rest k with Some c => Ret c | None => Panic end.
Proof. intros A pre rest k i ->. apply at_past. Qed.
Lemma urldecode_step : forall uni c s1,
  urldecode uni (c :: s1) =
  if Ascii.eqb c "%" then
    let malformed := let '(o, e) := urldecode uni s1 in ("%"%char :: o, e + 1) in
    let try_uni :=
      match s1 with
      | u :: h0 :: h1 :: h2 :: h3 :: s6 =>
          if uni && (Ascii.eqb u "u" || Ascii.eqb u "U") && IsHex h0 && IsHex h1 && IsHex h2 && IsHex h3
          then let '(o, e) := urldecode uni s6 in (encode_rune (uni_value (UnHex h0) (UnHex h1) (UnHex h2) (UnHex h3)) ++ o, e)
          else malformed
      | _ => malformed
      end in
    match s1 with
    | a :: b :: s3 => if IsHex a && IsHex b then let '(o, e) := urldecode uni s3 in (byte_of (UnHex a * 16 + UnHex b) :: o, e) else try_uni
    | _ => try_uni
    end
  else if Ascii.eqb c "+" then let '(o, e) := urldecode uni s1 in (SP :: o, e)
  else let '(o, e) := urldecode uni s1 in (c :: o, e).
Proof. reflexivity. Qed.
Ltac ats pre := unfold is_, hex_;
  repeat match goal with
  | |- context [at_ (pre ++ ?r) (size pre)] => rewrite (at_k pre r 0 (size pre)) by lia
  | |- context [at_ (pre ++ ?r) (size pre + 1)] => rewrite (at_k pre r 1 (size pre + 1)) by lia
  | |- context [at_ (pre ++ ?r) (size pre + 2)] => rewrite (at_k pre r 2 (size pre + 2)) by lia
  | |- context [at_ (pre ++ ?r) (size pre + 3)] => rewrite (at_k pre r 3 (size pre + 3)) by lia
  | |- context [at_ (pre ++ ?r) (size pre + 4)] => rewrite (at_k pre r 4 (size pre + 4)) by lia
  | |- context [at_ (pre ++ ?r) (size pre + 5)] => rewrite (at_k pre r 5 (size pre + 5)) by lia
  end; cbn [nth_error].
Definition told (res : bs) (errs : Z) (d : bs * Z) : out (bs * Z) := Ret (res ++ fst d, errs + snd d).
Lemma ix_urldecode_from : forall n uni rest pre s i res errs,
  s = pre ++ rest -> i = size pre -> (length rest < n)%nat -> ix_urldecode n uni s i res errs = told res errs (urldecode uni rest).
Proof.
  induction n as [|n IH]; intros uni rest pre s i res errs -> -> L; [lia|]. cbn [ix_urldecode].
  destruct rest as [|c s1].
  { rewrite app_nil_r, Z.ltb_irrefl. unfold told. cbn [urldecode fst snd]. now rewrite app_nil_r, Z.add_0_r. }
  assert (GO : forall w r o e, s1 = w ++ r -> (length r < n)%nat ->
    ix_urldecode n uni (pre ++ c :: s1) (size pre + (size w + 1)) o e = told o e (urldecode uni r)).
  { intros w r o e -> Q. apply (IH uni r (pre ++ c :: w)); [now rewrite <- app_assoc | rewrite size_app, size_cons; lia | exact Q]. }
  assert (G1 : forall o e, ix_urldecode n uni (pre ++ c :: s1) (size pre + 1) o e = told o e (urldecode uni s1)).
  { intros o e. apply (GO [] s1); [reflexivity | cbn [length] in L; lia]. }
  rewrite !size_app, !size_cons. pose proof (size_nonneg s1) as P. pose proof (size_nonneg pre) as P'.
  replace (size pre <? size pre + (size s1 + 1)) with true by lia. cbn [negb].
  rewrite urldecode_step. ats pre. cbn [bind].
  destruct (Ascii.eqb c "%") eqn:C.
  2:{ cbn [and_ bind]. replace (if uni then Ret false else Ret false) with (Ret false : out bool) by (now destruct uni). cbn [bind].
      destruct (Ascii.eqb c "+"); rewrite G1; unfold told; destruct (urldecode uni s1) as [o e]; cbn [fst snd]; now rewrite <- app_assoc. }
  assert (M : ix_urldecode n uni (pre ++ c :: s1) (size pre + 1) (res ++ ["%"%char]) (errs + 1) =
              told res errs (let '(o, e) := urldecode uni s1 in ("%"%char :: o, e + 1))).
  { rewrite G1. unfold told. destruct (urldecode uni s1) as [o e]. cbn [fst snd]. rewrite <- app_assoc. cbn [app]. f_equal. f_equal. lia. }
  cbv zeta. cbn [and_ bind].
  destruct s1 as [|a [|b s3]]; [| |].
  - replace (_ <? _) with false by (unfold size; cbn [length]; lia). replace (_ <? _) with false by (unfold size; cbn [length]; lia).
    cbn [and_ or_ bind]. destruct uni; cbn [bind]; exact M.
  - replace (_ <? _) with false by (unfold size; cbn [length]; lia). replace (_ <? _) with false by (unfold size; cbn [length]; lia).
    cbn [and_ or_ bind]. destruct uni; cbn [bind]; exact M.
  - replace (_ <? _) with true by (rewrite !size_cons; pose proof (size_nonneg s3); lia).
    cbn [and_ or_ bind].
    replace (if IsHex a then Ret (IsHex b) else Ret false) with (Ret (IsHex a && IsHex b) : out bool) by (now destruct (IsHex a)).
    destruct (IsHex a && IsHex b) eqn:HAB; cbn [bind].
    + rewrite low_bits by apply unhex_range.
      replace (size pre + 3) with (size pre + (size [a; b] + 1)) by (unfold size; cbn [length]; lia).
      rewrite (GO [a; b] s3); [|reflexivity|cbn [length] in L; lia].
      unfold told. destruct (urldecode uni s3) as [o e]. cbn [fst snd]. now rewrite <- app_assoc.
    + destruct uni; [|cbn [bind andb]; destruct s3 as [|x [|y [|z s6]]]; exact M].
      destruct s3 as [|x [|y [|z s6]]];
        try (replace (_ <? _) with false by (unfold size; cbn [length]; lia); exact M).
      replace (_ <? _) with true by (rewrite !size_cons; pose proof (size_nonneg s6); lia).
      cbn [bind andb].
      assert (G6 : forall v, ix_urldecode n true (pre ++ c :: a :: b :: x :: y :: z :: s6) (size pre + 6) (res ++ encode_rune v) errs =
                   told res errs (let '(o, e) := urldecode true s6 in (encode_rune v ++ o, e))).
      { intro v. replace (size pre + 6) with (size pre + (size [a; b; x; y; z] + 1)) by (unfold size; cbn [length]; lia).
        rewrite (GO [a; b; x; y; z] s6); [|reflexivity|cbn [length] in L; lia].
        unfold told. destruct (urldecode true s6) as [o e]. cbn [fst snd]. now rewrite <- app_assoc. }
      pose proof (uni_bits b x y z) as U. cbv zeta in U. rewrite U.
      destruct (Ascii.eqb a "u"), (Ascii.eqb a "U"), (IsHex b), (IsHex x), (IsHex y), (IsHex z); cbn [bind orb andb]; first [exact M | apply G6].
Qed.

(** The checks themselves: an element, a slice, an assignment out of range panic, and nothing else does; the second of
    two conditions is not looked at when the first decides. *)
Lemma cut_at : forall {A} (s : list A) (i : nat), (i <= length s)%nat -> exists a b, s = a ++ b /\ length a = i.
Proof. intros A s i L. exists (firstn i s), (skipn i s). split; [symmetry; apply firstn_skipn|]. rewrite firstn_length. lia. Qed.
Theorem C02_index_checks : forall A (s : list A),
  (forall i c, at_ s i = Ret c <-> exists a b, s = a ++ c :: b /\ i = Z.of_nat (length a)) /\
  (forall i, at_ s i = Panic <-> ~ 0 <= i < Z.of_nat (length s)) /\
  (forall lo hi m, sub_ s lo hi = Ret m <-> exists a b, s = a ++ m ++ b /\ lo = Z.of_nat (length a) /\ hi = Z.of_nat (length (a ++ m))) /\
  (forall lo hi, sub_ s lo hi = Panic <-> ~ (0 <= lo /\ lo <= hi /\ hi <= Z.of_nat (length s))) /\
  (forall i x s', store_ s i x = Ret s' <-> exists a y b, s = a ++ y :: b /\ i = Z.of_nat (length a) /\ s' = a ++ x :: b) /\
  (forall i x, store_ s i x = Panic <-> ~ 0 <= i < Z.of_nat (length s)) /\
  (forall b, and_ (Ret false) b = Ret false /\ and_ (Ret true) b = b /\ and_ Panic b = Panic /\ or_ (Ret true) b = Ret true /\ or_ (Ret false) b = b /\ or_ Panic b = Panic).
Proof.
  intros A s.
  assert (AT : forall (a : list A) c b, at_ (a ++ c :: b) (Z.of_nat (length a)) = Ret c).
  { intros a c b. unfold at_. replace (Z.of_nat (length a) <? 0) with false by lia. rewrite Nat2Z.id, nth_error_app2, Nat.sub_diag by lia. reflexivity. }
  assert (SU : forall (a m b : list A), sub_ (a ++ m ++ b) (Z.of_nat (length a)) (Z.of_nat (length (a ++ m))) = Ret m).
  { intros a m b. unfold sub_, size. rewrite !app_length. replace ((0 <=? Z.of_nat (length a)) && (Z.of_nat (length a) <=? Z.of_nat (length a + length m)) && (Z.of_nat (length a + length m) <=? Z.of_nat (length a + (length m + length b)))) with true by lia.
    rewrite Nat2Z.id, skipn_app, skipn_all, Nat.sub_diag. cbn [app skipn]. replace (Z.to_nat (Z.of_nat (length a + length m) - Z.of_nat (length a))) with (length m + 0)%nat by lia.
    rewrite firstn_app_2. cbn [firstn]. now rewrite app_nil_r. }
  assert (SO : forall (a : list A) y b x, store_ (a ++ y :: b) (Z.of_nat (length a)) x = Ret (a ++ x :: b)).
  { intros a y b x. unfold store_, size. rewrite app_length. cbn [length]. replace ((0 <=? Z.of_nat (length a)) && (Z.of_nat (length a) <? Z.of_nat (length a + S (length b)))) with true by lia.
    rewrite Nat2Z.id. replace (firstn (length a) (a ++ y :: b)) with a by (rewrite firstn_app, firstn_all, Nat.sub_diag; cbn [firstn]; now rewrite app_nil_r).
    replace (skipn (S (length a)) (a ++ y :: b)) with b; [reflexivity|]. change (a ++ y :: b) with (a ++ [y] ++ b). rewrite app_assoc, skipn_app, app_length. cbn [length].
    replace (S (length a) - (length a + 1))%nat with 0%nat by lia. rewrite skipn_all2; [reflexivity|]. rewrite app_length. cbn [length]. lia. }
  assert (IN : forall i, 0 <= i < Z.of_nat (length s) -> exists a y b, s = a ++ y :: b /\ i = Z.of_nat (length a)).
  { intros i R. destruct (cut_at s (Z.to_nat i)) as (a & [|y b] & E & L); [lia|rewrite E, app_nil_r in R; lia|]. exists a, y, b. split; [exact E|lia]. }
  assert (ATP : forall i, ~ 0 <= i < Z.of_nat (length s) -> at_ s i = Panic).
  { intros i R. unfold at_. destruct (Z.ltb_spec i 0) as [L|L]; [reflexivity|]. rewrite (proj2 (nth_error_None s (Z.to_nat i))); [reflexivity|lia]. }
  assert (SOP : forall i x, ~ 0 <= i < Z.of_nat (length s) -> store_ s i x = Panic).
  { intros i x R. unfold store_, size. replace ((0 <=? i) && (i <? Z.of_nat (length s))) with false by lia. reflexivity. }
  assert (SUP : forall lo hi, ~ (0 <= lo /\ lo <= hi /\ hi <= Z.of_nat (length s)) -> sub_ s lo hi = Panic).
  { intros lo hi R. unfold sub_, size. replace ((0 <=? lo) && (lo <=? hi) && (hi <=? Z.of_nat (length s))) with false by lia. reflexivity. }
  assert (MI : forall lo hi, 0 <= lo /\ lo <= hi /\ hi <= Z.of_nat (length s) -> exists a m b, s = a ++ m ++ b /\ lo = Z.of_nat (length a) /\ hi = Z.of_nat (length (a ++ m))).
  { intros lo hi R. destruct (cut_at s (Z.to_nat lo)) as (a & r & E & L); [lia|]. assert (LL : Z.of_nat (length s) = Z.of_nat (length a) + Z.of_nat (length r)) by (rewrite E, app_length; lia).
    destruct (cut_at r (Z.to_nat (hi - lo))) as (m & b & E2 & L2); [lia|]. exists a, m, b. split; [now rewrite E, E2|]. split; [lia|]. rewrite app_length. lia. }
  split; [|split; [|split; [|split; [|split; [|split]]]]].
  - intros i c. split.
    + intro H. destruct (Z_le_gt_dec 0 i) as [R|R]; [destruct (Z_lt_le_dec i (Z.of_nat (length s))) as [R2|R2]|]; try (rewrite ATP in H by lia; discriminate).
      destruct (IN i (conj R R2)) as (a & y & b & -> & ->). rewrite AT in H. injection H as <-. eauto.
    + intros (a & b & -> & ->). apply AT.
  - intro i. split; [|apply ATP]. intros H R. destruct (IN i R) as (a & y & b & -> & ->). rewrite AT in H. discriminate.
  - intros lo hi m. split.
    + intro H. destruct (Z_le_gt_dec 0 lo) as [R|R]; [destruct (Z_le_gt_dec lo hi) as [R2|R2]; [destruct (Z_le_gt_dec hi (Z.of_nat (length s))) as [R3|R3]|]|]; try (rewrite SUP in H by lia; discriminate).
      destruct (MI lo hi (conj R (conj R2 R3))) as (a & m' & b & -> & -> & ->). rewrite SU in H. injection H as <-. eauto.
    + intros (a & b & -> & -> & ->). apply SU.
  - intros lo hi. split; [|apply SUP]. intros H R. destruct (MI lo hi R) as (a & m & b & -> & -> & ->). rewrite SU in H. discriminate.
  - intros i x s'. split.
    + intro H. destruct (Z_le_gt_dec 0 i) as [R|R]; [destruct (Z_lt_le_dec i (Z.of_nat (length s))) as [R2|R2]|]; try (rewrite SOP in H by lia; discriminate).
      destruct (IN i (conj R R2)) as (a & y & b & -> & ->). rewrite SO in H. injection H as <-. exists a, y, b. auto.
    + intros (a & y & b & -> & -> & ->). apply SO.
  - intros i x. split; [|apply SOP]. intros H R. destruct (IN i R) as (a & y & b & -> & ->). rewrite SO in H. discriminate.
  - intro b. repeat split.
Qed.
Example C02_index_checks_example : at_ (B "abc") 2 = Ret "c"%char /\ at_ (B "abc") 3 = Panic /\ at_ (B "abc") (-1) = Panic /\ sub_ (B "abc") 1 3 = Ret (B "bc") /\ sub_ (B "abc") 3 3 = Ret [] /\
  sub_ (B "abc") 2 4 = Panic /\ sub_ (B "abc") 2 1 = Panic /\ store_ (B "abc") 1 "x"%char = Ret (B "axc") /\ store_ (B "abc") 3 "x"%char = Panic.
Proof. vm_compute. repeat split. Qed.
Theorem C02_no_index_panic : forall uni s, ix_urldecode (S (length s)) uni s 0 [] 0 = Ret (urldecode uni s).
Proof.
  intros uni s. rewrite (ix_urldecode_from _ uni s [] s 0 [] 0 eq_refl eq_refl) by lia. unfold told.
  destruct (urldecode uni s) as [o e]. cbn [fst snd app]. now rewrite Z.add_0_l.
Qed.
Example C02_indexed : ix_urldecode 20 true (B "a%2Fb+%u0041%uFF21%4") 0 [] 0 = Ret (B "a/b AA%4", 1) /\ ix_urldecode 20 false (B "%") 0 [] 0 = Ret (B "%", 1) /\ ix_urldecode 20 false (B "%u004") 0 [] 0 = Ret (B "%u004", 1) /\ at_ (B "%u004") 5 = Panic.
Proof. vm_compute. repeat split. Qed.
Print Assumptions C02_index_checks.
Print Assumptions C02_no_index_panic.

(** *** variables/request_basename.go *)
Lemma rev_cases : forall {A} (l : list A), l = [] \/ exists l' x, l = l' ++ [x].
Proof. intros A l. destruct l as [|a l] using rev_ind; [now left | right; now exists l, a]. Qed.
Lemma ix_strip_ends : forall fuel path, (length path < fuel)%nat -> ix_strip fuel path = Ret (rev (drop_while is_path_sep (rev path))).
Proof.
  induction fuel as [|n IH]; intros path L; [lia|]. cbn [ix_strip].
  destruct (rev_cases path) as [-> | (q & c & ->)]; [reflexivity|].
  rewrite size_app. change (size [c]) with 1. pose proof (size_nonneg q). replace (0 <? _) with true by lia. cbn [and_ bind].
  rewrite at_here by lia. cbn [bind]. rewrite rev_app_distr. change (rev [c] ++ rev q) with (c :: rev q). cbn [drop_while].
  destruct (is_path_sep c).
  - rewrite sub_front by lia. cbn [bind]. apply IH. rewrite app_length in L. cbn [length] in L. lia.
  - cbn [rev]. now rewrite rev_involutive.
Qed.
Lemma ix_back_ends : forall fuel q t, (length q < fuel)%nat ->
  exists head last, q = head ++ last /\ rev last = take_while (fun c => negb (is_path_sep c)) (rev q) /\
    ix_back fuel (q ++ t) (size q - 1) = Ret (size head - 1).
Proof.
  induction fuel as [|n IH]; intros q t L; [lia|]. cbn [ix_back].
  destruct (rev_cases q) as [-> | (r & c & ->)].
  { exists [], []. repeat split. }
  rewrite size_app. change (size [c]) with 1. pose proof (size_nonneg r). replace (0 <=? _) with true by lia. cbn [and_ bind].
  rewrite <- app_assoc. cbn [app]. rewrite at_here by lia. cbn [bind].
  rewrite rev_app_distr. change (rev [c] ++ rev r) with (c :: rev r). cbn [take_while].
  destruct (is_path_sep c) eqn:C; cbn [negb].
  - exists (r ++ [c]), []. rewrite app_nil_r, size_app. repeat split.
  - rewrite app_length in L. cbn [length] in L. destruct (IH r (c :: t) ltac:(lia)) as (h & l & -> & E & F).
    exists h, (l ++ [c]). rewrite app_assoc, rev_app_distr, <- E. repeat split.
    replace (size (h ++ l) + 1 - 1 - 1) with (size (h ++ l) - 1) by lia. exact F.
Qed.
Theorem C19_no_index_panic : forall path, ix_basename (S (length path)) path = Ret (basename path).
Proof.
  intros path. unfold ix_basename, basename. destruct path as [|c path]; [reflexivity|].
  change (bs_eqb (c :: path) []) with false. cbv iota. set (full := c :: path). clearbody full.
  rewrite ix_strip_ends by lia. cbn [bind].
  destruct (drop_while is_path_sep (rev full)) as [|d r] eqn:D; [reflexivity|].
  assert (N : bs_eqb (rev (d :: r)) [] = false).
  { destruct (rev (d :: r)) eqn:Q; [|reflexivity]. apply (f_equal (@length _)) in Q. now rewrite rev_length in Q. }
  rewrite N.
  assert (L : (length (rev (d :: r)) < S (length full))%nat).
  { assert (DW : forall p l, (length (drop_while p l) <= length l)%nat) by (intros p l; induction l as [|x l Hl]; cbn [drop_while]; [lia | destruct (p x); cbn [length] in *; lia]).
    specialize (DW is_path_sep (rev full)). rewrite D, rev_length in DW. rewrite rev_length. lia. }
  destruct (ix_back_ends (S (length full)) (rev (d :: r)) [] L) as (h & l & E & F & G). rewrite app_nil_r in G. rewrite G. cbn [bind].
  rewrite rev_involutive in F. rewrite <- F, rev_involutive. rewrite E.
  assert (X : (if 0 <=? size h - 1 then sub_ (h ++ l) (size h - 1 + 1) (size (h ++ l)) else Ret (h ++ l)) = Ret l).
  { destruct (0 <=? size h - 1) eqn:Q.
    - apply sub_back; [lia | apply size_app].
    - destruct h; [reflexivity | rewrite size_cons in Q; pose proof (size_nonneg h); lia]. }
  refine (eq_trans (f_equal (fun m : out bs => bind m (fun p : bs => Ret (if bs_eqb p [] then B "/" else p))) X) _).
  cbn [bind]. destruct l; reflexivity.
Qed.
Example C19_indexed : ix_basename 20 (B "/a/b/c.php//") = Ret (B "c.php") /\ ix_basename 20 (B "plain") = Ret (B "plain") /\ ix_basename 20 (B "///") = Ret (B "/").
Proof. vm_compute. repeat split. Qed.
Print Assumptions C19_no_index_panic.

(** *** variables/filter.go *)
Lemma ix_regex_is : forall s, ix_is_regex s = Ret (is_regex s).
Proof.
  intros s. unfold ix_is_regex, is_. destruct s as [|a r]; [reflexivity|].
  destruct (rev_cases r) as [-> | (q & z & ->)]; [reflexivity|].
  rewrite size_cons, size_app. change (size [z]) with 1. pose proof (size_nonneg q). replace (_ <? 2) with false by lia.
  rewrite (at_here (a :: q) z [] (size q + 1 + 1 - 1) ltac:(rewrite size_cons; lia) : at_ (a :: q ++ [z]) (size q + 1 + 1 - 1) = Ret z).
  change (at_ (a :: q ++ [z]) 0) with (Ret a : out ascii). cbn [bind and_].
  unfold is_regex. rewrite last_last. destruct (q ++ [z]) eqn:E; [now destruct q|]. now destruct (Ascii.eqb a "/").
Qed.
Lemma ix_inner_is : forall s, is_regex s = true -> sub_ s 1 (size s - 1) = Ret (inner s).
Proof.
  intros s R. destruct s as [|a r]; [discriminate R|]. destruct (rev_cases r) as [-> | (q & z & ->)]; [discriminate R|].
  unfold inner. cbn [tl]. rewrite removelast_last. change (a :: q ++ [z]) with ([a] ++ q ++ [z]). apply sub_middle; [reflexivity|].
  rewrite !size_app. change (size [a]) with 1. change (size [z]) with 1. lia.
Qed.
Theorem C69_no_index_panic : forall O s f,
  ix_include O s f = Ret (filter_include O s f) /\ ix_exclude O s f = Ret (filter_exclude O s f).
Proof.
  intros O s f. unfold ix_include, ix_exclude, ix_compile, filter_include, filter_exclude. rewrite ix_regex_is. cbn [bind].
  destruct (is_regex s) eqn:R; [|split; reflexivity]. rewrite (ix_inner_is _ R). cbn [bind]. destruct (rx_ok O (inner s)); split; reflexivity.
Qed.
Example C69_indexed : ix_is_regex (B "/^a/") = Ret true /\ sub_ (B "/^a/") 1 3 = Ret (B "^a") /\ ix_is_regex (B "/") = Ret false /\ ix_is_regex [] = Ret false /\
  ix_compile (demo MpErr) (B "//") = Ret (Some (if rx_ok (demo MpErr) [] then Some [] else None)).
Proof. vm_compute. repeat split. Qed.
Print Assumptions C69_no_index_panic.

(** *** seclang/parser/utils.go *)
Lemma ix_quote_is : forall s, ix_trim_quote s = Ret (trimQuote s).
Proof.
  intros s. unfold ix_trim_quote. destruct s as [|a r]; [reflexivity|].
  destruct (rev_cases r) as [-> | (q & z & ->)]; [reflexivity|].
  rewrite size_cons, size_app. change (size [z]) with 1. pose proof (size_nonneg q). replace (2 <=? _) with true by lia.
  rewrite (at_here (a :: q) z [] (size q + 1 + 1 - 1) ltac:(rewrite size_cons; lia) : at_ (a :: q ++ [z]) (size q + 1 + 1 - 1) = Ret z).
  change (at_ (a :: q ++ [z]) 0) with (Ret a : out ascii). cbn [bind and_].
  rewrite (sub_middle [a] q [z] 1 (size q + 1 + 1 - 1) eq_refl ltac:(change (size [a]) with 1; lia) : sub_ (a :: q ++ [z]) 1 (size q + 1 + 1 - 1) = Ret q).
  unfold trimQuote. rewrite last_last, removelast_last. destruct (q ++ [z]) eqn:E; [now destruct q|].
  destruct (isQuote a); cbn [bind andb]; [destruct (isQuote z)|]; reflexivity.
Qed.

(** The pieces of a string between bytes of [seps]. *)
Inductive pieces (seps : bs) : bs -> list bs -> Prop :=
| pieces_last : forall s, (forall c, In c s -> ~ In c seps) -> pieces seps s [s]
| pieces_more : forall a c s l, (forall c, In c a -> ~ In c seps) -> In c seps -> pieces seps s l -> pieces seps (a ++ c :: s) (a :: l).

Lemma index_found : forall seps s,
  match index_any seps s with
  | None => forall c, In c s -> ~ In c seps
  | Some m => exists a c r, s = a ++ c :: r /\ length a = m /\ (forall c, In c a -> ~ In c seps) /\ In c seps
  end.
Proof.
  intros seps s. induction s as [|x s IH]; cbn [index_any]; [now intros c []|].
  destruct (existsb (Ascii.eqb x) seps) eqn:E.
  - apply existsb_exists in E as (y & I & Q). apply Ascii.eqb_eq in Q as <-. exists [], x, s. repeat split; [now intros c []|exact I].
  - assert (NX : ~ In x seps).
    { intro I. rewrite <- Bool.not_true_iff_false in E. apply E. apply existsb_exists. exists x. split; [exact I|apply Ascii.eqb_refl]. }
    destruct (index_any seps s) as [m|]; cbn [option_map].
    + destruct IH as (a & c & r & -> & <- & F & I). exists (x :: a), c, r. repeat split; [|exact I]. intros d [<- | D]; [exact NX|exact (F d D)].
    + intros d [<- | D]; [exact NX|exact (IH d D)].
Qed.
Definition separators (seps s : bs) : nat := fold_left (fun n sep => (n + count_byte sep s)%nat) seps 0%nat.
Lemma fold_count : forall seps s n, fold_left (fun n sep => (n + count_byte sep s)%nat) seps n = (n + separators seps s)%nat.
Proof.
  unfold separators. induction seps as [|x seps IH]; intros s n; cbn [fold_left]; [lia|]. rewrite IH, (IH s (0 + _)%nat). lia.
Qed.
Lemma count_app : forall c a b, count_byte c (a ++ b) = (count_byte c a + count_byte c b)%nat.
Proof. intros c a b. unfold count_byte. now rewrite filter_app, app_length. Qed.
Lemma separators_found : forall seps a c s, In c seps -> (separators seps s < separators seps (a ++ c :: s))%nat.
Proof.
  intros seps a c s I. induction seps as [|x seps IH]; [contradiction|]. unfold separators. cbn [fold_left]. rewrite !fold_count. rewrite count_app.
  change (c :: s) with ([c] ++ s). rewrite count_app.
  assert (LE : (separators seps s <= separators seps (a ++ c :: s))%nat).
  { clear. induction seps as [|x seps IH]; [apply le_n|]. unfold separators. cbn [fold_left]. rewrite !fold_count, count_app.
    change (c :: s) with ([c] ++ s) at 1. rewrite count_app. lia. }
  cbn [app]. destruct I as [-> | I].
  - unfold count_byte at 3. cbn [List.filter]. rewrite Ascii.eqb_refl. cbn [length]. lia.
  - specialize (IH I). lia.
Qed.
Lemma ix_split_pieces : forall fuel seps s done room,
  (length s < fuel)%nat -> (separators seps s < length room)%nat ->
  exists l, pieces seps s l /\ ix_split_loop fuel seps (done ++ room) (size done) s = Ret (done ++ l).
Proof.
  induction fuel as [|n IH]; intros seps s done room L R; [lia|]. cbn [ix_split_loop]. cbv zeta. unfold index_.
  destruct room as [|x room]; [cbn [length] in R; lia|].
  pose proof (index_found seps s) as F. destruct (index_any seps s) as [m|].
  - destruct F as (a & c & r & -> & <- & F & I). replace (_ <? 0) with false by lia.
    rewrite sub_front by reflexivity. cbn [bind]. rewrite store_here by reflexivity. cbn [bind].
    assert (B1 : sub_ (a ++ c :: r) (Z.of_nat (length a) + 1) (size (a ++ c :: r)) = Ret r).
    { replace (a ++ c :: r) with ((a ++ [c]) ++ r) by (now rewrite <- app_assoc). apply sub_back; [now rewrite size_app|apply size_app]. }
    unfold bs in *. rewrite B1.
    cbn [bind]. rewrite app_length in L. cbn [length] in L, R.
    pose proof (separators_found seps a c r I) as LT.
    destruct (IH seps r (done ++ [a]) room ltac:(lia) ltac:(lia)) as (l & P & E).
    rewrite size_app in E. change (size [a]) with 1 in E. rewrite <- !app_assoc in E. cbn [app] in E.
    exists (a :: l). split; [now constructor|exact E].
  - replace (-1 <? 0) with true by reflexivity. rewrite store_here by reflexivity. cbn [bind].
    exists [s]. split; [now constructor|]. change (done ++ s :: room) with (done ++ [s] ++ room). rewrite app_assoc. apply sub_front.
    rewrite size_app. reflexivity.
Qed.
Lemma pieces_unique : forall seps s l, pieces seps s l -> forall l', pieces seps s l' -> l = l'.
Proof.
  intros seps s l P. induction P as [s N | a c s l N I P IH]; intros l' P'; inversion P' as [s' N' E1 E2 | a' c' s' l1 N' I' P1 E1 E2].
  - reflexivity.
  - subst. exfalso. apply (N c'); [|exact I']. apply in_or_app. right. now left.
  - subst. exfalso. apply (N' c); [|exact I]. apply in_or_app. right. now left.
  - assert (Q : a = a' /\ c :: s = c' :: s').
    { clear - E1 N N' I I'. revert a' E1 N'. induction a as [|x a IHa]; intros [|y a'] E N'.
      - now split.
      - injection E as -> E. exfalso. apply (N' c); [now left|exact I].
      - injection E as <- E. exfalso. apply (N c'); [now left|exact I'].
      - injection E as -> E. destruct (IHa (fun d D => N d (or_intror D)) a' E (fun d D => N' d (or_intror D))) as [-> Q]. now split. }
    destruct Q as [<- Q]. injection Q as <- <-. f_equal. now apply IH.
Qed.
Lemma split_multi_pieces : forall fuel count i s, (length s < fuel)%nat -> (i + separators (B ",|") s < count)%nat ->
  exists l, pieces (B ",|") s l /\ split_multi_loop fuel count i s = Ret l.
Proof.
  induction fuel as [|n IH]; intros count i s L R; [lia|]. cbn [split_multi_loop]. replace (Nat.leb count i) with false by (symmetry; apply Nat.leb_gt; lia).
  pose proof (index_found (B ",|") s) as F. destruct (index_any (B ",|") s) as [m|].
  - destruct F as (a & c & r & -> & <- & F & I). pose proof (separators_found (B ",|") a c r I). rewrite app_length in L. cbn [length] in L.
    rewrite skipn_app, (skipn_all2 (n := S (length a)) a) by lia. replace (S (length a) - length a)%nat with 1%nat by lia. cbn [skipn app].
    destruct (IH count (S i) r ltac:(lia) ltac:(lia)) as (l & P & ->). cbn [bind]. rewrite firstn_app, firstn_all, Nat.sub_diag, firstn_O, app_nil_r.
    exists (a :: l). split; [now constructor|reflexivity].
  - exists [s]. split; [now constructor|reflexivity].
Qed.
(** For any separators, the slice made beforehand is large enough, nothing is sliced out of range, and the result is the pieces. *)
Theorem C55_no_index_panic : forall s seps,
  (exists l, ix_split_multi (S (length s)) s seps = Ret l /\ pieces seps s l) /\
  ix_split_multi (S (length s)) s (B ",|") = split_multi s.
Proof.
  intros s seps.
  assert (GEN : forall seps, exists l, ix_split_multi (S (length s)) s seps = Ret l /\ pieces seps s l).
  { intros [|x seps0].
    - exists [s]. split; [reflexivity|]. constructor. now intros c _ [].
    - set (seps1 := x :: seps0). unfold ix_split_multi. replace (size seps1 =? 0) with false by (unfold seps1; rewrite size_cons; pose proof (size_nonneg seps0); lia).
      cbv zeta. rewrite fold_count.
      destruct (ix_split_pieces (S (length s)) seps1 s [] (repeat [] (1 + separators seps1 s)) ltac:(lia)) as (l & P & E).
      { rewrite repeat_length. lia. }
      exists l. split; [exact E|exact P]. }
  split; [apply GEN|]. destruct (GEN (B ",|")) as (l & -> & P). unfold split_multi.
  destruct (split_multi_pieces (S (length s)) (1 + count_byte "," s + count_byte "|" s) 0 s ltac:(lia)) as (l' & P' & ->).
  { unfold separators. cbn. lia. }
  now rewrite (pieces_unique _ _ _ P _ P').
Qed.
Example C55_indexed : ix_split_multi 20 (B "ARGS:a|!ARGS,FILES") (B ",|") = Ret [B "ARGS:a"; B "!ARGS"; B "FILES"] /\ ix_split_multi 20 (B ",,") (B ",") = Ret [[]; []; []] /\ ix_split_multi 20 (B "a,b") [] = Ret [B "a,b"].
Proof. vm_compute. repeat split. Qed.
Print Assumptions C55_no_index_panic.

(** *** seclang/parser/scanner.go *)
Lemma ix_variable_is : forall a, ix_variable a = Ret (parse_variable a).
Proof.
  intros a. unfold ix_variable, parse_variable, is_. destruct a as [|c a']; [reflexivity|].
  rewrite size_cons. pose proof (size_nonneg a'). replace (_ <? 1) with false by lia.
  change (at_ (c :: a') 0) with (Ret c : out ascii). cbn [bind].
  assert (S1 : sub_ (c :: a') 1 (size a' + 1) = Ret a').
  { change (c :: a') with ([c] ++ a'). apply sub_back; [reflexivity|change (size [c]) with 1; lia]. }
  assert (GO : forall excl count b,
    (index <- (if 0 <? index_ (B ".:") b then sub_ b (index_ (B ".:") b + 1) (size b) else Ret []) ;;
     a <- (if 0 <? index_ (B ".:") b then sub_ b 0 (index_ (B ".:") b) else Ret b) ;;
     Ret (match assoc a variableMap with None => RErr EOther | Some tk => ROk (PVar tk index count excl) end)) =
    Ret (let '(name, index) := match index_any (B ".:") b with Some (S i) => (firstn (S i) b, skipn (S (S i)) b) | _ => (b, []) end in
         match assoc name variableMap with None => RErr EOther | Some tk => ROk (PVar tk index count excl) end)).
  { intros excl count b. unfold index_. pose proof (index_found (B ".:") b) as F. destruct (index_any (B ".:") b) as [[|m]|]; [reflexivity| |reflexivity].
    destruct F as (w & d & r & -> & E & _ & _). replace (0 <? _) with true by lia.
    assert (LR : sub_ (w ++ d :: r) (Z.of_nat (S m) + 1) (size (w ++ d :: r)) = Ret r).
    { replace (w ++ d :: r) with ((w ++ [d]) ++ r) by (now rewrite <- app_assoc). apply sub_back; [rewrite size_app; unfold size; cbn [length]; lia|apply size_app]. }
    rewrite LR. cbn [bind]. rewrite sub_front by (unfold size; lia). cbn [bind].
    rewrite <- E. rewrite firstn_app, firstn_all, Nat.sub_diag, firstn_O, app_nil_r.
    change (w ++ d :: r) with (w ++ [d] ++ r). rewrite app_assoc.
    replace (S (length w)) with (length (w ++ [d])) by (rewrite app_length; cbn [length]; lia). now rewrite skipn_app, skipn_all, Nat.sub_diag. }
  cbv zeta. destruct (Ascii.eqb c "!"); cbn [bind orb andb negb].
  - rewrite S1. cbn [bind]. apply GO.
  - destruct (Ascii.eqb c "&"); cbn [bind]; [rewrite S1; cbn [bind]; apply GO | apply GO].
Qed.
Theorem C55_variables_no_index_panic : forall arg, ix_variables (S (length arg)) arg = parse_variables arg.
Proof.
  intros arg. unfold ix_variables, parse_variables. destruct arg as [|c a]; [reflexivity|]. set (arg := c :: a).
  replace (size arg =? 0) with false by (unfold arg; rewrite size_cons; pose proof (size_nonneg a); lia).
  rewrite (proj2 (C55_no_index_panic arg [])). destruct (split_multi arg) as [l| |]; [|reflexivity|reflexivity]. cbn [bind].
  clear. induction l as [|a l IH]; [reflexivity|]. cbn [ix_variable_list parse_variable_list]. rewrite ix_variable_is. cbn [bind].
  destruct (parse_variable a); [|reflexivity]. rewrite IH. reflexivity.
Qed.
Example C55_variables_indexed : ix_variables 40 (B "!ARGS:x|&FILES.,ARGS") = parse_variables (B "!ARGS:x|&FILES.,ARGS") /\ ix_variables 40 (B "!") = Ret (RErr EOther) /\
  ix_variables 40 (B "!ARGS:x") = Ret (ROk [PVar KArgs (B "x") false true]).
Proof. vm_compute. repeat split. Qed.
Print Assumptions C55_variables_no_index_panic.

Theorem C56_no_index_panic : forall op, ix_operator op = Ret (parse_operator op).
Proof.
  intros op. unfold ix_operator, parse_operator, is_. destruct op as [|c op']; [reflexivity|].
  rewrite size_cons. pose proof (size_nonneg op') as P. replace (_ =? 0) with false by lia. replace (0 <? _) with true by lia.
  change (at_ (c :: op') 0) with (Ret c : out ascii). cbn [bind and_].
  assert (S1 : sub_ (c :: op') 1 (size op' + 1) = Ret op').
  { change (c :: op') with ([c] ++ op'). apply sub_back; [reflexivity|change (size [c]) with 1; lia]. }
  assert (GO : forall not b,
    (if size b =? 0 then Ret (RErr EOther)
     else named <- (x <- at_ b 0 ;; Ret (Ascii.eqb x "@")) ;;
       if negb named then Ret (ROk (POper KRx not b))
       else op <- at_ (split_n " " b) 0 ;;
         arg <- (if 1 <? size (split_n " " b) then at_ (split_n " " b) 1 else Ret []) ;;
         op <- sub_ op 1 (size op) ;;
         Ret (match assoc op operatorMap with None => RErr EOther | Some tk => ROk (POper tk not arg) end)) =
    Ret (match b with
         | [] => RErr EOther
         | c :: _ =>
             if negb (Ascii.eqb c "@") then ROk (POper KRx not b)
             else let '(name, arg) := cut " " b in
                  let arg := match arg with Some a => a | None => [] end in
                  match assoc (tl name) operatorMap with None => RErr EOther | Some tk => ROk (POper tk not arg) end
         end)).
  { intros not b. destruct b as [|d b]; [reflexivity|]. rewrite size_cons. pose proof (size_nonneg b). replace (_ =? 0) with false by lia.
    change (at_ (d :: b) 0) with (Ret d : out ascii). cbn [bind]. destruct (Ascii.eqb d "@") eqn:D; [|reflexivity]. apply Ascii.eqb_eq in D as ->. cbn [negb].
    unfold split_n. change (cut " " ("@"%char :: b)) with (let '(x, y) := cut " " b in ("@"%char :: x, y)).
    destruct (cut " " b) as [name arg].
    assert (TL : forall n : bs, sub_ ("@"%char :: n) 1 (size ("@"%char :: n)) = Ret n).
    { intro n. change ("@"%char :: n) with (["@"%char] ++ n). apply sub_back; [reflexivity|apply size_app]. }
    destruct arg as [arg|].
    - change (at_ ["@"%char :: name; arg] 0) with (Ret ("@"%char :: name) : out bs). change (at_ ["@"%char :: name; arg] 1) with (Ret arg : out bs).
      change (1 <? size ["@"%char :: name; arg]) with true. cbn [bind]. unfold bs in *. rewrite TL. reflexivity.
    - change (at_ ["@"%char :: name] 0) with (Ret ("@"%char :: name) : out bs). change (1 <? size ["@"%char :: name]) with false.
      cbn [bind]. unfold bs in *. rewrite TL. reflexivity. }
  cbv zeta. destruct (Ascii.eqb c "!"); cbn [bind].
  - rewrite S1. cbn [bind]. apply GO.
  - apply GO.
Qed.
Example C56_indexed : ix_operator (B "!@rx a b") = Ret (ROk (POper KRx true (B "a b"))) /\ ix_operator (B "@") = Ret (RErr EOther) /\ ix_operator (B "!") = Ret (RErr EOther) /\ ix_operator (B "@rx") = Ret (ROk (POper KRx false [])).
Proof. vm_compute. repeat split. Qed.
Print Assumptions C56_no_index_panic.

Theorem C57_no_index_panic : forall act, ix_action act = Ret (parse_action act) /\ ix_trim_quote act = Ret (trimQuote act).
Proof.
  intros act. split; [|apply ix_quote_is]. unfold ix_action, parse_action, split_n. destruct (cut ":" act) as [name [arg|]].
  - change (at_ [name; arg] 0) with (Ret name : out bs). change (at_ [name; arg] 1) with (Ret arg : out bs). change (1 <? size [name; arg]) with true.
    cbn [bind]. destruct (assoc (trim_space name) actionMap); reflexivity.
  - change (at_ [name] 0) with (Ret name : out bs). change (1 <? size [name]) with false.
    cbn [bind]. destruct (assoc (trim_space name) actionMap); reflexivity.
Qed.
Example C57_indexed : ix_action (B "id:'1:2'") = Ret (ROk (KId, B "'1:2'")) /\ ix_trim_quote (B "'1:2'") = Ret (B "1:2") /\ ix_trim_quote (B "'") = Ret (B "'") /\ ix_trim_quote (B "''") = Ret [] /\ ix_action [] = Ret (RErr EOther).
Proof. vm_compute. repeat split. Qed.
Print Assumptions C57_no_index_panic.

(** *** variables/request_cookies.go *)
Lemma cut_index : forall c s, match index_any [c] s with
  | None => cut c s = (s, None)
  | Some m => exists a r, s = a ++ c :: r /\ length a = m /\ cut c s = (a, Some r)
  end.
Proof.
  intros c s. induction s as [|x s IH]; [reflexivity|]. cbn [index_any existsb cut]. rewrite Bool.orb_false_r.
  destruct (Ascii.eqb x c) eqn:E.
  - apply Ascii.eqb_eq in E as ->. now exists [], s.
  - destruct (index_any [c] s) as [m|]; cbn [option_map].
    + destruct IH as (a & r & -> & <- & C). exists (x :: a), r. now rewrite C.
    + now rewrite IH.
Qed.
Lemma ix_parts_fold : forall fuel rest done res, (length rest < fuel)%nat ->
  ix_cookie_parts fuel (done ++ rest) (size done) res = Ret (fold_left (fun m p => cookie_part p m) rest res).
Proof.
  induction fuel as [|n IH]; intros rest done res L; [lia|]. cbn [ix_cookie_parts].
  destruct rest as [|p rest].
  { rewrite app_nil_r, Z.ltb_irrefl. reflexivity. }
  rewrite size_app, size_cons. pose proof (size_nonneg rest). replace (size done <? _) with true by lia. cbn [negb].
  rewrite at_here by reflexivity. cbn [bind]. rewrite store_here by reflexivity. cbn [bind]. rewrite at_here by reflexivity. cbn [bind].
  assert (GO : forall r, ix_cookie_parts n (done ++ trim_space p :: rest) (size done + 1) r = Ret (fold_left (fun m p => cookie_part p m) rest r)).
  { intro r. replace (done ++ trim_space p :: rest) with ((done ++ [trim_space p]) ++ rest) by (now rewrite <- app_assoc).
    replace (size done + 1) with (size (done ++ [trim_space p])) by (now rewrite size_app). apply IH. cbn [length] in L. lia. }
  cbn [fold_left]. unfold cookie_part at 2. destruct (trim_space p) as [|d q] eqn:T.
  - change (size (@nil ascii) =? 0) with true. apply GO.
  - set (w := d :: q) in *. replace (size w =? 0) with false by (unfold w; rewrite size_cons; pose proof (size_nonneg q); lia).
    unfold index_. change (B "=") with ["="%char]. pose proof (cut_index "=" w) as C. destruct (index_any ["="%char] w) as [m|].
    + destruct C as (a & r & E & <- & ->). rewrite E. replace (0 <=? _) with true by lia.
      assert (LR : sub_ (a ++ "="%char :: r) (Z.of_nat (length a) + 1) (size (a ++ "="%char :: r)) = Ret r).
      { replace (a ++ "="%char :: r) with ((a ++ ["="%char]) ++ r) by (now rewrite <- app_assoc). apply sub_back; [now rewrite size_app|apply size_app]. }
      rewrite LR. cbn [bind]. rewrite sub_front by reflexivity. cbn [bind]. rewrite <- E. apply GO.
    + rewrite C. change (0 <=? -1) with false. cbn [bind]. apply GO.
Qed.
Lemma ix_line_is : forall fuel line res, (length (split ";" (trim_space line)) < fuel)%nat -> ix_cookie_line fuel line res = Ret (cookie_line line res).
Proof.
  intros fuel line res L. unfold ix_cookie_line, cookie_line. set (parts := split ";" (trim_space line)) in *. clearbody parts. cbv zeta.
  pose proof (ix_parts_fold fuel parts [] res L) as F. change ([] ++ parts) with parts in F. change (size (@nil bs)) with 0 in F. rewrite F. clear F.
  destruct parts as [|p [|q parts]].
  - reflexivity.
  - change (size [p] =? 1) with true. change (at_ [p] 0) with (Ret p : out bs). cbn [and_ bind]. destruct p; reflexivity.
  - replace (size (p :: q :: parts) =? 1) with false by (rewrite !size_cons; pose proof (size_nonneg parts); lia). cbn [and_ bind]. destruct p; reflexivity.
Qed.
Lemma split_length : forall c s, (length (split c s) <= S (length s))%nat.
Proof. intros c s. induction s as [|x s IH]; [apply le_n|]. cbn [split]. destruct (Ascii.eqb x c); [cbn [length] in *; lia|]. destruct (split c s); cbn [length] in *; lia. Qed.
(** Some number of rounds is enough for all lines, and any larger one is too. *)
Theorem C18_no_index_panic : forall h, exists n, forall fuel, (n <= fuel)%nat ->
  match assoc (B "Cookie") h with None => Ret [] | Some lines => ix_cookie_lines fuel lines [] end = Ret (read_cookie h).
Proof.
  intros h. unfold read_cookie. destruct (assoc (B "Cookie") h) as [lines|]; [|now exists 0%nat].
  assert (X : forall lines : list bs, exists n, forall l, In l lines -> (length (split ";" (trim_space l)) < n)%nat).
  { clear. induction lines as [|l lines (n & IH)]; [exists 0%nat; now intros l []|].
    exists (Nat.max n (S (length (split ";" (trim_space l))))). intros x [<- | I]; [lia|]. specialize (IH x I). lia. }
  destruct (X lines) as (n & F). exists n. intros fuel G. generalize (@nil (bs * list bs)) as res. induction lines as [|l lines IH]; intro res; [reflexivity|].
  cbn [ix_cookie_lines fold_left]. rewrite ix_line_is by (specialize (F l (or_introl eq_refl)); lia). cbn [bind]. apply IH. intros x I. apply F. now right.
Qed.
Example C18_indexed : ix_cookie_lines 20 [B "a=1; b; c=x=y;"; B ""; B ";"] [] = Ret (read_cookie [(B "Cookie", [B "a=1; b; c=x=y;"; B ""; B ";"])]) /\
  ix_cookie_lines 20 [B "a=1; b"] [] = Ret [(B "a", [B "1"]); (B "b", [[]])].
Proof. vm_compute. repeat split. Qed.
Print Assumptions C18_no_index_panic.

(** *** modsecurity/buffer.go and transaction.go *)
(** The slice of line 47 is out of range only when its bound is negative: what [buf_write] checks is all there is to check. *)
Theorem C47_index_panic_exact : forall ft p b, ix_write ft p b = buf_write ft p b.
Proof.
  intros ft p b. unfold ix_write, buf_write. change (zlen p) with (size p). destruct (b_readed b); [reflexivity|].
  destruct (b_filelimit b <? b_len b + size p); [reflexivity|]. destruct (b_file b); [reflexivity|].
  destruct (b_memlimit b <? b_len b + size p) eqn:M; [|reflexivity]. unfold sub_. cbn [Z.leb]. rewrite Z.sub_0_r.
  destruct (b_memlimit b - b_len b <? 0) eqn:K.
  - replace (_ && _) with false by lia. reflexivity.
  - replace (_ && _) with true by lia. cbn [bind skipn Z.to_nat]. reflexivity.
Qed.
Example C47_indexed : let b := Buffer 2 3 10 (B "ab") None false in
  ix_write NoFault (B "cdef") b = buf_write NoFault (B "cdef") b /\ ix_write NoFault (B "c") (Buffer 2 1 10 (B "ab") None false) = Panic.
Proof. vm_compute. repeat split. Qed.
Print Assumptions C47_index_panic_exact.

Theorem C84_no_index_panic : forall rs t, ix_current_sec_rule rs t = Ret (current_sec_rule rs t).
Proof.
  intros rs t. unfold ix_current_sec_rule, current_sec_rule. fold (size (current_phase_rules rs t)). cbv zeta.
  destruct ((size (current_phase_rules rs t) <=? t_cur t) || (t_cur t <? 0)) eqn:G; [reflexivity|]. unfold at_. replace (t_cur t <? 0) with false by lia.
  destruct (nth_error (current_phase_rules rs t) (Z.to_nat (t_cur t))) eqn:N; [reflexivity|]. apply nth_error_None in N. unfold size in G. lia.
Qed.
Example C84_indexed : let r := Rule 1 3 [] [] (Some (OpRx [])) [] false [] [] in let rs := RuleSet [(3, [r; r])] [] in
  forall t, ix_current_sec_rule rs (snd (next_rule rs (jump_to_phase 3 t))) = Ret (Some r).
Proof. intros r rs t. rewrite C84_no_index_panic. reflexivity. Qed.
Print Assumptions C84_no_index_panic.
