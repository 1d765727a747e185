(** Everything a program sees, and exactly when it breaks down and when it hangs: C41, C78, C32. *)
From Verif Require Import Base BaseFacts GoStrings Buffer BufferFacts Types Transforms Operators Transaction Variables Rules Engine Scanner Loader
  SpecParse ParseFiles SpecLoad LoadFacts SpecTxn TxnFacts PropLoad World SpecWorld SpecProgram PropWorld PropProgram Witness
  SpecText SpecVars SpecQuery SpecRules RuleFacts SpecData SpecAnswer SpecAccount SpecChronicle ChronicleFacts PropChronicle PropParse SpecAnnals.
From Coq Require Import ZifyBool.

(** ** Texts and directives *)
Lemma text_settles : forall O n text ok l, text_adds O n text ok l -> forall f, (length text < f)%nat -> forall old, add_seclang f O n text old = Ret (old ++ l, ok).
Proof.
  intros O n text ok l H f F old. unfold add_seclang. destruct H as [ds items l FT L A|ds1 d ds2 items l FT L N A|N SK].
  - rewrite (parse_text_file _ _ _ FT F). cbn [bind]. f_equal. apply add_dires_iff. eauto.
  - rewrite (parse_text_file _ _ _ FT F). cbn [bind]. f_equal. apply add_dires_false. exists ds1, d, ds2, items, l. split; [reflexivity|]. split; [exact L|]. split; [|auto].
    destruct (dire_factory O (n + 2 * length ds1) d) eqn:Q; [|reflexivity]. elim N. apply (dire_loads O (n + 2 * length ds1)). eauto.
  - destruct (parse_text_cases text) as [X|([ds|e] & X)]; [elim (SK X)| |]; rewrite (X _ F); cbn [bind].
    + elim (N ds). apply parse_text_iff. eauto.
    + now rewrite app_nil_r.
Qed.

Lemma both_long : forall A B (P : A -> B -> Prop) l l', Forall2 P l l' -> length l = length l'.
Proof. intros A B P l l' H. induction H; cbn; congruence. Qed.
Lemma app_inj_len : forall A (a b c d : list A), a ++ b = c ++ d -> length a = length c -> a = c /\ b = d.
Proof. induction a as [|x a IH]; intros b [|y c] d H L; try discriminate; [auto|]. injection H as -> H. injection L as L. destruct (IH _ _ _ H L) as [-> ->]. auto. Qed.
Lemma deref_lt : forall A n (l : list A), (n < length l)%nat -> exists x, nth_error l n = Some x.
Proof. intros A n l H. destruct (nth_error l n) eqn:E; [eauto|]. apply nth_error_None in E. lia. Qed.
Lemma deref_at : forall A n (l : list A) x, nth_error l n = Some x -> deref n l = Ret x.
Proof. intros A n l x H. unfold deref. now rewrite H. Qed.
Lemma deref_none : forall A n (l : list A), ~ (n < length l)%nat -> deref n l = Panic.
Proof. intros A n l H. unfold deref. destruct (nth_error l n) eqn:E; [|reflexivity]. elim H. eapply nth_lt; eauto. Qed.
(** The rule set an engine points to is there. *)
Definition set_there (i : nat) (w : world) : Prop :=
  exists x j, nth_error (w_engs w) i = Some x /\ he_set x = Some j /\ (j < length (w_sets w))%nat.
Lemma execute_ok : forall ds i w, (ds <> [] -> (i < length (w_engs w))%nat) -> (rules_of ds <> [] -> set_there i w) -> exists w', w_execute ds i w = Ret w'.
Proof.
  induction ds as [|d ds IH]; intros i w E S; [cbn; eauto|].
  assert (R : exists x, nth_error (w_engs w) i = Some x) by (apply deref_lt, E; discriminate). destruct R as (x & X).
  assert (CONF : match d with IRule r => [r] | _ => [] end = [] -> exists w', w1 <- with_conf i (execute_dire d) w ;; w_execute ds i w1 = Ret w').
  { intro N. unfold with_conf. rewrite (deref_at _ _ _ _ X). cbn [bind]. apply IH; cbn [put_eng w_engs].
    - intros _. rewrite put_length. eapply nth_lt; eauto.
    - intro Q. destruct S as (x0 & j & S1 & S2 & S3); [change (rules_of (d :: ds)) with (match d with IRule r => [r] | _ => [] end ++ rules_of ds); now rewrite N|].
      exists (HEng (execute_dire d (he_conf x)) (he_set x)), j. cbn [put_eng w_engs w_sets he_set]. rewrite put_same by (eapply nth_lt; eauto). rewrite X in S1. injection S1 as <-. auto. }
  destruct d as [r|v|v|v]; cbn [w_execute]; try (apply CONF; reflexivity). clear CONF.
  destruct S as (x0 & j & S1 & S2 & S3); [discriminate|]. unfold w_add_sec_rule. rewrite (deref_at _ _ _ _ S1). cbn [bind]. rewrite S2.
  destruct (deref_lt _ _ _ S3) as (rs & RS). rewrite (deref_at _ _ _ _ RS). cbn [bind]. apply IH; cbn [put_set w_engs].
  - intros _. eapply nth_lt; eauto.
  - intros _. exists x0, j. cbn [put_set w_engs w_sets]. rewrite put_length. auto.
Qed.
Lemma execute_needs : forall ds i w w', w_execute ds i w = Ret w' -> (ds <> [] -> (i < length (w_engs w))%nat) /\ (rules_of ds <> [] -> set_there i w).
Proof.
  induction ds as [|d ds IH]; intros i w w' H; [split; intro N; elim N; reflexivity|].
  assert (CONF : match d with IRule r => [r] | _ => [] end = [] -> w1 <- with_conf i (execute_dire d) w ;; w_execute ds i w1 = Ret w' ->
    (d :: ds <> [] -> (i < length (w_engs w))%nat) /\ (rules_of (d :: ds) <> [] -> set_there i w)).
  { intros N Q. apply bind_Ret in Q as (w1 & Q1 & Q). apply with_conf_inv in Q1 as (x & X & ->). apply IH in Q as [_ Q]. split; [intros _; eapply nth_lt; eauto|].
    change (rules_of (d :: ds)) with (match d with IRule r => [r] | _ => [] end ++ rules_of ds). rewrite N. intro R. destruct (Q R) as (x0 & j & S1 & S2 & S3).
    cbn [put_eng w_engs w_sets] in *. rewrite put_same in S1 by (eapply nth_lt; eauto). injection S1 as <-. exists x, j. auto. }
  destruct d as [r|v|v|v]; cbn [w_execute] in H; try (apply CONF; [reflexivity|exact H]). clear CONF.
  apply bind_Ret in H as (w1 & H1 & H). apply add_sec_rule_inv in H1 as (x & j & rs & X & J & R & ->). split; intros _; [eapply nth_lt; eauto|].
  exists x, j. split; [exact X|]. split; [exact J|]. eapply nth_lt; eauto.
Qed.
Lemma execute_ends : forall ds i w, w_execute ds i w <> Timeout.
Proof.
  induction ds as [|d ds IH]; intros i w; [discriminate|].
  assert (C : forall g, w1 <- with_conf i g w ;; w_execute ds i w1 <> Timeout).
  { intro g. unfold with_conf, deref. destruct (nth_error (w_engs w) i); cbn [bind]; [apply IH|discriminate]. }
  destruct d; cbn [w_execute]; try apply C. unfold w_add_sec_rule, deref. destruct (nth_error (w_engs w) i) as [x|]; cbn [bind]; [|discriminate].
  destruct (he_set x) as [j|]; cbn [bind]; [|discriminate]. destruct (nth_error (w_sets w) j); cbn [bind]; [apply IH|discriminate].
Qed.

(** ** One operation other than a call *)
Definition at_hand (read : nat -> bs -> list dire) (f : nat) (O : oracles) (o : wop) : Prop :=
  forall d n text old new ok, o = WAddText d n text -> add_seclang f O n text old = Ret (new, ok) -> text_adds O n text ok (read n text) /\ new = old ++ read n text.
Definition not_call (o : wop) : Prop := forall k c, o <> WCall k c.
(** What an operation other than a call makes of the transactions. *)
Definition adds_txn (read : nat -> bs -> list dire) (past : list wop) (o : wop) (b : wobs) (w w' : world) : Prop :=
  (exists i x j k, makes_on i o /\ b = WNew k /\ nth_error (w_engs w) i = Some x /\ settings read past i (he_conf x) /\ (j < length (w_sets w))%nat /\
     w_engs w' = w_engs w /\ w_sets w' = w_sets w /\ w_txns w' = w_txns w ++ [HTxn i j (new_txn (he_conf x))]) \/
  ((forall i, makes_on i o -> b = WRefused) /\ w_txns w' = w_txns w).
Lemma makes_not : forall o, match o with WNewTransaction true _ | WNewTransactionOf true (Some _) (Some _) => False | _ => True end -> forall i, ~ makes_on i o.
Proof. intros o H i [->|(j & ->)]; exact H. Qed.
Lemma other_run : forall read f O o past w w' b, at_hand read f O o -> not_call o -> told_so read past w -> wstep f O o w = Ret (w', b) ->
  needs read past o /\ answers O read past o b /\ adds_txn read past o b w w'.
Proof.
  intros read f O o past w w' b RD NC (N1 & N2 & N3 & E & S & D & X) H.
  assert (TX : length (w_txns w) = length (txns_of past)) by (exact (both_long _ _ _ _ _ X)).
  assert (OLD : match o with WNewTransaction true _ | WNewTransactionOf true (Some _) (Some _) => False | _ => True end -> w_txns w' = w_txns w -> adds_txn read past o b w w').
  { intros M T. right. split; [|exact T]. intros i MK. elim (makes_not _ M _ MK). }
  assert (SET : forall i, set_there i w -> has_set past i).
  { intros i (x & j & P1 & P2 & P3). destruct (E _ _ P1) as [_ P]. exists j. split; [congruence|lia]. }
  assert (NEW : forall dir i j, (exists i', makes_on i' o) \/ dir = false -> w_new_transaction dir (Some i) (Some j) w = Ret (w', b) -> (dir = true -> makes_on i o) ->
    (i < engines past)%nat /\ (j < sets past)%nat /\ b = (if dir then WNew (length (txns_of past)) else WRefused) /\ adds_txn read past o b w w').
  { intros dir i j MK Q MD. cbn [w_new_transaction] in Q. apply bind_Ret in Q as (x & XI & Q). apply bind_Ret in Q as (rs & R & Q). apply deref_Ret in XI. apply deref_Ret in R.
    pose proof (nth_lt _ _ _ _ XI). pose proof (nth_lt _ _ _ _ R). split; [lia|]. split; [lia|]. destruct dir; inv_Ret Q; rewrite ?TX.
    - split; [reflexivity|]. left. exists i, x, j, (length (txns_of past)). split; [now apply MD|]. split; [reflexivity|]. split; [exact XI|]. split; [exact (proj1 (E _ _ XI))|]. auto.
    - split; [reflexivity|]. right. split; [reflexivity|reflexivity]. }
  destruct o as [| |i j|i s|i req res l m r|i rl|j rl|j al| |d n text|d i|dir i|dir i j|k o]; cbn [wstep] in H; cbn [needs].
  - inv_Ret H. split; [exact I|]. split; [rewrite N1; constructor|now apply OLD].
  - inv_Ret H. split; [exact I|]. split; [rewrite N2; constructor|now apply OLD].
  - apply bind_Ret in H as (w1 & H1 & H). inv_Ret H. apply bind_Ret in H1 as (x0 & X0 & H1). apply deref_Ret in X0. apply Ret_inj in H1 as <-.
    pose proof (nth_lt _ _ _ _ X0). split; [lia|]. split; [constructor|now apply OLD].
  - apply bind_Ret in H as (w1 & H1 & H). inv_Ret H. apply with_conf_inv in H1 as (x0 & X0 & ->). pose proof (nth_lt _ _ _ _ X0). split; [lia|]. split; [constructor|now apply OLD].
  - apply bind_Ret in H as (w1 & H1 & H). inv_Ret H. apply with_conf_inv in H1 as (x0 & X0 & ->). pose proof (nth_lt _ _ _ _ X0). split; [lia|]. split; [constructor|now apply OLD].
  - apply bind_Ret in H as (w1 & H1 & H). inv_Ret H. apply add_sec_rule_inv in H1 as (x0 & j0 & rs0 & X0 & J0 & R0 & ->). pose proof (nth_lt _ _ _ _ X0). pose proof (nth_lt _ _ _ _ R0).
    split; [split; [lia|apply SET; exists x0, j0; auto]|]. split; [constructor|now apply OLD].
  - apply bind_Ret in H as (w1 & H1 & H). inv_Ret H. apply bind_Ret in H1 as (rs0 & R0 & H1). apply deref_Ret in R0. apply Ret_inj in H1 as <-.
    pose proof (nth_lt _ _ _ _ R0). split; [lia|]. split; [constructor|now apply OLD].
  - apply bind_Ret in H as (w1 & H1 & H). inv_Ret H. apply bind_Ret in H1 as (rs0 & R0 & H1). apply deref_Ret in R0. apply Ret_inj in H1 as <-.
    pose proof (nth_lt _ _ _ _ R0). split; [lia|]. split; [constructor|now apply OLD].
  - inv_Ret H. split; [exact I|]. split; [rewrite N3; constructor|now apply OLD].
  - apply bind_Ret in H as (ds0 & D0 & H). apply deref_Ret in D0. apply bind_Ret in H as ([ds' ok] & A & H). inv_Ret H.
    pose proof (nth_lt _ _ _ _ D0). split; [lia|]. split; [|now apply OLD]. constructor. exact (proj1 (RD _ _ _ _ _ _ eq_refl A)).
  - apply bind_Ret in H as (w1 & H1 & H). inv_Ret H. apply bind_Ret in H1 as (ds & DS & H1). apply deref_Ret in DS. pose proof (nth_lt _ _ _ _ DS). apply D in DS.
    pose proof (execute_needs _ _ _ _ H1) as [Q1 Q2]. apply executed in H1 as (A1 & _). rewrite <- DS. split; [split; [lia|split; [intro Q; specialize (Q1 Q); lia|auto]]|].
    split; [constructor|now apply OLD].
  - apply bind_Ret in H as (x & XI & H). apply deref_Ret in XI. destruct (E _ _ XI) as [_ P]. pose proof (nth_lt _ _ _ _ XI). destruct (he_set x) as [j|] eqn:J.
    + destruct (NEW dir i j) as (Q1 & Q2 & -> & Q4); [destruct dir; [left; exists i; now left|now right]|exact H|intros ->; now left|].
      split; [split; [exact Q1|intros _; exists j; auto]|]. split; [|exact Q4]. destruct dir; [apply aw_new; congruence|apply aw_new_no_dir].
    + cbn [w_new_transaction] in H. inv_Ret H. split; [split; [lia|intro Q; elim Q; auto]|]. split; [apply aw_new_no_set; auto|]. right. auto.
  - destruct i as [i|]; [|inv_Ret H; split; [exact I|split; [constructor|right; auto]]].
    destruct j as [j|]; [|inv_Ret H; split; [exact I|split; [constructor|right; auto]]].
    destruct (NEW dir i j) as (Q1 & Q2 & -> & Q4); [destruct dir; [left; exists i; right; eauto|now right]|exact H|intros ->; right; eauto|].
    split; [split; assumption|]. split; [destruct dir; constructor|exact Q4].
  - elim (NC k o). reflexivity.
Qed.
Lemma answers_once : forall O read past o b b', answers O read past o b -> answers O read past o b' -> b = b'.
Proof.
  intros O read past o b b' H H'. destruct H; inversion H'; subst; try reflexivity; try congruence.
  match goal with T : text_adds _ _ _ ok _, T' : text_adds _ _ _ ?ok' _ |- _ =>
    pose proof (text_settles _ _ _ _ _ T (S (length text)) ltac:(lia) []) as A; pose proof (text_settles _ _ _ _ _ T' (S (length text)) ltac:(lia) []) as A' end.
  rewrite A in A'. apply Ret_inj in A'. injection A' as ->. reflexivity.
Qed.
Lemma text_at_hand : forall O read past o b, answers O read past o b -> exists f0, forall f, (f0 <= f)%nat -> at_hand read f O o.
Proof.
  intros O read past o b H. destruct o as [| |i j|i s|i req res l m r|i rl|j rl|j al| |d n text|d i|dir i|dir i j|k o]; try (exists 0%nat; intros f _ ? ? ? ? ? ? Q; discriminate).
  inversion H; subst. exists (S (length text)). intros f F d' n' text' old new ok' Q A. injection Q as <- <- <-.
  match goal with T : text_adds _ _ _ _ _ |- _ => pose proof (text_settles _ _ _ _ _ T f ltac:(lia) old) as A'; rewrite A' in A; apply Ret_inj in A; injection A as <- <-; split; [exact T|reflexivity] end.
Qed.
Lemma other_works : forall read O o past w b, not_call o -> told_so read past w -> needs read past o -> answers O read past o b ->
  exists f0 w' b', forall f, (f0 <= f)%nat -> wstep f O o w = Ret (w', b').
Proof.
  intros read O o past w b NC (N1 & N2 & N3 & E & S & D & X) ND AW.
  assert (EN : forall i, (i < engines past)%nat -> exists x, nth_error (w_engs w) i = Some x /\ he_set x = set_of past i).
  { intros i Q. destruct (deref_lt _ i (w_engs w)) as (x & P); [lia|]. exists x. split; [exact P|]. exact (proj2 (E _ _ P)). }
  assert (SE : forall j, (j < sets past)%nat -> exists rs, nth_error (w_sets w) j = Some rs) by (intros j Q; apply deref_lt; lia).
  assert (NT : forall dir i j, (i < engines past)%nat -> (j < sets past)%nat -> exists w' b', w_new_transaction dir (Some i) (Some j) w = Ret (w', b')).
  { intros dir i j Q1 Q2. destruct (EN _ Q1) as (x & P & _). destruct (SE _ Q2) as (rs & R). cbn [w_new_transaction]. rewrite (deref_at _ _ _ _ P), (deref_at _ _ _ _ R). cbn [bind]. destruct dir; eauto. }
  destruct o as [| |i j|i s|i req res l m r|i rl|j rl|j al| |d n text|d i|dir i|dir i j|k o]; cbn [wstep]; cbn [needs] in ND.
  - eexists 0%nat, _, _. reflexivity.
  - eexists 0%nat, _, _. reflexivity.
  - destruct (EN _ ND) as (x & P & _). eexists 0%nat, _, _. intros f _. rewrite (deref_at _ _ _ _ P). reflexivity.
  - destruct (EN _ ND) as (x & P & _). eexists 0%nat, _, _. intros f _. unfold with_conf. rewrite (deref_at _ _ _ _ P). reflexivity.
  - destruct (EN _ ND) as (x & P & _). eexists 0%nat, _, _. intros f _. unfold with_conf. rewrite (deref_at _ _ _ _ P). reflexivity.
  - destruct ND as (ND & j & J & JL). destruct (EN _ ND) as (x & P & PS). destruct (SE _ JL) as (rs & R). eexists 0%nat, _, _. intros f _. unfold w_add_sec_rule.
    rewrite (deref_at _ _ _ _ P). cbn [bind]. rewrite PS, J, (deref_at _ _ _ _ R). reflexivity.
  - destruct (SE _ ND) as (rs & R). eexists 0%nat, _, _. intros f _. rewrite (deref_at _ _ _ _ R). reflexivity.
  - destruct (SE _ ND) as (rs & R). eexists 0%nat, _, _. intros f _. rewrite (deref_at _ _ _ _ R). reflexivity.
  - eexists 0%nat, _, _. reflexivity.
  - inversion AW; subst. destruct (deref_lt _ d (w_dires w)) as (ds & P); [lia|]. eexists (Datatypes.S (length text)), _, _. intros f F. rewrite (deref_at _ _ _ _ P). cbn [bind].
    match goal with T : text_adds _ _ _ _ _ |- _ => rewrite (text_settles _ _ _ _ _ T f F) end. reflexivity.
  - destruct ND as (ND & ND1 & ND2). destruct (deref_lt _ d (w_dires w)) as (ds & P); [lia|]. pose proof (D _ _ P) as DS. rewrite <- DS in ND1, ND2.
    destruct (execute_ok ds i w) as (w' & W).
    + rewrite N1. exact ND1.
    + intro Q. destruct (ND2 Q) as (j & J & JL). assert (NE : ds <> []) by (intros ->; elim Q; reflexivity). destruct (EN _ (ND1 NE)) as (x & PX & PS).
      exists x, j. split; [exact PX|]. split; [congruence|lia].
    + exists 0%nat, w', WNone. intros f _. rewrite (deref_at _ _ _ _ P). cbn [bind]. rewrite W. reflexivity.
  - destruct ND as (ND & ND1). destruct (EN _ ND) as (x & P & PS). destruct (set_of past i) as [j0|] eqn:J.
    + destruct ND1 as (j & J' & JL); [congruence|]. destruct (NT dir i j ND JL) as (w' & b' & W). exists 0%nat, w', b'. intros f _. rewrite (deref_at _ _ _ _ P). cbn [bind]. rewrite PS. rewrite J' in J. injection J as <-. exact W.
    + eexists 0%nat, _, _. intros f _. rewrite (deref_at _ _ _ _ P). cbn [bind]. rewrite PS. reflexivity.
  - destruct i as [i|]; [|eexists 0%nat, _, _; reflexivity]. destruct j as [j|]; [|eexists 0%nat, _, _; reflexivity].
    destruct ND as (Q1 & Q2). destruct (NT dir i j Q1 Q2) as (w' & b' & W). exists 0%nat, w', b'. intros f _. exact W.
  - elim (NC k o). reflexivity.
Qed.
Lemma other_complete : forall read O o past w b, not_call o -> told_so read past w -> needs read past o -> answers O read past o b ->
  exists f0 w', forall f, (f0 <= f)%nat -> wstep f O o w = Ret (w', b) /\ at_hand read f O o.
Proof.
  intros read O o past w b NC T ND AW. destruct (other_works _ _ _ _ _ _ NC T ND AW) as (f0 & w' & b' & W). destruct (text_at_hand _ _ _ _ _ AW) as (f1 & TH).
  exists (f0 + f1)%nat, w'. intros f F. specialize (W f ltac:(lia)). specialize (TH f ltac:(lia)). split; [|exact TH].
  destruct (other_run _ _ _ _ _ _ _ _ TH NC T W) as (_ & AW' & _). now rewrite (answers_once _ _ _ _ _ _ AW AW').
Qed.
(** Nothing but reading a text can go on for ever. *)
Lemma other_ends : forall f O o w, not_call o -> (forall d n text, o <> WAddText d n text) -> wstep f O o w <> Timeout.
Proof.
  assert (NT : forall dir i j w, w_new_transaction dir i j w <> Timeout).
  { intros dir [i|] [j|] w; cbn [w_new_transaction]; try discriminate. unfold deref. destruct (nth_error (w_engs w) i); cbn [bind]; [|discriminate].
    destruct (nth_error (w_sets w) j); cbn [bind]; [|discriminate]. destruct dir; discriminate. }
  intros f O o w NC TX. destruct o as [| |i j|i s|i req res l m r|i rl|j rl|j al| |d n text|d i|dir i|dir i j|k o]; cbn [wstep]; try discriminate; unfold with_conf, deref.
  - destruct (nth_error (w_engs w) i); discriminate.
  - destruct (nth_error (w_engs w) i); discriminate.
  - destruct (nth_error (w_engs w) i); discriminate.
  - unfold w_add_sec_rule, deref. destruct (nth_error (w_engs w) i) as [x|]; cbn [bind]; [|discriminate]. destruct (he_set x) as [j|]; [|discriminate]. destruct (nth_error (w_sets w) j); discriminate.
  - destruct (nth_error (w_sets w) j); discriminate.
  - destruct (nth_error (w_sets w) j); discriminate.
  - elim (TX d n text). reflexivity.
  - destruct (nth_error (w_dires w) d) as [ds|]; cbn [bind]; [|discriminate]. destruct (w_execute ds i w) eqn:Q; try discriminate. elim (execute_ends _ _ _ Q).
  - destruct (nth_error (w_engs w) i); cbn [bind]; [apply NT|discriminate].
  - apply NT.
  - elim (NC k o). reflexivity.
Qed.
Lemma other_stops : forall read f O o past w, not_call o -> told_so read past w -> ~ needs read past o -> wstep f O o w = Panic.
Proof.
  intros read f O o past w NC T ND. assert (TX : (exists d n text, o = WAddText d n text) \/ forall d n text, o <> WAddText d n text).
  { destruct o; try (right; discriminate). left. eauto. }
  destruct TX as [(d & n & text & ->)|TX].
  - destruct T as (_ & _ & N3 & _). cbn [wstep]. cbn [needs] in ND. rewrite deref_none by lia. reflexivity.
  - destruct (wstep f O o w) as [[w' b]| |] eqn:W; [|reflexivity|elim (other_ends _ _ _ _ NC TX W)]. elim ND.
    refine (proj1 (other_run read f O o past w w' b _ NC T W)). intros d n text old new ok Q. elim (TX _ _ _ Q).
Qed.
Lemma other_panics : forall read f O o past w, not_call o -> told_so read past w -> wstep f O o w = Panic -> ~ needs read past o.
Proof.
  intros read f O o past w NC T W ND. assert (TX : (exists d n text, o = WAddText d n text) \/ exists b, answers O read past o b).
  { destruct o as [| |i j|i s|i req res l m r|i rl|j rl|j al| |d n text|d i|dir i|dir i j|k o]; try (right; eexists; constructor; fail); [left; eauto| | |elim (NC k o); reflexivity]; right.
    - destruct (set_of past i) eqn:Q; [destruct dir|]; eexists; [apply aw_new; congruence|apply aw_new_no_dir|now apply aw_new_no_set].
    - destruct i as [i|]; [destruct j as [j|]; [destruct dir|]|]; eexists; constructor. }
  destruct TX as [(d & n & text & ->)|(b & AW)].
  - destruct T as (_ & _ & N3 & _). cbn [wstep] in W. cbn [needs] in ND. destruct (deref_lt _ d (w_dires w)) as (ds & P); [lia|]. rewrite (deref_at _ _ _ _ P) in W. cbn [bind] in W.
    unfold add_seclang in W. destruct (parse_text f text) as [[ds'|e]| |] eqn:Q; cbn [bind] in W; try discriminate; [|elim (C53_no_panic _ _ Q)].
    destruct (add_dires O n ds' None ds). discriminate.
  - destruct (other_works _ _ _ _ _ _ NC T ND AW) as (f0 & w' & b' & W'). specialize (W' f0 ltac:(lia)).
    assert (FF : (exists d n text, o = WAddText d n text) \/ wstep f O o w = wstep f0 O o w) by (destruct o; try (right; reflexivity); [left; eauto|elim (NC k o); reflexivity]).
    destruct FF as [(d & n & text & ->)|FF]; [|congruence].
    destruct T as (_ & _ & N3 & _). cbn [wstep] in W. cbn [needs] in ND. destruct (deref_lt _ d (w_dires w)) as (ds & P); [lia|]. rewrite (deref_at _ _ _ _ P) in W. cbn [bind] in W.
    unfold add_seclang in W. destruct (parse_text f text) as [[ds'|e]| |] eqn:Q; cbn [bind] in W; try discriminate; [|elim (C53_no_panic _ _ Q)].
    destruct (add_dires O n ds' None ds). discriminate.
Qed.

(** ** All operations *)
Definition goes_with (w : world) (xs : facts * standing) (h : htxn) : Prop :=
  told (snd xs) (ht_txn h) /\ facts_of (ht_txn h) = fst xs /\ (ht_eng h < length (w_engs w))%nat /\ (ht_set h < length (w_sets w))%nat.
Definition recorded (read : nat -> bs -> list dire) (past : list wop) (ts : under_way) (w : world) : Prop :=
  told_so read past w /\ Forall2 (goes_with w) ts (w_txns w).
Lemma goes_with_more : forall w w' ts hs, (length (w_engs w) <= length (w_engs w'))%nat -> (length (w_sets w) <= length (w_sets w'))%nat ->
  Forall2 (goes_with w) ts hs -> Forall2 (goes_with w') ts hs.
Proof. intros w w' ts hs L1 L2 H. induction H as [|xs h ts hs (A & B & C & D) H IH]; constructor; [|exact IH]. unfold goes_with. repeat (split; [solve [assumption|lia]|]). lia. Qed.
Lemma count_more : forall o past, (engines past <= engines (o :: past))%nat /\ (sets past <= sets (o :: past))%nat.
Proof. intros o past. destruct o; cbn [engines sets]; lia. Qed.
Lemma start_same : forall read past i e e', settings read past i e -> settings read past i e' -> start e = start e'.
Proof. intros read past i e e' (_ & _ & _ & A) (_ & _ & _ & B). rewrite <- B in A. injection A as A1 A2 A3. unfold start, new_bodies. congruence. Qed.
Lemma other_recorded : forall read f O o past ts w w' b, at_hand read f O o -> not_call o -> recorded read past ts w -> wstep f O o w = Ret (w', b) ->
  (exists i e, makes_on i o /\ (exists k, b = WNew k) /\ settings read past i e /\ recorded read (o :: past) (ts ++ [(no_facts, start e)]) w') \/
  ((forall i, makes_on i o -> b = WRefused) /\ recorded read (o :: past) ts w').
Proof.
  intros read f O o past ts w w' b RD NC (T & F) W. destruct (other_run _ _ _ _ _ _ _ _ RD NC T W) as (_ & _ & AD).
  assert (T' : told_so read (o :: past) w') by (eapply told_step_as; [|exact T|exact W]; intros d n text old new ok Q A; exact (proj2 (RD _ _ _ _ _ _ Q A))).
  pose proof (count_more o past) as [L1 L2]. pose proof T as (N1 & N2 & _). pose proof T' as (N1' & N2' & _).
  assert (MORE : Forall2 (goes_with w') ts (w_txns w)) by (apply (goes_with_more w); [lia|lia|exact F]).
  destruct AD as [(i & x & j & k & MK & -> & XI & SE & JL & Q1 & Q2 & Q3)|(MK & Q)].
  - left. exists i, (he_conf x). split; [exact MK|]. split; [eauto|]. split; [exact SE|]. split; [exact T'|]. rewrite Q3. apply Forall2_app; [exact MORE|]. constructor; [|constructor].
    unfold goes_with. cbn [fst snd ht_txn ht_eng ht_set]. split; [apply start_told|]. split; [apply start_facts|]. rewrite Q1, Q2. split; [eapply nth_lt; eauto|exact JL].
  - right. split; [exact MK|]. split; [exact T'|]. now rewrite Q.
Qed.
Lemma pair_split : forall A B (P : A -> B -> Prop) l l' k y, Forall2 P l l' -> nth_error l' k = Some y ->
  exists l1 x l2, l = l1 ++ x :: l2 /\ length l1 = k /\ P x y /\ forall x' y', P x' y' -> Forall2 P (l1 ++ x' :: l2) (put k y' l').
Proof.
  intros A B P l l' k y H. revert k. induction H as [|a b l l' Q H IH]; intros [|k] E; try discriminate.
  - injection E as ->. exists [], a, l. repeat (split; [solve [reflexivity|assumption]|]). intros x' y' R. cbn [app put]. now constructor.
  - destruct (IH _ E) as (l1 & x & l2 & -> & <- & R1 & R2). exists (a :: l1), x, l2. repeat (split; [solve [reflexivity|assumption]|]). intros x' y' R. cbn [app put]. constructor; auto.
Qed.
Lemma call_there : forall read past ts w k c, recorded read past ts w -> needs read past (WCall k c) ->
  exists h x rs ts1 s ts2, nth_error (w_txns w) k = Some h /\ told s (ht_txn h) /\ in_effect read past k (he_conf x) rs /\
    ts = ts1 ++ (facts_of (ht_txn h), s) :: ts2 /\ length ts1 = k /\
    (forall f O, wstep f O (WCall k c) w = ('(t', b) <- Engine.step f O (he_conf x) rs c (ht_txn h) ;; Ret (put_txn k (HTxn (ht_eng h) (ht_set h) t') w, WAnswer b))) /\
    forall f O s' t' b, Engine.step f O (he_conf x) rs c (ht_txn h) = Ret (t', b) -> told s' t' -> facts_of t' = learns c (facts_of (ht_txn h)) ->
      recorded read (WCall k c :: past) (ts1 ++ (learns c (facts_of (ht_txn h)), s') :: ts2) (put_txn k (HTxn (ht_eng h) (ht_set h) t') w).
Proof.
  intros read past ts w k c (T & F) ND. cbn [needs] in ND. pose proof T as (N1 & N2 & N3 & E & S & D & X). rewrite <- (both_long _ _ _ _ _ X) in ND.
  destruct (deref_lt _ _ _ ND) as (h & HK). destruct (pair_split _ _ _ _ _ _ _ F HK) as (ts1 & [x0 s] & ts2 & -> & L & (G1 & G2 & G3 & G4) & PUT). cbn [fst snd] in *. subst x0.
  destruct (deref_lt _ _ _ G3) as (x & XI). destruct (deref_lt _ _ _ G4) as (rs & RI). exists h, x, rs, ts1, s, ts2. split; [exact HK|]. split; [exact G1|].
  assert (IE : in_effect read past k (he_conf x) rs).
  { clear - X HK E S XI RI. assert (Q : exists i j sz, nth_error (txns_of past) k = Some (i, j, sz) /\ ht_eng h = i /\ ht_set h = j).
    { revert k HK. induction X as [|h0 [[i j] sz] l l' (P1 & P2 & _) X IH]; intros [|k] Q; try discriminate; [injection Q as ->; exists i, j, sz; auto|now apply IH]. }
    destruct Q as (i & j & sz & Q & <- & <-). exists (ht_eng h), (ht_set h), sz. split; [exact Q|]. split; [exact (proj1 (E _ _ XI))|exact (S _ _ RI)]. }
  split; [exact IE|]. split; [reflexivity|]. split; [exact L|].
  assert (W : forall f O, wstep f O (WCall k c) w = ('(t', b) <- Engine.step f O (he_conf x) rs c (ht_txn h) ;; Ret (put_txn k (HTxn (ht_eng h) (ht_set h) t') w, WAnswer b))).
  { intros f O. cbn [wstep]. rewrite (deref_at _ _ _ _ HK). cbn [bind]. rewrite (deref_at _ _ _ _ XI). cbn [bind]. rewrite (deref_at _ _ _ _ RI). reflexivity. }
  split; [exact W|]. intros f O s' t' b ST TO FE. split.
  - apply (told_step_as read f O (WCall k c) past w _ (WAnswer b)); [discriminate|exact T|]. rewrite W, ST. reflexivity.
  - cbn [put_txn w_txns]. apply (PUT (learns c (facts_of (ht_txn h)), s') (HTxn (ht_eng h) (ht_set h) t')). unfold goes_with. cbn [fst snd ht_txn ht_eng ht_set put_txn w_engs w_sets]. auto.
Qed.
(** Settings and rules told the same way are the same to a call. *)
Lemma effect_same : forall read past k e rs e' rs' f O c t, in_effect read past k e rs -> in_effect read past k e' rs' -> 0 <= t_phase t ->
  Engine.step f O e rs c t = Engine.step f O e' rs' c t.
Proof.
  intros read past k e rs e' rs' f O c t (i & j & sz & Q & S & C) (i' & j' & sz' & Q' & S' & C') P. rewrite Q in Q'. injection Q' as <- <- <-.
  apply (step_alike f O 0); [eapply settings_access; eauto|eapply contents_same_after; eauto|left; lia|exact P].
Qed.
Section All.
Variables (O : oracles) (V : ord_valid O).
Lemma step_forward : forall read f o past ts w, at_hand read f O o -> recorded read past ts w ->
  match wstep f O o w with
  | Ret (w', b) => exists ts', proceeds O read past ts o ts' b /\ recorded read (o :: past) ts' w'
  | Panic => stops O read past ts o
  | Timeout => True
  end.
Proof.
  intros read f o past ts w RD R. assert (NC : (exists k c, o = WCall k c) \/ not_call o) by (destruct o; try (right; intros k' c'; discriminate); left; eauto).
  destruct NC as [(k & c & ->)|NC].
  - assert (ND : needs read past (WCall k c) \/ ~ needs read past (WCall k c)) by (cbn [needs]; lia). destruct ND as [ND|ND].
    + destruct (call_there _ _ _ _ _ c R ND) as (h & x & rs & ts1 & s & ts2 & HK & TO & IE & -> & <- & W & NX). rewrite W. clear W.
      pose proof (step_run O (he_conf x) rs V f c s (ht_txn h) TO) as SR. destruct (Engine.step f O (he_conf x) rs c (ht_txn h)) as [[t' b]| |] eqn:ST; cbn [bind]; [| |exact I].
      * destruct SR as (s' & G & TO' & FE). exists (ts1 ++ (learns c (facts_of (ht_txn h)), s') :: ts2). split; [eapply pr_call; eassumption|]. exact (NX _ _ _ _ _ ST TO' FE).
      * eapply so_call; eassumption.
    + destruct R as ((_ & _ & _ & _ & _ & _ & X) & _). cbn [wstep]. pose proof (both_long _ _ _ _ _ X) as LX. rewrite deref_none by (cbn [needs] in ND; lia). now apply so_nothing.
  - destruct (wstep f O o w) as [[w' b]| |] eqn:W; [| |exact I].
    + destruct (other_run _ _ _ _ _ _ _ _ RD NC (proj1 R) W) as (ND & AW & _).
      destruct (other_recorded _ _ _ _ _ _ _ _ _ RD NC R W) as [(i & e & MK & (k & ->) & SE & R')|(MK & R')].
      * exists (ts ++ [(no_facts, start e)]). split; [eapply pr_new; eassumption|exact R'].
      * exists ts. split; [now apply pr_other|exact R'].
    + apply so_nothing. eapply other_panics; [exact NC|exact (proj1 R)|exact W].
Qed.
Lemma made_not_call : forall o b read past, answers O read past o b -> not_call o.
Proof. intros o b read past H k c ->. inversion H. Qed.
Lemma step_back : forall read o past ts w ts' b, recorded read past ts w -> proceeds O read past ts o ts' b ->
  exists f0 w', (forall f, (f0 <= f)%nat -> wstep f O o w = Ret (w', b)) /\ recorded read (o :: past) ts' w'.
Proof.
  intros read o past ts w ts' b R H. destruct H as [ts o k i e ND AW MK SE|ts o b ND AW MK|ts1 x s ts2 c b e rs s' IE G].
  - pose proof (made_not_call _ _ _ _ AW) as NC. destruct (other_complete _ _ _ _ _ _ NC (proj1 R) ND AW) as (f0 & w' & W). exists f0, w'. split; [intros f F; apply (W f F)|].
    destruct (W f0 ltac:(lia)) as [W0 TH]. destruct (other_recorded _ _ _ _ _ _ _ _ _ TH NC R W0) as [(i' & e' & MK' & _ & SE' & R')|(MK' & _)]; [|specialize (MK' _ MK); discriminate].
    assert (I : i' = i) by (destruct MK as [->|(j & ->)], MK' as [Q|(j' & Q)]; congruence). subst i'. now rewrite (start_same _ _ _ _ _ SE SE').
  - pose proof (made_not_call _ _ _ _ AW) as NC. destruct (other_complete _ _ _ _ _ _ NC (proj1 R) ND AW) as (f0 & w' & W). exists f0, w'. split; [intros f F; apply (W f F)|].
    destruct (W f0 ltac:(lia)) as [W0 TH]. destruct (other_recorded _ _ _ _ _ _ _ _ _ TH NC R W0) as [(i' & e' & MK' & (k & Q) & SE' & R')|(MK' & R')]; [|exact R'].
    specialize (MK _ MK'). congruence.
  - assert (ND : needs read past (WCall (length ts1) c)) by (destruct IE as (i & j & sz & Q & _); cbn [needs]; eapply nth_lt; eauto).
    destruct (call_there _ _ _ _ _ c R ND) as (h & x0 & rs0 & ts3 & s0 & ts4 & HK & TO & IE0 & EQ & LE & W & NX).
    apply app_inj_len in EQ as [-> EQ]; [|auto]. injection EQ as -> -> ->.
    destruct (step_complete O e rs V c s0 (ht_txn h) s' b TO G) as (f0 & t' & ST & TO' & FE). pose proof TO as (_ & P & _).
    exists f0, (put_txn (length ts3) (HTxn (ht_eng h) (ht_set h) t') w).
    assert (ST' : forall f, (f0 <= f)%nat -> Engine.step f O (he_conf x0) rs0 c (ht_txn h) = Ret (t', b)).
    { intros f F. rewrite <- (ST f F). eapply effect_same; eassumption. }
    split; [intros f F; rewrite W, (ST' f F); reflexivity|]. eapply NX; [exact (ST' f0 ltac:(lia))|exact TO'|exact FE].
Qed.
Lemma step_stops : forall read o past ts w, recorded read past ts w -> stops O read past ts o -> exists f0, forall f, (f0 <= f)%nat -> wstep f O o w = Panic.
Proof.
  intros read o past ts w R H. destruct H as [ts o ND|ts1 x s ts2 c e rs IE G].
  - exists 0%nat. intros f _. assert (NC : (exists k c, o = WCall k c) \/ not_call o) by (destruct o; try (right; intros k' c'; discriminate); left; eauto).
    destruct NC as [(k & c & ->)|NC]; [|exact (other_stops _ _ _ _ _ _ NC (proj1 R) ND)].
    destruct R as ((_ & _ & _ & _ & _ & _ & X) & _). cbn [wstep]. pose proof (both_long _ _ _ _ _ X) as LX. rewrite deref_none by (cbn [needs] in ND; lia). reflexivity.
  - assert (ND : needs read past (WCall (length ts1) c)) by (destruct IE as (i & j & sz & Q & _); cbn [needs]; eapply nth_lt; eauto).
    destruct (call_there _ _ _ _ _ c R ND) as (h & x0 & rs0 & ts3 & s0 & ts4 & HK & TO & IE0 & EQ & LE & W & _).
    apply app_inj_len in EQ as [-> EQ]; [|auto]. injection EQ as -> -> ->.
    destruct (step_break O e rs V c s0 (ht_txn h) TO G) as (f0 & ST). pose proof TO as (_ & P & _). exists f0. intros f F. rewrite W.
    rewrite (effect_same _ _ _ _ _ e rs f O c (ht_txn h) IE0 IE P), (ST f F). reflexivity.
Qed.

(** ** Programs *)
Lemma run_forward : forall f os past ts w, recorded (reading f O) past ts w ->
  match wrun f O os w with
  | Ret (w', bl) => annals O (reading f O) past ts os bl
  | Panic => collapses O (reading f O) past ts os
  | Timeout => True
  end.
Proof.
  intros f os. induction os as [|o os IH]; intros past ts w R; cbn [wrun]; [constructor|].
  assert (RD : at_hand (reading f O) f O o) by (intros d n text old new ok _ A; now apply reading_adds in A).
  pose proof (step_forward _ f o past ts w RD R) as S1. destruct (wstep f O o w) as [[w1 b]| |]; cbn [bind]; [|now apply co_here|exact I].
  destruct S1 as (ts' & P & R'). specialize (IH _ _ _ R'). destruct (wrun f O os w1) as [[w2 bl]| |]; cbn [bind]; [eapply an_cons; eassumption|eapply co_later; eassumption|exact I].
Qed.
Lemma run_back : forall read past ts os bl, annals O read past ts os bl -> forall w, recorded read past ts w ->
  exists f0 w', forall f, (f0 <= f)%nat -> wrun f O os w = Ret (w', bl).
Proof.
  intros read past ts os bl H. induction H as [past ts|past ts o ts' b os bl P H IH]; intros w R; [exists 0%nat, w; reflexivity|].
  destruct (step_back _ _ _ _ _ _ _ R P) as (f0 & w1 & S1 & R1). destruct (IH _ R1) as (f1 & w2 & S2). exists (f0 + f1)%nat, w2.
  intros f F. cbn [wrun]. rewrite S1 by lia. cbn [bind]. rewrite S2 by lia. reflexivity.
Qed.
Lemma run_collapse : forall read past ts os, collapses O read past ts os -> forall w, recorded read past ts w -> exists f0, forall f, (f0 <= f)%nat -> wrun f O os w = Panic.
Proof.
  intros read past ts os H. induction H as [past ts o os P|past ts o ts' b os P H IH]; intros w R.
  - destruct (step_stops _ _ _ _ _ R P) as (f0 & S1). exists f0. intros f F. cbn [wrun]. now rewrite S1.
  - destruct (step_back _ _ _ _ _ _ _ R P) as (f0 & w1 & S1 & R1). destruct (IH _ R1) as (f1 & S2). exists (f0 + f1)%nat.
    intros f F. cbn [wrun]. rewrite S1 by lia. cbn [bind]. rewrite S2 by lia. reflexivity.
Qed.
End All.
Lemma recorded_nothing : forall read, recorded read [] [] no_world.
Proof. intro read. split; [apply told_nothing|constructor]. Qed.

(** ** C41, C78, C32: everything any program sees; exactly when it breaks down and when it hangs *)
Theorem C41_every_program : forall O os bl, ord_valid O ->
  ((exists f w, wrun f O os no_world = Ret (w, bl)) <-> exists read, annals O read [] [] os bl).
Proof.
  intros O os bl V. split.
  - intros (f & w & H). exists (reading f O). pose proof (run_forward O V f os [] [] no_world (recorded_nothing _)) as W. rewrite H in W. exact W.
  - intros (read & H). destruct (run_back O V _ _ _ _ _ H _ (recorded_nothing read)) as (f & w & X). exists f, w. now apply X.
Qed.
(** With any more time the same; and nothing else is ever seen. *)
Theorem C41_every_program_settles : forall O os bl read, ord_valid O -> annals O read [] [] os bl ->
  (exists f0 w, forall f, (f0 <= f)%nat -> wrun f O os no_world = Ret (w, bl)) /\
  (forall read' bl', annals O read' [] [] os bl' -> bl' = bl) /\ forall read', ~ collapses O read' [] [] os.
Proof.
  intros O os bl read V H. destruct (run_back O V _ _ _ _ _ H _ (recorded_nothing read)) as (f & w & X). split; [eauto|]. split.
  - intros read' bl' H'. destruct (run_back O V _ _ _ _ _ H' _ (recorded_nothing read')) as (f' & w' & X').
    specialize (X (f + f')%nat ltac:(lia)). specialize (X' (f + f')%nat ltac:(lia)). rewrite X in X'. apply Ret_inj in X'. now injection X' as _ <-.
  - intros read' H'. destruct (run_collapse O V _ _ _ _ H' _ (recorded_nothing read')) as (f' & X').
    specialize (X (f + f')%nat ltac:(lia)). specialize (X' (f + f')%nat ltac:(lia)). congruence.
Qed.
Theorem C78_program_breaks_exactly : forall O os, ord_valid O ->
  ((exists f, wrun f O os no_world = Panic) <-> exists read, collapses O read [] [] os).
Proof.
  intros O os V. split.
  - intros (f & H). exists (reading f O). pose proof (run_forward O V f os [] [] no_world (recorded_nothing _)) as W. rewrite H in W. exact W.
  - intros (read & H). destruct (run_collapse O V _ _ _ _ H _ (recorded_nothing read)) as (f & X). exists f. now apply X.
Qed.
Theorem C32_program_hangs_exactly : forall O os, ord_valid O ->
  ((forall f, wrun f O os no_world = Timeout) <-> forall read, (forall bl, ~ annals O read [] [] os bl) /\ ~ collapses O read [] [] os).
Proof.
  intros O os V. split.
  - intros H read. split; [intros bl A; assert (E : exists read, annals O read [] [] os bl) by eauto; apply (C41_every_program O os bl V) in E as (f & w & E)|
      intro A; assert (E : exists read, collapses O read [] [] os) by eauto; apply (C78_program_breaks_exactly O os V) in E as (f & E)]; now rewrite H in E.
  - intros N f. destruct (N (reading f O)) as [N1 N2]. pose proof (run_forward O V f os [] [] no_world (recorded_nothing _)) as W.
    destruct (wrun f O os no_world) as [[w bl]| |]; [elim (N1 _ W)|elim (N2 W)|reflexivity].
Qed.
(** The program of C65_changing_example has its annals; one that gives a rule to an engine whose rule set was taken away
    breaks down; one that reads a text with a stray backslash hangs. *)
Example C41_every_program_example :
  (exists read bl, annals (demo MpErr) read [] [] changing_program bl /\ statuses (heard 0 changing_program bl) = [403] /\ statuses (heard 1 changing_program bl) = [501]) /\
  (exists read, collapses (demo MpErr) read [] [] [WNewEngine; WPoint 0 None; WEnable 0 StatusOn; WAddSecRule 0 [late_rule 2 501]]) /\
  (forall read, (forall bl, ~ annals (demo MpErr) read [] [] [WNewDires; WAddText 0 0 (B "SecRuleEngine \x")] bl) /\
     ~ collapses (demo MpErr) read [] [] [WNewDires; WAddText 0 0 (B "SecRuleEngine \x")]).
Proof.
  split; [|split].
  - destruct C65_changing_example as (w & bl & H & _ & _ & _ & S1 & S2 & _). assert (E : exists f w, wrun f (demo MpErr) changing_program no_world = Ret (w, bl)) by eauto.
    apply (C41_every_program _ _ _ (demo_ord MpErr)) in E as (read & A). exists read, bl. auto.
  - apply (C78_program_breaks_exactly _ _ (demo_ord MpErr)). exists 9%nat. vm_compute. reflexivity.
  - apply (C32_program_hangs_exactly _ _ (demo_ord MpErr)). intro f. cbn [wrun wstep bind]. unfold deref. cbn [no_world w_dires app nth_error bind].
    unfold add_seclang. destruct C53_terminates_refuted as (text & -> & H). rewrite H. reflexivity.
Qed.
Print Assumptions C41_every_program.
Print Assumptions C41_every_program_settles.
Print Assumptions C78_program_breaks_exactly.
Print Assumptions C32_program_hangs_exactly.
