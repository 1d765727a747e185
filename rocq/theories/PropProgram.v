(** What engines, rule sets and transactions are after any program: C41, C65, C68. *)
From Verif Require Import Base BaseFacts GoStrings Buffer BufferFacts Types Transforms Operators Transaction Variables Rules Engine Scanner Loader
  SpecParse ParseFiles SpecLoad LoadFacts SpecTxn TxnFacts PropLoad World SpecWorld SpecProgram PropWorld Witness.
From Coq Require Import ZifyBool.

(** ** Texts *)
Lemma text_reads : forall f O n text old new ok, add_seclang f O n text old = Ret (new, ok) ->
  exists l, text_adds O n text ok l /\ new = old ++ l /\ forall old', add_seclang f O n text old' = Ret (old' ++ l, ok).
Proof.
  intros f O n text old new ok H. unfold add_seclang in H. apply bind_Ret in H as ([ds|e] & P & H).
  - apply Ret_inj in H. assert (FT : file_text ds text) by (apply parse_text_iff; eauto). destruct ok.
    + apply add_dires_iff in H as (items & l & L & A & ->). exists l. split; [econstructor; eauto|]. split; [reflexivity|].
      intro old'. unfold add_seclang. rewrite P. cbn [bind]. f_equal. apply add_dires_iff. eauto.
    + apply add_dires_false in H as (ds1 & d & ds2 & items & l & -> & L & N & A & ->). exists l. split.
      * eapply ta_some; eauto. rewrite <- dire_loads. intros [r Q]. rewrite N in Q. discriminate.
      * split; [reflexivity|]. intro old'. unfold add_seclang. rewrite P. cbn [bind]. f_equal. apply add_dires_false. exists ds1, d, ds2, items, l. auto.
  - apply Ret_inj in H. injection H as <- <-. exists []. split.
    + apply ta_none; [|intro SK; rewrite (proj1 (parse_text_stuck text) SK) in P; discriminate]. intros ds FT. pose proof (parse_text_file text ds (S (f + length text)) FT ltac:(lia)) as Y. rewrite parse_text_bos in P, Y.
      destruct (all_small f (S (f + length text)) (Scanner false text [] 1) ltac:(lia)) as [Z|Z]; congruence.
    + split; [now rewrite app_nil_r|]. intro old'. unfold add_seclang. rewrite P. cbn [bind]. now rewrite app_nil_r.
Qed.

(** ** Executing directives *)
Lemma put_length : forall A n (x : A) l, length (put n x l) = length l.
Proof. intros A. induction n as [|n IH]; intros x [|y l]; simpl; auto. Qed.
Lemma put_nth : forall A n m (x y : A) l, nth_error (put n x l) m = Some y ->
  (m = n /\ y = x /\ exists z, nth_error l m = Some z) \/ (m <> n /\ nth_error l m = Some y).
Proof.
  intros A n m x y l H. destruct (Nat.eq_dec m n) as [->|N].
  - left. split; [reflexivity|]. assert (L : (n < length l)%nat) by (rewrite <- (put_length A n x l); eapply nth_lt; eauto).
    rewrite put_same in H by exact L. injection H as <-. split; [reflexivity|]. destruct (nth_error l n) eqn:E; [eauto|]. apply nth_error_None in E. lia.
  - right. split; [exact N|]. now rewrite put_other in H by congruence.
Qed.
Lemma with_conf_inv : forall i g w w', with_conf i g w = Ret w' ->
  exists x, nth_error (w_engs w) i = Some x /\ w' = put_eng i (HEng (g (he_conf x)) (he_set x)) w.
Proof. intros i g w w' H. unfold with_conf in H. apply bind_Ret in H as (x & X & H). apply deref_Ret in X. apply Ret_inj in H as <-. eauto. Qed.
Lemma add_sec_rule_inv : forall i l w w', w_add_sec_rule i l w = Ret w' ->
  exists x j rs, nth_error (w_engs w) i = Some x /\ he_set x = Some j /\ nth_error (w_sets w) j = Some rs /\ w' = put_set j (add_rules l rs) w.
Proof.
  intros i l w w' H. unfold w_add_sec_rule in H. apply bind_Ret in H as (x & X & H). apply deref_Ret in X. destruct (he_set x) as [j|] eqn:J; [|discriminate].
  apply bind_Ret in H as (rs & R & H). apply deref_Ret in R. apply Ret_inj in H as <-. exists x, j, rs. auto.
Qed.
(** Engines that differ at most in the unused field. *)
Definition alike (e e' : engine) : Prop := set_ruleset e new_ruleset = set_ruleset e' new_ruleset.
Lemma alike_dire : forall d e e', alike e e' -> alike (execute_dire d e) (execute_dire d e').
Proof.
  unfold alike, set_ruleset. intros d [a b c d0 e f g h] [a' b' c' d' e' f' g' h'] H. cbn in H. injection H as -> -> -> -> -> -> ->.
  destruct d as [r|v|v|v]; try reflexivity. cbn [execute_dire]. destruct (v =? TriBoolTrue), (v =? TriBoolFalse), (v =? TriBoolElse); reflexivity.
Qed.
Lemma alike_execute : forall ds e e', alike e e' -> alike (execute ds e) (execute ds e').
Proof. induction ds as [|d ds IH]; intros e e' H; [exact H|]. cbn [execute fold_left]. apply IH. now apply alike_dire. Qed.
Lemma add_rules_app : forall a b rs, add_rules (a ++ b) rs = add_rules b (add_rules a rs).
Proof. induction a as [|r a IH]; intros b rs; [reflexivity|]. cbn [app add_rules]. destruct ((PhaseEnd <=? r_phase r) || (r_phase r <=? PhaseBegin)); apply IH. Qed.
Lemma executed : forall ds i w w', w_execute ds i w = Ret w' ->
  w_txns w' = w_txns w /\ w_dires w' = w_dires w /\ length (w_engs w') = length (w_engs w) /\ length (w_sets w') = length (w_sets w) /\
  (forall i' x', nth_error (w_engs w') i' = Some x' -> exists x, nth_error (w_engs w) i' = Some x /\ he_set x' = he_set x /\
     alike (he_conf x') (if Nat.eqb i' i then execute ds (he_conf x) else he_conf x)) /\
  (forall j rs', nth_error (w_sets w') j = Some rs' -> exists rs, nth_error (w_sets w) j = Some rs /\
     (forall x, nth_error (w_engs w) i = Some x -> he_set x = Some j -> rs' = add_rules (rules_of ds) rs) /\
     ((forall x, nth_error (w_engs w) i = Some x -> he_set x <> Some j) -> rs' = rs)).
Proof.
  induction ds as [|d ds IH]; intros i w w' H.
  - cbn [w_execute] in H. apply Ret_inj in H as <-. repeat split; auto.
    + intros i' x' E. exists x'. split; [exact E|]. split; [reflexivity|]. now destruct (Nat.eqb i' i).
    + intros j rs' E. exists rs'. split; [exact E|]. split; reflexivity.
  - assert (CONF : forall e, w1 <- with_conf i (execute_dire d) w ;; w_execute ds i w1 = Ret w' -> match d with IRule r => [r] | _ => [] end = [] -> e = I ->
      w_txns w' = w_txns w /\ w_dires w' = w_dires w /\ length (w_engs w') = length (w_engs w) /\ length (w_sets w') = length (w_sets w) /\
      (forall i' x', nth_error (w_engs w') i' = Some x' -> exists x, nth_error (w_engs w) i' = Some x /\ he_set x' = he_set x /\
         alike (he_conf x') (if Nat.eqb i' i then execute (d :: ds) (he_conf x) else he_conf x)) /\
      (forall j rs', nth_error (w_sets w') j = Some rs' -> exists rs, nth_error (w_sets w) j = Some rs /\
         (forall x, nth_error (w_engs w) i = Some x -> he_set x = Some j -> rs' = add_rules (rules_of (d :: ds)) rs) /\
         ((forall x, nth_error (w_engs w) i = Some x -> he_set x <> Some j) -> rs' = rs))).
    { intros _ H1 RN _. apply bind_Ret in H1 as (w1 & H1 & H2). apply with_conf_inv in H1 as (x0 & X0 & ->).
      destruct (IH _ _ _ H2) as (A1 & A2 & A3 & A4 & A5 & A6). cbn [put_eng w_engs w_sets w_dires w_txns] in *. rewrite put_length in A3. repeat split; auto.
      - intros i' x' E. destruct (A5 _ _ E) as (x1 & B1 & B2 & B3). apply put_nth in B1 as [(-> & -> & _)|(N & B1)].
        + exists x0. split; [exact X0|]. split; [exact B2|]. rewrite Nat.eqb_refl in *. exact B3.
        + exists x1. split; [exact B1|]. split; [exact B2|]. rewrite (proj2 (Nat.eqb_neq i' i) N) in *. exact B3.
      - intros j rs' E. destruct (A6 _ _ E) as (rs & B1 & B2 & B3). exists rs. split; [exact B1|].
        replace (rules_of (d :: ds)) with (rules_of ds) by (change (rules_of (d :: ds)) with (match d with IRule r => [r] | _ => [] end ++ rules_of ds); now rewrite RN). split.
        + intros x X J. rewrite X0 in X. injection X as <-. eapply B2; [apply put_same; eapply nth_lt; eauto|exact J].
        + intro N. apply B3. intros x X. apply put_nth in X as [(_ & -> & _)|(X & _)]; [apply (N _ X0)|congruence]. }
    destruct d as [r|v|v|v]; cbn [w_execute] in H; try (apply (CONF I H); reflexivity). clear CONF.
    apply bind_Ret in H as (w1 & H1 & H2). apply add_sec_rule_inv in H1 as (x0 & j0 & rs0 & X0 & J0 & R0 & ->).
    destruct (IH _ _ _ H2) as (A1 & A2 & A3 & A4 & A5 & A6). cbn [put_set w_engs w_sets w_dires w_txns] in *. rewrite put_length in A4. repeat split; auto.
    + intros i' x' E. destruct (A5 _ _ E) as (x1 & B1 & B2 & B3). exists x1. split; [exact B1|]. split; [exact B2|]. destruct (Nat.eqb i' i); [|exact B3].
      unfold alike in *. rewrite B3.
      change (execute (IRule r :: ds) (he_conf x1)) with (execute ds (execute_dire (IRule r) (he_conf x1))). apply alike_execute. reflexivity.
    + intros j rs' E. destruct (A6 _ _ E) as (rs & B1 & B2 & B3). apply put_nth in B1 as [(-> & -> & _)|(N & B1)].
      * exists rs0. split; [exact R0|]. split; [|intro Q; exfalso; exact (Q _ X0 J0)]. intros x X J. rewrite (B2 _ X J).
        change (rules_of (IRule r :: ds)) with ([r] ++ rules_of ds). now rewrite add_rules_app.
      * exists rs. split; [exact B1|]. split; [|intro Q; apply B3; exact Q]. intros x X J. rewrite X0 in X. injection X as <-. congruence.
Qed.

(** ** The account *)
Definition limits_so (sz : Z * Z * Z) (t : txn) : Prop :=
  let '(reqlimit, reqmem, reslimit) := sz in limits_of t = (reqmem, reqlimit, reslimit, reslimit).
Definition told_so (read : nat -> bs -> list dire) (past : list wop) (w : world) : Prop :=
  length (w_engs w) = engines past /\ length (w_sets w) = sets past /\ length (w_dires w) = dsets past /\
  (forall i x, nth_error (w_engs w) i = Some x -> settings read past i (he_conf x) /\ he_set x = set_of past i) /\
  (forall j rs, nth_error (w_sets w) j = Some rs -> contents read past j rs) /\
  (forall d ds, nth_error (w_dires w) d = Some ds -> ds = dires_of read past d) /\
  Forall2 (fun h x => let '(i, j, sz) := x in ht_eng h = i /\ ht_set h = j /\ limits_so sz (ht_txn h) /\ opened (ht_txn h)) (w_txns w) (txns_of past).
Lemma alike_settings : forall read past i e e', alike e e' -> settings read past i e -> settings read past i e'.
Proof.
  unfold alike, set_ruleset, settings. intros read past i [a b c d0 e f g h] [a' b' c' d' e' f' g' h'] H. cbn in *. injection H as -> -> -> -> -> -> ->. auto.
Qed.
Lemma contents_add : forall read past past' j l rs, contents read past j rs -> defaults_in past' j = defaults_in past j ->
  rules_in read past' j = rules_in read past j ++ l -> contents read past' j (add_rules l rs).
Proof.
  intros read past past' j l rs (A & B & C) D R. split; [rewrite add_rules_default; congruence|]. split; intros q Q; rewrite add_rules_phase.
  - replace ((1 <=? q) && (q <=? 6)) with true by lia. rewrite (B q Q), R, filter_app. reflexivity.
  - replace ((1 <=? q) && (q <=? 6)) with false by lia. rewrite (C q Q). reflexivity.
Qed.
Lemma contents_same : forall read past past' j rs, contents read past j rs -> defaults_in past' j = defaults_in past j ->
  rules_in read past' j = rules_in read past j -> contents read past' j rs.
Proof. intros read past past' j rs (A & B & C) D R. unfold contents. rewrite D, R. auto. Qed.
Lemma contents_new : forall read past j, defaults_in past j = [] -> rules_in read past j = [] -> contents read past j new_ruleset.
Proof. intros read past j D R. unfold contents. rewrite D, R. split; [reflexivity|]. split; reflexivity. Qed.
Lemma nth_snoc : forall A (l : list A) x n y, nth_error (l ++ [x]) n = Some y -> (n = length l /\ y = x) \/ (n <> length l /\ nth_error l n = Some y).
Proof.
  intros A l x n y H. destruct (Nat.lt_ge_cases n (length l)) as [L|L].
  - right. rewrite nth_error_app1 in H by exact L. split; [lia|exact H].
  - rewrite nth_error_app2 in H by exact L. destruct (n - length l)%nat as [|k] eqn:K; [|destruct k; discriminate]. injection H as <-. left. split; [lia|reflexivity].
Qed.
Lemma eqb_ne : forall n m, n <> m -> Nat.eqb n m = false. Proof. intros. now apply Nat.eqb_neq. Qed.
Lemma settings_same : forall read past past' i e, settings read past i e -> mode_of read past' i = mode_of read past i ->
  req_of read past' i = req_of read past i -> res_of read past' i = res_of read past i -> sizes_of past' i = sizes_of past i -> settings read past' i e.
Proof. unfold settings. intros. repeat match goal with H : _ = _ past i |- _ => rewrite H | H : _ = _ _ past i |- _ => rewrite H end. assumption. Qed.
Lemma new_txn_told : forall read past dir i j w w' b, told_so read past w -> w_new_transaction dir (Some i) (Some j) w = Ret (w', b) -> dir = true ->
  w_engs w' = w_engs w /\ w_sets w' = w_sets w /\ w_dires w' = w_dires w /\
  Forall2 (fun h x => let '(i, j, sz) := x in ht_eng h = i /\ ht_set h = j /\ limits_so sz (ht_txn h) /\ opened (ht_txn h)) (w_txns w') (txns_of past ++ [(i, j, sizes_of past i)]).
Proof.
  intros read past dir i j w w' b (_ & _ & _ & E & _ & _ & T) H ->. cbn [w_new_transaction] in H.
  apply bind_Ret in H as (x & X & H). apply bind_Ret in H as (rs & _ & H). inv_Ret H. apply deref_Ret in X. cbn [w_engs w_sets w_dires w_txns].
  repeat split; auto. apply Forall2_app; [exact T|]. constructor; [|constructor]. destruct (E _ _ X) as [(_ & _ & _ & S) _]. rewrite <- S.
  repeat split; reflexivity.
Qed.
Definition reading (f : nat) (O : oracles) (n : nat) (text : bs) : list dire :=
  match add_seclang f O n text [] with Ret (l, _) => l | _ => [] end.
Lemma reading_adds : forall f O n text old new ok, add_seclang f O n text old = Ret (new, ok) ->
  text_adds O n text ok (reading f O n text) /\ new = old ++ reading f O n text.
Proof.
  intros f O n text old new ok H. destruct (text_reads _ _ _ _ _ _ _ H) as (l & A & -> & E). unfold reading. rewrite E. split; [exact A|reflexivity].
Qed.
Lemma told_step_as : forall read f O o past w w' b,
  (forall d n text old new ok, o = WAddText d n text -> add_seclang f O n text old = Ret (new, ok) -> new = old ++ read n text) ->
  told_so read past w -> wstep f O o w = Ret (w', b) -> told_so read (o :: past) w'.
Proof.
  intros read f O o past w w' b RD T H. pose proof T as T0. destruct T as (N1 & N2 & N3 & E & S & D & X).
  assert (KEEP : forall past', engines past' = engines past -> sets past' = sets past -> dsets past' = dsets past -> w_engs w' = w_engs w -> w_sets w' = w_sets w -> w_dires w' = w_dires w ->
    (forall i, mode_of read past' i = mode_of read past i /\ req_of read past' i = req_of read past i /\
       res_of read past' i = res_of read past i /\ sizes_of past' i = sizes_of past i /\ set_of past' i = set_of past i) ->
    (forall j, rules_in read past' j = rules_in read past j /\ defaults_in past' j = defaults_in past j) ->
    (forall d, dires_of read past' d = dires_of read past d) ->
    Forall2 (fun h x => let '(i, j, sz) := x in ht_eng h = i /\ ht_set h = j /\ limits_so sz (ht_txn h) /\ opened (ht_txn h)) (w_txns w') (txns_of past') ->
    told_so read past' w').
  { intros past' A1 A2 A3 B1 B2 B3 C1 C2 C3 C4. unfold told_so. rewrite A1, A2, A3, B1, B2, B3. repeat (split; [assumption|]). split; [|split; [|split; [|exact C4]]].
    - intros i x Q. destruct (E _ _ Q) as [P P']. destruct (C1 i) as (P1 & P2 & P3 & P4 & P5). split; [|congruence].
      now apply (settings_same _ past).
    - intros j rs Q. destruct (C2 j) as [P1 P2]. now apply (contents_same _ past _ _ _ (S _ _ Q)).
    - intros d ds Q. rewrite C3. auto. }
  destruct o as [| |i j|i s|i req res l m r|i rl|j rl|j al| |d n text|d i|dir i|dir i j|k o]; cbn [wstep] in H.
  - (* new engine *) inv_Ret H. unfold told_so. cbn [w_engs w_sets w_dires w_txns engines sets dsets set_of dires_of txns_of].
    rewrite !app_length. cbn [length]. split; [lia|]. split; [lia|]. split; [exact N3|]. split; [|split; [|split; [exact D|exact X]]].
    + intros i x Q. apply nth_snoc in Q as [[-> ->]|[N Q]].
      * unfold settings. cbn [mode_of req_of res_of sizes_of he_conf he_set]. rewrite N1, N2, Nat.eqb_refl. repeat split.
      * destruct (E _ _ Q) as [P1 P2]. rewrite N1 in N. unfold settings. cbn [mode_of req_of res_of sizes_of]. rewrite (eqb_ne _ _ N). auto.
    + intros j rs Q. apply nth_snoc in Q as [[-> ->]|[N Q]].
      * apply contents_new; cbn [defaults_in rules_in]; rewrite N2, Nat.eqb_refl; reflexivity.
      * rewrite N2 in N. apply (contents_same _ _ _ _ _ (S _ _ Q)); cbn [defaults_in rules_in]; now rewrite (eqb_ne _ _ N).
  - (* new set *) inv_Ret H. unfold told_so. cbn [w_engs w_sets w_dires w_txns engines sets dsets set_of dires_of txns_of].
    rewrite !app_length. cbn [length]. split; [exact N1|]. split; [lia|]. split; [exact N3|]. split; [exact E|split; [|split; [exact D|exact X]]].
    intros j rs Q. apply nth_snoc in Q as [[-> ->]|[N Q]].
    + apply contents_new; cbn [defaults_in rules_in]; rewrite N2, Nat.eqb_refl; reflexivity.
    + rewrite N2 in N. apply (contents_same _ _ _ _ _ (S _ _ Q)); cbn [defaults_in rules_in]; now rewrite (eqb_ne _ _ N).
  - (* point *) apply bind_Ret in H as (w1 & H1 & H). inv_Ret H. apply bind_Ret in H1 as (x0 & X0 & H1). apply deref_Ret in X0. apply Ret_inj in H1 as <-.
    unfold told_so. cbn [put_eng w_engs w_sets w_dires w_txns engines sets dsets set_of dires_of txns_of]. rewrite put_length. do 3 (split; [assumption|]).
    split; [|split; [exact S|split; [exact D|exact X]]].
    intros i' x Q. apply put_nth in Q as [(-> & -> & _)|(N & Q)].
    + rewrite Nat.eqb_refl. split; [|reflexivity]. exact (proj1 (E _ _ X0)).
    + rewrite (eqb_ne _ _ N). exact (E _ _ Q).
  - (* enable *) apply bind_Ret in H as (w1 & H1 & H). inv_Ret H. apply with_conf_inv in H1 as (x0 & X0 & ->).
    unfold told_so. cbn [put_eng w_engs w_sets w_dires w_txns engines sets dsets set_of dires_of txns_of]. rewrite put_length. do 3 (split; [assumption|]).
    split; [|split; [exact S|split; [exact D|exact X]]].
    intros i' x Q. unfold settings. cbn [mode_of req_of res_of sizes_of]. apply put_nth in Q as [(-> & -> & _)|(N & Q)].
    + rewrite Nat.eqb_refl. destruct (E _ _ X0) as [(P1 & P2 & P3 & P4) P5]. split; [|exact P5]. cbn [he_conf]. destruct s; cbn; repeat split; assumption.
    + rewrite (eqb_ne _ _ N). exact (E _ _ Q).
  - (* limits *) apply bind_Ret in H as (w1 & H1 & H). inv_Ret H. apply with_conf_inv in H1 as (x0 & X0 & ->).
    unfold told_so. cbn [put_eng w_engs w_sets w_dires w_txns engines sets dsets set_of dires_of txns_of]. rewrite put_length. do 3 (split; [assumption|]).
    split; [|split; [exact S|split; [exact D|exact X]]].
    intros i' x Q. unfold settings. cbn [mode_of req_of res_of sizes_of]. apply put_nth in Q as [(-> & -> & _)|(N & Q)].
    + rewrite Nat.eqb_refl. destruct (E _ _ X0) as [(P1 & P2 & P3 & P4) P5]. split; [|exact P5]. cbn. repeat split; assumption.
    + rewrite (eqb_ne _ _ N). exact (E _ _ Q).
  - (* AddSecRule *) apply bind_Ret in H as (w1 & H1 & H). inv_Ret H. apply add_sec_rule_inv in H1 as (x0 & j0 & rs0 & X0 & J0 & R0 & ->).
    unfold told_so. cbn [put_set w_engs w_sets w_dires w_txns engines sets dsets set_of dires_of txns_of]. rewrite put_length. do 3 (split; [assumption|]).
    split; [exact E|]. split; [|split; [exact D|exact X]]. destruct (E _ _ X0) as [_ P]. rewrite J0 in P.
    intros j rs Q. apply put_nth in Q as [(-> & -> & _)|(N & Q)].
    + apply (contents_add _ past); [now apply S|reflexivity|]. cbn [rules_in]. unfold points_to. now rewrite <- P, Nat.eqb_refl.
    + apply (contents_same _ past); [now apply S|reflexivity|]. cbn [rules_in]. unfold points_to. now rewrite <- P, (eqb_ne _ _ N), app_nil_r.
  - (* AddRules *) apply bind_Ret in H as (w1 & H1 & H). inv_Ret H. apply bind_Ret in H1 as (rs0 & R0 & H1). apply deref_Ret in R0. apply Ret_inj in H1 as <-.
    unfold told_so. cbn [put_set w_engs w_sets w_dires w_txns engines sets dsets set_of dires_of txns_of]. rewrite put_length. do 3 (split; [assumption|]).
    split; [exact E|]. split; [|split; [exact D|exact X]].
    intros j' rs Q. apply put_nth in Q as [(-> & -> & _)|(N & Q)].
    + apply (contents_add _ past); [now apply S|reflexivity|]. cbn [rules_in]. now rewrite Nat.eqb_refl.
    + apply (contents_same _ past); [now apply S|reflexivity|]. cbn [rules_in]. now rewrite (eqb_ne _ _ N), app_nil_r.
  - (* AddDefaultActions *) apply bind_Ret in H as (w1 & H1 & H). inv_Ret H. apply bind_Ret in H1 as (rs0 & R0 & H1). apply deref_Ret in R0. apply Ret_inj in H1 as <-.
    unfold told_so. cbn [put_set w_engs w_sets w_dires w_txns engines sets dsets set_of dires_of txns_of]. rewrite put_length. do 3 (split; [assumption|]).
    split; [exact E|]. split; [|split; [exact D|exact X]].
    intros j' rs Q. apply put_nth in Q as [(-> & -> & _)|(N & Q)].
    + destruct (S _ _ R0) as (P1 & P2 & P3). unfold contents. cbn [defaults_in rules_in]. rewrite Nat.eqb_refl. split; [cbn; now rewrite P1|]. split; assumption.
    + apply (contents_same _ past); [now apply S| |reflexivity]. cbn [defaults_in]. now rewrite (eqb_ne _ _ N), app_nil_r.
  - (* new directive set *) inv_Ret H. unfold told_so. cbn [w_engs w_sets w_dires w_txns engines sets dsets set_of txns_of].
    rewrite app_length. cbn [length]. split; [exact N1|]. split; [exact N2|]. split; [lia|]. split; [exact E|]. split; [exact S|]. split; [|exact X].
    intros d ds Q. cbn [dires_of]. apply nth_snoc in Q as [[-> ->]|[N Q]]; [now rewrite N3, Nat.eqb_refl|]. rewrite N3 in N. rewrite (eqb_ne _ _ N). now apply D.
  - (* text *) apply bind_Ret in H as (ds0 & D0 & H). apply deref_Ret in D0. apply bind_Ret in H as ([ds' ok] & A & H). inv_Ret H.
    apply (RD _ _ _ _ _ _ eq_refl) in A as ->. unfold told_so. cbn [put_dires w_engs w_sets w_dires w_txns engines sets dsets set_of txns_of]. rewrite put_length.
    do 3 (split; [assumption|]). split; [exact E|]. split; [exact S|]. split; [|exact X].
    intros d' ds Q. cbn [dires_of]. apply put_nth in Q as [(-> & -> & _)|(N & Q)]; [rewrite Nat.eqb_refl; f_equal; now apply D|]. rewrite (eqb_ne _ _ N). now apply D.
  - (* execute *) apply bind_Ret in H as (w1 & H1 & H). inv_Ret H. apply bind_Ret in H1 as (ds & DS & H1). apply deref_Ret in DS. apply D in DS.
    assert (NE : nth_error (w_engs w) i = None -> ds = []).
    { intro XI. destruct ds as [|[r|v|v|v] ds]; [reflexivity| | | |]; cbn [w_execute] in H1; unfold w_add_sec_rule, with_conf, deref in H1; rewrite XI in H1; discriminate. }
    apply executed in H1 as (A1 & A2 & A3 & A4 & A5 & A6). unfold told_so. rewrite A1, A2, A3, A4. cbn [engines sets dsets set_of dires_of txns_of].
    do 3 (split; [assumption|]). split; [|split; [|split; [exact D|exact X]]].
    + intros i' x' Q. destruct (A5 _ _ Q) as (x & P1 & P2 & P3). destruct (E _ _ P1) as [P4 P5]. rewrite P2. split; [|exact P5].
      eapply alike_settings; [symmetry; exact P3|]. unfold settings in *. cbn [mode_of req_of res_of sizes_of]. destruct (Nat.eqb i' i); [|exact P4].
      destruct P4 as (Q1 & Q2 & Q3 & Q4). destruct (C65_execute ds (he_conf x)) as (R1 & R2 & R3 & _ & _ & _ & R4 & R5 & R6).
      rewrite R1, R2, R3, R4, R5, R6, Q1, Q2, Q3, Q4, DS. repeat split.
    + intros j rs' Q. destruct (A6 _ _ Q) as (rs & P1 & P2 & P3). apply S in P1.
      destruct (points_to past i j) eqn:PT.
      * unfold points_to in PT. destruct (nth_error (w_engs w) i) as [x|] eqn:XI.
        -- destruct (E _ _ XI) as [_ P4]. rewrite <- P4 in PT. destruct (he_set x) as [j'|] eqn:J; [|discriminate]. apply Nat.eqb_eq in PT. subst j'.
           rewrite (P2 x eq_refl J). apply (contents_add _ past); [exact P1|reflexivity|]. cbn [rules_in]. unfold points_to. now rewrite <- P4, Nat.eqb_refl, DS.
        -- rewrite P3 by discriminate. specialize (NE eq_refl). rewrite NE in DS.
           apply (contents_same _ past); [exact P1|reflexivity|]. cbn [rules_in]. rewrite <- DS. cbn [rules_of flat_map]. destruct (points_to past i j); now rewrite app_nil_r.
      * rewrite P3.
        -- apply (contents_same _ past); [exact P1|reflexivity|]. cbn [rules_in]. now rewrite PT, app_nil_r.
        -- intros x XI J. destruct (E _ _ XI) as [_ P4]. unfold points_to in PT. rewrite <- P4, J, Nat.eqb_refl in PT. discriminate.
  - (* NewTransaction *) apply bind_Ret in H as (x & XI & H). apply deref_Ret in XI. destruct (E _ _ XI) as [_ P]. destruct (he_set x) as [j|] eqn:J.
    + destruct dir.
      * destruct (new_txn_told _ _ _ _ _ _ _ _ T0 H eq_refl) as (B1 & B2 & B3 & B4). apply KEEP; try reflexivity; auto. cbn [txns_of]. now rewrite <- P.
      * cbn [w_new_transaction] in H. apply bind_Ret in H as (? & _ & H). apply bind_Ret in H as (? & _ & H). inv_Ret H. apply KEEP; try reflexivity; auto.
    + cbn [w_new_transaction] in H. inv_Ret H. apply KEEP; try reflexivity; auto. cbn [txns_of]. rewrite <- P, app_nil_r. now destruct dir.
  - (* NewTransaction of parts *) destruct i as [i|]; [|inv_Ret H; destruct dir; (apply KEEP; try reflexivity; auto)].
    destruct j as [j|]; [|inv_Ret H; destruct dir; (apply KEEP; try reflexivity; auto)]. destruct dir.
    + destruct (new_txn_told _ _ _ _ _ _ _ _ T0 H eq_refl) as (B1 & B2 & B3 & B4). apply KEEP; try reflexivity; auto.
    + cbn [w_new_transaction] in H. apply bind_Ret in H as (? & _ & H). apply bind_Ret in H as (? & _ & H). inv_Ret H. apply KEEP; try reflexivity; auto.
  - (* call *) apply bind_Ret in H as (h & HK & H). apply deref_Ret in HK. apply bind_Ret in H as (x & _ & H). apply bind_Ret in H as (rs & _ & H).
    apply bind_Ret in H as ([t' ob] & ST & H). inv_Ret H. apply KEEP; try reflexivity; auto. cbn [txns_of put_txn w_txns].
    clear - X HK ST. revert k HK. induction X as [|h0 [[i j] sz] l l' (P1 & P2 & P3 & P4) X IH]; intros [|k] HK; try discriminate.
    + injection HK as ->. cbn [put]. constructor; [|exact X]. cbn [ht_eng ht_set ht_txn]. repeat (split; [assumption|]).
      destruct (step_limits _ _ _ _ _ _ _ _ P4 ST) as [L OP]. split; [|exact OP]. unfold limits_so in *. destruct sz as [[? ?] ?]. congruence.
    + cbn [put]. constructor; [auto|]. now apply IH.
Qed.
Lemma told_step : forall f O o past w w' b, told_so (reading f O) past w -> wstep f O o w = Ret (w', b) -> told_so (reading f O) (o :: past) w'.
Proof. intros f O o past w w' b. apply told_step_as. intros d n text old new ok _ A. now apply reading_adds in A. Qed.
Lemma told_run : forall f O os past w w' bl, told_so (reading f O) past w -> wrun f O os w = Ret (w', bl) -> told_so (reading f O) (rev os ++ past) w'.
Proof.
  intros f O os. induction os as [|o os IH]; intros past w w' bl T H; cbn [wrun] in H; [inv_Ret H; exact T|].
  apply bind_Ret in H as ([w1 b] & H1 & H). apply bind_Ret in H as ([w2 bl2] & H2 & H). inv_Ret H.
  cbn [rev]. rewrite <- app_assoc. cbn [app]. eapply IH; [|exact H2]. eapply told_step; eauto.
Qed.
Lemma told_nothing : forall read, told_so read [] no_world.
Proof. intro read. unfold told_so. cbn. repeat (split; [reflexivity|]). split; [intros [|i]; discriminate|]. split; [intros [|j]; discriminate|]. split; [intros [|d]; discriminate|constructor]. Qed.
Lemma texts_run : forall f O os w w' bl, wrun f O os w = Ret (w', bl) -> texts_read O (reading f O) os bl.
Proof.
  intros f O os. induction os as [|o os IH]; intros w w' bl H; cbn [wrun] in H; [inv_Ret H; constructor|].
  apply bind_Ret in H as ([w1 b] & H1 & H). apply bind_Ret in H as ([w2 bl2] & H2 & H). inv_Ret H. constructor; [|eapply IH; exact H2].
  destruct o; try exact I. cbn [wstep] in H1. apply bind_Ret in H1 as (ds & _ & H1). apply bind_Ret in H1 as ([ds' ok] & A & H1). inv_Ret H1.
  exists ok. split; [reflexivity|]. now apply reading_adds in A.
Qed.
Lemma wrun_app : forall f O a b w w' bl, wrun f O (a ++ b) w = Ret (w', bl) ->
  exists w1 bl1 bl2, wrun f O a w = Ret (w1, bl1) /\ wrun f O b w1 = Ret (w', bl2) /\ bl = bl1 ++ bl2 /\ length bl1 = length a.
Proof.
  intros f O a. induction a as [|o a IH]; intros b w w' bl H; cbn [app wrun] in H |- *; [exists w, [], bl; auto|].
  apply bind_Ret in H as ([w1 ob] & H1 & H). apply bind_Ret in H as ([w2 bl2] & H2 & H). inv_Ret H.
  destruct (IH _ _ _ _ H2) as (w3 & l1 & l2 & A1 & A2 & -> & A3). exists w3, (ob :: l1), l2. rewrite H1. cbn [bind]. rewrite A1. cbn [bind length app]. auto.
Qed.

(** ** C65, C41, C68: the engines, rule sets, directive sets and transactions of any program *)
Theorem C65_settings_of_any_program : forall f O os w bl, wrun f O os no_world = Ret (w, bl) ->
  exists read, texts_read O read os bl /\
    length (w_engs w) = engines (rev os) /\ length (w_sets w) = sets (rev os) /\ length (w_dires w) = dsets (rev os) /\
    (forall i x, nth_error (w_engs w) i = Some x -> settings read (rev os) i (he_conf x) /\ he_set x = set_of (rev os) i) /\
    (forall j rs, nth_error (w_sets w) j = Some rs -> contents read (rev os) j rs) /\
    (forall d ds, nth_error (w_dires w) d = Some ds -> ds = dires_of read (rev os) d).
Proof.
  intros f O os w bl H. exists (reading f O). split; [eapply texts_run; eauto|].
  pose proof (told_run _ _ _ _ _ _ _ (told_nothing _) H) as T. rewrite app_nil_r in T. destruct T as (A & B & C & D & E & F & _). repeat (split; [assumption|]). assumption.
Qed.
(** Its transactions: engine and rule set as created, and limits as they were then, whatever happened since. *)
Theorem C68_transactions_of_any_program : forall f O os w bl, wrun f O os no_world = Ret (w, bl) ->
  Forall2 (fun h x => let '(i, j, (reqlimit, reqmem, reslimit)) := x in ht_eng h = i /\ ht_set h = j /\
    b_filelimit (t_reqbody (ht_txn h)) = reqlimit /\ b_memlimit (t_reqbody (ht_txn h)) = reqmem /\
    b_filelimit (t_resbody (ht_txn h)) = reslimit /\ b_memlimit (t_resbody (ht_txn h)) = reslimit) (w_txns w) (txns_of (rev os)).
Proof.
  intros f O os w bl H. pose proof (told_run _ _ _ _ _ _ _ (told_nothing _) H) as T. rewrite app_nil_r in T. destruct T as (_ & _ & _ & _ & _ & _ & T).
  induction T as [|h [[i j] [[a b] c]] l l' (P1 & P2 & P3 & _) T IH]; constructor; [|exact IH]. unfold limits_so, limits_of in P3. injection P3 as P3 P4 P5 P6. repeat split; assumption.
Qed.

(** Every answer of a transaction is decided by what the program had done before each call. *)
Lemma told_meets : forall f O k os past w w' bl l, told_so (reading f O) past w -> wrun f O os w = Ret (w', bl) -> in_force f O k os w l ->
  meets (reading f O) k past os l.
Proof.
  intros f O k os. induction os as [|o os IH]; intros past w w' bl l T H F.
  - inversion F; subst. constructor.
  - cbn [wrun] in H. apply bind_Ret in H as ([w1 b] & H1 & H). apply bind_Ret in H as ([w2 bl2] & H2 & H). inv_Ret H.
    inversion F as [|o' os' w0 wx bx h x rs l' Q1 Q2 Q3 Q4 Q5|o' os' w0 wx bx l' N Q4 Q5]; subst.
    + rewrite H1 in Q4. inv_Ret Q4. pose proof T as T'. destruct T as (_ & _ & _ & E & S & _ & X).
      assert (TX : exists i j sz, nth_error (txns_of past) k = Some (i, j, sz) /\ ht_eng h = i /\ ht_set h = j).
      { clear - X Q1. revert k Q1. induction X as [|h0 [[i j] sz] l l' (P1 & P2 & _) X IH]; intros [|k] Q; try discriminate.
        - injection Q as ->. exists i, j, sz. auto.
        - now apply IH. }
      destruct TX as (i & j & sz & TX & <- & <-). eapply me_call; [exact TX|exact (proj1 (E _ _ Q2))|exact (S _ _ Q3)|].
      eapply IH; [|exact H2|exact Q5]. eapply told_step; eauto.
    + rewrite H1 in Q4. inv_Ret Q4. apply me_other; [exact N|]. eapply IH; [|exact H2|exact Q5]. eapply told_step; eauto.
Qed.
Lemma settings_access : forall read past i e e', settings read past i e -> settings read past i e' -> same_access e e'.
Proof. intros read past i e e' (A1 & A2 & A3 & A4) (B1 & B2 & B3 & B4). rewrite <- B4 in A4. injection A4 as _ A4 _. split; [congruence|]. split; congruence. Qed.
Lemma contents_same_after : forall read past j rs rs', contents read past j rs -> contents read past j rs' -> forall m, same_after m rs rs'.
Proof.
  intros read past j rs rs' (A1 & A2 & A3) (B1 & B2 & B3) m. split; [congruence|]. intros q _.
  assert (D : 1 <= q <= 6 \/ ~ 1 <= q <= 6) by lia. destruct D as [D|D]; [rewrite A2, B2 by exact D|rewrite A3, B3 by exact D]; reflexivity.
Qed.
Lemma meets_alike : forall read k past os l, meets read k past os l -> forall l', meets read k past os l' -> Forall2 (same_view (-1)) l l'.
Proof.
  intros read k past os l H. induction H as [past|past o os i j sz e rs l T S C H IH|past o os l N H IH]; intros l' H'; inversion H'; subst; try (exfalso; eapply N; reflexivity).
  - constructor.
  - match goal with X : nth_error _ _ = Some _ |- _ => rewrite T in X; injection X as <- <- <- end.
    constructor; [|now apply IH]. split; [reflexivity|]. split; [eapply settings_access; eauto|]. split; [eapply contents_same_after; eauto|]. left. lia.
  - match goal with X : forall o', WCall _ _ <> _ |- _ => exfalso; eapply X; reflexivity end.
  - now apply IH.
Qed.
Theorem C41_every_answer_of_a_program : forall f O os1 o os2 w bl i k, makes_on i o -> wrun f O (os1 ++ o :: os2) no_world = Ret (w, bl) ->
  nth_error bl (length os1) = Some (WNew k) ->
  exists read, texts_read O read (os1 ++ o :: os2) bl /\
    (exists e l, settings read (rev os1) i e /\ meets read k (o :: rev os1) os2 l) /\
    forall e l, settings read (rev os1) i e -> meets read k (o :: rev os1) os2 l ->
      exists t', under f O l (new_txn e) = Ret (t', heard k os2 (skipn (S (length os1)) bl)) /\ map snd l = calls_on k os2.
Proof.
  intros f O os1 o os2 w bl i k MK H B. exists (reading f O). split; [eapply texts_run; eauto|].
  destruct (wrun_app _ _ _ _ _ _ _ H) as (w1 & bl1 & bl2 & H1 & H2 & -> & L). cbn [wrun] in H2.
  apply bind_Ret in H2 as ([w2 b] & S1 & H2). apply bind_Ret in H2 as ([w3 bl3] & H3 & H2). inv_Ret H2.
  rewrite nth_error_app2, <- L, Nat.sub_diag in B by lia. cbn [nth_error] in B. injection B as ->.
  replace (skipn (S (length os1)) (bl1 ++ WNew k :: bl3)) with bl3.
  2: { rewrite <- L. clear. induction bl1 as [|x l IH]; [reflexivity|]. cbn [length app skipn]. exact IH. }
  pose proof (told_run _ _ _ _ _ _ _ (told_nothing _) H1) as T1. rewrite app_nil_r in T1.
  pose proof (told_step _ _ _ _ _ _ _ T1 S1) as T2.
  assert (NEW : exists x j, nth_error (w_engs w1) i = Some x /\ nth_error (w_txns w2) k = Some (HTxn i j (new_txn (he_conf x)))).
  { assert (G : forall j, w_new_transaction true (Some i) (Some j) w1 = Ret (w2, WNew k) ->
      exists x, nth_error (w_engs w1) i = Some x /\ nth_error (w_txns w2) k = Some (HTxn i j (new_txn (he_conf x)))).
    { intros j Q. cbn [w_new_transaction] in Q. apply bind_Ret in Q as (x & X & Q). apply bind_Ret in Q as (rs & _ & Q). apply deref_Ret in X.
      apply Ret_inj in Q. injection Q as <- <-. exists x. split; [exact X|]. cbn. rewrite nth_error_app2, Nat.sub_diag by lia. reflexivity. }
    destruct MK as [->|[j ->]]; cbn [wstep] in S1.
    - apply bind_Ret in S1 as (x & X & S1). destruct (he_set x) as [j|]; [|discriminate]. destruct (G j S1) as (x' & P). exists x', j. exact P.
    - destruct (G j S1) as (x' & P). exists x', j. exact P. }
  destruct NEW as (x & j & XI & NT). destruct (C41_answers_of_own_calls f O k os2 w2 w3 bl3 _ H3 NT) as (l & t' & F & M & U & _). cbn [ht_txn] in U.
  pose proof (told_meets _ _ _ _ _ _ _ _ _ T2 H3 F) as ME. pose proof T1 as (_ & _ & _ & E & _). destruct (E _ _ XI) as [SE _].
  split; [exists (he_conf x), l; auto|]. intros e l' SE' ME'. exists t'.
  pose proof (meets_alike _ _ _ _ _ ME _ ME') as V. split.
  - rewrite <- (C30_past_rules_do_not_matter f O (-1) l l'); [|vm_compute; discriminate|exact V].
    replace (new_txn e) with (new_txn (he_conf x)); [exact U|]. destruct SE as (_ & _ & _ & A), SE' as (_ & _ & _ & B). rewrite <- B in A. injection A as A1 A2 A3. unfold new_txn. congruence.
  - rewrite <- M. clear - V. induction V as [|[[? ?] ?] [[? ?] ?] l l' (Q & _) V IH]; [reflexivity|]. cbn [map snd]. congruence.
Qed.
(** A program: limits and rules change while a transaction is under way, a text fails half way, and a second
    transaction is made on what is left. *)
Definition changing_text : bs :=
  B "SecRuleEngine On" ++ [LF] ++ B "SecRequestBodyAccess On" ++ [LF] ++ B "SecRule REQUEST_METHOD ""POST"" ""id:7,phase:2,deny""" ++ [LF] ++ B "SecRule ARGS x ""id:8,pass""".
Definition changing_program : list wop :=
  [WNewEngine; WNewDires; WLimits 0 false true 30 20 10; WNewTransaction true 0; WAddText 0 0 changing_text; WLimits 0 false true 3 2 1; WExecute 0 0;
   WCall 0 (OpRequestURL None (B "POST") []); WCall 0 (OpRequestHeader []); WCall 0 OpResult; WNewSet; WPoint 0 (Some 1%nat); WAddRules 1 [late_rule 2 501];
   WEnable 0 StatusDect; WNewTransaction true 0; WCall 1 (OpRequestURL None (B "POST") []); WCall 1 (OpRequestHeader []); WCall 1 OpResult].
Example C65_changing_example :
  exists w bl, wrun 900 (demo MpErr) changing_program no_world = Ret (w, bl) /\
    nth_error bl 4 = Some (WRead false) /\ nth_error bl 3 = Some (WNew 0) /\ nth_error bl 14 = Some (WNew 1) /\
    statuses (heard 0 changing_program bl) = [403] /\ statuses (heard 1 changing_program bl) = [501] /\
    let past := rev changing_program in
    set_of past 0 = Some 1%nat /\ mode_of (reading 900 (demo MpErr)) past 0 = (false, true) /\ req_of (reading 900 (demo MpErr)) past 0 = true /\
    sizes_of past 0 = (3, 2, 1) /\ map r_id (rules_in (reading 900 (demo MpErr)) past 0) = [7] /\
    txns_of past = [(0%nat, 0%nat, (30, 20, 10)); (0%nat, 1%nat, (3, 2, 1))].
Proof. eexists _, _. split; [vm_compute; reflexivity|]. repeat (split; [vm_compute; reflexivity|]). vm_compute. reflexivity. Qed.
Print Assumptions C65_settings_of_any_program.
Print Assumptions C68_transactions_of_any_program.
Print Assumptions C41_every_answer_of_a_program.
