(** Every answer of any history on a body buffer: C48, C49, C50, C88, C91. *)
From Verif Require Import Base BaseFacts Buffer BufferFacts SpecBuffer SpecTape.
From Coq Require Import ZifyBool.

(** ** Pieces *)
Lemma reaches_fun : forall st n n', reaches st n -> reaches st n' -> n = n'.
Proof.
  intros st n n' [A|x I N A] [B|y J M B].
  - reflexivity.
  - elim M. now apply A.
  - elim N. now apply B.
  - specialize (A y J M). specialize (B x I N). lia.
Qed.
Lemma byte_at_fun : forall st i c c', byte_at st i c -> byte_at st i c' -> c = c'.
Proof.
  intros st i c c' A B. destruct A as [st1 x st2 c E C N L|n N R L].
  - destruct B as [st1' x' st2' c' E' C' N' L'|n' N' R' L'].
    + assert (Q : st1 = st1' /\ x = x' /\ st2 = st2').
      { rewrite E in E'. clear - E' C C' L L'. revert st1' E'. induction st1 as [|y st1 IH]; intros [|y' st1'] E'; cbn in E'.
        - injection E' as -> ->. auto.
        - injection E' as -> ->. elim (L x'); [apply in_or_app; right; now left|exact C'].
        - injection E' as -> <-. elim (L' x); [apply in_or_app; right; now left|exact C].
        - injection E' as -> E'. destruct (IH _ E') as (-> & -> & ->). auto. }
      destruct Q as (_ & -> & _). congruence.
    + elim (N' x); [rewrite E; apply in_or_app; right; now left|exact C].
  - destruct B as [st1' x' st2' c' E' C' N' L'|n' N' R' L']; [|reflexivity].
    elim (N x'); [rewrite E'; apply in_or_app; right; now left|exact C'].
Qed.
Lemma nth_ext : forall (a b : bs), (forall i c, nth_error a i = Some c <-> nth_error b i = Some c) -> a = b.
Proof.
  induction a as [|x a IH]; intros [|y b] H.
  - reflexivity.
  - specialize (H 0%nat y). cbn in H. destruct H as [_ H]. specialize (H eq_refl). discriminate.
  - specialize (H 0%nat x). cbn in H. destruct H as [H _]. specialize (H eq_refl). discriminate.
  - assert (Q : y = x) by (pose proof (proj1 (H 0%nat x) eq_refl) as Q; now injection Q). subst y. f_equal. apply IH. intros i c. exact (H (S i) c).
Qed.
Lemma text_fun : forall st t t', reads_as_text st t -> reads_as_text st t' -> t = t'.
Proof. intros st t t' [_ A] [_ B]. apply nth_ext. intros i c. now rewrite A, B. Qed.
Lemma whole_fun : forall mem w t t', whole mem w t -> whole mem w t' -> t = t'.
Proof. intros mem w t t' A B. destruct A; inversion B; subst; [reflexivity|eapply text_fun; eauto]. Qed.
(** Storing one more piece. *)
Lemma file_write_text : forall st f p, reads_as_text st (f_data f) -> reads_as_text (st ++ [(f_off f, p)]) (f_data (file_write f p)).
Proof.
  intros st [d o] p [R T]. cbn [f_data f_off] in *. unfold file_write. cbn [f_data f_off].
  destruct p as [|c0 p0] eqn:P.
  { cbn [f_data]. split.
    - destruct R as [A|x I N A].
      + apply rc_nowhere. intros x I. apply in_app_or in I as [I|[<-|[]]]; auto.
      + apply rc_piece; [apply in_or_app; now left|exact N|]. intros y J M. apply in_app_or in J as [J|[<-|[]]]; [auto|]. now elim M.
    - intros i c. rewrite T. split; intro H.
      + destruct H as [st1 x st2 c E C N L|n N R' L].
        * eapply ba_piece with (st1 := st1) (st2 := st2 ++ [(o, [])]); eauto.
          { rewrite E, <- app_assoc. reflexivity. }
          { intros y J. apply in_app_or in J as [J|[<-|[]]]; [auto|]. unfold covers. cbn. lia. }
        * apply ba_gap with (n := n); [|  |exact L].
          { intros x J. apply in_app_or in J as [J|[<-|[]]]; [auto|]. unfold covers. cbn. lia. }
          { destruct R' as [A|x I N' A].
            + apply rc_nowhere. intros x I. apply in_app_or in I as [I|[<-|[]]]; auto.
            + apply rc_piece; [apply in_or_app; now left|exact N'|]. intros y J M. apply in_app_or in J as [J|[<-|[]]]; [auto|]. now elim M. }
      + destruct H as [st1 x st2 c E C N L|n N R' L].
        * destruct st2 as [|z st2 _] using rev_ind.
          { apply app_inj_tail in E as [-> <-]. unfold covers in C. cbn in C. lia. }
          { rewrite app_comm_cons, app_assoc in E. apply app_inj_tail in E as [-> <-]. eapply ba_piece; eauto.
            intros y J. apply L. apply in_or_app. now left. }
        * apply ba_gap with (n := n); [|  |exact L].
          { intros x J. apply N. apply in_or_app. now left. }
          { destruct R' as [A|x I N' A].
            + apply rc_nowhere. intros x I. apply A. apply in_or_app. now left.
            + apply in_app_or in I as [I|[<-|[]]]; [|now elim N']. apply rc_piece; auto. intros y J M. apply A; [apply in_or_app; now left|exact M]. } }
  rewrite <- P. assert (PL : (0 < length p)%nat) by (subst p; cbn; lia). assert (PN : p <> []) by (subst p; discriminate). clear P c0 p0.
  cbn [f_data]. set (t := firstn o d ++ repeat NUL (o - length d) ++ p ++ skipn (o + length p) d).
  assert (LT : length t = Nat.max (length d) (o + length p)).
  { unfold t. rewrite !app_length, firstn_length, repeat_length, skipn_length. lia. }
  assert (REACH : reaches (st ++ [(o, p)]) (length t)).
  { rewrite LT. destruct (Nat.le_gt_cases (length d) (o + length p)) as [G|G].
    - replace (Nat.max _ _) with (fst (o, p) + length (snd (o, p)))%nat by (cbn; lia). apply rc_piece; [apply in_or_app; right; now left|exact PN|].
      intros y J M. cbn [fst snd]. apply in_app_or in J as [J|[<-|[]]]; [|cbn; lia].
      destruct R as [A|x I N A]; [elim M; now apply A|]. specialize (A y J M). lia.
    - replace (Nat.max _ _) with (length d) by lia. remember (length d) as n eqn:En. destruct R as [A|x I N A]; [lia|].
      apply rc_piece; [apply in_or_app; now left|exact N|]. intros y J M. apply in_app_or in J as [J|[<-|[]]]; [auto|]. cbn. lia. }
  split; [exact REACH|].
  (* the byte at i *)
  assert (NTH : forall i, nth_error t i =
    if Nat.ltb i o then (if Nat.ltb i (length d) then nth_error d i else Some NUL)
    else if Nat.ltb i (o + length p) then nth_error p (i - o) else nth_error d i).
  { intro i. unfold t. destruct (Nat.ltb_spec i o) as [G|G].
    - destruct (Nat.ltb_spec i (length d)) as [G'|G'].
      + rewrite nth_error_app1 by (rewrite firstn_length; lia). rewrite <- (firstn_skipn o d) at 2.
        rewrite nth_error_app1 by (rewrite firstn_length; lia). reflexivity.
      + rewrite nth_error_app2 by (rewrite firstn_length; lia). rewrite firstn_length.
        rewrite nth_error_app1 by (rewrite repeat_length; lia).
        destruct (nth_error (repeat NUL (o - length d)) (i - Nat.min o (length d))) eqn:E.
        * apply nth_error_In, repeat_spec in E. now subst.
        * apply nth_error_None in E. rewrite repeat_length in E. lia.
    - rewrite nth_error_app2 by (rewrite firstn_length; lia). rewrite firstn_length.
      rewrite nth_error_app2 by (rewrite repeat_length; lia). rewrite repeat_length.
      replace (i - Nat.min o (length d) - (o - length d))%nat with (i - o)%nat by lia.
      destruct (Nat.ltb_spec i (o + length p)) as [G'|G'].
      + now rewrite nth_error_app1 by lia.
      + rewrite nth_error_app2 by lia. destruct (Nat.le_gt_cases (length d) i) as [Q|Q].
        * rewrite (proj2 (nth_error_None d i)) by lia. apply nth_error_None. rewrite skipn_length. lia.
        * rewrite <- (firstn_skipn (o + length p) d) at 2. rewrite nth_error_app2 by (rewrite firstn_length; lia). rewrite firstn_length.
          f_equal. lia. }
  intros i c. rewrite NTH. destruct (Nat.ltb_spec i o) as [G|G]; [|destruct (Nat.ltb_spec i (o + length p)) as [G'|G']].
  - assert (NC : ~ covers (o, p) i) by (unfold covers; cbn; lia).
    destruct (Nat.ltb_spec i (length d)) as [G'|G'].
    + rewrite T. split; intro H.
      * destruct H as [st1 x st2 c E C N L|n N R' L].
        -- eapply ba_piece with (st1 := st1) (st2 := st2 ++ [(o, p)]); eauto.
           { rewrite E, <- app_assoc. reflexivity. }
           { intros y J. apply in_app_or in J as [J|[<-|[]]]; auto. }
        -- eapply ba_gap; [|exact REACH|rewrite LT; lia]. intros y J. apply in_app_or in J as [J|[<-|[]]]; auto.
      * destruct H as [st1 x st2 c E C N L|n N R' L].
        -- destruct st2 as [|z st2 _] using rev_ind.
           { apply app_inj_tail in E as [-> <-]. contradiction. }
           { rewrite app_comm_cons, app_assoc in E. apply app_inj_tail in E as [-> <-]. eapply ba_piece; eauto.
             intros y J. apply L. apply in_or_app. now left. }
        -- eapply ba_gap; [|exact R|lia]. intros y J. apply N. apply in_or_app. now left.
    + assert (NO : forall y, In y (st ++ [(o, p)]) -> ~ covers y i).
      { intros y J C. apply in_app_or in J as [J|[<-|[]]]; [|contradiction]. unfold covers in C.
        assert (M : snd y <> []) by (intro Q; rewrite Q in C; cbn in C; lia).
        remember (length d) as n eqn:En. destruct R as [A|x I N A]; [elim M; now apply A|]. specialize (A y J M). lia. }
      split; intro H.
      * injection H as <-. eapply ba_gap; [exact NO|exact REACH|rewrite LT; lia].
      * destruct H as [st1 x st2 c E C N L|n N R' L]; [|reflexivity]. elim (NO x); [rewrite E; apply in_or_app; right; now left|exact C].
  - assert (C : covers (o, p) i) by (unfold covers; cbn; lia). split; intro H.
    + eapply ba_piece with (x := (o, p)); [reflexivity|exact C|exact H|intros y []].
    + destruct H as [st1 x st2 c E C' N L|n N R' L]; [|elim (N (o, p)); [apply in_or_app; right; now left|exact C]].
      destruct st2 as [|z st2 _] using rev_ind.
      { apply app_inj_tail in E as [-> <-]. exact N. }
      { rewrite app_comm_cons, app_assoc in E. apply app_inj_tail in E as [-> <-]. elim (L (o, p)); [apply in_or_app; right; now left|exact C]. }
  - assert (NC : ~ covers (o, p) i) by (unfold covers; cbn; lia). rewrite T. split; intro H.
    + assert (LI : (i < length d)%nat) by (apply T in H; apply nth_error_Some; congruence). destruct H as [st1 x st2 c E C N L|n N R' L].
      * eapply ba_piece with (st1 := st1) (st2 := st2 ++ [(o, p)]); eauto.
        { rewrite E, <- app_assoc. reflexivity. }
        { intros y J. apply in_app_or in J as [J|[<-|[]]]; auto. }
      * eapply ba_gap; [|exact REACH|rewrite LT; lia]. intros y J. apply in_app_or in J as [J|[<-|[]]]; auto.
    + destruct H as [st1 x st2 c E C N L|n N R' L].
      * destruct st2 as [|z st2 _] using rev_ind.
        { apply app_inj_tail in E as [-> <-]. contradiction. }
        { rewrite app_comm_cons, app_assoc in E. apply app_inj_tail in E as [-> <-]. eapply ba_piece; eauto.
          intros y J. apply L. apply in_or_app. now left. }
      * pose proof (reaches_fun _ _ _ R' REACH) as Q. eapply ba_gap; [|exact R|rewrite LT in Q; lia]. intros y J. apply N. apply in_or_app. now left.
Qed.
Lemma empty_text : reads_as_text [] [].
Proof.
  split; [apply rc_nowhere; intros x []|]. intros i c. split; intro H; [destruct i; discriminate|].
  destruct H as [st1 x st2 c E|n N R L]; [destruct st1; discriminate|]. destruct R as [|x []]. lia.
Qed.
Lemma first_text : forall p, reads_as_text [(0%nat, p)] (f_data (file_write (TFile [] 0) p)) /\ f_off (file_write (TFile [] 0) p) = length p.
Proof. intro p. split; [apply (file_write_text [] (TFile [] 0) p); exact empty_text|]. destruct p; reflexivity. Qed.
Lemma write_off : forall f p, f_off (file_write f p) = (f_off f + length p)%nat.
Proof. intros [d o] p. destruct p; cbn; [lia|reflexivity]. Qed.

(** ** The buffer and its account *)
Definition stands_so (m l : Z) (mem : bs) (n : Z) (w : place) (b : buffer) : Prop :=
  b_memlimit b = m /\ b_filelimit b = l /\ b_mem b = mem /\ b_len b = n /\ b_readed b = false /\
  match w with
  | Memory => b_file b = None /\ n <= m
  | File st q => exists f, b_file b = Some f /\ reads_as_text st (f_data f) /\ f_off f = q
  end.
Lemma whole_of : forall m l mem n w b, stands_so m l mem n w b -> whole mem w (match b_file b with Some f => f_data f | None => b_mem b end).
Proof.
  intros m l mem n w b (_ & _ & M & _ & _ & F). destruct w as [|st q].
  - destruct F as [-> _]. rewrite M. constructor.
  - destruct F as (f & -> & R & _). now constructor.
Qed.
Lemma rewound : forall m l mem n w b q, stands_so m l mem n w b ->
  stands_so m l mem n (at_place q w) (match b_file b with Some f => set_file b (Some (TFile (f_data f) q)) | None => b end).
Proof.
  intros m l mem n w b q (A & B & C & D & E & F). destruct w as [|st q']; cbn [at_place].
  - destruct F as [F G]. rewrite F. repeat split; auto.
  - destruct F as (f & F & R & G). rewrite F. repeat split; auto. eexists. split; [reflexivity|]. split; [exact R|reflexivity].
Qed.
Lemma arrives_write : forall m l mem n b f p ft d e st, b_memlimit b = m -> b_filelimit b = l -> b_mem b = mem -> b_len b = n -> b_readed b = false ->
  reads_as_text st (f_data f) -> arrives p ft d e \/ ((ft = TempFileFails \/ exists k, ft = FirstWriteFails k) /\ d = p /\ e = None) ->
  exists b', finish_file_write b f p ft = (b', Z.of_nat (length d), e) /\
    stands_so m l mem (n + Z.of_nat (length d)) (File (st ++ [(f_off f, d)]) (f_off f + length d)) b'.
Proof.
  intros m l mem n b f p ft d e st M L ME N R T A.
  assert (Q : finish_file_write b f p ft = (set_len (set_file b (Some (file_write f d))) (b_len b + zlen d), zlen d, e)).
  { destruct A as [A|(A & -> & ->)].
    - destruct A; reflexivity.
    - destruct A as [->|(k & ->)]; reflexivity. }
  rewrite Q. unfold zlen. eexists. split; [reflexivity|]. repeat split; auto; cbn; [now rewrite N|].
  eexists. split; [reflexivity|]. split; [now apply file_write_text|apply write_off].
Qed.
Lemma arrives_some : forall p ft, (ft = TempFileFails \/ exists k, ft = FirstWriteFails k) \/ exists d e, arrives p ft d e.
Proof. intros p ft. destruct ft; [right; eexists _, _; constructor|left; now left|left; right; eauto|right; eexists _, _; constructor]. Qed.
Lemma buffer_tells : forall os m l mem n w b, 0 <= m -> stands_so m l mem n w b ->
  exists b' obs, bruns os b = Ret (b', obs) /\ tells m l mem n w os obs.
Proof.
  induction os as [|o os IH]; intros m l mem n w b M S.
  - exists b, []. split; [reflexivity|constructor].
  - assert (STEP : forall b1 ob n1 w1 mem1, bstep o b = Ret (b1, ob) -> stands_so m l mem1 n1 w1 b1 ->
      (forall obs, tells m l mem1 n1 w1 os obs -> tells m l mem n w (o :: os) (ob :: obs)) ->
      exists b' obs, bruns (o :: os) b = Ret (b', obs) /\ tells m l mem n w (o :: os) obs).
    { intros b1 ob n1 w1 mem1 E S1 K. destruct (IH m l mem1 n1 w1 b1 M S1) as (b' & obs & R & T).
      exists b', (ob :: obs). split; [cbn [bruns]; rewrite E; cbn [bind]; now rewrite R|now apply K]. }
    pose proof S as (A & B & C & D & E & F). pose proof (whole_of _ _ _ _ _ _ S) as WH.
    assert (IR : init_read b = match b_file b with Some f => set_file b (Some (TFile (f_data f) 0)) | None => b end) by (unfold init_read; now rewrite E).
    destruct o as [p ft| |k| |off wh].
    + destruct (Z.lt_ge_cases l (n + Z.of_nat (length p))) as [G|G].
      { apply (STEP b (OWrite 0 (Some ErrOutOfFileLimit)) n w mem); auto; [|intros obs T; now constructor].
        cbn [bstep]. unfold buf_write. rewrite E, B, D. unfold zlen. destruct (Z.ltb_spec l (n + Z.of_nat (length p))); [reflexivity|lia]. }
      destruct w as [|st q].
      * destruct F as [F F2]. destruct (Z.lt_ge_cases m (n + Z.of_nat (length p))) as [H|H].
        -- set (mem' := mem ++ firstn (Z.to_nat (m - n)) p).
           assert (W : buf_write ft p b = match ft with
              | TempFileFails => Ret (set_mem b mem', 0, Some ErrOS)
              | FirstWriteFails k => Ret (set_file (set_mem b mem') (Some (file_write (TFile [] 0) (firstn k mem'))), 0, Some ErrOS)
              | _ => Ret (finish_file_write (set_mem b mem') (file_write (TFile [] 0) mem') p ft) end).
           { unfold buf_write. rewrite E, B, D, F, A, C. unfold zlen. destruct (Z.ltb_spec l (n + Z.of_nat (length p))); [lia|].
             destruct (Z.ltb_spec m (n + Z.of_nat (length p))); [|lia]. destruct (Z.ltb_spec (m - n) 0); [lia|]. reflexivity. }
           destruct (arrives_some p ft) as [[->|(k & ->)]|(d & e & AR)].
           ++ apply (STEP (set_mem b mem') (OWrite 0 (Some ErrOS)) n Memory mem'); [cbn [bstep]; now rewrite W| |intros obs T; now apply tl_no_file].
              repeat split; auto.
           ++ eapply (STEP _ (OWrite 0 (Some ErrOS)) n _ mem'); [cbn [bstep]; rewrite W; reflexivity| |intros obs T; eapply tl_no_copy; [exact G|exact H|reflexivity|exact T]].
              repeat split; auto. eexists. split; [reflexivity|]. apply first_text.
           ++ destruct (first_text mem') as [T1 T2].
              destruct (arrives_write m l mem' n (set_mem b mem') (file_write (TFile [] 0) mem') p ft d e [(0%nat, mem')]) as (b' & W' & S'); auto.
              rewrite T2 in S'. cbn [app] in S'.
              eapply (STEP b' (OWrite (Z.of_nat (length d)) e)); [|exact S'|].
              ** cbn [bstep]. rewrite W. destruct ft; try (now inversion AR); rewrite W'; reflexivity.
              ** intros obs T. eapply tl_spill; [exact G|exact H|reflexivity|exact AR|exact T].
        -- eapply (STEP _ (OWrite (Z.of_nat (length p)) None) (n + Z.of_nat (length p)) Memory (mem ++ p)).
           ++ cbn [bstep]. unfold buf_write. rewrite E, B, D, F, A, C. unfold zlen. destruct (Z.ltb_spec l (n + Z.of_nat (length p))); [lia|].
              destruct (Z.ltb_spec m (n + Z.of_nat (length p))); [lia|]. reflexivity.
           ++ repeat split; auto; cbn; lia.
           ++ intros obs T. now apply tl_memory.
      * destruct F as (f & F & R & Q).
        assert (AR : exists d e, arrives p ft d e \/ ((ft = TempFileFails \/ exists k, ft = FirstWriteFails k) /\ d = p /\ e = None)).
        { destruct (arrives_some p ft) as [X|(d & e & X)]; [exists p, None; right; auto|exists d, e; now left]. }
        destruct AR as (d & e & AR).
        destruct (arrives_write m l mem n b f p ft d e st A B C D E R AR) as (b' & W' & S'). rewrite Q in S'.
        eapply (STEP b' (OWrite (Z.of_nat (length d)) e)); [|exact S'|intros obs T; eapply tl_file; eauto].
        cbn [bstep]. unfold buf_write. rewrite E, B, D, F. unfold zlen. destruct (Z.ltb_spec l (n + Z.of_nat (length p))); [lia|]. now rewrite W'.
    + eapply (STEP _ _ n (at_place 0 w) mem); [reflexivity| |].
      * cbn [bstep buf_string fst snd]. rewrite IR. apply rewound. exact S.
      * intros obs T. cbn [bstep]. unfold buf_string. rewrite IR.
        replace (b_mem _) with mem by (destruct (b_file b); cbn; auto).
        replace (match b_file (match b_file b with Some f => _ | None => _ end) with Some _ => _ | None => _ end)
          with (match w with Memory => None | File _ _ => Some ErrOutOfMemLimit end); [now constructor|].
        destruct w; [destruct F as [F _]|destruct F as (f & F & _)]; rewrite F; cbn; rewrite ?F; reflexivity.
    + set (t := match b_file b with Some f => f_data f | None => b_mem b end) in *.
      assert (RD : exists eof, buf_read k b = (match b_file b with Some f => set_file b (Some (TFile (f_data f) (length (firstn k t)))) | None => b end, firstn k t, eof) /\
        (eof = true <-> t = [] /\ (k <> 0%nat \/ w = Memory))).
      { unfold buf_read. rewrite IR. destruct w as [|st q].
        - destruct F as [F _]. unfold t. rewrite F. rewrite F. destruct (b_mem b) as [|c0 m0]; cbn.
          + eexists. split; [now rewrite firstn_nil|]. split; auto.
          + eexists. split; [reflexivity|]. split; [discriminate|]. intros [H _]. discriminate.
        - destruct F as (f & F & _). unfold t. rewrite F. cbn. eexists. split; [reflexivity|]. split; intro H.
          + apply andb_true_iff in H as [H1 H2]. apply negb_true_iff, Nat.eqb_neq in H1. apply Nat.eqb_eq in H2. split; [|now left].
            destruct (f_data f); [reflexivity|]. destruct k; [lia|discriminate].
          + destruct H as [H1 [H2|H2]]; [|discriminate]. rewrite H1. rewrite firstn_nil. cbn. apply Nat.eqb_neq in H2. now rewrite H2. }
      destruct RD as (eof & RD & EO).
      eapply (STEP _ (ORead (firstn k t) eof) n (at_place (length (firstn k t)) w) mem).
      * cbn [bstep]. rewrite RD. reflexivity.
      * apply rewound. exact S.
      * intros obs T. eapply tl_read; eauto.
    + set (t := match b_file b with Some f => f_data f | None => b_mem b end) in *.
      assert (RD : buf_write_to b = (match b_file b with Some f => set_file b (Some (TFile (f_data f) (length t))) | None => b end, t)).
      { unfold buf_write_to. rewrite IR. unfold t. destruct (b_file b) as [f|] eqn:FB; cbn; [reflexivity|]. now rewrite FB. }
      eapply (STEP _ (OWriteTo t) n (at_place (length t) w) mem); [| |intros obs T; now apply tl_write_to].
      * cbn [bstep]. rewrite RD. reflexivity.
      * apply rewound. exact S.
    + set (t := match b_file b with Some f => f_data f | None => b_mem b end) in *.
      assert (SK : forall z, origin t wh z -> buf_seek off wh b = (match b_file b with Some f => set_file b (Some (TFile (f_data f) (if z + off <? 0 then 0 else Z.to_nat (z + off)))) | None => b end, if z + off <? 0 then None else Some (z + off))).
      { intros z OR. unfold buf_seek. rewrite IR. unfold t in OR. destruct (b_file b) as [f|] eqn:FB; cbn [b_file set_file f_data]; rewrite ?FB;
          destruct OR; cbn [Z.eqb Pos.eqb]; unfold zlen; destruct (_ <? 0); reflexivity. }
      assert (OR : (exists z, origin t wh z) \/ (forall z, ~ origin t wh z)).
      { destruct (Z.eq_dec wh 0) as [->|N0]; [left; eexists; constructor|]. destruct (Z.eq_dec wh 1) as [->|N1]; [left; eexists; constructor|].
        destruct (Z.eq_dec wh 2) as [->|N2]; [left; eexists; constructor|]. right. intros z H. inversion H; lia. }
      destruct OR as [(z & OR)|NO].
      * destruct (Z.lt_ge_cases (z + off) 0) as [G|G].
        -- eapply (STEP _ (OSeek None) n (at_place 0 w) mem).
           ++ cbn [bstep]. rewrite (SK z OR). destruct (Z.ltb_spec (z + off) 0); [reflexivity|lia].
           ++ destruct (Z.ltb_spec (z + off) 0); [|lia]. apply rewound. exact S.
           ++ intros obs T. eapply tl_no_seek; [exact WH| |exact T]. intros z' OR'. assert (z' = z) by (destruct OR; inversion OR'; congruence). lia.
        -- eapply (STEP _ (OSeek (Some (z + off))) n (at_place (Z.to_nat (z + off)) w) mem).
           ++ cbn [bstep]. rewrite (SK z OR). destruct (Z.ltb_spec (z + off) 0); [lia|reflexivity].
           ++ destruct (Z.ltb_spec (z + off) 0); [lia|]. apply rewound. exact S.
           ++ intros obs T. eapply tl_seek; eauto.
      * eapply (STEP _ (OSeek None) n (at_place 0 w) mem).
        -- cbn [bstep]. unfold buf_seek.
           destruct (Z.eqb_spec wh 0) as [->|]; [elim (NO 0); constructor|]. destruct (Z.eqb_spec wh 1) as [->|]; [elim (NO 0); constructor|].
           destruct (Z.eqb_spec wh 2) as [->|]; [elim (NO (Z.of_nat (length t))); constructor|]. reflexivity.
        -- rewrite IR. apply rewound. exact S.
        -- intros obs T. eapply tl_no_seek; [exact WH| |exact T]. intros z' OR'. now elim (NO z').
Qed.
Lemma tells_fun : forall m l mem n w os obs, tells m l mem n w os obs -> forall obs', tells m l mem n w os obs' -> obs = obs'.
Proof.
  intros m l mem n w os obs T.
  induction T as [mem n w|mem n w p ft os obs G T IH|mem n p ft os obs G1 G2 T IH|mem n p os obs G1 G2 T IH|mem mem' n p k os obs G1 G2 Q T IH
    |mem mem' n p ft d e os obs G1 G2 Q A T IH|mem n st q p ft d e os obs G A T IH|mem n w os obs T IH|mem n w t k eof os obs W E T IH
    |mem n w t os obs W T IH|mem n w t off wh z os obs W O P T IH|mem n w t off wh os obs W O T IH]; intros obs' T'; inversion T'; subst; try lia.
  all: try reflexivity.
  all: try (f_equal; apply IH; assumption).
  all: try (match goal with H : arrives _ TempFileFails _ _ |- _ => inversion H | H : arrives _ (FirstWriteFails _) _ _ |- _ => inversion H end; fail).
  - assert (Q : d0 = d /\ e0 = e) by (match goal with H : arrives p ft d e, H' : arrives p ft d0 e0 |- _ => destruct H; inversion H'; auto end).
    destruct Q as [-> ->]. f_equal. apply IH. assumption.
  - assert (Q : d0 = d /\ e0 = e).
    { match goal with H : arrives p ft d0 e0 \/ _ |- _ => rename H into HA end.
      destruct HA as [HA|([HA|(k & HA)] & -> & ->)]; destruct A as [A|([A|(k' & A)] & -> & ->)]; try (now split);
      try (subst ft; inversion A; fail); try (subst ft; inversion HA; fail).
      destruct A; inversion HA; auto. }
    destruct Q as [-> ->]. f_equal. apply IH. assumption.
  - assert (t0 = t) by (eapply whole_fun; eauto). subst t0.
    assert (eof0 = eof) by (destruct eof, eof0; try reflexivity; [symmetry|]; intuition). subst eof0. f_equal. apply IH. assumption.
  - assert (t0 = t) by (eapply whole_fun; eauto). subst t0. f_equal. apply IH. assumption.
  - assert (t0 = t) by (eapply whole_fun; eauto). subst t0. assert (z0 = z) by (destruct O; match goal with H : origin _ _ z0 |- _ => inversion H; congruence end).
    subst z0. f_equal. apply IH. assumption.
  - assert (t0 = t) by (eapply whole_fun; eauto). subst t0. match goal with H : forall z, origin t wh z -> _ |- _ => specialize (H z O) end. lia.
  - assert (t0 = t) by (eapply whole_fun; eauto). subst t0. match goal with H : origin t wh z |- _ => specialize (O z H) end. lia.
Qed.
Lemma new_stands : forall m l, 0 <= m -> stands_so m l [] 0 Memory (new_buffer m l).
Proof. intros m l M. repeat split; auto. Qed.
(** Every answer of any history on a new buffer - writes, reads, seeks in any order, with
    any failures of the file system - is the one spelled out; there is always one. *)
Theorem C48_every_answer : forall m l os obs, 0 <= m ->
  (exists b, bruns os (new_buffer m l) = Ret (b, obs)) <-> tells m l [] 0 Memory os obs.
Proof.
  intros m l os obs M. destruct (buffer_tells os m l [] 0 Memory (new_buffer m l) M (new_stands m l M)) as (b & obs' & R & T). split.
  - intros (b' & R'). rewrite R in R'. apply Ret_inj in R'. injection R' as _ <-. exact T.
  - intro T'. rewrite (tells_fun _ _ _ _ _ _ _ T' _ T). eauto.
Qed.
Theorem C48_always_answers : forall m l os, 0 <= m -> exists b obs, bruns os (new_buffer m l) = Ret (b, obs).
Proof. intros m l os M. destruct (buffer_tells os m l [] 0 Memory (new_buffer m l) M (new_stands m l M)) as (b & obs & R & _). eauto. Qed.
(** With a negative memory limit, the first write that fits the size limit panics. *)
Theorem C48_negative_memory_limit : forall m l os, m < 0 ->
  (bruns os (new_buffer m l) = Panic <-> exists p ft, In (BWrite p ft) os /\ Z.of_nat (length p) <= l).
Proof.
  intros m l os M.
  assert (ST : forall o b, b = new_buffer m l -> (exists ob, bstep o b = Ret (b, ob)) \/ (exists p ft, o = BWrite p ft /\ Z.of_nat (length p) <= l /\ bstep o b = Panic)).
  { intros o b ->. destruct o as [p ft| |k| |off wh]; try (left; eexists; reflexivity).
    - cbn [bstep]. unfold buf_write. cbn [b_readed new_buffer b_filelimit b_len b_file b_memlimit]. unfold zlen.
      destruct (Z.ltb_spec l (0 + Z.of_nat (length p))); [left; eexists; reflexivity|]. right. exists p, ft. split; [reflexivity|]. split; [lia|].
      destruct (Z.ltb_spec m (0 + Z.of_nat (length p))); [|lia]. destruct (Z.ltb_spec (m - 0) 0); [reflexivity|lia].
    - left. cbn [bstep]. unfold buf_seek. cbn. destruct (wh =? 0); [destruct (0 + off <? 0); eexists; reflexivity|].
      destruct (wh =? 1); [destruct (0 + off <? 0); eexists; reflexivity|]. destruct (wh =? 2); [|eexists; reflexivity].
      destruct (_ <? 0); eexists; reflexivity. }
  induction os as [|o os IH]; [split; [discriminate|intros (p & ft & [] & _)]|]. cbn [bruns].
  destruct (ST o _ eq_refl) as [(ob & E)|(p & ft & -> & L & E)]; rewrite E; cbn [bind].
  - split; intro H.
    + destruct (bruns os (new_buffer m l)) as [[b2 obs]| |] eqn:R; cbn in H; try discriminate. destruct (proj1 IH eq_refl) as (p & ft & I & L).
      exists p, ft. split; [now right|exact L].
    + destruct H as (p & ft & [->|I] & L).
      * exfalso. cbn [bstep] in E. unfold buf_write in E. cbn [b_readed new_buffer b_filelimit b_len b_file b_memlimit] in E. unfold zlen in E.
        destruct (Z.ltb_spec l (0 + Z.of_nat (length p))); [lia|]. destruct (Z.ltb_spec m (0 + Z.of_nat (length p))); [|lia].
        destruct (Z.ltb_spec (m - 0) 0); [discriminate|lia].
      * rewrite (proj2 IH); [reflexivity|]. eauto.
  - split; intro H; [|reflexivity]. exists p, ft. split; [now left|exact L].
Qed.

(** ** C50: reading the whole body does no harm *)
Lemma bstep_readed : forall o x y ob, b_readed x = false -> bstep o x = Ret (y, ob) -> b_readed y = false.
Proof.
  intros o x y ob R H. destruct (is_write o) eqn:W.
  - destruct o as [p ft| | | |]; try discriminate. cbn [bstep] in H. apply bind_Ret in H as ([[b n] e] & H1 & H). apply Ret_inj in H. injection H as <- _.
    destruct (buf_write_len _ _ _ _ _ _ R H1) as (C & _). unfold consts in C. congruence.
  - destruct (bstep_reads _ _ _ _ W H) as (C & _). unfold consts in C. congruence.
Qed.
Lemma bruns_readed : forall os x y obs, b_readed x = false -> bruns os x = Ret (y, obs) -> b_readed y = false.
Proof.
  induction os as [|o os IH]; intros x y ob R H; [apply Ret_inj in H; now injection H as <- _|]. cbn [bruns] in H.
  apply bind_Ret in H as ([x2 ob2] & H1 & H). apply bind_Ret in H as ([x3 ob3] & H2 & H). apply Ret_inj in H. injection H as <- <-.
  eapply IH; [|exact H2]. eapply bstep_readed; eauto.
Qed.
Definition same_text (b b' : buffer) : Prop :=
  b_len b = b_len b' /\ b_memlimit b = b_memlimit b' /\ b_filelimit b = b_filelimit b' /\ b_mem b = b_mem b' /\ b_readed b = b_readed b' /\
  option_map f_data (b_file b) = option_map f_data (b_file b').
Definition at_the_end (b : buffer) : Prop := match b_file b with Some f => f_off f = length (f_data f) | None => True end.
Lemma write_end : forall f p, f_off f = length (f_data f) -> f_off (file_write f p) = length (f_data (file_write f p)).
Proof.
  intros [d o] p H. cbn in *. subst o. destruct p; [reflexivity|]. cbn [file_write f_data f_off].
  rewrite !app_length, firstn_length, repeat_length, skipn_length. cbn. lia.
Qed.
Lemma same_end : forall b b', same_text b b' -> at_the_end b -> at_the_end b' -> b = b'.
Proof.
  intros b b' (A & B & C & D & E & F) X Y. unfold at_the_end in X, Y.
  destruct b as [n m l me f r], b' as [n' m' l' me' f' r']. cbn in *. subst. f_equal.
  destruct f as [[d o]|], f' as [[d' o']|]; cbn in *; try discriminate; [|reflexivity]. injection F as ->. now subst.
Qed.
Lemma write_keeps_end : forall ft p b b' n e, at_the_end b -> buf_write ft p b = Ret (b', n, e) -> at_the_end b'.
Proof.
  intros ft p b b' n e X H. unfold buf_write in H.
  destruct (b_readed b); [apply Ret_inj in H; injection H as <- _ _; exact X|].
  destruct (b_filelimit b <? _); [apply Ret_inj in H; injection H as <- _ _; exact X|].
  assert (FIN : forall b0 f, f_off f = length (f_data f) -> at_the_end (fst (fst (finish_file_write b0 f p ft)))).
  { intros b0 f Q. unfold finish_file_write. destruct ft; cbn; unfold at_the_end; cbn; now apply write_end. }
  assert (NEW : forall m, f_off (file_write (TFile [] 0) m) = length (f_data (file_write (TFile [] 0) m))) by (intro; now apply write_end).
  unfold at_the_end in X. destruct (b_file b) as [f|] eqn:F.
  - apply Ret_inj in H. specialize (FIN b f X). rewrite H in FIN. exact FIN.
  - destruct (b_memlimit b <? _).
    + destruct (_ <? 0); [discriminate|]. destruct ft.
      * apply Ret_inj in H. match type of H with finish_file_write ?x ?y _ _ = _ => specialize (FIN x y (NEW _)) end. rewrite H in FIN. exact FIN.
      * apply Ret_inj in H. injection H as <- _ _. unfold at_the_end. cbn. now rewrite F.
      * apply Ret_inj in H. injection H as <- _ _. unfold at_the_end. cbn. apply NEW.
      * apply Ret_inj in H. match type of H with finish_file_write ?x ?y _ _ = _ => specialize (FIN x y (NEW _)) end. rewrite H in FIN. exact FIN.
    + apply Ret_inj in H. injection H as <- _ _. unfold at_the_end. cbn. now rewrite F.
Qed.
Lemma read_same : forall o b b' b1 ob, is_write o = false -> same_text b b' -> bstep o b = Ret (b1, ob) ->
  same_text b1 b' /\ (o = BWriteTo -> b_readed b = false -> at_the_end b1).
Proof.
  intros o b b' b1 ob N S H.
  assert (IR : same_text (init_read b) b').
  { destruct (reads_ok_init b) as (A1 & A2 & A3 & A4). unfold consts in A1. injection A1 as A5 A6 A7. destruct S as (A & B & C & D & E & F).
    repeat split; congruence. }
  assert (SF : forall x y q f, same_text x y -> b_file x = Some f -> same_text (set_file x (Some (TFile (f_data f) q))) y).
  { intros x y q f (A & B & C & D & E & F) Q. repeat split; auto. cbn. rewrite Q in F. exact F. }
  destruct o as [p ft| |k| |off wh]; [discriminate| | | |]; cbn [bstep] in H.
  - unfold buf_string in H. apply Ret_inj in H. injection H as <- _. split; [exact IR|discriminate].
  - unfold buf_read in H. destruct (b_file (init_read b)) as [f|] eqn:F.
    + apply Ret_inj in H. injection H as <- _. split; [now apply SF|discriminate].
    + destruct (b_mem (init_read b)); apply Ret_inj in H; injection H as <- _; (split; [exact IR|discriminate]).
  - unfold buf_write_to in H. destruct (b_file (init_read b)) as [f|] eqn:F; apply Ret_inj in H; injection H as <- _.
    + split; [now apply SF|]. intros _ R. unfold at_the_end. cbn. unfold init_read in F. rewrite R in F.
      destruct (b_file b) as [f0|] eqn:FB; [|rewrite FB in F; discriminate]. cbn in F. injection F as <-. cbn. lia.
    + split; [exact IR|]. intros _ _. unfold at_the_end. now rewrite F.
  - unfold buf_seek in H. split; [|discriminate].
    set (bb := init_read b) in *. destruct (if wh =? 0 then _ else _) as [z|]; [|apply Ret_inj in H; injection H as <- _; exact IR].
    destruct (_ <? 0); [apply Ret_inj in H; injection H as <- _; exact IR|].
    destruct (b_file bb) as [f|] eqn:F; apply Ret_inj in H; injection H as <- _; [now apply SF|exact IR].
Qed.
Lemma harmless_reads : forall os pending b b', b_readed b = false -> same_text b b' -> at_the_end b' -> (pending = false -> at_the_end b) ->
  reads_to_the_end pending os -> forall b1 obs, bruns os b = Ret (b1, obs) ->
  exists b1' obs', bruns (writes_only os) b' = Ret (b1', obs') /\ same_text b1 b1' /\
    List.filter (fun ob => match ob with OWrite _ _ => true | _ => false end) obs = obs'.
Proof.
  induction os as [|o os IH]; intros pending b b' R S E P C b1 obs H.
  - apply Ret_inj in H. injection H as <- <-. exists b', []. repeat split; try reflexivity; apply S.
  - cbn [bruns] in H. apply bind_Ret in H as ([b2 ob] & H1 & H). apply bind_Ret in H as ([b3 obs3] & H2 & H). apply Ret_inj in H. injection H as <- <-.
    destruct (is_write o) eqn:W.
    + destruct o as [p ft| | | |]; try discriminate. cbn [reads_to_the_end] in C. destruct C as [-> C].
      pose proof (same_end b b' S (P eq_refl) E) as Q. subst b'. cbn [bstep] in H1. apply bind_Ret in H1 as ([[b4 n] e] & H1 & H). apply Ret_inj in H. injection H as <- <-.
      pose proof (write_keeps_end _ _ _ _ _ _ E H1) as E4.
      assert (R4 : b_readed b4 = false).
      { destruct (buf_write_len _ _ _ _ _ _ R H1) as (Q & _). unfold consts in Q. congruence. }
      destruct (IH false b4 b4 R4) with (b1 := b3) (obs := obs3) as (b1' & obs' & X1 & X2 & X3); auto; [repeat split|].
      exists b1', (OWrite n e :: obs'). split; [|split; [exact X2|cbn; now rewrite X3]].
      unfold writes_only. cbn [List.filter is_write bruns bstep]. rewrite H1. cbn [bind]. fold (writes_only os). now rewrite X1.
    + destruct (read_same o b b' b2 ob W S H1) as [S2 E2].
      assert (R2 : b_readed b2 = false) by (destruct S2 as (_ & _ & _ & _ & Q & _); destruct S as (_ & _ & _ & _ & Q' & _); congruence).
      assert (OB : match ob with OWrite _ _ => true | _ => false end = false).
      { destruct o as [p ft| |k| |off wh]; [discriminate| | | |]; cbn [bstep] in H1.
        - unfold buf_string in H1. apply Ret_inj in H1. injection H1 as _ <-. reflexivity.
        - destruct (buf_read k b) as [[x y] z]. apply Ret_inj in H1. injection H1 as _ <-. reflexivity.
        - destruct (buf_write_to b) as [x y]. apply Ret_inj in H1. injection H1 as _ <-. reflexivity.
        - destruct (buf_seek off wh b) as [x y]. apply Ret_inj in H1. injection H1 as _ <-. reflexivity. }
      assert (WO : writes_only (o :: os) = writes_only os) by (unfold writes_only; cbn [List.filter]; now rewrite W). rewrite WO. cbn [List.filter]. rewrite OB.
      destruct o as [p ft| |k| |off wh]; [discriminate| | | |]; cbn [reads_to_the_end] in C; first [refine (IH true b2 b' R2 S2 E _ C _ _ H2); discriminate | refine (IH false b2 b' R2 S2 E _ C _ _ H2); auto].
Qed.
(** If every write that comes after a reading operation comes after a [WriteTo] of the
    whole body, reading changes nothing: every write is answered, and everything read
    afterwards is, as if there had been no reading at all. *)
Theorem C50_reading_to_the_end_partial : forall m l os b obs, reads_to_the_end false os -> bruns os (new_buffer m l) = Ret (b, obs) ->
  exists b2 obs2, bruns (writes_only os) (new_buffer m l) = Ret (b2, obs2) /\
    obs2 = List.filter (fun ob => match ob with OWrite _ _ => true | _ => false end) obs /\
    snd (buf_write_to b) = snd (buf_write_to b2) /\ snd (fst (buf_string b)) = snd (fst (buf_string b2)) /\
    snd (buf_string b) = snd (buf_string b2) /\ buf_len b = buf_len b2.
Proof.
  intros m l os b obs C H.
  destruct (harmless_reads os false (new_buffer m l) (new_buffer m l) eq_refl) with (b1 := b) (obs := obs) as (b2 & obs2 & X1 & X2 & X3); auto; [repeat split|exact I|intros _; exact I|].
  exists b2, obs2. split; [exact X1|]. split; [now symmetry|]. destruct X2 as (A1 & A2 & A3 & A4 & A5 & A6).
  unfold buf_write_to, buf_string, init_read. rewrite A5, (bruns_readed (writes_only os) (new_buffer m l) b2 obs2 (eq_refl false) X1).
  destruct (b_file b) as [f|] eqn:F1, (b_file b2) as [f2|] eqn:F2; cbn in A6; try discriminate; cbn; try rewrite F1, F2; cbn; repeat split; auto; congruence.
Qed.

(** ** Examples *)
Definition tape_history : list bop :=
  [BWrite (B "ab") NoFault; BWrite (B "cde") NoFault; BRead 2; BWrite (B "X") (WriteFails 9); BSeek 1 2; BWrite (B "Y") NoFault;
   BWriteTo; BWrite (B "zz") NoFault; BString; BWrite (B "0123456789") NoFault].
(** The third byte of the file is overwritten because reading moved the position, a gap of
    one zero byte stays before the last write. *)
Example C48_every_answer_example : exists b obs, bruns tape_history (new_buffer 3 12) = Ret (b, obs) /\ tells 3 12 [] 0 Memory tape_history obs /\
  obs = [OWrite 2 None; OWrite 3 None; ORead (B "ab") false; OWrite 1 (Some ErrOS); OSeek (Some 7); OWrite 1 None;
         OWriteTo (B "abXcde" ++ [NUL; "Y"%char]); OWrite 2 None; OString (B "abc") (Some ErrOutOfMemLimit); OWrite 0 (Some ErrOutOfFileLimit)] /\
  snd (buf_write_to b) = B "abXcde" ++ [NUL] ++ B "Yzz".
Proof.
  destruct (buffer_tells tape_history 3 12 [] 0 Memory (new_buffer 3 12) ltac:(lia) (new_stands 3 12 ltac:(lia))) as (b & obs & R & T).
  exists b, obs. split; [exact R|]. split; [exact T|]. vm_compute in R. injection R as <- <-. split; reflexivity.
Qed.
Example C50_reading_to_the_end_example :
  let os := [BWrite (B "abcd") NoFault; BRead 2; BSeek 0 0; BWriteTo; BWrite (B "e") NoFault; BString] in
  reads_to_the_end false os /\ exists b obs, bruns os (new_buffer 2 9) = Ret (b, obs) /\ snd (buf_write_to b) = B "ababcde".
Proof. cbv zeta. split; [cbn; auto|]. eexists _, _. split; [vm_compute; reflexivity|]. reflexivity. Qed.
Example C48_negative_memory_limit_example : bruns [BString; BWrite (B "abc") NoFault; BWrite [] NoFault] (new_buffer (-1) 2) = Panic.
Proof. reflexivity. Qed.

Print Assumptions C48_every_answer.
Print Assumptions C48_always_answers.
Print Assumptions C48_negative_memory_limit.
Print Assumptions C50_reading_to_the_end_partial.
