(** The rule loop of a phase: which rules are evaluated, in what order, and that it ends. *)
From Verif Require Import Base BaseFacts GoStrings Utils Buffer BufferFacts Types Transforms Operators Transaction Variables Rules Engine
  SpecText NumFacts SpecVars VarFacts SpecRules PropText BodyFacts RuleFacts TxnFacts.
From Coq Require Import ZifyBool.

(** ** The rules evaluated in one run, with the states before and after each *)
Definition visit := (Z * txn * txn)%type.
Inductive visits (d : nat) (O : oracles) (e : engine) (rs : ruleset) (p : Z) : Z -> txn -> list visit -> txn -> Prop :=
| vs_stop : forall n t, t_phase t <> p \/ n = StatusEndOfRules -> visits d O e rs p n t [] t
| vs_last : forall n t t1, t_phase t = p -> n <> StatusEndOfRules -> process_rule d O e rs p n t = Ret t1 ->
    i_disruptive (get_iv t1) = true -> visits d O e rs p n t [(n, t, t1)] (touch_iv t1)
| vs_more : forall n t t1 m t2 l t', t_phase t = p -> n <> StatusEndOfRules -> process_rule d O e rs p n t = Ret t1 ->
    i_disruptive (get_iv t1) = false -> next_rule rs (touch_iv t1) = (m, t2) ->
    visits d O e rs p m t2 l t' -> visits d O e rs p n t ((n, t, t1) :: l) t'.

Lemma loop_visits : forall d O e rs p f n t t', phase_loop f d O e rs p n t = Ret t' -> exists l, visits d O e rs p n t l t'.
Proof.
  induction f as [|f IH]; intros n t t' H; cbn [phase_loop] in H; [discriminate|].
  destruct (Z.eqb_spec (t_phase t) p) as [P|P].
  2:{ apply Ret_inj in H. subst. exists []. apply vs_stop. now left. }
  destruct (Z.eqb_spec n StatusEndOfRules) as [N|N]; cbn [andb negb] in H.
  1:{ apply Ret_inj in H. subst. exists []. apply vs_stop. now right. }
  apply bind_Ret in H as (t1 & H1 & H). change (get_iv (touch_iv t1)) with (get_iv t1) in H.
  destruct (i_disruptive (get_iv t1)) eqn:D.
  - apply Ret_inj in H. subst t'. exists [(n, t, t1)]. now apply vs_last.
  - destruct (next_rule rs (touch_iv t1)) as [m t3] eqn:E. apply IH in H as (l & H). exists ((n, t, t1) :: l). eapply vs_more; eauto.
Qed.
Lemma visits_loop : forall d O e rs p n t l t', visits d O e rs p n t l t' ->
  phase_loop (S (length l)) d O e rs p n t = Ret t'.
Proof.
  induction 1 as [n t H|n t t1 P N R D|n t t1 m t2 l t' P N R D E V IH].
  - cbn [phase_loop]. destruct (Z.eqb_spec (t_phase t) p), (Z.eqb_spec n StatusEndOfRules); try reflexivity. destruct H; easy.
  - cbn [phase_loop length]. destruct (Z.eqb_spec (t_phase t) p); [|easy]. destruct (Z.eqb_spec n StatusEndOfRules); [easy|].
    cbn [andb negb]. rewrite R. cbn [bind]. change (get_iv (touch_iv t1)) with (get_iv t1). now rewrite D.
  - change (length ((n, t, t1) :: l)) with (S (length l)). cbn [phase_loop]. destruct (Z.eqb_spec (t_phase t) p); [|easy]. destruct (Z.eqb_spec n StatusEndOfRules); [easy|].
    cbn [andb negb]. rewrite R. cbn [bind]. change (get_iv (touch_iv t1)) with (get_iv t1). rewrite D, E. exact IH.
Qed.
Lemma visits_fun : forall d O e rs p n t l t', visits d O e rs p n t l t' -> forall l2 t2, visits d O e rs p n t l2 t2 -> l2 = l /\ t2 = t'.
Proof.
  induction 1 as [n t H|n t t1 P N R D|n t t1 m t3 l t' P N R D E V IH]; intros l2 t2 X.
  - inversion X; subst; [auto|destruct H; easy|destruct H; easy].
  - inversion X as [n' u H|n' u u1 P' N' R' D'|n' u u1 m' u3 l' u' P' N' R' D' E' V']; subst; [destruct H; easy| |].
    + rewrite R in R'. apply Ret_inj in R'. now subst.
    + rewrite R in R'. apply Ret_inj in R'. subst. congruence.
  - inversion X as [n' u H|n' u u1 P' N' R' D'|n' u u1 m' u3 l' u' P' N' R' D' E' V']; subst; [destruct H; easy| |].
    + rewrite R in R'. apply Ret_inj in R'. subst. congruence.
    + rewrite R in R'. apply Ret_inj in R'. subst u1. rewrite E in E'. injection E' as <- <-. destruct (IH _ _ V') as [-> ->]. auto.
Qed.

(** ** Where allow can lead *)
(** From phase [p], [a] never leads back to a phase [<= p]. *)
Definition forward (p : Z) (a : action) : Prop :=
  match a with
  | AAllow arg => (arg = [] -> p < 6) /\ (arg = B "request" -> p < 4)
  | _ => True
  end.
(** [a] moves to another phase. *)
Definition jumps (a : action) : Prop := exists arg, a = AAllow arg /\ In arg [[]; B "phase"; B "request"].

Lemma effect_above : forall rs p a t, 1 <= p <= 6 -> forward p a -> p < t_phase t <= 7 -> p < t_phase (effect rs a t) <= 7.
Proof.
  intros rs p a t P F G. destruct a; simpl; auto.
  - destruct F as [F1 F2]. unfold do_allow. destruct (bs_eqb_spec arg []) as [->|Q1].
    { specialize (F1 eq_refl). simpl. unfold PhaseLogging. lia. }
    destruct (bs_eqb_spec arg (B "phase")) as [->|Q2].
    + unfold next_phase, jump_to_phase, PhaseBegin, PhaseEnd. simpl.
      destruct (t_phase t + 1 <? 0) eqn:E1; [lia|]. destruct (7 <=? t_phase t + 1) eqn:E2; lia.
    + destruct (bs_eqb_spec arg (B "request")) as [->|Q3]; [|exact G]. specialize (F2 eq_refl). simpl. unfold PhaseResponseHeaders. lia.
  - unfold jump_to. now destruct (nrules rs (t_phase t) <=? t_cur t + 2).
Qed.
Lemma effects_above : forall rs p l t, 1 <= p <= 6 -> (forall a, In a l -> forward p a) -> p < t_phase t <= 7 -> p < t_phase (effects rs l t) <= 7.
Proof.
  intros rs p l. induction l as [|a l IH]; intros t P F G; [exact G|].
  change (effects rs (a :: l) t) with (effects rs l (effect rs a t)). apply IH; [exact P|intros b I; apply F; now right|].
  apply effect_above; auto. apply F. now left.
Qed.

(** Index reached by skip: two further, or the end. *)
Definition skipped_to (rs : ruleset) (p i : Z) : Z := if nrules rs p <=? i then StatusEndOfRules else i.

(** Actions executed in phase [p]: they lead to a later phase, or leave the position
    alone except for skip. *)
Lemma jumps_dec : forall a, {jumps a} + {~ jumps a}.
Proof.
  intros []; try (right; intros (x & H & _); discriminate).
  destruct (bs_eqb_spec arg []) as [E|N1]; [left; exists arg; split; [reflexivity|now left]|].
  destruct (bs_eqb_spec arg (B "phase")) as [E|N2]; [left; exists arg; split; [reflexivity|right; now left]|].
  destruct (bs_eqb_spec arg (B "request")) as [E|N3]; [left; exists arg; split; [reflexivity|right; right; now left]|].
  right. intros (x & H & I). injection H as <-. destruct I as [I|[I|[I|[]]]]; congruence.
Qed.
Lemma effect_jump : forall rs p a t, 1 <= p <= 6 -> forward p a -> jumps a -> t_phase t = p -> p < t_phase (effect rs a t) <= 7.
Proof.
  intros rs p a t P F (arg & -> & I) E. destruct F as [F1 F2]. simpl. unfold do_allow.
  destruct (bs_eqb_spec arg []) as [->|Q1]; [specialize (F1 eq_refl); simpl; unfold PhaseLogging; lia|].
  destruct (bs_eqb_spec arg (B "phase")) as [->|Q2].
  - unfold next_phase, jump_to_phase, PhaseBegin, PhaseEnd. simpl.
    destruct (t_phase t + 1 <? 0) eqn:E1; [lia|]. destruct (7 <=? t_phase t + 1) eqn:E2; lia.
  - destruct (bs_eqb_spec arg (B "request")) as [->|Q3]; [specialize (F2 eq_refl); simpl; unfold PhaseResponseHeaders; lia|].
    destruct I as [I|[I|[I|[]]]]; congruence.
Qed.
Lemma effect_stay : forall rs a t, ~ jumps a -> a <> ASkip -> let t' := effect rs a t in
  t_phase t' = t_phase t /\ t_cur t' = t_cur t /\ t_next t' = t_next t.
Proof.
  intros rs a t J S. destruct a; simpl; auto; [|easy]. unfold do_allow.
  destruct (bs_eqb_spec arg []) as [->|Q1]; [elim J; exists []; split; [reflexivity|now left]|].
  destruct (bs_eqb_spec arg (B "phase")) as [->|Q2]; [elim J; exists (B "phase"); split; [reflexivity|right; now left]|].
  destruct (bs_eqb_spec arg (B "request")) as [->|Q3]; [elim J; exists (B "request"); split; [reflexivity|right; right; now left]|].
  auto.
Qed.
Lemma effects_pos : forall rs p l t, 1 <= p <= 6 -> (forall a, In a l -> forward p a) -> t_phase t = p ->
  (exists a, In a l /\ jumps a /\ p < t_phase (effects rs l t) <= 7) \/
  ((forall a, In a l -> ~ jumps a) /\ t_phase (effects rs l t) = p /\ t_cur (effects rs l t) = t_cur t /\
   (In ASkip l -> t_next (effects rs l t) = skipped_to rs p (t_cur t + 2)) /\
   (~ In ASkip l -> t_next (effects rs l t) = t_next t)).
Proof.
  intros rs p l. induction l as [|a l IH]; intros t P F E.
  - right. split; [intros a []|]. split; [exact E|]. split; [reflexivity|]. split; [intros []|reflexivity].
  - change (effects rs (a :: l) t) with (effects rs l (effect rs a t)).
    assert (F' : forall b, In b l -> forward p b) by (intros b I; apply F; now right).
    destruct (jumps_dec a) as [J|J].
    { left. exists a. split; [now left|]. split; [exact J|]. apply effects_above; auto. apply effect_jump; auto. apply F. now left. }
    assert (D : a = ASkip \/ a <> ASkip) by (destruct a; try (right; discriminate); now left). destruct D as [->|S].
    + assert (Q : t_phase (effect rs ASkip t) = p /\ t_cur (effect rs ASkip t) = t_cur t /\
                  t_next (effect rs ASkip t) = skipped_to rs p (t_cur t + 2)).
      { simpl. unfold jump_to, skipped_to. rewrite E. destruct (nrules rs p <=? t_cur t + 2); simpl; auto. }
      destruct Q as (Q1 & Q2 & Q3). destruct (IH (effect rs ASkip t) P F' Q1) as [(b & B1 & B2 & B3)|(B1 & B2 & B3 & B4 & B5)].
      * left. exists b. split; [now right|]. auto.
      * right. split; [intros b [<-|I]; auto|]. split; [exact B2|]. split; [congruence|]. split; [|intro N; elim N; now left].
        intros _. rewrite Q2 in B4.
        assert (DD : In ASkip l \/ ~ In ASkip l).
        { clear. induction l as [|b l [I|I]]; [right; intros []|left; now right|].
          assert (D : b = ASkip \/ b <> ASkip) by (destruct b; try (right; discriminate); now left).
          destruct D as [->|D]; [left; now left|]. right. intros [X|X]; auto. }
        destruct DD as [I|I]; [auto|]. rewrite (B5 I). exact Q3.
    + destruct (effect_stay rs a t J S) as (Q1 & Q2 & Q3). rewrite E in Q1.
      destruct (IH (effect rs a t) P F' Q1) as [(b & B1 & B2 & B3)|(B1 & B2 & B3 & B4 & B5)].
      * left. exists b. split; [now right|]. auto.
      * right. split; [intros b [<-|I]; auto|]. split; [exact B2|]. split; [congruence|]. rewrite Q2 in B4. split.
        -- intros [X|X]; [now subst|auto].
        -- intro N. rewrite B5 by (intro I; apply N; now right). exact Q3.
Qed.

(** Rule [i] of phase [p] fired in state [t], executing the actions [l]. *)
Definition fires (O : oracles) (e : engine) (rs : ruleset) (p i : Z) (t t' : txn) (l : list action) : Prop :=
  exists r t1, 0 <= i /\ nth_error (phase_rules rs p) (Z.to_nat i) = Some r /\ all_match O e (r :: r_subs r) t t1 /\
    chain_actions (rs_default rs) (r :: r_subs r) l /\ t' = effects rs l t1.
Definition misses (O : oracles) (e : engine) (rs : ruleset) (p i : Z) (t t' : txn) : Prop :=
  exists r, 0 <= i /\ nth_error (phase_rules rs p) (Z.to_nat i) = Some r /\ some_miss O e (r :: r_subs r) t t'.
Lemma process_rule_cases : forall d O e rs p i t t', process_rule d O e rs p i t = Ret t' ->
  (nrules rs p <= i /\ t' = t) \/
  (0 <= i < nrules rs p /\ (misses O e rs p i t t' \/ exists l, fires O e rs p i t t' l)).
Proof.
  intros d O e rs p i t t' H. unfold process_rule in H. destruct (i <? nrules rs p) eqn:L; [|left; apply Ret_inj in H; split; [lia|auto]].
  destruct (i <? 0) eqn:Z0; [discriminate|]. right. split; [lia|].
  destruct (nth_error (phase_rules rs p) (Z.to_nat i)) as [r|] eqn:E; [|discriminate].
  apply do_rule_ret in H as [M|(t1 & l & A & C & ->)].
  - left. exists r. split; [lia|]. auto.
  - right. exists l, r, t1. split; [lia|]. auto.
Qed.
Lemma frame_position : forall t t', frame t t' -> t_phase t' = t_phase t /\ t_cur t' = t_cur t /\ t_next t' = t_next t /\ t_status t' = t_status t.
Proof. intros t t' (_ & _ & H & _). unfold position in H. injection H as H1 H2 H3 H4. auto. Qed.

Definition all_forward (rs : ruleset) (p : Z) : Prop := forall a, usable rs p a -> forward p a.

Lemma match_exclusive : forall O e rr t t1 t2, all_match O e rr t t1 -> some_miss O e rr t t2 -> False.
Proof.
  intros O e rr t t1 t2 A. revert t2. induction A as [t|r rr t u v E A IH]; intros t2 M; inversion M; subst; unfold evals in *.
  - congruence.
  - match goal with H : match_rule O e r t = Ret (?x, true) |- _ => rewrite E in H; apply Ret_inj in H; injection H as -> end. eapply IH; eauto.
Qed.
(** After one rule in phase [p] at position [i]. *)
Lemma process_rule_pos : forall d O e rs p i t t', 1 <= p <= 6 -> all_forward rs p ->
  t_phase t = p -> t_cur t = i -> process_rule d O e rs p i t = Ret t' ->
  p < t_phase t' <= 7 \/
  (t_phase t' = p /\ t_cur t' = i /\
   (((exists l, fires O e rs p i t t' l /\ In ASkip l) /\ t_next t' = skipped_to rs p (i + 2)) \/
    ((forall l, fires O e rs p i t t' l -> ~ In ASkip l) /\ t_next t' = t_next t))).
Proof.
  intros d O e rs p i t t' P F E C H. apply process_rule_cases in H as [[L ->]|[R [(r & Z0 & N & M)|(l & r & t1 & Z0 & N & A & CA & ->)]]].
  - right. split; [exact E|]. split; [exact C|]. right. split; [|reflexivity].
    intros l (r & t1 & Z0 & N & _). apply nth_error_Some_lt in N. unfold nrules in L. lia.
  - pose proof (frame_position _ _ (touches_frame _ _ (some_miss_touches _ _ _ _ _ M))) as (Q1 & Q2 & Q3 & _).
    right. split; [congruence|]. split; [congruence|]. right. split; [|exact Q3].
    intros l (r' & t1 & _ & N' & A & _). assert (r' = r) by congruence. subst.
    elim (match_exclusive _ _ _ _ _ _ A M).
  - pose proof (frame_position _ _ (touches_frame _ _ (all_match_touches _ _ _ _ _ A))) as (Q1 & Q2 & Q3 & _).
    assert (FW : forall a, In a l -> forward p a) by (intros a I; apply F; eapply chain_usable; eauto; eapply nth_error_In; eauto).
    destruct (effects_pos rs p l t1 P FW ltac:(congruence)) as [(a & _ & _ & B)|(_ & B2 & B3 & B4 & B5)]; [left; exact B|].
    right. split; [exact B2|]. split; [congruence|].
    assert (DD : In ASkip l \/ ~ In ASkip l).
    { clear. induction l as [|b l [I|I]]; [right; intros []|left; now right|].
      assert (D : b = ASkip \/ b <> ASkip) by (destruct b; try (right; discriminate); now left).
      destruct D as [->|D]; [left; now left|]. right. intros [X|X]; auto. }
    destruct DD as [I|I].
    + left. split; [exists l; split; [exists r, t1; auto|exact I]|]. rewrite (B4 I). congruence.
    + right. split; [|rewrite (B5 I); exact Q3]. intros l' (r' & t1' & _ & N' & _ & CA' & _).
      assert (r' = r) by congruence. subst. now rewrite (chain_fun _ _ _ _ CA' CA).
Qed.

(** ** Order of evaluation *)
Definition after (rs : ruleset) (p i : Z) : Z := skipped_to rs p (i + 1).
Definition at_rule (rs : ruleset) (p n : Z) (t : txn) : Prop :=
  t_phase t = p -> n <> StatusEndOfRules -> 0 <= n /\ t_cur t = n /\ t_next t = after rs p n.
Lemma next_at : forall rs p t n t', t_phase t = p -> (t_next t = StatusEndOfRules \/ 0 <= t_next t) ->
  next_rule rs t = (n, t') -> n = t_next t /\ t_phase t' = p /\ at_rule rs p n t'.
Proof.
  intros rs p t n t' E G H. unfold next_rule in H. destruct (Z.eqb_spec (t_next t) StatusEndOfRules) as [Q|Q]; injection H as <- <-.
  - split; [congruence|]. split; [exact E|]. intros _ N. easy.
  - split; [reflexivity|]. split; [exact E|]. intros _ _. simpl. split; [destruct G; [easy|exact H]|].
    split; [reflexivity|]. unfold after, skipped_to. now rewrite E.
Qed.
Lemma skipped_ok : forall rs p i, 0 <= i -> skipped_to rs p i = StatusEndOfRules \/ 0 <= skipped_to rs p i.
Proof. intros rs p i H. unfold skipped_to. destruct (nrules rs p <=? i); auto. Qed.

(** Consecutive evaluated rules. *)
Inductive in_order (O : oracles) (e : engine) (rs : ruleset) (p : Z) : list visit -> Prop :=
| io_nil : in_order O e rs p []
| io_one : forall v, in_order O e rs p [v]
| io_cons : forall i t t1 j u u1 l, 
    (((exists a, fires O e rs p i t t1 a /\ In ASkip a) /\ j = i + 2) \/
     ((forall a, fires O e rs p i t t1 a -> ~ In ASkip a) /\ j = i + 1)) ->
    j < nrules rs p ->
    in_order O e rs p ((j, u, u1) :: l) -> in_order O e rs p ((i, t, t1) :: (j, u, u1) :: l).

Lemma visits_order : forall d O e rs p n t l t', 1 <= p <= 6 -> all_forward rs p ->
  visits d O e rs p n t l t' -> at_rule rs p n t ->
  in_order O e rs p l /\ (forall v l', l = v :: l' -> fst (fst v) = n).
Proof.
  intros d O e rs p n t l t' P F V. induction V as [n t H|n t t1 E N R D|n t t1 m t2 l t' E N R D NX V IH]; intro A.
  - split; [constructor|]. intros v l' H'. discriminate.
  - split; [constructor|]. intros v l' H'. injection H' as <- _. reflexivity.
  - split; [|intros v l' H'; injection H' as <- _; reflexivity].
    destruct (A E N) as (Z0 & C & NN).
    destruct (process_rule_pos d O e rs p n t t1 P F E C R) as [B|(B1 & B2 & B3)].
    + assert (PH : t_phase t2 = t_phase t1) by (unfold next_rule in NX; simpl in NX; destruct (t_next t1 =? StatusEndOfRules); injection NX as _ <-; reflexivity).
      inversion V; subst; [constructor|lia|lia].
    + assert (G : t_next (touch_iv t1) = StatusEndOfRules \/ 0 <= t_next (touch_iv t1)).
      { simpl. destruct B3 as [[_ B3]|[_ B3]]; rewrite B3; [apply skipped_ok; lia|rewrite NN; apply skipped_ok; lia]. }
      destruct (next_at rs p (touch_iv t1) m t2 B1 G NX) as (M1 & M2 & M3). simpl in M1.
      destruct (IH M3) as [IO HD]. destruct l as [|[[j u] u1] l]; [constructor|].
      assert (J : j = m) by exact (HD _ _ eq_refl). subst j.
      assert (MN : m <> StatusEndOfRules) by (inversion V; auto).
      constructor; [|destruct B3 as [[_ B3]|[_ B3]]; rewrite B3 in M1; rewrite ?NN in M1; unfold after, skipped_to in M1;
        match type of M1 with context [if ?c then _ else _] => destruct c eqn:Q end; lia|exact IO].
      destruct B3 as [[S B3]|[S B3]]; rewrite B3 in M1; [left|right]; (split; [exact S|]); rewrite ?NN in M1; unfold after, skipped_to in M1;
      match type of M1 with context [if ?c then _ else _] => destruct c eqn:Q end; lia.
Qed.

(** ** Termination *)
(** The body is not looked at, or reading a form ends. *)
Definition forms_end (O : oracles) (e : engine) : Prop := e_reqaccess e = false \/ forall b bd m, fst (multipart O b bd m) <> MpHang.
Lemma fetch_ends : forall O e v t, forms_end O e -> fetch O e v t <> Timeout.
Proof.
  intros O e v t ME.
  assert (RP : (forall b bd m, fst (multipart O b bd m) <> MpHang) -> forall tp bd t, run_parser O e tp bd t <> Timeout).
  { intros M [] bd u; simpl.
    - destruct (match b_file (init_read (t_reqbody u)) with Some _ => Some ErrOutOfMemLimit | None => None end); [discriminate|].
      destruct (parse_query _ _). discriminate.
    - specialize (M (t_reqbody u) bd (e_reqmem e)). destruct (multipart O _ _ _) as [[] off]; try discriminate. easy. }
  assert (PT : (forall b bd m, fst (multipart O b bd m) <> MpHang) -> forall ct bd tps t, parse_types O e ct bd tps t <> Timeout).
  { intros M ct bd tps. specialize (RP M). induction tps as [|tp tps IH]; intro u; simpl; [discriminate|].
    destruct (negb _); [apply IH|]. destruct (cache_get tp u) as [[]|]; try discriminate; [apply IH|].
    specialize (RP tp bd u). destruct (run_parser O e tp bd u) as [[[u1 res] err]| |]; cbn [bind]; try discriminate; [|easy].
    destruct err; [discriminate|]. destruct res; try discriminate. apply IH. }
  assert (BP : forall t, request_body_parse O e t <> Timeout).
  { intro u. unfold request_body_parse. destruct (negb (has_body_method u)); [discriminate|].
    destruct ME as [ME|ME]; [now rewrite ME|].
    destruct (negb (e_reqaccess e) || (buf_len (t_reqbody u) =? 0)); [discriminate|]. destruct (media_type O _). now apply PT. }
  assert (FC : forall c f t, fetch_coll O e c f t <> Timeout).
  { intros c f u. destruct c; cbn [fetch_coll]; try discriminate; try (destruct (t_url u); discriminate).
    - unfold fetch_post. specialize (BP u). destruct (request_body_parse O e u) as [[u1 r]| |]; cbn [bind]; try easy.
      destruct r as [[[] [|m|[m|]]]|]; discriminate.
    - unfold fetch_post_names. specialize (BP u). destruct (request_body_parse O e u) as [[u1 r]| |]; cbn [bind]; try easy.
      destruct r as [[[] [|m|[m|]]]|]; discriminate. }
  revert t. induction v as [c f|s|g p|g p|v IH]; intro t; cbn [fetch].
  - apply FC.
  - discriminate.
  - pose proof (FC CArgsGet g t) as H1. destruct (fetch_coll O e CArgsGet g t) as [[t1 a]| |]; cbn [bind]; try easy.
    pose proof (FC CArgsPost p t1) as H2. destruct (fetch_coll O e CArgsPost p t1) as [[t2 b]| |]; cbn [bind]; easy.
  - pose proof (FC CArgsGetNames g t) as H1. destruct (fetch_coll O e CArgsGetNames g t) as [[t1 a]| |]; cbn [bind]; try easy.
    pose proof (FC CArgsPostNames p t1) as H2. destruct (fetch_coll O e CArgsPostNames p t1) as [[t2 b]| |]; cbn [bind]; easy.
  - specialize (IH t). destruct (fetch O e v t) as [[t1 a]| |]; cbn [bind]; easy.
Qed.
Lemma match_ends : forall O e r t, forms_end O e -> match_rule O e r t <> Timeout.
Proof.
  intros O e r t M. unfold match_rule.
  assert (FA : forall vs t, fetch_all O e r vs t <> Timeout).
  { intro vs. induction vs as [|v vs IH]; intro u; cbn [fetch_all]; [discriminate|]. unfold transform_variable.
    pose proof (fetch_ends O e v u M) as F. destruct (fetch O e v u) as [[u1 a]| |]; cbn [bind]; try easy.
    specialize (IH u1). destruct (fetch_all O e r vs u1) as [[u2 b]| |]; cbn [bind]; easy. }
  specialize (FA (r_vars r) t). destruct (fetch_all O e r (r_vars r) t) as [[t1 vs]| |]; cbn [bind]; try easy.
  pose proof (match_values_total O r vs (t_abort t1)) as V. destruct (match_values O (t_abort t1) r vs); cbn [bind]; easy.
Qed.
Lemma execute_ends : forall f rs as_ t, ~ In ABlock (rs_default rs) -> exists t', actions_execute (S (S f)) rs as_ t = Ret t'.
Proof.
  intros f rs as_ t N.
  assert (G : forall f l t, ~ In ABlock l -> exists t', act_list f rs l t = Ret t').
  { intros k l. induction l as [|a l IH]; intros u X; cbn [act_list]; [eauto|].
    assert (E : act1 k rs a u = Ret (effect rs a u)) by (destruct a; try reflexivity; elim X; now left).
    rewrite E. cbn [bind]. apply IH. intro I. apply X. now right. }
  rewrite execute_eq. generalize (grouped as_) as l. intro l. revert t. induction l as [|a l IH]; intro t; cbn [act_list]; [eauto|].
  assert (E : exists t1, act1 (S f) rs a t = Ret t1).
  { destruct a; cbn [act1]; try (eexists; reflexivity). rewrite execute_eq. apply G.
    intro I. apply N. now apply (stable_in _ _ _ (grouped_stable (rs_default rs))). }
  destruct E as (t1 & E). rewrite E. cbn [bind]. apply IH.
Qed.
Lemma do_rule_ends : forall f O e rs r t, forms_end O e -> ~ In ABlock (rs_default rs) ->
  do_rule (S (S f)) O e rs r t <> Timeout.
Proof.
  intros f O e rs r t M N. unfold do_rule. pose proof (match_ends O e r t M) as H.
  destruct (match_rule O e r t) as [[t1 []]| |]; cbn [bind]; try easy.
  assert (MS : forall subs t, match_subs O e subs t <> Timeout).
  { intro subs. induction subs as [|s subs IH]; intro u; cbn [match_subs]; [discriminate|]. pose proof (match_ends O e s u M) as K.
    destruct (match_rule O e s u) as [[u1 []]| |]; cbn [bind]; try easy; apply IH. }
  specialize (MS (r_subs r) t1). destruct (match_subs O e (r_subs r) t1) as [[t2 []]| |]; cbn [bind]; try easy.
  destruct (execute_ends f rs (r_acts r) t2 N) as (t3 & E). rewrite E. cbn [bind]. clear -N. revert t3.
  generalize (r_subs r) as subs. intro subs. induction subs as [|s subs IH]; intro t; cbn [subs_execute]; [discriminate|].
  destruct (execute_ends f rs (r_acts s) t N) as (t4 & E). rewrite E. cbn [bind]. apply IH.
Qed.
Lemma process_rule_ends : forall f O e rs p i t, forms_end O e -> ~ In ABlock (rs_default rs) ->
  process_rule (S (S f)) O e rs p i t <> Timeout.
Proof.
  intros f O e rs p i t M N. unfold process_rule. destruct (i <? nrules rs p); [|discriminate]. destruct (i <? 0); [discriminate|].
  destruct (nth_error _ _); [now apply do_rule_ends|discriminate].
Qed.
Lemma loop_ends : forall f d O e rs p n t, 1 <= p <= 6 -> all_forward rs p ->
  forms_end O e -> ~ In ABlock (rs_default rs) ->
  at_rule rs p n t -> (n = StatusEndOfRules \/ Z.max 0 (nrules rs p - n) + 1 < Z.of_nat f) -> (1 <= f)%nat ->
  phase_loop f (S (S d)) O e rs p n t <> Timeout.
Proof.
  induction f as [|f IH]; intros d O e rs p n t P F M N A L L1; [lia|]. cbn [phase_loop].
  destruct (Z.eqb_spec (t_phase t) p) as [E|E]; [|discriminate].
  destruct (Z.eqb_spec n StatusEndOfRules) as [Q|Q]; [discriminate|]. cbn [andb negb].
  destruct (A E Q) as (Z0 & C & NN).
  pose proof (process_rule_ends d O e rs p n t M N) as PE.
  destruct (process_rule (S (S d)) O e rs p n t) as [t1| |] eqn:R; cbn [bind]; try easy.
  destruct (i_disruptive (get_iv (touch_iv t1))); [discriminate|].
  destruct (next_rule rs (touch_iv t1)) as [m t2] eqn:NX.
  destruct (process_rule_pos _ O e rs p n t t1 P F E C R) as [B|(B1 & B2 & B3)].
  - assert (PH : t_phase t2 = t_phase t1) by (unfold next_rule in NX; simpl in NX; destruct (t_next t1 =? StatusEndOfRules); injection NX as _ <-; reflexivity).
    destruct f as [|f]; [exfalso; unfold nrules in *; lia|]. cbn [phase_loop]. destruct (Z.eqb_spec (t_phase t2) p); [lia|discriminate].
  - assert (G : t_next (touch_iv t1) = StatusEndOfRules \/ 0 <= t_next (touch_iv t1)).
    { simpl. destruct B3 as [[_ B3]|[_ B3]]; rewrite B3; [apply skipped_ok; lia|rewrite NN; apply skipped_ok; lia]. }
    destruct (next_at rs p (touch_iv t1) m t2 B1 G NX) as (M1 & M2 & M3). simpl in M1.
    assert (K : m = StatusEndOfRules \/ n < m < nrules rs p).
    { destruct B3 as [[_ B3]|[_ B3]]; rewrite B3 in M1; rewrite ?NN in M1; unfold after, skipped_to in M1;
      match type of M1 with context [if ?c then _ else _] => destruct c eqn:QQ end; lia. }
    assert (FF : (1 <= f)%nat \/ f = 0%nat) by lia. destruct FF as [FF|FF]; [|unfold nrules in *; exfalso; lia].
    apply IH; auto. destruct K as [K|K]; [now left|]. right. destruct L; [easy|lia].
Qed.

(** ** Where a run ends *)
Definition index (v : visit) : Z := fst (fst v).
Definition stops (O : oracles) (e : engine) (rs : ruleset) (p : Z) (v : visit) : Prop :=
  let '(i, u, u1) := v in
  i_disruptive (get_iv u1) = true \/ t_phase u1 <> p \/ nrules rs p <= i + 1 \/
  (nrules rs p <= i + 2 /\ exists a, fires O e rs p i u u1 a /\ In ASkip a).

Lemma next_phase_same : forall rs t n t', next_rule rs t = (n, t') -> t_phase t' = t_phase t /\ t_iv t' = t_iv t /\ t_abort t' = t_abort t.
Proof. intros rs t n t' H. unfold next_rule in H. destruct (t_next t =? StatusEndOfRules); injection H as _ <-; auto. Qed.
(** One turn of the loop that goes on in the same phase. *)
Lemma next_turn : forall d O e rs p n t t1 m t2, 1 <= p <= 6 -> all_forward rs p -> at_rule rs p n t ->
  t_phase t = p -> n <> StatusEndOfRules -> process_rule d O e rs p n t = Ret t1 -> next_rule rs (touch_iv t1) = (m, t2) ->
  (p < t_phase t2 <= 7 /\ p < t_phase t1 <= 7) \/
  (t_phase t2 = p /\ t_phase t1 = p /\ at_rule rs p m t2 /\
   (((exists a, fires O e rs p n t t1 a /\ In ASkip a) /\ m = skipped_to rs p (n + 2)) \/
    ((forall a, fires O e rs p n t t1 a -> ~ In ASkip a) /\ m = skipped_to rs p (n + 1)))).
Proof.
  intros d O e rs p n t t1 m t2 P F A E N R NX. destruct (A E N) as (Z0 & C & NN).
  destruct (next_phase_same _ _ _ _ NX) as (PH & _ & _). change (t_phase (touch_iv t1)) with (t_phase t1) in PH.
  destruct (process_rule_pos d O e rs p n t t1 P F E C R) as [B|(B1 & B2 & B3)]; [left; lia|]. right.
  assert (G : t_next (touch_iv t1) = StatusEndOfRules \/ 0 <= t_next (touch_iv t1)).
  { simpl. destruct B3 as [[_ B3]|[_ B3]]; rewrite B3; [apply skipped_ok; lia|rewrite NN; apply skipped_ok; lia]. }
  destruct (next_at rs p (touch_iv t1) m t2 B1 G NX) as (M1 & M2 & M3). simpl in M1.
  split; [exact M2|]. split; [exact B1|]. split; [exact M3|].
  destruct B3 as [[S B3]|[S B3]]; [left|right]; (split; [exact S|]); rewrite M1, B3; [reflexivity|exact NN].
Qed.
Lemma visits_end : forall d O e rs p n t l t', 1 <= p <= 6 -> all_forward rs p ->
  visits d O e rs p n t l t' -> at_rule rs p n t -> forall l0 v, l = l0 ++ [v] -> stops O e rs p v.
Proof.
  intros d O e rs p n t l t' P F V. induction V as [n t H|n t t1 E N R D|n t t1 m t2 l t' E N R D NX V IH]; intros A l0 v Q.
  - now destruct l0.
  - destruct l0 as [|x l0]; [injection Q as <-; now left|]. injection Q as _ Q. now destruct l0.
  - destruct (next_turn d O e rs p n t t1 m t2 P F A E N R NX) as [[B1 B2]|(B1 & B2 & B3 & B4)].
    + inversion V; subst; [|lia|lia]. destruct l0 as [|x l0]; [injection Q as <-; right; left; lia|]. injection Q as _ Q. now destruct l0.
    + destruct l0 as [|x l0].
      * injection Q as <- ->. right. right. inversion V; subst. match goal with H : t_phase _ <> _ \/ _ |- _ => destruct H as [H|H]; [congruence|] end.
        destruct B4 as [[S B4]|[S B4]]; rewrite B4 in *; unfold skipped_to in *;
        match goal with H : (if ?c then _ else _) = _ |- _ => destruct c eqn:QQ end.
        -- right. split; [lia|exact S].
        -- destruct (A eq_refl N). unfold StatusEndOfRules in *. lia.
        -- left. lia.
        -- destruct (A eq_refl N). unfold StatusEndOfRules in *. lia.
      * injection Q as _ Q. eapply IH; eauto.
Qed.
Lemma visits_disruptive : forall d O e rs p n t l t', visits d O e rs p n t l t' ->
  forall l0 i u u1 l1, l = l0 ++ (i, u, u1) :: l1 -> i_disruptive (get_iv u1) = true -> l1 = [] /\ t' = touch_iv u1.
Proof.
  induction 1 as [n t H|n t t1 E N R D|n t t1 m t2 l t' E N R D NX V IH]; intros l0 i u u1 l1 Q DD.
  - now destruct l0.
  - destruct l0 as [|x l0]; [injection Q as <- <- <- <-; auto|]. injection Q as _ Q. now destruct l0.
  - destruct l0 as [|x l0]; [injection Q as <- <- <- <-; congruence|]. injection Q as _ Q. eauto.
Qed.
Lemma visits_left : forall d O e rs p n t l t', visits d O e rs p n t l t' ->
  forall l0 i u u1 l1, l = l0 ++ (i, u, u1) :: l1 -> t_phase u1 <> p ->
  l1 = [] /\ (t' = touch_iv u1 \/ t' = snd (next_rule rs (touch_iv u1))).
Proof.
  induction 1 as [n t H|n t t1 E N R D|n t t1 m t2 l t' E N R D NX V IH]; intros l0 i u u1 l1 Q DD.
  - now destruct l0.
  - destruct l0 as [|x l0]; [injection Q as <- <- <- <-; auto|]. injection Q as _ Q. now destruct l0.
  - destruct l0 as [|x l0]; [|injection Q as _ Q; eauto]. injection Q as -> -> -> ->.
    destruct (next_phase_same _ _ _ _ NX) as (PH & _ & _). change (t_phase (touch_iv u1)) with (t_phase u1) in PH.
    inversion V; subst; [|congruence|congruence]. split; [reflexivity|]. right. now rewrite NX.
Qed.
(** Each visit is an evaluation in the phase being run. *)
Lemma visits_each : forall d O e rs p n t l t', visits d O e rs p n t l t' -> forall i u u1, In (i, u, u1) l ->
  t_phase u = p /\ process_rule d O e rs p i u = Ret u1.
Proof.
  induction 1 as [n t H|n t t1 E N R D|n t t1 m t2 l t' E N R D NX V IH]; intros i u u1 I; [easy| |];
  (destruct I as [I|I]; [injection I as <- <- <-; auto|]); [easy|eauto].
Qed.
(** The way from one evaluation to the next. *)
Lemma visits_link : forall d O e rs p n t l t', visits d O e rs p n t l t' -> forall l0 i u u1 j w w1 l1,
  l = l0 ++ (i, u, u1) :: (j, w, w1) :: l1 -> next_rule rs (touch_iv u1) = (j, w).
Proof.
  induction 1 as [n t H|n t t1 E N R D|n t t1 m t2 l t' E N R D NX V IH]; intros l0 i u u1 j w w1 l1 Q.
  - now destruct l0.
  - destruct l0 as [|x l0]; [discriminate|]. injection Q as _ Q. now destruct l0.
  - destruct l0 as [|x l0]; [|injection Q as _ Q; eauto]. injection Q as <- <- <- Q. rewrite Q in V.
    inversion V; subst; exact NX.
Qed.
(** A run of a phase. *)
Definition entered (rs : ruleset) (p : Z) (t : txn) : txn := snd (next_rule rs (jump_to_phase p t)).
Lemma entered_at : forall rs p t, 0 <= p < 7 -> next_rule rs (jump_to_phase p t) = (0, entered rs p t) /\
  t_phase (entered rs p t) = p /\ at_rule rs p 0 (entered rs p t).
Proof.
  intros rs p t P. unfold entered.
  assert (E : t_phase (jump_to_phase p t) = p).
  { unfold jump_to_phase, PhaseBegin, PhaseEnd. simpl. destruct (p <? 0) eqn:A; [lia|]. destruct (7 <=? p) eqn:C; lia. }
  destruct (next_rule rs (jump_to_phase p t)) as [n t'] eqn:NX.
  assert (T : t_next (jump_to_phase p t) = 0) by reflexivity.
  destruct (next_at rs p _ n t' E ltac:(right; rewrite T; lia) NX) as (M1 & M2 & M3). rewrite T in M1. subst n. auto.
Qed.
Lemma phase_run : forall f O e rs p t t', 1 <= p <= 6 -> t_phase t < p -> t_abort t = false ->
  process_phase f O e rs p t = Ret t' -> exists l, visits f O e rs p 0 (entered rs p t) l t'.
Proof.
  intros f O e rs p t t' P L A H. unfold process_phase in H. destruct (p <=? t_phase t) eqn:Q; [lia|].
  unfold process_phase_inner in H. change (t_abort (jump_to_phase p t)) with (t_abort t) in H. rewrite A in H.
  destruct (entered_at rs p t ltac:(lia)) as (E & _). rewrite E in H. now apply loop_visits in H.
Qed.
