(** Goroutines with a transaction each, in any interleaving of their steps (C41, C78, C32). *)
From Verif Require Import Base BaseFacts GoStrings Buffer BufferFacts Types Transforms Operators Transaction Variables Rules Engine
  SpecRules RuleFacts LoopFacts Witness PropRules PropSafe PropBody SpecAccount PropComplete SpecChronicle PropChronicle Threads SpecThreads.
From Coq Require Import Lia.

(** ** Turns *)
Lemma turns_add : forall m n O th, turns_of (m + n) O th = (th1 <- turns_of m O th ;; turns_of n O th1).
Proof.
  induction m as [|m IH]; intros n O th; [reflexivity|]. cbn [Nat.add turns_of]. destruct (turn_of O th); cbn [bind]; [apply IH| |]; reflexivity.
Qed.
Lemma turn_never : forall O th, turn_of O th <> Timeout.
Proof.
  intros O th. unfold turn_of. destruct (th_work th) as [|x k].
  - destruct (th_todo th); [discriminate|]. destruct (begin _ _ _) as [[? ?]| |]; discriminate.
  - destruct (micro _ _ _ _ _ _) as [[? ?]| |]; discriminate.
Qed.
Lemma turns_never : forall n O th, turns_of n O th <> Timeout.
Proof.
  induction n as [|n IH]; intros O th; [discriminate|]. cbn [turns_of]. pose proof (turn_never O th) as N. destruct (turn_of O th); cbn [bind]; [apply IH|discriminate|easy].
Qed.
Lemma finished_turn : forall O th, finished th -> turn_of O th = Ret th.
Proof. intros O th (W & T). unfold turn_of. now rewrite W, T. Qed.
Lemma finished_turns : forall n O th, finished th -> turns_of n O th = Ret th.
Proof. induction n as [|n IH]; intros O th F; [reflexivity|]. cbn [turns_of]. rewrite (finished_turn O th F). cbn [bind]. now apply IH. Qed.
Lemma finished_later : forall m n O a b, turns_of m O a = Ret b -> finished b -> (m <= n)%nat -> turns_of n O a = Ret b.
Proof. intros m n O a b H F L. replace n with (m + (n - m))%nat by lia. rewrite turns_add, H. cbn [bind]. now apply finished_turns. Qed.

(** ** More time changes no answer *)
Lemma loop_mono : forall f f' d d' O e rs p n t, (f <= f')%nat -> (d <= d')%nat -> phase_loop f d O e rs p n t <> Timeout -> phase_loop f' d' O e rs p n t = phase_loop f d O e rs p n t.
Proof.
  induction f as [|f IH]; intros f' d d' O e rs p n t L L' H; [now elim H|]. destruct f' as [|f']; [lia|]. cbn [phase_loop] in *. destruct (_ && _); [|reflexivity].
  rewrite (process_rule_mono d d' O e rs p n t L'); [|intro Q; rewrite Q in H; now elim H]. destruct (process_rule d O e rs p n t) as [u| |]; cbn [bind] in *; try reflexivity.
  cbv zeta in *. destruct (i_disruptive _); [reflexivity|]. destruct (next_rule rs (touch_iv u)). apply IH; [lia|exact L'|exact H].
Qed.
Lemma step_mono : forall f f' O e rs o t, (f <= f')%nat -> Engine.step f O e rs o t <> Timeout -> Engine.step f' O e rs o t = Engine.step f O e rs o t.
Proof.
  intros f f' O e rs o t L. assert (P : forall p u, process_phase f O e rs p u <> Timeout -> process_phase f' O e rs p u = process_phase f O e rs p u).
  { intros p u H. unfold process_phase, process_phase_inner in *. destruct (_ <=? _); [reflexivity|]. destruct (t_abort _); [reflexivity|]. destruct (next_rule _ _). now apply loop_mono. }
  destruct o; cbn [Engine.step]; intro H; try reflexivity; (rewrite P; [reflexivity|]; intro Q; rewrite Q in H; now elim H).
Qed.
Lemma steps_mono : forall f f' O e rs os t, (f <= f')%nat -> steps f O e rs os t <> Timeout -> steps f' O e rs os t = steps f O e rs os t.
Proof.
  intros f f' O e rs os. induction os as [|o os IH]; intros t L H; cbn [steps] in *; [reflexivity|].
  rewrite (step_mono f f' O e rs o t L); [|intro Q; rewrite Q in H; now elim H]. destruct (Engine.step f O e rs o t) as [[u b]| |]; cbn [bind] in *; try reflexivity.
  rewrite IH; [reflexivity|exact L|]. intro Q. rewrite Q in H. now elim H.
Qed.

(** ** One goroutine does what the functions say *)
Section One.
Variables (O : oracles) (e : engine) (rs : ruleset) (sn : list obs).

Definition runs (a b : thread) : Prop := exists n, turns_of n O a = Ret b.
Definition ends_as (f : nat) (a : thread) (r : out thread) : Prop :=
  match r with
  | Ret b => runs a b
  | Panic => exists c, runs a c /\ th_seen c = sn /\ turn_of O c = Panic
  | Timeout => exists n c, (f <= n)%nat /\ turns_of n O a = Ret c /\ th_seen c = sn /\ ~ finished c
  end.
Lemma runs_refl : forall a, runs a a.
Proof. intro a. now exists 0%nat. Qed.
Lemma runs_trans : forall a b c, runs a b -> runs b c -> runs a c.
Proof. intros a b c (m & H) (n & K). exists (m + n)%nat. rewrite turns_add, H. exact K. Qed.
Lemma runs_turn : forall a b, turn_of O a = Ret b -> runs a b.
Proof. intros a b H. exists 1%nat. cbn [turns_of]. now rewrite H. Qed.
Lemma after : forall f a b r, runs a b -> ends_as f b r -> ends_as f a r.
Proof.
  intros f a b r R H. destruct r as [c| |]; cbn in *.
  - now apply (runs_trans a b c).
  - destruct H as (c & K & S & P). exists c. split; [now apply (runs_trans a b c)|]. now split.
  - destruct R as (m & R). destruct H as (n & c & L & K & S & F). exists (m + n)%nat, c. split; [lia|]. split; [now rewrite turns_add, R|]. now split.
Qed.
Lemma after_one : forall f a b r, turn_of O a = Ret b -> ends_as f b r -> ends_as (Datatypes.S f) a r.
Proof.
  intros f a b r R H. destruct r as [c| |]; cbn in *.
  - destruct H as (n & H). exists (Datatypes.S n). cbn [turns_of]. now rewrite R.
  - destruct H as (c & (n & H) & X). exists c. split; [|exact X]. exists (Datatypes.S n). cbn [turns_of]. now rewrite R.
  - destruct H as (n & c & L & K & X). exists (Datatypes.S n), c. split; [lia|]. split; [cbn [turns_of]; now rewrite R|exact X].
Qed.
Lemma less : forall f g a r, (g <= f)%nat -> ends_as f a r -> ends_as g a r.
Proof. intros f g a r L H. destruct r; cbn in *; try exact H. destruct H as (n & c & K & X). exists n, c. split; [lia|exact X]. Qed.
Lemma andthen : forall {A} f a (m : out A) (g : A -> thread) (h : A -> out thread),
  ends_as f a (x <- m ;; Ret (g x)) -> (forall x, m = Ret x -> ends_as f (g x) (h x)) -> ends_as f a (x <- m ;; h x).
Proof. intros A f a m g h H K. destruct m as [x| |]; cbn [bind] in *; [|exact H|exact H]. apply (after f a (g x)); [exact H|now apply K]. Qed.

Section Inside.
Variable os : list op.
Definition Th (t : txn) (w : list task) : thread := Thread e rs t w os sn.
Lemma one : forall t x k u w, (forall b, x <> TReturn b) -> micro O e rs t x k = Ret (u, w) -> turn_of O (Th t (x :: k)) = Ret (Th u w).
Proof. intros t x k u w NR H. unfold turn_of, Th. cbn [th_work th_eng th_rules th_txn th_todo th_seen]. rewrite H. destruct x; try reflexivity. now elim (NR b). Qed.
Lemma one_panics : forall f t x k, micro O e rs t x k = Panic -> ends_as f (Th t (x :: k)) Panic.
Proof. intros f t x k H. exists (Th t (x :: k)). split; [apply runs_refl|]. split; [reflexivity|]. unfold turn_of, Th. cbn [th_work th_eng th_rules th_txn]. now rewrite H. Qed.
Lemma stays : forall f t x k, micro O e rs t x k = Timeout -> ends_as f (Th t (x :: k)) Timeout.
Proof.
  intros f t x k H. exists f, (Th t (x :: k)). split; [lia|].
  assert (T : turn_of O (Th t (x :: k)) = Ret (Th t (x :: k))) by (unfold turn_of, Th; cbn [th_work th_eng th_rules th_txn]; now rewrite H).
  split; [|split; [reflexivity|intros (X & _); discriminate X]]. clear H. induction f as [|f IH]; [reflexivity|]. cbn [turns_of]. rewrite T. exact IH.
Qed.
Lemma goes_on : forall f t x k u w r, (forall b, x <> TReturn b) -> micro O e rs t x k = Ret (u, w) -> ends_as f (Th u w) r -> ends_as f (Th t (x :: k)) r.
Proof. intros f t x k u w r NR M H. apply (after f _ (Th u w)); [apply runs_turn; now apply one|exact H]. Qed.
Ltac go := eapply goes_on; [intros ? ?; discriminate|reflexivity|].

Lemma acts_end : forall f l t k, ends_as f (Th t (TActs (grouped l) :: k)) (u <- actions_execute f rs l t ;; Ret (Th u k)).
Proof.
  induction f as [|f IH]; intros l t k.
  - cbn [actions_execute bind]. exists 0%nat, (Th t (TActs (grouped l) :: k)). split; [lia|]. split; [reflexivity|]. split; [reflexivity|]. intros (X & _). discriminate X.
  - rewrite execute_eq. generalize (grouped l) as q. intro q. revert t. induction q as [|a q IQ]; intro t.
    + cbn [act_list bind]. apply runs_turn. now apply one.
    + destruct a; cbn [act_list act1 bind]; try (go; exact (IQ _)).
      apply (after_one f _ (Th t (TActs (grouped (rs_default rs)) :: TActs q :: k))); [now apply one|]. specialize (IH (rs_default rs) t (TActs q :: k)).
      destruct (actions_execute f rs (rs_default rs) t) as [u| |]; cbn [bind] in *; [|exact IH|exact IH].
      apply (after f _ (Th u (TActs q :: k))); [exact IH|]. specialize (IQ u). destruct (act_list f rs q u) as [v| |]; cbn [bind] in *; [exact IQ|exact IQ|].
      destruct IQ as (n & c & L & X). exists n, c. split; [lia|exact X].
Qed.
Lemma values_end : forall f r vs t todo all k, ends_as f (Th t (TValues r vs todo all :: k))
  (m <- match_values O (t_abort t) r vs ;; Ret (Th t (if m : bool then TMatch todo all :: k else k))).
Proof.
  intros f r vs t todo all k. induction vs as [|v vs IH]; cbn [match_values bind].
  - apply runs_turn. now apply one.
  - destruct (t_abort t) eqn:A; [|destruct (r_op r) as [o|] eqn:P; [destruct (negb (Bool.eqb (r_not r) (op_match O o v))) eqn:M|]]; cbn [bind].
    + apply runs_turn. apply one; [discriminate|]. cbn [micro]. now rewrite A.
    + apply runs_turn. apply one; [discriminate|]. cbn [micro]. now rewrite A, P, M.
    + eapply goes_on; [intros; discriminate|cbn [micro]; rewrite A, P, M; reflexivity|exact IH].
    + apply one_panics. cbn [micro]. now rewrite A, P.
Qed.
Lemma fetch_end : forall f r vs t got todo all k, ends_as f (Th t (TFetch r vs got todo all :: k))
  (x <- fetch_all O e r vs t ;; Ret (Th (fst x) (TValues r (got ++ snd x) todo all :: k))).
Proof.
  intros f r vs. induction vs as [|v vs IH]; intros t got todo all k; cbn [fetch_all bind].
  - cbn [fst snd]. rewrite app_nil_r. apply runs_turn. now apply one.
  - destruct (transform_variable O e r v t) as [[u a]| |] eqn:V; cbn [bind].
    + eapply goes_on; [intros; discriminate|cbn [micro]; rewrite V; reflexivity|]. specialize (IH u (got ++ a) todo all k).
      destruct (fetch_all O e r vs u) as [[w b]| |]; cbn [bind fst snd] in *; [|exact IH|exact IH]. now rewrite app_assoc.
    + apply one_panics. cbn [micro]. now rewrite V.
    + apply stays. cbn [micro]. now rewrite V.
Qed.
Lemma match_end : forall f l t all k, ends_as f (Th t (TMatch l all :: k))
  (x <- match_subs O e l t ;; Ret (Th (fst x) (if snd x : bool then TSubs all :: k else k))).
Proof.
  intros f l. induction l as [|r l IH]; intros t all k; cbn [match_subs bind].
  - apply runs_turn. now apply one.
  - go. unfold match_rule. pose proof (fetch_end f r (r_vars r) t [] l all k) as F. destruct (fetch_all O e r (r_vars r) t) as [[u vs]| |]; cbn [bind fst snd app] in *; [|exact F|exact F].
    apply (after f _ _ _ F). pose proof (values_end f r vs u l all k) as W. destruct (match_values O (t_abort u) r vs) as [m| |]; cbn [bind] in *; [|exact W|exact W].
    apply (after f _ _ _ W). destruct m; [apply IH|cbn [bind fst snd]; apply runs_refl].
Qed.
Lemma subs_end : forall f l t k, ends_as f (Th t (TSubs l :: k)) (u <- subs_execute f rs l t ;; Ret (Th u k)).
Proof.
  intros f l. induction l as [|r l IH]; intros t k; cbn [subs_execute bind].
  - apply runs_turn. now apply one.
  - go. pose proof (acts_end f (r_acts r) t (TSubs l :: k)) as A. destruct (actions_execute f rs (r_acts r) t) as [u| |]; cbn [bind] in *; [|exact A|exact A].
    apply (after f _ _ _ A). apply IH.
Qed.
Lemma rule_end : forall f r t k, ends_as f (Th t (TMatch (r :: r_subs r) (r :: r_subs r) :: k)) (u <- do_rule f O e rs r t ;; Ret (Th u k)).
Proof.
  intros f r t k. rewrite do_rule_eq. pose proof (match_end f (r :: r_subs r) t (r :: r_subs r) k) as M.
  destruct (match_subs O e (r :: r_subs r) t) as [[u m]| |]; cbn [bind fst snd] in *; [|exact M|exact M]. apply (after f _ _ _ M).
  destruct m; [apply subs_end|cbn [bind]; apply runs_refl].
Qed.
Lemma loop_end : forall d f p n t k, (f <= d)%nat -> ends_as f (Th t (TLoop p n :: k)) (u <- phase_loop f d O e rs p n t ;; Ret (Th u k)).
Proof.
  intros d f. induction f as [|f IH]; intros p n t k L.
  - exists 0%nat, (Th t (TLoop p n :: k)). split; [lia|]. split; [reflexivity|]. split; [reflexivity|]. intros (X & _). discriminate X.
  - cbn [phase_loop]. destruct ((t_phase t =? p) && negb (n =? StatusEndOfRules)) eqn:C.
    2:{ cbn [bind]. apply runs_turn. apply one; [discriminate|]. cbn [micro]. now rewrite C. }
    assert (K : forall u, ends_as (Datatypes.S f) (Th u (TNext p :: k))
      (u0 <- (let t2 := touch_iv u in if i_disruptive (get_iv t2) then Ret t2 else let '(n0, t3) := next_rule rs t2 in phase_loop f d O e rs p n0 t3) ;; Ret (Th u0 k))).
    { intro u. cbv zeta. destruct (i_disruptive (get_iv (touch_iv u))) eqn:D.
      - cbn [bind]. apply runs_turn. apply one; [discriminate|]. cbn [micro]. now rewrite D.
      - destruct (next_rule rs (touch_iv u)) as [n0 t3] eqn:N. apply (after_one f _ (Th t3 (TLoop p n0 :: k))); [|apply IH; lia].
        apply one; [discriminate|]. cbn [micro]. now rewrite D, N. }
    unfold process_rule. destruct (n <? nrules rs p) eqn:A; [destruct (n <? 0) eqn:Z0; [|destruct (nth_error (phase_rules rs p) (Z.to_nat n)) as [r|] eqn:R]|].
    + apply one_panics. cbn [micro]. now rewrite C, A, Z0.
    + eapply goes_on; [intros; discriminate|cbn [micro]; rewrite C, A, Z0, R; reflexivity|].
      pose proof (rule_end d r t (TNext p :: k)) as W. apply (less d (Datatypes.S f)) in W; [|exact L].
      destruct (do_rule d O e rs r t) as [u| |]; cbn [bind] in *; [|exact W|exact W]. apply (after _ _ _ _ W). apply K.
    + apply one_panics. cbn [micro]. now rewrite C, A, Z0, R.
    + cbn [bind]. eapply goes_on; [intros; discriminate|cbn [micro]; rewrite C, A; reflexivity|]. apply K.
Qed.
End Inside.

Lemma returns : forall t b os, turn_of O (Thread e rs t [TReturn b] os sn) = Ret (Thread e rs t [] os (sn ++ [b])).
Proof. reflexivity. Qed.
Lemma write_ends : forall ft p b, buf_write ft p b <> Timeout.
Proof.
  intros ft p b H. unfold buf_write in H. repeat (match type of H with context [match ?x with _ => _ end] => destruct x end; try discriminate H).
Qed.
Lemma step_end : forall f o os t, ends_as f (Thread e rs t [] (o :: os) sn) (x <- Engine.step f O e rs o t ;; Ret (Thread e rs (fst x) [] os (sn ++ [snd x]))).
Proof.
  intros f o os t.
  assert (RUN : forall p u t0, begin rs o t0 = (if p <=? t_phase u then Ret (u, [TReturn ObsNone])
      else let t := jump_to_phase p u in if t_abort t then Ret (t, [TReturn ObsNone]) else let '(n, t) := next_rule rs t in Ret (t, [TLoop p n; TReturn ObsNone])) ->
    ends_as f (Thread e rs t0 [] (o :: os) sn) (x <- (v <- process_phase f O e rs p u ;; Ret (v, ObsNone)) ;; Ret (Thread e rs (fst x) [] os (sn ++ [snd x])))).
  { intros p u t0 BG. unfold process_phase. destruct (p <=? t_phase u).
    - cbn [bind fst snd]. apply (runs_trans _ (Thread e rs u [TReturn ObsNone] os sn)); apply runs_turn; [|apply returns].
      unfold turn_of. cbn [th_work th_todo th_rules th_txn th_eng th_seen]. now rewrite BG.
    - cbv zeta in BG. unfold process_phase_inner. destruct (t_abort (jump_to_phase p u)).
      + cbn [bind fst snd]. apply (runs_trans _ (Thread e rs (jump_to_phase p u) [TReturn ObsNone] os sn)); apply runs_turn; [|apply returns].
        unfold turn_of. cbn [th_work th_todo th_rules th_txn th_eng th_seen]. now rewrite BG.
      + destruct (next_rule rs (jump_to_phase p u)) as [n v]. apply (after f _ (Thread e rs v [TLoop p n; TReturn ObsNone] os sn)).
        { apply runs_turn. unfold turn_of. cbn [th_work th_todo th_rules th_txn th_eng th_seen]. now rewrite BG. }
        pose proof (loop_end os f f p n v [TReturn ObsNone] (le_n _)) as W. unfold Th in W. destruct (phase_loop f f O e rs p n v) as [w| |]; cbn [bind fst snd] in *; [|exact W|exact W].
        apply (runs_trans _ _ _ W). apply runs_turn. apply returns. }
  assert (NOW : forall u b, begin rs o t = Ret (u, [TReturn b]) -> runs (Thread e rs t [] (o :: os) sn) (Thread e rs u [] os (sn ++ [b]))).
  { intros u b BG. apply (runs_trans _ (Thread e rs u [TReturn b] os sn)); apply runs_turn; [|apply returns].
    unfold turn_of. cbn [th_work th_todo th_rules th_txn th_eng th_seen]. now rewrite BG. }
  destruct o; cbn [Engine.step]; try (apply RUN; reflexivity); try (cbn [bind fst snd ends_as]; apply NOW; reflexivity).
  - destruct (buf_write ft p (t_reqbody t)) as [[[b n] er]| |] eqn:W; cbn [bind fst snd ends_as].
    + apply NOW. cbn [begin]. now rewrite W.
    + eexists. split; [apply runs_refl|]. split; [reflexivity|]. unfold turn_of. cbn [th_work th_todo th_rules th_txn begin]. now rewrite W.
    + now apply write_ends in W.
  - destruct (buf_write ft p (t_resbody t)) as [[[b n] er]| |] eqn:W; cbn [bind fst snd ends_as].
    + apply NOW. cbn [begin]. now rewrite W.
    + eexists. split; [apply runs_refl|]. split; [reflexivity|]. unfold turn_of. cbn [th_work th_todo th_rules th_txn begin]. now rewrite W.
    + now apply write_ends in W.
Qed.
End One.

Lemma steps_end : forall O e rs f os t sn,
  match steps f O e rs os t with
  | Ret (u, l) => runs O (Thread e rs t [] os sn) (Thread e rs u [] [] (sn ++ l))
  | Panic => exists n, turns_of n O (Thread e rs t [] os sn) = Panic
  | Timeout => exists n c, (f <= n)%nat /\ turns_of n O (Thread e rs t [] os sn) = Ret c /\ ~ finished c
  end.
Proof.
  intros O e rs f os. induction os as [|o os IH]; intros t sn; cbn [steps].
  - rewrite app_nil_r. apply runs_refl.
  - pose proof (step_end O e rs sn f o os t) as W. destruct (Engine.step f O e rs o t) as [[u b]| |]; cbn [bind fst snd ends_as] in *.
    + destruct W as (m & W). specialize (IH u (sn ++ [b])). destruct (steps f O e rs os u) as [[v l]| |]; cbn [bind].
      * destruct IH as (n & IH). exists (m + n)%nat. rewrite turns_add, W. cbn [bind]. now rewrite <- app_assoc in IH.
      * destruct IH as (n & IH). exists (m + n)%nat. rewrite turns_add, W. exact IH.
      * destruct IH as (n & c & L & IH & F). exists (m + n)%nat, c. split; [lia|]. split; [now rewrite turns_add, W|exact F].
    + destruct W as (c & (n & W) & _ & P). exists (n + 1)%nat. rewrite turns_add, W. cbn [bind turns_of]. now rewrite P.
    + destruct W as (n & c & L & W & _ & F). now exists n, c.
Qed.
(** Answers are only added. *)
Lemma seen_grows : forall n O a b, turns_of n O a = Ret b -> exists x, th_seen b = th_seen a ++ x.
Proof.
  induction n as [|n IH]; intros O a b H; cbn [turns_of] in H.
  - apply Ret_inj in H as <-. exists []. now rewrite app_nil_r.
  - destruct (turn_of O a) as [c| |] eqn:T; cbn [bind] in H; try discriminate H. apply IH in H as (y & H).
    assert (G : exists x, th_seen c = th_seen a ++ x).
    { unfold turn_of in T. destruct (th_work a) as [|x k].
      - destruct (th_todo a); [apply Ret_inj in T as <-; exists []; now rewrite app_nil_r|]. destruct (begin _ _ _) as [[? ?]| |]; try discriminate T; apply Ret_inj in T as <-; exists []; now rewrite app_nil_r.
      - destruct (micro _ _ _ _ _ _) as [[? ?]| |]; try discriminate T; apply Ret_inj in T as <-; cbn [th_seen]; [|exists []; now rewrite app_nil_r].
        destruct x; try (exists []; now rewrite app_nil_r). now exists [b0]. }
    destruct G as (x & G). exists (x ++ y). now rewrite H, G, <- app_assoc.
Qed.
(** At any time a goroutine has seen the answers to its first calls. *)
Lemma seen_so_far : forall O e rs n os t sn th, turns_of n O (Thread e rs t [] os sn) = Ret th ->
  exists os1 os2 f u l, os = os1 ++ os2 /\ steps f O e rs os1 t = Ret (u, l) /\ th_seen th = sn ++ l.
Proof.
  intros O e rs n. induction n as [n IH] using lt_wf_ind. intros os t sn th H.
  assert (SAME : th_seen th = sn -> exists os1 os2 f u l, os = os1 ++ os2 /\ steps f O e rs os1 t = Ret (u, l) /\ th_seen th = sn ++ l).
  { intro E. exists [], os, 0%nat, t, []. split; [reflexivity|]. split; [reflexivity|]. now rewrite app_nil_r. }
  destruct os as [|o os].
  { apply SAME. rewrite finished_turns in H by now split. now apply Ret_inj in H as <-. }
  assert (MID : forall m c, turns_of m O (Thread e rs t [] (o :: os) sn) = Ret c -> (n <= m)%nat -> exists x y, th_seen th = sn ++ x /\ th_seen c = sn ++ x ++ y).
  { intros m c W L. destruct (seen_grows _ _ _ _ H) as (x & X). cbn [th_seen] in X. replace m with (n + (m - n))%nat in W by lia. rewrite turns_add, H in W. cbn [bind] in W.
    destruct (seen_grows _ _ _ _ W) as (y & Y). exists x, y. split; [exact X|]. now rewrite Y, X, <- app_assoc. }
  assert (NIL : forall x y : list obs, sn = sn ++ x ++ y -> x = []).
  { intros x y E. apply (f_equal (@length _)) in E. rewrite !app_length in E. destruct x; [reflexivity|cbn [length] in E; lia]. }
  pose proof (step_end O e rs sn n o os t) as W. destruct (Engine.step n O e rs o t) as [[u b]| |] eqn:Q; cbn [bind fst snd ends_as] in W.
  - destruct W as (m & W). destruct m as [|m]; [cbn [turns_of] in W; apply Ret_inj in W; apply (f_equal (fun x => length (th_todo x))) in W; cbn [th_todo length] in W; lia|]. destruct (Nat.le_gt_cases (Datatypes.S m) n) as [L|L].
    + replace n with (Datatypes.S m + (n - Datatypes.S m))%nat in H by lia. rewrite turns_add, W in H. cbn [bind] in H.
      apply IH in H as (os1 & os2 & f & v & l & -> & R & E); [|lia]. exists (o :: os1), os2, (n + f)%nat, v, (b :: l). split; [reflexivity|]. split; [|now rewrite E, <- app_assoc].
      cbn [steps]. rewrite (step_mono n (n + f)) by (try lia; rewrite Q; discriminate). rewrite Q. cbn [bind]. rewrite (steps_mono f (n + f)) by (try lia; rewrite R; discriminate). now rewrite R.
    + destruct (MID _ _ W ltac:(lia)) as (x & y & X & Y). cbn [th_seen] in Y. apply app_inv_head in Y. destruct x as [|b' x]; [apply SAME; now rewrite X, app_nil_r|].
      injection Y as <- Y. destruct x; [|discriminate Y]. exists [o], os, n, u, [b]. split; [reflexivity|]. split; [cbn [steps]; rewrite Q; reflexivity|exact X].
  - destruct W as (c & (m & W) & S & P). destruct (Nat.le_gt_cases n m) as [L|L].
    + destruct (MID _ _ W L) as (x & y & X & Y). rewrite S in Y. apply NIL in Y as ->. apply SAME. now rewrite X, app_nil_r.
    + exfalso. replace n with (m + Datatypes.S (n - m - 1))%nat in H by lia. rewrite turns_add, W in H. cbn [bind turns_of] in H. rewrite P in H. discriminate H.
  - destruct W as (m & c & L & W & S & _). destruct (MID _ _ W L) as (x & y & X & Y). rewrite S in Y. apply NIL in Y as ->. apply SAME. now rewrite X, app_nil_r.
Qed.

(** ** A goroutine alone: answered, broken down or without end *)
Lemma alone_answers : forall O e rs os l, ord_valid O ->
  ((exists n th, turns_of n O (new_thread e rs os) = Ret th /\ finished th /\ th_seen th = l) <-> chronicle O e rs no_facts (start e) os l).
Proof.
  intros O e rs os l V. rewrite <- (C94_every_history O e rs os l V). split.
  - intros (n & th & H & F & E). exists (Datatypes.S n). pose proof (steps_end O e rs (Datatypes.S n) os (new_txn e) []) as W. fold (new_thread e rs os) in W.
    destruct (steps (Datatypes.S n) O e rs os (new_txn e)) as [[u l']| |].
    + exists u. destruct W as (m & W).
      pose proof (finished_later n (n + m) O _ _ H F ltac:(lia)) as A. pose proof (finished_later m (n + m) O _ _ W (conj eq_refl eq_refl) ltac:(lia)) as B.
      rewrite A in B. apply Ret_inj in B. subst th. cbn [th_seen app] in E. now subst l'.
    + destruct W as (m & W). exfalso. pose proof (finished_later n (m + n) O _ _ H F ltac:(lia)) as A. rewrite turns_add, W in A. discriminate A.
    + destruct W as (m & c & L & W & N). exfalso. rewrite (finished_later n m O _ _ H F ltac:(lia)) in W. apply Ret_inj in W. now subst c.
  - intros (f & t & H). pose proof (steps_end O e rs f os (new_txn e) []) as W. rewrite H in W. destruct W as (n & W). eexists n, _. split; [exact W|]. now repeat split.
Qed.
Lemma alone_breaks : forall O e rs os, ord_valid O ->
  ((exists n, turns_of n O (new_thread e rs os) = Panic) <-> breakdown O e rs no_facts (start e) os).
Proof.
  intros O e rs os V. rewrite <- (C78_breaks_exactly O e rs os V). split.
  - intros (n & H). exists n. pose proof (steps_end O e rs n os (new_txn e) []) as W. fold (new_thread e rs os) in W.
    destruct (steps n O e rs os (new_txn e)) as [[u l]| |].
    + destruct W as (m & W). exfalso. pose proof (finished_later m (n + m) O _ _ W (conj eq_refl eq_refl) ltac:(lia)) as A. rewrite turns_add, H in A. discriminate A.
    + reflexivity.
    + destruct W as (m & c & L & W & _). exfalso. replace m with (n + (m - n))%nat in W by lia. rewrite turns_add, H in W. discriminate W.
  - intros (f & H). pose proof (steps_end O e rs f os (new_txn e) []) as W. rewrite H in W. exact W.
Qed.
Lemma finished_dec : forall th, finished th \/ ~ finished th.
Proof. intro th. destruct (th_work th) eqn:W; [destruct (th_todo th) eqn:T; [left; now split|]|]; right; intros (A & B); congruence. Qed.

(** ** Schedules *)
Lemma replace_length : forall A n (x : A) l, length (replace n x l) = length l.
Proof. intros A n x l. revert n. induction l as [|y l IH]; intros [|n]; cbn [replace length]; try reflexivity. now rewrite IH. Qed.
Lemma replace_here : forall A n (x y : A) l, nth_error l n = Some y -> nth_error (replace n x l) n = Some x.
Proof. intros A n x y l. revert n. induction l as [|z l IH]; intros [|n] H; cbn in *; try discriminate H; [reflexivity|now apply IH]. Qed.
Lemma replace_other : forall A n m (x : A) l, n <> m -> nth_error (replace n x l) m = nth_error l m.
Proof. intros A n m x l. revert n m. induction l as [|z l IH]; intros [|n] [|m] H; cbn; try reflexivity; [now elim H|]. apply IH. congruence. Qed.
Lemma scheduled_never : forall O ks ths, scheduled O ks ths <> Timeout.
Proof.
  intros O ks. induction ks as [|k ks IH]; intro ths; cbn [scheduled]; [discriminate|]. destruct (nth_error ths k) as [th|]; [|apply IH].
  pose proof (turn_never O th) as N. destruct (turn_of O th); cbn [bind]; [apply IH|discriminate|easy].
Qed.
Lemma gets_exists : forall k ks, exists n, gets k ks n.
Proof.
  intros k ks. induction ks as [|j ks (n & IH)]; [exists 0%nat; constructor|]. destruct (Nat.eq_dec j k) as [->|N]; [exists (Datatypes.S n); now constructor|exists n; now constructor].
Qed.
Lemma gets_repeat : forall k n, gets k (repeat k n) n.
Proof. intros k n. induction n; cbn [repeat]; now constructor. Qed.

(** Whatever the order of the steps, each goroutine is where it would be had it made its steps alone. *)
Theorem C41_any_schedule : forall O ks ths ths', scheduled O ks ths = Ret ths' ->
  length ths' = length ths /\
  (forall k n th, nth_error ths k = Some th -> gets k ks n -> exists th', nth_error ths' k = Some th' /\ turns_of n O th = Ret th').
Proof.
  intros O ks. induction ks as [|j ks IH]; intros ths ths' H; cbn [scheduled] in H.
  - apply Ret_inj in H as <-. split; [reflexivity|]. intros k n th X G. inversion G; subst. now exists th.
  - destruct (nth_error ths j) as [tj|] eqn:J.
    + destruct (turn_of O tj) as [tj'| |] eqn:T; cbn [bind] in H; try discriminate H. apply IH in H as (LN & H). rewrite replace_length in LN. split; [exact LN|].
      intros k n th X G. inversion G as [|ks0 n0 G0|j0 ks0 n0 NE G0]; subst.
      * rewrite X in J. injection J as <-. destruct (H j n0 tj' (replace_here _ _ _ _ _ X) G0) as (th' & A & B). exists th'. split; [exact A|]. cbn [turns_of]. now rewrite T.
      * apply (H k n th); [|exact G0]. now rewrite replace_other.
    + apply IH in H as (LN & H). split; [exact LN|]. intros k n th X G. inversion G as [|ks0 n0 G0|j0 ks0 n0 NE G0]; subst; [congruence|now apply (H k n th)].
Qed.
(** A program comes down just if one of its goroutines would alone, within its turns. *)
Theorem C41_any_schedule_breaks : forall O ks ths,
  scheduled O ks ths = Panic <-> exists k n th, nth_error ths k = Some th /\ gets k ks n /\ turns_of n O th = Panic.
Proof.
  intros O ks ths. split.
  - revert ths. induction ks as [|j ks IH]; intros ths H; cbn [scheduled] in H; [discriminate H|]. destruct (nth_error ths j) as [tj|] eqn:J.
    + destruct (turn_of O tj) as [tj'| |] eqn:T; cbn [bind] in H; [|clear H|now apply turn_never in T].
      * apply IH in H as (k & n & th & X & G & P). destruct (Nat.eq_dec j k) as [->|NE].
        -- rewrite (replace_here _ _ _ _ _ J) in X. injection X as <-. exists k, (Datatypes.S n), tj. split; [exact J|]. split; [now constructor|]. cbn [turns_of]. now rewrite T.
        -- rewrite replace_other in X by exact NE. exists k, n, th. split; [exact X|]. split; [now constructor|exact P].
      * destruct (gets_exists j ks) as (n & G). exists j, (Datatypes.S n), tj. split; [exact J|]. split; [now constructor|]. cbn [turns_of]. now rewrite T.
    + apply IH in H as (k & n & th & X & G & P). exists k, n, th. split; [exact X|]. split; [|exact P]. constructor; [congruence|exact G].
  - intros (k & n & th & X & G & P). destruct (scheduled O ks ths) as [ths'| |] eqn:H; [|reflexivity|now apply scheduled_never in H].
    apply C41_any_schedule in H as (_ & H). destruct (H k n th X G) as (th' & _ & Q). congruence.
Qed.

Lemma started_nth : forall ps k e rs os, nth_error ps k = Some (e, rs, os) -> nth_error (started ps) k = Some (new_thread e rs os).
Proof. intros ps k e rs os H. unfold started. now rewrite (map_nth_error _ _ _ H). Qed.
Lemma started_back : forall ps k th, nth_error (started ps) k = Some th -> exists e rs os, nth_error ps k = Some (e, rs, os) /\ th = new_thread e rs os.
Proof.
  induction ps as [|[[e rs] os] ps IH]; intros [|k] th H; cbn in H; try discriminate H; [injection H as <-; now exists e, rs, os|]. now apply IH in H.
Qed.
(** Goroutines with a transaction each: what one has been answered by any time is what the chronicle of its own
    calls says, and all of it once it is done. *)
Theorem C41_interleaved_answers : forall O ps ks ths, ord_valid O -> scheduled O ks (started ps) = Ret ths ->
  forall k e rs os, nth_error ps k = Some (e, rs, os) -> exists th, nth_error ths k = Some th /\
    (exists os1 os2, os = os1 ++ os2 /\ chronicle O e rs no_facts (start e) os1 (th_seen th)) /\
    (finished th -> chronicle O e rs no_facts (start e) os (th_seen th)).
Proof.
  intros O ps ks ths V H k e rs os X. apply C41_any_schedule in H as (_ & H). destruct (gets_exists k ks) as (n & G).
  destruct (H k n _ (started_nth _ _ _ _ _ X) G) as (th & A & T). exists th. split; [exact A|]. split.
  - destruct (seen_so_far _ _ _ _ _ _ _ _ T) as (os1 & os2 & f & u & l & E & R & S). cbn [app] in S. exists os1, os2. split; [exact E|]. rewrite S. apply C94_every_history; [exact V|]. now exists f, u.
  - intro F. apply (alone_answers O e rs os _ V). now exists n, th.
Qed.
(** With turns enough it is done, whatever the others do: also if they hang. *)
Theorem C41_interleaved_finishes : forall O e rs os l, ord_valid O -> chronicle O e rs no_facts (start e) os l ->
  exists N, forall ps ks ths k n, nth_error ps k = Some (e, rs, os) -> gets k ks n -> (N <= n)%nat -> scheduled O ks (started ps) = Ret ths ->
    exists th, nth_error ths k = Some th /\ finished th /\ th_seen th = l.
Proof.
  intros O e rs os l V C. apply (alone_answers O e rs os l V) in C as (N & th & T & F & S). exists N. intros ps ks ths k n X G L H.
  apply C41_any_schedule in H as (_ & H). destruct (H k n _ (started_nth _ _ _ _ _ X) G) as (th' & A & T'). exists th'. split; [exact A|].
  rewrite (finished_later N n O _ _ T F L) in T'. apply Ret_inj in T' as <-. now split.
Qed.
(** Some interleaving brings the program down just if the chronicle of one of the goroutines breaks down. *)
Theorem C78_interleaved_breaks : forall O ps, ord_valid O ->
  ((exists ks, scheduled O ks (started ps) = Panic) <->
   (exists k e rs os, nth_error ps k = Some (e, rs, os) /\ breakdown O e rs no_facts (start e) os)).
Proof.
  intros O ps V. split.
  - intros (ks & H). apply C41_any_schedule_breaks in H as (k & n & th & X & _ & P). apply started_back in X as (e & rs & os & X & ->). exists k, e, rs, os. split; [exact X|].
    apply (alone_breaks O e rs os V). now exists n.
  - intros (k & e & rs & os & X & B). apply (alone_breaks O e rs os V) in B as (n & B). exists (repeat k n). apply C41_any_schedule_breaks.
    exists k, n, (new_thread e rs os). split; [now apply started_nth|]. split; [apply gets_repeat|exact B].
Qed.
(** No fuel: a goroutine takes steps for ever just if its history has no answers and no breakdown. *)
Theorem C32_steps_for_ever : forall O e rs os, ord_valid O ->
  ((forall n, exists th, turns_of n O (new_thread e rs os) = Ret th /\ ~ finished th) <->
   (forall l, ~ chronicle O e rs no_facts (start e) os l) /\ ~ breakdown O e rs no_facts (start e) os).
Proof.
  intros O e rs os V. split.
  - intro H. split; [intros l C; apply (alone_answers O e rs os l V) in C as (n & th & T & F & _)|intro C; apply (alone_breaks O e rs os V) in C as (n & C)]; destruct (H n) as (th' & T' & N); [|congruence].
    rewrite T in T'. apply Ret_inj in T' as <-. now apply N.
  - intros (N1 & N2) n. destruct (turns_of n O (new_thread e rs os)) as [th| |] eqn:T; [|elim N2; apply (alone_breaks O e rs os V); now exists n|now apply turns_never in T].
    exists th. split; [reflexivity|]. intro F. apply (N1 (th_seen th)). apply (alone_answers O e rs os _ V). now exists n, th.
Qed.
(** The functions with fuel say the same as the steps without. *)
Theorem C32_fuel_is_time : forall O e rs os, ord_valid O ->
  (forall l, (exists f t, steps f O e rs os (new_txn e) = Ret (t, l)) <-> (exists n th, turns_of n O (new_thread e rs os) = Ret th /\ finished th /\ th_seen th = l)) /\
  ((exists f, steps f O e rs os (new_txn e) = Panic) <-> (exists n, turns_of n O (new_thread e rs os) = Panic)) /\
  ((forall f, steps f O e rs os (new_txn e) = Timeout) <-> (forall n, exists th, turns_of n O (new_thread e rs os) = Ret th /\ ~ finished th)).
Proof.
  intros O e rs os V. split; [|split].
  - intro l. rewrite (alone_answers O e rs os l V). now apply C94_every_history.
  - rewrite (alone_breaks O e rs os V). now apply C78_breaks_exactly.
  - rewrite (C32_steps_for_ever O e rs os V). now apply C32_hangs_exactly.
Qed.

(** ** How deep a goroutine gets *)
Inductive shape : list task -> Prop :=
| sh_idle : shape []
| sh_return : forall b, shape [TReturn b]
| sh_loop : forall p n b, shape [TLoop p n; TReturn b]
| sh_next : forall p b, shape [TNext p; TReturn b]
| sh_match : forall l all p b, shape [TMatch l all; TNext p; TReturn b]
| sh_fetch : forall r vs got l all p b, shape [TFetch r vs got l all; TNext p; TReturn b]
| sh_values : forall r vs l all p b, shape [TValues r vs l all; TNext p; TReturn b]
| sh_subs : forall l p b, shape [TSubs l; TNext p; TReturn b]
| sh_acts : forall a l p b, shape [TActs a; TSubs l; TNext p; TReturn b]
| sh_block : forall d a l p b, ~ In ABlock d -> shape [TActs d; TActs a; TSubs l; TNext p; TReturn b].
Lemma shape_depth : forall w, shape w -> (length w <= 5)%nat.
Proof. intros w H. destruct H; cbn [length]; lia. Qed.
(** A block is about to run the default actions. *)
Definition at_block (th : thread) : Prop := exists q k, th_work th = TActs (ABlock :: q) :: k.
Lemma begin_shape : forall rs o t u w, begin rs o t = Ret (u, w) -> shape w.
Proof.
  intros rs o t u w H. assert (R : forall p t0, (if p <=? t_phase t0 then Ret (t0, [TReturn ObsNone]) else let t := jump_to_phase p t0 in
     if t_abort t then Ret (t, [TReturn ObsNone]) else let '(n, t) := next_rule rs t in Ret (t, [TLoop p n; TReturn ObsNone])) = Ret (u, w) -> shape w).
  { intros p t0 X. destruct (_ <=? _); [apply Ret_inj in X; injection X as _ <-; constructor|]. cbv zeta in X. destruct (t_abort _); [apply Ret_inj in X; injection X as _ <-; constructor|].
    destruct (next_rule _ _). apply Ret_inj in X. injection X as _ <-. constructor. }
  destruct o; cbn [begin] in H; try (now apply R in H); try (apply Ret_inj in H; injection H as _ <-; constructor).
  - destruct (buf_write _ _ _) as [[[? ?] ?]| |]; cbn [bind] in H; try discriminate H. apply Ret_inj in H. injection H as _ <-. constructor.
  - destruct (buf_write _ _ _) as [[[? ?] ?]| |]; cbn [bind] in H; try discriminate H. apply Ret_inj in H. injection H as _ <-. constructor.
Qed.
Lemma grouped_in : forall a l, In a (Rules.grouped l) -> In a l.
Proof. intros a l H. unfold Rules.grouped in H. apply in_flat_map in H as (g & _ & H). now apply filter_In in H. Qed.
Lemma action_eq : forall a b : action, {a = b} + {a <> b}.
Proof. decide equality; [apply (list_eq_dec Ascii.ascii_dec)|apply Z.eq_dec]. Qed.
Lemma micro_shape : forall O e rs t x k u w, shape (x :: k) -> micro O e rs t x k = Ret (u, w) ->
  shape w \/ In ABlock (rs_default rs) /\ exists q, x = TActs (ABlock :: q).
Proof.
  intros O e rs t x k u w S H. destruct x as [p n|p|l all|r vs got l all|r vs l all|l|l|b].
  7:{ destruct l as [|a l].
      - apply Ret_inj in H. injection H as _ <-. left. inversion S; constructor.
      - destruct (action_eq a ABlock) as [->|N].
        + cbn [micro] in H. apply Ret_inj in H. injection H as _ <-. destruct (in_dec action_eq ABlock (rs_default rs)) as [I|I]; [right; split; [exact I|now exists l]|left].
          inversion S as [| | | | | | | |a' l' p' b'|d' a' l' p' b' NB]; subst; [|elim NB; now left]. constructor. intro Q. apply I. now apply grouped_in.
        + assert (E : micro O e rs t (TActs (a :: l)) k = Ret (plain_action rs a t, TActs l :: k)) by (destruct a; try reflexivity; now elim N).
          rewrite E in H. apply Ret_inj in H. injection H as _ <-. left. inversion S as [| | | | | | | |a' l' p' b'|d' a' l' p' b' NB]; subst; constructor. intro Q. apply NB. now right. }
  all: inversion S; subst; left; cbn [micro] in H;
    repeat match type of H with
    | (if ?c then _ else _) = _ => destruct c
    | match ?l with [] => _ | _ :: _ => _ end = _ => destruct l
    | match ?o with Some _ => _ | None => _ end = _ => destruct o
    | (let '(_, _) := ?x in _) = _ => destruct x
    | bind ?x _ = _ => destruct x as [[? ?]| |]; cbn [bind] in H
    end; try discriminate H; apply Ret_inj in H; injection H as _ <-; constructor.
Qed.
Lemma turn_shape : forall O th th', shape (th_work th) -> turn_of O th = Ret th' -> shape (th_work th') \/ In ABlock (rs_default (th_rules th)) /\ at_block th.
Proof.
  intros O th th' S H. unfold turn_of in H. destruct (th_work th) as [|x k] eqn:W.
  - destruct (th_todo th) as [|o os]; [apply Ret_inj in H as <-; left; rewrite W; constructor|]. destruct (begin _ _ _) as [[u w]| |] eqn:B; try discriminate H; apply Ret_inj in H as <-; left.
    + cbn [th_work]. now apply begin_shape in B.
    + rewrite W. constructor.
  - destruct (micro _ _ _ _ _ _) as [[u w]| |] eqn:M; try discriminate H; apply Ret_inj in H as <-.
    + apply (micro_shape _ _ _ _ _ _ _ _ S) in M as [M|(I & q & ->)]; [now left|]. right. split; [exact I|]. now exists q, k.
    + left. now rewrite W.
Qed.
Lemma turn_rules : forall O th th', turn_of O th = Ret th' -> th_rules th' = th_rules th.
Proof.
  intros O th th' H. unfold turn_of in H. destruct (th_work th).
  - destruct (th_todo th); [now apply Ret_inj in H as <-|]. destruct (begin _ _ _) as [[u w]| |]; try discriminate H; now apply Ret_inj in H as <-.
  - destruct (micro _ _ _ _ _ _) as [[u w]| |]; try discriminate H; now apply Ret_inj in H as <-.
Qed.
Lemma turns_rules : forall n O th th', turns_of n O th = Ret th' -> th_rules th' = th_rules th.
Proof.
  induction n as [|n IH]; intros O th th' H; cbn [turns_of] in H; [now apply Ret_inj in H as <-|]. destruct (turn_of O th) as [c| |] eqn:T; cbn [bind] in H; try discriminate H.
  apply IH in H. rewrite H. now apply turn_rules in T.
Qed.
Lemma turns_shape : forall n O th th', shape (th_work th) -> turns_of n O th = Ret th' ->
  shape (th_work th') \/ In ABlock (rs_default (th_rules th)) /\ exists m c, turns_of m O th = Ret c /\ at_block c.
Proof.
  induction n as [|n IH]; intros O th th' S H; cbn [turns_of] in H; [apply Ret_inj in H as <-; now left|]. destruct (turn_of O th) as [c| |] eqn:T; cbn [bind] in H; try discriminate H.
  destruct (turn_shape _ _ _ S T) as [S'|(I & A)]; [|right; split; [exact I|]; now exists 0%nat, th].
  apply IH in H as [H|(I & m & d & M & A)]; [now left| |exact S']. right. rewrite (turn_rules _ _ _ T) in I. split; [exact I|]. exists (Datatypes.S m), d. split; [cbn [turns_of]; now rewrite T|exact A].
Qed.
(** No default action is a block: never more than five calls deep. *)
Theorem C32_depth : forall n O e rs os th, ~ In ABlock (rs_default rs) -> turns_of n O (new_thread e rs os) = Ret th -> (depth th <= 5)%nat.
Proof.
  intros n O e rs os th N H. apply turns_shape in H as [H|(I & _)]; [now apply shape_depth|now elim N|constructor].
Qed.
(** The actions before the first block of a list. *)
Lemma to_block : forall O e rs os sn q t k, In ABlock q -> exists u q' k', runs O (Thread e rs t (TActs q :: k) os sn) (Thread e rs u (TActs (ABlock :: q') :: k') os sn) /\ (length k <= length k')%nat.
Proof.
  intros O e rs os sn q. induction q as [|a q IH]; intros t k I; [easy|]. destruct (action_eq a ABlock) as [->|N].
  - exists t, q, k. split; [apply runs_refl|lia].
  - destruct I as [->|I]; [now elim N|]. destruct (IH (plain_action rs a t) k I) as (u & q' & k' & R & L). exists u, q', k'. split; [|exact L].
    eapply runs_trans; [|exact R]. apply runs_turn. unfold turn_of. cbn [th_work th_eng th_rules th_txn th_todo th_seen].
    assert (E : micro O e rs t (TActs (a :: q)) k = Ret (plain_action rs a t, TActs q :: k)) by (destruct a; try reflexivity; now elim N). now rewrite E.
Qed.
Lemma in_grouped : forall l, In ABlock l -> In ABlock (Rules.grouped l).
Proof. intros l H. unfold Rules.grouped. apply in_flat_map. exists 3%nat. split; [now do 3 right; left|]. unfold bucket. apply filter_In. now split. Qed.
Lemma deeper : forall O m e rs os sn t q k, In ABlock (rs_default rs) -> exists th', runs O (Thread e rs t (TActs (ABlock :: q) :: k) os sn) th' /\ (m <= depth th')%nat /\ at_block th'.
Proof.
  intros O m e rs os sn t q k I. revert t q k. induction m as [|m IH]; intros t q k.
  - eexists. split; [apply runs_refl|]. split; [lia|]. now exists q, k.
  - destruct (IH t q k) as (c & R & L & q1 & k1 & W).
    assert (RR : th_rules c = rs) by (destruct R as (n & R); now apply turns_rules in R). destruct c as [e1 rs1 t1 w1 os1 sn1]. cbn [th_work th_rules depth] in *. subst w1 rs1. unfold depth in L. cbn [th_work length] in L.
    destruct (to_block O e1 rs os1 sn1 (Rules.grouped (rs_default rs)) t1 (TActs q1 :: k1) (in_grouped _ I)) as (u & q' & k' & R' & L'). cbn [length] in L'.
    eexists. split; [eapply runs_trans; [exact R|]; eapply runs_trans; [|exact R']; apply runs_turn; reflexivity|]. split; [unfold depth; cbn [th_work length]; lia|]. now exists q', k'.
Qed.
(** Calls pile up without bound, which ends the whole program when its stack is full, just if a block is among the
    default actions and a block is run. *)
Theorem C32_depth_unbounded : forall O e rs os,
  (forall m, exists n th, turns_of n O (new_thread e rs os) = Ret th /\ (m <= depth th)%nat) <->
  In ABlock (rs_default rs) /\ exists n th, turns_of n O (new_thread e rs os) = Ret th /\ at_block th.
Proof.
  intros O e rs os. split.
  - intro H. destruct (H 6%nat) as (n & th & T & L). apply turns_shape in T as [T|(I & T)]; [apply shape_depth in T; unfold depth in L; lia|now split|constructor].
  - intros (I & n & th & T & (q & k & W)) m. assert (RR : th_rules th = rs) by now apply turns_rules in T.
    destruct th as [e1 rs1 t1 w1 os1 sn1]. cbn [th_work th_rules] in *. subst w1 rs1.
    destruct (deeper O m e1 rs os1 sn1 t1 q k I) as (c & (j & R) & L & _). exists (n + j)%nat, c. split; [now rewrite turns_add, T|exact L].
Qed.

(** ** Cases *)
Definition in_turn (n : nat) : list nat := concat (repeat [0%nat; 1%nat] n).
(** Two goroutines in turn: one with a form that can be read in part, one with a body that is too large. *)
Definition two_programs : list program :=
  [(demo_engine twice_rules, twice_rules, body_calls "user=ROOT&a=%zz" ++ [OpRequestBody; OpResult]);
   (small_engine large_rules, large_rules, body_calls "user=ROOT" ++ [OpRequestBody; OpResult])].
Definition end_of (r : out (list thread)) : option (list (nat * nat * list obs)) :=
  match r with Ret ths => Some (map (fun th => (length (th_work th), length (th_todo th), th_seen th)) ths) | _ => None end.
Example C41_interleaved_answers_example :
  end_of (scheduled (demo MpErr) (in_turn 20) (started two_programs)) =
    Some [(2%nat, 1%nat, [ObsNone; ObsNone; ObsNone; ObsErr None]); (3%nat, 1%nat, [ObsNone; ObsNone; ObsNone; ObsErr None])] /\
  end_of (scheduled (demo MpErr) (in_turn 40) (started two_programs)) =
    Some [(0%nat, 0%nat, [ObsNone; ObsNone; ObsNone; ObsErr None; ObsNone;
            ObsResult (Intervention 402 0 None [B "[client :] (phase 3) ModSecurity: Access denied with code 403"] true)]);
          (0%nat, 0%nat, [ObsNone; ObsNone; ObsNone; ObsErr None; ObsNone;
            ObsResult (Intervention 413 0 None [B "[client :] (phase 3) abort process with error out of memory limit"; B "[client :] (phase 3) abort process with error out of memory limit"] true)])].
Proof. vm_compute. split; reflexivity. Qed.
(** A goroutine that loops for ever does not keep the other from its answers. *)
Definition loop_rules : ruleset := RuleSet [(6, [demo_rule 6 [VScalar SRequestMethod] (OpRx []) [AAllow []] false []])] [].
Example C41_interleaved_finishes_example :
  end_of (scheduled (demo MpErr) (in_turn 100) (started [(demo_engine loop_rules, loop_rules, [OpLogging]); (demo_engine twice_rules, twice_rules, body_calls "user=ROOT&a=%zz" ++ [OpRequestBody; OpResult])])) =
    Some [(2%nat, 0%nat, []);
          (0%nat, 0%nat, [ObsNone; ObsNone; ObsNone; ObsErr None; ObsNone;
            ObsResult (Intervention 402 0 None [B "[client :] (phase 3) ModSecurity: Access denied with code 403"] true)])] /\
  (forall n, exists th, turns_of n (demo MpErr) (new_thread (demo_engine loop_rules) loop_rules [OpLogging]) = Ret th /\ ~ finished th /\ (depth th <= 5)%nat).
Proof.
  split; [vm_compute; reflexivity|]. intro n.
  destruct (proj2 (C32_steps_for_ever (demo MpErr) (demo_engine loop_rules) loop_rules [OpLogging] (demo_ord MpErr))) with (n := n) as (th & T & F).
  - split; [intro l; now apply (C32_hangs_exactly_example l)|now apply (C32_hangs_exactly_example [])].
  - exists th. split; [exact T|]. split; [exact F|]. eapply C32_depth; [|exact T]. now intro.
Qed.
(** A form that is not there brings both down. *)
Example C78_interleaved_breaks_example :
  let os := [OpRequestURL None (B "POST") []; OpRequestHeader [(B "Content-Type", [B "multipart/form-data"])]; OpAppendRequestBody (B "garbage") NoFault; OpRequestBody] in
  let ps := [(demo_engine loop_rules, loop_rules, [OpLogging]); (demo_engine names_rules, names_rules, os)] in
  scheduled (demo MpErr) (in_turn 40) (started ps) = Panic /\ scheduled (demo MpErr) (repeat 0%nat 80) (started ps) <> Panic.
Proof.
  cbv zeta. split; [vm_compute; reflexivity|]. intro H. apply C41_any_schedule_breaks in H as (k & n & th & X & G & P).
  assert (R0 : forall m j, j <> 0%nat -> forall i, gets j (repeat 0%nat m) i -> i = 0%nat).
  { intros m j J. induction m as [|m IH]; intros i Q; cbn [repeat] in Q; inversion Q; subst; [reflexivity|now elim J|now apply IH]. }
  destruct k as [|k]; [|apply R0 in G; [|discriminate]; subst n; discriminate P].
  cbn [started map nth_error fst snd] in X. injection X as <-. destruct (proj2 C41_interleaved_finishes_example n) as (th & T & _). congruence.
Qed.
(** A block among the default actions: every call of it calls it again. *)
Definition pile_rules : ruleset := RuleSet [(6, [demo_rule 6 [VScalar SRequestMethod] (OpRx []) [ABlock] false []])] [ABlock].
Example C32_depth_unbounded_example : forall m, exists n th, turns_of n (demo MpErr) (new_thread (demo_engine pile_rules) pile_rules [OpLogging]) = Ret th /\ (m <= depth th)%nat.
Proof.
  apply C32_depth_unbounded. split; [now left|]. exists 8%nat. eexists. split; [vm_compute; reflexivity|]. eexists _, _. reflexivity.
Qed.
Print Assumptions C41_any_schedule.
Print Assumptions C41_any_schedule_breaks.
Print Assumptions C41_interleaved_answers.
Print Assumptions C41_interleaved_finishes.
Print Assumptions C78_interleaved_breaks.
Print Assumptions C32_steps_for_ever.
Print Assumptions C32_fuel_is_time.
Print Assumptions C32_depth.
Print Assumptions C32_depth_unbounded.
