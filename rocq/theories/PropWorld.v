(** Programs with several engines, rule sets and transactions: C30, C41, C65, C68. *)
From Verif Require Import Base BaseFacts GoStrings Buffer BufferFacts Types Transforms Operators Transaction Variables Rules Engine Scanner Loader
  SpecRules LoadFacts SpecVars VarFacts RuleFacts SpecTxn TxnFacts PropRules PropPhases PropTxn LoadFacts World SpecWorld Witness.
From Coq Require Import ZifyBool.

(** ** Pointers *)
Lemma deref_Ret : forall A n (l : list A) x, deref n l = Ret x <-> nth_error l n = Some x.
Proof. intros. unfold deref. destruct (nth_error l n); split; intro H; try discriminate; [apply Ret_inj in H; now subst|injection H as ->; reflexivity]. Qed.
Lemma put_same : forall A n (x : A) l, (n < length l)%nat -> nth_error (put n x l) n = Some x.
Proof. intros A. induction n as [|n IH]; intros x [|y l] H; simpl in *; try lia; [reflexivity|]. apply IH. lia. Qed.
Lemma put_other : forall A n m (x : A) l, n <> m -> nth_error (put n x l) m = nth_error l m.
Proof. intros A. induction n as [|n IH]; intros [|m] x [|y l] H; simpl; try reflexivity; try lia. apply IH. lia. Qed.
Lemma put_map : forall A B (g : A -> B) n x l y, nth_error l n = Some y -> g x = g y -> map g (put n x l) = map g l.
Proof.
  intros A B g. induction n as [|n IH]; intros x [|z l] y H E; simpl in *; try discriminate.
  - injection H as ->. now rewrite E.
  - f_equal. eapply IH; eauto.
Qed.
Lemma nth_lt : forall A (l : list A) n x, nth_error l n = Some x -> (n < length l)%nat.
Proof. intros. apply nth_error_Some. congruence. Qed.

(** ** One transaction's view of the world *)
Definition pointers (w : world) := map (fun h => (ht_eng h, ht_set h)) (w_txns w).
Definition view (k : nat) (w w' : world) : Prop :=
  w_engs w = w_engs w' /\ w_sets w = w_sets w' /\ w_dires w = w_dires w' /\
  pointers w = pointers w' /\ nth_error (w_txns w) k = nth_error (w_txns w') k.
Lemma view_refl : forall k w, view k w w. Proof. now repeat split. Qed.
Lemma view_sym : forall k w w', view k w w' -> view k w' w.
Proof. intros k w w' (A & B & C & D & E). repeat split; congruence. Qed.
Lemma view_trans : forall k a b c, view k a b -> view k b c -> view k a c.
Proof. intros k a b c (A & B & C & D & E) (A' & B' & C' & D' & E'). repeat split; congruence. Qed.

(** A call changes the transaction it is made on and nothing else. *)
Lemma call_inv : forall f O k o w w1 b, wstep f O (WCall k o) w = Ret (w1, b) ->
  exists h x rs t' ob, nth_error (w_txns w) k = Some h /\ nth_error (w_engs w) (ht_eng h) = Some x /\
    nth_error (w_sets w) (ht_set h) = Some rs /\ step f O (he_conf x) rs o (ht_txn h) = Ret (t', ob) /\
    w1 = put_txn k (HTxn (ht_eng h) (ht_set h) t') w /\ b = WAnswer ob.
Proof.
  intros f O k o w w1 b H. cbn [wstep] in H. apply bind_Ret in H as (h & H1 & H). apply bind_Ret in H as (x & H2 & H).
  apply bind_Ret in H as (rs & H3 & H). apply bind_Ret in H as ([t' ob] & H4 & H). apply Ret_inj in H. injection H as <- <-.
  apply deref_Ret in H1, H2, H3. now exists h, x, rs, t', ob.
Qed.
Lemma call_others : forall f O k k' o w w1 b, k' <> k -> wstep f O (WCall k' o) w = Ret (w1, b) -> view k w1 w.
Proof.
  intros f O k k' o w w1 b N H. apply call_inv in H as (h & x & rs & t' & ob & H1 & H2 & H3 & H4 & -> & ->).
  repeat split; try reflexivity; cbn [put_txn w_txns].
  - unfold pointers. cbn [put_txn w_txns]. eapply put_map; [exact H1|reflexivity].
  - now apply put_other.
Qed.
(** Everything else acts on two worlds that look alike in the same way. *)
Lemma view_add : forall k w w' i rules w1, view k w w' -> w_add_sec_rule i rules w = Ret w1 ->
  exists w1', w_add_sec_rule i rules w' = Ret w1' /\ view k w1 w1'.
Proof.
  intros k w w' i rules w1 (A & B & C & D & E) H. unfold w_add_sec_rule in *. rewrite <- A, <- B.
  apply bind_Ret in H as (x & H1 & H). rewrite H1. cbn [bind]. destruct (he_set x) as [j|]; [|discriminate].
  apply bind_Ret in H as (rs & H2 & H). rewrite H2. cbn [bind]. apply Ret_inj in H as <-. eexists. split; [reflexivity|].
  repeat split; unfold pointers in *; cbn; congruence.
Qed.
Lemma view_conf : forall k w w' i g w1, view k w w' -> with_conf i g w = Ret w1 ->
  exists w1', with_conf i g w' = Ret w1' /\ view k w1 w1'.
Proof.
  intros k w w' i g w1 (A & B & C & D & E) H. unfold with_conf in *. rewrite <- A.
  apply bind_Ret in H as (x & H1 & H). rewrite H1. cbn [bind]. apply Ret_inj in H as <-. eexists. split; [reflexivity|].
  repeat split; unfold pointers in *; cbn; congruence.
Qed.
Lemma view_execute : forall k ds i w w' w1, view k w w' -> w_execute ds i w = Ret w1 ->
  exists w1', w_execute ds i w' = Ret w1' /\ view k w1 w1'.
Proof.
  intros k ds i. induction ds as [|d ds IH]; intros w w' w1 V H.
  - apply Ret_inj in H as <-. now exists w'.
  - destruct d; cbn [w_execute] in *; apply bind_Ret in H as (w2 & H1 & H);
      first [apply (view_add k w w') in H1 as (w2' & E & V2)|apply (view_conf k w w') in H1 as (w2' & E & V2)]; auto;
      rewrite E; cbn [bind]; eapply IH; eauto.
Qed.
Lemma view_length : forall k w w', view k w w' -> length (w_txns w) = length (w_txns w').
Proof. intros k w w' (_ & _ & _ & D & _). unfold pointers in D. apply (f_equal (@length _)) in D. now rewrite !map_length in D. Qed.
Lemma view_new : forall k w w' dir i j w1 b, view k w w' -> w_new_transaction dir i j w = Ret (w1, b) ->
  exists w1', w_new_transaction dir i j w' = Ret (w1', b) /\ view k w1 w1'.
Proof.
  intros k w w' dir i j w1 b V H. pose proof (view_length _ _ _ V) as L. pose proof V as (A & B & C & D & E).
  unfold w_new_transaction in *. destruct i as [i|]; [|apply Ret_inj in H; injection H as <- <-; now exists w'].
  destruct j as [j|]; [|apply Ret_inj in H; injection H as <- <-; now exists w']. rewrite <- A, <- B.
  apply bind_Ret in H as (x & H1 & H). apply bind_Ret in H as (rs & H2 & H). rewrite H1, H2. cbn [bind].
  destruct dir; apply Ret_inj in H; injection H as <- <-; [|now exists w'].
  eexists. rewrite L. split; [reflexivity|]. repeat split; unfold pointers in *; cbn; try congruence.
  - unfold pointers in *. cbn. rewrite !map_app. now rewrite D.
  - destruct (Nat.lt_ge_cases k (length (w_txns w))) as [G|G].
    + rewrite !nth_error_app1 by lia. exact E.
    + rewrite !nth_error_app2 by lia. now rewrite L.
Qed.
Ltac inv_Ret H := apply Ret_inj in H; injection H as <- <-.
Lemma view_step : forall f O k o w w' w1 b, by_others k o = false -> view k w w' -> wstep f O o w = Ret (w1, b) ->
  exists w1', wstep f O o w' = Ret (w1', b) /\ view k w1 w1'.
Proof.
  intros f O k o w w' w1 b N V H. pose proof V as (A & B & C & D & E).
  destruct o; cbn [wstep] in *.
  - inv_Ret H. rewrite <- A, <- B. eexists. split; [reflexivity|]. repeat split; unfold pointers in *; cbn; congruence.
  - inv_Ret H. rewrite <- B. eexists. split; [reflexivity|]. repeat split; unfold pointers in *; cbn; congruence.
  - apply bind_Ret in H as (w2 & H1 & H). inv_Ret H. apply bind_Ret in H1 as (x & H1 & H). apply Ret_inj in H as <-.
    rewrite <- A, H1. cbn [bind]. eexists. split; [reflexivity|]. repeat split; unfold pointers in *; cbn; congruence.
  - apply bind_Ret in H as (w2 & H1 & H). inv_Ret H. apply (view_conf k w w') in H1 as (w2' & -> & V2); auto. eexists. split; [reflexivity|exact V2].
  - apply bind_Ret in H as (w2 & H1 & H). inv_Ret H. apply (view_conf k w w') in H1 as (w2' & -> & V2); auto. eexists. split; [reflexivity|exact V2].
  - apply bind_Ret in H as (w2 & H1 & H). inv_Ret H. apply (view_add k w w') in H1 as (w2' & -> & V2); auto. eexists. split; [reflexivity|exact V2].
  - apply bind_Ret in H as (w2 & H1 & H). inv_Ret H. apply bind_Ret in H1 as (x & H1 & H). apply Ret_inj in H as <-.
    rewrite <- B, H1. cbn [bind]. eexists. split; [reflexivity|]. repeat split; unfold pointers in *; cbn; congruence.
  - apply bind_Ret in H as (w2 & H1 & H). inv_Ret H. apply bind_Ret in H1 as (x & H1 & H). apply Ret_inj in H as <-.
    rewrite <- B, H1. cbn [bind]. eexists. split; [reflexivity|]. repeat split; unfold pointers in *; cbn; congruence.
  - inv_Ret H. rewrite <- C. eexists. split; [reflexivity|]. repeat split; unfold pointers in *; cbn; congruence.
  - apply bind_Ret in H as (ds & H1 & H). apply bind_Ret in H as ([ds' ok] & H2 & H). inv_Ret H.
    rewrite <- C, H1. cbn [bind]. rewrite H2. cbn [bind]. eexists. split; [reflexivity|]. repeat split; unfold pointers in *; cbn; congruence.
  - apply bind_Ret in H as (w2 & H1 & H). inv_Ret H. apply bind_Ret in H1 as (ds & H1 & H). rewrite <- C, H1. cbn [bind].
    apply (view_execute k ds i w w') in H as (w2' & -> & V2); auto. eexists. split; [reflexivity|exact V2].
  - apply bind_Ret in H as (x & H1 & H). rewrite <- A, H1. cbn [bind]. eapply view_new; eauto.
  - eapply view_new; eauto.
  - cbn [by_others] in N. apply Bool.negb_false_iff in N. apply Nat.eqb_eq in N as ->.
    change (wstep f O (WCall k o) w = Ret (w1, b)) in H. apply call_inv in H as (h & x & rs & t' & ob & H1 & H2 & H3 & H4 & -> & ->).
    unfold deref. rewrite <- E, H1. cbn [bind]. rewrite <- A, H2. cbn [bind]. rewrite <- B, H3. cbn [bind]. rewrite H4. cbn [bind].
    eexists. split; [reflexivity|]. assert (H1' : nth_error (w_txns w') k = Some h) by congruence.
    repeat split; unfold pointers in *; cbn; try congruence.
    + unfold pointers. cbn. rewrite (put_map _ _ _ _ _ _ h), (put_map _ _ _ _ _ _ h) by auto. exact D.
    + rewrite !put_same; [reflexivity| |]; eapply nth_lt; eauto.
Qed.

(** ** C41: what one transaction answers does not depend on the others *)
Lemma heard_skip : forall k o os b bl, calls_on k [o] = [] -> heard k (o :: os) (b :: bl) = heard k os bl.
Proof.
  intros k o os b bl N. destruct o; try reflexivity. cbn [calls_on heard] in *.
  destruct (Nat.eqb k0 k); [discriminate|]. now destruct b.
Qed.
Lemma alone_view : forall f O k os w w' w1 bl, view k w w' -> wrun f O os w = Ret (w1, bl) ->
  exists w1' bl', wrun f O (alone k os) w' = Ret (w1', bl') /\ view k w1 w1' /\ heard k os bl = heard k (alone k os) bl'.
Proof.
  intros f O k os. induction os as [|o os IH]; intros w w' w1 bl V H.
  - inv_Ret H. exists w', []. split; [reflexivity|]. split; [exact V|reflexivity].
  - cbn [wrun] in H. apply bind_Ret in H as ([w2 b] & H1 & H). apply bind_Ret in H as ([w3 bl2] & H2 & H). inv_Ret H.
    unfold alone. cbn [List.filter]. fold (alone k os). destruct (by_others k o) eqn:N; cbn [negb].
    + destruct o as [| | | | | | | | | | | | |k' o]; try discriminate. cbn [by_others] in N. apply Bool.negb_true_iff, Nat.eqb_neq in N.
      pose proof (call_others _ _ _ _ _ _ _ _ N H1) as V1.
      destruct (IH w2 w' w3 bl2) as (w1' & bl' & E & V' & HH); [eapply view_trans; eauto|exact H2|].
      exists w1', bl'. repeat split; auto; try apply V'. rewrite <- HH. apply heard_skip. cbn [calls_on].
      apply Nat.eqb_neq in N. now rewrite N.
    + destruct (view_step _ _ _ _ _ _ _ _ N V H1) as (w2' & E1 & V1).
      destruct (IH w2 w2' w3 bl2 V1 H2) as (w1' & bl' & E & V' & HH).
      exists w1', (b :: bl'). split; [cbn [wrun]; rewrite E1; cbn [bind]; now rewrite E|]. split; [exact V'|].
      destruct o; cbn [heard]; try exact HH. destruct b; try exact HH. destruct (Nat.eqb k0 k); [now f_equal|exact HH].
Qed.
(** Whatever a program does with other transactions, transaction [k] gets the answers, and
    ends in the state, it gets if none of those calls are made; engines, rule sets and
    directive sets end the same as well. *)
Theorem C41_other_transactions_do_not_matter : forall f O k os w w1 bl, wrun f O os w = Ret (w1, bl) ->
  exists w1' bl', wrun f O (alone k os) w = Ret (w1', bl') /\ heard k os bl = heard k (alone k os) bl' /\
    nth_error (w_txns w1) k = nth_error (w_txns w1') k /\
    w_engs w1 = w_engs w1' /\ w_sets w1 = w_sets w1' /\ w_dires w1 = w_dires w1'.
Proof.
  intros f O k os w w1 bl H. destruct (alone_view f O k os w w w1 bl (view_refl k w) H) as (w1' & bl' & E & (A & B & C & D & F) & HH).
  exists w1', bl'. repeat split; auto.
Qed.
(** And the program runs through if it does with each transaction alone. *)
Lemma returns_view : forall f O os w, (forall k, exists w' r, view k w w' /\ wrun f O (alone k os) w' = Ret r) ->
  exists r, wrun f O os w = Ret r.
Proof.
  intros f O os. induction os as [|o os IH]; intros w H; [eexists; reflexivity|].
  set (k := match o with WCall k _ => k | _ => 0%nat end).
  assert (N : by_others k o = false) by (destruct o; try reflexivity; unfold k; cbn [by_others]; now rewrite Nat.eqb_refl).
  assert (S1 : exists w1 b, wstep f O o w = Ret (w1, b)).
  { destruct (H k) as (w' & r & V & R). unfold alone in R. cbn [List.filter] in R. rewrite N in R. cbn [negb wrun] in R.
    destruct r as [w2 bl]. apply bind_Ret in R as ([w1' b] & R1 & _).
    destruct (view_step _ _ _ _ _ _ _ _ N (view_sym _ _ _ V) R1) as (w1 & E & _). eauto. }
  destruct S1 as (w1 & b & S1). cbn [wrun]. rewrite S1. cbn [bind].
  destruct (IH w1) as ([w2 bl] & E); [|rewrite E; eexists; reflexivity].
  intro n. destruct (H n) as (w' & [w2 bl] & V & R). unfold alone in R. cbn [List.filter] in R.
  destruct (by_others n o) eqn:M; cbn [negb] in R.
  - destruct o as [| | | | | | | | | | | | |k' o]; try discriminate. cbn [by_others] in M. apply Bool.negb_true_iff, Nat.eqb_neq in M.
    exists w', (w2, bl). split; [|exact R]. eapply view_trans; [eapply call_others; eauto|exact V].
  - cbn [wrun] in R. apply bind_Ret in R as ([w1' b'] & R1 & R). apply bind_Ret in R as ([w2' bl'] & R2 & R).
    destruct (view_step _ _ _ _ _ _ _ _ M V S1) as (w1'' & E1 & V1). rewrite R1 in E1. apply Ret_inj in E1. injection E1 as -> ->.
    exists w1'', (w2', bl'). now split.
Qed.
Theorem C41_program_returns : forall f O os w, (forall k, exists r, wrun f O (alone k os) w = Ret r) ->
  exists r, wrun f O os w = Ret r.
Proof. intros f O os w H. apply returns_view. intro k. destruct (H k) as (r & R). exists w, r. split; [apply view_refl|exact R]. Qed.

(** ** What a transaction answers is decided by the settings and rules in force at its calls *)
Lemma other_keeps : forall f O k o w w1 b h, (forall o', o <> WCall k o') -> wstep f O o w = Ret (w1, b) ->
  nth_error (w_txns w) k = Some h -> nth_error (w_txns w1) k = Some h.
Proof.
  intros f O k o w w1 b h N H E.
  assert (C : forall i g w w1, with_conf i g w = Ret w1 -> w_txns w1 = w_txns w).
  { clear. intros i g w w1 H. unfold with_conf in H. apply bind_Ret in H as (x & _ & H). apply Ret_inj in H as <-. reflexivity. }
  assert (R : forall i r w w1, w_add_sec_rule i r w = Ret w1 -> w_txns w1 = w_txns w).
  { clear. intros i r w w1 H. unfold w_add_sec_rule in H. apply bind_Ret in H as (x & _ & H). destruct (he_set x); [|discriminate].
    apply bind_Ret in H as (rs & _ & H). apply Ret_inj in H as <-. reflexivity. }
  assert (T : forall dir i j w1 b, w_new_transaction dir i j w = Ret (w1, b) -> nth_error (w_txns w1) k = Some h).
  { clear - E. intros dir i j w1 b H. unfold w_new_transaction in H.
    destruct i; [|inv_Ret H; exact E]. destruct j; [|inv_Ret H; exact E].
    apply bind_Ret in H as (x & _ & H). apply bind_Ret in H as (y & _ & H). destruct dir; inv_Ret H; [|exact E].
    cbn. rewrite nth_error_app1; [exact E|eapply nth_lt; eauto]. }
  destruct o; cbn [wstep] in H.
  - inv_Ret H. exact E.
  - inv_Ret H. exact E.
  - apply bind_Ret in H as (w2 & H1 & H). inv_Ret H. apply bind_Ret in H1 as (x & _ & H1). apply Ret_inj in H1 as <-. exact E.
  - apply bind_Ret in H as (w2 & H1 & H). inv_Ret H. now rewrite (C _ _ _ _ H1).
  - apply bind_Ret in H as (w2 & H1 & H). inv_Ret H. now rewrite (C _ _ _ _ H1).
  - apply bind_Ret in H as (w2 & H1 & H). inv_Ret H. now rewrite (R _ _ _ _ H1).
  - apply bind_Ret in H as (w2 & H1 & H). inv_Ret H. apply bind_Ret in H1 as (x & _ & H1). apply Ret_inj in H1 as <-. exact E.
  - apply bind_Ret in H as (w2 & H1 & H). inv_Ret H. apply bind_Ret in H1 as (x & _ & H1). apply Ret_inj in H1 as <-. exact E.
  - inv_Ret H. exact E.
  - apply bind_Ret in H as (ds & _ & H). apply bind_Ret in H as ([ds' ok] & _ & H). inv_Ret H. exact E.
  - apply bind_Ret in H as (w2 & H1 & H). inv_Ret H. apply bind_Ret in H1 as (ds & _ & H1).
    assert (X : w_txns w2 = w_txns w).
    { clear - C R H1. revert w H1. induction ds as [|[r|v|v|v] ds IH]; intros w H; cbn [w_execute] in H;
        [apply Ret_inj in H as <-; reflexivity| | | |]; apply bind_Ret in H as (w3 & H1 & H);
        rewrite (IH _ H); eauto. }
    now rewrite X.
  - apply bind_Ret in H as (x & _ & H). eapply T; eauto.
  - eapply T; eauto.
  - change (wstep f O (WCall k0 o) w = Ret (w1, b)) in H.
    assert (K : k0 <> k) by (intros ->; eapply N; reflexivity).
    apply (call_others f O k) in H; [|exact K]. destruct H as (_ & _ & _ & _ & H). congruence.
Qed.
Theorem C41_answers_of_own_calls : forall f O k os w w1 bl h, wrun f O os w = Ret (w1, bl) -> nth_error (w_txns w) k = Some h ->
  exists l t', in_force f O k os w l /\ map snd l = calls_on k os /\
    under f O l (ht_txn h) = Ret (t', heard k os bl) /\ nth_error (w_txns w1) k = Some (HTxn (ht_eng h) (ht_set h) t').
Proof.
  intros f O k os. induction os as [|o os IH]; intros w w1 bl h H E.
  - inv_Ret H. exists [], (ht_txn h). split; [constructor|]. repeat split. now destruct h.
  - cbn [wrun] in H. apply bind_Ret in H as ([w2 b] & H1 & H). apply bind_Ret in H as ([w3 bl2] & H2 & H). inv_Ret H.
    assert (D : (exists o', o = WCall k o') \/ (forall o', o <> WCall k o')).
    { destruct o; try (right; discriminate). destruct (Nat.eq_dec k0 k) as [->|N]; [left; eauto|right; congruence]. }
    destruct D as [[o' ->]|N].
    + pose proof H1 as H1'. apply call_inv in H1 as (h' & x & rs & t' & ob & X1 & X2 & X3 & X4 & -> & ->).
      rewrite E in X1. injection X1 as <-.
      destruct (IH _ _ _ (HTxn (ht_eng h) (ht_set h) t') H2) as (l & t2 & F & M & U & Q).
      { cbn. apply put_same. eapply nth_lt; eauto. }
      exists ((he_conf x, rs, o') :: l), t2. cbn [ht_txn ht_eng ht_set] in *. split; [econstructor; eauto|].
      cbn [map snd calls_on under heard]. rewrite Nat.eqb_refl, X4. cbn [bind]. rewrite U. cbn [bind]. now rewrite M.
    + pose proof (other_keeps _ _ _ _ _ _ _ _ N H1 E) as E'.
      destruct (IH _ _ _ _ H2 E') as (l & t2 & F & M & U & Q). exists l, t2. split; [econstructor; eauto|].
      assert (Z : calls_on k [o] = []).
      { destruct o; try reflexivity. cbn [calls_on]. destruct (Nat.eqb_spec k0 k) as [->|]; [|reflexivity]. exfalso. eapply N. reflexivity. }
      rewrite heard_skip by exact Z. repeat split; auto.
      rewrite M. destruct o; try reflexivity. cbn [calls_on] in *. now destruct (Nat.eqb k0 k).
Qed.

(** ** C30: rules added for phases already passed do not matter *)
Section Alike.
Variables (m : Z) (O : oracles) (e e' : engine) (rs rs' : ruleset).
Hypothesis AC : same_access e e'.
Hypothesis SA : same_after m rs rs'.
Hypothesis NR : no_return m rs.
Hypothesis M6 : m < 6.
Definition tame (a : action) : Prop := m < 4 \/ a <> AAllow (B "request").
Lemma fetch_alike : forall v t, fetch O e v t = fetch O e' v t.
Proof.
  destruct AC as (A1 & A2 & A3).
  assert (RP : forall tp bd t, run_parser O e tp bd t = run_parser O e' tp bd t).
  { intros [] bd t; [reflexivity|]. cbn [run_parser]. now rewrite A3. }
  assert (PT : forall ct bd tps t, parse_types O e ct bd tps t = parse_types O e' ct bd tps t).
  { intros ct bd tps. induction tps as [|tp tps IH]; intro t; cbn [parse_types]; [reflexivity|].
    destruct (negb _); [apply IH|]. destruct (cache_get tp t) as [[]|]; try reflexivity; [apply IH|]. rewrite RP.
    destruct (run_parser O e' tp bd t) as [[[t1 res] err]| |]; try reflexivity. cbn [bind]. destruct err; [reflexivity|].
    destruct res; try reflexivity. apply IH. }
  assert (BP : forall t, request_body_parse O e t = request_body_parse O e' t).
  { intro t. unfold request_body_parse. rewrite A1. destruct (negb _); [reflexivity|]. destruct (_ || _); [reflexivity|].
    destruct (media_type O _). apply PT. }
  assert (FC : forall c f t, fetch_coll O e c f t = fetch_coll O e' c f t).
  { intros [] f t; cbn [fetch_coll]; try reflexivity; [unfold fetch_post|unfold fetch_post_names]; now rewrite BP. }
  assert (FS : forall s t, fetch_scalar O e s t = fetch_scalar O e' s t).
  { intros [] t; cbn [fetch_scalar]; try reflexivity; [unfold fetch_request_body|unfold fetch_response_body]; [now rewrite A1|now rewrite A2]. }
  induction v as [c f|s|f1 f2|f1 f2|v IH]; intro t; cbn [fetch]; [apply FC|now rewrite FS| | |].
  1,2: (rewrite FC; destruct (fetch_coll O e' _ _ t) as [[t1 vs]| |]; try reflexivity; cbn [bind]; now rewrite FC).
  now rewrite IH.
Qed.
Lemma match_alike : forall r t, match_rule O e r t = match_rule O e' r t.
Proof.
  intros r t. unfold match_rule.
  assert (F : forall vs t, fetch_all O e r vs t = fetch_all O e' r vs t).
  { induction vs as [|v vs IH]; intro u; cbn [fetch_all]; [reflexivity|]. unfold transform_variable. rewrite fetch_alike.
    destruct (fetch O e' v u) as [[t1 ws]| |]; try reflexivity. cbn [bind]. now rewrite IH. }
  now rewrite F.
Qed.
Lemma subs_alike : forall l t, match_subs O e l t = match_subs O e' l t.
Proof.
  induction l as [|r l IH]; intro t; cbn [match_subs]; [reflexivity|]. rewrite match_alike.
  destruct (match_rule O e' r t) as [[t1 []]| |]; try reflexivity. cbn [bind]. apply IH.
Qed.
Lemma count_alike : forall q, m < q -> nrules rs q = nrules rs' q.
Proof. intros q H. unfold nrules. now rewrite (proj2 SA q H). Qed.
Lemma defaults_tame : Forall tame (rs_default rs).
Proof. apply Forall_forall. intros a I. destruct NR as [X|[X _]]; [now left|]. right. intros ->. contradiction. Qed.
Lemma allow_after : forall arg t, tame (AAllow arg) -> m < t_phase t -> m < t_phase (do_allow arg t).
Proof.
  intros arg t T P. unfold do_allow, next_phase, jump_to_phase, PhaseLogging, PhaseResponseHeaders, PhaseBegin, PhaseEnd.
  destruct (bs_eqb_spec arg []) as [->|Q1]; [cbn; lia|]. destruct (bs_eqb_spec arg (B "phase")) as [->|Q2].
  - cbn [with_pos t_phase]. destruct (t_phase t + 1 <? 0) eqn:E1; [|destruct (7 <=? t_phase t + 1) eqn:E2]; lia.
  - destruct (bs_eqb_spec arg (B "request")) as [->|Q3]; [|exact P]. destruct T as [T|T]; [cbn; lia|congruence].
Qed.
Lemma grouped_tame : forall l, Forall tame l -> Forall tame (grouped l).
Proof.
  intros l H. apply Forall_forall. intros a I. unfold grouped in I. apply in_flat_map in I as (g & _ & I).
  unfold bucket in I. apply filter_In in I as [I _]. rewrite Forall_forall in H. auto.
Qed.
Lemma acts_alike : forall f l t, Forall tame l -> m < t_phase t ->
  act_list f rs l t = act_list f rs' l t /\ (forall t', act_list f rs l t = Ret t' -> m < t_phase t').
Proof.
  induction f as [f IHf] using lt_wf_ind. induction l as [|a l IH]; intros t T P; cbn [act_list].
  - split; [reflexivity|]. intros t' H. apply Ret_inj in H. now subst.
  - inversion T as [|a0 l0 Ta Tl X]. subst.
    assert (S : act1 f rs a t = act1 f rs' a t /\ (forall t', act1 f rs a t = Ret t' -> m < t_phase t')).
    { destruct a; cbn [act1 effect].
      - split; [reflexivity|]. intros t' H. apply Ret_inj in H as <-. exact P.
      - split; [reflexivity|]. intros t' H. apply Ret_inj in H as <-. now apply allow_after.
      - rewrite <- (proj1 SA). destruct f as [|f]; [split; [reflexivity|discriminate]|].
        rewrite !execute_eq. apply IHf; [lia| |exact P]. apply grouped_tame, defaults_tame.
      - split; [reflexivity|]. intros t' H. apply Ret_inj in H as <-. exact P.
      - split; [reflexivity|]. intros t' H. apply Ret_inj in H as <-. exact P.
      - unfold jump_to. rewrite (count_alike _ P). split; [reflexivity|]. intros t' H. apply Ret_inj in H as <-.
        now destruct (nrules rs' (t_phase t) <=? t_cur t + 2).
      - split; [reflexivity|]. intros t' H. apply Ret_inj in H as <-. exact P. }
    destruct S as [S1 S2]. rewrite <- S1. destruct (act1 f rs a t) as [t1| |]; cbn [bind]; try (split; [reflexivity|discriminate]).
    apply IH; auto.
Qed.
Lemma execute_alike : forall f l t, Forall tame l -> m < t_phase t ->
  actions_execute f rs l t = actions_execute f rs' l t /\ (forall t', actions_execute f rs l t = Ret t' -> m < t_phase t').
Proof.
  intros [|f] l t T P; [split; [reflexivity|discriminate]|]. rewrite !execute_eq. apply acts_alike; [now apply grouped_tame|exact P].
Qed.
Lemma subs_execute_alike : forall f l t, Forall (fun r => Forall tame (r_acts r)) l -> m < t_phase t ->
  subs_execute f rs l t = subs_execute f rs' l t /\ (forall t', subs_execute f rs l t = Ret t' -> m < t_phase t').
Proof.
  intros f l. induction l as [|r l IH]; intros t T P; cbn [subs_execute].
  - split; [reflexivity|]. intros t' H. apply Ret_inj in H. now subst.
  - inversion T as [|a0 l0 Ta Tl X]. subst. destruct (execute_alike f (r_acts r) t Ta P) as [S1 S2]. rewrite <- S1.
    destruct (actions_execute f rs (r_acts r) t) as [t1| |]; cbn [bind]; try (split; [reflexivity|discriminate]).
    apply IH; auto.
Qed.
Lemma match_stays : forall r t t' b, match_rule O e r t = Ret (t', b) -> t_phase t' = t_phase t.
Proof.
  intros r t t' b H. apply evals_touches, touches_frame in H as (_ & _ & H & _). unfold position in H. now injection H as H _ _ _.
Qed.
Lemma match_subs_stays : forall l t t' b, match_subs O e l t = Ret (t', b) -> t_phase t' = t_phase t.
Proof.
  induction l as [|r l IH]; intros t t' b H; cbn [match_subs] in H; [inv_Ret H; reflexivity|].
  apply bind_Ret in H as ([t1 []] & H1 & H); apply match_stays in H1; [apply IH in H; congruence|inv_Ret H; exact H1].
Qed.
Lemma do_alike : forall f r t, Forall (fun r => Forall tame (r_acts r)) (r :: r_subs r) -> m < t_phase t ->
  do_rule f O e rs r t = do_rule f O e' rs' r t /\ (forall t', do_rule f O e rs r t = Ret t' -> m < t_phase t').
Proof.
  intros f r t T P. unfold do_rule. rewrite <- match_alike.
  destruct (match_rule O e r t) as [[t1 b]| |] eqn:E; cbn [bind]; try (split; [reflexivity|discriminate]).
  apply match_stays in E. destruct b; [|split; [reflexivity|intros t' H; apply Ret_inj in H as <-; lia]].
  rewrite <- subs_alike. destruct (match_subs O e (r_subs r) t1) as [[t2 b]| |] eqn:E2; cbn [bind]; try (split; [reflexivity|discriminate]).
  apply match_subs_stays in E2. destruct b; [|split; [reflexivity|intros t' H; apply Ret_inj in H as <-; lia]].
  inversion T as [|a0 l0 Ta Tl X]. subst. destruct (execute_alike f (r_acts r) t2 Ta ltac:(lia)) as [S1 S2]. rewrite <- S1.
  destruct (actions_execute f rs (r_acts r) t2) as [t3| |]; cbn [bind]; try (split; [reflexivity|discriminate]).
  apply subs_execute_alike; auto.
Qed.
Lemma rules_tame : forall q r, m < q -> In r (phase_rules rs q) -> Forall (fun r => Forall tame (r_acts r)) (r :: r_subs r).
Proof.
  intros q r Q I. apply Forall_forall. intros s S. apply Forall_forall. intros a A. destruct NR as [X|[_ X]]; [now left|].
  right. intros ->. eapply X; eauto.
Qed.
Lemma process_alike : forall f q n t, m < q -> m < t_phase t ->
  process_rule f O e rs q n t = process_rule f O e' rs' q n t /\ (forall t', process_rule f O e rs q n t = Ret t' -> m < t_phase t').
Proof.
  intros f q n t Q P. unfold process_rule. rewrite <- (count_alike _ Q), <- (proj2 SA q Q).
  destruct (n <? nrules rs q); [|split; [reflexivity|intros t' H; apply Ret_inj in H as <-; exact P]].
  destruct (n <? 0); [split; [reflexivity|discriminate]|].
  destruct (nth_error (phase_rules rs q) (Z.to_nat n)) as [r|] eqn:E; [|split; [reflexivity|discriminate]].
  apply do_alike; [|exact P]. apply (rules_tame q); [exact Q|]. eapply nth_error_In; eauto.
Qed.
Lemma next_alike : forall t, m < t_phase t -> next_rule rs t = next_rule rs' t.
Proof. intros t P. unfold next_rule. now rewrite (count_alike _ P). Qed.
Lemma next_stays : forall s t, t_phase (snd (next_rule s t)) = t_phase t.
Proof. intros s t. unfold next_rule. now destruct (t_next t =? StatusEndOfRules). Qed.
Lemma loop_alike : forall f d q n t, m < q -> m < t_phase t ->
  phase_loop f d O e rs q n t = phase_loop f d O e' rs' q n t /\ (forall t', phase_loop f d O e rs q n t = Ret t' -> m < t_phase t').
Proof.
  induction f as [|f IH]; intros d q n t Q P; cbn [phase_loop]; [split; [reflexivity|discriminate]|].
  destruct ((t_phase t =? q) && negb (n =? StatusEndOfRules)); [|split; [reflexivity|intros t' H; apply Ret_inj in H as <-; exact P]].
  destruct (process_alike d q n t Q P) as [S1 S2]. rewrite <- S1.
  destruct (process_rule d O e rs q n t) as [t1| |]; cbn [bind]; try (split; [reflexivity|discriminate]).
  specialize (S2 _ eq_refl). destruct (i_disruptive (get_iv (touch_iv t1))); [split; [reflexivity|intros t' H; apply Ret_inj in H as <-; exact S2]|].
  rewrite <- next_alike by exact S2. pose proof (next_stays rs (touch_iv t1)) as X.
  destruct (next_rule rs (touch_iv t1)) as [k t3]. apply IH; [exact Q|]. cbn [snd] in X. rewrite X. exact S2.
Qed.
End Alike.

Lemma step_alike : forall f O m e e' rs rs' o t, same_access e e' -> same_after m rs rs' -> no_return m rs -> m <= t_phase t ->
  step f O e rs o t = step f O e' rs' o t /\ (forall t' b, step f O e rs o t = Ret (t', b) -> m <= t_phase t').
Proof.
  intros f O m e e' rs rs' o t AC SA NR P. destruct (op_phase o) as [q|] eqn:Q.
  - rewrite !(step_phase _ _ _ _ _ _ _ Q). pose proof (op_phase_range _ _ Q) as R.
    destruct (given_same o t) as (G & _ & _). unfold process_phase. rewrite G.
    destruct (q <=? t_phase t) eqn:E; [split; [reflexivity|intros t' b H; inv_Ret H; lia]|].
    assert (J : t_phase (jump_to_phase q (given o t)) = q).
    { unfold jump_to_phase, PhaseBegin, PhaseEnd. cbn [with_pos t_phase]. destruct (q <? 0) eqn:E1; [lia|]. destruct (7 <=? q) eqn:E2; lia. }
    unfold process_phase_inner. destruct (t_abort _); [split; [reflexivity|intros t' b H; inv_Ret H; lia]|].
    assert (JQ : m < t_phase (jump_to_phase q (given o t))) by lia.
    rewrite <- (next_alike m rs rs' SA _ JQ). pose proof (next_stays rs (jump_to_phase q (given o t))) as X.
    destruct (next_rule rs (jump_to_phase q (given o t))) as [n t1]. cbn [snd] in X.
    destruct (loop_alike m O e e' rs rs' AC SA NR ltac:(lia) f f q n t1 ltac:(lia) ltac:(lia)) as [S1 S2]. rewrite <- S1.
    split; [reflexivity|]. intros t' b H. apply bind_Ret in H as (t2 & H1 & H). inv_Ret H. specialize (S2 _ H1). lia.
  - split; [now destruct o|]. intros t' b H. apply step_other in H; [lia|exact Q].
Qed.
(** Two histories of settings and rules that agree on the access to bodies and on the
    default actions and the rules of all phases after [m] give a transaction that has
    reached phase [m] the same answers. *)
Theorem C30_past_rules_do_not_matter : forall f O m l l' t, m <= t_phase t -> Forall2 (same_view m) l l' ->
  under f O l t = under f O l' t.
Proof.
  intros f O m l l' t P H. revert t P. induction H as [|[[e rs] o] [[e' rs'] o'] l l' C H IH]; intros t P; [reflexivity|].
  destruct C as (<- & AC & SA & NR). cbn [under]. destruct (step_alike f O m e e' rs rs' o t AC SA NR P) as [S1 S2]. rewrite <- S1.
  destruct (step f O e rs o t) as [[t1 b]| |]; cbn [bind]; try reflexivity. now rewrite (IH t1 (S2 _ _ eq_refl)).
Qed.

(** ** The same for whole programs *)
Lemma same_after_refl : forall m rs, same_after m rs rs. Proof. now split. Qed.
Lemma same_after_add : forall m l rs rs', same_after m rs rs' -> same_after m (add_rules l rs) (add_rules l rs').
Proof.
  intros m l rs rs' [A B]. split; [now rewrite !add_rules_default|]. intros q Q. rewrite !add_rules_phase. now rewrite (B q Q).
Qed.
Lemma same_after_default : forall m l rs rs', same_after m rs rs' -> same_after m (add_default_actions l rs) (add_default_actions l rs').
Proof. intros m l rs rs' [A B]. split; [cbn; now rewrite A|exact B]. Qed.
Lemma forall2_nth : forall A B (P : A -> B -> Prop) l l', Forall2 P l l' -> forall n x y, nth_error l n = Some x -> nth_error l' n = Some y -> P x y.
Proof.
  intros A B P l l'. induction 1 as [|a b l l' H1 H2 IH]; intros [|n] x y; cbn; try discriminate.
  - intros X Y. injection X as <-. injection Y as <-. exact H1.
  - apply IH.
Qed.
Lemma forall2_put : forall A B (P : A -> B -> Prop) l l', Forall2 P l l' -> forall n x y, P x y -> Forall2 P (put n x l) (put n y l').
Proof. intros A B P l l'. induction 1 as [|a b l l' H1 H2 IH]; intros [|n] x y K; cbn; constructor; auto. Qed.
Definition alike_eng (x x' : heng) : Prop := he_set x = he_set x' /\ same_access (he_conf x) (he_conf x').
Section Past.
Variable m : Z.
Lemma past_add : forall i l w w' w1 w1', same_but_past m w w' -> w_add_sec_rule i l w = Ret w1 -> w_add_sec_rule i l w' = Ret w1' -> same_but_past m w1 w1'.
Proof.
  intros i l w w' w1 w1' (A & B & C & D) H H'. unfold w_add_sec_rule in *.
  apply bind_Ret in H as (x & H1 & H). apply bind_Ret in H' as (x' & H1' & H'). apply deref_Ret in H1, H1'.
  destruct (forall2_nth _ _ _ _ _ A _ _ _ H1 H1') as [J _]. rewrite <- J in H'. destruct (he_set x) as [j|]; [|discriminate].
  apply bind_Ret in H as (rs & H2 & H). apply bind_Ret in H' as (rs' & H2' & H'). apply Ret_inj in H as <-. apply Ret_inj in H' as <-.
  split; [exact A|]. split; [exact B|]. split; [|exact D]. cbn. apply forall2_put; [exact C|]. apply same_after_add.
  apply deref_Ret in H2, H2'. eapply forall2_nth; eauto.
Qed.
Lemma past_conf : forall i g w w' w1 w1', (forall e e', same_access e e' -> same_access (g e) (g e')) ->
  same_but_past m w w' -> with_conf i g w = Ret w1 -> with_conf i g w' = Ret w1' -> same_but_past m w1 w1'.
Proof.
  intros i g w w' w1 w1' G (A & B & C & D) H H'. unfold with_conf in *.
  apply bind_Ret in H as (x & H1 & H). apply bind_Ret in H' as (x' & H1' & H'). apply deref_Ret in H1, H1'.
  destruct (forall2_nth _ _ _ _ _ A _ _ _ H1 H1') as [J K]. apply Ret_inj in H as <-. apply Ret_inj in H' as <-.
  split; [cbn; apply forall2_put; [exact A|split; [exact J|apply G, K]]|]. split; [exact B|]. split; [exact C|exact D].
Qed.
Lemma access_enable : forall s e e', same_access e e' -> same_access (enable s e) (enable s e').
Proof. now intros [] e e'. Qed.
Lemma access_limits : forall a b l q r e e', same_access e e' -> same_access (set_limits a b l q r e) (set_limits a b l q r e').
Proof. now repeat split. Qed.
Lemma access_dire : forall d e e', same_access e e' -> same_access (execute_dire d e) (execute_dire d e').
Proof.
  intros [r|v|v|v] e e' (A & B & C); cbn [execute_dire]; try (now repeat split).
  destruct (v =? TriBoolTrue); [now repeat split|]. destruct (v =? TriBoolFalse); [now repeat split|]. destruct (v =? TriBoolElse); now repeat split.
Qed.
Lemma past_execute : forall i ds w w' w1 w1', same_but_past m w w' -> w_execute ds i w = Ret w1 -> w_execute ds i w' = Ret w1' -> same_but_past m w1 w1'.
Proof.
  intros i. induction ds as [|d ds IH]; intros w w' w1 w1' S H H'.
  - apply Ret_inj in H as <-. apply Ret_inj in H' as <-. exact S.
  - destruct d; cbn [w_execute] in *; apply bind_Ret in H as (w2 & H1 & H); apply bind_Ret in H' as (w2' & H1' & H');
      (eapply IH; [|exact H|exact H']); first [eapply past_add; [exact S|exact H1|exact H1']|eapply past_conf; [apply access_dire|exact S|exact H1|exact H1']].
Qed.
Lemma past_new : forall dir i j w w' w1 w1' b b', same_but_past m w w' -> w_new_transaction dir i j w = Ret (w1, b) ->
  w_new_transaction dir i j w' = Ret (w1', b') -> same_but_past m w1 w1'.
Proof.
  intros dir i j w w' w1 w1' b b' S H H'. pose proof S as (A & B & C & D). unfold w_new_transaction in *.
  destruct i; [|inv_Ret H; inv_Ret H'; exact S]. destruct j; [|inv_Ret H; inv_Ret H'; exact S].
  apply bind_Ret in H as (x & _ & H). apply bind_Ret in H' as (x' & _ & H'). apply bind_Ret in H as (y & _ & H). apply bind_Ret in H' as (y' & _ & H').
  destruct dir; inv_Ret H; inv_Ret H'; [|exact S]. split; [exact A|]. split; [exact B|]. split; [exact C|]. cbn. rewrite !map_app. now rewrite D.
Qed.
Lemma past_call : forall f O k o w w1 b, wstep f O (WCall k o) w = Ret (w1, b) ->
  w_engs w1 = w_engs w /\ w_dires w1 = w_dires w /\ w_sets w1 = w_sets w /\ pointers w1 = pointers w.
Proof.
  intros f O k o w w1 b H. apply call_inv in H as (h & x & rs & t' & ob & H1 & H2 & H3 & H4 & -> & ->).
  repeat split. unfold pointers. cbn. eapply put_map; [exact H1|reflexivity].
Qed.
Lemma past_step : forall f O o w w' w1 w1' b b', same_but_past m w w' -> wstep f O o w = Ret (w1, b) -> wstep f O o w' = Ret (w1', b') ->
  same_but_past m w1 w1'.
Proof.
  intros f O o w w' w1 w1' b b' S H H'. pose proof S as (A & B & C & D). 
  assert (L : length (w_sets w) = length (w_sets w')) by (clear - C; induction C; cbn; congruence).
  destruct o; cbn [wstep] in *.
  - inv_Ret H. inv_Ret H'. split; [cbn; rewrite L; apply Forall2_app; [exact A|]; repeat constructor|]. split; [exact B|]. split; [|exact D]. cbn.
    apply Forall2_app; [exact C|]. repeat constructor.
  - inv_Ret H. inv_Ret H'. split; [exact A|]. split; [exact B|]. split; [|exact D]. cbn.
    apply Forall2_app; [exact C|]. repeat constructor.
  - apply bind_Ret in H as (w2 & H1 & H). inv_Ret H. apply bind_Ret in H1 as (x & H1 & H). apply Ret_inj in H as <-.
    apply bind_Ret in H' as (w2 & H1' & H'). inv_Ret H'. apply bind_Ret in H1' as (x' & H1' & H'). apply Ret_inj in H' as <-.
    apply deref_Ret in H1, H1'. destruct (forall2_nth _ _ _ _ _ A _ _ _ H1 H1') as [_ K].
    split; [cbn; apply forall2_put; [exact A|now split]|]. split; [exact B|]. split; [exact C|exact D].
  - apply bind_Ret in H as (w2 & H1 & H). inv_Ret H. apply bind_Ret in H' as (w2' & H1' & H'). inv_Ret H'. eapply past_conf; [|exact S|exact H1|exact H1']; intros; first [now apply access_enable|now apply access_limits].
  - apply bind_Ret in H as (w2 & H1 & H). inv_Ret H. apply bind_Ret in H' as (w2' & H1' & H'). inv_Ret H'. eapply past_conf; [|exact S|exact H1|exact H1']; intros; first [now apply access_enable|now apply access_limits].
  - apply bind_Ret in H as (w2 & H1 & H). inv_Ret H. apply bind_Ret in H' as (w2' & H1' & H'). inv_Ret H'. eapply past_add; eauto.
  - apply bind_Ret in H as (w2 & H1 & H). inv_Ret H. apply bind_Ret in H1 as (x & H1 & H). apply Ret_inj in H as <-.
    apply bind_Ret in H' as (w2 & H1' & H'). inv_Ret H'. apply bind_Ret in H1' as (x' & H1' & H'). apply Ret_inj in H' as <-.
    split; [exact A|]. split; [exact B|]. split; [|exact D]. cbn. apply forall2_put; [exact C|]. apply same_after_add.
    apply deref_Ret in H1, H1'. eapply forall2_nth; eauto.
  - apply bind_Ret in H as (w2 & H1 & H). inv_Ret H. apply bind_Ret in H1 as (x & H1 & H). apply Ret_inj in H as <-.
    apply bind_Ret in H' as (w2 & H1' & H'). inv_Ret H'. apply bind_Ret in H1' as (x' & H1' & H'). apply Ret_inj in H' as <-.
    split; [exact A|]. split; [exact B|]. split; [|exact D]. cbn. apply forall2_put; [exact C|]. apply same_after_default.
    apply deref_Ret in H1, H1'. eapply forall2_nth; eauto.
  - inv_Ret H. inv_Ret H'. split; [exact A|]. split; [cbn; now rewrite B|]. split; [exact C|exact D].
  - apply bind_Ret in H as (ds & H1 & H). apply bind_Ret in H as ([ds' ok] & H2 & H). inv_Ret H. rewrite <- B, H1 in H'. cbn [bind] in H'.
    rewrite H2 in H'. cbn [bind] in H'. inv_Ret H'. split; [exact A|]. split; [cbn; now rewrite B|]. split; [exact C|exact D].
  - apply bind_Ret in H as (w2 & H1 & H). inv_Ret H. apply bind_Ret in H1 as (ds & H1 & H). 
    apply bind_Ret in H' as (w2' & H1' & H'). inv_Ret H'. rewrite <- B, H1 in H1'. cbn [bind] in H1'. eapply past_execute; eauto.
  - apply bind_Ret in H as (x & H1 & H). apply bind_Ret in H' as (x' & H1' & H'). apply deref_Ret in H1, H1'.
    destruct (forall2_nth _ _ _ _ _ A _ _ _ H1 H1') as [J _]. rewrite <- J in H'. eapply past_new; eauto.
  - eapply past_new; eauto.
  - change (wstep f O (WCall k o) w = Ret (w1, b)) in H. change (wstep f O (WCall k o) w' = Ret (w1', b')) in H'.
    apply past_call in H as (A1 & B1 & C1 & D1), H' as (A1' & B1' & C1' & D1'). unfold same_but_past. rewrite A1, A1', B1, B1', C1, C1'.
    fold (pointers w1). fold (pointers w1'). rewrite D1, D1'. exact S.
Qed.
Lemma pointers_nth : forall w w' k h h', pointers w = pointers w' -> nth_error (w_txns w) k = Some h -> nth_error (w_txns w') k = Some h' ->
  ht_eng h = ht_eng h' /\ ht_set h = ht_set h'.
Proof.
  intros w w' k h h' P H H'. unfold pointers in P. apply (f_equal (fun l => nth_error l k)) in P. rewrite !nth_error_map, H, H' in P.
  cbn in P. injection P as P1 P2. now split.
Qed.
Lemma past_views : forall f O k os w w' l l', same_but_past m w w' -> in_force f O k os w l -> in_force f O k os w' l' ->
  Forall (fun c => no_return m (snd (fst c))) l -> Forall2 (same_view m) l l'.
Proof.
  intros f O k os w w' l l' S I. revert w' l' S.
  induction I as [w|o os w w1 b h x rs l H1 H2 H3 H4 I IH|o os w w1 b l N H I IH]; intros w' l' S I' F.
  - inversion I'; subst. constructor.
  - inversion I' as [|o0 os0 w0 w1' b' h' x' rs' l0 H1' H2' H3' H4' I0|o0 os0 w0 w1' b' l0 N' H' I0]; subst; [|exfalso; eapply N'; reflexivity].
    inversion F as [|c0 l1 F1 F2]. subst. constructor.
    + pose proof S as (A & B & C & D). destruct (pointers_nth _ _ _ _ _ D H1 H1') as [E1 E2]. rewrite <- E1 in H2'.
      destruct (forall2_nth _ _ _ _ _ A _ _ _ H2 H2') as [_ K].
      rewrite <- E2 in H3'. split; [reflexivity|]. split; [exact K|]. split; [|exact F1]. eapply forall2_nth; [exact C|exact H3|exact H3'].
    + eapply IH; [|exact I0|exact F2]. eapply past_step; eauto.
  - inversion I' as [|o0 os0 w0 w1' b' h' x' rs' l0 H1' H2' H3' H4' I0|o0 os0 w0 w1' b' l0 N' H' I0]; subst; [exfalso; eapply N; reflexivity|].
    eapply IH; [|exact I0|exact F]. eapply past_step; eauto.
Qed.
End Past.
(** Programs started in two states that differ only in rules of phases up to [m], and in
    how far the other transactions are: a transaction that has reached phase [m] gets the
    same answers. *)
Theorem C30_programs_past_rules : forall f O m k os w w' h w1 bl w1' bl', same_but_past m w w' ->
  nth_error (w_txns w) k = Some h -> nth_error (w_txns w') k = Some h -> m <= t_phase (ht_txn h) -> never_returns f O m k os w ->
  wrun f O os w = Ret (w1, bl) -> wrun f O os w' = Ret (w1', bl') ->
  heard k os bl = heard k os bl' /\ nth_error (w_txns w1) k = nth_error (w_txns w1') k.
Proof.
  intros f O m k os w w' h w1 bl w1' bl' S E E' P N H H'.
  destruct (C41_answers_of_own_calls f O k os w w1 bl h H E) as (l & t' & F & _ & U & Q).
  destruct (C41_answers_of_own_calls f O k os w' w1' bl' h H' E') as (l' & t'' & F' & _ & U' & Q').
  rewrite (C30_past_rules_do_not_matter f O m l l') in U; [|exact P|eapply past_views; eauto].
  rewrite U in U'. apply Ret_inj in U'. injection U' as -> ->. split; [reflexivity|congruence].
Qed.
Lemma add_past : forall m l rs, Forall (fun r => r_phase r <= m) l -> same_after m rs (add_rules l rs).
Proof.
  intros m l rs F. split; [now rewrite add_rules_default|]. intros q Q. rewrite add_rules_phase.
  destruct ((1 <=? q) && (q <=? 6)); [|now rewrite app_nil_r]. replace (List.filter _ _) with (@nil rule); [now rewrite app_nil_r|].
  symmetry. clear - F Q. induction F as [|r l F1 F2 IH]; [reflexivity|]. cbn [List.filter]. destruct (Z.eqb_spec (r_phase r) q); [lia|exact IH].
Qed.
Lemma put_past : forall m j rs rs' l, nth_error l j = Some rs -> same_after m rs rs' -> Forall2 (same_after m) l (put j rs' l).
Proof.
  intros m j rs rs' l. revert j. induction l as [|x l IH]; intros [|j] E S; cbn in *; try discriminate.
  - injection E as ->. constructor; [exact S|]. clear. induction l; constructor; auto using same_after_refl.
  - constructor; [apply same_after_refl|]. now apply IH.
Qed.
Lemma engs_alike : forall l, Forall2 (fun x x' => he_set x = he_set x' /\ same_access (he_conf x) (he_conf x')) l l.
Proof. induction l; constructor; [now repeat split|auto]. Qed.
(** Rules added to the rule set of a transaction under way, for phases it has reached or
    passed, do not change what it answers. *)
Theorem C30_late_rules_not_run : forall f O m k j rules os w h w1 bl w1' bl', nth_error (w_txns w) k = Some h ->
  m <= t_phase (ht_txn h) -> Forall (fun r => r_phase r <= m) rules -> never_returns f O m k os w ->
  wrun f O os w = Ret (w1, bl) -> wrun f O (WAddRules j rules :: os) w = Ret (w1', bl') ->
  heard k os bl = heard k (WAddRules j rules :: os) bl' /\ nth_error (w_txns w1) k = nth_error (w_txns w1') k.
Proof.
  intros f O m k j rules os w h w1 bl w1' bl' E P F N H H'. cbn [wrun wstep] in H'. apply bind_Ret in H' as ([w2 b] & X & H').
  apply bind_Ret in H' as ([w3 bl3] & H2 & H'). inv_Ret H'. apply bind_Ret in X as (w4 & X & Y). inv_Ret Y.
  apply bind_Ret in X as (rs & X1 & X). apply Ret_inj in X as <-. apply deref_Ret in X1. cbn [heard].
  eapply (C30_programs_past_rules f O m k os w (put_set j (add_rules rules rs) w)); [|exact E|exact E|exact P|exact N|exact H|exact H2].
  split; [apply engs_alike|]. split; [reflexivity|]. split; [|reflexivity]. cbn. eapply put_past; [exact X1|now apply add_past].
Qed.
(** A program in which rules for phases 2 and 3 arrive while two transactions are under
    way: the first has processed phase 2 and meets only the rule for phase 3, the second
    meets both; a third, started after the engine was given a new rule set, meets none. *)
Definition late_rule (p : Z) (s : Z) : rule := demo_rule p [VScalar SRequestMethod] (OpRx (B "post")) [AStatus s; ADeny] false [].
Definition late_program : list wop :=
  [WNewEngine; WNewTransaction true 0; WNewTransaction true 0;
   WCall 0 (OpRequestURL None (B "POST") []); WCall 1 (OpRequestURL None (B "POST") []); WCall 0 (OpRequestHeader []);
   WAddSecRule 0 [late_rule 2 501]; WCall 0 (OpRequestHeader []); WCall 0 OpResult; WCall 1 (OpRequestHeader []);
   WAddSecRule 0 [late_rule 3 503]; WNewSet; WPoint 0 (Some 1%nat); WNewTransaction true 0; WCall 2 (OpRequestURL None (B "POST") []);
   WCall 0 OpRequestBody; WCall 2 OpRequestBody; WCall 0 OpResult; WCall 1 OpResult; WCall 2 OpResult].
Definition statuses (bl : list obs) : list Z := flat_map (fun b => match b with ObsResult i => [i_status i] | _ => [] end) bl.
Example C41_late_program : exists w bl, wrun 9 (demo MpErr) late_program no_world = Ret (w, bl) /\
  statuses (heard 0 late_program bl) = [200; 503] /\ statuses (heard 1 late_program bl) = [501] /\ statuses (heard 2 late_program bl) = [200] /\
  statuses (heard 1 (alone 1 late_program) (match wrun 9 (demo MpErr) (alone 1 late_program) no_world with Ret (_, b) => b | _ => [] end)) = [501].
Proof. eexists _, _. split; [vm_compute; reflexivity|]. repeat split; vm_compute; reflexivity. Qed.
(** The hypotheses of the theorem about late rules hold at the point where the rule for
    phase 2 arrives, for the first transaction. *)
Example C30_late_rules_example :
  let os := [WCall 0 (OpRequestHeader []); WCall 0 OpRequestBody; WCall 0 OpResult] in
  exists w bl0 h, wrun 9 (demo MpErr) (firstn 6 late_program) no_world = Ret (w, bl0) /\ nth_error (w_txns w) 0 = Some h /\
    2 <= t_phase (ht_txn h) /\ Forall (fun r => r_phase r <= 2) [late_rule 2 501] /\ never_returns 9 (demo MpErr) 2 0 os w /\
    (exists w1 bl, wrun 9 (demo MpErr) os w = Ret (w1, bl)) /\
    (exists w1 bl, wrun 9 (demo MpErr) (WAddRules 0 [late_rule 2 501] :: os) w = Ret (w1, bl) /\ statuses (heard 0 (WAddRules 0 [late_rule 2 501] :: os) bl) = [200]).
Proof.
  cbv zeta. eexists _, _, _. split; [vm_compute; reflexivity|]. split; [reflexivity|]. split; [cbn; lia|].
  split; [repeat constructor; cbn; lia|]. split.
  - intros l H. apply Forall_forall. intros c _. left. lia.
  - split; [eexists _, _; vm_compute; reflexivity|]. eexists _, _. split; [vm_compute; reflexivity|]. reflexivity.
Qed.

(** ** Programs that only make calls: the runs of the other theorems *)
Lemma calls_same : forall f O os w w1 bl, only_calls os -> wrun f O os w = Ret (w1, bl) ->
  w_engs w1 = w_engs w /\ w_sets w1 = w_sets w /\ w_dires w1 = w_dires w.
Proof.
  intros f O os. induction os as [|o os IH]; intros w w1 bl C H; [inv_Ret H; now repeat split|].
  cbn [wrun] in H. apply bind_Ret in H as ([w2 b] & H1 & H). apply bind_Ret in H as ([w3 bl2] & H2 & H). inv_Ret H.
  destruct (C o (or_introl eq_refl)) as (k & c & ->). apply past_call in H1 as (A & B & D & _).
  destruct (IH w2 w3 bl2) as (A' & B' & D'); [intros o I; apply C; now right|exact H2|]. repeat split; congruence.
Qed.
Lemma in_force_calls : forall f O k os w l h x rs, only_calls os -> in_force f O k os w l -> nth_error (w_txns w) k = Some h ->
  nth_error (w_engs w) (ht_eng h) = Some x -> nth_error (w_sets w) (ht_set h) = Some rs ->
  l = map (fun o => (he_conf x, rs, o)) (calls_on k os).
Proof.
  intros f O k os w l h x rs C I. revert h.
  induction I as [w|o os w w1 b h0 x0 rs0 l H1 H2 H3 H4 I IH|o os w w1 b l N H I IH]; intros h E X R; [reflexivity| |].
  - rewrite E in H1. injection H1 as <-. rewrite X in H2. injection H2 as <-. rewrite R in H3. injection H3 as <-.
    cbn [calls_on]. rewrite Nat.eqb_refl. cbn [map]. f_equal. pose proof (past_call _ _ _ _ _ _ _ H4) as (A & _ & B & _).
    apply call_inv in H4 as (h' & x' & rs' & t' & ob & X1 & X2 & X3 & X4 & -> & ->). rewrite E in X1. injection X1 as <-.
    apply (IH ltac:(intros o' I'; apply C; now right) (HTxn (ht_eng h) (ht_set h) t')); auto.
    cbn. apply put_same. eapply nth_lt; eauto.
  - destruct (C o (or_introl eq_refl)) as (k' & c & ->). pose proof (other_keeps _ _ _ _ _ _ _ _ N H E) as E'.
    cbn [calls_on]. destruct (Nat.eqb_spec k' k) as [->|]; [exfalso; eapply N; reflexivity|].
    apply past_call in H as (A & _ & B & _). apply (IH ltac:(intros o' I'; apply C; now right) h); congruence.
Qed.
Lemma under_steps : forall f O e rs os t, under f O (map (fun o => (e, rs, o)) os) t = steps f O e rs os t.
Proof.
  intros f O e rs os. induction os as [|o os IH]; intro t; [reflexivity|]. cbn [map under steps].
  destruct (step f O e rs o t) as [[t1 b]| |]; try reflexivity. cbn [bind]. now rewrite IH.
Qed.
(** As long as a program only makes calls, each transaction answers as it does by itself
    under the settings and rules it started with: what the other theorems say about
    [steps] holds for it. *)
Theorem C41_calls_of_a_program : forall f O k os w w1 bl h x rs, only_calls os -> wrun f O os w = Ret (w1, bl) ->
  nth_error (w_txns w) k = Some h -> nth_error (w_engs w) (ht_eng h) = Some x -> nth_error (w_sets w) (ht_set h) = Some rs ->
  exists t', steps f O (he_conf x) rs (calls_on k os) (ht_txn h) = Ret (t', heard k os bl) /\
    nth_error (w_txns w1) k = Some (HTxn (ht_eng h) (ht_set h) t').
Proof.
  intros f O k os w w1 bl h x rs C H E X R. destruct (C41_answers_of_own_calls f O k os w w1 bl h H E) as (l & t' & F & _ & U & Q).
  rewrite (in_force_calls _ _ _ _ _ _ _ _ _ C F E X R), under_steps in U. now exists t'.
Qed.

(** ** Loading a text into an engine while a program runs *)
(** [Execute] changes the engine and its rule set as [execute] says, and nothing else:
    not the transactions, not other engines, not other rule sets. *)
Theorem C65_execute_in_a_program : forall i j ds w x rs, nth_error (w_engs w) i = Some x -> he_set x = Some j -> nth_error (w_sets w) j = Some rs ->
  let e' := execute ds (set_ruleset (he_conf x) rs) in
  exists w' x' rs', w_execute ds i w = Ret w' /\ nth_error (w_engs w') i = Some x' /\ nth_error (w_sets w') j = Some rs' /\
    he_set x' = Some j /\ rs' = e_ruleset e' /\ set_ruleset (he_conf x') rs' = e' /\
    w_txns w' = w_txns w /\ w_dires w' = w_dires w /\
    (forall i', i' <> i -> nth_error (w_engs w') i' = nth_error (w_engs w) i') /\
    (forall j', j' <> j -> nth_error (w_sets w') j' = nth_error (w_sets w) j').
Proof.
  intros i j ds. cbv zeta. unfold execute. induction ds as [|d ds IH]; intros w x rs X J R.
  - cbn [fold_left w_execute]. exists w, x, rs. repeat split; auto.
  - destruct d as [r|v|v|v]; cbn [w_execute fold_left].
    + unfold w_add_sec_rule, deref at 1. rewrite X. cbn [bind]. rewrite J. unfold deref. rewrite R. cbn [bind].
      destruct (IH (put_set j (add_rules [r] rs) w) x (add_rules [r] rs)) as (w' & x' & rs' & H1 & H2 & H3 & H4 & H5 & H6 & H7 & H8 & H9 & H10);
        [exact X|exact J|cbn; apply put_same; eapply nth_lt; eauto|].
      exists w', x', rs'. repeat split; auto; intros j' N; rewrite H10 by exact N; cbn; apply put_other; congruence.
    + unfold with_conf, deref. rewrite X. cbn [bind].
      destruct (IH (put_eng i (HEng (execute_dire (IReqBody v) (he_conf x)) (he_set x)) w) (HEng (execute_dire (IReqBody v) (he_conf x)) (he_set x)) rs)
        as (w' & x' & rs' & H1 & H2 & H3 & H4 & H5 & H6 & H7 & H8 & H9 & H10); [cbn; apply put_same; eapply nth_lt; eauto|exact J|exact R|].
      exists w', x', rs'. repeat split; auto; intros i' N; rewrite H9 by exact N; cbn; apply put_other; congruence.
    + unfold with_conf, deref. rewrite X. cbn [bind].
      destruct (IH (put_eng i (HEng (execute_dire (IResBody v) (he_conf x)) (he_set x)) w) (HEng (execute_dire (IResBody v) (he_conf x)) (he_set x)) rs)
        as (w' & x' & rs' & H1 & H2 & H3 & H4 & H5 & H6 & H7 & H8 & H9 & H10); [cbn; apply put_same; eapply nth_lt; eauto|exact J|exact R|].
      exists w', x', rs'. repeat split; auto; intros i' N; rewrite H9 by exact N; cbn; apply put_other; congruence.
    + unfold with_conf, deref. rewrite X. cbn [bind].
      destruct (IH (put_eng i (HEng (execute_dire (IRuleEng v) (he_conf x)) (he_set x)) w) (HEng (execute_dire (IRuleEng v) (he_conf x)) (he_set x)) rs)
        as (w' & x' & rs' & H1 & H2 & H3 & H4 & H5 & H6 & H7 & H8 & H9 & H10); [cbn; apply put_same; eapply nth_lt; eauto|exact J|exact R|].
      assert (SR : set_ruleset (execute_dire (IRuleEng v) (he_conf x)) rs = execute_dire (IRuleEng v) (set_ruleset (he_conf x) rs)).
      { cbn [execute_dire]. destruct (v =? TriBoolTrue); [reflexivity|]. destruct (v =? TriBoolFalse); [reflexivity|]. now destruct (v =? TriBoolElse). }
      cbn [he_conf] in H5, H6. rewrite SR in H5, H6.
      exists w', x', rs'. repeat split; auto; intros i' N; rewrite H9 by exact N; cbn; apply put_other; congruence.
Qed.
Example C65_execute_in_a_program_example :
  let text := B "SecRequestBodyAccess On" ++ [LF] ++ B "SecRule REQUEST_METHOD ""POST"" ""id:7,phase:2,deny""" in
  let os := [WNewEngine; WNewEngine; WNewTransaction true 1; WNewDires; WAddText 0 0 text; WExecute 0 1] in
  exists w bl x0 x1 s0 s1, wrun 500 (demo MpErr) os no_world = Ret (w, bl) /\ last bl WNone = WNone /\
    w_engs w = [x0; x1] /\ w_sets w = [s0; s1] /\ e_reqaccess (he_conf x0) = false /\ e_reqaccess (he_conf x1) = true /\
    phase_rules s0 2 = [] /\ map r_id (phase_rules s1 2) = [7].
Proof. cbv zeta. eexists _, _, _, _, _, _. split; [vm_compute; reflexivity|]. now repeat split. Qed.

(** A text loaded into the engine of a transaction under way, all of whose rules are for
    phases the transaction has reached or passed and which does not switch the access to
    bodies, does not change what the transaction answers. *)
Lemma execute_past : forall m i j ds w x rs w', nth_error (w_engs w) i = Some x -> he_set x = Some j -> nth_error (w_sets w) j = Some rs ->
  Forall (fun d => match d with IRule r => r_phase r <= m | IRuleEng _ => True | _ => False end) ds ->
  w_execute ds i w = Ret w' -> same_but_past m w w'.
Proof.
  assert (TR : forall m a b c, same_but_past m a b -> same_but_past m b c -> same_but_past m a c).
  { intros m a b c (A & B & C & D) (A' & B' & C' & D'). split; [|split; [congruence|split; [|congruence]]].
    - clear - A A'. revert A'. generalize (w_engs c). induction A as [|x y l l' [H1 (H2 & H3 & H4)] A IH]; intros l2 A'; inversion A' as [|y' z l3 l4 [G1 (G2 & G3 & G4)] A2]; subst; constructor; [|auto].
      split; [congruence|]. repeat split; congruence.
    - clear - C C'. revert C'. generalize (w_sets c). induction C as [|x y l l' [H1 H2] A IH]; intros l2 A'; inversion A' as [|y' z l3 l4 [G1 G2] A2]; subst; constructor; [|auto].
      split; [congruence|]. intros q Q. now rewrite H2, G2. }
  intros m i j ds. induction ds as [|d ds IH]; intros w x rs w' X J R F H.
  - apply Ret_inj in H as <-. split; [apply engs_alike|]. split; [reflexivity|]. split; [|reflexivity].
    clear. induction (w_sets w); constructor; auto using same_after_refl.
  - inversion F as [|d0 l0 F1 F2]. subst. destruct d as [r|v|v|v]; try contradiction; cbn [w_execute] in H.
    + unfold w_add_sec_rule, deref at 1 in H. rewrite X in H. cbn [bind] in H. rewrite J in H. unfold deref in H. rewrite R in H. cbn [bind] in H.
      eapply TR; [|eapply (IH (put_set j (add_rules [r] rs) w) x (add_rules [r] rs)); eauto; cbn; apply put_same; eapply nth_lt; eauto].
      split; [apply engs_alike|]. split; [reflexivity|]. split; [|reflexivity]. cbn. eapply put_past; [exact R|]. apply (add_past m [r]). now constructor.
    + unfold with_conf, deref in H. rewrite X in H. cbn [bind] in H.
      eapply TR; [|eapply IH; [| | |exact F2|exact H]; [cbn; apply put_same; eapply nth_lt; eauto|exact J|exact R]].
      split; [|split; [reflexivity|split; [|reflexivity]]].
      * cbn. assert (K : alike_eng x (HEng (execute_dire (IRuleEng v) (he_conf x)) (he_set x))).
        { split; [reflexivity|]. cbn [he_conf execute_dire]. destruct (v =? TriBoolTrue); [now repeat split|].
          destruct (v =? TriBoolFalse); [now repeat split|]. destruct (v =? TriBoolElse); now repeat split. }
        clear - X K. revert i X. induction (w_engs w) as [|y l IH]; intros [|i] X; cbn in *; try discriminate.
        -- injection X as ->. constructor; [exact K|apply engs_alike].
        -- constructor; [now repeat split|]. now apply IH.
      * cbn. clear. induction (w_sets w); constructor; auto using same_after_refl.
Qed.
Theorem C30_late_text_not_run : forall f O m k d i j x rs ds os w h w1 bl w1' bl', nth_error (w_txns w) k = Some h ->
  nth_error (w_dires w) d = Some ds -> nth_error (w_engs w) i = Some x -> he_set x = Some j -> nth_error (w_sets w) j = Some rs ->
  m <= t_phase (ht_txn h) ->
  Forall (fun d => match d with IRule r => r_phase r <= m | IRuleEng _ => True | _ => False end) ds -> never_returns f O m k os w ->
  wrun f O os w = Ret (w1, bl) -> wrun f O (WExecute d i :: os) w = Ret (w1', bl') ->
  heard k os bl = heard k (WExecute d i :: os) bl' /\ nth_error (w_txns w1) k = nth_error (w_txns w1') k.
Proof.
  intros f O m k d i j x rs ds os w h w1 bl w1' bl' E D X J R P F N H H'. cbn [wrun wstep] in H'. apply bind_Ret in H' as ([w2 b] & Y & H').
  apply bind_Ret in H' as ([w3 bl3] & H2 & H'). inv_Ret H'. apply bind_Ret in Y as (w4 & Y & Z). inv_Ret Z.
  unfold deref in Y. rewrite D in Y. cbn [bind] in Y. cbn [heard].
  pose proof (C65_execute_in_a_program i j ds w x rs X J R) as (w' & x' & rs' & Q & _ & _ & _ & _ & _ & QT & _). cbv zeta in Q. rewrite Y in Q. apply Ret_inj in Q. subst w4.
  assert (E' : nth_error (w_txns w') k = Some h) by (rewrite QT; exact E).
  eapply (C30_programs_past_rules f O m k os w w'); [|exact E|exact E'|exact P|exact N|exact H|exact H2].
  eapply execute_past; eauto.
Qed.
Example C30_late_text_example :
  let text := B "SecRuleEngine On" ++ [LF] ++ B "SecRule REQUEST_METHOD ""POST"" ""id:7,phase:2,deny""" in
  let pre := [WNewEngine; WNewDires; WAddText 0 0 text; WNewTransaction true 0; WCall 0 (OpRequestURL None (B "POST") []); WCall 0 (OpRequestHeader [])] in
  let os := [WCall 0 OpRequestBody; WCall 0 OpResult; WNewTransaction true 0; WCall 1 (OpRequestURL None (B "POST") []); WCall 1 OpRequestBody; WCall 1 OpResult;
             WNewTransaction true 0; WCall 2 (OpRequestURL None (B "POST") []); WCall 2 (OpRequestHeader []); WCall 2 OpResult] in
  exists w bl0 h ds x rs, wrun 500 (demo MpErr) pre no_world = Ret (w, bl0) /\ nth_error (w_txns w) 0 = Some h /\ nth_error (w_dires w) 0 = Some ds /\
    nth_error (w_engs w) 0 = Some x /\ he_set x = Some 0%nat /\ nth_error (w_sets w) 0 = Some rs /\ 2 <= t_phase (ht_txn h) /\
    Forall (fun d => match d with IRule r => r_phase r <= 2 | IRuleEng _ => True | _ => False end) ds /\ never_returns 500 (demo MpErr) 2 0 os w /\
    (exists w1 bl, wrun 500 (demo MpErr) os w = Ret (w1, bl)) /\
    (exists w1 bl, wrun 500 (demo MpErr) (WExecute 0 0 :: os) w = Ret (w1, bl) /\
       statuses (heard 0 (WExecute 0 0 :: os) bl) = [200] /\ statuses (heard 1 (WExecute 0 0 :: os) bl) = [200] /\ statuses (heard 2 (WExecute 0 0 :: os) bl) = [403]).
Proof.
  cbv zeta. eexists _, _, _, _, _, _. split; [vm_compute; reflexivity|]. repeat (split; [reflexivity|]).
  split; [repeat constructor; cbn; lia|]. split; [intros l H; apply Forall_forall; intros c _; left; lia|].
  split; [eexists _, _; vm_compute; reflexivity|]. eexists _, _. split; [vm_compute; reflexivity|]. repeat split; vm_compute; reflexivity.
Qed.

(** ** C68: the limits of a transaction are those its engine had when it was made *)
Definition limits_of (t : txn) : Z * Z * Z * Z :=
  (b_memlimit (t_reqbody t), b_filelimit (t_reqbody t), b_memlimit (t_resbody t), b_filelimit (t_resbody t)).
Definition opened (t : txn) : Prop := b_readed (t_reqbody t) = false /\ b_readed (t_resbody t) = false.
Lemma step_limits : forall f O e rs o t t' b, opened t -> step f O e rs o t = Ret (t', b) -> limits_of t' = limits_of t /\ opened t'.
Proof.
  intros f O e rs o t t' b [OP1 OP2] H.
  assert (SD : forall a c, reads_ok (t_reqbody a) (t_reqbody c) -> reads_ok (t_resbody a) (t_resbody c) -> opened a -> limits_of c = limits_of a /\ opened c).
  { clear. intros a c (A & _) (B & _) [O1 O2]. unfold consts in *. injection A as A1 A2 A3. injection B as B1 B2 B3. unfold limits_of, opened. split; [congruence|]. split; congruence. }
  destruct (op_phase o) as [p|] eqn:Q.
  - rewrite (step_phase _ _ _ _ _ _ _ Q) in H. apply bind_Ret in H as (t1 & H1 & H). inv_Ret H. apply phase_works in H1.
    assert (G : t_reqbody (given o t) = t_reqbody t /\ t_resbody (given o t) = t_resbody t) by (destruct o; now split). destruct G as [G1 G2].
    destruct H1 as [[_ ->]|[_ [W _]]].
    + unfold limits_of, opened. rewrite G1, G2. now repeat split.
    + apply works_same in W as (_ & _ & W1 & W2). unfold jump_to_phase in W1, W2. cbn [with_pos t_reqbody t_resbody] in W1, W2. rewrite G1 in W1. rewrite G2 in W2.
      apply SD; auto. now split.
  - destruct o; try discriminate; cbn [step] in H.
    + inv_Ret H. now repeat split.
    + apply bind_Ret in H as ([[b1 n] er] & H1 & H). inv_Ret H. apply buf_write_len in H1 as (C & _); [|exact OP1].
      unfold consts in C. injection C as C1 C2 C3. unfold limits_of, opened. cbn. rewrite C1, C2, C3. split; [reflexivity|now split].
    + apply bind_Ret in H as ([[b1 n] er] & H1 & H). inv_Ret H. apply buf_write_len in H1 as (C & _); [|exact OP2].
      unfold consts in C. injection C as C1 C2 C3. unfold limits_of, opened. cbn. rewrite C1, C2, C3. split; [reflexivity|now split].
    + destruct (result t) as [i t1] eqn:E. inv_Ret H. unfold result in E. injection E as _ <-.
      destruct (t_abort _); now repeat split.
    + inv_Ret H. now repeat split.
Qed.
Lemma run_limits : forall f O k os w w1 bl h, wrun f O os w = Ret (w1, bl) -> nth_error (w_txns w) k = Some h -> opened (ht_txn h) ->
  exists h', nth_error (w_txns w1) k = Some h' /\ limits_of (ht_txn h') = limits_of (ht_txn h) /\ ht_eng h' = ht_eng h /\ ht_set h' = ht_set h.
Proof.
  intros f O k os w w1 bl h H E OP. destruct (C41_answers_of_own_calls f O k os w w1 bl h H E) as (l & t' & _ & _ & U & Q).
  exists (HTxn (ht_eng h) (ht_set h) t'). split; [exact Q|]. split; [|now split]. cbn [ht_txn]. clear - U OP.
  remember (heard k os bl) as ob eqn:X. clear X. revert ob U. generalize (ht_txn h) as t, OP. clear OP.
  induction l as [|[[e rs] o] l IH]; intros t OP ob U; cbn [under] in U; [inv_Ret U; reflexivity|].
  apply bind_Ret in U as ([t1 b] & S1 & U). apply bind_Ret in U as ([t2 bl2] & S2 & U). inv_Ret U.
  apply step_limits in S1 as [L O1]; [|exact OP]. rewrite <- L. eapply IH; eauto.
Qed.
(** Whatever happens afterwards to the limits of the engine, to its rule set or to
    anything else, a transaction keeps its engine, its rule set and the limits it got. *)
Theorem C68_limits_are_those_of_creation : forall f O i os w w0 w1 k bl, wstep f O (WNewTransaction true i) w = Ret (w0, WNew k) ->
  wrun f O os w0 = Ret (w1, bl) ->
  exists x h, nth_error (w_engs w) i = Some x /\ nth_error (w_txns w1) k = Some h /\ ht_eng h = i /\ he_set x = Some (ht_set h) /\
    limits_of (ht_txn h) = (e_reqmem (he_conf x), e_reqlimit (he_conf x), e_reslimit (he_conf x), e_reslimit (he_conf x)).
Proof.
  intros f O i os w w0 w1 k bl H R. cbn [wstep] in H. apply bind_Ret in H as (x & X & H). unfold w_new_transaction in H.
  destruct (he_set x) as [j|] eqn:J; [|discriminate]. apply bind_Ret in H as (x' & X' & H). rewrite X in X'. apply Ret_inj in X' as <-.
  apply bind_Ret in H as (rs & _ & H). inv_Ret H. apply deref_Ret in X.
  destruct (run_limits f O (length (w_txns w)) os _ w1 bl (HTxn i j (new_txn (he_conf x))) R) as (h & Q & L & E1 & E2).
  - cbn. rewrite nth_error_app2, Nat.sub_diag by lia. reflexivity.
  - now split.
  - exists x, h. split; [exact X|]. split; [exact Q|]. split; [exact E1|]. split; [now rewrite E2|]. rewrite L. reflexivity.
Qed.
Example C68_limits_example :
  let post := [WCall 0 (OpAppendRequestBody (B "0123456789") NoFault)] in
  (exists w0, wstep 9 (demo MpErr) (WNewTransaction true 0) (World [HEng (set_limits true true 12 12 12 new_engine) (Some 0%nat)] [new_ruleset] [] []) = Ret (w0, WNew 0) /\
     exists w1, wrun 9 (demo MpErr) (WLimits 0 true true 5 5 5 :: post ++ post) w0 = Ret (w1, [WNone; WAnswer (ObsErr None); WAnswer (ObsErr (Some ErrOutOfFileLimit))])).
Proof. cbv zeta. eexists. split; [reflexivity|]. eexists. vm_compute. reflexivity. Qed.

Print Assumptions C41_other_transactions_do_not_matter.
Print Assumptions C41_program_returns.
Print Assumptions C41_answers_of_own_calls.
Print Assumptions C41_calls_of_a_program.
Print Assumptions C30_past_rules_do_not_matter.
Print Assumptions C30_programs_past_rules.
Print Assumptions C30_late_rules_not_run.
Print Assumptions C30_late_text_not_run.
Print Assumptions C65_execute_in_a_program.
Print Assumptions C68_limits_are_those_of_creation.
