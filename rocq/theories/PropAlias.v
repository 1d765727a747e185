(** Results handed out to callers share their log with the transaction: what that can and cannot change. *)
From Verif Require Import Base BaseFacts GoStrings Utils Buffer BufferFacts Types Transforms Operators Transaction Variables Rules Engine
  SpecText SpecVars VarFacts SpecRules RuleFacts OrderFacts TxnFacts SpecTxn Slices SpecAlias Witness PropRules.
From Coq Require Import Lia.
Open Scope nat_scope.

(** ** Arrays *)
Lemma set_at_length : forall A n (x : A) l, n < length l -> length (set_at n x l) = length l.
Proof. intros A n x l H. unfold set_at. rewrite app_length. cbn [length]. rewrite firstn_length, skipn_length. lia. Qed.
Lemma nth_set_same : forall A n (x d : A) l, n < length l -> nth n (set_at n x l) d = x.
Proof.
  intros A n x d l H. unfold set_at. rewrite app_nth2; rewrite firstn_length; [|lia].
  now replace (n - Nat.min n (length l)) with 0 by lia.
Qed.
Lemma nth_set_other : forall A n m (x d : A) l, n < length l -> m <> n -> nth m (set_at n x l) d = nth m l d.
Proof.
  intros A n m x d l H N. unfold set_at. destruct (Nat.lt_ge_cases m n) as [L|L].
  - rewrite app_nth1 by (rewrite firstn_length; lia). rewrite <- (firstn_skipn n l) at 2.
    rewrite app_nth1; [reflexivity|]. rewrite firstn_length. lia.
  - rewrite app_nth2 by (rewrite firstn_length; lia). rewrite firstn_length.
    replace (m - Nat.min n (length l)) with (S (m - S n)) by lia. cbn [nth].
    rewrite <- (firstn_skipn (S n) l) at 2. rewrite app_nth2; rewrite firstn_length; [|lia].
    f_equal. lia.
Qed.
Lemma nth_error_set_same : forall A n (x : A) l, n < length l -> nth_error (set_at n x l) n = Some x.
Proof.
  intros A n x l H. unfold set_at. rewrite nth_error_app2; rewrite firstn_length; [|lia].
  now replace (n - Nat.min n (length l)) with 0 by lia.
Qed.
Lemma nth_error_set_other : forall A n m (x : A) l, n < length l -> m <> n -> nth_error (set_at n x l) m = nth_error l m.
Proof.
  intros A n m x l H N. unfold set_at. destruct (Nat.lt_ge_cases m n) as [L|L].
  - rewrite nth_error_app1 by (rewrite firstn_length; lia). rewrite <- (firstn_skipn n l) at 2.
    rewrite nth_error_app1; [reflexivity|]. rewrite firstn_length. lia.
  - rewrite nth_error_app2 by (rewrite firstn_length; lia). rewrite firstn_length.
    replace (m - Nat.min n (length l)) with (S (m - S n)) by lia. cbn [nth_error].
    rewrite <- (firstn_skipn (S n) l) at 2. rewrite nth_error_app2; rewrite firstn_length; [|lia].
    f_equal. lia.
Qed.
Lemma firstn_set : forall A n m (x : A) l, n < length l -> m <= n -> firstn m (set_at n x l) = firstn m l.
Proof.
  intros A n m x l H L. unfold set_at. rewrite firstn_app, firstn_firstn, firstn_length.
  replace (m - Nat.min n (length l)) with 0 by lia. rewrite firstn_O, app_nil_r. f_equal. lia.
Qed.
Lemma firstn_set_snoc : forall A n (x : A) l, n < length l -> firstn (S n) (set_at n x l) = firstn n l ++ [x].
Proof.
  intros A n x l H. unfold set_at. rewrite firstn_app, firstn_firstn, firstn_length.
  replace (S n - Nat.min n (length l)) with 1 by lia. replace (Nat.min (S n) n) with n by lia. reflexivity.
Qed.

Definition apart (s q : slice) : Prop := s_cap s = 0 \/ s_cap q = 0 \/ s_arr s <> s_arr q.
Definition wf (h : heap) (s : slice) : Prop :=
  s_len s <= s_cap s /\ (s_cap s = 0 \/ s_arr s < length h /\ length (array h s) = s_cap s).

Lemma apart_sym : forall s q, apart s q -> apart q s.
Proof. unfold apart. intros s q [H|[H|H]]; auto. Qed.
Lemma wf_nil : forall h, wf h nil_slice.
Proof. intros h. split; [simpl; lia|now left]. Qed.
Lemma apart_nil : forall s, apart s nil_slice.
Proof. intros s. right. now left. Qed.
Lemma elems_nil : forall h, elems h nil_slice = [].
Proof. reflexivity. Qed.
Lemma elems_none : forall h s, wf h s -> s_cap s = 0 -> elems h s = [].
Proof. intros h s [L _] C. unfold elems. replace (s_len s) with 0 by lia. reflexivity. Qed.
Lemma elems_len : forall h s, wf h s -> length (elems h s) = s_len s.
Proof.
  intros h s W. destruct W as [L [C|[A C]]].
  - unfold elems. replace (s_len s) with 0 by lia. reflexivity.
  - unfold elems. rewrite firstn_length. lia.
Qed.

Lemma wf_set : forall h a y q, a < length h -> length y = length (nth a h []) -> wf h q -> wf (set_at a y h) q.
Proof.
  intros h a y q A Y [L D]. split; [exact L|]. destruct D as [D|[D1 D2]]; [now left|right].
  rewrite set_at_length by exact A. split; [exact D1|]. unfold array in *.
  destruct (Nat.eq_dec (s_arr q) a) as [E|N]; [subst a; rewrite nth_set_same by exact D1; congruence|].
  now rewrite nth_set_other.
Qed.
Lemma elems_set_apart : forall h s y q, wf h q -> s_arr s < length h -> s_cap s <> 0 -> apart q s ->
  elems (set_at (s_arr s) y h) q = elems h q.
Proof.
  intros h s y q W A C [P|[P|P]].
  - rewrite elems_none; [|destruct W; split; [assumption|now left]|exact P]. now rewrite elems_none.
  - contradiction.
  - unfold elems, array. now rewrite nth_set_other.
Qed.

Record appended (h : heap) (s : slice) (x : bs) (h' : heap) (s' : slice) : Prop := {
  ap_wf : wf h' s';
  ap_elems : elems h' s' = elems h s ++ [x];
  ap_len : s_len s' = S (s_len s);
  ap_keep : forall q, wf h q -> apart q s \/ s_len q <= s_len s -> elems h' q = elems h q;
  ap_wfs : forall q, wf h q -> wf h' q;
  ap_apart : forall q, wf h q -> apart q s -> apart q s';
  ap_where : (s_arr s' = s_arr s /\ s_cap s' = s_cap s) \/ forall q, wf h q -> apart q s'
}.
Lemma append_ok : forall grow h s x, wf h s -> appended h s x (fst (append grow h s x)) (snd (append grow h s x)).
Proof.
  intros grow h s x W. unfold append. destruct (Nat.ltb_spec (s_len s) (s_cap s)) as [R|R]; cbn [fst snd].
  - destruct W as [L [C|[A C]]]; [lia|].
    assert (Y : length (set_at (s_len s) x (array h s)) = length (nth (s_arr s) h [])) by (apply set_at_length; fold (array h s); lia).
    constructor; cbn [s_arr s_len s_cap].
    + split; cbn [s_arr s_len s_cap]; [lia|right]. rewrite set_at_length by exact A. split; [exact A|].
      unfold array. cbn [s_arr]. rewrite nth_set_same by exact A. etransitivity; [exact Y|exact C].
    + unfold elems, array. cbn [s_arr s_len]. rewrite nth_set_same by exact A. apply firstn_set_snoc. fold (array h s). lia.
    + reflexivity.
    + intros q Q P. destruct (Nat.eq_dec (s_arr q) (s_arr s)) as [E|N].
      * destruct (Nat.eq_dec (s_cap q) 0) as [QC|QC].
        { unfold elems. destruct Q as [QL _]. replace (s_len q) with 0 by lia. reflexivity. }
        destruct P as [[P|[P|P]]|P]; [contradiction|lia|contradiction|].
        unfold elems, array. rewrite E, nth_set_same by exact A. apply firstn_set; fold (array h s); lia.
      * apply elems_set_apart; [exact Q|exact A|lia|now right; right].
    + intros q Q. now apply wf_set.
    + intros q Q [P|[P|P]]; [now left|right; left; exact P|right; right; exact P].
    + left. now split.
  - set (c := Nat.max (S (s_len s)) (grow (s_cap s))).
    assert (E : length (elems h s) = s_len s) by now apply elems_len.
    constructor; cbn [s_arr s_len s_cap].
    + split; cbn [s_arr s_len s_cap]; [unfold c; lia|right]. rewrite app_length. cbn [length]. split; [lia|].
      unfold array. cbn [s_arr]. rewrite app_nth2, Nat.sub_diag by lia. cbn [nth]. rewrite app_length. cbn [length].
      rewrite repeat_length, E. unfold c. lia.
    + unfold elems at 1, array. cbn [s_arr s_len]. rewrite app_nth2, Nat.sub_diag by lia. cbn [nth].
      rewrite firstn_app, E. rewrite firstn_all2 by lia. replace (S (s_len s) - s_len s) with 1 by lia. reflexivity.
    + reflexivity.
    + intros q Q _. destruct Q as [QL [QC|[QA QC]]].
      * unfold elems. replace (s_len q) with 0 by lia. reflexivity.
      * unfold elems, array. now rewrite app_nth1.
    + intros q [QL [QC|[QA QC]]]; split; try assumption; [now left|right]. rewrite app_length. split; [lia|].
      unfold array. now rewrite app_nth1.
    + intros q [QL [QC|[QA QC]]] _; [now left|]. right. right. cbn [s_arr]. lia.
    + right. intros q [QL [QC|[QA QC]]]; [now left|]. right. right. cbn [s_arr]. lia.
Qed.

Lemma set_at_split : forall A (a : list A) v b x, set_at (length a) x (a ++ v :: b) = a ++ x :: b.
Proof.
  intros A a v b x. unfold set_at. rewrite firstn_app, Nat.sub_diag, firstn_O, app_nil_r, firstn_all.
  f_equal. f_equal. replace (a ++ v :: b) with ((a ++ [v]) ++ b) by (rewrite <- app_assoc; reflexivity).
  rewrite skipn_app, app_length. cbn [length]. replace (S (length a) - (length a + 1)) with 0 by lia.
  rewrite skipn_all2 by (rewrite app_length; simpl; lia). reflexivity.
Qed.
Lemma firstn_set_in : forall A n j (x : A) l, j < n -> n <= length l -> firstn n (set_at j x l) = set_at j x (firstn n l).
Proof.
  intros A n j x l J L. unfold set_at. rewrite firstn_app, !firstn_firstn, firstn_length.
  replace (Nat.min n j) with j by lia. replace (Nat.min j n) with j by lia.
  replace (n - Nat.min j (length l)) with (S (n - S j)) by lia. cbn [firstn].
  f_equal. f_equal. rewrite skipn_firstn_comm. f_equal.
Qed.

(** ** The shape of a reachable world; [m] tells which results were handed out after the abort *)
Record inv (m : list bool) (w : world) : Prop := {
  in_len : length m = length (w_given w);
  in_own : wf (w_heap w) (v_log (own w));
  in_wf : forall k v, nth_error (w_given w) k = Some v -> wf (w_heap w) (v_log v);
  in_early : forall k v, nth_error m k = Some false -> nth_error (w_given w) k = Some v ->
    apart (v_log v) (v_log (own w)) /\
    forall j v', j <> k -> nth_error (w_given w) j = Some v' -> apart (v_log v) (v_log v');
  in_late : forall k v, nth_error m k = Some true -> nth_error (w_given w) k = Some v ->
    apart (v_log v) (v_log (own w)) \/ s_len (v_log v) <= s_len (v_log (own w));
  in_abort : w_abort w = false -> forall k, nth_error m k <> Some true
}.

Lemma map_seen_same : forall h h' (g : list ivref),
  (forall k v, nth_error g k = Some v -> elems h' (v_log v) = elems h (v_log v)) -> map (seen h') g = map (seen h) g.
Proof.
  induction g as [|v g IH]; intros H; [reflexivity|]. cbn [map]. f_equal.
  - unfold seen. now rewrite (H 0 v eq_refl).
  - apply IH. intros k v' K. exact (H (S k) v' K).
Qed.
Lemma given_lt : forall m w k b, inv m w -> nth_error m k = Some b -> exists v, nth_error (w_given w) k = Some v.
Proof.
  intros m w k b I H. destruct (nth_error (w_given w) k) eqn:E; [eauto|]. apply nth_error_None in E.
  assert (k < length m) by (apply nth_error_Some; congruence). rewrite (in_len _ _ I) in *. lia.
Qed.
Lemma marks_lt : forall m w k v, inv m w -> nth_error (w_given w) k = Some v -> exists b, nth_error m k = Some b.
Proof.
  intros m w k v I H. destruct (nth_error m k) eqn:E; [eauto|]. apply nth_error_None in E.
  assert (k < length (w_given w)) by (apply nth_error_Some; congruence). rewrite <- (in_len _ _ I) in *. lia.
Qed.

(** Taking notice of the own intervention without changing a log. *)
Lemma inv_own : forall m w o ab, inv m w -> v_log o = v_log (own w) \/ v_log o = nil_slice ->
  (ab = false -> w_abort w = false) -> inv m (World (w_heap w) ab (Some o) (w_given w)).
Proof.
  intros m w o ab I E A. constructor; cbn [w_heap w_abort w_own w_given own].
  - apply I.
  - destruct E as [E|E]; rewrite E; [apply I|apply wf_nil].
  - apply I.
  - intros k v M V. destruct (in_early _ _ I k v M V) as [P Q]. split; [|exact Q].
    destruct E as [E|E]; rewrite E; [exact P|apply apart_nil].
  - intros k v M V. pose proof (in_late _ _ I k v M V) as P.
    destruct E as [E|E]; rewrite E; [exact P|left; apply apart_nil].
  - intros F. apply (in_abort _ _ I). auto.
Qed.
Lemma shows_cur : forall w u, shows_own w u -> seen (w_heap w) (own w) = u_cur u.
Proof.
  intros w u (_ & O). unfold own, u_cur. destruct (w_own w) as [v|]; simpl in O; rewrite <- O; reflexivity.
Qed.
Lemma w_log_eq : forall grow l w, w_log grow l w =
  World (fst (append grow (w_heap w) (v_log (own w)) l)) (w_abort w)
    (Some (v_with_log (own w) (snd (append grow (w_heap w) (v_log (own w)) l)))) (w_given w).
Proof. intros grow l w. unfold w_log. destruct (append grow (w_heap w) (v_log (own w)) l). reflexivity. Qed.

Lemma own_kept_late : forall m w grow l, inv m w ->
  forall k v, nth_error (w_given w) k = Some v ->
  elems (fst (append grow (w_heap w) (v_log (own w)) l)) (v_log v) = elems (w_heap w) (v_log v).
Proof.
  intros m w grow l I k v V. pose proof (append_ok grow (w_heap w) (v_log (own w)) l (in_own _ _ I)) as A.
  apply (ap_keep _ _ _ _ _ A); [eapply in_wf; eauto|].
  destruct (marks_lt _ _ _ _ I V) as [b M]. destruct b.
  - apply (in_late _ _ I k v M V).
  - left. apply (in_early _ _ I k v M V).
Qed.
Lemma inv_log : forall m w grow l, inv m w -> inv m (w_log grow l w).
Proof.
  intros m w grow l I. rewrite w_log_eq. pose proof (append_ok grow (w_heap w) (v_log (own w)) l (in_own _ _ I)) as A.
  constructor; cbn [w_heap w_abort w_own w_given own v_with_log v_log].
  - apply I.
  - apply A.
  - intros k v V. apply (ap_wfs _ _ _ _ _ A). eapply in_wf; eauto.
  - intros k v M V. destruct (in_early _ _ I k v M V) as [P Q]. split; [|exact Q].
    apply (ap_apart _ _ _ _ _ A); [eapply in_wf; eauto|exact P].
  - intros k v M V. destruct (in_late _ _ I k v M V) as [P|P].
    + left. apply (ap_apart _ _ _ _ _ A); [eapply in_wf; eauto|exact P].
    + right. rewrite (ap_len _ _ _ _ _ A). lia.
  - apply I.
Qed.
Lemma shows_log : forall m w u grow l, inv m w -> shows w u ->
  shows (w_log grow l w) (VWorld (u_abort u) (Some (with_line (u_cur u) (fun x => x ++ [l]))) (u_given u)).
Proof.
  intros m w u grow l I S. pose proof S as (SA & SO & SG). rewrite w_log_eq.
  pose proof (append_ok grow (w_heap w) (v_log (own w)) l (in_own _ _ I)) as A.
  split; [exact SA|]. cbn [w_heap w_own w_given option_map u_own u_given]. split.
  - f_equal. rewrite <- (shows_cur w u (conj SA SO)). unfold seen, with_line, v_with_log. cbn.
    rewrite (ap_elems _ _ _ _ _ A). reflexivity.
  - rewrite <- SG. apply map_seen_same. intros k v V. eapply own_kept_late; eauto.
Qed.
Lemma shows_mark : forall w u st ab, shows w u ->
  shows (World (w_heap w) ab (Some (v_mark (own w) st)) (w_given w)) (VWorld ab (Some (marked (u_cur u) st)) (u_given u)).
Proof.
  intros w u st ab S. pose proof S as (SA & SO & SG). split; [reflexivity|]. split; [|exact SG].
  cbn [w_heap w_own option_map u_own]. rewrite <- (shows_cur w u (conj SA SO)). reflexivity.
Qed.

(** An edit of one result that shares nothing. *)
Lemma inv_edit : forall m w k v h' s', inv m w -> nth_error m k = Some false -> nth_error (w_given w) k = Some v ->
  wf h' s' -> (forall q, wf (w_heap w) q -> wf h' q) -> (forall q, wf (w_heap w) q -> apart q (v_log v) -> apart q s') ->
  inv m (World h' (w_abort w) (w_own w) (set_at k (v_with_log v s') (w_given w))).
Proof.
  intros m w k v h' s' I M V W' WS AP.
  assert (L : k < length (w_given w)) by (apply nth_error_Some; congruence).
  destruct (in_early _ _ I k v M V) as [P Q].
  assert (OE : forall j x, nth_error (set_at k (v_with_log v s') (w_given w)) j = Some x ->
            (j = k /\ x = v_with_log v s') \/ (j <> k /\ nth_error (w_given w) j = Some x)).
  { intros j x H. destruct (Nat.eq_dec j k) as [E|N].
    - subst j. rewrite nth_error_set_same in H by exact L. left. split; congruence.
    - rewrite nth_error_set_other in H by assumption. right. now split. }
  constructor; cbn [w_heap w_abort w_own w_given].
  - rewrite set_at_length by exact L. apply I.
  - apply WS. apply I.
  - intros j x H. apply OE in H as [[-> ->]|[N H]]; [exact W'|]. apply WS. eapply in_wf; eauto.
  - change (own (World h' (w_abort w) (w_own w) (set_at k (v_with_log v s') (w_given w)))) with (own w).
    intros j x J H. apply OE in H as [[-> ->]|[N H]].
    + cbn [v_log v_with_log]. split.
      * apply apart_sym, AP; [apply I|]. now apply apart_sym.
      * intros i y N H. apply OE in H as [[-> _]|[_ H]]; [contradiction|].
        apply apart_sym, AP; [eapply in_wf; eauto|]. apply apart_sym. now apply (Q i).
    + destruct (in_early _ _ I j x J H) as [P' Q']. split; [exact P'|].
      intros i y NI HI. apply OE in HI as [[-> ->]|[_ HI]].
      * cbn [v_log v_with_log]. apply AP; [eapply in_wf; eauto|]. apply Q' with (j := k); auto.
      * now apply (Q' i).
  - change (own (World h' (w_abort w) (w_own w) (set_at k (v_with_log v s') (w_given w)))) with (own w).
    intros j x J H. apply OE in H as [[-> ->]|[N H]]; [congruence|]. now apply (in_late _ _ I j).
  - apply I.
Qed.
Lemma shows_edit : forall m w u k v h' s' f, inv m w -> shows w u -> nth_error m k = Some false ->
  nth_error (w_given w) k = Some v ->
  (forall q, wf (w_heap w) q -> apart q (v_log v) -> elems h' q = elems (w_heap w) q) ->
  elems h' s' = f (elems (w_heap w) (v_log v)) ->
  exists a b, w_given w = a ++ v :: b /\ length a = k /\
    u_given u = map (seen (w_heap w)) a ++ seen (w_heap w) v :: map (seen (w_heap w)) b /\
    shows (World h' (w_abort w) (w_own w) (set_at k (v_with_log v s') (w_given w)))
      (VWorld (u_abort u) (u_own u) (map (seen (w_heap w)) a ++ with_line (seen (w_heap w) v) f :: map (seen (w_heap w)) b)).
Proof.
  intros m w u k v h' s' f I SH M V K E. pose proof SH as (SA & SO & SG).
  destruct (in_early _ _ I k v M V) as [P Q].
  destruct (nth_error_split _ _ V) as (a & b & G & LA). exists a, b.
  split; [exact G|]. split; [exact LA|]. split; [rewrite <- SG, G, map_app; reflexivity|].
  split; [exact SA|]. cbn [w_heap w_own w_given u_own u_given]. split.
  - rewrite <- SO. pose proof (in_own _ _ I) as WO. unfold own in WO, P. destruct (w_own w) as [o|]; [|reflexivity]. cbn. f_equal.
    unfold seen. f_equal. apply K; [exact WO|]. now apply apart_sym.
  - rewrite G, <- LA, set_at_split, map_app. cbn [map]. f_equal; [|f_equal].
    + apply map_seen_same. intros j x J. apply K.
      * eapply in_wf; [exact I|]. rewrite G, nth_error_app1; [exact J|]. apply nth_error_Some. congruence.
      * apply apart_sym. apply (Q j); [|rewrite G, nth_error_app1; [exact J|apply nth_error_Some; congruence]].
        assert (j < length a) by (apply nth_error_Some; congruence). lia.
    + unfold seen, with_line. cbn. now rewrite E.
    + apply map_seen_same. intros j x J.
      assert (X : nth_error (w_given w) (length a + S j) = Some x)
        by (rewrite G, nth_error_app2 by lia; replace (length a + S j - length a) with (S j) by lia; exact J).
      apply K; [eapply in_wf; eauto|]. apply apart_sym. apply (Q (length a + S j)); [lia|exact X].
Qed.

Lemma nth_error_snoc : forall A (l : list A) x k y, nth_error (l ++ [x]) k = Some y ->
  nth_error l k = Some y \/ k = length l /\ y = x.
Proof.
  intros A l x k y H. destruct (Nat.lt_ge_cases k (length l)) as [L|L].
  - left. now rewrite nth_error_app1 in H.
  - rewrite nth_error_app2 in H by exact L. destruct (k - length l) as [|n] eqn:E; simpl in H.
    + right. split; [lia|congruence].
    + destruct n; discriminate.
Qed.
Lemma inv_result : forall m w, inv m w ->
  inv (m ++ [w_abort w]) (World (w_heap w) (w_abort w) (Some (if w_abort w then own w else v_reset)) (w_given w ++ [own w])).
Proof.
  intros m w I. assert (LM := in_len _ _ I).
  constructor; cbn [w_heap w_abort w_own w_given own].
  - rewrite !app_length, LM. reflexivity.
  - destruct (w_abort w); [apply I|apply wf_nil].
  - intros k v V. apply nth_error_snoc in V as [V|[_ ->]]; [eapply in_wf; eauto|apply I].
  - intros k v M V. apply nth_error_snoc in M as [M|[-> M]].
    + assert (L : k < length m) by (apply nth_error_Some; congruence).
      apply nth_error_snoc in V as [V|[-> _]]; [|lia].
      destruct (in_early _ _ I k v M V) as [P Q]. split.
      * destruct (w_abort w); [exact P|apply apart_nil].
      * intros j v' N V'. apply nth_error_snoc in V' as [V'|[-> ->]]; [now apply (Q j)|exact P].
    + rewrite <- M. rewrite LM in V. rewrite nth_error_app2, Nat.sub_diag in V by lia. injection V as <-.
      split; [apply apart_nil|]. intros j v' N V'. apply nth_error_snoc in V' as [V'|[-> _]]; [|lia].
      destruct (marks_lt _ _ _ _ I V') as [b Mb]. destruct b.
      * exfalso. exact (in_abort _ _ I (eq_sym M) j Mb).
      * apply apart_sym. apply (in_early _ _ I j v' Mb V').
  - intros k v M V. apply nth_error_snoc in M as [M|[-> M]].
    + assert (L : k < length m) by (apply nth_error_Some; congruence).
      apply nth_error_snoc in V as [V|[-> _]]; [|lia].
      destruct (w_abort w) eqn:AB; [now apply (in_late _ _ I k)|]. left. apply apart_nil.
    + rewrite <- M. rewrite LM in V. rewrite nth_error_app2, Nat.sub_diag in V by lia. injection V as <-. right. lia.
  - intros AB k M. apply nth_error_snoc in M as [M|[_ M]]; [exact (in_abort _ _ I AB k M)|congruence].
Qed.

(** ** One event *)
Lemma run_step : forall grow ev m w w1 u, inv m w -> shows w u -> run grow ev w = Ret w1 ->
  (forall k, edited ev = Some k -> nth_error m k = Some false) ->
  exists u1, values ev u u1 /\ shows w1 u1 /\
    inv (match ev with EvResult => m ++ [w_abort w] | _ => m end) w1.
Proof.
  intros grow ev m w w1 u I SH R ED. pose proof SH as (SA & SO & SG). pose proof (shows_cur w u (conj SA SO)) as SC.
  destruct ev as [|l|st|c|c l| | |k l|k j l|k]; cbn [run] in R.
  - apply Ret_inj in R as <-. eexists. split; [constructor|]. split.
    + split; [exact SA|]. split; [|exact SG]. cbn. now rewrite SC.
    + apply inv_own; auto.
  - apply Ret_inj in R as <-. eexists. split; [constructor|]. split; [eapply shows_log; eauto|now apply inv_log].
  - apply Ret_inj in R as <-. eexists. split; [constructor|]. split.
    + rewrite <- SA. now apply shows_mark.
    + apply inv_own; auto.
  - apply Ret_inj in R as <-. eexists. split; [constructor|]. split.
    + apply (shows_mark w u c true SH).
    + apply (inv_own m w (v_mark (own w) c) true I); [now left|discriminate].
  - apply Ret_inj in R as <-. eexists. split; [constructor|].
    assert (I2 : inv m (w_mark c (w_aborted w))) by (apply (inv_own m w (v_mark (own w) c) true I); [now left|discriminate]).
    pose proof (shows_mark w u c true SH) as S2. split; [|now apply inv_log].
    exact (shows_log m _ _ grow l I2 S2).
  - apply Ret_inj in R as <-. eexists. split; [constructor|]. split.
    + split; [exact SA|]. split; [reflexivity|exact SG].
    + apply inv_own; auto.
  - apply Ret_inj in R as <-. destruct (w_abort w) eqn:AB.
    + eexists. split; [apply val_result_last; congruence|]. split.
      * split; [reflexivity|]. cbn [w_heap w_own w_given u_own u_given option_map]. split; [now rewrite SC|].
        rewrite map_app, SG. cbn. now rewrite SC.
      * pose proof (inv_result m w I) as X. now rewrite AB in X.
    + eexists. split; [apply val_result; congruence|]. split.
      * split; [reflexivity|]. cbn [w_heap w_own w_given u_own u_given option_map]. split; [reflexivity|].
        rewrite map_app, SG. cbn. now rewrite SC.
      * pose proof (inv_result m w I) as X. now rewrite AB in X.
  - specialize (ED k eq_refl). destruct (nth_error (w_given w) k) as [v|] eqn:V; [|discriminate R].
    pose proof (append_ok grow (w_heap w) (v_log v) l (in_wf _ _ I _ _ V)) as A.
    destruct (append grow (w_heap w) (v_log v) l) as [h' s']. cbn [fst snd] in A. apply Ret_inj in R as <-.
    destruct (shows_edit m w u k v h' s' (fun x => x ++ [l]) I SH ED V) as (a & b & G & LA & UG & S1).
    + intros q Q P. apply (ap_keep _ _ _ _ _ A); auto.
    + apply A.
    + eexists. split; [|split; [exact S1|]].
      * destruct u as [ua uo ug]. cbn in *. rewrite UG. rewrite <- LA, <- (map_length (seen (w_heap w)) a). constructor.
      * apply (inv_edit m w k v h' s' I ED V); [apply A|apply A|apply A].
  - specialize (ED k eq_refl). destruct (nth_error (w_given w) k) as [v|] eqn:V; [|discriminate R].
    destruct (Nat.ltb_spec j (s_len (v_log v))) as [J|J]; [|discriminate R]. apply Ret_inj in R as <-.
    pose proof (in_wf _ _ I _ _ V) as W. pose proof W as [WL [WC|[WA WC]]]; [lia|].
    set (h' := set_at (s_arr (v_log v)) (set_at j l (array (w_heap w) (v_log v))) (w_heap w)).
    assert (Y : length (set_at j l (array (w_heap w) (v_log v))) = length (nth (s_arr (v_log v)) (w_heap w) []))
      by (apply set_at_length; fold (array (w_heap w) (v_log v)); lia).
    assert (KS : forall q, wf (w_heap w) q -> wf h' q) by (intros q Q; now apply wf_set).
    assert (SET : set_at k (v_with_log v (v_log v)) (w_given w) = w_given w).
    { destruct (nth_error_split _ _ V) as (a & b & G & LA). rewrite G, <- LA, set_at_split. now destruct v. }
    destruct (shows_edit m w u k v h' (v_log v) (set_at j l) I SH ED V) as (a & b & G & LA & UG & S1).
    + intros q Q P. apply elems_set_apart; [exact Q|exact WA|lia|exact P].
    + unfold h', elems. unfold array at 1. rewrite nth_set_same by exact WA. apply firstn_set_in; [exact J|lia].
    + rewrite SET in S1. eexists. split; [|split; [exact S1|]].
      * assert (LE := elems_len _ _ W). destruct (nth_error (elems (w_heap w) (v_log v)) j) as [y|] eqn:EY;
          [|apply nth_error_None in EY; lia].
        destruct (nth_error_split _ _ EY) as (x & z & EX & LX).
        destruct u as [ua uo ug]. cbn in *. rewrite UG.
        replace (with_line (seen (w_heap w) v) (set_at j l)) with (with_line (seen (w_heap w) v) (fun _ => x ++ l :: z)).
        -- rewrite <- LA, <- LX, <- (map_length (seen (w_heap w)) a). apply val_set with (y := y). exact EX.
        -- unfold with_line, seen. cbn. rewrite EX, <- LX, set_at_split. reflexivity.
      * rewrite <- SET. apply (inv_edit m w k v h' (v_log v) I ED V); auto.
  - specialize (ED k eq_refl). destruct (nth_error (w_given w) k) as [v|] eqn:V; [|discriminate R]. apply Ret_inj in R as <-.
    destruct (shows_edit m w u k v (w_heap w) nil_slice (fun _ => []) I SH ED V) as (a & b & G & LA & UG & S1); auto.
    eexists. split; [|split; [exact S1|]].
    + destruct u as [ua uo ug]. cbn in *. rewrite UG. rewrite <- LA, <- (map_length (seen (w_heap w)) a). constructor.
    + apply (inv_edit m w k v (w_heap w) nil_slice I ED V); auto using wf_nil, apart_nil.
Qed.

(** ** Histories *)
Lemma run_all_app : forall grow a b w, run_all grow (a ++ b) w = bind (run_all grow a w) (run_all grow b).
Proof.
  induction a as [|ev a IH]; intros b w; [reflexivity|]. cbn [app run_all]. destruct (run grow ev w); [|reflexivity|reflexivity].
  cbn. apply IH.
Qed.
Lemma values_snoc : forall es ev u u1 u2, values_all es u u1 -> values ev u1 u2 -> values_all (es ++ [ev]) u u2.
Proof.
  induction es as [|e0 es IH]; intros ev u u1 u2 H V; inversion H; subst; simpl.
  - econstructor; [exact V|constructor].
  - econstructor; eauto.
Qed.
Definition given_count (es : list event) : nat :=
  length (List.filter (fun ev => match ev with EvResult => true | _ => false end) es).
Lemma run_abort : forall grow ev w w1, run grow ev w = Ret w1 -> w_abort w1 = true <-> w_abort w = true \/ aborts ev.
Proof.
  intros grow ev w w1 R. destruct ev; cbn [run aborts] in *;
  try (apply Ret_inj in R as <-; unfold w_log, w_mark, w_aborted; try destruct (append _ _ _ _); cbn; tauto).
  - destruct (nth_error _ _); [|discriminate R]. destruct (append _ _ _ _). apply Ret_inj in R as <-. cbn. tauto.
  - destruct (nth_error _ _); [|discriminate R]. destruct (Nat.ltb _ _); [|discriminate R]. apply Ret_inj in R as <-. cbn. tauto.
  - destruct (nth_error _ _); [|discriminate R]. apply Ret_inj in R as <-. cbn. tauto.
Qed.
Lemma run_all_abort : forall grow es w w1, run_all grow es w = Ret w1 -> w_abort w1 = true <-> w_abort w = true \/ Exists aborts es.
Proof.
  induction es as [|ev es IH]; intros w w1 R; cbn [run_all] in R.
  - apply Ret_inj in R as <-. rewrite Exists_nil. tauto.
  - apply bind_Ret in R as (w2 & R1 & R2). rewrite (IH _ _ R2), (run_abort _ _ _ _ R1), Exists_cons. tauto.
Qed.
Lemma late_later : forall es ev k, handed_late es k -> handed_late (es ++ [ev]) k.
Proof.
  intros es ev k (a & b & E & L & X). exists a, (b ++ [ev]). split; [rewrite E, <- app_assoc; reflexivity|]. now split.
Qed.
Lemma edits_early_prefix : forall es ev, edits_early (es ++ [ev]) -> edits_early es.
Proof.
  intros es ev H a e0 b k E K. apply (H a e0 (b ++ [ev]) k); [rewrite E, <- app_assoc; reflexivity|exact K].
Qed.

Lemma run_history : forall grow es w, edits_early es -> run_all grow es fresh_world = Ret w ->
  exists u m, values_all es fresh_vworld u /\ shows w u /\ inv m w /\ length m = given_count es /\
  forall k, nth_error m k = Some true -> handed_late es k.
Proof.
  intros grow es. induction es as [|ev es IH] using rev_ind; intros w ED R.
  - apply Ret_inj in R as <-. exists fresh_vworld, []. split; [constructor|]. split; [repeat split|]. split.
    + constructor; try reflexivity; try apply wf_nil; try (intros [|]; discriminate). intros _ [|]; discriminate.
    + split; [reflexivity|]. intros [|]; discriminate.
  - rewrite run_all_app in R. apply bind_Ret in R as (w0 & R0 & R1). cbn [run_all] in R1. apply bind_Ret in R1 as (w1 & R1 & R2).
    apply Ret_inj in R2 as <-. destruct (IH w0 (edits_early_prefix _ _ ED) R0) as (u & m & VS & SH & I & LM & LT).
    destruct (run_step grow ev m w0 w1 u I SH R1) as (u1 & V1 & S1 & I1).
    { intros k K. pose proof (ED es ev [] k eq_refl K) as NL.
      assert (X : exists v, nth_error (w_given w0) k = Some v).
      { destruct ev; cbn [edited] in K; try discriminate K; injection K as ->; cbn [run] in R1;
        (destruct (nth_error (w_given w0) k); [eauto|discriminate R1]). }
      destruct X as [v V]. destruct (marks_lt _ _ _ _ I V) as [b M]. destruct b; [|exact M]. exfalso. apply NL, LT, M. }
    exists u1, (match ev with EvResult => m ++ [w_abort w0] | _ => m end).
    split; [eapply values_snoc; eauto|]. split; [exact S1|]. split; [exact I1|].
    unfold given_count in *. rewrite filter_app, app_length.
    destruct ev; (split; [rewrite ?app_length; cbn; lia|]); try (intros k0 K; apply late_later, LT, K).
    intros k K. apply nth_error_snoc in K as [K|[-> K]]; [apply late_later, LT, K|].
    exists es, []. split; [reflexivity|]. split; [symmetry; exact LM|].
    apply (run_all_abort _ _ _ _ R0) in K || (symmetry in K; apply (run_all_abort _ _ _ _ R0) in K).
    destruct K as [K|K]; [discriminate K|exact K].
Qed.

(** ** Callers that only add lines *)
Record adds_inv (es : list event) (w : world) (u : vworld) : Prop := {
  ad_own : wf (w_heap w) (v_log (own w));
  ad_wf : forall k v, nth_error (w_given w) k = Some v -> wf (w_heap w) (v_log v);
  ad_len : length (w_given w) = length (u_given u);
  ad_count : length (w_given w) = given_count es;
  ad_shows : shows_own w u;
  ad_given : forall k v, nth_error (w_given w) k = Some v -> apart (v_log v) (v_log (own w)) \/
    (s_len (v_log (own w)) <= s_len (v_log v) /\ exists j, handed_late es j)
}.
Lemma count_snoc : forall es ev, ev <> EvResult -> given_count (es ++ [ev]) = given_count es.
Proof.
  intros es ev N. unfold given_count. rewrite filter_app, app_length. destruct ev; cbn; try lia. contradiction.
Qed.
Lemma adds_own : forall es ev w u o ab i, adds_inv es w u -> ev <> EvResult -> v_log o = v_log (own w) \/ v_log o = nil_slice ->
  seen (w_heap w) o = i -> adds_inv (es ++ [ev]) (World (w_heap w) ab (Some o) (w_given w)) (VWorld ab (Some i) (u_given u)).
Proof.
  intros es ev w u o ab i I N E SE. constructor; cbn [w_heap w_abort w_own w_given own u_given].
  - destruct E as [E|E]; rewrite E; [apply I|apply wf_nil].
  - apply I.
  - apply I.
  - rewrite count_snoc by exact N. apply I.
  - split; [reflexivity|]. cbn. now rewrite SE.
  - intros k v V. destruct E as [E|E]; rewrite E; [|left; apply apart_nil].
    destruct (ad_given _ _ _ I k v V) as [P|(P & j & L)]; [now left|right]. split; [exact P|exists j; now apply late_later].
Qed.
Lemma adds_log : forall es ev w u grow l, adds_inv es w u -> ev <> EvResult -> (forall k, ~ handed_late es k) ->
  adds_inv (es ++ [ev]) (w_log grow l w) (VWorld (u_abort u) (Some (with_line (u_cur u) (fun x => x ++ [l]))) (u_given u)).
Proof.
  intros es ev w u grow l I N NL. rewrite w_log_eq. pose proof (append_ok grow (w_heap w) (v_log (own w)) l (ad_own _ _ _ I)) as A.
  constructor; cbn [w_heap w_abort w_own w_given own v_with_log v_log u_given].
  - apply A.
  - intros k v V. apply (ap_wfs _ _ _ _ _ A). eapply ad_wf; eauto.
  - apply I.
  - rewrite count_snoc by exact N. apply I.
  - split; [apply I|]. cbn. f_equal. rewrite <- (shows_cur w u (ad_shows _ _ _ I)). unfold seen, with_line. cbn.
    now rewrite (ap_elems _ _ _ _ _ A).
  - intros k v V. destruct (ad_given _ _ _ I k v V) as [P|(_ & j & L)]; [|exfalso; exact (NL j L)].
    left. apply (ap_apart _ _ _ _ _ A); [eapply ad_wf; eauto|exact P].
Qed.
Lemma edits_add_prefix : forall es ev, edits_add (es ++ [ev]) -> edits_add es.
Proof.
  intros es ev [H1 H2]. split.
  - intros k j l X. apply (H1 k j l), in_or_app. now left.
  - intros a e0 b k E K. apply (H2 a e0 (b ++ [ev]) k); [rewrite E, <- app_assoc; reflexivity|exact K].
Qed.
Lemma set_given : forall w k v x j y, nth_error (w_given w) k = Some v -> nth_error (set_at k x (w_given w)) j = Some y ->
  y = x \/ nth_error (w_given w) j = Some y.
Proof.
  intros w k v x j y V H. assert (L : k < length (w_given w)) by (apply nth_error_Some; congruence).
  destruct (Nat.eq_dec j k) as [->|N].
  - rewrite nth_error_set_same in H by exact L. left. congruence.
  - rewrite nth_error_set_other in H by assumption. now right.
Qed.
Lemma split_at : forall A (l : list A) k, k < length l -> exists a x b, l = a ++ x :: b /\ length a = k.
Proof.
  intros A l k L. destruct (nth_error l k) as [x|] eqn:E; [|apply nth_error_None in E; lia].
  destruct (nth_error_split _ _ E) as (a & b & H & LA). eauto.
Qed.

Lemma adds_edit : forall es ev w u k v h' s', adds_inv es w u -> ev <> EvResult -> nth_error (w_given w) k = Some v ->
  wf h' s' -> (forall q, wf (w_heap w) q -> wf h' q) -> elems h' (v_log (own w)) = elems (w_heap w) (v_log (own w)) ->
  apart s' (v_log (own w)) \/ (s_len (v_log (own w)) <= s_len s' /\ exists j, handed_late es j) ->
  forall g, length g = length (u_given u) ->
  adds_inv (es ++ [ev]) (World h' (w_abort w) (w_own w) (set_at k (v_with_log v s') (w_given w))) (VWorld (u_abort u) (u_own u) g).
Proof.
  intros es ev w u k v h' s' I N V W' WS KE AP g LG.
  assert (L : k < length (w_given w)) by (apply nth_error_Some; congruence).
  assert (XO : own (World h' (w_abort w) (w_own w) (set_at k (v_with_log v s') (w_given w))) = own w) by reflexivity.
  constructor; rewrite ?XO; cbn [w_heap w_abort w_given u_given].
  - apply WS, I.
  - intros j x J. apply (set_given _ _ _ _ _ _ V) in J as [->|J]; [exact W'|]. apply WS. eapply ad_wf; eauto.
  - rewrite set_at_length by exact L. rewrite LG. apply I.
  - rewrite set_at_length by exact L. rewrite count_snoc by exact N. apply I.
  - destruct (ad_shows _ _ _ I) as [SA SO]. split; [exact SA|]. cbn. rewrite <- SO. unfold own in KE.
    destruct (w_own w) as [o|]; [|reflexivity]. cbn. unfold seen. now rewrite KE.
  - intros j x J. apply (set_given _ _ _ _ _ _ V) in J as [->|J].
    + destruct AP as [P|(P & i & LT)]; [now left|right]. split; [exact P|exists i; now apply late_later].
    + destruct (ad_given _ _ _ I j x J) as [P|(P & i & LT)]; [now left|right]. split; [exact P|exists i; now apply late_later].
Qed.

Lemma run_adds : forall grow es w, edits_add es -> run_all grow es fresh_world = Ret w ->
  exists u, values_all es fresh_vworld u /\ adds_inv es w u.
Proof.
  intros grow es. induction es as [|ev es IH] using rev_ind; intros w ED R.
  - apply Ret_inj in R as <-. exists fresh_vworld. split; [constructor|].
    constructor; try reflexivity; try apply wf_nil; try (intros [|]; discriminate). split; reflexivity.
  - rewrite run_all_app in R. apply bind_Ret in R as (w0 & R0 & R1). cbn [run_all] in R1. apply bind_Ret in R1 as (w1 & R1 & R2).
    apply Ret_inj in R2 as <-. destruct (IH w0 (edits_add_prefix _ _ ED) R0) as (u & VS & I). destruct ED as [NS NL].
    assert (G : forall u1, values ev u u1 -> adds_inv (es ++ [ev]) w1 u1 ->
                exists u2, values_all (es ++ [ev]) fresh_vworld u2 /\ adds_inv (es ++ [ev]) w1 u2)
      by (intros u1 V1 I1; exists u1; split; [eapply values_snoc; eauto|exact I1]).
    specialize (NL es ev [] ). pose proof (ad_shows _ _ _ I) as [SA SO]. pose proof (shows_cur w0 u (conj SA SO)) as SC.
    destruct ev as [|l|st|c|c l| | |k l|k j l|k]; cbn [run] in R1.
    + apply Ret_inj in R1 as <-. eapply G; [constructor|]. rewrite <- SA. apply adds_own; [exact I|discriminate|now left|exact SC].
    + apply Ret_inj in R1 as <-. eapply G; [constructor|]. apply adds_log; [exact I|discriminate|]. intros k. now apply NL.
    + apply Ret_inj in R1 as <-. eapply G; [constructor|]. rewrite <- SA.
      apply (adds_own es (EvMark st) w0 u (v_mark (own w0) st)); [exact I|discriminate|now left|]. rewrite <- SC. reflexivity.
    + apply Ret_inj in R1 as <-. eapply G; [constructor|].
      apply (adds_own es (EvAbort c) w0 u (v_mark (own w0) c) true); [exact I|discriminate|now left|]. rewrite <- SC. reflexivity.
    + apply Ret_inj in R1 as <-. eapply G; [constructor|].
      assert (I2 : adds_inv (es ++ [EvAbort c]) (w_mark c (w_aborted w0)) (VWorld true (Some (marked (u_cur u) c)) (u_given u)))
        by (apply (adds_own es (EvAbort c) w0 u (v_mark (own w0) c) true); [exact I|discriminate|now left|rewrite <- SC; reflexivity]).
      assert (I3 : adds_inv es (w_mark c (w_aborted w0)) (VWorld true (Some (marked (u_cur u) c)) (u_given u))).
      { destruct I2 as [A1 A2 A3 A4 A5 A6]. constructor; auto.
        - rewrite A4. apply count_snoc. discriminate.
        - exact (ad_given _ _ _ I). }
      exact (adds_log es (EvAbortError c l) _ _ grow l I3 ltac:(discriminate) (fun k => NL k eq_refl Logic.I)).
    + apply Ret_inj in R1 as <-. eapply G; [constructor|]. rewrite <- SA. apply adds_own; [exact I|discriminate|now right|reflexivity].
    + apply Ret_inj in R1 as <-. clear NL.
      assert (CS : given_count (es ++ [EvResult]) = S (given_count es))
        by (unfold given_count; rewrite filter_app, app_length; cbn; lia).
      destruct (w_abort w0) eqn:AB.
      * eapply G; [apply val_result_last; congruence|]. constructor; cbn [w_heap w_abort w_own w_given own u_given].
        -- apply I.
        -- intros k v V. apply nth_error_snoc in V as [V|[_ ->]]; [eapply ad_wf; eauto|apply I].
        -- rewrite !app_length. cbn. now rewrite (ad_len _ _ _ I).
        -- rewrite app_length, CS, <- (ad_count _ _ _ I). cbn. lia.
        -- split; [reflexivity|]. cbn. now rewrite SC.
        -- assert (LT : handed_late (es ++ [EvResult]) (given_count es)).
           { exists es, []. split; [reflexivity|]. split; [reflexivity|].
             apply (run_all_abort _ _ _ _ R0) in AB as [X|X]; [discriminate X|exact X]. }
           intros k v V. apply nth_error_snoc in V as [V|[_ ->]]; [|right; split; [lia|eauto]].
           destruct (ad_given _ _ _ I k v V) as [P|(P & i & LA)]; [now left|right]. split; [exact P|exists i; now apply late_later].
      * eapply G; [apply val_result; congruence|]. constructor; cbn [w_heap w_abort w_own w_given own u_given].
        -- apply wf_nil.
        -- intros k v V. apply nth_error_snoc in V as [V|[_ ->]]; [eapply ad_wf; eauto|apply I].
        -- rewrite !app_length. cbn. now rewrite (ad_len _ _ _ I).
        -- rewrite app_length, CS, <- (ad_count _ _ _ I). cbn. lia.
        -- split; reflexivity.
        -- intros k v V. left. apply apart_nil.
    + destruct (nth_error (w_given w0) k) as [v|] eqn:V; [|discriminate R1].
      pose proof (append_ok grow (w_heap w0) (v_log v) l (ad_wf _ _ _ I _ _ V)) as A.
      destruct (append grow (w_heap w0) (v_log v) l) as [h' s']. cbn [fst snd] in A. apply Ret_inj in R1 as <-.
      destruct (split_at _ (u_given u) k) as (a & i & b & UG & LA).
      { rewrite <- (ad_len _ _ _ I). apply nth_error_Some. congruence. }
      apply (G (VWorld (u_abort u) (u_own u) (a ++ with_line i (fun x => x ++ [l]) :: b))).
      * destruct u as [ua uo ug]. cbn in *. subst ug k. constructor.
      * pose proof (ad_given _ _ _ I k v V) as P.
        apply (adds_edit es (EvAppend k l) w0 u k v h' s' I ltac:(discriminate) V); [apply A|apply A| | |].
        -- apply (ap_keep _ _ _ _ _ A); [apply I|]. destruct P as [P|[P _]]; [left; now apply apart_sym|right; exact P].
        -- destruct P as [P|[P Q]].
           ++ left. apply apart_sym, (ap_apart _ _ _ _ _ A); [apply I|now apply apart_sym].
           ++ right. split; [rewrite (ap_len _ _ _ _ _ A); lia|exact Q].
        -- rewrite UG, !app_length. reflexivity.
    + exfalso. apply (NS k j l), in_or_app. right. now left.
    + destruct (nth_error (w_given w0) k) as [v|] eqn:V; [|discriminate R1]. apply Ret_inj in R1 as <-.
      destruct (split_at _ (u_given u) k) as (a & i & b & UG & LA).
      { rewrite <- (ad_len _ _ _ I). apply nth_error_Some. congruence. }
      apply (G (VWorld (u_abort u) (u_own u) (a ++ with_line i (fun _ => []) :: b))).
      * destruct u as [ua uo ug]. cbn in *. subst ug k. constructor.
      * apply (adds_edit es (EvDrop k) w0 u k v (w_heap w0) nil_slice I ltac:(discriminate) V); auto using wf_nil.
        -- left. apply apart_sym, apart_nil.
        -- rewrite UG, !app_length. reflexivity.
Qed.

(** ** API calls as events *)
Lemma values_all_app : forall a b u v w, values_all a u v -> values_all b v w -> values_all (a ++ b) u w.
Proof. induction a as [|ev a IH]; intros b u v w H1 H2; inversion H1; subst; simpl; [exact H2|]. econstructor; eauto. Qed.
Lemma values_all_split : forall a b u w, values_all (a ++ b) u w -> exists v, values_all a u v /\ values_all b v w.
Proof.
  induction a as [|ev a IH]; intros b u w H; simpl in H; [exists u; split; [constructor|exact H]|].
  inversion H; subst. destruct (IH _ _ _ H5) as (v & A & B). exists v. split; [econstructor; eauto|exact B].
Qed.

(** What is inner does not depend on the results handed out. *)
Definition view (t : txn) (g : list intervention) : vworld := VWorld (t_abort t) (t_iv t) g.
Definition explained (t t' : txn) : Prop :=
  exists es, Forall inner es /\ forall g, values_all es (view t g) (view t' g).
Lemma ex_refl : forall t, explained t t.
Proof. intros t. exists []. split; [constructor|]. intros g. constructor. Qed.
Lemma ex_trans : forall a b c, explained a b -> explained b c -> explained a c.
Proof.
  intros a b c (e1 & I1 & V1) (e2 & I2 & V2). exists (e1 ++ e2). split; [now apply Forall_app|].
  intros g. eapply values_all_app; eauto.
Qed.
Lemma ex_same : forall t t', t_abort t' = t_abort t -> t_iv t' = t_iv t -> explained t t'.
Proof. intros t t' A I. exists []. split; [constructor|]. intros g. unfold view. rewrite A, I. constructor. Qed.
Lemma ex_one : forall ev t t', inner ev -> (forall g, values ev (view t g) (view t' g)) -> explained t t'.
Proof. intros ev t t' I V. exists [ev]. split; [now constructor|]. intros g. econstructor; [apply V|constructor]. Qed.
Lemma view_cur : forall t g, u_cur (view t g) = get_iv t.
Proof. intros t g. unfold u_cur, view, get_iv. cbn. now destruct (t_iv t). Qed.
Lemma ex_abort_error : forall c m t, explained t (abort_with_error c m t).
Proof.
  intros c m t. apply (ex_one (EvAbortError c (log_prefix t ++ B "abort process with error " ++ m))); [exact I|]. intros g.
  pose proof (val_abort_error c (log_prefix t ++ B "abort process with error " ++ m) (view t g)) as V.
  rewrite view_cur in V. exact V.
Qed.
Lemma ex_logf : forall m t, explained t (logf m t).
Proof.
  intros m t. apply (ex_one (EvLog (log_prefix t ++ m))); [exact I|]. intros g.
  pose proof (val_log (log_prefix t ++ m) (view t g)) as V. rewrite view_cur in V. exact V.
Qed.
Lemma ex_mark : forall st t, explained t (with_iv t (set_disruptive (get_iv t) st)).
Proof.
  intros st t. apply (ex_one (EvMark st)); [exact I|]. intros g.
  pose proof (val_mark st (view t g)) as V. rewrite view_cur in V. exact V.
Qed.
Lemma ex_touches : forall t t', touches t t' -> explained t t'.
Proof.
  induction 1; try (apply ex_same; reflexivity).
  - eapply ex_trans; eauto.
  - destruct tp; apply ex_same; reflexivity.
  - apply ex_abort_error.
Qed.
Lemma ex_effect : forall rs a t, explained t (effect rs a t).
Proof.
  intros rs a t. destruct a; cbn [effect].
  - unfold do_deny. eapply ex_trans; [|apply ex_logf]. apply ex_mark.
  - unfold do_allow. destruct (bs_eqb arg []); [apply ex_same; reflexivity|].
    destruct (bs_eqb arg _); [apply ex_same; reflexivity|]. destruct (bs_eqb arg _); apply ex_same; reflexivity.
  - apply ex_refl.
  - apply ex_logf.
  - apply (ex_one EvReset); [exact I|]. intros g. apply (val_reset (view t g)).
  - unfold jump_to. destruct (nrules rs (t_phase t) <=? t_cur t + 2)%Z; apply ex_same; reflexivity.
  - apply ex_same; reflexivity.
Qed.
Lemma ex_works : forall rs p t t', works rs p t t' -> explained t t'.
Proof.
  induction 1.
  - apply ex_refl.
  - eapply ex_trans; eauto.
  - now apply ex_touches.
  - apply ex_effect.
  - apply (ex_one EvTouch); [exact I|]. intros g. pose proof (val_touch (view t g)) as V. rewrite view_cur in V. exact V.
  - unfold next_rule. destruct (t_next t =? StatusEndOfRules)%Z; [apply ex_same; reflexivity|].
    destruct (_ <=? _)%Z; apply ex_same; reflexivity.
Qed.

Lemma step_events : forall fuel O e rs o t t1 b, step fuel O e rs o t = Ret (t1, b) ->
  exists es, call_events (t_abort t) o es /\ values_all es (view t []) (view t1 (results [b])).
Proof.
  intros fuel O e rs o t t1 b H.
  assert (PH : forall p ta, t_abort ta = t_abort t -> t_iv ta = t_iv t -> runs_phase o = true ->
     (t' <- process_phase fuel O e rs p ta ;; Ret (t', ObsNone)) = Ret (t1, b) ->
     exists es, call_events (t_abort t) o es /\ values_all es (view t []) (view t1 (results [b]))).
  { intros p ta EA EI RP X. apply bind_Ret in X as (t' & X & Y). apply Ret_inj in Y. injection Y as -> <-.
    assert (VE : view t [] = view ta []) by (unfold view; congruence). rewrite VE. cbn [results flat_map app].
    apply phase_works in X as [[_ ->]|(_ & W & AB)].
    - exists []. split; [|constructor]. apply ce_phase; [exact RP|constructor|auto].
    - rewrite EA in AB. destruct (t_abort t) eqn:TA.
      + rewrite (AB eq_refl). exists []. split; [apply ce_phase; [exact RP|constructor|auto]|].
        change (view (jump_to_phase p ta) []) with (view ta []). constructor.
      + destruct (ex_works _ _ _ _ W) as (es & IN & V). exists es. split; [apply ce_phase; [exact RP|exact IN|discriminate]|].
        change (view ta []) with (view (jump_to_phase p ta) []). apply V. }
  assert (BW : forall (x : out (buffer * Z * option berr)) f, runs_phase o = false -> o <> OpResult -> (forall c, o <> OpAbortWithStatus c) ->
     (forall q, t_abort (f q) = t_abort t /\ t_iv (f q) = t_iv t) ->
     ('(bb, _, er) <- x ;; Ret (f bb, ObsErr er)) = Ret (t1, b) ->
     exists es, call_events (t_abort t) o es /\ values_all es (view t []) (view t1 (results [b]))).
  { intros x f R1 R2 R3 F X. apply bind_Ret in X as ([[bb n] er] & X & Y). apply Ret_inj in Y. injection Y as <- <-.
    exists []. split; [now apply ce_other|]. destruct (F bb) as [F1 F2]. cbn. unfold view. rewrite F1, F2. constructor. }
  destruct o as [a1 b1 c1 d1|u m p|h|p ft| |c p h|p ft| | | |c]; cbn [step] in H.
  - eapply PH; [| | |exact H]; reflexivity.
  - apply Ret_inj in H. injection H as <- <-. exists []. split; [apply ce_other; try reflexivity; discriminate|constructor].
  - eapply PH; [| | |exact H]; reflexivity.
  - eapply (BW _ (with_reqbody t)); [| | | |exact H]; try reflexivity; try discriminate. intros q. now split.
  - eapply PH; [| | |exact H]; reflexivity.
  - eapply PH; [| | |exact H]; reflexivity.
  - eapply (BW _ (with_resbody t)); [| | | |exact H]; try reflexivity; try discriminate. intros q. now split.
  - eapply PH; [| | |exact H]; reflexivity.
  - eapply PH; [| | |exact H]; reflexivity.
  - destruct (result t) as [i t'] eqn:R. unfold result in R. injection R as <- <-. apply Ret_inj in H. injection H as <- <-.
    exists [EvResult]. split; [constructor|].
    change (t_abort (touch_iv t)) with (t_abort t). change (get_iv (touch_iv t)) with (get_iv t). destruct (t_abort t) eqn:A.
    + econstructor; [|constructor].
      pose proof (val_result_last (view t []) A) as V. rewrite view_cur in V. unfold view in *. cbn in *. rewrite A in *. exact V.
    + econstructor; [|constructor].
      pose proof (val_result (view t []) A) as V. rewrite view_cur in V. unfold view in *. cbn in *. rewrite A in *. exact V.
  - apply Ret_inj in H. injection H as <- <-. exists [EvAbort c]. split; [constructor|].
    econstructor; [|constructor]. pose proof (val_abort c (view t [])) as V. rewrite view_cur in V. exact V.
Qed.
Lemma history_steps : forall fuel O e rs os t t' bl, steps fuel O e rs os t = Ret (t', bl) ->
  exists ess, history fuel O e rs t os ess t' bl.
Proof.
  induction os as [|o os IH]; intros t t' bl H; cbn [steps] in H.
  - apply Ret_inj in H. injection H as <- <-. exists []. constructor.
  - apply bind_Ret in H as ([t1 b] & H1 & H). apply bind_Ret in H as ([t2 bl2] & H2 & H). apply Ret_inj in H. injection H as <- <-.
    destruct (step_events _ _ _ _ _ _ _ _ H1) as (es & C & V). destruct (IH _ _ _ H2) as (ess & HI).
    exists (es :: ess). econstructor; eauto.
Qed.

(** ** The events determine the intervention and, without edits, the results *)
Definition state : Type := bool * option intervention.
Definition cur (s : state) : intervention := match snd s with Some i => i | None => blank_iv end.
Definition after (ev : event) (s : state) : state :=
  match ev with
  | EvTouch => (fst s, Some (cur s))
  | EvLog l => (fst s, Some (with_line (cur s) (fun x => x ++ [l])))
  | EvMark st => (fst s, Some (marked (cur s) st))
  | EvAbort c => (true, Some (marked (cur s) c))
  | EvAbortError c l => (true, Some (with_line (marked (cur s) c) (fun x => x ++ [l])))
  | EvReset => (fst s, Some blank_iv)
  | EvResult => (fst s, Some (if fst s then cur s else blank_iv))
  | _ => s
  end.
Definition after_all (es : list event) (s : state) : state := fold_left (fun s ev => after ev s) es s.
Definition st (u : vworld) : state := (u_abort u, u_own u).
Lemma values_after : forall ev u u1, values ev u u1 -> st u1 = after ev (st u).
Proof.
  destruct 1; try reflexivity; unfold st; cbn; unfold u_cur, cur; cbn; rewrite ?H; reflexivity.
Qed.
Lemma values_all_after : forall es u u1, values_all es u u1 -> st u1 = after_all es (st u).
Proof.
  induction 1; [reflexivity|]. cbn. rewrite <- (values_after _ _ _ H). exact IHvalues_all.
Qed.
Lemma values_given : forall ev u u1, values ev u u1 -> edited ev = None ->
  u_given u1 = u_given u ++ match ev with EvResult => [u_cur u] | _ => [] end.
Proof. destruct 1; intros E; try discriminate E; cbn; rewrite ?app_nil_r; reflexivity. Qed.
Lemma values_make : forall ev u, edited ev = None -> exists u1, values ev u u1.
Proof.
  intros ev u E. destruct ev; try discriminate E; try (eexists; constructor; fail).
  destruct (u_abort u) eqn:A; eexists; [apply val_result_last|apply val_result]; exact A.
Qed.
Lemma vworld_eq : forall u v, st u = st v -> u_given u = u_given v -> u = v.
Proof. intros [a o g] [b q h] H1 H2. unfold st in H1. cbn in *. congruence. Qed.
Lemma values_fun : forall ev u u1 u2, edited ev = None -> values ev u u1 -> values ev u u2 -> u1 = u2.
Proof.
  intros ev u u1 u2 E V1 V2. apply vworld_eq.
  - now rewrite (values_after _ _ _ V1), (values_after _ _ _ V2).
  - now rewrite (values_given _ _ _ V1 E), (values_given _ _ _ V2 E).
Qed.
Lemma values_all_fun : forall es u u1, Forall (fun ev => edited ev = None) es -> values_all es u u1 ->
  forall u2, values_all es u u2 -> u1 = u2.
Proof.
  induction es as [|ev es IH]; intros u u1 F V1 u2 V2; inversion V1 as [|? ? ? x ? A1 B1]; inversion V2 as [|? ? ? y ? A2 B2]; subst; [reflexivity|].
  inversion F as [|? ? F1 F2]; subst. pose proof (values_fun _ _ _ _ F1 A1 A2). subst. eapply IH; eauto.
Qed.
(** Results handed out earlier are carried along. *)
Lemma values_frame : forall es a i a' i' r g, Forall (fun ev => edited ev = None) es ->
  forall g0, values_all es (VWorld a i g0) (VWorld a' i' (g0 ++ r)) -> values_all es (VWorld a i g) (VWorld a' i' (g ++ r)).
Proof.
  intros es a i a' i' r g F. revert a i r g. induction es as [|ev es IH]; intros a i r g g0 V; inversion V as [|? ? ? u1 ? H2 H4]; subst.
  - assert (r = []) by (match goal with H : g0 = g0 ++ r |- _ => apply (f_equal (@length _)) in H; rewrite app_length in H;
      destruct r; [reflexivity|simpl in H; lia] end).
    subst. rewrite app_nil_r. constructor.
  - inversion F as [|? ? F1 F2]; subst. destruct (values_make ev (VWorld a i g) F1) as [u2 V2].
    pose proof (values_given _ _ _ H2 F1) as G1. pose proof (values_given _ _ _ V2 F1) as G2. cbn [u_given] in G1, G2.
    pose proof (values_after _ _ _ H2) as A1. pose proof (values_after _ _ _ V2) as A2.
    destruct u1 as [b j g1], u2 as [b2 j2 g2]. unfold st in A1, A2. cbn [u_abort u_own u_given] in *.
    assert (b2 = b /\ j2 = j) as [-> ->] by (split; congruence).
    set (x := match ev with EvResult => [u_cur (VWorld a i g0)] | _ => [] end) in *.
    change (match ev with EvResult => [u_cur (VWorld a i g)] | _ => [] end) with x in G2.
    assert (exists r', r = x ++ r') as [r' ->].
    { clear -H4 G1 F2. subst g1. assert (P : forall es u v, Forall (fun ev => edited ev = None) es -> values_all es u v -> exists q, u_given v = u_given u ++ q).
      { clear. induction es as [|ev es IH]; intros u v F V; inversion V as [|? ? ? u1 ? A1 B1]; subst; [exists []; now rewrite app_nil_r|].
        inversion F as [|? ? F1 F2]; subst. destruct (IH _ _ F2 B1) as [q Q]. rewrite (values_given _ _ _ A1 F1) in Q. rewrite Q, <- app_assoc. eauto. }
      destruct (P _ _ _ F2 H4) as [q Q]. cbn in Q. rewrite <- app_assoc in Q. apply app_inv_head in Q. eauto. }
    econstructor; [exact V2|]. subst g1 g2. rewrite app_assoc in H4. rewrite app_assoc. eapply IH; [exact F2|exact H4].
Qed.

Lemma call_no_edit : forall ab o es, call_events ab o es -> Forall (fun ev => edited ev = None) es.
Proof.
  destruct 1 as [|c|o es _ F _|o _ _ _]; try (repeat constructor; fail).
  eapply Forall_impl; [|exact F]. intros ev I. destruct ev; try reflexivity; contradiction.
Qed.
Lemma history_no_edit : forall fuel O e rs t os ess t' bl, history fuel O e rs t os ess t' bl ->
  Forall (fun ev => edited ev = None) (concat ess).
Proof. induction 1; [constructor|]. cbn. apply Forall_app. split; [eapply call_no_edit; eauto|assumption]. Qed.
Lemma history_values : forall fuel O e rs t os ess t' bl, history fuel O e rs t os ess t' bl ->
  forall g, values_all (concat ess) (view t g) (view t' (g ++ results bl)).
Proof.
  induction 1 as [t|o os es ess t t1 t2 b bl ST CE V HI IH]; intros g; [cbn; rewrite app_nil_r; constructor|].
  cbn [concat]. change (results (b :: bl)) with (match b with ObsResult i => [i] | _ => [] end ++ results bl).
  assert (R : results [b] = match b with ObsResult i => [i] | _ => [] end) by (unfold results; cbn; apply app_nil_r).
  rewrite <- R, app_assoc. eapply values_all_app; [|apply IH].
  apply (values_frame es _ _ _ _ (results [b]) g (call_no_edit _ _ _ CE) []). exact V.
Qed.
Lemma run_total : forall grow es w, Forall (fun ev => edited ev = None) es -> exists w', run_all grow es w = Ret w'.
Proof.
  induction es as [|ev es IH]; intros w F; [eexists; reflexivity|]. inversion F as [|? ? F1 F2]; subst.
  assert (X : exists w1, run grow ev w = Ret w1) by (destruct ev; try discriminate F1; eexists; reflexivity).
  destruct X as [w1 X]. cbn [run_all]. rewrite X. cbn. now apply IH.
Qed.
Lemma no_edit_early : forall es, Forall (fun ev => edited ev = None) es -> edits_early es.
Proof.
  intros es F a ev b k E K. rewrite Forall_forall in F. rewrite (F ev) in K; [discriminate K|].
  rewrite E. apply in_or_app. right. now left.
Qed.

(** C97: a result that has been handed out stays as it was, whatever the transaction does afterwards. *)
Theorem C97_snapshot : forall grow es1 es2 w1 w2,
  Forall (fun ev => edited ev = None) (es1 ++ es2) ->
  run_all grow es1 fresh_world = Ret w1 -> run_all grow es2 w1 = Ret w2 ->
  exists more, map (seen (w_heap w2)) (w_given w2) = map (seen (w_heap w1)) (w_given w1) ++ more.
Proof.
  intros grow es1 es2 w1 w2 F R1 R2. pose proof F as F0. apply Forall_app in F0 as [F1 F2].
  destruct (run_history grow es1 w1 (no_edit_early _ F1) R1) as (u1 & _ & V1 & (_ & _ & S1) & _).
  destruct (run_history grow (es1 ++ es2) w2 (no_edit_early _ F)) as (u2 & _ & V2 & (_ & _ & S2) & _).
  { rewrite run_all_app, R1. exact R2. }
  apply values_all_split in V2 as (u & VA & VB). pose proof (values_all_fun _ _ _ F1 V1 _ VA). subst u.
  rewrite S1, S2. clear -F2 VB. revert F2 VB. generalize u1. induction es2 as [|ev es IH]; intros u F V; inversion V as [|? ? ? x ? A B]; subst.
  - exists []. now rewrite app_nil_r.
  - inversion F as [|? ? G1 G2]; subst. destruct (IH x G2 B) as [m M]. rewrite (values_given _ _ _ A G1), <- app_assoc in M. eauto.
Qed.

(** What the calls of the API do to the intervention is such a list of events ... *)
Theorem C97_calls_explained : forall fuel O e rs os t t' bl, steps fuel O e rs os t = Ret (t', bl) ->
  exists ess, history fuel O e rs t os ess t' bl.
Proof. exact history_steps. Qed.

(** ... so after any calls every result still reads as it did when it was returned. *)
Theorem C97_results_stay : forall fuel O e rs d t0 os ess t' bl grow,
  new_transaction d (Some e) (Some rs) = Some t0 ->
  history fuel O e rs t0 os ess t' bl ->
  exists w, run_all grow (concat ess) fresh_world = Ret w /\
    w_abort w = t_abort t' /\ option_map (seen (w_heap w)) (w_own w) = t_iv t' /\
    map (seen (w_heap w)) (w_given w) = results bl.
Proof.
  intros fuel O e rs d t0 os ess t' bl grow N H. pose proof (history_no_edit _ _ _ _ _ _ _ _ _ H) as F.
  destruct (run_total grow (concat ess) fresh_world F) as [w R]. exists w. split; [exact R|].
  destruct (run_history grow _ w (no_edit_early _ F) R) as (u & _ & V & SH & _).
  assert (T0 : view t0 [] = fresh_vworld).
  { unfold new_transaction in N. destruct d; [|discriminate N]. injection N as <-. reflexivity. }
  pose proof (history_values _ _ _ _ _ _ _ _ _ H []) as V'. rewrite T0 in V'.
  rewrite (values_all_fun _ _ _ F V _ V') in SH. exact SH.
Qed.

(** C98: callers who change a result they got. *)
Lemma edit_after : forall ev s, is_edit ev -> after ev s = s.
Proof. intros ev s E. destruct ev; try reflexivity; exfalso; apply E; reflexivity. Qed.
Lemma edits_after : forall es s, Forall is_edit es -> after_all es s = s.
Proof.
  induction es as [|ev es IH]; intros s F; [reflexivity|]. inversion F; subst. cbn. rewrite edit_after by assumption. now apply IH.
Qed.
Lemma after_app : forall a b s, after_all (a ++ b) s = after_all b (after_all a s).
Proof. intros a b s. apply fold_left_app. Qed.
Lemma weave_after : forall ess eds s, only_edits eds -> after_all (weave eds ess) s = after_all (concat ess) s.
Proof.
  induction ess as [|es ess IH]; intros eds s F; [now destruct eds|]. destruct eds as [|ed eds]; [reflexivity|].
  inversion F as [|? ? F1 F2]; subst. cbn [weave concat]. rewrite !after_app. rewrite (edits_after ed s F1). now apply IH.
Qed.
Lemma history_after : forall fuel O e rs d t0 os ess t' bl, new_transaction d (Some e) (Some rs) = Some t0 ->
  history fuel O e rs t0 os ess t' bl -> after_all (concat ess) (st fresh_vworld) = (t_abort t', t_iv t').
Proof.
  intros fuel O e rs d t0 os ess t' bl N H. pose proof (history_values _ _ _ _ _ _ _ _ _ H []) as V.
  assert (T0 : view t0 [] = fresh_vworld).
  { unfold new_transaction in N. destruct d; [|discriminate N]. injection N as <-. reflexivity. }
  rewrite T0 in V. apply values_all_after in V. now rewrite <- V.
Qed.

Theorem C98_early_edits_partial : forall grow es w, edits_early es -> run_all grow es fresh_world = Ret w ->
  exists u, values_all es fresh_vworld u /\ shows w u.
Proof.
  intros grow es w E R. destruct (run_history grow es w E R) as (u & _ & V & SH & _). eauto.
Qed.
Theorem C98_early_calls_partial : forall fuel O e rs d t0 os ess t' bl grow eds w,
  new_transaction d (Some e) (Some rs) = Some t0 ->
  history fuel O e rs t0 os ess t' bl -> only_edits eds -> edits_early (weave eds ess) ->
  run_all grow (weave eds ess) fresh_world = Ret w ->
  w_abort w = t_abort t' /\ option_map (seen (w_heap w)) (w_own w) = t_iv t'.
Proof.
  intros fuel O e rs d t0 os ess t' bl grow eds w N H OE E R.
  destruct (run_history grow _ w E R) as (u & _ & V & (SA & SO & _) & _). apply values_all_after in V.
  rewrite weave_after, (history_after _ _ _ _ _ _ _ _ _ _ N H) in V by exact OE. injection V as VA VO. split; congruence.
Qed.

Lemma app_split : forall A (x y a b : list A) r, x ++ y = a ++ r :: b ->
  (exists l, x = a ++ r :: l) \/ (exists l, y = l ++ r :: b /\ a = x ++ l).
Proof.
  induction x as [|z x IH]; intros y a b r E; [right; exists a; split; auto|].
  destruct a as [|q a]; simpl in E; injection E as -> E; [left; exists x; reflexivity|].
  destruct (IH _ _ _ _ E) as [[l L]|(l & L1 & L2)]; [left; exists l; now rewrite L|right; exists l; split; [exact L1|now rewrite L2]].
Qed.
Lemma no_late : forall a k, ~ Exists aborts a -> ~ handed_late a k.
Proof.
  intros a k N (x & y & E & _ & X). apply N. rewrite E. apply Exists_app. now left.
Qed.
Lemma after_abort : forall es s, fst (after_all es s) = true <-> fst s = true \/ Exists aborts es.
Proof.
  induction es as [|ev es IH]; intros s; [cbn; rewrite Exists_nil; tauto|].
  change (after_all (ev :: es) s) with (after_all es (after ev s)). rewrite IH, Exists_cons.
  destruct ev; cbn; tauto.
Qed.
Lemma edit_not_abort : forall es, Forall is_edit es -> ~ Exists aborts es.
Proof.
  intros es F X. apply Exists_exists in X as (ev & I & A). rewrite Forall_forall in F. specialize (F ev I).
  destruct ev; try contradiction; apply F; reflexivity.
Qed.
Lemma call_late : forall fuel O e rs t os ess t' bl, history fuel O e rs t os ess t' bl ->
  forall eds P, only_edits eds -> (t_abort t = false -> ~ Exists aborts P) ->
  forall a ev b k, weave eds ess = a ++ ev :: b -> logs ev -> ~ handed_late (P ++ a) k.
Proof.
  induction 1 as [t|o os es ess t t1 t2 b0 bl ST CE V HI IH]; intros eds P OE NP a ev b k E L.
  - destruct eds, a; discriminate E.
  - assert (X : exists ed eds', Forall is_edit ed /\ only_edits eds' /\ weave eds (es :: ess) = ed ++ es ++ weave eds' ess).
    { destruct eds as [|ed eds']; [exists [], []|exists ed, eds'; inversion OE; now repeat split].
      split; [constructor|]. split; [constructor|]. cbn. now destruct ess. }
    destruct X as (ed & eds' & FE & OE' & WE). rewrite WE in E. clear WE OE eds.
    apply app_split in E as [[l E]|(l & E & ->)].
    { exfalso. rewrite E in FE. apply Forall_app in FE as [_ FE]. inversion FE as [|? ? I]; subst.
      destruct ev; try contradiction; apply I; reflexivity. }
    symmetry in E. apply values_all_after in V. apply (f_equal fst) in V. cbn [st u_abort fst] in V.
    symmetry in E. apply app_split in E as [[l' E]|(l' & E & ->)].
    + destruct CE as [|c|o es RP FI AB|o _ _ _].
      * destruct l as [|? [|]]; simpl in E; try discriminate E. injection E as <-. contradiction.
      * destruct l as [|? [|]]; simpl in E; try discriminate E. injection E as <-. contradiction.
      * destruct (t_abort t) eqn:TA; [rewrite (AB eq_refl) in E; destruct l; discriminate E|].
        intros (x & y & HX & _ & XA). rewrite app_assoc in HX. apply app_split in HX as [[q HX]|(q & HX & _)].
        -- assert (Exists aborts (P ++ ed)) by (rewrite HX; apply Exists_app; now left).
           apply Exists_app in H as [H|H]; [exact (NP eq_refl H)|exact (edit_not_abort _ FE H)].
        -- rewrite E, HX in FI. apply Forall_app in FI as [FI _]. apply Forall_app in FI as [_ FI]. inversion FI; subst. contradiction.
      * destruct l; discriminate E.
    + replace (P ++ ed ++ es ++ l') with ((P ++ ed ++ es) ++ l') by (now rewrite <- !app_assoc).
      apply (IH eds' (P ++ ed ++ es) OE') with (ev := ev) (b := b); [|exact E|exact L].
      intros T1 X. assert (TT : t_abort t = false).
      { destruct (t_abort t) eqn:TA; [|reflexivity]. exfalso.
        assert (fst (after_all es (st (VWorld true (t_iv t) []))) = true) by (apply after_abort; now left).
        cbn [u_abort] in V. congruence. }
      apply Exists_app in X as [X|X]; [exact (NP TT X)|]. apply Exists_app in X as [X|X]; [exact (edit_not_abort _ FE X)|].
      assert (fst (after_all es (st (VWorld (t_abort t) (t_iv t) []))) = true) by (apply after_abort; now right).
      cbn [u_abort] in V. congruence.
Qed.
Lemma adds_are_edits : forall eds, only_adds eds -> only_edits eds.
Proof.
  intros eds F. eapply Forall_impl; [|exact F]. intros es G. eapply Forall_impl; [|exact G].
  intros ev A. destruct ev; try contradiction; discriminate.
Qed.
Lemma weave_no_set : forall fuel O e rs t os ess t' bl, history fuel O e rs t os ess t' bl -> forall eds, only_adds eds ->
  forall k j l, ~ In (EvSet k j l) (weave eds ess).
Proof.
  intros fuel O e rs t os ess t' bl H. pose proof (history_no_edit _ _ _ _ _ _ _ _ _ H) as F. clear H. revert F.
  induction ess as [|es ess IH]; intros F eds OA k j l I.
  - destruct eds; contradiction.
  - cbn in F. assert (NC : ~ In (EvSet k j l) (es ++ concat ess)).
    { intros X. rewrite Forall_forall in F. specialize (F _ X). discriminate F. }
    destruct eds as [|ed eds]; [exact (NC I)|]. inversion OA as [|? ? OA1 OA2]; subst. cbn [weave] in I.
    apply in_app_or in I as [I|I].
    + rewrite Forall_forall in OA1. exact (OA1 _ I).
    + apply in_app_or in I as [I|I]; [apply NC, in_or_app; now left|]. apply Forall_app in F as [_ F]. exact (IH F eds OA2 k j l I).
Qed.

(** Adding lines to results, or dropping their logs, is never seen by the transaction. *)
Theorem C98_adding_partial : forall fuel O e rs d t0 os ess t' bl grow eds w,
  new_transaction d (Some e) (Some rs) = Some t0 ->
  history fuel O e rs t0 os ess t' bl -> only_adds eds ->
  run_all grow (weave eds ess) fresh_world = Ret w ->
  w_abort w = t_abort t' /\ option_map (seen (w_heap w)) (w_own w) = t_iv t'.
Proof.
  intros fuel O e rs d t0 os ess t' bl grow eds w N H OA R. pose proof (adds_are_edits _ OA) as OE.
  destruct (run_adds grow (weave eds ess) w) as (u & V & I); [|exact R|].
  - split; [eapply weave_no_set; eauto|]. intros a ev b k E L.
    apply (call_late _ _ _ _ _ _ _ _ _ H eds [] OE (fun _ X => match Exists_nil aborts with conj f _ => f X end) a ev b k E L).
  - destruct (ad_shows _ _ _ I) as [SA SO]. apply values_all_after in V.
    rewrite weave_after, (history_after _ _ _ _ _ _ _ _ _ _ N H) in V by exact OE. injection V as VA VO. split; congruence.
Qed.

(** How the Go runtime grows short arrays: double them. *)
Definition doubling (c : nat) : nat := 2 * c.

(** A phase that logs three times for the client 9.9.9.9. *)
Definition alias_rule : rule := demo_rule PhaseConnection [VScalar SRemoteAddr] (OpRx (B "9.9.9.9")) [ALog] false [].
Definition alias_rules : ruleset := add_rules [alias_rule; alias_rule; alias_rule] (RuleSet [] []).
Definition alias_line (n : Z) : bs := B "[client 9.9.9.9:80] (phase 1) ModSecurity: running action in phase 1 rule " ++ itoa n.
Definition alias_calls : list op := [OpConnection (B "9.9.9.9") (B "80") (B "1.1.1.1") (B "443"); OpAbortWithStatus 500; OpResult; OpResult].
Definition alias_events : list (list event) :=
  [[EvLog (alias_line 0); EvTouch; EvLog (alias_line 1); EvTouch; EvLog (alias_line 2); EvTouch]; [EvAbort 500]; [EvResult]; [EvResult]].
Definition alias_iv : intervention := Intervention 500 0 None [alias_line 0; alias_line 1; alias_line 2] true.

Lemma alias_history : let e := demo_engine alias_rules in exists t' bl,
  history 9 (demo MpErr) e alias_rules (new_txn e) alias_calls alias_events t' bl /\
  t_abort t' = true /\ t_iv t' = Some alias_iv /\ results bl = [alias_iv; alias_iv].
Proof.
  cbv zeta. eexists _, _. split; [|split; [|split]].
  - unfold alias_calls, alias_events.
    eapply hi_cons; [vm_compute; reflexivity|apply ce_phase; [reflexivity|repeat constructor|discriminate]| |].
    { do 6 (econstructor; [apply val_log || apply val_touch|]). vm_compute. constructor. }
    eapply hi_cons; [vm_compute; reflexivity|constructor| |].
    { econstructor; [apply val_abort|]. vm_compute. constructor. }
    eapply hi_cons; [vm_compute; reflexivity|constructor| |].
    { econstructor; [apply val_result_last; reflexivity|]. vm_compute. constructor. }
    eapply hi_cons; [vm_compute; reflexivity|constructor| |].
    { econstructor; [apply val_result_last; reflexivity|]. vm_compute. constructor. }
    constructor.
  - vm_compute. reflexivity.
  - vm_compute. reflexivity.
  - vm_compute. reflexivity.
Qed.

(** Editing a line of a result changes what the aborted transaction reports next. *)
Theorem C98_edit_refuted : exists fuel O e rs t0 os ess t' bl eds w,
  new_transaction true (Some e) (Some rs) = Some t0 /\ history fuel O e rs t0 os ess t' bl /\ only_edits eds /\
  run_all doubling (weave eds ess) fresh_world = Ret w /\ option_map (seen (w_heap w)) (w_own w) <> t_iv t'.
Proof.
  destruct alias_history as (t' & bl & H & _ & TI & _).
  exists 9, (demo MpErr), (demo_engine alias_rules), alias_rules, (new_txn (demo_engine alias_rules)), alias_calls, alias_events, t', bl,
    [[]; []; []; [EvSet 0 0 (B "gone")]].
  eexists. split; [reflexivity|]. split; [exact H|]. split; [repeat constructor; discriminate|]. split; [vm_compute; reflexivity|].
  rewrite TI. vm_compute. discriminate.
Qed.
(** Of two holders of a result of an aborted transaction who add a line, one loses it. *)
Theorem C98_added_line_refuted : exists fuel O e rs t0 os ess t' bl eds w u,
  new_transaction true (Some e) (Some rs) = Some t0 /\ history fuel O e rs t0 os ess t' bl /\ only_adds eds /\
  run_all doubling (weave eds (ess ++ [[]])) fresh_world = Ret w /\ values_all (weave eds (ess ++ [[]])) fresh_vworld u /\
  map (fun v => nth 3 (i_log (seen (w_heap w) v)) []) (w_given w) = [B "yours"; B "yours"] /\
  map (fun i => nth 3 (i_log i) []) (u_given u) = [B "mine"; B "yours"].
Proof.
  destruct alias_history as (t' & bl & H & _ & TI & _).
  exists 9, (demo MpErr), (demo_engine alias_rules), alias_rules, (new_txn (demo_engine alias_rules)), alias_calls, alias_events, t', bl,
    [[]; []; []; []; [EvAppend 0 (B "mine"); EvAppend 1 (B "yours")]].
  eexists _, _. split; [reflexivity|]. split; [exact H|]. split; [repeat constructor|]. split; [vm_compute; reflexivity|].
  split.
  - cbn [weave app alias_events]. do 6 (econstructor; [apply val_log || apply val_touch|]). econstructor; [apply val_abort|].
    econstructor; [apply val_result_last; reflexivity|]. econstructor; [apply val_result_last; reflexivity|]. cbn [u_given u_abort u_own app].
    econstructor; [exact (val_append [] _ _ (B "mine") _ _)|]. econstructor; [exact (val_append [_] _ _ (B "yours") _ _)|]. constructor.
  - split; vm_compute; reflexivity.
Qed.

(** Non-trivial cases: a history with two results; a result edited before the abort; a line added after it. *)
Example C97_example : let e := demo_engine alias_rules in exists t' bl w,
  new_transaction true (Some e) (Some alias_rules) = Some (new_txn e) /\
  history 9 (demo MpErr) e alias_rules (new_txn e) alias_calls alias_events t' bl /\
  run_all doubling (concat alias_events) fresh_world = Ret w /\ map (seen (w_heap w)) (w_given w) = [alias_iv; alias_iv].
Proof.
  cbv zeta. destruct alias_history as (t' & bl & H & _). exists t', bl. eexists. split; [reflexivity|]. split; [exact H|].
  split; vm_compute; reflexivity.
Qed.
Example C98_early_example : let es := [EvLog (B "a"); EvResult; EvSet 0 0 (B "x"); EvLog (B "b"); EvAppend 0 (B "y"); EvAbort 500; EvAppend 0 (B "z"); EvResult] in
  edits_early es /\ exists w, run_all doubling es fresh_world = Ret w /\
  map (seen (w_heap w)) (w_given w) =
    [Intervention 200 0 None [B "x"; B "y"; B "z"] false; Intervention 500 0 None [B "b"] true].
Proof.
  cbv zeta. split.
  - intros a ev b k E K (x & y & HX & LK & AB).
    assert (K0 : k = 0).
    { assert (I : In ev [EvLog (B "a"); EvResult; EvSet 0 0 (B "x"); EvLog (B "b"); EvAppend 0 (B "y"); EvAbort 500; EvAppend 0 (B "z"); EvResult])
        by (rewrite E; apply in_or_app; right; now left).
      cbn in I. repeat (destruct I as [<-|I]; [cbn in K; congruence|]). contradiction. }
    rewrite K0 in LK. clear K K0 k. subst a. rewrite <- app_assoc in E. destruct x as [|? x]; [inversion AB|]. injection E as <- E.
    destruct x as [|? x]; [inversion AB as [? ? Q|? ? Q]; [contradiction|inversion Q]|]. injection E as <- E. cbn in LK. discriminate LK.
  - eexists. split; vm_compute; reflexivity.
Qed.
Example C98_adding_example : let e := demo_engine alias_rules in let eds := [[]; []; []; [EvAppend 0 (B "mine"); EvDrop 0; EvAppend 0 (B "again")]] in exists t' bl w,
  history 9 (demo MpErr) e alias_rules (new_txn e) alias_calls alias_events t' bl /\ only_adds eds /\
  run_all doubling (weave eds alias_events) fresh_world = Ret w /\
  map (seen (w_heap w)) (w_given w) = [Intervention 500 0 None [B "again"] true; alias_iv].
Proof.
  cbv zeta. destruct alias_history as (t' & bl & H & _). exists t', bl. eexists. split; [exact H|].
  split; [repeat constructor|]. split; vm_compute; reflexivity.
Qed.
Print Assumptions C97_snapshot.
Print Assumptions C97_calls_explained.
Print Assumptions C97_results_stay.
Print Assumptions C98_early_edits_partial.
Print Assumptions C98_early_calls_partial.
Print Assumptions C98_adding_partial.
Print Assumptions C98_edit_refuted.
Print Assumptions C98_added_line_refuted.
