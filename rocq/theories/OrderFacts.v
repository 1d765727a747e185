(** The order in which Go iterates maps does not reach the results. *)
From Verif Require Import Base BaseFacts GoStrings Utils Buffer BufferFacts Types Transforms Operators Transaction Variables Rules Engine.
From Coq Require Import ZifyBool.

(** The same world with another iteration order. *)
Definition reorder (O : oracles) (o : nat -> forall A : Type, list A -> list A) : oracles :=
  Oracles (rx_ok O) (rx_match O) (media_type O) (multipart O) (url_string O) (uni_lower O) (semi_sep O) o.

Definition same_fetch (a b : out (txn * list bs)) : Prop :=
  match a, b with
  | Ret (t1, l1), Ret (t2, l2) => t1 = t2 /\ Permutation l1 l2
  | Panic, Panic => True
  | Timeout, Timeout => True
  | _, _ => False
  end.

Section Order.
Variables (O : oracles) (o : nat -> forall A : Type, list A -> list A).
Hypothesis V1 : ord_valid O.
Hypothesis V2 : ord_valid (reorder O o).
Let O' := reorder O o.

Lemma reorder_perm : forall n m A (l : list A), Permutation (ord O n A l) (ord O' m A l).
Proof. intros n m A l. rewrite (V1 n A l). symmetry. apply V2. Qed.
Lemma reorder_run_parser : forall e tp bd t, run_parser O' e tp bd t = run_parser O e tp bd t.
Proof. intros e [] bd t; reflexivity. Qed.
Lemma reorder_types : forall e ct bd tps t, parse_types O' e ct bd tps t = parse_types O e ct bd tps t.
Proof.
  induction tps as [|tp tps IH]; intro t; cbn [parse_types]; [reflexivity|].
  destruct (negb (has_prefix (bt_ctype tp) ct)); [apply IH|].
  destruct (cache_get tp t) as [[]|]; try reflexivity; [apply IH|].
  rewrite reorder_run_parser. destruct (run_parser O e tp bd t) as [[[t1 res] err]| |]; cbn [bind]; try reflexivity.
  destruct err; [reflexivity|]. destruct res; try reflexivity. apply IH.
Qed.
Lemma reorder_parse : forall e t, request_body_parse O' e t = request_body_parse O e t.
Proof.
  intros e t. unfold request_body_parse. destruct (negb (has_body_method t)); [reflexivity|].
  destruct (negb (e_reqaccess e) || (buf_len (t_reqbody t) =? 0)); [reflexivity|].
  change (media_type O') with (media_type O). destruct (media_type O _) as [mt bd]. apply reorder_types.
Qed.
Lemma reorder_names : forall f m, fetch_with_names O' f m = fetch_with_names O f m.
Proof. reflexivity. Qed.
Lemma reorder_filter_fetch : forall f m t, same_fetch (Ret (filter_fetch O f m t)) (Ret (filter_fetch O' f m t)).
Proof.
  intros f m t. unfold filter_fetch. rewrite reorder_names. split; [reflexivity|]. apply Permutation_flat_map, reorder_perm.
Qed.
Lemma reorder_filter_names : forall f m t, same_fetch (Ret (filter_names O f m t)) (Ret (filter_names O' f m t)).
Proof.
  intros f m t. unfold filter_names. rewrite reorder_names. split; [reflexivity|]. apply Permutation_map, reorder_perm.
Qed.
Lemma reorder_coll : forall e c f t, same_fetch (fetch_coll O e c f t) (fetch_coll O' e c f t).
Proof.
  intros e c f t. assert (N : same_fetch (Ret (t, [])) (Ret (t, []))) by (split; constructor).
  destruct c; cbn [fetch_coll]; try (destruct (t_url t); [|exact N]);
  try apply reorder_filter_fetch; try apply reorder_filter_names.
  - unfold fetch_post. rewrite reorder_parse. destruct (request_body_parse O e t) as [[t1 r]| |]; cbn [bind]; try exact I.
    destruct r as [[[] [|m|[m|]]]|]; try apply reorder_filter_fetch; split; constructor.
  - unfold fetch_post_names. rewrite reorder_parse. destruct (request_body_parse O e t) as [[t1 r]| |]; cbn [bind]; try exact I.
    destruct r as [[[] [|m|[m|]]]|]; try apply reorder_filter_names; try exact I; split; constructor.
Qed.
Lemma reorder_scalar : forall e s t, fetch_scalar O' e s t = fetch_scalar O e s t.
Proof. intros e s t. destruct s; reflexivity. Qed.

Lemma same_bind2 : forall a b (k1 k2 : txn -> out (txn * list bs)),
  same_fetch a b -> (forall t, same_fetch (k1 t) (k2 t)) ->
  same_fetch ('(t1, x) <- a ;; '(t2, y) <- k1 t1 ;; Ret (t2, x ++ y)) ('(t1, x) <- b ;; '(t2, y) <- k2 t1 ;; Ret (t2, x ++ y)).
Proof.
  intros [[t1 x]| |] [[t2 y]| |] k1 k2 S K; simpl in S; try easy. destruct S as [<- P]. cbn [bind].
  specialize (K t1). destruct (k1 t1) as [[u1 p]| |], (k2 t1) as [[u2 q]| |]; simpl in K; try easy.
  destruct K as [<- Q]. split; [reflexivity|]. now apply Permutation_app.
Qed.
Lemma reorder_fetch : forall e v t, same_fetch (fetch O e v t) (fetch O' e v t).
Proof.
  intros e v. induction v as [c f|s|g p|g p|v IH]; intro t; cbn [fetch].
  - apply reorder_coll.
  - rewrite reorder_scalar. destruct (fetch_scalar O e s t). split; [reflexivity|apply Permutation_refl].

  - apply same_bind2; [apply reorder_coll|intro; apply reorder_coll].
  - apply same_bind2; [apply reorder_coll|intro; apply reorder_coll].
  - specialize (IH t). destruct (fetch O e v t) as [[t1 x]| |], (fetch O' e v t) as [[t2 y]| |]; simpl in IH; try easy.
    destruct IH as [<- P]. split; [reflexivity|]. now rewrite (Permutation_length P).
Qed.
Lemma reorder_trans : forall ts s, transform_string O' ts s = transform_string O ts s.
Proof. induction ts as [|tr ts IH]; intro s; simpl; [reflexivity|]. rewrite IH. now destruct tr. Qed.
Lemma reorder_all : forall e r vs t, same_fetch (fetch_all O e r vs t) (fetch_all O' e r vs t).
Proof.
  intros e r vs. induction vs as [|v vs IH]; intro t; cbn [fetch_all]; [split; constructor|].
  apply same_bind2; [|exact IH]. unfold transform_variable. pose proof (reorder_fetch e v t) as R.
  destruct (fetch O e v t) as [[t1 x]| |], (fetch O' e v t) as [[t2 y]| |]; simpl in R; try easy.
  destruct R as [<- P]. split; [reflexivity|]. rewrite (map_ext _ _ (reorder_trans (r_trans r))). now apply Permutation_map.
Qed.
Lemma match_values_perm : forall r b l1 l2, Permutation l1 l2 -> match_values O b r l1 = match_values O b r l2.
Proof.
  intros r b l1 l2 P. destruct b; [destruct l1, l2; reflexivity|].
  destruct (r_op r) as [p|] eqn:E.
  - assert (G : forall l, match_values O false r l = Ret (existsb (fun v => negb (Bool.eqb (r_not r) (op_match O p v))) l)).
    { induction l as [|v l IH]; simpl; [reflexivity|]. rewrite E. destruct (negb _); [reflexivity|exact IH]. }
    rewrite !G. f_equal. induction P; simpl; try congruence.
    rewrite !orb_assoc. f_equal. apply orb_comm.
  - destruct l1, l2; simpl; rewrite ?E; try reflexivity.
    + now apply Permutation_nil in P.
    + now apply Permutation_sym, Permutation_nil in P.
Qed.
Lemma reorder_values : forall b r l, match_values O' b r l = match_values O b r l.
Proof.
  intros b r l. induction l as [|v l IH]; cbn [match_values]; [reflexivity|]. rewrite IH. destruct b; [reflexivity|].
  destruct (r_op r) as [p|]; [|reflexivity]. now destruct p.
Qed.
Lemma reorder_match : forall e r t, match_rule O' e r t = match_rule O e r t.
Proof.
  intros e r t. unfold match_rule. pose proof (reorder_all e r (r_vars r) t) as R.
  destruct (fetch_all O e r (r_vars r) t) as [[t1 x]| |], (fetch_all O' e r (r_vars r) t) as [[t2 y]| |]; simpl in R; try easy.
  destruct R as [<- P]. cbn [bind]. rewrite reorder_values. now rewrite (match_values_perm r (t_abort t1) x y P).
Qed.
Lemma reorder_subs : forall e subs t, match_subs O' e subs t = match_subs O e subs t.
Proof.
  induction subs as [|s subs IH]; intro t; cbn [match_subs]; [reflexivity|]. rewrite reorder_match.
  destruct (match_rule O e s t) as [[t1 []]| |]; cbn [bind]; try reflexivity. apply IH.
Qed.
Lemma reorder_do : forall f e rs r t, do_rule f O' e rs r t = do_rule f O e rs r t.
Proof.
  intros f e rs r t. unfold do_rule. rewrite reorder_match. destruct (match_rule O e r t) as [[t1 []]| |]; cbn [bind]; try reflexivity.
  now rewrite reorder_subs.
Qed.
Lemma reorder_process : forall f e rs p i t, process_rule f O' e rs p i t = process_rule f O e rs p i t.
Proof.
  intros f e rs p i t. unfold process_rule. destruct (i <? nrules rs p); [|reflexivity]. destruct (i <? 0); [reflexivity|].
  destruct (nth_error _ _); [apply reorder_do|reflexivity].
Qed.
Lemma reorder_loop : forall d e rs p f n t, phase_loop f d O' e rs p n t = phase_loop f d O e rs p n t.
Proof.
  induction f as [|f IH]; intros n t; cbn [phase_loop]; [reflexivity|].
  destruct ((t_phase t =? p) && negb (n =? StatusEndOfRules)); [|reflexivity]. rewrite reorder_process.
  destruct (process_rule d O e rs p n t) as [t1| |]; cbn [bind]; try reflexivity.
  destruct (i_disruptive (get_iv (touch_iv t1))); [reflexivity|]. destruct (next_rule rs (touch_iv t1)) as [m t3]. apply IH.
Qed.
Lemma reorder_phase : forall f e rs p t, process_phase f O' e rs p t = process_phase f O e rs p t.
Proof.
  intros f e rs p t. unfold process_phase. destruct (p <=? t_phase t); [reflexivity|]. unfold process_phase_inner.
  destruct (t_abort _); [reflexivity|]. destruct (next_rule rs _) as [n t1]. apply reorder_loop.
Qed.
Lemma reorder_step : forall f e rs a t, step f O' e rs a t = step f O e rs a t.
Proof. intros f e rs a t. destruct a; cbn [step]; rewrite ?reorder_phase; reflexivity. Qed.
Lemma reorder_steps : forall f e rs os t, steps f O' e rs os t = steps f O e rs os t.
Proof.
  induction os as [|a os IH]; intro t; cbn [steps]; [reflexivity|]. rewrite reorder_step.
  destruct (step f O e rs a t) as [[t1 b]| |]; cbn [bind]; try reflexivity. now rewrite IH.
Qed.
End Order.
