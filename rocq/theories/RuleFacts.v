(** What reading variables may do to a transaction; matching; executing actions. *)
From Verif Require Import Base BaseFacts GoStrings Utils Buffer BufferFacts Types Transforms Operators Transaction Variables Rules Engine
  SpecText TextFacts NumFacts SpecVars VarFacts SpecRules PropText.
From Coq Require Import ZifyBool Sorting.Sorted.

(** ** Every elementary effect a Fetch can have *)
Inductive touches : txn -> txn -> Prop :=
| th_refl : forall t, touches t t
| th_trans : forall a b c, touches a b -> touches b c -> touches a c
| th_tick : forall t, touches t (tick t)
| th_cache_set : forall tp v t, touches t (cache_set tp v t)
| th_bodyerr : forall t b, touches t (with_bodyerr t b)
| th_reqbody : forall t b, reads_ok (t_reqbody t) b -> touches t (with_reqbody t b)
| th_resbody : forall t b, reads_ok (t_resbody t) b -> touches t (with_resbody t b)
| th_abort : forall c m t, c = 413 \/ c = 500 -> touches t (abort_with_error c m t).

Lemma th_run_parser : forall O e tp bd t t' i er,
  run_parser O e tp bd t = Ret (t', i, er) -> touches t t'.
Proof.
  intros O e tp bd t t' i er H. destruct tp; simpl in H.
  - pose proof (reads_ok_init (t_reqbody t)) as R.
    destruct (match b_file (init_read (t_reqbody t)) with Some _ => Some ErrOutOfMemLimit | None => None end) as [er0|].
    + inversion H; subst. eapply th_trans; [apply th_reqbody; exact R|apply th_abort; auto].
    + destruct (parse_query (semi_sep O) (b_mem (init_read (t_reqbody t)))) as [m bad]. inversion H; subst.
      apply th_reqbody. exact R.
  - destruct (multipart O (t_reqbody t) bd (e_reqmem e)) as [r off].
    pose proof (set_off_reads_ok off (t_reqbody t)) as R.
    destruct r; inversion H; subst; try (apply th_reqbody; exact R).
    eapply th_trans; [apply th_reqbody; exact R|apply th_abort; auto].
Qed.

Lemma th_parse_types : forall O e ct bd tps t t' r,
  parse_types O e ct bd tps t = Ret (t', r) -> touches t t'.
Proof.
  induction tps as [|tp tps IH]; intros t t' r H; simpl in H.
  - inversion H; subst. apply th_refl.
  - destruct (negb (has_prefix (bt_ctype tp) ct)); [eauto|].
    destruct (cache_get tp t) as [res|].
    + destruct res; try (inversion H; subst; apply th_refl). eauto.
    + apply bind_Ret in H as ([[t1 res] err] & H1 & H).
      apply th_run_parser in H1.
      assert (F2 : touches t (cache_set tp res t1)) by (eapply th_trans; [exact H1|apply th_cache_set]).
      destruct err.
      * inversion H; subst. eapply th_trans; [exact F2|apply th_bodyerr].
      * destruct res; try (inversion H; subst; exact F2).
        eapply th_trans; [exact F2|eauto].
Qed.

Lemma th_body_parse : forall O e t t' r, request_body_parse O e t = Ret (t', r) -> touches t t'.
Proof.
  intros O e t t' r H. unfold request_body_parse in H.
  destruct (negb (has_body_method t)); [inversion H; subst; apply th_refl|].
  destruct (negb (e_reqaccess e) || (buf_len (t_reqbody t) =? 0)); [inversion H; subst; apply th_refl|].
  destruct (media_type O _) as [mt bd]. now apply th_parse_types in H.
Qed.

Lemma th_coll : forall O e c f t t' out, fetch_coll O e c f t = Ret (t', out) -> touches t t'.
Proof.
  intros O e c f t t' out H.
  assert (P : forall t1 t2 o, touches t t1 -> Ret (filter_fetch O f o t1) = Ret (t2, out) -> touches t t2)
    by (intros t1 t2 o F Q; inversion Q; subst; eapply th_trans; [exact F|apply th_tick]).
  assert (P2 : forall t1 t2 o, touches t t1 -> Ret (filter_names O f o t1) = Ret (t2, out) -> touches t t2)
    by (intros t1 t2 o F Q; inversion Q; subst; eapply th_trans; [exact F|apply th_tick]).
  destruct c; simpl in H;
  try (destruct (t_url t); [|inversion H; subst; apply th_refl]);
  try (eapply P; [apply th_refl|exact H]); try (eapply P2; [apply th_refl|exact H]).
  - apply bind_Ret in H as ([t1 r] & H1 & H). apply th_body_parse in H1.
    destruct r as [[[] [|m|[m|]]]|]; try (inversion H; subst; exact H1); eapply P; eauto.
  - apply bind_Ret in H as ([t1 r] & H1 & H). apply th_body_parse in H1.
    destruct r as [[[] [|m|[m|]]]|]; try (inversion H; subst; exact H1); try discriminate; eapply P2; eauto.
Qed.

Lemma th_scalar : forall O e s t, touches t (fst (fetch_scalar O e s t)).
Proof.
  intros O e s t. pose proof (th_refl t) as R.
  assert (RB : touches t (fst (fetch_request_body O e t))).
  { unfold fetch_request_body.
    destruct (negb (has_body_method t)); [exact R|].
    destruct (negb (e_reqaccess e) || (buf_len (t_reqbody t) =? 0)); [exact R|].
    destruct (header_get _ _); [exact R|].
    destruct (negb _); [exact R|].
    unfold buf_string. pose proof (reads_ok_init (t_reqbody t)) as K.
    destruct (b_file (init_read (t_reqbody t))); simpl.
    - eapply th_trans; [apply th_reqbody; exact K|apply th_abort; auto].
    - apply th_reqbody. exact K. }
  assert (RS : touches t (fst (fetch_response_body e t))).
  { unfold fetch_response_body.
    destruct (negb (e_resaccess e) || (buf_len (t_resbody t) =? 0)); [exact R|].
    unfold buf_string. pose proof (reads_ok_init (t_resbody t)) as K.
    destruct (b_file (init_read (t_resbody t))); simpl.
    - eapply th_trans; [apply th_resbody; exact K|apply th_abort; auto].
    - apply th_resbody. exact K. }
  destruct s; simpl; try exact R; try exact RB; try exact RS; try (destruct (t_url t); exact R).
  destruct (header_get _ _); exact R.
Qed.

Lemma th_fetch : forall O e v t t' out, fetch O e v t = Ret (t', out) -> touches t t'.
Proof.
  induction v as [c f|s|g p|g p|v IH]; intros t t' out H; cbn [fetch] in H.
  - eapply th_coll; eauto.
  - pose proof (th_scalar O e s t) as F. destruct (fetch_scalar O e s t) as [t1 o].
    inversion H; subst. exact F.
  - apply bind_Ret in H as ([t1 a] & H1 & H). apply bind_Ret in H as ([t2 b] & H2 & H). inversion H; subst.
    eapply th_trans; eapply th_coll; eauto.
  - apply bind_Ret in H as ([t1 a] & H1 & H). apply bind_Ret in H as ([t2 b] & H2 & H). inversion H; subst.
    eapply th_trans; eapply th_coll; eauto.
  - apply bind_Ret in H as ([t1 a] & H1 & H). inversion H; subst. eauto.
Qed.

Lemma fetched_touches : forall O e vs t t' raw, fetched O e vs t t' raw -> touches t t'.
Proof. induction 1; [apply th_refl|]. eapply th_trans; [eapply th_fetch; eauto|eauto]. Qed.

Lemma touches_frame : forall t t', touches t t' -> frame t t'.
Proof.
  induction 1; eauto using frame_refl, frame_trans, frame_tick, frame_cache_set, frame_bodyerr, frame_reqbody,
    frame_resbody, frame_abort.
Qed.

(** Reading variables leaves the intervention alone, or aborts. *)
Definition iv_kept (t t' : txn) : Prop := t_abort t' = t_abort t /\ t_iv t' = t_iv t.
Definition iv_aborted (t t' : txn) : Prop :=
  t_abort t' = true /\ exists st ms, (st = 413 \/ st = 500) /\
  t_iv t' = Some (Intervention st (i_pause (get_iv t)) (i_url (get_iv t))
                    (i_log (get_iv t) ++ map (app (log_prefix t)) ms) true).
Lemma frame_prefix : forall t t', frame t t' -> log_prefix t' = log_prefix t.
Proof.
  intros t t' (R & _ & P & _). unfold request_part in R. unfold position in P.
  injection R as R1 R2 _ _ _ _ _ _. injection P as P1 _ _ _. unfold log_prefix. congruence.
Qed.
Lemma touches_iv : forall t t', touches t t' -> iv_kept t t' \/ iv_aborted t t'.
Proof.
  induction 1 as [t|a b c H1 I1 H2 I2|t|tp v t|t b|t b R|t b R|c m t C];
  try (left; split; reflexivity).
  - apply touches_frame, frame_prefix in H1. destruct I1 as [[A1 V1]|(A1 & st & ms & S & V1)].
    + destruct I2 as [[A2 V2]|(A2 & st & ms & S & V2)]; [left; split; congruence|right].
      split; [exact A2|]. exists st, ms. split; [exact S|]. unfold get_iv in *. now rewrite H1, V1 in V2.
    + right. destruct I2 as [[A2 V2]|(A2 & st' & ms' & S' & V2)].
      * split; [congruence|]. exists st, ms. split; [exact S|congruence].
      * split; [exact A2|]. exists st', (ms ++ ms'). split; [exact S'|]. rewrite V2. unfold get_iv at 1 2 3.
        rewrite V1, H1. simpl. now rewrite map_app, app_assoc.
  - left. destruct tp; split; reflexivity.
  - right. split; [reflexivity|]. exists c, [B "abort process with error " ++ m]. split; [exact C|reflexivity].
Qed.

(** ** Operators and matching *)
Lemma parse_number : forall s, number s (match parse_int64 (trim_space s) with Some v => v | None => 0 end).
Proof.
  intro s. destruct (parse_int64 (trim_space s)) as [v|] eqn:E; [left; now apply padded_iff|].
  right. split; [|reflexivity]. intros (z & H). apply padded_iff in H. congruence.
Qed.
Lemma number_fun : forall s z1 z2, number s z1 -> number s z2 -> z1 = z2.
Proof.
  intros s z1 z2 [P1|[N1 ->]] [P2|[N2 ->]]; try reflexivity; try (exfalso; eauto; fail).
  apply padded_iff in P1, P2. congruence.
Qed.
Lemma op_satisfies : forall O o s, op_match O o s = true <-> satisfies O o s.
Proof.
  intros O [re|c a] s; simpl; [reflexivity|].
  pose proof (parse_number s) as N.
  set (z := match parse_int64 (trim_space s) with Some v => v | None => 0 end) in *. clearbody z.
  destruct c; simpl; (split; [intro H; exists z; split; [exact N|lia]|intros (y & Y & H); rewrite (number_fun _ _ _ N Y); lia]).
Qed.
Lemma hit_iff : forall O r o s, r_op r = Some o -> (negb (Bool.eqb (r_not r) (op_match O o s)) = true <-> hit O r s).
Proof.
  intros O r o s E. unfold hit. pose proof (op_satisfies O o s) as S. destruct (r_not r) eqn:N, (op_match O o s) eqn:M; simpl; split; intro H;
  try discriminate; try reflexivity.
  - destruct H as (o' & E' & H). assert (o' = o) by congruence. subst. elim H. now apply S.
  - exists o. split; [exact E|]. intro Q. apply S in Q. discriminate.
  - exists o. split; [exact E|]. now apply S.
  - destruct H as (o' & E' & H). assert (o' = o) by congruence. subst. now apply S in H.
Qed.
Lemma match_values_iff : forall O r vs m, match_values O false r vs = Ret m ->
  (m = true <-> exists v, In v vs /\ hit O r v).
Proof.
  induction vs as [|v vs IH]; intros m H; simpl in H.
  - inversion H. split; [discriminate|]. intros (v & [] & _).
  - destruct (r_op r) as [o|] eqn:E; [|discriminate].
    destruct (negb (Bool.eqb (r_not r) (op_match O o v))) eqn:Q.
    + inversion H. split; [|reflexivity]. intros _. exists v. split; [now left|]. now apply (hit_iff O r o).
    + apply IH in H. rewrite H. split.
      * intros (x & I & X). exists x. split; [now right|exact X].
      * intros (x & [<-|I] & X); [|eauto]. apply (hit_iff O r o) in X; congruence.
Qed.
Lemma match_values_aborted : forall O r vs, match_values O true r vs = Ret false.
Proof. intros O r [|v vs]; reflexivity. Qed.
Lemma match_values_ret : forall O r o vs b, r_op r = Some o -> exists m, match_values O b r vs = Ret m.
Proof.
  intros O r o vs b E. induction vs as [|v vs IH]; simpl; [eauto|]. destruct b; [eauto|]. rewrite E.
  destruct (negb _); eauto.
Qed.
Lemma match_values_total : forall O r vs b, match_values O b r vs <> Timeout.
Proof.
  intros O r vs b. induction vs as [|v vs IH]; simpl; [discriminate|]. destruct b; [discriminate|].
  destruct (r_op r); [|discriminate]. destruct (negb _); [discriminate|exact IH].
Qed.

Definition transformed (O : oracles) (r : rule) (s : bs) : bs :=
  fold_left (fun v tr => apply_trans O tr v) (r_trans r) s.

(** ** Rule evaluation as relations *)
(** [evals O e r t t' m]: matching [r] in state [t] gives [m] and leaves [t']. *)
Definition evals (O : oracles) (e : engine) (r : rule) (t t' : txn) (m : bool) : Prop :=
  match_rule O e r t = Ret (t', m).
(** All rules of a list match, one after the other. *)
Inductive all_match (O : oracles) (e : engine) : list rule -> txn -> txn -> Prop :=
| am_nil : forall t, all_match O e [] t t
| am_cons : forall r rs t t1 t2, evals O e r t t1 true -> all_match O e rs t1 t2 ->
    all_match O e (r :: rs) t t2.
(** Some rule of the list does not match; those before it do. *)
Inductive some_miss (O : oracles) (e : engine) : list rule -> txn -> txn -> Prop :=
| sm_here : forall r rs t t1, evals O e r t t1 false -> some_miss O e (r :: rs) t t1
| sm_later : forall r rs t t1 t2, evals O e r t t1 true -> some_miss O e rs t1 t2 ->
    some_miss O e (r :: rs) t t2.

Ltac use_evals := match goal with [ K : evals _ _ _ _ _ _ |- _ ] => unfold evals in K; rewrite K end.
Lemma match_subs_iff : forall O e subs t t' m, match_subs O e subs t = Ret (t', m) <->
  (m = true /\ all_match O e subs t t') \/ (m = false /\ some_miss O e subs t t').
Proof.
  intros O e. induction subs as [|s subs IH]; intros t t' m; simpl.
  - split.
    + intro H. apply Ret_inj in H. injection H as <- <-. left. split; [reflexivity|constructor].
    + intros [[-> H]|[-> H]]; inversion H. reflexivity.
  - split.
    + intro H. apply bind_Ret in H as ([t1 m1] & H1 & H). destruct m1.
      * apply IH in H as [[-> H]|[-> H]]; [left|right]; (split; [reflexivity|]); [eapply am_cons|eapply sm_later]; eauto; exact H1.
      * apply Ret_inj in H. injection H as <- <-. right. split; [reflexivity|]. apply sm_here. exact H1.
    + intros [[-> H]|[-> H]]; inversion H; subst.
      * use_evals. cbn [bind]. apply IH. auto.
      * use_evals. reflexivity.
      * use_evals. cbn [bind]. apply IH. auto.
Qed.

Lemma evals_touches : forall O e r t t' m, evals O e r t t' m -> touches t t'.
Proof.
  intros O e r t t' m H. unfold evals, match_rule in H. apply bind_Ret in H as ([t1 vs] & H1 & H).
  apply bind_Ret in H as (x & H2 & H). apply Ret_inj in H. injection H as <- <-.
  apply C07_transforms_left_to_right in H1 as (raw & F & _). eapply fetched_touches; eauto.
Qed.
Lemma evals_no_abort : forall O e r t t', evals O e r t t' true -> t_abort t' = false.
Proof.
  intros O e r t t' H. unfold evals, match_rule in H. apply bind_Ret in H as ([t1 vs] & H1 & H).
  apply bind_Ret in H as (x & H2 & H). apply Ret_inj in H. injection H as <- ->.
  destruct (t_abort t1); [|reflexivity]. rewrite match_values_aborted in H2. discriminate.
Qed.
Lemma all_match_touches : forall O e rs t t', all_match O e rs t t' -> touches t t'.
Proof. induction 1; [apply th_refl|]. eapply th_trans; [eapply evals_touches; eauto|eauto]. Qed.
Lemma some_miss_touches : forall O e rs t t', some_miss O e rs t t' -> touches t t'.
Proof.
  induction 1; [eapply evals_touches; eauto|]. eapply th_trans; [eapply evals_touches; eauto|eauto].
Qed.
Lemma all_match_no_abort : forall O e rs t t', all_match O e rs t t' -> rs <> [] -> t_abort t' = false.
Proof.
  induction 1 as [|r rs t t1 t2 E A IH]; intro N; [easy|]. destruct rs as [|r' rs].
  - inversion A; subst. eapply evals_no_abort; eauto.
  - apply IH. discriminate.
Qed.

(** ** Actions *)
Definition effect (rs : ruleset) (a : action) (t : txn) : txn :=
  match a with
  | ADeny => do_deny t
  | AAllow arg => do_allow arg t
  | ABlock => t
  | ALog => do_log t
  | APass => reset_intervention t
  | ASkip => snd (jump_to rs (t_cur t + 2) t)
  | AStatus s => with_status t (Some s)
  end.
Definition effects (rs : ruleset) (l : list action) (t : txn) : txn := fold_left (fun t a => effect rs a t) l t.
Lemma effects_app : forall rs a b t, effects rs (a ++ b) t = effects rs b (effects rs a t).
Proof. intros. apply fold_left_app. Qed.

Definition act1 (f : nat) (rs : ruleset) (a : action) (t : txn) : out txn :=
  match a with ABlock => actions_execute f rs (rs_default rs) t | _ => Ret (effect rs a t) end.
Fixpoint act_list (f : nat) (rs : ruleset) (l : list action) (t : txn) : out txn :=
  match l with
  | [] => Ret t
  | a :: l' => t1 <- act1 f rs a t ;; act_list f rs l' t1
  end.
Lemma execute_eq : forall f rs as_ t, actions_execute (S f) rs as_ t = act_list f rs (grouped as_) t.
Proof.
  intros f rs as_ t. cbn [actions_execute]. generalize (grouped as_) as l. intro l.
  assert (G : forall l acc, fold_left (fun acc a => t <- acc ;; 
     match a with
           | ADeny => Ret (do_deny t)
           | AAllow arg => Ret (do_allow arg t)
           | ABlock => actions_execute f rs (rs_default rs) t
           | ALog => Ret (do_log t)
           | APass => Ret (reset_intervention t)
           | ASkip => Ret (snd (jump_to rs (t_cur t + 2) t))
           | AStatus s => Ret (with_status t (Some s))
           end) l acc = (t <- acc ;; act_list f rs l t)).
  { clear. induction l as [|a l IH]; intro acc; cbn [fold_left act_list].
    - destruct acc; reflexivity.
    - rewrite IH. destruct acc as [t| |]; cbn [bind]; try reflexivity. now destruct a. }
  now rewrite G.
Qed.

(** The grouping is the stable one. *)
Lemma group_of_nat : forall a, group_of a = Z.of_nat (action_group a).
Proof. intros []; reflexivity. Qed.
Lemma group_range : forall a, (action_group a < 5)%nat.
Proof. intros []; simpl; lia. Qed.
Lemma filter_filter_eq : forall A (p q : A -> bool) l, List.filter p (List.filter q l) = List.filter (fun x => p x && q x) l.
Proof.
  induction l as [|x l IH]; simpl; [reflexivity|]. destruct (q x) eqn:Q; simpl.
  - rewrite andb_true_r. destruct (p x); now rewrite IH.
  - now rewrite andb_false_r, IH.
Qed.
Lemma filter_none : forall A (p : A -> bool) l, (forall x, In x l -> p x = false) -> List.filter p l = [].
Proof.
  induction l as [|x l IH]; intro H; simpl; [reflexivity|]. rewrite H by now left. apply IH. intros y I. apply H. now right.
Qed.
Lemma filter_bucket_same : forall as_ g n, n = Z.of_nat g ->
  List.filter (fun a => group_of a =? n) (bucket as_ g) = List.filter (fun a => group_of a =? n) as_.
Proof.
  intros as_ g n ->. unfold bucket. rewrite filter_filter_eq. apply filter_ext. intro a. rewrite group_of_nat.
  destruct (Nat.eqb_spec (action_group a) g); simpl; [apply andb_true_r|]. rewrite andb_false_r. lia.
Qed.
Lemma filter_bucket_other : forall as_ g n, n <> Z.of_nat g -> List.filter (fun a => group_of a =? n) (bucket as_ g) = [].
Proof.
  intros as_ g n N. apply filter_none. intros a I. unfold bucket in I. apply filter_In in I as [_ I].
  apply Nat.eqb_eq in I. rewrite group_of_nat. lia.
Qed.
Lemma grouped_filter : forall as_ n, List.filter (fun a => group_of a =? n) (grouped as_) = List.filter (fun a => group_of a =? n) as_.
Proof.
  intros as_ n. unfold grouped, ActionGroupCount. cbn [seq flat_map]. rewrite !filter_app.
  destruct (Z.eq_dec n 0); [|destruct (Z.eq_dec n 1); [|destruct (Z.eq_dec n 2); [|destruct (Z.eq_dec n 3); [|destruct (Z.eq_dec n 4)]]]].
  6:{ rewrite !filter_bucket_other by lia. simpl. symmetry. apply filter_none. intros a _.
      pose proof (group_range a). rewrite group_of_nat. lia. }
  all: subst n.
  - rewrite (filter_bucket_same as_ 0) by reflexivity. rewrite !(filter_bucket_other as_ _ 0) by lia. now rewrite ?app_nil_l, ?app_nil_r.
  - rewrite (filter_bucket_same as_ 1) by reflexivity. rewrite !(filter_bucket_other as_ _ 1) by lia. now rewrite ?app_nil_l, ?app_nil_r.
  - rewrite (filter_bucket_same as_ 2) by reflexivity. rewrite !(filter_bucket_other as_ _ 2) by lia. now rewrite ?app_nil_l, ?app_nil_r.
  - rewrite (filter_bucket_same as_ 3) by reflexivity. rewrite !(filter_bucket_other as_ _ 3) by lia. now rewrite ?app_nil_l, ?app_nil_r.
  - rewrite (filter_bucket_same as_ 4) by reflexivity. rewrite !(filter_bucket_other as_ _ 4) by lia. now rewrite ?app_nil_l, ?app_nil_r.
Qed.

(** A list sorted by group is determined by its groups. *)
Lemma sorted_determined : forall g1 g2 : list action,
  Sorted Z.le (map group_of g1) -> Sorted Z.le (map group_of g2) ->
  (forall n, List.filter (fun a => group_of a =? n) g1 = List.filter (fun a => group_of a =? n) g2) -> g1 = g2.
Proof.
  induction g1 as [|a g1 IH]; intros g2 S1 S2 F.
  - destruct g2 as [|b g2]; [reflexivity|]. specialize (F (group_of b)). simpl in F. rewrite Z.eqb_refl in F. discriminate.
  - destruct g2 as [|b g2]; [specialize (F (group_of a)); simpl in F; rewrite Z.eqb_refl in F; discriminate|].
    apply Sorted_StronglySorted in S1, S2; try (intros x y z; lia).
    inversion S1 as [|x l SS1 L1]; subst. inversion S2 as [|x l SS2 L2]; subst. rewrite Forall_forall in L1, L2.
    assert (E : group_of a = group_of b).
    { pose proof (F (group_of a)) as Fa. pose proof (F (group_of b)) as Fb. simpl in Fa, Fb.
      rewrite Z.eqb_refl in Fa, Fb.
      destruct (Z.eqb_spec (group_of b) (group_of a)) as [Q|Q]; [congruence|].
      destruct (Z.eqb_spec (group_of a) (group_of b)) as [Q'|Q']; [congruence|].
      assert (Ia : In a (List.filter (fun x => group_of x =? group_of a) g2)) by (rewrite <- Fa; now left).
      assert (Ib : In b (List.filter (fun x => group_of x =? group_of b) g1)) by (rewrite Fb; now left).
      apply filter_In in Ia as [Ia _]. apply filter_In in Ib as [Ib _].
      apply (in_map group_of) in Ia, Ib. apply L2 in Ia. apply L1 in Ib. lia. }
    assert (Q : a = b).
    { pose proof (F (group_of a)) as Fa. simpl in Fa. rewrite <- E, Z.eqb_refl in Fa. now injection Fa. }
    subst b. f_equal. apply IH.
    + now apply StronglySorted_Sorted.
    + now apply StronglySorted_Sorted.
    + intro n. specialize (F n). simpl in F. destruct (group_of a =? n); [now injection F|exact F].
Qed.
Lemma perm_by_groups : forall (l g : list action),
  (forall n, List.filter (fun a => group_of a =? n) g = List.filter (fun a => group_of a =? n) l) -> Permutation l g.
Proof.
  induction l as [|a l IH]; intros g F.
  - destruct g as [|b g]; [constructor|]. specialize (F (group_of b)). simpl in F. rewrite Z.eqb_refl in F. discriminate.
  - assert (I : exists g1 g2, g = g1 ++ a :: g2 /\ forall x, In x g1 -> group_of x <> group_of a).
    { pose proof (F (group_of a)) as Fa. simpl in Fa. rewrite Z.eqb_refl in Fa. clear -Fa. revert Fa.
      induction g as [|b g IH]; simpl; [discriminate|]. destruct (Z.eqb_spec (group_of b) (group_of a)) as [Q|Q]; intro H.
      - injection H as -> _. exists [], g. split; [reflexivity|]. intros x [].
      - destruct (IH H) as (g1 & g2 & -> & N). exists (b :: g1), g2. split; [reflexivity|]. intros x [<-|X]; auto. }
    destruct I as (g1 & g2 & -> & N). apply Permutation_cons_app. apply IH. intro n. specialize (F n).
    rewrite filter_app in *. simpl in F. destruct (Z.eqb_spec (group_of a) n) as [Q|Q]; [|exact F].
    rewrite (filter_none _ _ g1) in *; try (intros x X; specialize (N x X); lia). simpl in *. now injection F.
Qed.
Lemma seq_sorted_concat : forall as_ k m, Sorted Z.le (map group_of (flat_map (bucket as_) (seq k m))).
Proof.
  intros as_ k m. apply StronglySorted_Sorted. revert k. induction m as [|m IH]; intro k; cbn [seq flat_map]; [constructor|].
  rewrite map_app.
  assert (A : forall a, In a (map group_of (bucket as_ k)) -> a = Z.of_nat k).
  { intros a I. apply in_map_iff in I as (x & <- & I). unfold bucket in I. apply filter_In in I as [_ I].
    apply Nat.eqb_eq in I. rewrite group_of_nat. lia. }
  assert (L : forall a, In a (map group_of (flat_map (bucket as_) (seq (S k) m))) -> Z.of_nat k <= a).
  { intros a I. apply in_map_iff in I as (x & <- & I). apply in_flat_map in I as (j & J & I). apply in_seq in J.
    unfold bucket in I. apply filter_In in I as [_ I]. apply Nat.eqb_eq in I. rewrite group_of_nat. lia. }
  specialize (IH (S k)). revert IH A L. generalize (map group_of (bucket as_ k)) as x.
  generalize (map group_of (flat_map (bucket as_) (seq (S k) m))) as y. intros y x Sy A L.
  induction x as [|a x IHx]; [exact Sy|]. simpl. constructor.
  - apply IHx. intros b I. apply A. now right.
  - apply Forall_forall. intros b I. pose proof (A a (or_introl eq_refl)). apply in_app_iff in I as [I|I]; [pose proof (A b (or_intror I)); lia|specialize (L b I); lia].
Qed.
Lemma grouped_stable : forall as_, stable_grouping as_ (grouped as_).
Proof.
  intro as_. split; [apply perm_by_groups, grouped_filter|]. split; [apply seq_sorted_concat|apply grouped_filter].
Qed.
Lemma stable_unique : forall as_ g1 g2, stable_grouping as_ g1 -> stable_grouping as_ g2 -> g1 = g2.
Proof.
  intros as_ g1 g2 (_ & S1 & F1) (_ & S2 & F2). apply sorted_determined; auto. intro n. now rewrite F1, F2.
Qed.

(** Executing a list is executing what it unfolds to. *)
Lemma unfolds_fun : forall d g l1 l2, unfolds d g l1 -> unfolds d g l2 -> l1 = l2.
Proof.
  intros d g l1 l2 H. revert l2. induction H as [|a l l' N H IH|g l a b S H1 IH1 H2 IH2]; intros x X; inversion X; subst; try easy.
  - f_equal. auto.
  - pose proof (stable_unique _ _ _ S H0) as <-. f_equal; auto.
Qed.
Lemma act_list_unfolds : forall f rs l t t', act_list f rs l t = Ret t' ->
  exists l', unfolds (rs_default rs) l l' /\ t' = effects rs l' t.
Proof.
  induction f as [f IHf] using lt_wf_ind. intros rs l. induction l as [|a l IH]; intros t t' H; cbn [act_list] in H.
  - apply Ret_inj in H. subst. exists []. split; [constructor|reflexivity].
  - apply bind_Ret in H as (t1 & H1 & H). apply IH in H as (l2 & U2 & ->).
    assert (D : a = ABlock \/ (a <> ABlock /\ act1 f rs a t = Ret (effect rs a t)))
      by (destruct a; try (right; split; [discriminate|reflexivity]); now left).
    destruct D as [->|[N E]].
    2:{ rewrite E in H1. apply Ret_inj in H1. subst t1. exists (a :: l2). split; [now apply uf_cons|reflexivity]. }
    cbn [act1] in H1.
    destruct f as [|f]; [discriminate H1|]. rewrite execute_eq in H1. apply (IHf f (Nat.lt_succ_diag_r f)) in H1 as (l1 & U1 & ->).
    exists (l1 ++ l2). split; [eapply uf_block; [apply grouped_stable|exact U1|exact U2]|]. now rewrite effects_app.
Qed.
Lemma act_list_mono : forall f f' rs l t, (f <= f')%nat -> act_list f rs l t <> Timeout -> act_list f' rs l t = act_list f rs l t.
Proof.
  induction f as [f IHf] using lt_wf_ind. intros f' rs l. induction l as [|a l IH]; intros t L N; cbn [act_list] in *; [reflexivity|].
  assert (E : act1 f' rs a t = act1 f rs a t).
  { destruct a; try reflexivity. cbn [act1] in *. destruct f as [|f]; [elim N; reflexivity|]. destruct f' as [|f']; [lia|].
    rewrite !execute_eq in *. apply IHf; try lia. intro Q. rewrite Q in N. now elim N. }
  rewrite E. destruct (act1 f rs a t) as [t1| |]; cbn [bind] in *; try reflexivity. apply IH; auto.
Qed.
Lemma execute_mono : forall f f' rs l t, (f <= f')%nat -> actions_execute f rs l t <> Timeout ->
  actions_execute f' rs l t = actions_execute f rs l t.
Proof.
  intros [|f] f' rs l t L N; [elim N; reflexivity|]. destruct f' as [|f']; [lia|]. rewrite !execute_eq in *.
  apply act_list_mono; auto. lia.
Qed.
Lemma unfolds_act_list : forall rs l l', unfolds (rs_default rs) l l' ->
  exists f, forall t, act_list f rs l t = Ret (effects rs l' t).
Proof.
  intros rs l l' H. induction H as [|a l l' N H IH|g l l1 l2 ST H1 IH1 H2 IH2].
  - exists 0%nat. reflexivity.
  - destruct IH as (f & IH). exists f. intro t. cbn [act_list]. destruct a; try easy; cbn [act1 bind]; apply IH.
  - destruct IH1 as (f1 & I1). destruct IH2 as (f2 & I2). exists (S f1 + f2)%nat. intro t. cbn [act_list act1].
    rewrite (stable_unique _ _ _ ST (grouped_stable _)) in *.
    rewrite (execute_mono (S f1)); [|lia|rewrite execute_eq, I1; discriminate]. rewrite execute_eq, I1. cbn [bind].
    rewrite effects_app. rewrite (act_list_mono f2); [apply I2|lia|rewrite I2; discriminate].
Qed.
Lemma execute_iff : forall rs as_ t t',
  (exists f, actions_execute f rs as_ t = Ret t') <->
  exists l, rule_actions (rs_default rs) as_ l /\ t' = effects rs l t.
Proof.
  intros rs as_ t t'. split.
  - intros ([|f] & H); [discriminate|]. rewrite execute_eq in H. apply act_list_unfolds in H as (l & U & ->).
    exists l. split; [|reflexivity]. exists (grouped as_). split; [apply grouped_stable|exact U].
  - intros (l & (g & S & U) & ->). apply unfolds_act_list in U as (f & U). exists (Datatypes.S f).
    rewrite execute_eq, <- (stable_unique _ _ _ S (grouped_stable _)). apply U.
Qed.
Lemma execute_rule : forall f rs as_ t t', actions_execute f rs as_ t = Ret t' ->
  exists l, rule_actions (rs_default rs) as_ l /\ t' = effects rs l t.
Proof. intros f rs as_ t t' H. apply execute_iff. eauto. Qed.
Lemma subs_execute_iff : forall f rs subs t t', subs_execute f rs subs t = Ret t' ->
  exists l, chain_actions (rs_default rs) subs l /\ t' = effects rs l t.
Proof.
  induction subs as [|s subs IH]; intros t t' H; simpl in H.
  - apply Ret_inj in H. subst. exists []. split; [constructor|reflexivity].
  - apply bind_Ret in H as (t1 & H1 & H). apply execute_rule in H1 as (l1 & R1 & ->). apply IH in H as (l2 & R2 & ->).
    exists (l1 ++ l2). split; [now constructor|]. now rewrite effects_app.
Qed.
Lemma subs_execute_mono : forall f f' rs subs t, (f <= f')%nat -> subs_execute f rs subs t <> Timeout ->
  subs_execute f' rs subs t = subs_execute f rs subs t.
Proof.
  induction subs as [|s subs IH]; intros t L N; simpl in *; [reflexivity|].
  assert (E : actions_execute f' rs (r_acts s) t = actions_execute f rs (r_acts s) t).
  { apply execute_mono; [exact L|]. intro Q. rewrite Q in N. now elim N. }
  rewrite E. destruct (actions_execute f rs (r_acts s) t); cbn [bind] in *; try reflexivity. auto.
Qed.
Lemma chain_execute : forall rs subs l, chain_actions (rs_default rs) subs l ->
  exists f, forall t, subs_execute f rs subs t = Ret (effects rs l t).
Proof.
  intros rs subs l H. induction H as [|r rr l1 l2 R H IH].
  - exists 0%nat. reflexivity.
  - destruct IH as (f2 & I2). destruct R as (g & S & U). apply unfolds_act_list in U as (f1 & U).
    rewrite (stable_unique _ _ _ S (grouped_stable _)) in U.
    exists (Datatypes.S f1 + f2)%nat. intro t. cbn [subs_execute].
    rewrite (execute_mono (Datatypes.S f1)); [|lia|rewrite execute_eq, U; discriminate]. rewrite execute_eq, U. cbn [bind].
    rewrite (subs_execute_mono f2); [rewrite I2, effects_app; reflexivity|lia|rewrite I2; discriminate].
Qed.

(** ** A rule with its chain *)
Lemma do_rule_ret : forall f O e rs r t t', do_rule f O e rs r t = Ret t' ->
  some_miss O e (r :: r_subs r) t t' \/
  exists t1 l, all_match O e (r :: r_subs r) t t1 /\ chain_actions (rs_default rs) (r :: r_subs r) l /\ t' = effects rs l t1.
Proof.
  intros f O e rs r t t' H. unfold do_rule in H. apply bind_Ret in H as ([t1 m] & H1 & H). destruct m.
  - apply bind_Ret in H as ([t2 m] & H2 & H). destruct m.
    + apply bind_Ret in H as (t3 & H3 & H). apply match_subs_iff in H2 as [[_ H2]|[H2 _]]; [|discriminate].
      apply execute_rule in H3 as (l1 & R1 & ->). apply subs_execute_iff in H as (l2 & R2 & ->).
      right. exists t2, (l1 ++ l2). split; [econstructor; eauto; exact H1|]. split; [now constructor|]. now rewrite effects_app.
    + apply Ret_inj in H. subst. apply match_subs_iff in H2 as [[H2 _]|[_ H2]]; [discriminate|].
      left. eapply sm_later; eauto.
  - apply Ret_inj in H. subst. left. apply sm_here. exact H1.
Qed.
Lemma do_rule_miss : forall f O e rs r t t', some_miss O e (r :: r_subs r) t t' -> do_rule f O e rs r t = Ret t'.
Proof.
  intros f O e rs r t t' H. unfold do_rule. inversion H; subst.
  - use_evals. reflexivity.
  - use_evals. cbn [bind].
    assert (M : match_subs O e (r_subs r) t1 = Ret (t', false)) by (apply match_subs_iff; auto).
    rewrite M. reflexivity.
Qed.
Lemma do_rule_all : forall O e rs r t t1 l, all_match O e (r :: r_subs r) t t1 ->
  chain_actions (rs_default rs) (r :: r_subs r) l -> exists f, do_rule f O e rs r t = Ret (effects rs l t1).
Proof.
  intros O e rs r t t1 l A C. apply chain_execute in C as (f & C). specialize (C t1). cbn [subs_execute] in C.
  inversion A; subst. exists f. unfold do_rule. use_evals. cbn [bind].
  assert (M : match_subs O e (r_subs r) t2 = Ret (t1, true)) by (apply match_subs_iff; auto).
  rewrite M. cbn [bind]. exact C.
Qed.
Lemma chain_fun : forall d rr l1 l2, chain_actions d rr l1 -> chain_actions d rr l2 -> l1 = l2.
Proof.
  intros d rr l1 l2 H. revert l2. induction H as [|r rr a b (g & S & U) H IH]; intros l2 X; inversion X as [|r' rr' a' b' (g' & S' & U') H']; subst; [reflexivity|].
  rewrite (stable_unique _ _ _ S' S) in U'. rewrite (unfolds_fun _ _ _ _ U' U). f_equal. now apply IH.
Qed.
Lemma nth_error_Some_lt : forall A (l : list A) n x, nth_error l n = Some x -> (n < length l)%nat.
Proof. intros A l n x H. apply nth_error_Some. congruence. Qed.
