(** Facts for PropChronicle: looking at variables and judging rules, against the account of SpecChronicle. *)
From Verif Require Import Base BaseFacts GoStrings Utils Buffer BufferFacts SpecBuffer Types Transforms Operators Transaction Variables Rules Engine
  SpecText NumFacts SpecVars VarText VarFacts BodyFacts SpecRules PropText PropVars RuleFacts Scanner Loader SpecParse ParseFacts ParseLists ParseFiles ParsePrint
  SpecLoad LoadFacts SpecTxn TxnFacts LoopFacts Witness PropRules PropPhases PropTxn PropLoad PropEnd SpecData PropData SpecGate PropGate PropLog SpecBody PropBody PropSafe PropFile SpecVerdict PropVerdict
  SpecHang PropHang SpecAnswer PropAnswer SpecReply PropReply SpecAccount PropAccount SpecQuery PropQuery TransFacts SpecChronicle.
From Coq Require Import ZifyBool.

(** ** The state behind a standing *)
Definition facts_of (t : txn) : facts :=
  Facts (t_srcip t) (t_srcport t) (t_url t) (t_method t) (t_reqproto t) (t_reqheader t) (t_code t) (t_resproto t) (t_resheader t).
Inductive form_rel : option iface -> option found -> Prop :=
| fr_none : form_rel None None
| fr_nil : form_rel (Some INil) (Some Nothing)
| fr_pairs : forall ps, form_rel (Some (IValues (add_pairs ps []))) (Some (Some_of (Pairs ps))).
Inductive multi_rel : option iface -> option found -> Prop :=
| mr_none : multi_rel None None
| mr_nil : multi_rel (Some INil) (Some Nothing)
| mr_form : forall m, multi_rel (Some (IForm (Some m))) (Some (Some_of (Entries m)))
| mr_no_form : multi_rel (Some (IForm None)) (Some Missing).
Definition holds_bodies (n : bodies) (t : txn) : Prop :=
  form_rel (t_cache_url t) (n_form n) /\ multi_rel (t_cache_mp t) (n_multi n) /\ n_req n = t_reqbody t /\ n_res n = t_resbody t /\
  b_readed (t_reqbody t) = false /\ b_readed (t_resbody t) = false.
Definition no_more {A} (l : list A) : bool := match l with [] => false | _ => true end.
Definition iv_end (pre : bs) (i : option intervention) (en : ending) : option intervention :=
  Some (add_log (set_disruptive (match i with Some i => i | None => reset_iv end) (fst en)) (pre ++ B "abort process with error " ++ snd en)).
(** [t'] is [t] after looking, which ended the transaction as [en] says. *)
Definition looked (en : list ending) (t t' : txn) : Prop :=
  facts_of t' = facts_of t /\ t_phase t' = t_phase t /\ t_cur t' = t_cur t /\ t_next t' = t_next t /\ t_status t' = t_status t /\
  t_abort t' = t_abort t || no_more en /\ t_iv t' = fold_left (iv_end (log_prefix t)) en (t_iv t).
Lemma looked_refl : forall t, looked [] t t.
Proof. intro t. repeat split; cbn; auto. now rewrite orb_false_r. Qed.
Lemma facts_prefix : forall t t', facts_of t' = facts_of t -> t_phase t' = t_phase t -> log_prefix t' = log_prefix t.
Proof. intros t t' F P. unfold facts_of in F. injection F as F1 F2 _ _ _ _ _ _ _. unfold log_prefix. congruence. Qed.
Lemma looked_trans : forall a b t t1 t2, looked a t t1 -> looked b t1 t2 -> looked (a ++ b) t t2.
Proof.
  intros a b t t1 t2 (A1 & A2 & A3 & A4 & A5 & A6 & A7) (B1 & B2 & B3 & B4 & B5 & B6 & B7). repeat split; try congruence.
  - rewrite B6, A6. destruct (t_abort t), a; cbn; auto.
  - now rewrite B7, A7, fold_left_app, (facts_prefix _ _ A1 A2).
Qed.
Lemma left_init : forall b, b_readed b = false -> init_read b = left_at 0 b.
Proof. intros [n m l x [f|] r] R; cbn in R; subst; reflexivity. Qed.
Lemma left_set_off : forall q b, set_off q b = left_at q b.
Proof. intros q [n m l x [f|] r]; reflexivity. Qed.
Lemma left_memory : forall q b, b_file b = None -> left_at q b = b.
Proof. intros q [n m l x [f|] r] F; [discriminate|reflexivity]. Qed.

(** ** Sources *)
Lemma picked_drops : forall O f k, negb (filter_drops O f k) = true <-> picked O f k.
Proof.
  intros O f k. unfold filter_drops, picked.
  rewrite negb_true_iff, !orb_false_iff, !andb_false_iff, !negb_false_iff.
  rewrite <- !not_true_iff_false, !in_slice, !in_regex_slice.
  assert (NE : forall (l : list bs), nonempty l <> true <-> l = []) by (intros []; cbn; split; intro Q; try easy; elim Q; reflexivity).
  rewrite !NE. split.
  - intros ((P1 & P2) & P3 & P4). repeat split; auto.
    + destruct P3 as [P3|P3]; [rewrite P3; intros []|exact P3].
    + destruct P4 as [P4|P4]; [rewrite P4; intros (r & [] & _)|exact P4].
  - intros (P1 & P2 & P3 & P4). repeat split; auto.
Qed.
Lemma keeps_filter : forall A (P : A -> Prop) (p : A -> bool), (forall y, p y = true <-> P y) -> forall l, keeps P l (List.filter p l).
Proof.
  intros A P p H l. induction l as [|y l IH]; cbn; [constructor|]. destruct (p y) eqn:Q.
  - apply keeps_in; [now apply H|exact IH].
  - apply keeps_out; [rewrite <- H; congruence|exact IH].
Qed.
Lemma keeps_one : forall A (P : A -> Prop) l a b, keeps P l a -> keeps P l b -> a = b.
Proof.
  intros A P l a b H. revert b. induction H as [|y l a N H IH|y l a N H IH]; intros b K; inversion K; subst; try easy.
  - f_equal. auto.
  - auto.
Qed.
Lemma picks_pairs : forall O f ps t, ord_valid O ->
  picks O f (Pairs ps) false (snd (filter_fetch O f (add_pairs ps []) t)) /\ picks O f (Pairs ps) true (snd (filter_names O f (add_pairs ps []) t)).
Proof.
  intros O f ps t V. set (kept := List.filter (fun p => negb (filter_drops O f (fst p))) ps).
  assert (K : keeps (fun p => picked O f (fst p)) ps kept) by (apply keeps_filter; intro y; apply picked_drops).
  assert (E : fetch_with_names O f (add_pairs ps []) = add_pairs kept []) by (unfold fetch_with_names; apply (add_selected (fun k => negb (filter_drops O f k)))).
  unfold filter_fetch, filter_names. cbn [snd]. rewrite E. split; [eapply pk_values|eapply pk_names]; try exact K; apply grouped, V.
Qed.
Lemma picks_entries : forall O f m t, ord_valid O ->
  picks O f (Entries m) false (snd (filter_fetch O f m t)) /\ picks O f (Entries m) true (snd (filter_names O f m t)).
Proof.
  intros O f m t V. unfold filter_fetch, filter_names. cbn [snd].
  assert (K : keeps (fun p => picked O f (fst p)) m (fetch_with_names O f m)) by (apply keeps_filter; intro y; apply picked_drops).
  pose proof (V (t_tick t) _ (fetch_with_names O f m)) as W. apply Permutation_sym in W.
  split; [exact (pk_entries O f m _ _ false K W)|exact (pk_entries O f m _ _ true K W)].
Qed.
Lemma names_perm : forall ps (a b : list bs), names_once ps a -> names_once ps b -> Permutation a b.
Proof. intros ps a b [A1 A2] [B1 B2]. apply NoDup_Permutation; auto. intro k. now rewrite A2, B2. Qed.
Lemma picks_perm : forall O f s nm a b, picks O f s nm a -> picks O f s nm b -> Permutation a b.
Proof.
  intros O f s nm a b H K. inversion H as [ps kept l K1 K2|ps kept l K1 K2|m kept kept' nm' K1 K2]; subst; inversion K as [ps' kept2 l' L1 L2|ps' kept2 l' L1 L2|m' kept2 kept2' nm'' L1 L2]; subst;
  pose proof (keeps_one _ _ _ _ _ K1 L1); subst kept2.
  - destruct K2 as (ks & N & I & ->), L2 as (ks' & N' & I' & ->). apply Permutation_flat_map. apply NoDup_Permutation; auto. intro k. now rewrite I, I'.
  - now apply (names_perm kept).
  - assert (W : Permutation kept' kept2') by (eapply Permutation_trans; [apply Permutation_sym; exact K2|exact L2]).
    destruct nm; [now apply Permutation_map|now apply Permutation_flat_map].
Qed.
Lemma lines_assoc : forall k h, lines_of k h (match assoc k h with Some l => l | None => [] end).
Proof.
  intros k h. unfold lines_of. induction h as [|[k' l] h IH]; [right; split; [intros []|reflexivity]|]. cbn [assoc]. destruct (bs_eqb_spec k k') as [->|N].
  - left. exists [], h. split; [reflexivity|intros []].
  - destruct IH as [(h1 & h2 & E & I)|(I & E)].
    + left. exists ((k', l) :: h1), h2. rewrite E at 1. split; [reflexivity|]. intros [Q|Q]; [cbn in Q; congruence|contradiction].
    + right. split; [|exact E]. intros [Q|Q]; [cbn in Q; congruence|contradiction].
Qed.
Lemma lines_one : forall k h l, lines_of k h l -> l = match assoc k h with Some l => l | None => [] end.
Proof.
  intros k h l [(h1 & h2 & -> & N)|(N & ->)].
  - induction h1 as [|[k' l'] h1 IH]; cbn [app assoc]; [now rewrite bs_eqb_refl|]. destruct (bs_eqb_spec k k') as [->|Q]; [elim N; now left|].
    apply IH. intro I. apply N. now right.
  - now rewrite (proj2 (assoc_none _ k h) N).
Qed.
Lemma read_cookie_lines : forall h ps l, lines_of (B "Cookie") h l -> cookie_lines ps l -> read_cookie h = add_pairs ps [].
Proof.
  intros h ps l L C. apply lines_one in L. unfold read_cookie. destruct (assoc _ _); subst l; [now apply cookie_lines_fold|]. now inversion C.
Qed.
Definition reads_post (c : coll) : bool := match c with CArgsPost | CArgsPostNames => true | _ => false end.
Lemma looked_tick : forall t, looked [] t (tick t).
Proof. intro t. repeat split; cbn; auto. now rewrite orb_false_r. Qed.
Lemma bodies_tick : forall n t, holds_bodies n t -> holds_bodies n (tick t).
Proof. intros n t H. exact H. Qed.
Lemma held_sound : forall O e c f t, ord_valid O -> reads_post c = false -> exists t' l s nm, fetch O e (VColl c f) t = Ret (t', l) /\
  holds O (facts_of t) c s nm /\ picks O f s nm l /\ (t' = t \/ t' = tick t).
Proof.
  intros O e c f t V N.
  assert (NIL : forall nm, picks O f (Entries []) nm []) by (intro nm; pose proof (pk_entries O f [] [] [] nm (keeps_nil _) (perm_nil _)) as Q; now destruct nm).
  destruct c; try discriminate; cbn [fetch fetch_coll].
  - destruct (t_url t) as [u|] eqn:U; [|eexists _, _, _, _; split; [reflexivity|]; split; [now apply ho_no_args|auto]].
    destruct (query_exists (semi_sep O) (u_rawquery u)) as (ps & k & Q). eexists _, _, _, _. split; [reflexivity|]. split; [eapply ho_args; [exact U|exact Q]|].
    unfold url_query. rewrite (query_parse _ _ _ _ Q). cbn [fst]. split; [apply (picks_pairs O f ps t V)|now right].
  - destruct (t_url t) as [u|] eqn:U; [|eexists _, _, _, _; split; [reflexivity|]; split; [now apply ho_no_args_names|auto]].
    destruct (query_exists (semi_sep O) (u_rawquery u)) as (ps & k & Q). eexists _, _, _, _. split; [reflexivity|]. split; [eapply ho_args_names; [exact U|exact Q]|].
    unfold url_query. rewrite (query_parse _ _ _ _ Q). cbn [fst]. split; [apply (picks_pairs O f ps t V)|now right].
  - destruct (C18_any_header_is_read (match assoc (B "Cookie") (t_reqheader t) with Some l => l | None => [] end)) as (ps & C & _).
    pose proof (lines_assoc (B "Cookie") (t_reqheader t)) as L. rewrite (read_cookie_lines _ _ _ L C).
    eexists _, _, _, _. split; [reflexivity|]. split; [eapply ho_cookies; [exact L|exact C]|]. split; [apply (picks_pairs O f ps t V)|now right].
  - destruct (C18_any_header_is_read (match assoc (B "Cookie") (t_reqheader t) with Some l => l | None => [] end)) as (ps & C & _).
    pose proof (lines_assoc (B "Cookie") (t_reqheader t)) as L. rewrite (read_cookie_lines _ _ _ L C).
    eexists _, _, _, _. split; [reflexivity|]. split; [eapply ho_cookies_names; [exact L|exact C]|]. split; [apply (picks_pairs O f ps t V)|now right].
  - eexists _, _, _, _. split; [reflexivity|]. split; [apply ho_headers|]. split; [apply (picks_entries O f _ t V)|now right].
  - destruct (t_url t) as [u|] eqn:U; [|eexists _, _, _, _; split; [reflexivity|]; split; [now apply ho_no_headers_names|auto]].
    eexists _, _, _, _. split; [reflexivity|]. split; [apply ho_headers_names; cbn; congruence|]. split; [apply (picks_entries O f _ t V)|now right].
  - eexists _, _, _, _. split; [reflexivity|]. split; [apply ho_answers|]. split; [apply (picks_entries O f _ t V)|now right].
  - eexists _, _, _, _. split; [reflexivity|]. split; [apply ho_answers_names|]. split; [apply (picks_entries O f _ t V)|now right].
Qed.
Lemma holds_one : forall O x c s nm s' nm', holds O x c s nm -> holds O x c s' nm' -> s' = s /\ nm' = nm.
Proof.
  intros O x c s nm s' nm' H K.
  assert (QF : forall q ps k ps' k', query (semi_sep O) ps k q -> query (semi_sep O) ps' k' q -> ps' = ps).
  { intros q ps k ps' k' A C. destruct (C17_any_query_is_read (semi_sep O) q) as (a & b & _ & U). destruct (U _ _ A), (U _ _ C). congruence. }
  assert (CF : forall l l' ps ps', lines_of (B "Cookie") (x_head x) l -> lines_of (B "Cookie") (x_head x) l' -> cookie_lines ps l -> cookie_lines ps' l' -> ps' = ps).
  { intros l l' ps ps' A C D E. apply lines_one in A, C. assert (W : l' = l) by congruence. rewrite W in E. destruct (C18_any_header_is_read l) as (q & _ & U). rewrite (U _ D), (U _ E). reflexivity. }
  inversion H; subst; inversion K; subst; split; try reflexivity; try congruence.
  - match goal with A : x_url x = Some ?u, C : x_url x = Some ?v |- _ => assert (v = u) by congruence; subst v end. f_equal. eapply QF; eassumption.
  - match goal with A : x_url x = Some ?u, C : x_url x = Some ?v |- _ => assert (v = u) by congruence; subst v end. f_equal. eapply QF; eassumption.
  - f_equal. match goal with D : cookie_lines ps ?a, E : cookie_lines ps0 ?b |- _ => apply (CF a b); assumption end.
  - f_equal. match goal with D : cookie_lines ps ?a, E : cookie_lines ps0 ?b |- _ => apply (CF a b); assumption end.
Qed.
Lemma holds_not_post : forall O x c s nm, holds O x c s nm -> reads_post c = false.
Proof. intros O x c s nm []; reflexivity. Qed.
(** ** Scalars *)
Definition is_body (s : scalar) : bool := match s with SRequestBody | SResponseBody => true | _ => false end.
Lemma scalar_sound : forall O e s t, is_body s = false -> exists l, fetch_scalar O e s t = (t, l) /\ tells_scalar O (facts_of t) s l.
Proof.
  intros O e s t N.
  assert (FV : forall k, first_value k (t_resheader t) (header_get k (t_resheader t))) by (intro k; apply header_first).
  destruct s; try discriminate; cbn [fetch_scalar].
  - destruct (t_url t) as [u|] eqn:U; eexists; (split; [reflexivity|]); [now apply ts_query|apply ts_no_url; [exact U|cbn; auto]].
  - eexists. split; [reflexivity|]. apply ts_addr.
  - destruct (t_url t) as [u|] eqn:U; eexists; (split; [reflexivity|]); [eapply ts_basename; [exact U|apply basename_last]|apply ts_no_url; [exact U|cbn; auto]].
  - destruct (t_url t) as [u|] eqn:U; eexists; (split; [reflexivity|]); [now apply ts_filename|apply ts_no_url; [exact U|cbn; auto]].
  - eexists. split; [reflexivity|]. apply ts_method.
  - eexists. split; [reflexivity|]. apply ts_proto.
  - destruct (t_url t) as [u|] eqn:U; eexists; (split; [reflexivity|]); [exact (ts_uri O (facts_of t) u U)|apply ts_no_url; [exact U|cbn; auto]].
  - specialize (FV (B "Content-Length")). destruct (header_get (B "Content-Length") (t_resheader t)) as [|c l]; eexists; (split; [reflexivity|]); [now apply ts_no_length|now apply ts_length].
  - specialize (FV (B "Content-Type")). destruct (header_get (B "Content-Type") (t_resheader t)) as [|c l] eqn:Q; eexists; (split; [reflexivity|]); [now apply ts_no_type|].
    apply (ts_type O (facts_of t) (c :: l)); [exact FV|discriminate].
  - eexists. split; [reflexivity|]. apply ts_rproto.
  - eexists. split; [reflexivity|]. apply ts_status, itoa_decimal.
Qed.
Lemma scalar_one : forall O x s a b, tells_scalar O x s a -> tells_scalar O x s b -> b = a.
Proof.
  intros O x s a b H K. inversion H; subst; inversion K; subst; try reflexivity; try congruence;
  repeat match goal with A : first_value ?k ?h ?y, C : first_value ?k ?h ?z |- _ => assert (z = y) by (eapply first_value_fun; eassumption); clear C end;
  try (now subst); try congruence.
  all: try match goal with A : In _ [SQueryString; SRequestFilename; SRequestBasename; SRequestUri] |- _ => cbn in A; intuition congruence end.
  - match goal with A : x_url x = Some ?u, C : x_url x = Some ?v |- _ => assert (v = u) by congruence; subst v end. f_equal. eapply last_segment_fun; eassumption.
  - match goal with A : decimal ?y _, C : decimal ?z _ |- _ => apply decimal_itoa in A, C; congruence end.
Qed.
Lemma scalar_not_body : forall O x s l, tells_scalar O x s l -> is_body s = false.
Proof. intros O x s l []; try reflexivity. match goal with A : In _ _ |- _ => cbn in A; destruct A as [<-|[<-|[<-|[<-|[]]]]]; reflexivity end. Qed.
(** ** The body of the request *)
Definition said (ct : bs) : bs := match ct with [] => B "application/octet-stream" | _ => ct end.
Lemma typed_one : forall O x a b a' b', typed O x a b -> typed O x a' b' -> a' = a /\ b' = b.
Proof.
  intros O x a b a' b' H K. destruct H as [ct a b F N M|a b F M], K as [ct' a' b' F' N' M'|a' b' F' M'];
  pose proof (first_value_fun _ _ _ _ F F') as E; subst; split; congruence.
Qed.
Lemma typed_model : forall O t, let m := media_type O (said (header_get (B "Content-Type") (t_reqheader t))) in typed O (facts_of t) (fst m) (snd m).
Proof.
  intros O t. cbv zeta. pose proof (header_first (B "Content-Type") (t_reqheader t)) as F. destruct (header_get (B "Content-Type") (t_reqheader t)) as [|c l].
  - apply ty_none; [exact F|]. cbn [said]. now destruct (media_type O _).
  - apply (ty_given O (facts_of t) (c :: l)); [exact F|discriminate|]. cbn [said]. now destruct (media_type O _).
Qed.
Lemma inspected_parses : forall e n t, n_req n = t_reqbody t -> (inspected e (facts_of t) n <-> parses e t).
Proof. intros e n t E. unfold inspected, parses, body_method. rewrite E. cbn. intuition. Qed.
Lemma begins_iff : forall p s, begins p s <-> has_prefix p s = true.
Proof. intros p s. unfold begins. symmetry. apply has_prefix_iff. Qed.
Lemma not_begins : forall p s, has_prefix p s = false -> ~ begins p s.
Proof. intros p s H. rewrite begins_iff. congruence. Qed.
Lemma begins_excl : forall a, begins urlencoded a -> begins (B "multipart/") a -> False.
Proof. intros a H K. apply begins_iff in H, K. pose proof (prefix_excl a H). congruence. Qed.
Lemma opens_one : forall O e x n y n1 en1 z n2 en2, opens O e x n y n1 en1 -> opens O e x n z n2 en2 -> z = y /\ n2 = n1 /\ en2 = en1.
Proof.
  intros O e x n y n1 en1 z n2 en2 H K.
  assert (QF : forall q ps k ps' k', query (semi_sep O) ps k q -> query (semi_sep O) ps' k' q -> ps' = ps /\ k' = k).
  { intros q ps k ps' k' A C. destruct (C17_any_query_is_read (semi_sep O) q) as (a & b & _ & U). destruct (U _ _ A), (U _ _ C). split; congruence. }
  destruct H; inversion K; subst; try contradiction; auto; try congruence;
  repeat match goal with A : typed O x ?a ?b, C : typed O x ?a' ?b' |- _ => destruct (typed_one _ _ _ _ _ _ A C); subst; clear C end;
  try contradiction; try congruence; try (exfalso; eapply begins_excl; eassumption);
  try (match goal with A : n_form ?n = Some ?y, C : n_form ?n = Some ?z |- _ => assert (z = y) by congruence; subst end; auto; fail);
  try (match goal with A : n_multi ?n = Some ?y, C : n_multi ?n = Some ?z |- _ => assert (z = y) by congruence; subst end; auto; fail);
  try (match goal with A : query _ ?ps ?k ?q, C : query _ ?ps' ?k' ?q |- _ => destruct (QF _ _ _ _ _ A C) as [E1 E2]; try discriminate; subst; auto end; fail);
  try (match goal with A : multipart ?a ?b ?c ?d = _, C : multipart ?a ?b ?c ?d = _ |- _ => rewrite A in C; injection C as ?; subst; auto end; fail);
  try (match goal with A : multipart ?a ?b ?c ?d = _, C : multipart ?a ?b ?c ?d = _ |- _ => rewrite A in C; discriminate end).
Qed.
(** What the parser hands over. *)
Inductive rel_found : option (btype * iface) -> found -> Prop :=
| rf_none : rel_found None Nothing
| rf_pairs : forall ps, rel_found (Some (BUrlencoded, IValues (add_pairs ps []))) (Some_of (Pairs ps))
| rf_form : forall m, rel_found (Some (BMultipart, IForm (Some m))) (Some_of (Entries m))
| rf_missing : rel_found (Some (BMultipart, IForm None)) Missing.
Lemma looked_body : forall t b, looked [] t (with_reqbody t b).
Proof. intros t b. repeat split; cbn; auto. now rewrite orb_false_r. Qed.
Lemma looked_res_body : forall t b, looked [] t (with_resbody t b).
Proof. intros t b. repeat split; cbn; auto. now rewrite orb_false_r. Qed.
Lemma looked_cache : forall tp v t, looked [] t (cache_set tp v t).
Proof. intros tp v t. destruct tp; repeat split; cbn; auto; now rewrite orb_false_r. Qed.
Lemma looked_bodyerr : forall v t, looked [] t (with_bodyerr t v).
Proof. intros v t. repeat split; cbn; auto. now rewrite orb_false_r. Qed.
Lemma looked_abort : forall c m t, looked [(c, m)] t (abort_with_error c m t).
Proof. intros c m t. repeat split; cbn; auto; now destruct (t_abort t). Qed.
Definition sees (n : bodies) (t : txn) (P : found -> bodies -> list ending -> Prop) (o : out (txn * option (btype * iface))) : Prop :=
  match o with
  | Ret (t', r) => exists y n' en, P y n' en /\ rel_found r y /\ holds_bodies n' t' /\ looked en t t'
  | Panic => False
  | Timeout => forall y n' en, ~ P y n' en
  end.
Lemma opens_run : forall O e n t, holds_bodies n t -> sees n t (opens O e (facts_of t) n) (request_body_parse O e t).
Proof.
  intros O e n t (F & M & R1 & R2 & R3 & R4). pose proof (inspected_parses e n t R1) as IP. destruct (parses_dec e t) as [P|P].
  2:{ rewrite body_parse_skip by exact P. exists Nothing, n, []. split; [apply op_not; tauto|]. split; [constructor|]. split; [repeat split; auto|apply looked_refl]. }
  assert (I : inspected e (facts_of t) n) by tauto. rewrite body_parse_eq by exact P. pose proof (typed_model O t) as T. cbv zeta in T. unfold ctype.
  match goal with |- context[media_type O ?z] => replace z with (said (header_get (B "Content-Type") (t_reqheader t))) by (now destruct (header_get _ _)) end.
  destruct (media_type O (said _)) as [a b]. cbn [fst snd] in *. cbn [parse_types bt_ctype].
  destruct (has_prefix (B "application/x-www-form-urlencoded") a) eqn:HU; cbn [negb].
  - assert (BU : begins urlencoded a) by now apply begins_iff. rewrite (prefix_excl a HU). cbn [negb].
    cbn [cache_get]. destruct (t_cache_url t) as [i|] eqn:CU.
    + inversion F as [F1|F1 F2|ps F1 F2]; subst i.
      * exists Nothing, n, []. split; [eapply op_form_again; eauto|]. split; [constructor|]. split; [unfold holds_bodies; rewrite CU; repeat split; auto; rewrite <- F2; constructor|apply looked_refl].
      * exists (Some_of (Pairs ps)), n, []. split; [eapply op_form_again; eauto|]. split; [constructor|]. split; [unfold holds_bodies; rewrite CU; repeat split; auto; rewrite <- F2; constructor|apply looked_refl].
    + assert (NF : n_form n = None) by (inversion F; congruence). cbn [run_parser]. destruct (b_file (t_reqbody t)) as [fl|] eqn:FL.
      * unfold buf_string. rewrite (left_init _ R3). assert (BF : b_file (left_at 0 (t_reqbody t)) = Some (TFile (f_data fl) 0)) by (unfold left_at; cbn; now rewrite FL).
        rewrite BF. cbn [berr_msg bind].
        exists Nothing, (form_found Nothing (req_body (left_at 0 (n_req n)) n)), [out_of_memory 413]. split; [eapply op_form_large; eauto; congruence|]. split; [constructor|].
        split; [unfold holds_bodies; cbn; rewrite ?R1; repeat split; auto; constructor|].
        eapply looked_trans with (a := []) (t1 := with_reqbody t (left_at 0 (t_reqbody t))); [apply looked_body|]. eapply looked_trans with (a := [_]) (b := []); [apply looked_abort|].
        eapply looked_trans with (a := []) (b := []); [apply (looked_cache BUrlencoded)|apply looked_bodyerr].
      * rewrite (mem_string _ FL), with_reqbody_id. destruct (query_exists (semi_sep O) (b_mem (t_reqbody t))) as (ps & k & Q). rewrite (query_parse _ _ _ _ Q). cbn [bind].
        destruct k as [|k]; cbn [Nat.eqb negb].
        -- exists (Some_of (Pairs ps)), (form_found (Some_of (Pairs ps)) n), []. split; [eapply op_form; eauto; congruence|]. split; [constructor|].
           split; [repeat split; cbn; auto; constructor|apply (looked_cache BUrlencoded)].
        -- exists Nothing, (form_found (Some_of (Pairs ps)) n), []. split; [eapply op_form_bad; eauto; try congruence; rewrite R1; exact Q|]. split; [constructor|].
           split; [repeat split; cbn; auto; constructor|]. eapply looked_trans with (a := []) (b := []); [apply (looked_cache BUrlencoded)|apply looked_bodyerr].
  - pose proof (not_begins _ _ HU) as BU. destruct (has_prefix (B "multipart/") a) eqn:HM; cbn [negb].
    2:{ exists Nothing, n, []. split; [eapply op_other; eauto; now apply not_begins|]. split; [constructor|]. split; [repeat split; auto|apply looked_refl]. }
    assert (BM : begins (B "multipart/") a) by now apply begins_iff.
    cbn [cache_get]. destruct (t_cache_mp t) as [i|] eqn:CU.
    + inversion M as [F1|F1 F2|ps F1 F2|F1 F2]; subst i;
      (eexists _, n, []; split; [eapply op_multi_again; eauto|]; split; [constructor|]; split; [unfold holds_bodies; rewrite CU; repeat split; auto; rewrite <- F2; constructor|apply looked_refl]).
    + assert (NF : n_multi n = None) by (inversion M; congruence). cbn [run_parser]. destruct (multipart O (t_reqbody t) b (e_reqmem e)) as [r q] eqn:MP.
      assert (RB : b_readed (left_at q (t_reqbody t)) = false) by exact R3. rewrite left_set_off. destruct r as [m| | |]; cbn [bind].
      * exists (Some_of (Entries m)), (multi_found (Some_of (Entries m)) (req_body (left_at q (n_req n)) n)), []. split; [eapply op_multi; eauto; congruence|]. split; [constructor|].
        split; [unfold holds_bodies; cbn; rewrite ?R1; repeat split; auto; constructor|]. eapply looked_trans with (a := []) (b := []); [apply (looked_body t)|apply (looked_cache BMultipart)].
      * exists Nothing, (multi_found Nothing (req_body (left_at q (n_req n)) n)), [(413, B "multipart: message too large")]. split; [eapply op_multi_large; eauto; congruence|]. split; [constructor|].
        split; [unfold holds_bodies; cbn; rewrite ?R1; repeat split; auto; constructor|].
        eapply looked_trans with (a := []) (t1 := with_reqbody t (left_at q (t_reqbody t))); [apply looked_body|]. eapply looked_trans with (a := [_]) (b := []); [apply looked_abort|].
        eapply looked_trans with (a := []) (b := []); [apply (looked_cache BMultipart)|apply looked_bodyerr].
      * exists Nothing, (multi_found Missing (req_body (left_at q (n_req n)) n)), []. split; [eapply op_multi_bad; eauto; congruence|]. split; [constructor|].
        split; [unfold holds_bodies; cbn; rewrite ?R1; repeat split; auto; constructor|]. eapply looked_trans with (a := []) (b := []); [apply (looked_body t)|].
        eapply looked_trans with (a := []) (b := []); [apply (looked_cache BMultipart)|apply looked_bodyerr].
      * intros y n' en K. destruct K; try contradiction; try congruence;
        match goal with C : typed O _ ?a' ?b' |- _ => destruct (typed_one _ _ _ _ _ _ T C); subst end; try contradiction; try congruence.
Qed.
(** ** Variables *)
Lemma picks_not_missing : forall (y s : found), y = Nothing \/ y = Missing -> y = s -> forall z, s = Some_of z -> False.
Proof. intros y s [->| ->] <- z; discriminate. Qed.
Lemma looks_one : forall O e x v n l1 n1 en1 l2 n2 en2, looks O e x v n l1 n1 en1 -> looks O e x v n l2 n2 en2 -> Permutation l1 l2 /\ n2 = n1 /\ en2 = en1.
Proof.
  intros O e x v. 
  assert (CO : forall c f n l1 n1 en1 l2 n2 en2, looks O e x (VColl c f) n l1 n1 en1 -> looks O e x (VColl c f) n l2 n2 en2 -> Permutation l1 l2 /\ n2 = n1 /\ en2 = en1).
  { intros c f n l1 n1 en1 l2 n2 en2 H K. inversion H; subst; inversion K; subst;
    try (match goal with A : holds _ _ CArgsPost _ _ |- _ => apply holds_not_post in A; discriminate | A : holds _ _ CArgsPostNames _ _ |- _ => apply holds_not_post in A; discriminate end);
    try match goal with A : opens _ _ _ _ _ _ _, C : opens _ _ _ _ _ _ _ |- _ => let E1 := fresh "E1" in let E2 := fresh "E2" in let E3 := fresh "E3" in destruct (opens_one _ _ _ _ _ _ _ _ _ _ A C) as (E1 & E2 & E3); subst end;
    try discriminate; try (match goal with A : _ = Nothing \/ _ = Missing |- _ => destruct A; discriminate end).
    - match goal with A : holds _ _ _ _ _, C : holds _ _ _ _ _ |- _ => destruct (holds_one _ _ _ _ _ _ _ A C); subst end. split; auto. eapply picks_perm; eassumption.
    - match goal with A : Some_of _ = Some_of _ |- _ => injection A as -> end. split; auto. eapply picks_perm; eassumption.
    - auto.
    - match goal with A : Some_of _ = Some_of _ |- _ => injection A as -> end. split; auto. eapply picks_perm; eassumption.
    - auto. }
  induction v as [c f|s|g p|g p|v IH]; intros n l1 n1 en1 l2 n2 en2 H K.
  - eapply CO; eassumption.
  - inversion H; subst; inversion K; subst; try (match goal with A : tells_scalar _ _ SRequestBody _ |- _ => apply scalar_not_body in A; discriminate | A : tells_scalar _ _ SResponseBody _ |- _ => apply scalar_not_body in A; discriminate end); try contradiction; auto.
    match goal with A : tells_scalar _ _ _ _, C : tells_scalar _ _ _ _ |- _ => rewrite (scalar_one _ _ _ _ _ A C) end. auto.
  - inversion H as [| | | | |g1 f1 n0 a1 m1 b1 a2 m2 b2 X1 X2| | | | | | | | |]; subst. inversion K as [| | | | |g1 f1 n0 a1' m1' b1' a2' m2' b2' Y1 Y2| | | | | | | | |]; subst.
    destruct (CO _ _ _ _ _ _ _ _ _ X1 Y1) as (Q1 & -> & ->). destruct (CO _ _ _ _ _ _ _ _ _ X2 Y2) as (Q2 & -> & ->). split; auto. now apply Permutation_app.
  - inversion H as [| | | | | |g1 f1 n0 a1 m1 b1 a2 m2 b2 X1 X2| | | | | | | |]; subst. inversion K as [| | | | | |g1 f1 n0 a1' m1' b1' a2' m2' b2' Y1 Y2| | | | | | | |]; subst.
    destruct (CO _ _ _ _ _ _ _ _ _ X1 Y1) as (Q1 & -> & ->). destruct (CO _ _ _ _ _ _ _ _ _ X2 Y2) as (Q2 & -> & ->). split; auto. now apply Permutation_app.
  - inversion H as [| | | | | | |v1 n0 l0 n1' en0 y0 X1 D1| | | | | | |]; subst. inversion K as [| | | | | | |v2 n3 l3 n3' en3 y3 X2 D2| | | | | | |]; subst.
    destruct (IH _ _ _ _ _ _ _ X1 X2) as (Q1 & -> & ->). split; auto. apply Permutation_length in Q1. rewrite Q1 in D1. apply decimal_itoa in D1, D2. subst. auto.
Qed.
Lemma looks_break : forall O e x v n l n' en, looks O e x v n l n' en -> ~ look_breaks O e x v n.
Proof.
  intros O e x v n l n' en H. 
  induction H as [c f s nm n l H P|f n s l n' en H P|f n y n' en H P|f n s l n' en H P|f n n' en H|g f n l1 n1 en1 l2 n2 en2 H1 I1 H2 I2|g f n l1 n1 en1 l2 n2 en2 H1 I1 H2 I2|v n l n' en y H IH D|s n l H|n H|n H F|n H F|n H|n H F|n H F]; intro K; inversion K; subst.
  - apply holds_not_post in H. discriminate.
  - match goal with A : opens _ _ _ _ Missing _ _ |- _ => destruct (opens_one _ _ _ _ _ _ _ _ _ _ H A) as (E & _ & _) end. discriminate.
  - match goal with A : opens _ _ _ _ Missing _ _ |- _ => destruct (opens_one _ _ _ _ _ _ _ _ _ _ H A) as (E & _ & _) end. discriminate.
  - assert (n1 = n) by (inversion H1; subst; try reflexivity; match goal with A : holds _ _ _ _ _ |- _ => idtac end; reflexivity). subst n1. apply I2. econstructor. eassumption.
  - contradiction.
Qed.
Definition shows (n : bodies) (t : txn) (P : list bs -> bodies -> list ending -> Prop) (Q : Prop) (o : out (txn * list bs)) : Prop :=
  match o with
  | Ret (t', l) => exists n' en, P l n' en /\ holds_bodies n' t' /\ looked en t t'
  | Panic => Q
  | Timeout => (forall l n' en, ~ P l n' en) /\ ~ Q
  end.
Lemma bodies_same : forall n t t', (t' = t \/ t' = tick t) -> holds_bodies n t -> holds_bodies n t'.
Proof. intros n t t' [->| ->] H; exact H. Qed.
Lemma looked_same : forall t t', (t' = t \/ t' = tick t) -> looked [] t t'.
Proof. intros t t' [->| ->]; [apply looked_refl|apply looked_tick]. Qed.
Lemma coll_run : forall O e c f n t, ord_valid O -> holds_bodies n t ->
  shows n t (looks O e (facts_of t) (VColl c f) n) (look_breaks O e (facts_of t) (VColl c f) n) (fetch_coll O e c f t).
Proof.
  intros O e c f n t V HB. destruct (reads_post c) eqn:RP.
  2:{ destruct (held_sound O e c f t V RP) as (t' & l & s & nm & F & H & P & S). change (fetch O e (VColl c f) t) with (fetch_coll O e c f t) in F. rewrite F.
      exists n, []. split; [eapply lk_held; eassumption|]. split; [now apply (bodies_same n t)|now apply looked_same]. }
  pose proof (opens_run O e n t HB) as W. destruct c; try discriminate; cbn [fetch_coll]; unfold fetch_post, fetch_post_names; destruct (request_body_parse O e t) as [[t1 r]| |]; cbn [bind sees] in *; try contradiction.
  - destruct W as (y & n' & en & H & R & HB' & LK). inversion R; subst.
    + exists n', en. split; [eapply lk_no_post; [exact H|now left]|auto].
    + exists n', en. split; [eapply lk_post; [exact H|apply (picks_pairs O f ps t1 V)]|]. split; [exact HB'|]. rewrite <- (app_nil_r en). eapply looked_trans; [exact LK|apply looked_tick].
    + exists n', en. split; [eapply lk_post; [exact H|apply (picks_entries O f m t1 V)]|]. split; [exact HB'|]. rewrite <- (app_nil_r en). eapply looked_trans; [exact LK|apply looked_tick].
    + exists n', en. split; [eapply lk_no_post; [exact H|now right]|auto].
  - split; [intros l n' en K|intro K]; inversion K; subst; try (eapply W; eassumption). match goal with A : holds _ _ _ _ _ |- _ => apply holds_not_post in A; discriminate end.
  - destruct W as (y & n' & en & H & R & HB' & LK). inversion R; subst.
    + exists n', en. split; [eapply lk_no_post_names; exact H|auto].
    + exists n', en. split; [eapply lk_post_names; [exact H|apply (picks_pairs O f ps t1 V)]|]. split; [exact HB'|]. rewrite <- (app_nil_r en). eapply looked_trans; [exact LK|apply looked_tick].
    + exists n', en. split; [eapply lk_post_names; [exact H|apply (picks_entries O f m t1 V)]|]. split; [exact HB'|]. rewrite <- (app_nil_r en). eapply looked_trans; [exact LK|apply looked_tick].
    + eapply lb_names. exact H.
  - split; [intros l n' en K|intro K]; inversion K; subst; try (eapply W; eassumption). match goal with A : holds _ _ _ _ _ |- _ => apply holds_not_post in A; discriminate end.
Qed.
Lemma body_run : forall O e n t, holds_bodies n t -> exists l n' en, looks O e (facts_of t) (VScalar SRequestBody) n l n' en /\
  snd (fetch_request_body O e t) = l /\ holds_bodies n' (fst (fetch_request_body O e t)) /\ looked en t (fst (fetch_request_body O e t)).
Proof.
  intros O e n t HB. destruct HB as (F & M & R1 & R2 & R3 & R4). pose proof (inspected_parses e n t R1) as IP.
  assert (NO : ~ shows_text O e (facts_of t) n -> exists l n' en, looks O e (facts_of t) (VScalar SRequestBody) n l n' en /\ snd (t, @nil bs) = l /\ holds_bodies n' (fst (t, @nil bs)) /\ looked en t (fst (t, @nil bs))).
  { intro N. exists [], n, []. split; [now apply lk_no_body|]. split; [reflexivity|]. split; [repeat split; auto|apply looked_refl]. }
  unfold fetch_request_body. destruct (has_body_method t) eqn:HM; cbn [negb]; [|apply NO; intros [I _]; apply IP in I as [I _]; apply has_body_method_iff in I; congruence].
  destruct (negb (e_reqaccess e) || (buf_len (t_reqbody t) =? 0)) eqn:AC; [apply NO; intros [I _]; apply IP in I as (_ & I2 & I3); rewrite I2 in AC; unfold buf_len in AC; cbn [negb orb] in AC; apply Z.eqb_eq in AC; congruence|].
  assert (P : parses e t).
  { apply orb_false_iff in AC as [A1 A2]. apply negb_false_iff in A1. apply Z.eqb_neq in A2. apply has_body_method_iff in HM. split; auto. }
  apply IP in P. pose proof (header_first (B "Content-Type") (t_reqheader t)) as FV. destruct (header_get (B "Content-Type") (t_reqheader t)) as [|c ct] eqn:HG.
  { apply NO. intros (_ & ct & F1 & F2 & _). apply F2. eapply first_value_fun; [exact F1|exact FV]. }
  destruct (bs_eqb_spec (fst (media_type O (c :: ct))) (B "application/x-www-form-urlencoded")) as [MT|MT]; cbn [negb].
  2:{ apply NO. intros (_ & ct' & F1 & F2 & F3). rewrite (first_value_fun _ _ _ _ F1 FV) in F3. contradiction. }
  assert (ST : shows_text O e (facts_of t) n) by (split; [exact P|]; exists (c :: ct); repeat split; auto; discriminate).
  destruct (b_file (t_reqbody t)) as [fl|] eqn:FL.
  - unfold buf_string. rewrite (left_init _ R3). assert (BF : b_file (left_at 0 (t_reqbody t)) = Some (TFile (f_data fl) 0)) by (unfold left_at; cbn; now rewrite FL). rewrite BF. cbn [fst snd berr_msg].
    exists [], (req_body (left_at 0 (n_req n)) n), [out_of_memory 413]. split; [apply lk_body_large; [exact ST|congruence]|]. split; [reflexivity|].
    split; [unfold holds_bodies; cbn; rewrite ?R1; repeat split; auto|]. eapply looked_trans with (a := []) (t1 := with_reqbody t (left_at 0 (t_reqbody t))); [apply looked_body|apply looked_abort].
  - rewrite (mem_string _ FL), with_reqbody_id. cbn [fst snd]. exists [b_mem (n_req n)], n, []. split; [apply lk_body; [exact ST|congruence]|]. split; [now rewrite R1|]. split; [repeat split; auto|apply looked_refl].
Qed.
Lemma answer_run : forall O e n t, holds_bodies n t -> exists l n' en, looks O e (facts_of t) (VScalar SResponseBody) n l n' en /\
  snd (fetch_response_body e t) = l /\ holds_bodies n' (fst (fetch_response_body e t)) /\ looked en t (fst (fetch_response_body e t)).
Proof.
  intros O e n t HB. destruct HB as (F & M & R1 & R2 & R3 & R4). unfold fetch_response_body.
  destruct (negb (e_resaccess e) || (buf_len (t_resbody t) =? 0)) eqn:AC.
  { exists [], n, []. split; [apply lk_no_answer|]. 2:{ split; [reflexivity|]. split; [repeat split; auto|apply looked_refl]. }
    intros [I2 I3]. rewrite R2 in I3. rewrite I2 in AC. unfold buf_len in AC. cbn [negb orb] in AC. apply Z.eqb_eq in AC. congruence. }
  assert (ST : shows_answer e n) by (apply orb_false_iff in AC as [A1 A2]; apply negb_false_iff in A1; apply Z.eqb_neq in A2; split; [exact A1|now rewrite R2]).
  destruct (b_file (t_resbody t)) as [fl|] eqn:FL.
  - unfold buf_string. rewrite (left_init _ R4). assert (BF : b_file (left_at 0 (t_resbody t)) = Some (TFile (f_data fl) 0)) by (unfold left_at; cbn; now rewrite FL). rewrite BF. cbn [fst snd berr_msg].
    exists [], (res_body (left_at 0 (n_res n)) n), [out_of_memory 500]. split; [apply lk_answer_large; [exact ST|congruence]|]. split; [reflexivity|].
    split; [unfold holds_bodies; cbn; rewrite ?R2; repeat split; auto|]. eapply looked_trans with (a := []) (t1 := with_resbody t (left_at 0 (t_resbody t))); [apply looked_res_body|apply looked_abort].
  - rewrite (mem_string _ FL), with_resbody_id. cbn [fst snd]. exists [b_mem (n_res n)], n, []. split; [apply lk_answer; [exact ST|congruence]|]. split; [now rewrite R2|]. split; [repeat split; auto|apply looked_refl].
Qed.
Lemma looked_facts : forall en t t', looked en t t' -> facts_of t' = facts_of t.
Proof. intros en t t' H. apply H. Qed.
(** A collection of the URL leaves the bodies alone. *)
Lemma get_same : forall O e x c f n l n' en, reads_post c = false -> looks O e x (VColl c f) n l n' en -> n' = n /\ en = [].
Proof. intros O e x c f n l n' en R H. inversion H; subst; auto; discriminate. Qed.
Lemma looks_run : forall O e v n t, ord_valid O -> holds_bodies n t ->
  shows n t (looks O e (facts_of t) v n) (look_breaks O e (facts_of t) v n) (fetch O e v t).
Proof.
  intros O e v. induction v as [c f|s|g p|g p|v IH]; intros n t V HB; cbn [fetch].
  - now apply coll_run.
  - destruct (is_body s) eqn:IB.
    + destruct s; try discriminate; cbn [fetch_scalar].
      * destruct (body_run O e n t HB) as (l & n' & en & A & C & D & E). destruct (fetch_request_body O e t) as [t' l']. cbn in *. subst l'. exists n', en. auto.
      * destruct (answer_run O e n t HB) as (l & n' & en & A & C & D & E). destruct (fetch_response_body e t) as [t' l']. cbn in *. subst l'. exists n', en. auto.
    + destruct (scalar_sound O e s t IB) as (l & E & T). rewrite E. exists n, []. split; [now apply lk_scalar|]. split; [exact HB|apply looked_refl].
  - pose proof (coll_run O e CArgsGet g n t V HB) as W1. destruct (fetch_coll O e CArgsGet g t) as [[t1 a]| |] eqn:E1; cbn [shows bind] in *; [|inversion W1|cbn in E1; destruct (t_url t); discriminate].
    destruct W1 as (n1 & en1 & H1 & HB1 & L1). destruct (get_same O e _ CArgsGet _ _ _ _ _ eq_refl H1) as [-> ->].
    pose proof (coll_run O e CArgsPost p n t1 V HB1) as W2. rewrite (looked_facts _ _ _ L1) in W2. destruct (fetch_coll O e CArgsPost p t1) as [[t2 b]| |]; cbn [shows bind] in *; [|inversion W2|].
    + destruct W2 as (n2 & en2 & H2 & HB2 & L2). exists n2, ([] ++ en2). split; [eapply lk_args; eassumption|]. split; [exact HB2|]. eapply looked_trans; eassumption.
    + destruct W2 as [W2 W3]. split; [|intro K; inversion K]. intros l n' en K. inversion K as [| | | | |g1 f1 n0 a1 m1 b1 a2 m2 b2 X1 X2| | | | | | | | |]; subst.
      destruct (get_same O e _ CArgsGet _ _ _ _ _ eq_refl X1) as [-> ->]. eapply W2. eassumption.
  - pose proof (coll_run O e CArgsGetNames g n t V HB) as W1. destruct (fetch_coll O e CArgsGetNames g t) as [[t1 a]| |] eqn:E1; cbn [shows bind] in *; [|inversion W1|cbn in E1; destruct (t_url t); discriminate].
    destruct W1 as (n1 & en1 & H1 & HB1 & L1). destruct (get_same O e _ CArgsGetNames _ _ _ _ _ eq_refl H1) as [-> ->].
    pose proof (coll_run O e CArgsPostNames p n t1 V HB1) as W2. rewrite (looked_facts _ _ _ L1) in W2. destruct (fetch_coll O e CArgsPostNames p t1) as [[t2 b]| |]; cbn [shows bind] in *.
    + destruct W2 as (n2 & en2 & H2 & HB2 & L2). exists n2, ([] ++ en2). split; [eapply lk_args_names; eassumption|]. split; [exact HB2|]. eapply looked_trans; eassumption.
    + inversion W2; subst. eapply lb_args_names. eassumption.
    + destruct W2 as [W2 W3]. split.
      * intros l n' en K. inversion K as [| | | | | |g1 f1 n0 a1 m1 b1 a2 m2 b2 X1 X2| | | | | | | |]; subst.
        destruct (get_same O e _ CArgsGetNames _ _ _ _ _ eq_refl X1) as [-> ->]. eapply W2. eassumption.
      * intro K. inversion K; subst. apply W3. eapply lb_names. eassumption.
  - pose proof (IH n t V HB) as W. destruct (fetch O e v t) as [[t1 a]| |]; cbn [shows bind] in *.
    + destruct W as (n1 & en1 & H1 & HB1 & L1). exists n1, en1. split; [|auto]. eapply lk_count; [exact H1|apply itoa_decimal].
    + now apply lb_count.
    + destruct W as [W1 W2]. split; [intros l n' en K; inversion K; subst; eapply W1; eassumption|intro K; inversion K; subst; contradiction].
Qed.
(** ** All variables of a rule *)
Lemma all_one : forall O e x vs n l1 n1 en1 l2 n2 en2, looks_all O e x vs n l1 n1 en1 -> looks_all O e x vs n l2 n2 en2 -> Permutation l1 l2 /\ n2 = n1 /\ en2 = en1.
Proof.
  intros O e x vs n l1 n1 en1 l2 n2 en2 H. revert l2 n2 en2. induction H as [n|v vs n l1 n1 en1 l2 n2 en2 H1 H2 IH]; intros k m d K; inversion K as [|v' vs' n' k1 m1 d1 k2 m2 d2 K1 K2]; subst; [auto|].
  destruct (looks_one _ _ _ _ _ _ _ _ _ _ _ H1 K1) as (Q & -> & ->). destruct (IH _ _ _ K2) as (Q' & -> & ->). split; auto. now apply Permutation_app.
Qed.
Lemma all_break : forall O e x vs n l n' en, looks_all O e x vs n l n' en -> ~ all_breaks O e x vs n.
Proof.
  intros O e x vs n l n' en H. induction H as [n|v vs n l1 n1 en1 l2 n2 en2 H1 H2 IH]; intro K; inversion K as [v' vs' n' K1|v' vs' n' k1 m1 d1 K1 K2]; subst.
  - eapply looks_break; eassumption.
  - destruct (looks_one _ _ _ _ _ _ _ _ _ _ _ H1 K1) as (_ & -> & ->). contradiction.
Qed.
Lemma all_run : forall O e r vs n t, ord_valid O -> holds_bodies n t ->
  shows n t (fun l n' en => exists raw, looks_all O e (facts_of t) vs n raw n' en /\ l = map (transformed O r) raw) (all_breaks O e (facts_of t) vs n) (fetch_all O e r vs t).
Proof.
  intros O e r vs. induction vs as [|v vs IH]; intros n t V HB; cbn [fetch_all].
  - exists n, []. split; [exists []; split; [constructor|reflexivity]|]. split; [exact HB|apply looked_refl].
  - unfold transform_variable. pose proof (looks_run O e v n t V HB) as W1. destruct (fetch O e v t) as [[t1 a]| |]; cbn [shows bind] in *.
    + destruct W1 as (n1 & en1 & H1 & HB1 & L1). specialize (IH n1 t1 V HB1). rewrite (looked_facts _ _ _ L1) in IH. destruct (fetch_all O e r vs t1) as [[t2 b]| |]; cbn [shows bind] in *.
      * destruct IH as (n2 & en2 & (raw & H2 & ->) & HB2 & L2). exists n2, (en1 ++ en2). split; [exists (a ++ raw); split; [econstructor; eassumption|rewrite map_app; f_equal; apply map_ext; intro z; apply transform_fold]|]. split; [exact HB2|eapply looked_trans; eassumption].
      * eapply ab_later; eassumption.
      * destruct IH as [W2 W3]. split.
        -- intros l n' en (raw & K & ->). inversion K as [|v' vs' n0 k1 m1 d1 k2 m2 d2 K1 K2]; subst. destruct (looks_one _ _ _ _ _ _ _ _ _ _ _ H1 K1) as (_ & -> & ->). eapply W2. eauto.
        -- intro K. inversion K as [v' vs' n' K1|v' vs' n' k1 m1 d1 K1 K2]; subst; [eapply looks_break; eassumption|]. destruct (looks_one _ _ _ _ _ _ _ _ _ _ _ H1 K1) as (_ & -> & ->). contradiction.
    + now apply ab_here.
    + destruct W1 as [W1 W2]. split.
      * intros l n' en (raw & K & ->). inversion K as [|v' vs' n0 k1 m1 d1 k2 m2 d2 K1 K2]; subst. eapply W1. eassumption.
      * intro K. inversion K as [v' vs' n' K1|v' vs' n' k1 m1 d1 K1 K2]; subst; [contradiction|]. eapply W1. eassumption.
Qed.

(** ** Rules *)
Definition vd (m : bool) : verdict := if m then Hit else Miss.
Lemma values_run : forall O r raw, match match_values O false r (map (transformed O r) raw) with
  | Ret true => exists v, In v raw /\ hit O r (transformed O r v)
  | Ret false => forall v, In v raw -> r_op r <> None /\ ~ hit O r (transformed O r v)
  | Panic => raw <> [] /\ r_op r = None
  | Timeout => False end.
Proof.
  intros O r raw. induction raw as [|v raw IH]; cbn [map match_values]; [intros v []|]. destruct (r_op r) as [o|] eqn:E; [|split; [discriminate|reflexivity]].
  pose proof (hit_iff O r o (transformed O r v) E) as HI. destruct (negb _).
  - exists v. split; [now left|now apply HI].
  - destruct (match_values O false r (map (transformed O r) raw)) as [[]| |].
    + destruct IH as (w & I & H). exists w. split; [now right|exact H].
    + intros w [<-|I]; [|now apply IH]. split; [discriminate|]. intro H. apply HI in H. discriminate.
    + destruct IH. discriminate.
    + exact IH.
Qed.
Definition judged (n : bodies) (t : txn) (P : verdict -> bodies -> list ending -> Prop) (Q : Prop) (o : out (txn * bool)) : Prop :=
  match o with
  | Ret (t', m) => exists n' en, P (vd m) n' en /\ holds_bodies n' t' /\ looked en t t' /\ (m = true -> en = [])
  | Panic => Q
  | Timeout => (forall v n' en, ~ P v n' en) /\ ~ Q
  end.
Lemma judges_one : forall O e x r n v n1 en1 w n2 en2, judges O e x r n v n1 en1 -> judges O e x r n w n2 en2 -> w = v /\ n2 = n1 /\ en2 = en1.
Proof.
  intros O e x r n v n1 en1 w n2 en2 H K.
  destruct H as [l n' v H I Hi|l n' H Hi|l n' en H N], K as [l2 n2 v2 K J Ki|l2 n2 K Ki|l2 n2 en2 K M]; destruct (all_one _ _ _ _ _ _ _ _ _ _ _ H K) as (P & E1 & E2); subst; try congruence; auto.
  - exfalso. apply (Permutation_in _ P) in I. destruct (Ki _ I). contradiction.
  - exfalso. apply (Permutation_in _ (Permutation_sym P)) in J. destruct (Hi _ J). contradiction.
Qed.
Lemma judges_break : forall O e x r n v n1 en1, judges O e x r n v n1 en1 -> ~ judge_breaks O e x r n.
Proof.
  intros O e x r n v n1 en1 H K. destruct K as [K|l2 n2 K NE OP].
  - destruct H; eapply all_break; eassumption.
  - destruct H as [l n' v H I Hi|l n' H Hi|l n' en H N]; destruct (all_one _ _ _ _ _ _ _ _ _ _ _ H K) as (P & E1 & E2); subst.
    + destruct Hi as (o & E & _). congruence.
    + destruct l2 as [|y l2]; [congruence|]. destruct (Hi y) as [Q _]; [apply (Permutation_in _ (Permutation_sym P)); now left|contradiction].
    + congruence.
Qed.
Lemma no_more_nil : forall A (l : list A), no_more l = false <-> l = [].
Proof. intros A []; cbn; split; congruence. Qed.
Lemma judges_run : forall O e r n t, ord_valid O -> holds_bodies n t -> t_abort t = false ->
  judged n t (judges O e (facts_of t) r n) (judge_breaks O e (facts_of t) r n) (match_rule O e r t).
Proof.
  intros O e r n t V HB AB. unfold match_rule. pose proof (all_run O e r (r_vars r) n t V HB) as W. destruct (fetch_all O e r (r_vars r) t) as [[t1 vs]| |]; cbn [shows bind] in *.
  - destruct W as (n1 & en & (raw & H & ->) & HB1 & L). assert (A1 : t_abort t1 = no_more en) by (destruct L as (_ & _ & _ & _ & _ & L & _); now rewrite AB in L).
    rewrite A1. destruct (no_more en) eqn:NM.
    + rewrite match_values_aborted. cbn [bind judged]. exists n1, en. split; [eapply jg_end; [exact H|intro Q; subst; discriminate]|]. split; [exact HB1|]. split; [exact L|discriminate].
    + apply no_more_nil in NM. subst en. pose proof (values_run O r raw) as W. destruct (match_values O false r (map (transformed O r) raw)) as [[]| |]; cbn [bind judged].
      * destruct W as (v & I & Hi). exists n1, []. split; [eapply jg_hit; eassumption|auto].
      * exists n1, []. split; [eapply jg_miss; eassumption|auto].
      * destruct W. eapply jb_operator; eassumption.
      * contradiction.
  - now apply jb_look.
  - destruct W as [W1 W2]. split.
    + intros v n' en K. destruct K; eapply W1; eauto.
    + intros [K|l n' K _ _]; [contradiction|]. eapply W1. eauto.
Qed.
Lemma chain_one : forall O e x rs n v n1 en1 w n2 en2, judges_chain O e x rs n v n1 en1 -> judges_chain O e x rs n w n2 en2 -> w = v /\ n2 = n1 /\ en2 = en1.
Proof.
  intros O e x rs n v n1 en1 w n2 en2 H. revert w n2 en2. induction H as [n|r l n n' en H|r l n n1 v n2 en H1 H2 IH]; intros w m d K; inversion K as [n0|r0 l0 n0 m' d' K1|r0 l0 n0 m1 v0 m2 d' K1 K2]; subst; auto;
  match goal with A : judges _ _ _ _ _ _ _ _, C : judges _ _ _ _ _ _ _ _ |- _ => destruct (judges_one _ _ _ _ _ _ _ _ _ _ _ A C) as (E1 & E2 & E3); try discriminate; subst; auto end.
Qed.
Lemma chain_break : forall O e x rs n v n1 en1, judges_chain O e x rs n v n1 en1 -> ~ chain_breaks O e x rs n.
Proof.
  intros O e x rs n v n1 en1 H. induction H as [n|r l n n' en H|r l n n1 v n2 en H1 H2 IH]; intro K; inversion K as [r0 l0 n0 K1|r0 l0 n0 m1 K1 K2]; subst.
  - eapply judges_break; eassumption.
  - destruct (judges_one _ _ _ _ _ _ _ _ _ _ _ H K1) as (E1 & E2 & E3). discriminate.
  - eapply judges_break; eassumption.
  - destruct (judges_one _ _ _ _ _ _ _ _ _ _ _ H1 K1) as (_ & -> & _). contradiction.
Qed.
Lemma chain_run : forall O e rs n t, ord_valid O -> holds_bodies n t -> t_abort t = false ->
  judged n t (judges_chain O e (facts_of t) rs n) (chain_breaks O e (facts_of t) rs n) (match_subs O e rs t).
Proof.
  intros O e rs. induction rs as [|r rs IH]; intros n t V HB AB; cbn [match_subs].
  - exists n, []. split; [constructor|]. split; [exact HB|]. split; [apply looked_refl|reflexivity].
  - pose proof (judges_run O e r n t V HB AB) as W. destruct (match_rule O e r t) as [[t1 m]| |]; cbn [bind judged] in *.
    + destruct W as (n1 & en & H & HB1 & L & EN). destruct m; cbn [vd] in *.
      * rewrite (EN eq_refl) in *. assert (A1 : t_abort t1 = false) by (destruct L as (_ & _ & _ & _ & _ & L & _); now rewrite AB in L).
        specialize (IH n1 t1 V HB1 A1). rewrite (looked_facts _ _ _ L) in IH. destruct (match_subs O e rs t1) as [[t2 m]| |]; cbn [judged] in *.
        -- destruct IH as (n2 & en2 & H2 & HB2 & L2 & E2). exists n2, en2. split; [eapply jc_hit; eassumption|]. split; [exact HB2|]. split; [|exact E2]. change en2 with ([] ++ en2). eapply looked_trans; eassumption.
        -- eapply cb_later; eassumption.
        -- destruct IH as [W1 W2]. split.
           ++ intros v n' en' K. inversion K as [n0|r0 l0 n0 m' d' K1|r0 l0 n0 m1 v0 m2 d' K1 K2]; subst; destruct (judges_one _ _ _ _ _ _ _ _ _ _ _ H K1) as (E1 & E2 & E3); [discriminate|]. subst. eapply W1. eassumption.
           ++ intro K. inversion K as [r0 l0 n0 K1|r0 l0 n0 m1 K1 K2]; subst; [eapply judges_break; eassumption|]. destruct (judges_one _ _ _ _ _ _ _ _ _ _ _ H K1) as (_ & -> & _). contradiction.
      * exists n1, en. split; [now apply jc_miss|auto].
    + now apply cb_here.
    + destruct W as [W1 W2]. split.
      * intros v n' en' K. inversion K; subst; eapply W1; eassumption.
      * intro K. inversion K; subst; [contradiction|eapply W1; eassumption].
Qed.
