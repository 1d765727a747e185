(** Further theorems of C49: what a program reading a body piece by piece gets to see,
    and what becomes of multipart requests. *)
From Verif Require Import Base BaseFacts GoStrings Utils Buffer BufferFacts SpecBuffer Types Transforms Operators Transaction Variables Rules Engine
  SpecText SpecVars VarFacts BodyFacts SpecRules RuleFacts VarText SpecTxn TxnFacts Witness PropBuffer PropRules PropPhases PropTxn SpecData PropData SpecReader.
From Coq Require Import ZifyBool.

(** ** Reading programs *)
Definition like (k : nat) (b c : buffer) : Prop :=
  b_readed b = false /\ b_readed c = false /\ b_len b <> 0 /\ b_len c <> 0 /\
  content b <> [] /\ content c <> [] /\ firstn k (content b) = firstn k (content c).
Lemma like_sym : forall k b c, like k b c -> like k c b.
Proof. intros k b c H. unfold like in *. intuition. Qed.

Lemma read_full : forall n b, b_readed b = false -> content b <> [] ->
  exists b', buf_read n b = (b', firstn n (content b), false) /\ b_readed b' = false /\ content b' = content b.
Proof.
  intros n b R N. unfold buf_read, init_read, content in *. rewrite R.
  destruct (b_file b) as [f|] eqn:F; cbn [set_file b_file f_data f_off skipn].
  - assert (E : negb (Nat.eqb n 0) && Nat.eqb (length (firstn n (f_data f))) 0 = false)
      by (destruct n; [reflexivity|]; destruct (f_data f); [easy|reflexivity]).
    rewrite E. eexists. split; [reflexivity|]. now split.
  - rewrite F. destruct (b_mem b) as [|x m] eqn:M; [easy|]. exists b. rewrite F, M. now repeat split.
Qed.
Lemma firstn_le : forall A (x y : list A) n k, (n <= k)%nat -> firstn k x = firstn k y -> firstn n x = firstn n y.
Proof.
  intros A x y n k L E. replace n with (Nat.min n k) by lia. now rewrite <- (firstn_firstn x), <- (firstn_firstn y), E.
Qed.

Lemma reads_like : forall A (p : reading A) k, asks_at_most k p -> forall h b a, reads p h b a ->
  forall c, b_readed b = false -> b_readed c = false -> content b <> [] -> content c <> [] ->
    firstn k (content b) = firstn k (content c) -> reads p h c a.
Proof.
  intros A p k AM h b a H. induction H as [h b a S|h b n b1 s eof a S Q H IH]; intros c Rb Rc Nb Nc E; [now apply rd_stop|].
  destruct (read_full n b Rb Nb) as (b' & Q1 & R1 & C1). rewrite Q in Q1. injection Q1 as -> -> ->.
  destruct (read_full n c Rc Nc) as (c' & Q2 & R2 & C2).
  eapply rd_ask; [exact S|exact Q2|].
  rewrite <- (firstn_le _ _ _ n k (AM _ _ S) E). apply IH; congruence.
Qed.
(** A program that reads a body in pieces of at most [k] bytes answers the same of any
    two bodies that begin with the same [k] bytes: it never sees what comes after them. *)
Theorem C49_programs_see_only_the_beginning : forall A (p : reading A) k b c a, asks_at_most k p ->
  b_readed b = false -> b_readed c = false -> content b <> [] -> content c <> [] ->
  firstn k (content b) = firstn k (content c) -> (reads p [] b a <-> reads p [] c a).
Proof. intros A p k b c a AM Rb Rc Nb Nc E. split; intro H; eapply reads_like; eauto. Qed.

(** A program that reads until it is told the end never stops on a body that is not empty. *)
Theorem C49_reading_to_the_end_never_stops : forall A (p : reading A) b a, needs_the_end p ->
  b_readed b = false -> content b <> [] -> ~ reads p [] b a.
Proof.
  intros A p b a NE R N H.
  assert (G : forall h b a, reads p h b a -> b_readed b = false -> content b <> [] -> ~ In true (map snd h) -> False).
  { clear - NE. intros h b a H. induction H as [h b a S|h b n b1 s eof a S Q H IH]; intros R N I; [now apply I, (NE _ a)|].
    destruct (read_full n b R N) as (b' & Q1 & R1 & C1). rewrite Q in Q1. injection Q1 as -> -> ->.
    apply IH; [exact R1|congruence|]. rewrite map_app, in_app_iff. intros [K|[K|[]]]; [now apply I|discriminate]. }
  now apply (G [] b a).
Qed.

(** ** Requests that differ in the body only *)
Definition orel {A} (R : A -> A -> Prop) (x y : out A) : Prop :=
  match x, y with
  | Ret a, Ret b => R a b
  | Panic, Panic => True
  | Timeout, Timeout => True
  | _, _ => False
  end.
Lemma orel_bind : forall A B (R : A -> A -> Prop) (S : B -> B -> Prop) x y f g, orel R x y ->
  (forall a b, R a b -> orel S (f a) (g b)) -> orel S (bind x f) (bind y g).
Proof. intros A B R S x y f g H K. destruct x, y; simpl in *; try easy. now apply K. Qed.

Section Twins.
Variables (O : oracles) (e : engine) (k : nat) (p : bs -> Z -> reading mpres).
Hypothesis RM : reads_multipart O k p.

(** The latest headers announce no form. *)
Definition plain (h : vals) : Prop :=
  has_prefix (B "application/x-www-form-urlencoded") (fst (media_type O (announced (header_get (B "Content-Type") h)))) = false.
Definition twin (t u : txn) : Prop :=
  exists c, u = with_reqbody t c /\ like k (t_reqbody t) c /\ plain (t_reqheader t).
Definition twinv {A} (x y : txn * A) : Prop := twin (fst x) (fst y) /\ snd x = snd y.

Lemma twin_map : forall f, (forall t c, f (with_reqbody t c) = with_reqbody (f t) c) ->
  (forall t, t_reqbody (f t) = t_reqbody t) -> (forall t, t_reqheader (f t) = t_reqheader t) ->
  forall t u, twin t u -> twin (f t) (f u).
Proof.
  intros f C B H t u (c & -> & L & P). exists c. split; [apply C|]. split; [now rewrite B|now rewrite H].
Qed.
Ltac tm f := intros; apply (twin_map f); [now intros []|now intros []|now intros []|assumption].

Lemma multipart_like : forall b c bd m, like k b c -> fst (multipart O b bd m) = fst (multipart O c bd m).
Proof.
  intros b c bd m (Rb & Rc & _ & _ & Nb & Nc & E). destruct RM as (AM & D). specialize (AM bd m).
  destruct (D b bd m Rb) as [H|(H & Hb)]; destruct (D c bd m Rc) as [K|(K & Kc)].
  - assert (F : forall h b a, reads (p bd m) h b a -> forall a', reads (p bd m) h b a' -> a = a').
    { intros h b' a X. induction X as [h b' a S|h b' n b1 s eof a S Q X IH]; intros a' Y; inversion Y as [? ? ? S'|? ? ? ? ? ? ? S' Q' Y']; subst; try congruence.
      rewrite S in S'. injection S' as <-. rewrite Q in Q'. injection Q' as <- <- <-. now apply IH. }
    apply (F [] c); [|exact K]. eapply reads_like; eauto.
  - exfalso. eapply K. eapply reads_like; eauto.
  - exfalso. eapply H. eapply reads_like; eauto.
  - congruence.
Qed.
Lemma set_off_content : forall o b, content (set_off o b) = content b /\ b_readed (set_off o b) = b_readed b /\ b_len (set_off o b) = b_len b.
Proof. intros o b. unfold set_off, content. destruct (b_file b) as [f|] eqn:F; cbn; rewrite ?F; auto. Qed.
Lemma like_off : forall b c o o', like k b c -> like k (set_off o b) (set_off o' c).
Proof.
  intros b c o o' H. destruct (set_off_content o b) as (C & R & L), (set_off_content o' c) as (C' & R' & L').
  unfold like in *. now rewrite C, R, L, C', R', L'.
Qed.

Lemma twin_parse_types : forall ct bd t u, has_prefix (B "application/x-www-form-urlencoded") ct = false -> twin t u ->
  orel twinv (parse_types O e ct bd [BUrlencoded; BMultipart] t) (parse_types O e ct bd [BUrlencoded; BMultipart] u).
Proof.
  intros ct bd t u NP (c & -> & L & P). unfold parse_types, bt_ctype. rewrite NP. cbn [negb].
  destruct (has_prefix (B "multipart/") ct); cbn [negb]; [|split; [now exists c|reflexivity]].
  assert (CG : cache_get BMultipart (with_reqbody t c) = cache_get BMultipart t) by now destruct t. rewrite CG.
  destruct (cache_get BMultipart t) as [i|].
  - destruct i; (split; [now exists c|reflexivity]).
  - unfold run_parser. pose proof (multipart_like _ _ bd (e_reqmem e) L) as M. cbn [t_reqbody with_reqbody].
    destruct (multipart O (t_reqbody t) bd (e_reqmem e)) as [r o], (multipart O c bd (e_reqmem e)) as [r' o']. cbn [fst] in M. subst r'.
    pose proof (like_off _ _ o o' L) as L'.
    destruct r; cbn [bind]; try exact I; (split; [|reflexivity]); exists (set_off o' c);
      (split; [now destruct t|]); (split; [destruct t; exact L'|destruct t; exact P]).
Qed.
Lemma twin_parse : forall t u, twin t u -> orel twinv (request_body_parse O e t) (request_body_parse O e u).
Proof.
  intros t u H. pose proof H as (c & -> & L & P). unfold request_body_parse.
  assert (E1 : has_body_method (with_reqbody t c) = has_body_method t) by now destruct t. rewrite E1.
  destruct (has_body_method t); cbn [negb]; [|now split].
  destruct L as (_ & _ & L1 & L2 & _). unfold buf_len. cbn [t_reqbody with_reqbody t_reqheader].
  apply Z.eqb_neq in L1, L2. rewrite L1, L2. destruct (e_reqaccess e); cbn [negb orb]; [|now split].
  unfold plain, announced in P. destruct (media_type O _) as [mt bd]. now apply twin_parse_types.
Qed.

Lemma twin_fetched : forall f m t u, twin t u -> twinv (filter_fetch O f m t) (filter_fetch O f m u).
Proof.
  intros f m t u H. split; [|destruct H as (c & -> & _); now destruct t]. apply (twin_map tick); auto; now intros [].
Qed.
Lemma twin_named : forall f m t u, twin t u -> twinv (filter_names O f m t) (filter_names O f m u).
Proof.
  intros f m t u H. split; [|destruct H as (c & -> & _); now destruct t]. apply (twin_map tick); auto; now intros [].
Qed.
Lemma twin_coll : forall c f t u, twin t u -> orel twinv (fetch_coll O e c f t) (fetch_coll O e c f u).
Proof.
  intros c f t u H.
  assert (U : t_url u = t_url t) by (destruct H as (x & -> & _); now destruct t).
  assert (HH : t_reqheader u = t_reqheader t) by (destruct H as (x & -> & _); now destruct t).
  assert (HS : t_resheader u = t_resheader t) by (destruct H as (x & -> & _); now destruct t).
  assert (N : forall x : list bs, twinv (t, x) (u, x)) by (intro x; now split).
  destruct c; unfold fetch_coll; rewrite ?U, ?HH, ?HS; try (destruct (t_url t)); cbn [orel]; try (now apply twin_fetched); try (now apply twin_named); try (now apply N);
    (eapply orel_bind; [exact (twin_parse _ _ H)|]; intros [t1 r1] [u1 r2] (T & R); cbn [fst snd] in T, R; subst r2;
     destruct r1 as [[[] [|m|[m|]]]|]; cbn [orel]; try exact I; try (now apply twin_fetched); try (now apply twin_named); now split).
Qed.
Lemma twin_abort : forall s m t u, twin t u -> twin (abort_with_error s m t) (abort_with_error s m u).
Proof. intros s m. tm (abort_with_error s m). Qed.

Lemma twin_request_body : forall t u, twin t u -> twinv (fetch_request_body O e t) (fetch_request_body O e u).
Proof.
  intros t u H. pose proof H as (c & -> & L & P). unfold fetch_request_body.
  assert (E1 : has_body_method (with_reqbody t c) = has_body_method t) by now destruct t. rewrite E1.
  destruct (has_body_method t); cbn [negb]; [|now split].
  destruct L as (_ & _ & L1 & L2 & _). unfold buf_len. cbn [t_reqbody with_reqbody t_reqheader].
  apply Z.eqb_neq in L1, L2. rewrite L1, L2. destruct (e_reqaccess e); cbn [negb orb]; [|now split].
  unfold plain in P. destruct (header_get (B "Content-Type") (t_reqheader t)) as [|x ct]; [now split|].
  cbn [announced] in P. destruct (bs_eqb (fst (media_type O (x :: ct))) _) eqn:Q; cbn [negb]; [|now split].
  apply bs_eqb_eq in Q. rewrite Q in P. vm_compute in P. discriminate.
Qed.
Lemma twin_response_body : forall t u, twin t u -> twinv (fetch_response_body e t) (fetch_response_body e u).
Proof.
  intros t u H. pose proof H as (c & -> & L & P). unfold fetch_response_body. cbn [t_resbody with_reqbody].
  destruct (negb (e_resaccess e) || (buf_len (t_resbody t) =? 0)); [now split|].
  destruct (buf_string (t_resbody t)) as [[b body] err].
  assert (T : twin (with_resbody t b) (with_resbody (with_reqbody t c) b)) by (exists c; destruct t; now split).
  destruct err; (split; [|reflexivity]); [now apply twin_abort|exact T].
Qed.
Lemma twin_scalar : forall s t u, twin t u -> twinv (fetch_scalar O e s t) (fetch_scalar O e s u).
Proof.
  intros s t u H. destruct s; try exact (twin_request_body _ _ H); try exact (twin_response_body _ _ H);
    unfold fetch_scalar; pose proof H as (c & -> & L & P); cbn [t_url t_srcip t_method t_reqproto t_resheader t_resproto t_code with_reqbody];
    try (destruct (t_url t)); try (destruct (header_get (B "Content-Length") (t_resheader t))); now split.
Qed.
Lemma twin_fetch : forall v t u, twin t u -> orel twinv (fetch O e v t) (fetch O e v u).
Proof.
  induction v as [c f|s|g q|g q|v IH]; intros t u H; cbn [fetch].
  - now apply twin_coll.
  - now apply twin_scalar.
  - eapply orel_bind; [exact (twin_coll CArgsGet g _ _ H)|]. intros [t1 r1] [u1 r2] (T & R). cbn [fst snd] in T, R. subst r2.
    eapply orel_bind; [exact (twin_coll CArgsPost q _ _ T)|]. intros [t2 r3] [u2 r4] (T2 & R). cbn [fst snd] in T2, R. subst r4. now split.
  - eapply orel_bind; [exact (twin_coll CArgsGetNames g _ _ H)|]. intros [t1 r1] [u1 r2] (T & R). cbn [fst snd] in T, R. subst r2.
    eapply orel_bind; [exact (twin_coll CArgsPostNames q _ _ T)|]. intros [t2 r3] [u2 r4] (T2 & R). cbn [fst snd] in T2, R. subst r4. now split.
  - eapply orel_bind; [exact (IH _ _ H)|]. intros [t1 r1] [u1 r2] (T & R). cbn [fst snd] in T, R. subst r2. now split.
Qed.
Lemma twin_fetch_all : forall r vs t u, twin t u -> orel twinv (fetch_all O e r vs t) (fetch_all O e r vs u).
Proof.
  intros r vs. induction vs as [|v vs IH]; intros t u H; cbn [fetch_all]; [now split|].
  eapply orel_bind with (R := twinv).
  - unfold transform_variable. eapply orel_bind; [exact (twin_fetch v _ _ H)|].
    intros [t1 r1] [u1 r2] (T & R). cbn [fst snd] in T, R. subst r2. now split.
  - intros [t1 r1] [u1 r2] (T & R). cbn [fst snd] in T, R. subst r2.
    eapply orel_bind; [exact (IH _ _ T)|]. intros [t2 r3] [u2 r4] (T2 & R). cbn [fst snd] in T2, R. subst r4. now split.
Qed.
Lemma twin_match : forall r t u, twin t u -> orel twinv (match_rule O e r t) (match_rule O e r u).
Proof.
  intros r t u H. unfold match_rule. eapply orel_bind; [exact (twin_fetch_all r (r_vars r) _ _ H)|].
  intros [t1 r1] [u1 r2] (T & R). cbn [fst snd] in T, R. subst r2.
  assert (A : t_abort u1 = t_abort t1) by (destruct T as (x & -> & _); now destruct t1). rewrite A.
  destruct (match_values O (t_abort t1) r r1); cbn [bind orel]; try exact I. now split.
Qed.
Lemma twin_subs : forall l t u, twin t u -> orel twinv (match_subs O e l t) (match_subs O e l u).
Proof.
  induction l as [|s l IH]; intros t u H; cbn [match_subs]; [now split|].
  eapply orel_bind; [exact (twin_match s _ _ H)|]. intros [t1 r1] [u1 r2] (T & R). cbn [fst snd] in T, R. subst r2.
  destruct r1; [now apply IH|now split].
Qed.

Variable rs : ruleset.
Lemma twin_do_allow : forall a t u, twin t u -> twin (do_allow a t) (do_allow a u).
Proof.
  intros a t u H. unfold do_allow.
  destruct (bs_eqb a []); [revert t u H; tm (jump_to_phase PhaseLogging)|].
  destruct (bs_eqb a (B "phase")); [revert t u H; tm next_phase|].
  destruct (bs_eqb a (B "request")); [revert t u H; tm (jump_to_phase PhaseResponseHeaders)|exact H].
Qed.
Lemma twin_jump_to : forall (f : txn -> Z) , (forall t c, f (with_reqbody t c) = f t) -> forall t u, twin t u ->
  twin (snd (jump_to rs (f t) t)) (snd (jump_to rs (f u) u)).
Proof.
  intros f F t u H. pose proof H as (c & -> & L & P). rewrite F. unfold jump_to. cbn [t_phase with_reqbody].
  destruct (_ <=? _); exists c; destruct t; exact (conj eq_refl (conj L P)).
Qed.
Lemma twin_actions : forall fuel as_ t u, twin t u -> orel twin (actions_execute fuel rs as_ t) (actions_execute fuel rs as_ u).
Proof.
  induction fuel as [|fuel IH]; intros as_ t u H; [exact I|]. cbn [actions_execute].
  assert (G : forall l x y, orel twin x y -> orel twin
    (fold_left (fun acc a => t <- acc ;; match a with ADeny => Ret (do_deny t) | AAllow arg => Ret (do_allow arg t)
      | ABlock => actions_execute fuel rs (rs_default rs) t | ALog => Ret (do_log t) | APass => Ret (reset_intervention t)
      | ASkip => Ret (snd (jump_to rs (t_cur t + 2) t)) | AStatus s => Ret (with_status t (Some s)) end) l x)
    (fold_left (fun acc a => t <- acc ;; match a with ADeny => Ret (do_deny t) | AAllow arg => Ret (do_allow arg t)
      | ABlock => actions_execute fuel rs (rs_default rs) t | ALog => Ret (do_log t) | APass => Ret (reset_intervention t)
      | ASkip => Ret (snd (jump_to rs (t_cur t + 2) t)) | AStatus s => Ret (with_status t (Some s)) end) l y)).
  { induction l as [|a l IHl]; intros x y E; cbn [fold_left]; [exact E|]. apply IHl.
    eapply orel_bind; [exact E|]. clear - IH. intros t u H. destruct a; cbn [orel].
    - revert t u H. tm do_deny.
    - now apply twin_do_allow.
    - now apply IH.
    - revert t u H. tm do_log.
    - revert t u H. tm reset_intervention.
    - apply (twin_jump_to (fun t => t_cur t + 2)); [now intros []|exact H].
    - revert t u H. tm (fun t => with_status t (Some s)). }
  now apply G.
Qed.
Lemma twin_subs_execute : forall fuel l t u, twin t u -> orel twin (subs_execute fuel rs l t) (subs_execute fuel rs l u).
Proof.
  intros fuel l. induction l as [|s l IH]; intros t u H; cbn [subs_execute]; [exact H|].
  eapply orel_bind; [exact (twin_actions fuel (r_acts s) _ _ H)|]. intros a b T. now apply IH.
Qed.
Lemma twin_rule : forall fuel r t u, twin t u -> orel twin (do_rule fuel O e rs r t) (do_rule fuel O e rs r u).
Proof.
  intros fuel r t u H. unfold do_rule. eapply orel_bind; [exact (twin_match r _ _ H)|].
  intros [t1 r1] [u1 r2] (T & R). cbn [fst snd] in T, R. subst r2. destruct r1; [|exact T].
  eapply orel_bind; [exact (twin_subs (r_subs r) _ _ T)|]. intros [t2 r3] [u2 r4] (T2 & R). cbn [fst snd] in T2, R. subst r4.
  destruct r3; [|exact T2]. eapply orel_bind; [exact (twin_actions fuel (r_acts r) _ _ T2)|]. intros a b T3. now apply twin_subs_execute.
Qed.
Lemma twin_process_rule : forall fuel ph off t u, twin t u -> orel twin (process_rule fuel O e rs ph off t) (process_rule fuel O e rs ph off u).
Proof.
  intros fuel ph off t u H. unfold process_rule. destruct (off <? nrules rs ph); [|exact H].
  destruct (off <? 0); [exact I|]. destruct (nth_error _ _); [now apply twin_rule|exact I].
Qed.
Lemma twin_next : forall t u, twin t u -> fst (next_rule rs t) = fst (next_rule rs u) /\ twin (snd (next_rule rs t)) (snd (next_rule rs u)).
Proof.
  intros t u (c & -> & L & P). unfold next_rule. cbn [t_next t_phase with_reqbody].
  destruct (t_next t =? StatusEndOfRules); (split; [reflexivity|]); exists c; destruct t; exact (conj eq_refl (conj L P)).
Qed.
Lemma twin_loop : forall fuel depth ph n t u, twin t u ->
  orel twin (phase_loop fuel depth O e rs ph n t) (phase_loop fuel depth O e rs ph n u).
Proof.
  induction fuel as [|fuel IH]; intros depth ph n t u H; [exact I|]. cbn [phase_loop].
  assert (A : t_phase u = t_phase t) by (destruct H as (x & -> & _); now destruct t). rewrite A.
  destruct ((t_phase t =? ph) && negb (n =? StatusEndOfRules)); [|exact H].
  eapply orel_bind; [exact (twin_process_rule depth ph n _ _ H)|]. intros a b T.
  assert (T' : twin (touch_iv a) (touch_iv b)) by (revert a b T; tm touch_iv).
  assert (D : get_iv (touch_iv b) = get_iv (touch_iv a)) by (destruct T as (x & -> & _); now destruct a). rewrite D.
  destruct (i_disruptive (get_iv (touch_iv a))); [exact T'|].
  destruct (twin_next _ _ T') as (N & T2). destruct (next_rule rs (touch_iv a)) as [n1 a1], (next_rule rs (touch_iv b)) as [n2 b1].
  cbn [fst snd] in N, T2. subst n2. now apply IH.
Qed.
Lemma twin_phase : forall fuel ph t u, twin t u -> orel twin (process_phase fuel O e rs ph t) (process_phase fuel O e rs ph u).
Proof.
  intros fuel ph t u H. unfold process_phase.
  assert (A : t_phase u = t_phase t) by (destruct H as (x & -> & _); now destruct t). rewrite A.
  destruct (ph <=? t_phase t); [exact H|]. unfold process_phase_inner.
  assert (T : twin (jump_to_phase ph t) (jump_to_phase ph u)) by (revert t u H A; tm (jump_to_phase ph)).
  assert (D : t_abort (jump_to_phase ph u) = t_abort (jump_to_phase ph t)) by (destruct H as (x & -> & _); now destruct t). rewrite D.
  destruct (t_abort (jump_to_phase ph t)); [exact T|].
  destruct (twin_next _ _ T) as (N & T2). destruct (next_rule rs (jump_to_phase ph t)) as [n1 a1], (next_rule rs (jump_to_phase ph u)) as [n2 b1].
  cbn [fst snd] in N, T2. subst n2. now apply twin_loop.
Qed.

Lemma twin_run : forall fuel ph t u, twin t u ->
  orel twinv (t' <- process_phase fuel O e rs ph t ;; Ret (t', ObsNone)) (t' <- process_phase fuel O e rs ph u ;; Ret (t', ObsNone)).
Proof. intros fuel ph t u H. eapply orel_bind; [exact (twin_phase fuel ph _ _ H)|]. intros a b T. now split. Qed.
Lemma twin_step : forall fuel o t u, (forall q ft, o <> OpAppendRequestBody q ft) -> (forall h, o = OpRequestHeader h -> plain h) -> twin t u ->
  orel twinv (step fuel O e rs o t) (step fuel O e rs o u).
Proof.
  intros fuel o t u NB PL H. pose proof H as (c & E & L & P).
  destruct o as [a b d d'|x m q|h|q ft| |cd q h|q ft| | | |cd]; cbn [step].
  - apply twin_run. revert t u H c E L P. intros t u H _ _ _ _. revert t u H. tm (fun t => with_net t a b d d').
  - split; [|reflexivity]. cbn [fst]. clear c E L P. revert t u H. tm (fun t => with_request t x m q).
  - apply twin_run. exists c. subst u. split; [now destruct t|]. split; [destruct t; exact L|]. destruct t; now apply PL.
  - now destruct (NB q ft).
  - now apply twin_run.
  - apply twin_run. clear c E L P. revert t u H. tm (fun t => with_response t cd q h).
  - subst u. cbn [t_resbody with_reqbody]. destruct (buf_write ft q (t_resbody t)) as [[[b n] er]| |]; cbn [bind orel]; try exact I.
    split; [|reflexivity]. exists c. destruct t; exact (conj eq_refl (conj L P)).
  - now apply twin_run.
  - now apply twin_run.
  - unfold result. assert (A1 : get_iv (touch_iv u) = get_iv (touch_iv t)) by (subst u; now destruct t). rewrite A1.
    assert (A2 : t_abort (touch_iv u) = t_abort (touch_iv t)) by (subst u; now destruct t). rewrite A2.
    assert (T' : twin (touch_iv t) (touch_iv u)) by (clear - H; revert t u H; tm touch_iv).
    cbn [orel]. split; [|reflexivity]. cbn [fst]. destruct (t_abort (touch_iv t)); [exact T'|]. clear - T'.
    generalize dependent (touch_iv u). generalize (touch_iv t). tm (fun t => with_iv t reset_iv).
  - split; [|reflexivity]. cbn [fst]. clear c E L P. revert t u H. tm (abort_with_status cd).
Qed.
Lemma twin_steps : forall fuel os t u, no_body os -> (forall h, In (OpRequestHeader h) os -> plain h) -> twin t u ->
  orel twinv (steps fuel O e rs os t) (steps fuel O e rs os u).
Proof.
  intros fuel os. induction os as [|o os IH]; intros t u NB PL H; cbn [steps]; [now split|].
  eapply orel_bind; [apply (twin_step fuel o _ _)|].
  - intros q ft ->. apply (NB q ft). now left.
  - intros h ->. apply PL. now left.
  - exact H.
  - intros [t1 r1] [u1 r2] (T & R). cbn [fst snd] in T, R. subst r2.
    eapply orel_bind; [apply IH; [intros q ft I; apply (NB q ft); now right|intros h I; apply PL; now right|exact T]|].
    intros [t2 r3] [u2 r4] (T2 & R). cbn [fst snd] in T2, R. subst r4. now split.
Qed.
End Twins.

(** ** Pieces *)
Definition fed (m l : Z) (acc : bs) (b : buffer) : Prop :=
  mem_inv m l acc b /\ zlen acc <= m \/
  spill_inv m l acc b /\ exists d, file_is b d /\ firstn (Z.to_nat m) d = firstn (Z.to_nat m) acc.
Lemma fed_write : forall m l acc b q, 0 <= m -> fed m l acc b -> zlen (acc ++ q) <= l ->
  exists b', buf_write NoFault q b = Ret (b', zlen q, None) /\ fed m l (acc ++ q) b'.
Proof.
  intros m l acc b q M K D. destruct K as [[I Im]|[I (d & F & E)]].
  - destruct (Z_le_dec (zlen (acc ++ q)) m) as [D'|D'].
    + destruct (mem_write_fits m l acc _ q NoFault I D D') as (b1 & H & I1). exists b1. split; [exact H|]. now left.
    + destruct (mem_write_spills m l acc _ q M I Im D ltac:(lia)) as (b1 & H & I1 & Hf). exists b1. split; [exact H|].
      right. split; [exact I1|]. change (TFile [] 0) with (TFile [] (length (@nil ascii))) in Hf.
      rewrite file_write_end in Hf. cbn [app] in Hf. rewrite file_write_end in Hf. eexists. split; [exact Hf|].
      rewrite firstn_app, firstn_firstn, Nat.min_id. unfold zlen in D'.
      replace (Z.to_nat m - length (firstn (Z.to_nat m) (acc ++ q)))%nat with 0%nat by (rewrite firstn_length; lia). apply app_nil_r.
  - destruct (spill_write m l acc _ q M I D) as (b1 & H & I1 & f & Hf & Hf'). exists b1. split; [exact H|]. right. split; [exact I1|].
    unfold file_is in F. rewrite F in Hf. injection Hf as <-. rewrite file_write_end in Hf'. eexists. split; [exact Hf'|].
    destruct I as (_ & _ & G & _). unfold zlen in G.
    assert (Ld : (Z.to_nat m <= length d)%nat).
    { assert (X : length (firstn (Z.to_nat m) d) = length (firstn (Z.to_nat m) acc)) by now rewrite E. rewrite !firstn_length in X. lia. }
    rewrite !firstn_app, E. replace (Z.to_nat m - length d)%nat with 0%nat by lia. replace (Z.to_nat m - length acc)%nat with 0%nat by lia. reflexivity.
Qed.
Lemma fed_content : forall m l acc b k, fed m l acc b -> acc <> [] -> Z.of_nat k <= m -> 
  b_readed b = false /\ b_len b <> 0 /\ (0 < m -> content b <> []) /\ firstn k (content b) = firstn k acc.
Proof.
  intros m l acc b k K N L. assert (ZL : zlen acc <> 0) by (destruct acc; [easy|unfold zlen; cbn; lia]).
  unfold content. destruct K as [[(C & Ln & M & F) _]|[(C & Ln & G & _) (d & F & E)]]; unfold consts in C; injection C as Cm Cl Cr.
  - rewrite F, M, Ln. auto.
  - unfold file_is in F. rewrite F, Ln. cbn [f_data]. repeat split; auto.
    + intros M ->. destruct acc; [easy|]. destruct (Z.to_nat m) eqn:Q; [lia|discriminate].
    + eapply firstn_le; [|exact E]. lia.
Qed.
Lemma fed_steps : forall f O e rs ps t acc m l, 0 <= m -> fed m l acc (t_reqbody t) -> zlen (acc ++ concat ps) <= l ->
  exists c, steps f O e rs (in_pieces ps) t = Ret (with_reqbody t c, map (fun _ => ObsErr None) ps) /\ fed m l (acc ++ concat ps) c.
Proof.
  intros f O e rs ps. induction ps as [|q ps IH]; intros t acc m l M K D; cbn [in_pieces map concat].
  - exists (t_reqbody t). rewrite app_nil_r. split; [now rewrite with_reqbody_id|exact K].
  - cbn [concat] in D. assert (D1 : zlen (acc ++ q) <= l) by (unfold zlen in *; rewrite !app_length in *; lia).
    destruct (fed_write m l acc _ q M K D1) as (b & W & K1). cbn [steps step]. rewrite W. cbn [bind].
    destruct (IH (with_reqbody t b) (acc ++ q) m l M) as (c & S & K2); [destruct t; exact K1|now rewrite <- app_assoc|].
    exists c. unfold in_pieces in S. rewrite S. cbn [bind]. rewrite app_assoc. split; [now destruct t|exact K2].
Qed.

Lemma steps_join : forall f O e rs os1 os2 t t1 b1, steps f O e rs os1 t = Ret (t1, b1) ->
  steps f O e rs (os1 ++ os2) t = ('(t2, b2) <- steps f O e rs os2 t1 ;; Ret (t2, b1 ++ b2)).
Proof.
  intros f O e rs os1. induction os1 as [|o os1 IH]; intros os2 t t1 b1 H.
  - apply Ret_inj in H. injection H as <- <-. cbn [app]. now destruct (steps f O e rs os2 t) as [[]| |].
  - apply steps_cons in H as (t2 & b & bl & H1 & H2 & ->). cbn [app steps]. rewrite H1. cbn [bind]. rewrite (IH _ _ _ _ H2).
    now destruct (steps f O e rs os2 t1) as [[]| |].
Qed.

(** Two requests whose bodies are not url-encoded forms and begin with the same [k] bytes,
    however they were cut into pieces: every rule set gives both the same answers, if the
    multipart reader reads the body [k] bytes at a time.  What comes after the first
    [k] bytes of a multipart body is looked at by no rule. *)
Theorem C49_multipart_requests_judged_by_their_beginning : forall f O e rs k p pre ps qs post t1 bl,
  reads_multipart O k p -> 0 < e_reqmem e -> Z.of_nat k <= e_reqmem e ->
  concat ps <> [] -> concat qs <> [] -> zlen (concat ps) <= e_reqlimit e -> zlen (concat qs) <= e_reqlimit e ->
  firstn k (concat ps) = firstn k (concat qs) ->
  no_body pre -> no_body post -> never_a_form O (pre ++ post) ->
  steps f O e rs (pre ++ in_pieces ps ++ post) (new_txn e) = Ret (t1, bl) ->
  exists before after t2, bl = before ++ map (fun _ => ObsErr None) ps ++ after /\
    length before = length pre /\ length after = length post /\
    steps f O e rs (pre ++ in_pieces qs ++ post) (new_txn e) = Ret (t2, before ++ map (fun _ => ObsErr None) qs ++ after).
Proof.
  intros f O e rs k p pre ps qs post t1 bl RM M0 KM Np Nq Lp Lq E NB1 NB2 NF H.
  apply steps_app in H as (t0 & b1 & b2 & H1 & H2 & ->). apply steps_app in H2 as (t3 & b3 & b4 & H2 & H3 & ->).
  assert (RW : forall os, no_body os -> request_writes os = []).
  { induction os as [|o os IH]; intro NB; [reflexivity|]. rewrite request_writes_cons, IH by (intros q ft I; apply (NB q ft); now right).
    rewrite app_nil_r. destruct o; try reflexivity. exfalso. apply (NB p0 ft). now left. }
  assert (K0 : fed (e_reqmem e) (e_reqlimit e) [] (t_reqbody t0)).
  { assert (FF : fault_free (request_writes pre)) by (rewrite (RW pre NB1); intros q ft []).
    assert (KN : kept_body (e_reqmem e) (e_reqlimit e) [] (new_txn e)) by (left; split; [repeat split|cbn; lia]).
    pose proof (steps_kept _ _ _ _ _ _ _ _ (e_reqmem e) (e_reqlimit e) [] ltac:(lia) FF KN H1) as K.
    rewrite (RW pre NB1) in K. cbn [stream_from] in K. destruct K as [K|(_ & _ & G & _)]; [now left|cbn in G; lia]. }
  assert (PL : forall h, h = [] \/ In (OpRequestHeader h) (pre ++ post) -> plain O h).
  { intros h I. unfold plain. destruct (has_prefix _ _) eqn:Q; [|reflexivity]. apply has_prefix_iff in Q as (r & Q).
    exfalso. exact (NF h _ r I (header_first _ h) Q). }
  assert (PH : plain O (t_reqheader t0)).
  { destruct (steps_holds _ _ _ _ _ [] _ _ _ (holds_new e) H1) as (_ & _ & C & _). apply PL.
    destruct C as [(o1 & o & o2 & X & Kd & _)|[_ X]]; [right|now left]. cbn [app] in X. rewrite X, in_app_iff, in_app_iff. left. right.
    destruct o; try discriminate. injection Kd as ->. now left. }
  destruct (fed_steps f O e rs ps t0 [] (e_reqmem e) (e_reqlimit e) ltac:(lia) K0 Lp) as (c & S1 & F1).
  destruct (fed_steps f O e rs qs t0 [] (e_reqmem e) (e_reqlimit e) ltac:(lia) K0 Lq) as (d & S2 & F2). cbn [app] in F1, F2.
  rewrite H2 in S1. apply Ret_inj in S1. injection S1 as -> ->.
  destruct (fed_content _ _ _ _ k F1 Np KM) as (R1 & N1 & C1 & E1), (fed_content _ _ _ _ k F2 Nq KM) as (R2 & N2 & C2 & E2).
  assert (T : twin O k (with_reqbody t0 c) (with_reqbody t0 d)).
  { exists d. split; [now destruct t0|]. split; [|destruct t0; exact PH].
    assert (X : t_reqbody (with_reqbody t0 c) = c) by now destruct t0. rewrite X.
    repeat (split; [now auto|]). congruence. }
  pose proof (twin_steps O e k p RM rs f post _ _ NB2 (fun h I => PL h (or_intror (proj2 (in_app_iff pre post _) (or_intror I)))) T) as Q.
  rewrite H3 in Q. destruct (steps f O e rs post (with_reqbody t0 d)) as [[t2 b5]| |] eqn:H4; cbn [orel] in Q; try easy.
  destruct Q as (_ & Q). cbn [snd] in Q. subst b5.
  assert (LEN : forall os t t' bl, steps f O e rs os t = Ret (t', bl) -> length bl = length os).
  { clear. induction os as [|o os IH]; intros t t' bl H; [apply Ret_inj in H; injection H as <- <-; reflexivity|].
    apply steps_cons in H as (t1 & b & bl' & _ & H & ->). cbn. f_equal. eauto. }
  exists b1, b4, t2. split; [reflexivity|]. split; [eauto|]. split; [eauto|].
  rewrite (steps_join _ _ _ _ _ _ _ _ _ H1), (steps_join _ _ _ _ _ _ _ _ _ S2), H4. reflexivity.
Qed.

(** A reader for the examples: it takes sixteen bytes at a time until it has seen a '!'. *)
Definition mark : ascii := "!"%char.
Definition toy_reading : reading mpres := fun h =>
  match rev h with
  | [] => Ask 16
  | (_, true) :: _ => Stop MpErr
  | (s, false) :: _ =>
      if existsb (Ascii.eqb mark) s then Stop (MpOk [(B "v", [take_while (fun c => negb (Ascii.eqb mark c)) s])]) else Ask 16
  end.
Definition toy_multipart (b : buffer) : mpres :=
  match content b with
  | [] => MpErr
  | d => if existsb (Ascii.eqb mark) (firstn 16 d)
         then MpOk [(B "v", [take_while (fun c => negb (Ascii.eqb mark c)) (firstn 16 d)])] else MpHang
  end.
Definition toy : oracles :=
  Oracles (fun _ => true) bs_eqb (fun ct => (ct, B "boundary")) (fun b _ _ => (toy_multipart b, 0%nat))
          (fun u => u_path u) (fun r => r) false (fun _ _ m => m).
Lemma toy_reads : reads_multipart toy 16 (fun _ _ => toy_reading).
Proof.
  split.
  - intros _ _ h n. unfold toy_reading. destruct (rev h) as [|[s []] r]; try discriminate; [|destruct (existsb _ s); [discriminate|]]; intro E; injection E as <-; apply Nat.le_refl.
  - intros b bd mx R. cbn [multipart toy fst]. unfold toy_multipart.
    destruct (content b) as [|x d] eqn:C.
    + left. destruct (buf_read 16 b) as [[b1 s] eof] eqn:Q. eapply rd_ask; [reflexivity|exact Q|].
      assert (eof = true) as ->.
      { revert Q. unfold buf_read, init_read, content in *. rewrite R.
        destruct (b_file b) as [f|] eqn:F; cbn [set_file b_file f_data f_off skipn]; rewrite ?F, C; intro Q; now injection Q as _ _ <-. }
      now apply rd_stop.
    + destruct (existsb (Ascii.eqb mark) (firstn 16 (x :: d))) eqn:X.
      * left. destruct (read_full 16 b R ltac:(congruence)) as (b1 & Q & _). rewrite C in Q.
        eapply rd_ask; [reflexivity|exact Q|]. apply rd_stop. cbn [app]. unfold toy_reading. cbn [rev app]. now rewrite X.
      * right. split; [|reflexivity]. intros r H.
        assert (G : forall h b a, reads toy_reading h b a -> b_readed b = false -> content b = x :: d ->
           (forall z, In z h -> z = (firstn 16 (x :: d), false)) -> False).
        { clear - X. intros h b a H. induction H as [h b a S|h b n b1 s eof a S Q H IH]; intros R C F.
          - unfold toy_reading in S. destruct (rev h) as [|z r] eqn:RH; [discriminate|].
            rewrite (F z) in S by (apply in_rev; rewrite RH; now left). rewrite X in S. discriminate.
          - assert (n = 16%nat) as ->.
            { unfold toy_reading in S. destruct (rev h) as [|[s' []] r]; try discriminate; [now injection S|].
              destruct (existsb _ s'); [discriminate|now injection S]. }
            destruct (read_full 16 b R ltac:(congruence)) as (b' & Q1 & R1 & C1). rewrite Q in Q1. injection Q1 as -> -> ->.
            apply IH; [exact R1|congruence|]. intros z I. apply in_app_iff in I as [I|[<-|[]]]; [now apply F|now rewrite C]. }
        apply (G [] b r H R C). intros z [].
Qed.
(** The rule denies the form value "attack"; a body carrying it after sixteen bytes gets
    the answers of a harmless one, while a body beginning with it is denied. *)
Definition toy_rules : ruleset := add_rules [demo_rule 3 [VColl CArgsPost empty_filter] (OpRx (B "attack")) [ADeny] false []] new_ruleset.
Definition toy_engine : engine := Engine true false toy_rules true true 60 20 60.
Definition toy_pre : list op :=
  [OpRequestURL (Some (demo_url "/p" "")) (B "POST") (B "HTTP/1.1"); OpRequestHeader [(B "Content-Type", [B "multipart/form-data"])]].
Example C49_multipart_example : let e := toy_engine in let post := [OpRequestBody; OpResult] in
  let harmless := [B "hello!"; B "----------"] in let hidden := [B "hello!----"; B "------ attack!"; B "!!attack!"] in
  concat hidden <> [] /\ zlen (concat hidden) <= e_reqlimit e /\ firstn 16 (concat harmless) = firstn 16 (concat hidden) /\
  no_body toy_pre /\ no_body post /\ never_a_form toy (toy_pre ++ post) /\ concat hidden <> concat harmless /\
  (exists t, steps 9 toy e toy_rules (toy_pre ++ in_pieces harmless ++ post) (new_txn e)
     = Ret (t, [ObsNone; ObsNone; ObsErr None; ObsErr None; ObsNone; ObsResult reset_iv])) /\
  (exists t, steps 9 toy e toy_rules (toy_pre ++ in_pieces hidden ++ post) (new_txn e)
     = Ret (t, [ObsNone; ObsNone; ObsErr None; ObsErr None; ObsErr None; ObsNone; ObsResult reset_iv])) /\
  (exists t i, steps 9 toy e toy_rules (toy_pre ++ in_pieces [B "attack!"] ++ post) (new_txn e)
     = Ret (t, [ObsNone; ObsNone; ObsErr None; ObsNone; ObsResult i]) /\ i_disruptive i = true) /\
  (forall f, (1 < f)%nat -> steps f toy e toy_rules (toy_pre ++ in_pieces [B "no mark in sixteen!"] ++ post) (new_txn e) = Timeout).
Proof.
  cbv zeta. split; [discriminate|]. split; [vm_compute; discriminate|]. split; [reflexivity|].
  split; [intros q ft I; cbn in I; intuition discriminate|]. split; [intros q ft I; cbn in I; intuition discriminate|].
  split.
  { intros h ct s I F. assert (C : ct = [] \/ ct = B "multipart/form-data").
    { destruct I as [->|I]; [left; eapply first_value_fun; [exact F|exact (header_first _ [])]|].
      right. cbn in I. destruct I as [I|[I|[I|[I|[]]]]]; try discriminate. injection I as <-.
      eapply first_value_fun; [exact F|]. exact (header_first (B "Content-Type") [(B "Content-Type", [B "multipart/form-data"])]). }
    destruct C as [->| ->]; cbn; discriminate. }
  split; [discriminate|]. split; [eexists; vm_compute; reflexivity|]. split; [eexists; vm_compute; reflexivity|].
  split; [eexists _, _; split; vm_compute; reflexivity|].
  intros f F. destruct f as [|[|f]]; [lia|lia|]. reflexivity.
Qed.
Print Assumptions C49_programs_see_only_the_beginning.
Print Assumptions C49_reading_to_the_end_never_stops.
Print Assumptions C49_multipart_requests_judged_by_their_beginning.
