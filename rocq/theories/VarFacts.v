From Verif Require Import Base BaseFacts GoStrings Utils Buffer BufferFacts Types Transaction Variables
  SpecText TextFacts NumFacts SpecVars.
From Coq Require Import ZifyBool.

(** ** Frame: what fetching leaves alone *)
Definition request_part (t : txn) :=
  (t_srcip t, t_srcport t, t_dstip t, t_dstport t, t_url t, t_method t, t_reqproto t, t_reqheader t).
Definition response_part (t : txn) := (t_code t, t_resproto t, t_resheader t).
Definition position (t : txn) := (t_phase t, t_cur t, t_next t, t_status t).

(** Everything except bodies' file offsets, caches, body error, abort,
    intervention and the iteration counter. *)
Definition frame (t t' : txn) : Prop :=
  request_part t' = request_part t /\ response_part t' = response_part t /\ position t' = position t /\
  reads_ok (t_reqbody t) (t_reqbody t') /\ reads_ok (t_resbody t) (t_resbody t') /\
  (t_abort t = true -> t_abort t' = true).

Lemma frame_refl : forall t, frame t t.
Proof. intro t. unfold frame. repeat split; auto using reads_ok_refl. Qed.
Lemma frame_trans : forall a b c, frame a b -> frame b c -> frame a c.
Proof.
  intros a b c (A1&A2&A3&A4&A5&A6) (B1&B2&B3&B4&B5&B6).
  split; [congruence|]. split; [congruence|]. split; [congruence|].
  split; [eapply reads_ok_trans; eauto|]. split; [eapply reads_ok_trans; eauto|]. auto.
Qed.
Ltac frame_now := unfold frame, reads_ok, consts; simpl; repeat split; auto.

Lemma frame_tick : forall t, frame t (tick t).
Proof. intro t. frame_now. Qed.
Lemma frame_cache_set : forall tp v t, frame t (cache_set tp v t).
Proof. intros [] v t; frame_now. Qed.
Lemma frame_bodyerr : forall t b, frame t (with_bodyerr t b).
Proof. intros t b. frame_now. Qed.
Lemma frame_abort : forall s m t, frame t (abort_with_error s m t).
Proof. intros s m t. frame_now. Qed.
Lemma frame_reqbody : forall t b, reads_ok (t_reqbody t) b -> frame t (with_reqbody t b).
Proof. intros t b H. unfold frame. simpl. repeat split; auto using reads_ok_refl; apply H. Qed.
Lemma frame_resbody : forall t b, reads_ok (t_resbody t) b -> frame t (with_resbody t b).
Proof. intros t b H. unfold frame. simpl. repeat split; auto using reads_ok_refl; apply H. Qed.
Lemma set_off_reads_ok : forall n b, reads_ok b (set_off n b).
Proof.
  intros n b. unfold set_off. destruct (b_file b) as [f|] eqn:F; [|apply reads_ok_refl].
  eapply reads_ok_off; eauto.
Qed.

Lemma frame_run_parser : forall O e tp bd t t' i er,
  run_parser O e tp bd t = Ret (t', i, er) -> frame t t'.
Proof.
  intros O e tp bd t t' i er H. destruct tp; simpl in H.
  - pose proof (reads_ok_init (t_reqbody t)) as R.
    destruct (match b_file (init_read (t_reqbody t)) with Some _ => Some ErrOutOfMemLimit | None => None end) as [er0|].
    + inversion H; subst. eapply frame_trans; [apply frame_reqbody; exact R|apply frame_abort].
    + destruct (parse_query (semi_sep O) (b_mem (init_read (t_reqbody t)))) as [m bad]. inversion H; subst.
      apply frame_reqbody. exact R.
  - destruct (multipart O (t_reqbody t) bd (e_reqmem e)) as [r off].
    pose proof (set_off_reads_ok off (t_reqbody t)) as R.
    destruct r; inversion H; subst; try (apply frame_reqbody; exact R).
    eapply frame_trans; [apply frame_reqbody; exact R|apply frame_abort].
Qed.

Lemma frame_parse_types : forall O e ct bd tps t t' r,
  parse_types O e ct bd tps t = Ret (t', r) -> frame t t'.
Proof.
  induction tps as [|tp tps IH]; intros t t' r H; simpl in H.
  - inversion H; subst. apply frame_refl.
  - destruct (negb (has_prefix (bt_ctype tp) ct)); [eauto|].
    destruct (cache_get tp t) as [res|].
    + destruct res; try (inversion H; subst; apply frame_refl). eauto.
    + apply bind_Ret in H as ([[t1 res] err] & H1 & H).
      apply frame_run_parser in H1.
      assert (F2 : frame t (cache_set tp res t1)) by (eapply frame_trans; [exact H1|apply frame_cache_set]).
      destruct err.
      * inversion H; subst. eapply frame_trans; [exact F2|apply frame_bodyerr].
      * destruct res; try (inversion H; subst; exact F2).
        eapply frame_trans; [exact F2|eauto].
Qed.

Lemma frame_body_parse : forall O e t t' r, request_body_parse O e t = Ret (t', r) -> frame t t'.
Proof.
  intros O e t t' r H. unfold request_body_parse in H.
  destruct (negb (has_body_method t)); [inversion H; subst; apply frame_refl|].
  destruct (negb (e_reqaccess e) || (buf_len (t_reqbody t) =? 0)); [inversion H; subst; apply frame_refl|].
  destruct (media_type O _) as [mt bd]. now apply frame_parse_types in H.
Qed.

Lemma frame_coll : forall O e c f t t' out, fetch_coll O e c f t = Ret (t', out) -> frame t t'.
Proof.
  intros O e c f t t' out H.
  assert (P : forall t1 t2 o, frame t t1 -> Ret (filter_fetch O f o t1) = Ret (t2, out) -> frame t t2)
    by (intros t1 t2 o F Q; inversion Q; subst; eapply frame_trans; [exact F|apply frame_tick]).
  assert (P2 : forall t1 t2 o, frame t t1 -> Ret (filter_names O f o t1) = Ret (t2, out) -> frame t t2)
    by (intros t1 t2 o F Q; inversion Q; subst; eapply frame_trans; [exact F|apply frame_tick]).
  destruct c; simpl in H;
  try (destruct (t_url t); [|inversion H; subst; apply frame_refl]);
  try (eapply P; [apply frame_refl|exact H]); try (eapply P2; [apply frame_refl|exact H]).
  - apply bind_Ret in H as ([t1 r] & H1 & H). apply frame_body_parse in H1.
    destruct r as [[[] [|m|[m|]]]|]; try (inversion H; subst; exact H1); eapply P; eauto.
  - apply bind_Ret in H as ([t1 r] & H1 & H). apply frame_body_parse in H1.
    destruct r as [[[] [|m|[m|]]]|]; try (inversion H; subst; exact H1); try discriminate; eapply P2; eauto.
Qed.

Lemma frame_scalar : forall O e s t, frame t (fst (fetch_scalar O e s t)).
Proof.
  intros O e s t. pose proof (frame_refl t) as R.
  assert (RB : frame t (fst (fetch_request_body O e t))).
  { unfold fetch_request_body.
    destruct (negb (has_body_method t)); [exact R|].
    destruct (negb (e_reqaccess e) || (buf_len (t_reqbody t) =? 0)); [exact R|].
    destruct (header_get _ _); [exact R|].
    destruct (negb _); [exact R|].
    unfold buf_string. pose proof (reads_ok_init (t_reqbody t)) as K.
    destruct (b_file (init_read (t_reqbody t))); simpl.
    - eapply frame_trans; [apply frame_reqbody; exact K|apply frame_abort].
    - apply frame_reqbody. exact K. }
  assert (RS : frame t (fst (fetch_response_body e t))).
  { unfold fetch_response_body.
    destruct (negb (e_resaccess e) || (buf_len (t_resbody t) =? 0)); [exact R|].
    unfold buf_string. pose proof (reads_ok_init (t_resbody t)) as K.
    destruct (b_file (init_read (t_resbody t))); simpl.
    - eapply frame_trans; [apply frame_resbody; exact K|apply frame_abort].
    - apply frame_resbody. exact K. }
  destruct s; simpl; try exact R; try exact RB; try exact RS; try (destruct (t_url t); exact R).
  destruct (header_get _ _); exact R.
Qed.

Lemma frame_fetch : forall O e v t t' out, fetch O e v t = Ret (t', out) -> frame t t'.
Proof.
  induction v as [c f|s|g p|g p|v IH]; intros t t' out H; cbn [fetch] in H.
  - eapply frame_coll; eauto.
  - pose proof (frame_scalar O e s t) as F. destruct (fetch_scalar O e s t) as [t1 o].
    inversion H; subst. exact F.
  - apply bind_Ret in H as ([t1 a] & H1 & H). apply bind_Ret in H as ([t2 b] & H2 & H). inversion H; subst.
    eapply frame_trans; eapply frame_coll; eauto.
  - apply bind_Ret in H as ([t1 a] & H1 & H). apply bind_Ret in H as ([t2 b] & H2 & H). inversion H; subst.
    eapply frame_trans; eapply frame_coll; eauto.
  - apply bind_Ret in H as ([t1 a] & H1 & H). inversion H; subst. eauto.
Qed.

(** ** Selectors *)
Definition apply_call (O : oracles) (c : call) (v : variable) : option variable :=
  match c with Inc s => var_include O s v | Exc s => var_exclude O s v end.
Fixpoint apply_calls (O : oracles) (cs : list call) (v : variable) : option variable :=
  match cs with
  | [] => Some v
  | c :: cs' => match apply_call O c v with Some v' => apply_calls O cs' v' | None => None end
  end.

Lemma is_regex_pattern : forall s, is_regex s = true <-> exists p, pattern s p.
Proof.
  intro s. unfold pattern. split.
  - destruct s as [|a [|b r]]; try discriminate. simpl is_regex. intro H.
    apply andb_true_iff in H as [H1 H2]. apply Ascii.eqb_eq in H1, H2. subst a.
    exists (removelast (b :: r)). f_equal.
    pose proof (app_removelast_last " "%char (l := b :: r) ltac:(easy)) as E.
    rewrite E at 1. f_equal. f_equal. exact H2.
  - intros [p ->]. destruct p as [|b p]; [reflexivity|].
    cbn [app is_regex]. apply andb_true_iff. split; [reflexivity|].
    change (b :: p ++ ["/"%char]) with ((b :: p) ++ ["/"%char]). rewrite last_last. reflexivity.
Qed.
Lemma inner_pattern : forall s p, pattern s p -> inner s = p.
Proof. intros s p ->. unfold inner. simpl. apply removelast_last. Qed.
Lemma exact_not_regex : forall s, is_regex s = false <-> exact s.
Proof.
  intro s. unfold exact. rewrite <- not_true_iff_false, is_regex_pattern. split.
  - intros H p P. apply H. eauto.
  - intros H [p P]. eapply H; eauto.
Qed.

(** The filter reached by a list of calls. *)
Definition filter_of (cs : list call) : filter :=
  Filter
    (flat_map (fun c => match c with Inc s => if is_regex s then [] else [s] | _ => [] end) cs)
    (flat_map (fun c => match c with Inc s => if is_regex s then [inner s] else [] | _ => [] end) cs)
    (flat_map (fun c => match c with Exc s => if is_regex s then [] else [s] | _ => [] end) cs)
    (flat_map (fun c => match c with Exc s => if is_regex s then [inner s] else [] | _ => [] end) cs).

Definition filter_cat (f g : filter) : filter :=
  Filter (f_inc f ++ f_inc g) (f_incre f ++ f_incre g) (f_exc f ++ f_exc g) (f_excre f ++ f_excre g).

Definition filter_call (O : oracles) (c : call) (f : filter) : option filter :=
  match c with Inc s => filter_include O s f | Exc s => filter_exclude O s f end.
Fixpoint filter_calls (O : oracles) (cs : list call) (f : filter) : option filter :=
  match cs with
  | [] => Some f
  | c :: cs' => match filter_call O c f with Some f' => filter_calls O cs' f' | None => None end
  end.

Lemma filter_call_cat : forall O c f f', filter_call O c f = Some f' ->
  f' = filter_cat f (filter_of [c]).
Proof.
  intros O [s|s] f f' H; simpl in H; unfold filter_include, filter_exclude in H;
  unfold filter_cat, filter_of; simpl; destruct (is_regex s); simpl; rewrite ?app_nil_r;
  try (destruct (rx_ok O (inner s)); [|discriminate]); inversion H; reflexivity.
Qed.
Lemma filter_of_cons : forall c cs f,
  filter_cat (filter_cat f (filter_of [c])) (filter_of cs) = filter_cat f (filter_of (c :: cs)).
Proof.
  intros c cs f. unfold filter_cat, filter_of. simpl. rewrite !app_nil_r, <- !app_assoc. reflexivity.
Qed.
Lemma filter_calls_of : forall O cs f f', filter_calls O cs f = Some f' -> f' = filter_cat f (filter_of cs).
Proof.
  induction cs as [|c cs IH]; intros f f' H; simpl in H.
  - inversion H; subst. destruct f'. unfold filter_cat, filter_of. simpl. now rewrite !app_nil_r.
  - destruct (filter_call O c f) as [f1|] eqn:E; [|discriminate].
    apply filter_call_cat in E. subst f1. apply IH in H. subst f'. apply filter_of_cons.
Qed.

Lemma apply_calls_coll : forall O cs c f v, apply_calls O cs (VColl c f) = Some v ->
  exists f', filter_calls O cs f = Some f' /\ v = VColl c f'.
Proof.
  induction cs as [|x cs IH]; intros c f v H; simpl in H.
  - inversion H; subst. exists f. auto.
  - destruct x as [s|s]; simpl in H |- *.
    + destruct (filter_include O s f) as [f1|] eqn:E; [|discriminate]. simpl in H. apply IH in H. exact H.
    + destruct (filter_exclude O s f) as [f1|] eqn:E; [|discriminate]. simpl in H. apply IH in H. exact H.
Qed.
Lemma calls_coll_filter : forall O cs c f f', filter_calls O cs f = Some f' ->
  apply_calls O cs (VColl c f) = Some (VColl c f').
Proof.
  induction cs as [|x cs IH]; intros c f f' H; simpl in H |- *.
  - now inversion H.
  - destruct x as [s|s]; simpl in *.
    + destruct (filter_include O s f) as [f1|]; [|discriminate]. simpl. auto.
    + destruct (filter_exclude O s f) as [f1|]; [|discriminate]. simpl. auto.
Qed.

Lemma apply_calls_args : forall O cs g p v, apply_calls O cs (VArgs g p) = Some v ->
  exists g' p', filter_calls O cs g = Some g' /\ filter_calls O cs p = Some p' /\ v = VArgs g' p'.
Proof.
  induction cs as [|x cs IH]; intros g p v H; simpl in H |- *.
  - inversion H; subst. eauto.
  - destruct x as [s|s]; simpl in *.
    + destruct (filter_include O s g); [|discriminate]. destruct (filter_include O s p); [|discriminate]. eauto.
    + destruct (filter_exclude O s g); [|discriminate]. destruct (filter_exclude O s p); [|discriminate]. eauto.
Qed.
Lemma apply_calls_args_names : forall O cs g p v, apply_calls O cs (VArgsNames g p) = Some v ->
  exists g' p', filter_calls O cs g = Some g' /\ filter_calls O cs p = Some p' /\ v = VArgsNames g' p'.
Proof.
  induction cs as [|x cs IH]; intros g p v H; simpl in H |- *.
  - inversion H; subst. eauto.
  - destruct x as [s|s]; simpl in *.
    + destruct (filter_include O s g); [|discriminate]. destruct (filter_include O s p); [|discriminate]. eauto.
    + destruct (filter_exclude O s g); [|discriminate]. destruct (filter_exclude O s p); [|discriminate]. eauto.
Qed.
Lemma apply_calls_count : forall O cs v w, apply_calls O cs (VCount v) = Some w ->
  exists v', apply_calls O cs v = Some v' /\ w = VCount v'.
Proof.
  induction cs as [|x cs IH]; intros v w H; simpl in H |- *.
  - inversion H; subst. eauto.
  - destruct x as [s|s]; simpl in *.
    + destruct (var_include O s v); [|discriminate]. simpl in H. eauto.
    + destruct (var_exclude O s v); [|discriminate]. simpl in H. eauto.
Qed.

Lemma in_slice : forall k l, StringInSlice k l = true <-> In k l.
Proof.
  induction l as [|x l IH]; simpl; [easy|].
  destruct (bs_eqb_spec x k) as [->|N]; [tauto|]. rewrite IH. split; [tauto|intros [?|?]; [contradiction|auto]].
Qed.
Lemma in_regex_slice : forall rx k l, StringInRegexSlice rx k l = true <-> exists p, In p l /\ rx p k = true.
Proof.
  induction l as [|x l IH]; simpl; [split; [easy|intros (p & [] & _)]|].
  destruct (rx x k) eqn:E.
  - split; [|easy]. intros _. exists x. auto.
  - rewrite IH. split; intros (p & H & R); exists p; [auto|]. destruct H as [->|H]; [congruence|auto].
Qed.

Lemma in_filter_inc : forall cs k, In k (f_inc (filter_of cs)) <-> In (Inc k) cs /\ exact k.
Proof.
  intros cs k. simpl. rewrite in_flat_map. split.
  - intros ([s|s] & I & H); [|easy]. destruct (is_regex s) eqn:E; [easy|]. destruct H as [->|[]].
    split; [exact I|]. now apply exact_not_regex.
  - intros [I E]. exists (Inc k). split; [exact I|]. apply exact_not_regex in E. rewrite E. now left.
Qed.
Lemma in_filter_exc : forall cs k, In k (f_exc (filter_of cs)) <-> In (Exc k) cs /\ exact k.
Proof.
  intros cs k. simpl. rewrite in_flat_map. split.
  - intros ([s|s] & I & H); [easy|]. destruct (is_regex s) eqn:E; [easy|]. destruct H as [->|[]].
    split; [exact I|]. now apply exact_not_regex.
  - intros [I E]. exists (Exc k). split; [exact I|]. apply exact_not_regex in E. rewrite E. now left.
Qed.
Lemma in_filter_incre : forall cs p, In p (f_incre (filter_of cs)) <-> exists s, In (Inc s) cs /\ pattern s p.
Proof.
  intros cs p. simpl. rewrite in_flat_map. split.
  - intros ([s|s] & I & H); [|easy]. destruct (is_regex s) eqn:E; [|easy]. destruct H as [H|[]].
    exists s. split; [exact I|]. apply is_regex_pattern in E as [q Q]. rewrite (inner_pattern _ _ Q) in H. now subst.
  - intros (s & I & P). exists (Inc s). split; [exact I|].
    assert (E : is_regex s = true) by (apply is_regex_pattern; eauto). rewrite E. left. now apply inner_pattern.
Qed.
Lemma in_filter_excre : forall cs p, In p (f_excre (filter_of cs)) <-> exists s, In (Exc s) cs /\ pattern s p.
Proof.
  intros cs p. simpl. rewrite in_flat_map. split.
  - intros ([s|s] & I & H); [easy|]. destruct (is_regex s) eqn:E; [|easy]. destruct H as [H|[]].
    exists s. split; [exact I|]. apply is_regex_pattern in E as [q Q]. rewrite (inner_pattern _ _ Q) in H. now subst.
  - intros (s & I & P). exists (Exc s). split; [exact I|].
    assert (E : is_regex s = true) by (apply is_regex_pattern; eauto). rewrite E. left. now apply inner_pattern.
Qed.

Lemma nonempty_iff : forall A (l : list A), nonempty l = true <-> exists x, In x l.
Proof.
  intros A [|a l]; simpl; split; try easy.
  - intros [x []].
  - intros _. exists a. now left.
Qed.

Lemma drops_selected : forall O cs k, filter_drops O (filter_of cs) k = false <-> selected (rx_match O) cs k.
Proof.
  intros O cs k. unfold filter_drops, selected.
  rewrite !orb_false_iff, !andb_false_iff, !negb_false_iff.
  rewrite <- !not_true_iff_false, !in_slice, !in_regex_slice, !nonempty_iff.
  rewrite in_filter_inc, in_filter_exc.
  split.
  - intros [[H1 H2] [H3 H4]]. split; [|split; [|split]].
    + intros (s & I & E). destruct H1 as [H1|H1]; [|exact H1].
      elim H1. exists s. now apply in_filter_inc.
    + intros (s & p & I & E). destruct H2 as [H2|(q & Hq & R)].
      * elim H2. exists p. apply in_filter_incre. eauto.
      * apply in_filter_incre in Hq as (s' & I' & P'). eauto.
    + intros [I E]. destruct H3 as [H3|H3]; [|tauto]. apply H3. exists k. now apply in_filter_exc.
    + intros (s & p & I & P & R). destruct H4 as [H4|H4].
      * apply H4. exists p. apply in_filter_excre. eauto.
      * apply H4. exists p. split; [apply in_filter_excre; eauto|exact R].
  - intros (H1 & H2 & H3 & H4). split; split.
    + destruct (nonempty (f_inc (filter_of cs))) eqn:N.
      * right. apply H1. apply nonempty_iff in N as [x Hx]. apply in_filter_inc in Hx. eauto.
      * left. intro Q. apply nonempty_iff in Q. congruence.
    + destruct (nonempty (f_incre (filter_of cs))) eqn:N.
      * right. apply nonempty_iff in N as [x Hx]. apply in_filter_incre in Hx as (s & I & P).
        destruct H2 as (s' & p' & I' & P' & R'); [eauto|]. exists p'. split; [apply in_filter_incre; eauto|exact R'].
      * left. intro Q. apply nonempty_iff in Q. congruence.
    + right. exact H3.
    + right. intros (p & I & R). apply in_filter_excre in I as (s & I & P). apply H4. eauto.
Qed.

Lemma selected_dec : forall rx cs k (O : oracles), rx = rx_match O ->
  selected rx cs k \/ ~ selected rx cs k.
Proof.
  intros rx cs k O ->. rewrite <- drops_selected.
  destruct (filter_drops O (filter_of cs) k); [right; discriminate|now left].
Qed.

Lemma fetch_keeps : forall O cs m,
  keeps (fun kv => selected (rx_match O) cs (fst kv)) m (fetch_with_names O (filter_of cs) m).
Proof.
  intros O cs m. unfold fetch_with_names. induction m as [|kv m IH]; simpl; [constructor|].
  destruct (filter_drops O (filter_of cs) (fst kv)) eqn:E; simpl.
  - apply keeps_out; [|exact IH]. intro S. apply drops_selected in S. congruence.
  - apply keeps_in; [|exact IH]. now apply drops_selected.
Qed.

Lemma keeps_nodup : forall P (m m' : vals), keeps P m m' -> NoDup (map fst m) -> NoDup (map fst m').
Proof.
  induction 1; simpl; intro N; [constructor| |].
  - inversion N; subst. constructor; [|auto]. intro I. apply H3. clear -I H0.
    induction H0; simpl in *; intuition.
  - inversion N; auto.
Qed.

Lemma filter_cat_empty : forall cs, filter_cat empty_filter (filter_of cs) = filter_of cs.
Proof. reflexivity. Qed.

(** Entries of a collection as a map, [None] when it is not available. *)
Inductive entries (O : oracles) (e : engine) (t : txn) : coll -> vals -> Prop :=
| en_get : forall u, t_url t = Some u -> entries O e t CArgsGet (url_query O u)
| en_getn : forall u, t_url t = Some u -> entries O e t CArgsGetNames (url_query O u)
| en_get0 : t_url t = None -> entries O e t CArgsGet []
| en_getn0 : t_url t = None -> entries O e t CArgsGetNames []
| en_cookies : entries O e t CRequestCookies (read_cookie (t_reqheader t))
| en_cookiesn : entries O e t CRequestCookiesNames (read_cookie (t_reqheader t))
| en_headers : entries O e t CRequestHeaders (t_reqheader t)
| en_headersn : forall u, t_url t = Some u -> entries O e t CRequestHeadersNames (t_reqheader t)
| en_headersn0 : t_url t = None -> entries O e t CRequestHeadersNames []
| en_res : entries O e t CResponseHeaders (t_resheader t)
| en_resn : entries O e t CResponseHeadersNames (t_resheader t)
| en_post : forall t1 tp m, request_body_parse O e t = Ret (t1, Some (tp, IValues m)) -> tp = BUrlencoded ->
    entries O e t CArgsPost m
| en_postn : forall t1 tp m, request_body_parse O e t = Ret (t1, Some (tp, IValues m)) -> tp = BUrlencoded ->
    entries O e t CArgsPostNames m
| en_mp : forall t1 m, request_body_parse O e t = Ret (t1, Some (BMultipart, IForm (Some m))) ->
    entries O e t CArgsPost m
| en_mpn : forall t1 m, request_body_parse O e t = Ret (t1, Some (BMultipart, IForm (Some m))) ->
    entries O e t CArgsPostNames m
| en_post0 : forall t1 r, request_body_parse O e t = Ret (t1, r) ->
    (forall m, r <> Some (BUrlencoded, IValues m)) -> (forall m, r <> Some (BMultipart, IForm (Some m))) ->
    entries O e t CArgsPost []
| en_postn0 : forall t1 r, request_body_parse O e t = Ret (t1, r) ->
    (forall m, r <> Some (BUrlencoded, IValues m)) -> (forall m, r <> Some (BMultipart, IForm (Some m))) ->
    entries O e t CArgsPostNames [].

(** The collections that yield values, as opposed to names. *)
Definition value_coll (c : coll) : bool :=
  match c with CArgsGet | CArgsPost | CRequestCookies | CRequestHeaders | CResponseHeaders => true | _ => false end.

Lemma fetch_coll_entries : forall O e c f t t' out, ord_valid O ->
  fetch_coll O e c f t = Ret (t', out) ->
  exists m, entries O e t c m /\
    Permutation out (if value_coll c then flat_map snd (fetch_with_names O f m)
                     else map fst (fetch_with_names O f m)).
Proof.
  intros O e c f t t' out V H.
  assert (PF : forall t1 t2 m, Ret (filter_fetch O f m t1) = Ret (t2, out) ->
     Permutation out (flat_map snd (fetch_with_names O f m))).
  { intros t1 t2 m Q. inversion Q. apply Permutation_flat_map, V. }
  assert (PN : forall t1 t2 m, Ret (filter_names O f m t1) = Ret (t2, out) ->
     Permutation out (map fst (fetch_with_names O f m))).
  { intros t1 t2 m Q. inversion Q. apply Permutation_map, V. }
  destruct c; simpl in H |- *;
  try (destruct (t_url t) eqn:U; [|inversion H; subst; eexists; split; [constructor; exact U|constructor]]);
  try (eexists; split; [econstructor; eauto; fail|first [eapply PF; exact H|eapply PN; exact H]]).
  - apply bind_Ret in H as ([t1 r] & H1 & H).
    destruct r as [[[] [|m|[m|]]]|].
    2:{ exists m. split; [eapply en_post; eauto|eapply PF; eauto]. }
    6:{ exists m. split; [eapply en_mp; eauto|eapply PF; eauto]. }
    all: inversion H; subst; exists []; split; [eapply en_post0; eauto; intros; discriminate|constructor].
  - apply bind_Ret in H as ([t1 r] & H1 & H).
    destruct r as [[[] [|m|[m|]]]|]; try discriminate.
    2:{ exists m. split; [eapply en_postn; eauto|eapply PN; eauto]. }
    6:{ exists m. split; [eapply en_mpn; eauto|eapply PN; eauto]. }
    all: inversion H; subst; exists []; split; [eapply en_postn0; eauto; intros; discriminate|constructor].
Qed.
