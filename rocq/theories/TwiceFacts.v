(** Two rules that differ only in the order of their variables. *)
From Verif Require Import Base BaseFacts GoStrings Utils Buffer BufferFacts Types Transforms Operators Transaction Variables Rules Engine Scanner Loader
  SpecText NumFacts SpecVars VarFacts SpecRules PropText BodyFacts OrderFacts SpecLoad LoadFacts.
From Coq Require Import ZifyBool.

(** ** What a variable does to the transaction *)
Inductive reader := RNone | RParse | RString | RResp.
Inductive payload := PNone | PParse (r : option (btype * iface)) | PStr (l : list bs).
Fixpoint kind (v : variable) : reader :=
  match v with
  | VColl CArgsPost _ | VColl CArgsPostNames _ | VArgs _ _ | VArgsNames _ _ => RParse
  | VColl _ _ => RNone
  | VScalar SRequestBody => RString
  | VScalar SResponseBody => RResp
  | VScalar _ => RNone
  | VCount v => kind v
  end.
Definition reads (v : variable) : bool := match kind v with RNone => false | _ => true end.
Definition bad (t : txn) : bool := t_bodyerr t || t_abort t.
Definition one (vs : list variable) : Prop := (length (List.filter reads vs) <= 1)%nat.
Definition ticks (k : nat) (t : txn) : txn := Nat.iter k tick t.
Definition data (t : txn) :=
  (t_srcip t, t_url t, t_method t, t_reqproto t, t_reqheader t, (t_code t, t_resproto t, t_resheader t)).

Section Plain.
Variables (O : oracles) (e : engine).
Hypothesis ID : forall n A (l : list A), ord O n A l = l.

Definition act (k : reader) (t : txn) : out (txn * payload) :=
  match k with
  | RNone => Ret (t, PNone)
  | RParse => '(t1, r) <- request_body_parse O e t ;; Ret (t1, PParse r)
  | RString => let '(t1, l) := fetch_request_body O e t in Ret (t1, PStr l)
  | RResp => let '(t1, l) := fetch_response_body e t in Ret (t1, PStr l)
  end.
Definition look (names : bool) (f : filter) (m : vals) : nat * list bs :=
  (1%nat, if names then map fst (fetch_with_names O f m) else flat_map snd (fetch_with_names O f m)).
Definition coll_value (c : coll) (f : filter) (t : txn) (x : payload) : option (nat * list bs) :=
  match c with
  | CArgsGet => match t_url t with None => Some (0%nat, []) | Some u => Some (look false f (url_query O u)) end
  | CArgsGetNames => match t_url t with None => Some (0%nat, []) | Some u => Some (look true f (url_query O u)) end
  | CArgsPost =>
      match x with
      | PParse (Some (BUrlencoded, IValues m)) | PParse (Some (BMultipart, IForm (Some m))) => Some (look false f m)
      | _ => Some (0%nat, [])
      end
  | CArgsPostNames =>
      match x with
      | PParse (Some (BUrlencoded, IValues m)) | PParse (Some (BMultipart, IForm (Some m))) => Some (look true f m)
      | PParse (Some (BMultipart, IForm None)) => None
      | _ => Some (0%nat, [])
      end
  | CRequestCookies => Some (look false f (read_cookie (t_reqheader t)))
  | CRequestCookiesNames => Some (look true f (read_cookie (t_reqheader t)))
  | CRequestHeaders => Some (look false f (t_reqheader t))
  | CRequestHeadersNames => match t_url t with None => Some (0%nat, []) | Some _ => Some (look true f (t_reqheader t)) end
  | CResponseHeaders => Some (look false f (t_resheader t))
  | CResponseHeadersNames => Some (look true f (t_resheader t))
  end.
Definition both (a b : option (nat * list bs)) : option (nat * list bs) :=
  match a, b with Some (k1, x), Some (k2, y) => Some ((k1 + k2)%nat, x ++ y) | _, _ => None end.
Fixpoint value (v : variable) (t : txn) (x : payload) : option (nat * list bs) :=
  match v with
  | VColl c f => coll_value c f t x
  | VScalar s =>
      match s with
      | SRequestBody | SResponseBody => Some (0%nat, match x with PStr l => l | _ => [] end)
      | _ => Some (0%nat, snd (fetch_scalar O e s t))
      end
  | VArgs g p => both (coll_value CArgsGet g t x) (coll_value CArgsPost p t x)
  | VArgsNames g p => both (coll_value CArgsGetNames g t x) (coll_value CArgsPostNames p t x)
  | VCount v => option_map (fun p => (fst p, [itoa (Z.of_nat (length (snd p)))])) (value v t x)
  end.

Lemma parse_types_tick : forall ct bd tps t, parse_types O e ct bd tps (tick t) = '(t1, r) <- parse_types O e ct bd tps t ;; Ret (tick t1, r).
Proof.
  intros ct bd. induction tps as [|tp tps IH]; intro t; cbn [parse_types]; [reflexivity|].
  destruct (negb (has_prefix (bt_ctype tp) ct)); [apply IH|].
  assert (C : cache_get tp (tick t) = cache_get tp t) by (now destruct tp). rewrite C.
  destruct (cache_get tp t) as [[|m|f]|]; [apply IH|reflexivity|reflexivity|].
  assert (R : run_parser O e tp bd (tick t) = '(t1, res, err) <- run_parser O e tp bd t ;; Ret (tick t1, res, err)).
  { unfold run_parser. destruct tp.
    - change (t_reqbody (tick t)) with (t_reqbody t). destruct (buf_string (t_reqbody t)) as [[bb body] [er|]]; [reflexivity|].
      destruct (parse_query (semi_sep O) body). reflexivity.
    - change (t_reqbody (tick t)) with (t_reqbody t). destruct (multipart O (t_reqbody t) bd (e_reqmem e)) as [[m| | |] off]; reflexivity. }
  rewrite R. destruct (run_parser O e tp bd t) as [[[t1 res] err]| |]; cbn [bind]; [|reflexivity..].
  assert (S : cache_set tp res (tick t1) = tick (cache_set tp res t1)) by (now destruct tp). rewrite S. destruct err; [reflexivity|].
  destruct res; [apply IH|reflexivity..].
Qed.
Lemma act_tick : forall k t, act k (tick t) = '(t1, x) <- act k t ;; Ret (tick t1, x).
Proof.
  intros [] t; cbn [act]; [reflexivity|..].
  - unfold request_body_parse. change (has_body_method (tick t)) with (has_body_method t). change (t_reqbody (tick t)) with (t_reqbody t).
    change (t_reqheader (tick t)) with (t_reqheader t). destruct (negb (has_body_method t)); [reflexivity|]. destruct (_ || _); [reflexivity|].
    destruct (media_type O _) as [mt bd]. rewrite parse_types_tick. now destruct (parse_types O e mt bd _ t) as [[? ?]| |].
  - unfold fetch_request_body. change (has_body_method (tick t)) with (has_body_method t). change (t_reqbody (tick t)) with (t_reqbody t).
    change (t_reqheader (tick t)) with (t_reqheader t). destruct (negb (has_body_method t)); [reflexivity|]. destruct (_ || _); [reflexivity|].
    destruct (header_get _ _); [reflexivity|]. destruct (negb _); [reflexivity|]. destruct (buf_string (t_reqbody t)) as [[? ?] [?|]]; reflexivity.
  - unfold fetch_response_body. change (t_resbody (tick t)) with (t_resbody t). destruct (_ || _); [reflexivity|].
    destruct (buf_string (t_resbody t)) as [[? ?] [?|]]; reflexivity.
Qed.
Lemma act_ticks : forall k n t, act k (ticks n t) = '(t1, x) <- act k t ;; Ret (ticks n t1, x).
Proof.
  intros k n t. induction n as [|n IH]; [cbn; now destruct (act k t) as [[? ?]| |]|].
  change (ticks (S n) t) with (tick (ticks n t)). rewrite act_tick, IH. now destruct (act k t) as [[? ?]| |].
Qed.
Lemma ticks_add : forall a b t, ticks (a + b) t = ticks a (ticks b t).
Proof. intros a b t. induction a as [|a IH]; [reflexivity|]. change (tick (ticks (a + b) t) = tick (ticks a (ticks b t))). now rewrite IH. Qed.
Lemma coll_form : forall c f t, c <> CArgsPost -> c <> CArgsPostNames -> forall x, exists k a, coll_value c f t x = Some (k, a) /\ fetch_coll O e c f t = Ret (ticks k t, a).
Proof.
  intros c f t N1 N2 x. destruct c; try easy; cbn [coll_value fetch_coll]; unfold filter_fetch, filter_names; try (destruct (t_url t)); rewrite ?ID;
    do 2 eexists; split; reflexivity.
Qed.
Lemma fetch_form : forall v t, fetch O e v t = '(t1, x) <- act (kind v) t ;; match value v t x with Some (k, a) => Ret (ticks k t1, a) | None => Panic end.
Proof.
  intro v. induction v as [c f|s|g p|g p|v IH]; intro t.
  - cbn [fetch value]. destruct c;
      try (match goal with |- fetch_coll O e ?c f t = _ => destruct (coll_form c f t ltac:(discriminate) ltac:(discriminate) PNone) as (k & a & E1 & E2) end;
           cbn [kind act bind]; rewrite E1, E2; reflexivity).
    + cbn [kind act fetch_coll]. unfold fetch_post. destruct (request_body_parse O e t) as [[t1 r]| |]; cbn [bind]; try reflexivity.
      destruct r as [[[] [|m|[m|]]]|]; cbn; unfold filter_fetch; rewrite ?ID; reflexivity.
    + cbn [kind act fetch_coll]. unfold fetch_post_names. destruct (request_body_parse O e t) as [[t1 r]| |]; cbn [bind]; try reflexivity.
      destruct r as [[[] [|m|[m|]]]|]; cbn; unfold filter_names; rewrite ?ID; reflexivity.
  - cbn [fetch]. destruct s; cbn [kind act bind value]; try (cbn [fetch_scalar]; destruct (t_url t); reflexivity); try reflexivity.
    + cbn [fetch_scalar]. now destruct (fetch_request_body O e t).
    + cbn [fetch_scalar]. now destruct (fetch_response_body e t).
    + cbn [fetch_scalar]. now destruct (header_get _ _).
  - cbn [fetch kind value]. destruct (coll_form CArgsGet g t ltac:(discriminate) ltac:(discriminate) PNone) as (k & a & E1 & E2). rewrite E2. cbn [bind].
    cbn [fetch_coll]. unfold fetch_post. pose proof (act_ticks RParse k t) as T. cbn [act] in T. cbn [act].
    destruct (request_body_parse O e (ticks k t)) as [[t1 r]| |], (request_body_parse O e t) as [[t2 r2]| |]; cbn [bind] in *; try discriminate; try reflexivity.
    injection T as -> ->. change (coll_value CArgsGet g t (PParse r2)) with (coll_value CArgsGet g t PNone). rewrite E1.
    destruct r2 as [[[] [|m|[m|]]]|]; cbn [both coll_value bind]; unfold filter_fetch, look; rewrite ?ID; cbn [bind]; rewrite (Nat.add_comm k); reflexivity.
  - cbn [fetch kind value]. destruct (coll_form CArgsGetNames g t ltac:(discriminate) ltac:(discriminate) PNone) as (k & a & E1 & E2). rewrite E2. cbn [bind].
    cbn [fetch_coll]. unfold fetch_post_names. pose proof (act_ticks RParse k t) as T. cbn [act] in T. cbn [act].
    destruct (request_body_parse O e (ticks k t)) as [[t1 r]| |], (request_body_parse O e t) as [[t2 r2]| |]; cbn [bind] in *; try discriminate; try reflexivity.
    injection T as -> ->. change (coll_value CArgsGetNames g t (PParse r2)) with (coll_value CArgsGetNames g t PNone). rewrite E1.
    destruct r2 as [[[] [|m|[m|]]]|]; cbn [both coll_value bind]; unfold filter_names, look; rewrite ?ID; cbn [bind]; rewrite ?(Nat.add_comm k); reflexivity.
  - cbn [fetch kind value]. rewrite IH. destruct (act (kind v) t) as [[t1 x]| |]; cbn [bind]; try reflexivity.
    destruct (value v t x) as [[k a]|]; reflexivity.
Qed.

(** ** Reading twice *)
Lemma coll_value_data : forall c f t t' x, data t = data t' -> coll_value c f t x = coll_value c f t' x.
Proof. intros c f t t' x D. injection D as D1 D2 D3 D4 D5 D6 D7 D8. destruct c; cbn [coll_value]; rewrite ?D2, ?D5, ?D8; reflexivity. Qed.
Lemma value_data : forall v t t' x, data t = data t' -> value v t x = value v t' x.
Proof.
  intros v t t' x D. induction v as [c f|s|g p|g p|v IH]; cbn [value].
  - now apply coll_value_data.
  - injection D as D1 D2 D3 D4 D5 D6 D7 D8. destruct s; cbn [fetch_scalar]; rewrite ?D1, ?D2, ?D3, ?D4, ?D5, ?D6, ?D7, ?D8; try reflexivity; try (destruct (t_url t'); reflexivity).
    destruct (header_get _ _); reflexivity.
  - now rewrite !(coll_value_data _ _ _ _ _ D).
  - now rewrite !(coll_value_data _ _ _ _ _ D).
  - now rewrite IH.
Qed.
Lemma ticks_data : forall k t, data (ticks k t) = data t.
Proof. intros k t. induction k as [|k IH]; [reflexivity|]. exact IH. Qed.
Lemma ticks_bad : forall k t, bad (ticks k t) = bad t.
Proof. intros k t. induction k as [|k IH]; [reflexivity|]. exact IH. Qed.
Lemma types_data : forall ct bd tps t t1 r, parse_types O e ct bd tps t = Ret (t1, r) -> data t = data t1 /\ (bad t = true -> bad t1 = true).
Proof.
  intros ct bd. induction tps as [|tp tps IH]; intros t t1 r H; cbn [parse_types] in H; [apply Ret_inj in H; injection H as <- <-; auto|].
  destruct (negb (has_prefix (bt_ctype tp) ct)); [now apply IH in H|].
  assert (D : match cache_get tp t with Some (IValues _) | Some (IForm _) => t1 = t | Some INil => parse_types O e ct bd tps t = Ret (t1, r) | None => True end).
  { destruct (cache_get tp t) as [[]|]; auto; apply Ret_inj in H; now injection H. }
  destruct (cache_get tp t) as [[]|]; [now apply IH in H|subst; auto..|]. apply bind_Ret in H as ([[t2 res] err] & H1 & H).
  assert (D2 : data t = data (cache_set tp res t2) /\ (bad t = true -> bad (cache_set tp res t2) = true)).
  { unfold run_parser in H1. destruct tp.
    - destruct (buf_string (t_reqbody t)) as [[bb body] [er|]].
      + apply Ret_inj in H1. injection H1 as <- <- <-. split; [reflexivity|]. intros _. unfold bad. cbn. now rewrite orb_true_r.
      + destruct (parse_query (semi_sep O) body). apply Ret_inj in H1. injection H1 as <- <- <-. split; [reflexivity|]. auto.
    - destruct (multipart O (t_reqbody t) bd (e_reqmem e)) as [[m| | |] off]; try discriminate; apply Ret_inj in H1; injection H1 as <- <- <-; (split; [reflexivity|]); auto.
      intros _. unfold bad. cbn. now rewrite orb_true_r. }
  destruct D2 as [D2 D3]. destruct err.
  - apply Ret_inj in H. injection H as <- <-. split; [exact D2|]. intros _. reflexivity.
  - destruct res; [|apply Ret_inj in H; injection H as <- <-; auto..]. apply IH in H as (D4 & D5). split; [congruence|]. auto.
Qed.
Lemma act_data : forall k t t1 x, act k t = Ret (t1, x) -> data t = data t1 /\ (bad t = true -> bad t1 = true).
Proof.
  intros k t t1 x H. destruct k; cbn [act] in H.
  - apply Ret_inj in H. injection H as <- <-. auto.
  - apply bind_Ret in H as ([t2 r] & H1 & H). apply Ret_inj in H. injection H as <- <-. unfold request_body_parse in H1.
    destruct (negb (has_body_method t)); [apply Ret_inj in H1; injection H1 as <- <-; auto|]. destruct (_ || _); [apply Ret_inj in H1; injection H1 as <- <-; auto|].
    destruct (media_type O _) as [mt bd]. now apply types_data in H1.
  - destruct (fetch_request_body O e t) as [t2 l] eqn:E. apply Ret_inj in H. injection H as <- <-. unfold fetch_request_body in E.
    destruct (negb (has_body_method t)); [injection E as <- <-; auto|]. destruct (_ || _); [injection E as <- <-; auto|].
    destruct (header_get _ _); [injection E as <- <-; auto|]. destruct (negb _); [injection E as <- <-; auto|].
    destruct (buf_string (t_reqbody t)) as [[bb body] [er|]]; injection E as <- <-; (split; [reflexivity|]); auto. intros _. unfold bad. cbn. now rewrite orb_true_r.
  - destruct (fetch_response_body e t) as [t2 l] eqn:E. apply Ret_inj in H. injection H as <- <-. unfold fetch_response_body in E.
    destruct (_ || _); [injection E as <- <-; auto|].
    destruct (buf_string (t_resbody t)) as [[bb body] [er|]]; injection E as <- <-; (split; [reflexivity|]); auto. intros _. unfold bad. cbn. now rewrite orb_true_r.
Qed.
Lemma string_mem : forall b b' body, buf_string b = (b', body, None) -> b' = b /\ body = b_mem b /\ b_file b = None.
Proof.
  intros b b' body H. unfold buf_string in H. injection H as H1 H2 H3. destruct (b_file (init_read b)) eqn:F; [discriminate|].
  assert (F2 : b_file b = None).
  { unfold init_read in F. destruct (b_readed b); [exact F|]. destruct (b_file b) eqn:G; [discriminate|]. reflexivity. }
  unfold init_read in *. rewrite F2 in *. destruct (b_readed b); auto.
Qed.
(** A reading of the request body as a string that reports nothing changes nothing. *)
Definition reqstr (t : txn) : bool :=
  has_body_method t && (e_reqaccess e && negb (buf_len (t_reqbody t) =? 0)) && nonempty (header_get (B "Content-Type") (t_reqheader t)) &&
  bs_eqb (fst (media_type O (header_get (B "Content-Type") (t_reqheader t)))) urlenc.
Lemma string_clean : forall t t1 x, act RString t = Ret (t1, x) -> bad t1 = false ->
  t1 = t /\ ((reqstr t = false /\ x = PStr []) \/ (reqstr t = true /\ b_file (t_reqbody t) = None /\ x = PStr [b_mem (t_reqbody t)])).
Proof.
  intros t t1 x H N. cbn [act] in H. destruct (fetch_request_body O e t) as [t2 l] eqn:E. apply Ret_inj in H. injection H as <- <-.
  unfold fetch_request_body in E. unfold reqstr. destruct (has_body_method t); cbn [negb andb] in *; [|injection E as <- <-; auto].
  destruct (e_reqaccess e); cbn [negb andb orb] in *; [|injection E as <- <-; auto]. destruct (buf_len (t_reqbody t) =? 0); cbn [negb andb] in *; [injection E as <- <-; auto|].
  destruct (header_get _ _) as [|c h]; cbn [nonempty andb] in *; [injection E as <- <-; auto|]. fold urlenc in E. destruct (bs_eqb _ urlenc); cbn [negb] in E; [|injection E as <- <-; auto].
  destruct (buf_string (t_reqbody t)) as [[bb body] [er|]] eqn:S; injection E as <- <-.
  - unfold bad in N. cbn in N. rewrite orb_true_r in N. discriminate.
  - apply string_mem in S as (-> & -> & F). rewrite with_reqbody_id. split; [reflexivity|]. right. auto.
Qed.
Lemma string_again : forall t, (reqstr t = true -> b_file (t_reqbody t) = None) ->
  act RString t = Ret (t, PStr (if reqstr t then [b_mem (t_reqbody t)] else [])).
Proof.
  intros t F. cbn [act]. unfold fetch_request_body, reqstr in *. destruct (has_body_method t); cbn [negb andb] in *; [|reflexivity].
  destruct (e_reqaccess e); cbn [negb andb orb] in *; [|reflexivity]. destruct (buf_len (t_reqbody t) =? 0); cbn [negb andb] in *; [reflexivity|].
  destruct (header_get _ _) as [|c h]; cbn [nonempty andb] in *; [reflexivity|]. fold urlenc. destruct (bs_eqb _ urlenc); cbn [negb]; [|reflexivity].
  rewrite (mem_string _ (F eq_refl)), with_reqbody_id. reflexivity.
Qed.
Lemma resp_clean : forall t t1 x, act RResp t = Ret (t1, x) -> bad t1 = false -> t1 = t.
Proof.
  intros t t1 x H N. cbn [act] in H. destruct (fetch_response_body e t) as [t2 l] eqn:E. apply Ret_inj in H. injection H as <- <-.
  unfold fetch_response_body in E. destruct (_ || _); [now injection E|].
  destruct (buf_string (t_resbody t)) as [[bb body] [er|]] eqn:S; injection E as <- <-.
  - unfold bad in N. cbn in N. rewrite orb_true_r in N. discriminate.
  - apply string_mem in S as (-> & -> & F). apply with_resbody_id.
Qed.
Lemma resp_same : forall t t1, t_resbody t1 = t_resbody t -> act RResp t = Ret (t, match act RResp t with Ret (_, x) => x | _ => PNone end) ->
  act RResp t1 = Ret (t1, match act RResp t with Ret (_, x) => x | _ => PNone end).
Proof.
  intros t t1 E H. cbn [act] in *. unfold fetch_response_body in *. rewrite E. destruct (_ || _); [reflexivity|].
  destruct (buf_string (t_resbody t)) as [[bb body] [er|]] eqn:S; cbn in *.
  - exfalso. apply Ret_inj in H. assert (X : t_iv (abort_with_error 500 (berr_msg er) (with_resbody t bb)) = t_iv t) by congruence.
    clear - X. cbn in X. destruct (t_iv t) as [i|] eqn:Q; [|discriminate]. unfold get_iv in X. cbn in X. rewrite Q in X. injection X as X. apply (f_equal i_log) in X. cbn in X.
    apply (f_equal (@length _)) in X. rewrite app_length in X. cbn in X. lia.
  - apply string_mem in S as (-> & -> & F). rewrite <- E. rewrite with_resbody_id. reflexivity.
Qed.
(** A parse that reports nothing can be repeated. *)
Lemma parse_clean : forall t t1 r, request_body_parse O e t = Ret (t1, r) -> bad t1 = false ->
  request_body_parse O e t1 = Ret (t1, r) /\ t_resbody t1 = t_resbody t /\ reqstr t1 = reqstr t /\ b_mem (t_reqbody t1) = b_mem (t_reqbody t) /\
  (reqstr t = true -> t_reqbody t1 = t_reqbody t).
Proof.
  intros t t1 r H N.
  assert (G : forall t', data t' = data t -> b_len (t_reqbody t') = b_len (t_reqbody t) -> (parses e t' <-> parses e t) /\ ctype O t' = ctype O t /\ reqstr t' = reqstr t).
  { intros t' D L. injection D as D1 D2 D3 D4 D5 D6 D7 D8. unfold parses, body_method, ctype, reqstr, has_body_method, buf_len. rewrite D3, D5, L. split; [reflexivity|]. auto. }
  destruct (parses_dec e t) as [P|P]; [|rewrite body_parse_skip in H by exact P; apply Ret_inj in H; injection H as <- <-; rewrite body_parse_skip by exact P; auto].
  assert (RU : reqstr t = true -> has_prefix (bt_ctype BUrlencoded) (ctype O t) = true).
  { unfold reqstr, ctype. rewrite !andb_true_iff. intros ((_ & H1) & H2). destruct (header_get _ _); [discriminate|]. apply bs_eqb_eq in H2. rewrite H2. reflexivity. }
  pose proof H as H0. rewrite body_parse_eq in H by exact P. cbn [parse_types] in H. destruct (has_prefix (bt_ctype BUrlencoded) (ctype O t)) eqn:PU; cbn [negb] in H.
  - pose proof (prefix_excl _ PU) as PM. change (B "multipart/") with (bt_ctype BMultipart) in PM. rewrite PM in H. cbn [negb] in H.
    cbn [cache_get] in H. destruct (t_cache_url t) as [[|m|f]|] eqn:C.
    + apply Ret_inj in H. injection H as <- <-. auto.
    + apply Ret_inj in H. injection H as <- <-. auto.
    + apply Ret_inj in H. injection H as <- <-. auto.
    + apply bind_Ret in H as ([[t2 res] err] & H1 & H). cbn [run_parser] in H1. destruct (buf_string (t_reqbody t)) as [[bb body] [er|]] eqn:S.
      * apply Ret_inj in H1. injection H1 as <- <- <-. apply Ret_inj in H. injection H as <- <-. discriminate.
      * apply string_mem in S as (-> & -> & F). destruct (parse_query (semi_sep O) _) as [m er]. apply Ret_inj in H1. injection H1 as <- <- <-.
        rewrite with_reqbody_id in H. destruct er; apply Ret_inj in H; injection H as <- <-; [discriminate|].
        destruct (G (cache_set BUrlencoded (IValues m) t) eq_refl eq_refl) as (G1 & G2 & G3). split; [|repeat split; auto].
        apply cached_parse_again; [now apply G1|exact PU|reflexivity|discriminate].
  - assert (RF : reqstr t = false) by (destruct (reqstr t); [now specialize (RU eq_refl)|reflexivity]).
    destruct (has_prefix (bt_ctype BMultipart) (ctype O t)) eqn:PM; cbn [negb] in H; [|apply Ret_inj in H; injection H as <- <-; auto].
    cbn [cache_get] in H. destruct (t_cache_mp t) as [[|m|f]|] eqn:C.
    + apply Ret_inj in H. injection H as <- <-. auto.
    + apply Ret_inj in H. injection H as <- <-. auto.
    + apply Ret_inj in H. injection H as <- <-. auto.
    + apply bind_Ret in H as ([[t2 res] err] & H1 & H). cbn [run_parser] in H1. destruct (multipart O (t_reqbody t) _ _) as [[m| | |] off]; try discriminate.
      * apply Ret_inj in H1. injection H1 as <- <- <-. apply Ret_inj in H. injection H as <- <-.
        assert (L : b_len (set_off off (t_reqbody t)) = b_len (t_reqbody t) /\ b_mem (set_off off (t_reqbody t)) = b_mem (t_reqbody t)) by (unfold set_off; now destruct (b_file (t_reqbody t))).
        destruct L as (L & M). match goal with |- request_body_parse O e ?u = _ /\ _ => destruct (G u eq_refl L) as (G1 & G2 & G3) end. split; [|repeat split; auto; congruence].
        apply cached_parse_again; [now apply G1|exact PM|reflexivity|discriminate].
      * apply Ret_inj in H1. injection H1 as <- <- <-. apply Ret_inj in H. injection H as <- <-. discriminate.
      * apply Ret_inj in H1. injection H1 as <- <- <-. apply Ret_inj in H. injection H as <- <-. discriminate.
Qed.
Lemma act_swap : forall k1 k2 t t1 t2 x1 x2, act k1 t = Ret (t1, x1) -> act k2 t1 = Ret (t2, x2) -> k1 = RNone \/ k2 = RNone \/ bad t2 = false ->
  exists t1', act k2 t = Ret (t1', x2) /\ act k1 t1' = Ret (t2, x1).
Proof.
  intros k1 k2 t t1 t2 x1 x2 H1 H2 [->|[->|N]].
  - apply Ret_inj in H1. injection H1 as <- <-. exists t2. auto.
  - apply Ret_inj in H2. injection H2 as <- <-. exists t. auto.
  - assert (N1 : bad t1 = false) by (destruct (bad t1) eqn:X; [apply act_data in H2 as [_ H2]; now rewrite (H2 X) in N|reflexivity]).
    destruct k1.
    + apply Ret_inj in H1. injection H1 as <- <-. exists t2. auto.
    + cbn [act] in H1. apply bind_Ret in H1 as ([u r] & H1 & E). apply Ret_inj in E. injection E as <- <-.
      destruct (parse_clean _ _ _ H1 N1) as (R & R1 & R2 & R3 & R4). destruct k2.
      * apply Ret_inj in H2. injection H2 as <- <-. exists t. cbn [act]. now rewrite H1.
      * cbn [act] in H2. rewrite R in H2. cbn [bind] in H2. apply Ret_inj in H2. injection H2 as <- <-. exists u. cbn [act]. rewrite H1, R. auto.
      * destruct (string_clean _ _ _ H2 N) as (-> & S). exists t. split; [|cbn [act]; now rewrite H1].
        rewrite string_again; [|intro Q; rewrite Q in *; destruct S as [[S _]|(S & S2 & _)]; [congruence|now rewrite (R4 eq_refl) in S2]].
        rewrite R2, R3 in S. destruct S as [(S & ->)|(S & _ & ->)]; now rewrite S.
      * pose proof (resp_clean _ _ _ H2 N) as ->. exists t. split; [|cbn [act]; now rewrite H1].
        rewrite (resp_same u t); [now rewrite H2|auto|now rewrite H2].
    + destruct (string_clean _ _ _ H1 N1) as (-> & S). destruct k2.
      * apply Ret_inj in H2. injection H2 as <- <-. exists t. auto.
      * exists t2. split; [exact H2|]. cbn [act] in H2. apply bind_Ret in H2 as ([u r] & H2 & E). apply Ret_inj in E. injection E as <- <-.
        destruct (parse_clean _ _ _ H2 N) as (R & R1 & R2 & R3 & R4).
        rewrite string_again; [|rewrite R2; intro Q; rewrite (R4 Q); destruct S as [[S _]|(S & S2 & _)]; [congruence|exact S2]].
        rewrite R2, R3. destruct S as [(S & ->)|(S & _ & ->)]; now rewrite S.
      * assert (E : t2 = t) by (now destruct (string_clean _ _ _ H2 N)). subst. exists t. split; [exact H2|exact H1].
      * pose proof (resp_clean _ _ _ H2 N) as ->. exists t. split; [exact H2|exact H1].
    + pose proof (resp_clean _ _ _ H1 N1) as ->. destruct k2.
      * apply Ret_inj in H2. injection H2 as <- <-. exists t. auto.
      * exists t2. split; [exact H2|]. cbn [act] in H2. apply bind_Ret in H2 as ([u r] & H2 & E). apply Ret_inj in E. injection E as <- <-.
        destruct (parse_clean _ _ _ H2 N) as (R & R1 & R2 & R3 & R4). rewrite (resp_same t u); [now rewrite H1|auto|now rewrite H1].
      * assert (E : t2 = t) by (now destruct (string_clean _ _ _ H2 N)). subst. exists t. split; [exact H2|exact H1].
      * pose proof (resp_clean _ _ _ H2 N) as ->. exists t. split; [exact H2|exact H1].
Qed.
Lemma fetch_swap : forall v w t t1 t2 a b, fetch O e v t = Ret (t1, a) -> fetch O e w t1 = Ret (t2, b) -> reads v = false \/ reads w = false \/ bad t2 = false ->
  exists t1', fetch O e w t = Ret (t1', b) /\ fetch O e v t1' = Ret (t2, a).
Proof.
  intros v w t t1 t2 a b H1 H2 C. rewrite fetch_form in H1, H2.
  apply bind_Ret in H1 as ([u1 x] & A1 & H1). destruct (value v t x) as [[k1 a']|] eqn:V1; [|discriminate]. apply Ret_inj in H1. injection H1 as <- <-.
  rewrite act_ticks in H2. apply bind_Ret in H2 as ([u y] & A2 & H2). apply bind_Ret in A2 as ([u2 y'] & A2 & E). apply Ret_inj in E. injection E as <- <-.
  destruct (value w (ticks k1 u1) y') as [[k2 b']|] eqn:V2; [|discriminate]. apply Ret_inj in H2. injection H2 as <- <-.
  rewrite !ticks_bad in C.
  destruct (act_swap _ _ _ _ _ _ _ A1 A2) as (s & S1 & S2); [unfold reads in C; destruct (kind v), (kind w); intuition discriminate|].
  destruct (act_data _ _ _ _ A1) as [D1 _]. destruct (act_data _ _ _ _ S1) as [D2 _].
  exists (ticks k2 s). split.
  - rewrite fetch_form, S1. cbn [bind]. rewrite (value_data w t (ticks k1 u1)) by (now rewrite ticks_data). now rewrite V2.
  - rewrite fetch_form, act_ticks, S2. cbn [bind]. rewrite (value_data v (ticks k2 s) t) by (now rewrite ticks_data). rewrite V1.
    rewrite <- !ticks_add. now rewrite Nat.add_comm.
Qed.
Lemma fetch_bad : forall v t t1 a, fetch O e v t = Ret (t1, a) -> bad t = true -> bad t1 = true.
Proof.
  intros v t t1 a H B. rewrite fetch_form in H. apply bind_Ret in H as ([u x] & A & H). destruct (value v t x) as [[k b]|]; [|discriminate].
  apply Ret_inj in H. injection H as <- <-. rewrite ticks_bad. now apply (act_data _ _ _ _ A).
Qed.
Lemma fetch_all_bad : forall r vs t t1 a, fetch_all O e r vs t = Ret (t1, a) -> bad t = true -> bad t1 = true.
Proof.
  intros r. induction vs as [|v vs IH]; intros t t1 a H B; cbn [fetch_all] in H; [apply Ret_inj in H; now injection H as <- <-|].
  apply bind_Ret in H as ([u x] & A & H). apply bind_Ret in H as ([u2 y] & A2 & H). apply Ret_inj in H. injection H as <- <-.
  unfold transform_variable in A. apply bind_Ret in A as ([u1 x1] & A & E). apply Ret_inj in E. injection E as <- <-. eapply IH; [exact A2|]. eapply fetch_bad; eauto.
Qed.
Lemma one_perm : forall vs ws, Permutation vs ws -> one vs -> one ws.
Proof.
  intros vs ws P. unfold one. assert (E : length (List.filter reads vs) = length (List.filter reads ws)); [|now rewrite E].
  induction P; cbn [List.filter]; try congruence; [destruct (reads x); cbn; congruence|]. now destruct (reads x), (reads y).
Qed.
Lemma fetch_all_perm : forall r vs ws, Permutation vs ws -> forall t t' a, fetch_all O e r vs t = Ret (t', a) -> one vs \/ bad t' = false ->
  exists a', fetch_all O e r ws t = Ret (t', a') /\ Permutation a a'.
Proof.
  intros r vs ws P. induction P as [|v vs ws P IH|v w vs|vs ws us P1 IH1 P2 IH2]; intros t t' a H C.
  - exists a. auto.
  - cbn [fetch_all] in *. apply bind_Ret in H as ([u x] & A & H). apply bind_Ret in H as ([u2 y] & A2 & H). apply Ret_inj in H. injection H as <- <-.
    rewrite A. cbn [bind]. destruct (IH _ _ _ A2) as (b & E & Q).
    + destruct C as [C|C]; [left|now right]. unfold one in *. cbn [List.filter] in C. destruct (reads v); cbn in C; lia.
    + rewrite E. cbn [bind]. eexists. split; [reflexivity|]. now apply Permutation_app_head.
  - cbn [fetch_all] in *. unfold transform_variable in *. apply bind_Ret in H as ([u x] & A & H). apply bind_Ret in H as ([u2 y] & A2 & H). apply Ret_inj in H. injection H as <- <-.
    apply bind_Ret in A as ([u1 x1] & A & E). apply Ret_inj in E. injection E as <- <-. apply bind_Ret in A2 as ([u3 x3] & A2 & A3).
    apply bind_Ret in A2 as ([u4 x4] & A2 & E). apply Ret_inj in E. injection E as <- <-. apply bind_Ret in A3 as ([u5 x5] & A3 & E). apply Ret_inj in E. injection E as <- <-.
    destruct (fetch_swap _ _ _ _ _ _ _ A A2) as (s & S1 & S2).
    { destruct C as [C|C]; [unfold one in C; cbn [List.filter] in C; destruct (reads w), (reads v); cbn in C; auto; lia|].
      right. right. destruct (bad u4) eqn:X; [|reflexivity]. now rewrite (fetch_all_bad _ _ _ _ _ A3 X) in C. }
    rewrite S1. cbn [bind]. rewrite S2. cbn [bind]. rewrite A3. cbn [bind]. eexists. split; [reflexivity|]. rewrite !app_assoc. apply Permutation_app_tail, Permutation_app_comm.
  - destruct (IH1 _ _ _ H C) as (b & E & Q). destruct (IH2 _ _ _ E) as (c & E2 & Q2); [destruct C as [C|C]; [left; now apply (one_perm _ _ P1)|now right]|].
    exists c. split; [exact E2|]. now transitivity b.
Qed.
End Plain.

(** ** The rule set an engine holds does not reach the fetched values *)
Lemma run_parser_rs : forall O e rs tp bd t, run_parser O (set_ruleset e rs) tp bd t = run_parser O e tp bd t.
Proof. intros O e rs [] bd t; reflexivity. Qed.
Lemma types_rs : forall O e rs ct bd tps t, parse_types O (set_ruleset e rs) ct bd tps t = parse_types O e ct bd tps t.
Proof.
  intros O e rs ct bd. induction tps as [|tp tps IH]; intro t; cbn [parse_types]; [reflexivity|]. rewrite run_parser_rs, IH.
  destruct (negb _); [reflexivity|]. destruct (cache_get tp t); [reflexivity|]. destruct (run_parser O e tp bd t) as [[[t1 res] err]| |]; cbn [bind]; try reflexivity.
  destruct err; [reflexivity|]. destruct res; [apply IH|reflexivity..].
Qed.
Lemma parse_rs : forall O e rs t, request_body_parse O (set_ruleset e rs) t = request_body_parse O e t.
Proof.
  intros O e rs t. unfold request_body_parse. destruct (negb _); [reflexivity|]. change (e_reqaccess (set_ruleset e rs)) with (e_reqaccess e).
  destruct (_ || _); [reflexivity|]. destruct (media_type O _). apply types_rs.
Qed.
Lemma coll_rs : forall O e rs c f t, fetch_coll O (set_ruleset e rs) c f t = fetch_coll O e c f t.
Proof. intros O e rs c f t. destruct c; try reflexivity; cbn [fetch_coll]; unfold fetch_post, fetch_post_names; now rewrite parse_rs. Qed.
Lemma fetch_rs : forall O e rs v t, fetch O (set_ruleset e rs) v t = fetch O e v t.
Proof.
  intros O e rs v. induction v as [c f|s|g p|g p|v IH]; intro t; cbn [fetch].
  - apply coll_rs.
  - now destruct s.
  - rewrite coll_rs. destruct (fetch_coll O e CArgsGet g t) as [[t1 a]| |]; reflexivity.
  - rewrite coll_rs. destruct (fetch_coll O e CArgsGetNames g t) as [[t1 a]| |]; reflexivity.
  - now rewrite IH.
Qed.
Lemma fetch_all_rs : forall O e rs r1 r2 vs t, r_trans r1 = r_trans r2 -> fetch_all O (set_ruleset e rs) r1 vs t = fetch_all O e r2 vs t.
Proof.
  intros O e rs r1 r2 vs t T. revert t. induction vs as [|v vs IH]; intro t; cbn [fetch_all]; [reflexivity|]. unfold transform_variable. rewrite fetch_rs, T.
  destruct (fetch O e v t) as [[t1 a]| |]; cbn [bind]; try reflexivity. now rewrite IH.
Qed.

(** ** The simulation *)
Definition sim (b : bool) (r1 r2 : rule) : Prop :=
  r_id r1 = r_id r2 /\ r_phase r1 = r_phase r2 /\ r_trans r1 = r_trans r2 /\ r_op r1 = r_op r2 /\ r_acts r1 = r_acts r2 /\ r_not r1 = r_not r2 /\
  r_meta r1 = r_meta r2 /\ Permutation (r_vars r1) (r_vars r2) /\ (b = true -> r_vars r1 = r_vars r2 \/ one (r_vars r1)).
Definition rule_sim (b : bool) (r1 r2 : rule) : Prop := sim b r1 r2 /\ Forall2 (sim b) (r_subs r1) (r_subs r2).
Definition rs_sim (b : bool) (rs1 rs2 : ruleset) : Prop :=
  rs_default rs1 = rs_default rs2 /\ forall p, Forall2 (rule_sim b) (phase_rules rs1 p) (phase_rules rs2 p).
Definition fine (b : bool) (t : txn) : Prop := b = true \/ bad t = false.

Section Sim.
Variables (b : bool) (O : oracles) (e : engine) (rs1 rs2 : ruleset).
Hypothesis ID : forall n A (l : list A), ord O n A l = l.
Hypothesis RS : rs_sim b rs1 rs2.
Let e2 := set_ruleset e rs2.

Lemma nrules_sim : forall p, nrules rs2 p = nrules rs1 p.
Proof. intro p. unfold nrules. f_equal. pose proof (proj2 RS p) as F. induction F; cbn; congruence. Qed.
Lemma acts_sim : forall f as_ t, actions_execute f rs2 as_ t = actions_execute f rs1 as_ t.
Proof.
  induction f as [|f IH]; intros as_ t; [reflexivity|]. cbn [actions_execute]. generalize (Ret t) as acc. induction (grouped as_) as [|a l IHl]; intro acc; [reflexivity|].
  cbn [fold_left]. rewrite <- IHl. f_equal. destruct acc as [u| |]; cbn [bind]; try reflexivity. destruct a; try reflexivity.
  - rewrite IH. now destruct RS as [-> _].
  - unfold jump_to. now rewrite nrules_sim.
Qed.
Lemma next_sim : forall t, next_rule rs2 t = next_rule rs1 t.
Proof. intro t. unfold next_rule. now rewrite nrules_sim. Qed.

Lemma match_bad : forall r t t1 m, match_rule O e r t = Ret (t1, m) -> bad t = true -> bad t1 = true.
Proof.
  intros r t t1 m H B. unfold match_rule in H. apply bind_Ret in H as ([u x] & A & H). apply bind_Ret in H as (y & _ & H). apply Ret_inj in H. injection H as <- <-.
  eapply fetch_all_bad; eauto.
Qed.
Lemma subs_bad : forall subs t t1 m, match_subs O e subs t = Ret (t1, m) -> bad t = true -> bad t1 = true.
Proof.
  induction subs as [|s subs IH]; intros t t1 m H B; cbn [match_subs] in H; [apply Ret_inj in H; now injection H as <- <-|].
  apply bind_Ret in H as ([u x] & A & H). pose proof (match_bad _ _ _ _ A B) as B1. destruct x; [eapply IH; eauto|]. apply Ret_inj in H. now injection H as <- <-.
Qed.
Lemma acts_bad : forall f rs as_ t t1, actions_execute f rs as_ t = Ret t1 -> bad t1 = bad t.
Proof.
  induction f as [|f IH]; intros rs as_ t t1 H; [discriminate|]. cbn [actions_execute] in H.
  assert (G : forall l acc, fold_left (fun acc a => t <- acc ;;
           match a with
           | ADeny => Ret (do_deny t) | AAllow arg => Ret (do_allow arg t) | ABlock => actions_execute f rs (rs_default rs) t
           | ALog => Ret (do_log t) | APass => Ret (reset_intervention t) | ASkip => Ret (snd (jump_to rs (t_cur t + 2) t)) | AStatus s => Ret (with_status t (Some s))
           end) l acc = Ret t1 -> exists u, acc = Ret u /\ bad t1 = bad u).
  { induction l as [|a l IHl]; intros acc E; [cbn in E; eauto|]. cbn [fold_left] in E. apply IHl in E as (u & E & B). apply bind_Ret in E as (w & -> & E).
    exists w. split; [reflexivity|]. rewrite B. clear B IHl. destruct a; try (apply Ret_inj in E; subst u; reflexivity).
    - apply Ret_inj in E. subst u. unfold do_allow. destruct (bs_eqb arg []); [reflexivity|]. destruct (bs_eqb arg _); [reflexivity|]. now destruct (bs_eqb arg _).
    - now apply IH in E.
    - apply Ret_inj in E. subst u. unfold jump_to. now destruct (_ <=? _). }
  apply G in H as (u & E & B). apply Ret_inj in E. now subst.
Qed.
Lemma subs_exec_bad : forall f rs subs t t1, subs_execute f rs subs t = Ret t1 -> bad t1 = bad t.
Proof.
  intros f rs. induction subs as [|s subs IH]; intros t t1 H; cbn [subs_execute] in H; [apply Ret_inj in H; now subst|].
  apply bind_Ret in H as (u & A & H). apply IH in H. apply acts_bad in A. congruence.
Qed.
Lemma fine_back : forall t t', (bad t = true -> bad t' = true) -> fine b t' -> fine b t.
Proof. intros t t' M [F|F]; [now left|]. right. destruct (bad t); [|reflexivity]. now rewrite M in F. Qed.

Lemma match_sim : forall r1 r2 t t1 m, sim b r1 r2 -> match_rule O e r1 t = Ret (t1, m) -> fine b t1 -> match_rule O e2 r2 t = Ret (t1, m).
Proof.
  intros r1 r2 t t1 m (S1 & S2 & S3 & S4 & S5 & S6 & S7 & S8 & S9) H F. unfold match_rule in *. apply bind_Ret in H as ([u x] & A & H). apply bind_Ret in H as (y & M & H).
  apply Ret_inj in H. injection H as <- <-.
  assert (X : exists x', fetch_all O e r1 (r_vars r2) t = Ret (u, x') /\ Permutation x x').
  { destruct F as [F|F]; [destruct (S9 F) as [<-|F']; [exists x; auto|]|]; apply (fetch_all_perm O e ID r1 _ _ S8 _ _ _ A); auto. }
  destruct X as (x' & A' & P).
  rewrite (fetch_all_rs O e rs2 r2 r1) by (now symmetry). rewrite A'. cbn [bind]. rewrite (match_values_perm O r1 (t_abort u) _ _ P) in M.
  assert (G : forall l, match_values O (t_abort u) r2 l = match_values O (t_abort u) r1 l).
  { induction l as [|z l IHl]; cbn [match_values]; [reflexivity|]. now rewrite IHl, S4, S6. }
  rewrite G, M. reflexivity.
Qed.
Lemma subs_sim : forall s1 s2, Forall2 (sim b) s1 s2 -> forall t t1 m, match_subs O e s1 t = Ret (t1, m) -> fine b t1 -> match_subs O e2 s2 t = Ret (t1, m).
Proof.
  induction 1 as [|r1 r2 s1 s2 S Ss IH]; intros t t1 m H F; cbn [match_subs] in *; [exact H|].
  apply bind_Ret in H as ([u x] & A & H).
  assert (FU : fine b u). { destruct x; [|apply Ret_inj in H; injection H as <- <-; exact F]. eapply fine_back; [|exact F]. intro B. eapply subs_bad; eauto. }
  rewrite (match_sim _ _ _ _ _ S A FU). cbn [bind]. destruct x; [now apply IH|exact H].
Qed.
Lemma subs_exec_sim : forall f s1 s2, Forall2 (sim b) s1 s2 -> forall t, subs_execute f rs2 s2 t = subs_execute f rs1 s1 t.
Proof.
  intros f. induction 1 as [|r1 r2 s1 s2 S Ss IH]; intro t; cbn [subs_execute]; [reflexivity|]. destruct S as (_ & _ & _ & _ & S5 & _). rewrite S5, acts_sim.
  destruct (actions_execute f rs1 (r_acts r2) t); cbn [bind]; auto.
Qed.
Lemma do_bad : forall f r t t1, do_rule f O e rs1 r t = Ret t1 -> bad t = true -> bad t1 = true.
Proof.
  intros f r t t1 H B. unfold do_rule in H. apply bind_Ret in H as ([u x] & A & H). pose proof (match_bad _ _ _ _ A B) as B1.
  destruct x; [|apply Ret_inj in H; now subst]. apply bind_Ret in H as ([u2 y] & A2 & H). pose proof (subs_bad _ _ _ _ A2 B1) as B2.
  destruct y; [|apply Ret_inj in H; now subst]. apply bind_Ret in H as (u3 & A3 & H). apply acts_bad in A3. apply subs_exec_bad in H. congruence.
Qed.
Lemma do_sim : forall f r1 r2 t t1, rule_sim b r1 r2 -> do_rule f O e rs1 r1 t = Ret t1 -> fine b t1 -> do_rule f O e2 rs2 r2 t = Ret t1.
Proof.
  intros f r1 r2 t t1 (S & Ss) H F. unfold do_rule in *. apply bind_Ret in H as ([u x] & A & H).
  assert (FU : fine b u).
  { destruct x; [|apply Ret_inj in H; now subst]. apply bind_Ret in H as ([u2 y] & A2 & H). eapply fine_back; [|exact F]. intro B. pose proof (subs_bad _ _ _ _ A2 B) as B2.
    destruct y; [|apply Ret_inj in H; now subst]. apply bind_Ret in H as (u3 & A3 & H). apply acts_bad in A3. apply subs_exec_bad in H. congruence. }
  rewrite (match_sim _ _ _ _ _ S A FU). cbn [bind]. destruct x; [|exact H]. apply bind_Ret in H as ([u2 y] & A2 & H).
  assert (FU2 : fine b u2).
  { destruct y; [|apply Ret_inj in H; now subst]. apply bind_Ret in H as (u3 & A3 & H). apply acts_bad in A3. apply subs_exec_bad in H. unfold fine in *. now rewrite <- A3, <- H. }
  rewrite (subs_sim _ _ Ss _ _ _ A2 FU2). cbn [bind]. destruct y; [|exact H]. apply bind_Ret in H as (u3 & A3 & H).
  destruct S as (_ & _ & _ & _ & S5 & _). rewrite <- S5, acts_sim, A3. cbn [bind]. now rewrite (subs_exec_sim f _ _ Ss).
Qed.
Lemma process_bad : forall f p n t t1, process_rule f O e rs1 p n t = Ret t1 -> bad t = true -> bad t1 = true.
Proof.
  intros f p n t t1 H B. unfold process_rule in H. destruct (n <? nrules rs1 p); [|apply Ret_inj in H; now subst]. destruct (n <? 0); [discriminate|].
  destruct (nth_error _ _); [|discriminate]. eapply do_bad; eauto.
Qed.
Lemma process_sim : forall f p n t t1, process_rule f O e rs1 p n t = Ret t1 -> fine b t1 -> process_rule f O e2 rs2 p n t = Ret t1.
Proof.
  intros f p n t t1 H F. unfold process_rule in *. rewrite nrules_sim. destruct (n <? nrules rs1 p); [|exact H]. destruct (n <? 0); [exact H|].
  assert (G : forall l1 l2 k r1, Forall2 (rule_sim b) l1 l2 -> nth_error l1 k = Some r1 -> exists r2, nth_error l2 k = Some r2 /\ rule_sim b r1 r2).
  { intros l1 l2 k r1 Q. revert k. induction Q; intros [|k] E; try discriminate; cbn in *; [injection E as <-; eauto|auto]. }
  destruct (nth_error (phase_rules rs1 p) (Z.to_nat n)) as [r1|] eqn:E; [|discriminate]. destruct (G _ _ _ _ (proj2 RS p) E) as (r2 & -> & S). now apply (do_sim f r1).
Qed.
Lemma touch_bad : forall t, bad (touch_iv t) = bad t.
Proof. reflexivity. Qed.
Lemma next_bad : forall rs t n u, next_rule rs t = (n, u) -> bad u = bad t.
Proof. intros rs t n u H. unfold next_rule in H. destruct (t_next t =? StatusEndOfRules); injection H as <- <-; reflexivity. Qed.
Lemma loop_bad : forall d p f n t t1, phase_loop f d O e rs1 p n t = Ret t1 -> bad t = true -> bad t1 = true.
Proof.
  intros d p. induction f as [|f IH]; intros n t t1 H B; cbn [phase_loop] in H; [discriminate|]. destruct (_ && _); [|apply Ret_inj in H; now subst].
  apply bind_Ret in H as (u & A & H). pose proof (process_bad _ _ _ _ _ A B) as B1. destruct (i_disruptive _); [apply Ret_inj in H; now subst|].
  destruct (next_rule rs1 (touch_iv u)) as [k w] eqn:N. apply next_bad in N. eapply IH; [exact H|]. now rewrite N.
Qed.
Lemma loop_sim : forall d p f n t t1, phase_loop f d O e rs1 p n t = Ret t1 -> fine b t1 -> phase_loop f d O e2 rs2 p n t = Ret t1.
Proof.
  intros d p. induction f as [|f IH]; intros n t t1 H F; cbn [phase_loop] in *; [discriminate|]. destruct (_ && _); [|exact H].
  apply bind_Ret in H as (u & A & H).
  assert (FU : fine b u).
  { eapply fine_back; [|exact F]. intro B. destruct (i_disruptive _); [apply Ret_inj in H; now subst|]. destruct (next_rule rs1 (touch_iv u)) as [k w] eqn:N.
    apply next_bad in N. eapply loop_bad; [exact H|]. now rewrite N. }
  rewrite (process_sim _ _ _ _ _ A FU). cbn [bind]. destruct (i_disruptive _); [exact H|]. rewrite next_sim. destruct (next_rule rs1 (touch_iv u)) as [k w]. now apply IH.
Qed.
Lemma phase_bad : forall f p t t1, process_phase f O e rs1 p t = Ret t1 -> bad t = true -> bad t1 = true.
Proof.
  intros f p t t1 H B. unfold process_phase in H. destruct (p <=? t_phase t); [apply Ret_inj in H; now subst|]. unfold process_phase_inner in H.
  destruct (t_abort _); [apply Ret_inj in H; now subst|]. destruct (next_rule rs1 _) as [k w] eqn:N. apply next_bad in N. eapply loop_bad; [exact H|]. rewrite N. exact B.
Qed.
Lemma phase_sim : forall f p t t1, process_phase f O e rs1 p t = Ret t1 -> fine b t1 -> process_phase f O e2 rs2 p t = Ret t1.
Proof.
  intros f p t t1 H F. unfold process_phase in *. destruct (p <=? t_phase t); [exact H|]. unfold process_phase_inner in *.
  destruct (t_abort _); [exact H|]. rewrite next_sim. destruct (next_rule rs1 _) as [k w]. now apply loop_sim.
Qed.
Lemma step_bad : forall f a t t1 ob, step f O e rs1 a t = Ret (t1, ob) -> bad t = true -> bad t1 = true.
Proof.
  intros f a t t1 ob H B. destruct a; cbn [step] in H;
    try (apply bind_Ret in H as (u & A & H); apply Ret_inj in H; injection H as <- <-; eapply phase_bad; [exact A|exact B]);
    try (apply Ret_inj in H; injection H as <- <-; exact B).
  - apply bind_Ret in H as ([[bb n] er] & A & H). apply Ret_inj in H. injection H as <- <-. exact B.
  - apply bind_Ret in H as ([[bb n] er] & A & H). apply Ret_inj in H. injection H as <- <-. exact B.
  - unfold result in H. destruct (t_abort (touch_iv t)); apply Ret_inj in H; injection H as <- <-; exact B.
  - apply Ret_inj in H. injection H as <- <-. unfold bad. cbn. apply orb_true_r.
Qed.
Lemma step_sim : forall f a t t1 ob, step f O e rs1 a t = Ret (t1, ob) -> fine b t1 -> step f O e2 rs2 a t = Ret (t1, ob).
Proof.
  intros f a t t1 ob H F. destruct a; cbn [step] in *; try exact H;
    apply bind_Ret in H as (u & A & H); pose proof H as H'; apply Ret_inj in H'; injection H' as -> _; now rewrite (phase_sim _ _ _ _ A F).
Qed.
Lemma steps_bad : forall f os t t1 obs, steps f O e rs1 os t = Ret (t1, obs) -> bad t = true -> bad t1 = true.
Proof.
  intros f. induction os as [|a os IH]; intros t t1 obs H B; cbn [steps] in H; [apply Ret_inj in H; now injection H as <- <-|].
  apply bind_Ret in H as ([u ob] & A & H). apply bind_Ret in H as ([u2 obs2] & A2 & H). apply Ret_inj in H. injection H as <- <-.
  eapply IH; [exact A2|]. eapply step_bad; eauto.
Qed.
Lemma steps_sim : forall f os t t1 obs, steps f O e rs1 os t = Ret (t1, obs) -> fine b t1 -> steps f O e2 rs2 os t = Ret (t1, obs).
Proof.
  intros f. induction os as [|a os IH]; intros t t1 obs H F; cbn [steps] in *; [exact H|].
  apply bind_Ret in H as ([u ob] & A & H). apply bind_Ret in H as ([u2 obs2] & A2 & H). apply Ret_inj in H. injection H as -> <-.
  rewrite (step_sim _ _ _ _ _ A); [|eapply fine_back; [|exact F]; intro B; eapply steps_bad; eauto]. cbn [bind]. now rewrite (IH _ _ _ A2 F).
Qed.
End Sim.
