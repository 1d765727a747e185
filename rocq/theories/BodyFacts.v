(** Facts about the cached request body parse. *)
From Verif Require Import Base BaseFacts GoStrings Buffer BufferFacts Types Transaction Variables
  SpecVars VarFacts VarText PropText.

(** When the body is looked at by the parsers. *)
Definition ctype (O : oracles) (t : txn) : bs :=
  fst (media_type O (match header_get (B "Content-Type") (t_reqheader t) with
                     | [] => B "application/octet-stream" | ct => ct end)).
Definition body_method (t : txn) : Prop :=
  t_method t = B "POST" \/ t_method t = B "PUT" \/ t_method t = B "PATCH".

Lemma has_body_method_iff : forall t, has_body_method t = true <-> body_method t.
Proof.
  intro t. unfold has_body_method, body_method. rewrite !orb_true_iff, !bs_eqb_eq. tauto.
Qed.

(** The parsers are consulted. *)
Definition parses (e : engine) (t : txn) : Prop :=
  body_method t /\ e_reqaccess e = true /\ b_len (t_reqbody t) <> 0.

Lemma parses_dec : forall e t, parses e t \/ ~ parses e t.
Proof.
  intros e t. unfold parses. rewrite <- has_body_method_iff.
  destruct (has_body_method t); [|right; intros (H & _); discriminate].
  destruct (e_reqaccess e); [|right; intros (_ & H & _); discriminate].
  destruct (Z.eq_dec (b_len (t_reqbody t)) 0); [right; tauto|left; auto].
Qed.

Lemma body_parse_eq : forall O e t, parses e t ->
  request_body_parse O e t =
  parse_types O e (ctype O t)
    (snd (media_type O (match header_get (B "Content-Type") (t_reqheader t) with
                     | [] => B "application/octet-stream" | ct => ct end))) [BUrlencoded; BMultipart] t.
Proof.
  intros O e t (M & A & L). unfold request_body_parse, ctype.
  apply has_body_method_iff in M. rewrite M, A. unfold buf_len. apply Z.eqb_neq in L. rewrite L.
  cbn [negb orb]. destruct (header_get (B "Content-Type") (t_reqheader t)); destruct (media_type O _); reflexivity.
Qed.
Lemma body_parse_skip : forall O e t, ~ parses e t -> request_body_parse O e t = Ret (t, None).
Proof.
  intros O e t H. unfold request_body_parse.
  destruct (has_body_method t) eqn:M; [|reflexivity]. cbn [negb].
  destruct (e_reqaccess e) eqn:A; [|reflexivity]. cbn [negb orb]. unfold buf_len.
  destruct (Z.eqb_spec (b_len (t_reqbody t)) 0) as [L|L]; [reflexivity|].
  elim H. apply has_body_method_iff in M. split; auto.
Qed.

Definition urlenc := B "application/x-www-form-urlencoded".
Lemma prefix_excl : forall ct, has_prefix urlenc ct = true -> has_prefix (B "multipart/") ct = false.
Proof. intros [|c ct] H; [discriminate|]. apply andb_true_iff in H as [H _]. apply Ascii.eqb_eq in H. now subst. Qed.

(** A urlencoded body in memory. *)
Definition url_body (O : oracles) (e : engine) (body : bs) (t : txn) : Prop :=
  parses e t /\ has_prefix urlenc (ctype O t) = true /\
  b_file (t_reqbody t) = None /\ b_mem (t_reqbody t) = body.
Definition url_map (O : oracles) (body : bs) : vals := fst (parse_query (semi_sep O) body).

Definition cache_coherent (O : oracles) (body : bs) (t : txn) : Prop :=
  t_cache_url t = None \/ t_cache_url t = Some (IValues (url_map O body)).

Lemma frame_parses : forall e t t', frame t t' -> parses e t -> parses e t'.
Proof.
  intros e t t' (R & _ & _ & B1 & _) (M & A & L). unfold request_part in R. inversion R as [[E1 E2 E3 E4 E5 E6 E7 E8]].
  split; [unfold body_method; now rewrite E6|]. split; [exact A|].
  destruct B1 as (_ & BL & _). now rewrite BL.
Qed.
Lemma frame_ctype : forall O t t', frame t t' -> ctype O t' = ctype O t.
Proof. intros O t t' (R & _). unfold request_part in R. inversion R as [[E1 E2 E3 E4 E5 E6 E7 E8]]. unfold ctype. now rewrite E8. Qed.
Lemma frame_url_body : forall O e body t t', frame t t' -> url_body O e body t -> url_body O e body t'.
Proof.
  intros O e body t t' F (P & C & Fi & Me). split; [eapply frame_parses; eauto|]. split; [now rewrite (frame_ctype _ _ _ F)|].
  destruct F as (_ & _ & _ & (_ & _ & M & D) & _). split; [|congruence].
  rewrite Fi in D. destruct (b_file (t_reqbody t')); [discriminate|reflexivity].
Qed.

Lemma mem_string : forall b, b_file b = None -> buf_string b = (b, b_mem b, None).
Proof.
  intros b H. unfold buf_string, init_read. rewrite H. destruct (b_readed b); now rewrite H.
Qed.
Lemma with_reqbody_id : forall t, with_reqbody t (t_reqbody t) = t.
Proof. now destruct t. Qed.
Lemma with_resbody_id : forall t, with_resbody t (t_resbody t) = t.
Proof. now destruct t. Qed.

Lemma run_url_parser : forall O e bd t, b_file (t_reqbody t) = None ->
  run_parser O e BUrlencoded bd t =
  Ret (t, IValues (url_map O (b_mem (t_reqbody t))), snd (parse_query (semi_sep O) (b_mem (t_reqbody t)))).
Proof.
  intros O e bd t H. unfold run_parser. rewrite mem_string by exact H. rewrite with_reqbody_id.
  unfold url_map. now destruct (parse_query _ _).
Qed.

Lemma url_parse : forall O e body t, url_body O e body t ->
  request_body_parse O e t =
  match t_cache_url t with
  | None =>
      let t' := with_cache_url t (Some (IValues (url_map O body))) in
      if snd (parse_query (semi_sep O) body) then Ret (with_bodyerr t' true, None)
      else Ret (t', Some (BUrlencoded, IValues (url_map O body)))
  | Some (IValues m) => Ret (t, Some (BUrlencoded, IValues m))
  | Some INil => Ret (t, None)
  | Some i => Ret (t, Some (BUrlencoded, i))
  end.
Proof.
  intros O e body t (P & C & Fi & <-). rewrite body_parse_eq by exact P.
  cbn [parse_types bt_ctype]. fold urlenc. rewrite C. cbn [negb cache_get].
  rewrite (prefix_excl _ C). cbn [negb].
  destruct (t_cache_url t) as [i|] eqn:Q; [destruct i; reflexivity|].
  rewrite run_url_parser by exact Fi. cbn [bind]. destruct (snd _); reflexivity.
Qed.

(** Which caches an evaluation can touch. *)
Lemma run_parser_caches : forall O e tp bd t t' i er, run_parser O e tp bd t = Ret (t', i, er) ->
  t_cache_url t' = t_cache_url t /\ t_cache_mp t' = t_cache_mp t.
Proof.
  intros O e tp bd t t' i er H. destruct tp; simpl in H.
  - destruct (match b_file _ with Some _ => _ | None => _ end).
    + inversion H; subst. auto.
    + destruct (parse_query _ _). inversion H; subst. auto.
  - destruct (multipart O _ _ _) as [[] off]; inversion H; subst; auto.
Qed.

Lemma url_coherent_types : forall O e body ct bd tps t t' r,
  b_file (t_reqbody t) = None -> b_mem (t_reqbody t) = body -> cache_coherent O body t ->
  parse_types O e ct bd tps t = Ret (t', r) -> cache_coherent O body t'.
Proof.
  induction tps as [|tp tps IH]; intros t t' r Fi Me C H; simpl in H.
  - inversion H; subst. exact C.
  - destruct (negb _); [eauto|].
    destruct (cache_get tp t) as [res|] eqn:G.
    + destruct res; try (inversion H; subst; exact C). eauto.
    + apply bind_Ret in H as ([[t1 res] er] & R & H).
      assert (C2 : cache_coherent O body (cache_set tp res t1) /\ b_file (t_reqbody (cache_set tp res t1)) = None
                   /\ b_mem (t_reqbody (cache_set tp res t1)) = body).
      { pose proof (frame_run_parser _ _ _ _ _ _ _ _ R) as (_ & _ & _ & (_ & _ & M & D) & _).
        rewrite Fi in D. assert (D' : b_file (t_reqbody t1) = None) by (destruct (b_file (t_reqbody t1)); [discriminate|reflexivity]).
        destruct tp.
        - rewrite run_url_parser in R by exact Fi. inversion R; subst. split; [right; reflexivity|]. simpl. auto.
        - apply run_parser_caches in R as [R _]. split; [|simpl; split; congruence].
          unfold cache_coherent in *. simpl. now rewrite R. }
      destruct C2 as (C2 & C3 & C4).
      destruct er; [inversion H; subst; exact C2|].
      destruct res; try (inversion H; subst; exact C2). eapply IH; eauto.
Qed.

Lemma url_coherent_parse : forall O e body t t' r,
  b_file (t_reqbody t) = None -> b_mem (t_reqbody t) = body -> cache_coherent O body t ->
  request_body_parse O e t = Ret (t', r) -> cache_coherent O body t'.
Proof.
  intros O e body t t' r Fi Me C H. destruct (parses_dec e t) as [P|P].
  - rewrite body_parse_eq in H by exact P. eapply url_coherent_types; eauto.
  - rewrite body_parse_skip in H by exact P. inversion H; subst. exact C.
Qed.

Lemma coherent_tick : forall O body t, cache_coherent O body t -> cache_coherent O body (tick t).
Proof. intros O body t C. exact C. Qed.

Lemma coherent_coll : forall O e c f body t t' out,
  b_file (t_reqbody t) = None -> b_mem (t_reqbody t) = body -> cache_coherent O body t ->
  fetch_coll O e c f t = Ret (t', out) -> cache_coherent O body t'.
Proof.
  intros O e c f body t t' out Fi Me C H.
  destruct c; simpl in H;
  try (match type of H with context [t_url t] => destruct (t_url t) end); try (inversion H; subst; exact C).
  - apply bind_Ret in H as ([t1 r] & H1 & H). apply (url_coherent_parse _ _ body) in H1; auto.
    destruct r as [[[] [|m|[m|]]]|]; inversion H; subst; exact H1.
  - apply bind_Ret in H as ([t1 r] & H1 & H). apply (url_coherent_parse _ _ body) in H1; auto.
    destruct r as [[[] [|m|[m|]]]|]; inversion H; subst; exact H1.
Qed.

Lemma scalar_caches : forall O e s t, t_cache_url (fst (fetch_scalar O e s t)) = t_cache_url t /\
  t_cache_mp (fst (fetch_scalar O e s t)) = t_cache_mp t.
Proof.
  intros O e s t. destruct s; simpl; auto; try (destruct (t_url t); auto; fail).
  - unfold fetch_request_body. destruct (negb (has_body_method t)); [auto|].
    destruct (negb (e_reqaccess e) || (buf_len (t_reqbody t) =? 0)); [auto|].
    destruct (header_get _ _); [auto|].
    destruct (negb (bs_eqb _ _)); [auto|]. unfold buf_string.
    destruct (b_file _); auto.
  - unfold fetch_response_body.
    destruct (negb (e_resaccess e) || (buf_len (t_resbody t) =? 0)); [auto|]. unfold buf_string. destruct (b_file _); auto.
  - destruct (header_get _ _); auto.
Qed.

Lemma frame_mem : forall body t t', frame t t' -> b_file (t_reqbody t) = None -> b_mem (t_reqbody t) = body ->
  b_file (t_reqbody t') = None /\ b_mem (t_reqbody t') = body.
Proof.
  intros body t t' (_ & _ & _ & (_ & _ & M & D) & _) Fi Me. rewrite Fi in D. split; [|congruence].
  destruct (b_file (t_reqbody t')); [discriminate|reflexivity].
Qed.

Lemma coherent_fetch : forall O e v body t t' out,
  b_file (t_reqbody t) = None -> b_mem (t_reqbody t) = body -> cache_coherent O body t ->
  fetch O e v t = Ret (t', out) -> cache_coherent O body t'.
Proof.
  intros O e v body. induction v as [c f|s|g p|g p|v IH]; intros t t' out Fi Me C H; cbn [fetch] in H.
  - eapply coherent_coll; eauto.
  - pose proof (scalar_caches O e s t) as [S _]. destruct (fetch_scalar O e s t) as [t1 o]. inversion H; subst.
    unfold cache_coherent. simpl in S. now rewrite S.
  - apply bind_Ret in H as ([t1 a] & H1 & H). apply bind_Ret in H as ([t2 b] & H2 & H). inversion H; subst.
    pose proof (frame_mem _ _ _ (frame_coll _ _ _ _ _ _ _ H1) Fi eq_refl) as [F2 M2].
    eapply coherent_coll; [| |eapply coherent_coll; [exact Fi| |exact C|exact H1]|exact H2]; auto.
  - apply bind_Ret in H as ([t1 a] & H1 & H). apply bind_Ret in H as ([t2 b] & H2 & H). inversion H; subst.
    pose proof (frame_mem _ _ _ (frame_coll _ _ _ _ _ _ _ H1) Fi eq_refl) as [F2 M2].
    eapply coherent_coll; [| |eapply coherent_coll; [exact Fi| |exact C|exact H1]|exact H2]; auto.
  - apply bind_Ret in H as ([t1 a] & H1 & H). inversion H; subst. eauto.
Qed.

Lemma fetched_frame : forall O e vs t t' raw, fetched O e vs t t' raw -> frame t t'.
Proof. induction 1; [apply frame_refl|]. eapply frame_trans; [eapply frame_fetch; eauto|eauto]. Qed.

Lemma fetched_coherent : forall O e vs body t t' raw, fetched O e vs t t' raw ->
  b_file (t_reqbody t) = None -> b_mem (t_reqbody t) = body -> cache_coherent O body t ->
  cache_coherent O body t'.
Proof.
  induction 1 as [|v vs t t1 t2 a b' Hv Hvs IH]; intros Fi Me C; [exact C|].
  pose proof (frame_mem _ _ _ (frame_fetch _ _ _ _ _ _ Hv) Fi Me) as [F2 M2].
  apply IH; auto. exact (coherent_fetch _ _ _ _ _ _ _ Fi Me C Hv).
Qed.

(** Once cached, the parse result stays what it is. *)
Lemma cached_types : forall O e ct bd tps t t' r,
  parse_types O e ct bd tps t = Ret (t', r) ->
  (forall i, t_cache_url t = Some i -> t_cache_url t' = Some i) /\
  (forall i, t_cache_mp t = Some i -> t_cache_mp t' = Some i).
Proof.
  induction tps as [|tp tps IH]; intros t t' r H; simpl in H.
  - inversion H; subst. auto.
  - destruct (negb _); [eauto|].
    destruct (cache_get tp t) as [res|] eqn:G.
    + destruct res; try (inversion H; subst; auto; fail). eauto.
    + apply bind_Ret in H as ([[t1 res] er] & R & H). apply run_parser_caches in R as [R1 R2].
      assert (K : (forall i, t_cache_url t = Some i -> t_cache_url (cache_set tp res t1) = Some i) /\
                  (forall i, t_cache_mp t = Some i -> t_cache_mp (cache_set tp res t1) = Some i)).
      { destruct tp; simpl in G |- *; rewrite ?R1, ?R2; split; intros i Q; congruence. }
      destruct K as [K1 K2].
      destruct er; [inversion H; subst; auto|].
      destruct res; try (inversion H; subst; auto; fail).
      apply IH in H as [I1 I2]. split; intros i Q; [apply I1, K1, Q|apply I2, K2, Q].
Qed.
Lemma cached_parse : forall O e t t' r, request_body_parse O e t = Ret (t', r) ->
  (forall i, t_cache_url t = Some i -> t_cache_url t' = Some i) /\
  (forall i, t_cache_mp t = Some i -> t_cache_mp t' = Some i).
Proof.
  intros O e t t' r H. destruct (parses_dec e t) as [P|P].
  - rewrite body_parse_eq in H by exact P. eapply cached_types; eauto.
  - rewrite body_parse_skip in H by exact P. inversion H; subst. auto.
Qed.
Lemma cached_coll : forall O e c f t t' out, fetch_coll O e c f t = Ret (t', out) ->
  (forall i, t_cache_url t = Some i -> t_cache_url t' = Some i) /\
  (forall i, t_cache_mp t = Some i -> t_cache_mp t' = Some i).
Proof.
  intros O e c f t t' out H. destruct c; simpl in H;
  try (match type of H with context [t_url t] => destruct (t_url t) end); try (inversion H; subst; auto; fail).
  - apply bind_Ret in H as ([t1 r] & H1 & H). apply cached_parse in H1.
    destruct r as [[[] [|m|[m|]]]|]; inversion H; subst; exact H1.
  - apply bind_Ret in H as ([t1 r] & H1 & H). apply cached_parse in H1.
    destruct r as [[[] [|m|[m|]]]|]; inversion H; subst; exact H1.
Qed.
Lemma cached_fetch : forall O e v t t' out, fetch O e v t = Ret (t', out) ->
  (forall i, t_cache_url t = Some i -> t_cache_url t' = Some i) /\
  (forall i, t_cache_mp t = Some i -> t_cache_mp t' = Some i).
Proof.
  intros O e v. induction v as [c f|s|g p|g p|v IH]; intros t t' out H; cbn [fetch] in H.
  - eapply cached_coll; eauto.
  - pose proof (scalar_caches O e s t) as [S1 S2]. destruct (fetch_scalar O e s t) as [t1 o]. inversion H; subst.
    simpl in S1, S2. rewrite S1, S2. auto.
  - apply bind_Ret in H as ([t1 a] & H1 & H). apply bind_Ret in H as ([t2 b] & H2 & H). inversion H; subst.
    apply cached_coll in H1 as [A1 A2]. apply cached_coll in H2 as [B1 B2]. auto.
  - apply bind_Ret in H as ([t1 a] & H1 & H). apply bind_Ret in H as ([t2 b] & H2 & H). inversion H; subst.
    apply cached_coll in H1 as [A1 A2]. apply cached_coll in H2 as [B1 B2]. auto.
  - apply bind_Ret in H as ([t1 a] & H1 & H). inversion H; subst. eauto.
Qed.
Lemma cached_fetched : forall O e vs t t' raw, fetched O e vs t t' raw ->
  (forall i, t_cache_url t = Some i -> t_cache_url t' = Some i) /\
  (forall i, t_cache_mp t = Some i -> t_cache_mp t' = Some i).
Proof.
  induction 1 as [|v vs t t1 t2 a b Hv Hvs [IH1 IH2]]; [auto|].
  apply cached_fetch in Hv as [A1 A2]. auto.
Qed.

(** A successful parse is a cached one. *)
Lemma parse_result_cached : forall O e t t' tp i, request_body_parse O e t = Ret (t', Some (tp, i)) ->
  cache_get tp t' = Some i /\ i <> INil /\ has_prefix (bt_ctype tp) (ctype O t) = true.
Proof.
  intros O e t t' tp i H. destruct (parses_dec e t) as [P|P];
    [|rewrite body_parse_skip in H by exact P; discriminate].
  rewrite body_parse_eq in H by exact P. revert H. generalize (ctype O t). intro ct.
  generalize (snd (media_type O (match header_get (B "Content-Type") (t_reqheader t) with
                     | [] => B "application/octet-stream" | ct => ct end))). intro bd.
  generalize [BUrlencoded; BMultipart]. clear P. intro tps. revert t.
  induction tps as [|tp0 tps IH]; intros t H; simpl in H; [discriminate|].
  destruct (has_prefix (bt_ctype tp0) ct) eqn:PF; cbn [negb] in H; [|eauto].
  destruct (cache_get tp0 t) as [res|] eqn:G.
  - destruct res; [eauto| |]; inversion H; subst; split; auto; split; auto; discriminate.
  - apply bind_Ret in H as ([[t1 res] er] & R & H).
    destruct er; [discriminate|].
    destruct res; [eauto| |]; inversion H; subst; (split; [now destruct tp|split; [discriminate|exact PF]]).
Qed.

Lemma cached_parse_again : forall O e t tp i, parses e t -> has_prefix (bt_ctype tp) (ctype O t) = true ->
  cache_get tp t = Some i -> i <> INil -> request_body_parse O e t = Ret (t, Some (tp, i)).
Proof.
  intros O e t tp i P PF G N. rewrite body_parse_eq by exact P. destruct tp; cbn [parse_types].
  - rewrite PF. cbn [negb]. rewrite G. destruct i; [easy| |]; reflexivity.
  - assert (U : has_prefix (bt_ctype BUrlencoded) (ctype O t) = false).
    { destruct (has_prefix (bt_ctype BUrlencoded) (ctype O t)) eqn:E; [|reflexivity].
      apply prefix_excl in E. change (has_prefix (B "multipart/") (ctype O t) = true) in PF. congruence. }
    rewrite U, PF. cbn [negb]. rewrite G. destruct i; [easy| |]; reflexivity.
Qed.

(** The only panic. *)
Lemma run_parser_panic : forall O e tp bd t, run_parser O e tp bd t <> Panic.
Proof.
  intros O e tp bd t H. destruct tp; simpl in H.
  - destruct (match b_file _ with Some _ => _ | None => _ end); [discriminate|]. destruct (parse_query _ _). discriminate.
  - destruct (multipart O _ _ _) as [[] off]; discriminate.
Qed.
Lemma body_parse_panic : forall O e t, request_body_parse O e t <> Panic.
Proof.
  intros O e t H. destruct (parses_dec e t) as [P|P];
    [|rewrite body_parse_skip in H by exact P; discriminate].
  rewrite body_parse_eq in H by exact P. revert H.
  generalize (ctype O t). intro ct.
  generalize (snd (media_type O (match header_get (B "Content-Type") (t_reqheader t) with
                     | [] => B "application/octet-stream" | ct => ct end))). intro bd.
  generalize [BUrlencoded; BMultipart]. clear P. intro tps. revert t.
  induction tps as [|tp0 tps IH]; intros t H; simpl in H; [discriminate|].
  destruct (negb _); [eapply IH; eauto|]. destruct (cache_get tp0 t) as [[]|]; try discriminate; try (eapply IH; eauto; fail).
  destruct (run_parser O e tp0 bd t) as [[[t1 res] er]| |] eqn:R; simpl in H; try discriminate.
  - destruct er; [discriminate|]. destruct res; try discriminate. eapply IH; eauto.
  - now apply run_parser_panic in R.
Qed.

Lemma run_parser_nil : forall O e tp bd t t', run_parser O e tp bd t <> Ret (t', INil, false).
Proof.
  intros O e tp bd t t' H. destruct tp; simpl in H.
  - destruct (match b_file _ with Some _ => _ | None => _ end); [discriminate|]. destruct (parse_query _ _). discriminate.
  - destruct (multipart O _ _ _) as [[] off]; discriminate.
Qed.

(** A form error is only remembered, never returned, by the evaluation that meets it. *)
Lemma form_error_cached : forall O e t t' , request_body_parse O e t = Ret (t', Some (BMultipart, IForm None)) ->
  t_cache_mp t = Some (IForm None).
Proof.
  intros O e t t' H. destruct (parses_dec e t) as [P|P];
    [|rewrite body_parse_skip in H by exact P; discriminate].
  rewrite body_parse_eq in H by exact P. revert H.
  generalize (ctype O t). intro ct.
  generalize (snd (media_type O (match header_get (B "Content-Type") (t_reqheader t) with
                     | [] => B "application/octet-stream" | ct => ct end))). intro bd.
  generalize [BUrlencoded; BMultipart]. clear P. intro tps. revert t.
  induction tps as [|tp0 tps IH]; intros t H; simpl in H; [discriminate|].
  destruct (negb _); [eauto|]. destruct (cache_get tp0 t) as [res|] eqn:G.
  - destruct res; [eauto| |]; inversion H; subst; exact G.
  - apply bind_Ret in H as ([[t1 res] er] & R & H).
    destruct er; [discriminate|]. destruct res as [|m|f].
    + exfalso. now apply run_parser_nil in R.
    + discriminate.
    + inversion H; subst. simpl in R. destruct (multipart O _ _ _) as [[] off]; inversion R.
Qed.

Lemma post_names_panic : forall O e f t, fetch_post_names O e f t = Panic <->
  parses e t /\ has_prefix (B "multipart/") (ctype O t) = true /\ t_cache_mp t = Some (IForm None).
Proof.
  intros O e f t. unfold fetch_post_names. split.
  - intro H. destruct (request_body_parse O e t) as [[t1 r]| |] eqn:R; simpl in H; try discriminate.
    + destruct r as [[[] [|m|[m|]]]|]; try discriminate.
      destruct (parses_dec e t) as [P|P]; [|rewrite body_parse_skip in R by exact P; discriminate].
      split; [exact P|]. split; [|now apply form_error_cached in R].
      now apply parse_result_cached in R as (_ & _ & R).
    + now apply body_parse_panic in R.
  - intros (P & PF & C). rewrite (cached_parse_again O e t BMultipart (IForm None)); auto. discriminate.
Qed.
Lemma post_panic : forall O e f t, fetch_post O e f t <> Panic.
Proof.
  intros O e f t. unfold fetch_post. destruct (request_body_parse O e t) as [[t1 r]| |] eqn:R; simpl; try discriminate.
  - destruct r as [[[] [|m|[m|]]]|]; discriminate.
  - now apply body_parse_panic in R.
Qed.

(** Variables that list the names of body arguments. *)
Fixpoint lists_post_names (v : variable) : bool :=
  match v with
  | VColl CArgsPostNames _ | VArgsNames _ _ => true
  | VCount v => lists_post_names v
  | _ => false
  end.

Lemma coll_panic : forall O e c f t, fetch_coll O e c f t = Panic <->
  c = CArgsPostNames /\ parses e t /\ has_prefix (B "multipart/") (ctype O t) = true /\ t_cache_mp t = Some (IForm None).
Proof.
  intros O e c f t. split.
  - intro H. destruct c; simpl in H; try (match type of H with context [t_url t] => destruct (t_url t) end); try discriminate.
    + now apply post_panic in H.
    + now apply post_names_panic in H.
  - intros (-> & H). simpl. now apply post_names_panic.
Qed.

Lemma fetch_panic : forall O e v t, fetch O e v t = Panic <->
  lists_post_names v = true /\ parses e t /\ has_prefix (B "multipart/") (ctype O t) = true /\ t_cache_mp t = Some (IForm None).
Proof.
  intros O e v. induction v as [c f|s|g p|g p|v IH]; intro t; cbn [fetch lists_post_names].
  - rewrite coll_panic. split; [intros (-> & H); auto|]. intros (H & K). destruct c; try discriminate. auto.
  - split; [discriminate|intros (H & _); discriminate].
  - split; [|intros (H & _); discriminate]. intro H.
    destruct (fetch_coll O e CArgsGet g t) as [[t1 a]| |] eqn:E1; simpl in H; try discriminate.
    + destruct (fetch_post O e p t1) as [[t2 b]| |] eqn:E2; simpl in H; try discriminate. now apply post_panic in E2.
    + apply coll_panic in E1 as (K & _). discriminate.
  - assert (S : exists t1 a, fetch_coll O e CArgsGetNames g t = Ret (t1, a) /\ (t1 = t \/ t1 = tick t)).
    { simpl. destruct (t_url t); [eexists; eexists; split; [reflexivity|auto]|eauto]. }
    destruct S as (t1 & a & E1 & ET). rewrite E1. cbn [bind].
    assert (Q : (parses e t1 /\ has_prefix (B "multipart/") (ctype O t1) = true /\ t_cache_mp t1 = Some (IForm None)) <->
                (parses e t /\ has_prefix (B "multipart/") (ctype O t) = true /\ t_cache_mp t = Some (IForm None)))
      by (destruct ET as [->| ->]; reflexivity).
    split.
    + intro H. split; [reflexivity|]. apply Q.
      destruct (fetch_coll O e CArgsPostNames p t1) as [[t2 b]| |] eqn:E2; simpl in H; try discriminate.
      now apply coll_panic in E2 as (_ & E2).
    + intros (_ & H). apply Q in H.
      assert (E2 : fetch_coll O e CArgsPostNames p t1 = Panic) by (apply coll_panic; auto).
      rewrite E2. reflexivity.
  - rewrite <- IH. destruct (fetch O e v t) as [[t1 a]| |]; simpl; split; congruence.
Qed.

(** The remembered form error comes from a failing form parse. *)
Lemma no_form_error_types : forall O e ct bd tps t t' r,
  (forall b bd m, fst (multipart O b bd m) <> MpErr) -> t_cache_mp t <> Some (IForm None) ->
  parse_types O e ct bd tps t = Ret (t', r) -> t_cache_mp t' <> Some (IForm None).
Proof.
  intros O e ct bd tps t t' r M. revert t.
  induction tps as [|tp tps IH]; intros t C H; simpl in H.
  - inversion H; subst. exact C.
  - destruct (negb _); [eauto|]. destruct (cache_get tp t) as [res|] eqn:G.
    + destruct res; try (inversion H; subst; exact C). eauto.
    + apply bind_Ret in H as ([[t1 res] er] & R & H).
      assert (K : t_cache_mp (cache_set tp res t1) <> Some (IForm None)).
      { pose proof (run_parser_caches _ _ _ _ _ _ _ _ R) as [_ R2]. destruct tp; simpl; [congruence|].
        simpl in R. specialize (M (t_reqbody t) bd (e_reqmem e)).
        destruct (multipart O _ _ _) as [[] off]; simpl in M; inversion R; subst; try congruence. }
      destruct er; [inversion H; subst; exact K|]. destruct res; try (inversion H; subst; exact K). eauto.
Qed.
Lemma no_form_error_parse : forall O e t t' r,
  (forall b bd m, fst (multipart O b bd m) <> MpErr) -> t_cache_mp t <> Some (IForm None) ->
  request_body_parse O e t = Ret (t', r) -> t_cache_mp t' <> Some (IForm None).
Proof.
  intros O e t t' r M C H. destruct (parses_dec e t) as [P|P].
  - rewrite body_parse_eq in H by exact P. eapply no_form_error_types; eauto.
  - rewrite body_parse_skip in H by exact P. inversion H; subst. exact C.
Qed.
Lemma no_form_error_coll : forall O e c f t t' out,
  (forall b bd m, fst (multipart O b bd m) <> MpErr) -> t_cache_mp t <> Some (IForm None) ->
  fetch_coll O e c f t = Ret (t', out) -> t_cache_mp t' <> Some (IForm None).
Proof.
  intros O e c f t t' out M C H. destruct c; simpl in H;
  try (match type of H with context [t_url t] => destruct (t_url t) end); try (inversion H; subst; exact C).
  - apply bind_Ret in H as ([t1 r] & H1 & H). apply no_form_error_parse in H1; auto.
    destruct r as [[[] [|m|[m|]]]|]; inversion H; subst; exact H1.
  - apply bind_Ret in H as ([t1 r] & H1 & H). apply no_form_error_parse in H1; auto.
    destruct r as [[[] [|m|[m|]]]|]; inversion H; subst; exact H1.
Qed.
Lemma no_form_error_fetch : forall O e v t t' out,
  (forall b bd m, fst (multipart O b bd m) <> MpErr) -> t_cache_mp t <> Some (IForm None) ->
  fetch O e v t = Ret (t', out) -> t_cache_mp t' <> Some (IForm None).
Proof.
  intros O e v t t' out M. revert t t' out. induction v as [c f|s|g p|g p|v IH]; intros t t' out C H; cbn [fetch] in H.
  - eapply no_form_error_coll; eauto.
  - pose proof (scalar_caches O e s t) as [_ S2]. destruct (fetch_scalar O e s t) as [t1 o]. inversion H; subst.
    simpl in S2. congruence.
  - apply bind_Ret in H as ([t1 a] & H1 & H). apply bind_Ret in H as ([t2 b] & H2 & H). inversion H; subst.
    eapply no_form_error_coll; [exact M| |exact H2]. eapply no_form_error_coll; eauto.
  - apply bind_Ret in H as ([t1 a] & H1 & H). apply bind_Ret in H as ([t2 b] & H2 & H). inversion H; subst.
    eapply no_form_error_coll; [exact M| |exact H2]. eapply no_form_error_coll; eauto.
  - apply bind_Ret in H as ([t1 a] & H1 & H). inversion H; subst. eauto.
Qed.
Lemma no_form_error_fetched : forall O e vs t t' raw,
  (forall b bd m, fst (multipart O b bd m) <> MpErr) -> fetched O e vs t t' raw ->
  t_cache_mp t <> Some (IForm None) -> t_cache_mp t' <> Some (IForm None).
Proof. intros O e vs t t' raw M F. induction F; intro C; [exact C|]. apply IHF. eapply no_form_error_fetch; eauto. Qed.
