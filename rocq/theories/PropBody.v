(** Property theorems C86-C87: denying rules that look at bodies. *)
From Verif Require Import Base BaseFacts GoStrings Utils Buffer SpecBuffer BufferFacts Types Transforms Operators Transaction Variables Rules Engine
  SpecText NumFacts SpecVars VarText VarFacts SpecRules PropText BodyFacts PropVars RuleFacts OrderFacts TxnFacts SpecTxn LoopFacts Witness PropRules PropPhases PropTxn
  SpecData PropData SpecGate PropGate SpecBody.
From Verif Require TwiceFacts.
From Coq Require Import ZifyBool.

(** ** States with the same data and the same bodies *)
Definition req_bodies (t : txn) := (t_reqbody t, t_cache_url t, t_cache_mp t, t_bodyerr t).
Definition sameQ (t u : txn) : Prop := request_part u = request_part t /\ req_bodies u = req_bodies t /\ t_abort u = t_abort t.
Definition same (t u : txn) : Prop := sameQ t u /\ response_part u = response_part t /\ t_resbody u = t_resbody t.
Lemma sameQ_refl : forall t, sameQ t t.
Proof. intro t. repeat split. Qed.
Lemma sameQ_sym : forall t u, sameQ t u -> sameQ u t.
Proof. intros t u (A & B & C). split; [|split]; congruence. Qed.
Lemma sameQ_trans : forall a b c, sameQ a b -> sameQ b c -> sameQ a c.
Proof. intros a b c (A & B & C) (D & E & F). split; [|split]; congruence. Qed.
Lemma same_refl : forall t, same t t.
Proof. intro t. repeat split. Qed.
Lemma same_sym : forall t u, same t u -> same u t.
Proof. intros t u (A & B & C). split; [now apply sameQ_sym|split; congruence]. Qed.
Lemma same_trans : forall a b c, same a b -> same b c -> same a c.
Proof. intros a b c (A & B & C) (D & E & F). split; [eapply sameQ_trans; eauto|split; congruence]. Qed.
Lemma same_tick : forall t, same t (tick t).
Proof. intro t. repeat split. Qed.
Lemma same_alike' : forall t u, same t u -> alike t u.
Proof. intros t u ((A & _) & B & _). now split. Qed.

Lemma run_same : forall O e tp bd t u, sameQ t u ->
  match run_parser O e tp bd t with
  | Ret (t1, r, er) => exists u1, run_parser O e tp bd u = Ret (u1, r, er) /\ sameQ t1 u1
  | Panic => run_parser O e tp bd u = Panic
  | Timeout => run_parser O e tp bd u = Timeout
  end.
Proof.
  intros O e tp bd t u (A & B & C). unfold req_bodies in B. injection B as B1 B3 B4 B5.
  assert (W : forall b, sameQ (with_reqbody t b) (with_reqbody u b)).
  { intro b. split; [exact A|]. split; [|exact C]. unfold req_bodies. cbn. now rewrite B3, B4, B5. }
  assert (AB : forall c m a b, sameQ a b -> sameQ (abort_with_error c m a) (abort_with_error c m b)).
  { intros c m a b (X & Y & Z). split; [exact X|]. split; [exact Y|reflexivity]. }
  destruct tp; cbn [run_parser]; rewrite B1.
  - destruct (buf_string (t_reqbody t)) as [[bb body] [er|]]; [eexists; split; [reflexivity|]; apply AB, W|].
    destruct (parse_query (semi_sep O) body) as [m bad]. eexists. split; [reflexivity|apply W].
  - destruct (multipart O (t_reqbody t) bd (e_reqmem e)) as [[m| | |] off]; try reflexivity; eexists; (split; [reflexivity|]); try apply AB; apply W.
Qed.
Lemma same_cache : forall tp v t u, sameQ t u -> sameQ (cache_set tp v t) (cache_set tp v u).
Proof.
  intros tp v t u (A & B & C). unfold req_bodies in B. injection B as B1 B3 B4 B5.
  destruct tp; (split; [exact A|]); (split; [|exact C]); unfold req_bodies; cbn; congruence.
Qed.
Lemma same_bodyerr : forall b t u, sameQ t u -> sameQ (with_bodyerr t b) (with_bodyerr u b).
Proof.
  intros b t u (A & B & C). unfold req_bodies in B. injection B as B1 B3 B4 B5.
  split; [exact A|]. split; [|exact C]. unfold req_bodies. cbn. congruence.
Qed.
Lemma types_same : forall O e ct bd tps t u t1 r, sameQ t u -> parse_types O e ct bd tps t = Ret (t1, r) ->
  exists u1, parse_types O e ct bd tps u = Ret (u1, r) /\ sameQ t1 u1.
Proof.
  intros O e ct bd. induction tps as [|tp tps IH]; intros t u t1 r S H; cbn [parse_types] in *.
  - apply Ret_inj in H. injection H as <- <-. eauto.
  - destruct (negb _); [eapply IH; eauto|].
    assert (CG : cache_get tp u = cache_get tp t).
    { destruct S as (_ & B & _). unfold req_bodies in B. injection B as B1 B3 B4 B5. now destruct tp. }
    rewrite CG. destruct (cache_get tp t) as [[|m|f]|].
    + eapply IH; eauto.
    + apply Ret_inj in H. injection H as <- <-. eauto.
    + apply Ret_inj in H. injection H as <- <-. eauto.
    + pose proof (run_same O e tp bd t u S) as R. destruct (run_parser O e tp bd t) as [[[t2 res] er]| |]; cbn [bind] in H; try discriminate.
      destruct R as (u2 & -> & S2). cbn [bind]. apply (same_cache tp res) in S2. destruct er.
      * apply Ret_inj in H. injection H as <- <-. eexists. split; [reflexivity|]. now apply same_bodyerr.
      * destruct res; [eapply IH; eauto|apply Ret_inj in H; injection H as <- <-; eauto..].
Qed.
Lemma types_resbody : forall O e ct bd tps t t1 r, parse_types O e ct bd tps t = Ret (t1, r) -> t_resbody t1 = t_resbody t.
Proof.
  intros O e ct bd. induction tps as [|tp tps IH]; intros t t1 r H; cbn [parse_types] in H; [apply Ret_inj in H; now injection H as <- <-|].
  destruct (negb _); [eapply IH; eauto|].
  assert (RP : forall t2 res er, run_parser O e tp bd t = Ret (t2, res, er) -> t_resbody (cache_set tp res t2) = t_resbody t).
  { intros t2 res er R. destruct tp; cbn [run_parser cache_set] in *.
    - destruct (buf_string (t_reqbody t)) as [[bb body] [x|]]; [apply Ret_inj in R; now injection R as <- <- <-|].
      destruct (parse_query (semi_sep O) body). apply Ret_inj in R; now injection R as <- <- <-.
    - destruct (multipart O (t_reqbody t) bd (e_reqmem e)) as [[m| | |] off]; try discriminate; apply Ret_inj in R; now injection R as <- <- <-. }
  destruct (cache_get tp t) as [[|m|f]|].
  - eapply IH; eauto.
  - apply Ret_inj in H. now injection H as <- <-.
  - apply Ret_inj in H. now injection H as <- <-.
  - apply bind_Ret in H as ([[t2 res] er] & R & H). specialize (RP _ _ _ R). destruct er; [apply Ret_inj in H; now injection H as <- <-|].
    destruct res; [rewrite (IH _ _ _ H); exact RP|apply Ret_inj in H; now injection H as <- <-..].
Qed.
Lemma parse_resbody : forall O e t t1 r, request_body_parse O e t = Ret (t1, r) -> t_resbody t1 = t_resbody t.
Proof.
  intros O e t t1 r H. unfold request_body_parse in H. destruct (negb _); [apply Ret_inj in H; now injection H as <- <-|].
  destruct (_ || _); [apply Ret_inj in H; now injection H as <- <-|]. destruct (media_type O _). eapply types_resbody; eauto.
Qed.
Lemma parse_sameQ : forall O e t u t1 r, sameQ t u -> request_body_parse O e t = Ret (t1, r) ->
  exists u1, request_body_parse O e u = Ret (u1, r) /\ sameQ t1 u1.
Proof.
  intros O e t u t1 r S H. unfold request_body_parse in *. pose proof S as (A & B & C). unfold req_bodies in B. injection B as B1 B3 B4 B5.
  unfold request_part in A. injection A as X1 X2 X3 X4 X5 X6 X7 X8.
  assert (M : has_body_method u = has_body_method t) by (unfold has_body_method; congruence). rewrite M, B1, X8.
  destruct (negb (has_body_method t)); [apply Ret_inj in H; injection H as <- <-; eauto|].
  destruct (_ || _); [apply Ret_inj in H; injection H as <- <-; eauto|]. destruct (media_type O _) as [mt bd]. eapply types_same; eauto.
Qed.
Lemma parse_same : forall O e t u t1 r, same t u -> request_body_parse O e t = Ret (t1, r) ->
  exists u1, request_body_parse O e u = Ret (u1, r) /\ same t1 u1.
Proof.
  intros O e t u t1 r (S & R & B) H. destruct (parse_sameQ _ _ _ _ _ _ S H) as (u1 & U & K). exists u1. split; [exact U|]. split; [exact K|].
  pose proof (parse_resbody _ _ _ _ _ H). pose proof (parse_resbody _ _ _ _ _ U).
  apply th_body_parse, touches_alike in H as [_ H]. apply th_body_parse, touches_alike in U as [_ U]. split; congruence.
Qed.
Lemma reqbody_sameQ : forall O e t u, sameQ t u ->
  sameQ (fst (fetch_request_body O e t)) (fst (fetch_request_body O e u)) /\ snd (fetch_request_body O e u) = snd (fetch_request_body O e t).
Proof.
  intros O e t u S. unfold fetch_request_body. pose proof S as (A & B & C). unfold req_bodies in B. injection B as B1 B3 B4 B5.
  pose proof A as A3. unfold request_part in A3. injection A3 as X1 X2 X3 X4 X5 X6 X7 X8.
  assert (M : has_body_method u = has_body_method t) by (unfold has_body_method; congruence). rewrite M, B1, X8.
  destruct (negb (has_body_method t)); [now split|]. destruct (_ || _); [now split|].
  destruct (header_get _ _); [now split|]. destruct (negb _); [now split|].
  destruct (buf_string (t_reqbody t)) as [[bb body] [er|]]; cbn [fst snd]; (split; [|reflexivity]).
  - split; [exact A|]. split; [|reflexivity]. unfold req_bodies. cbn. congruence.
  - split; [exact A|]. split; [|exact C]. unfold req_bodies. cbn. congruence.
Qed.
Lemma reqbody_rest : forall O e t, response_part (fst (fetch_request_body O e t)) = response_part t /\ t_resbody (fst (fetch_request_body O e t)) = t_resbody t.
Proof.
  intros O e t. unfold fetch_request_body. destruct (negb _); [now split|]. destruct (_ || _); [now split|].
  destruct (header_get _ _); [now split|]. destruct (negb _); [now split|]. destruct (buf_string (t_reqbody t)) as [[bb body] [er|]]; now split.
Qed.
Lemma reqbody_same : forall O e t u, same t u ->
  same (fst (fetch_request_body O e t)) (fst (fetch_request_body O e u)) /\ snd (fetch_request_body O e u) = snd (fetch_request_body O e t).
Proof.
  intros O e t u (S & R & B). destruct (reqbody_sameQ O e _ _ S) as [K Q]. split; [|exact Q]. split; [exact K|].
  destruct (reqbody_rest O e t), (reqbody_rest O e u). split; congruence.
Qed.
Lemma resbody_same : forall e t u, same t u ->
  same (fst (fetch_response_body e t)) (fst (fetch_response_body e u)) /\ snd (fetch_response_body e u) = snd (fetch_response_body e t).
Proof.
  intros e t u S. unfold fetch_response_body. pose proof S as ((A & B & C) & R & D). 
  rewrite D. destruct (_ || _); [now split|].
  destruct (buf_string (t_resbody t)) as [[bb body] [er|]]; cbn [fst snd]; (split; [|reflexivity]).
  - split; [|now split]. split; [exact A|]. split; [exact B|reflexivity].
  - split; [|now split]. split; [exact A|]. split; [exact B|exact C].
Qed.
Lemma nonbody_same : forall O e v, looks_at_body v = false -> forall t t1 a, fetch O e v t = Ret (t1, a) -> same t t1.
Proof.
  intros O e v. induction v as [c f|s|g p|g p|v IH]; intros L t t1 a H; try discriminate.
  - destruct c; try discriminate L; cbn [fetch fetch_coll] in H; try (destruct (t_url t)); apply Ret_inj in H; injection H as <- _; apply same_refl || apply same_tick.
  - destruct s; try discriminate L; cbn [fetch fetch_scalar] in H; try (destruct (t_url t)); try (destruct (header_get _ _)); apply Ret_inj in H; injection H as <- _; apply same_refl.
  - cbn [fetch] in H. apply bind_Ret in H as ([u b] & H & E). apply Ret_inj in E. injection E as <- _. eapply IH; eauto.
Qed.

(** ** Looking at variables while the bodies can be read *)
Section Fine.
Variables (O : oracles) (e : engine) (t0 t1 : txn) (r0 : option (btype * iface)).
Hypothesis V : ord_valid O.
Hypothesis P0 : request_body_parse O e t0 = Ret (t1, r0).
Hypothesis E1 : t_bodyerr t1 = false.
Hypothesis A1 : t_abort t1 = false.
Hypothesis NF : r0 <> Some (BMultipart, IForm None).
Hypothesis S0 : t_abort (fst (fetch_request_body O e t0)) = false.
Hypothesis R0 : t_abort (fst (fetch_response_body e t0)) = false.

Definition fine (t : txn) : Prop := same t0 t \/ same t1 t.

Lemma good1 : TwiceFacts.bad t1 = false.
Proof. unfold TwiceFacts.bad. now rewrite E1, A1. Qed.
Lemma parse_act : TwiceFacts.act O e TwiceFacts.RParse t0 = Ret (t1, TwiceFacts.PParse r0).
Proof. cbn [TwiceFacts.act]. now rewrite P0. Qed.
Lemma good0 : TwiceFacts.bad t0 = false.
Proof.
  destruct (TwiceFacts.bad t0) eqn:X; [|reflexivity]. destruct (TwiceFacts.act_data _ _ _ _ _ _ parse_act) as [_ H].
  apply H in X. now rewrite good1 in X.
Qed.
Lemma abort0 : t_abort t0 = false.
Proof. pose proof good0 as G. unfold TwiceFacts.bad in G. now apply orb_false_iff in G. Qed.
Lemma P1 : request_body_parse O e t1 = Ret (t1, r0).
Proof. exact (proj1 (TwiceFacts.parse_clean _ _ _ _ _ P0 good1)). Qed.
Lemma string0 : exists x, fetch_request_body O e t0 = (t0, x) /\ fetch_request_body O e t1 = (t1, x).
Proof.
  destruct (fetch_request_body O e t0) as [s x] eqn:F. cbn [fst] in S0.
  assert (H : TwiceFacts.act O e TwiceFacts.RString t0 = Ret (s, TwiceFacts.PStr x)) by (cbn [TwiceFacts.act]; now rewrite F).
  assert (G : TwiceFacts.bad s = false).
  { unfold TwiceFacts.bad. rewrite S0, orb_false_r. pose proof good0 as G. unfold TwiceFacts.bad in G. apply orb_false_iff in G as [G _]. rewrite <- G.
    clear - F. unfold fetch_request_body in F. destruct (negb _); [now injection F as <- _|]. destruct (_ || _); [now injection F as <- _|].
    destruct (header_get _ _); [now injection F as <- _|]. destruct (negb _); [now injection F as <- _|].
    destruct (buf_string _) as [[bb body] [er|]]; now injection F as <- _. }
  destruct (TwiceFacts.string_clean _ _ _ _ _ H G) as [-> _].
  destruct (TwiceFacts.act_swap _ _ _ _ _ _ _ _ _ H parse_act (or_intror (or_intror good1))) as (s & H1 & H2).
  rewrite parse_act in H1. apply Ret_inj in H1. injection H1 as <-. cbn [TwiceFacts.act] in H2.
  exists x. split; [reflexivity|]. destruct (fetch_request_body O e t1) as [s2 y]. apply Ret_inj in H2. now injection H2 as -> ->.
Qed.
Lemma resp0 : exists x, fetch_response_body e t0 = (t0, x) /\ fetch_response_body e t1 = (t1, x).
Proof.
  destruct (fetch_response_body e t0) as [s x] eqn:F. cbn [fst] in R0.
  assert (H : TwiceFacts.act O e TwiceFacts.RResp t0 = Ret (s, TwiceFacts.PStr x)) by (cbn [TwiceFacts.act]; now rewrite F).
  assert (G : TwiceFacts.bad s = false).
  { unfold TwiceFacts.bad. rewrite R0, orb_false_r. pose proof good0 as G. unfold TwiceFacts.bad in G. apply orb_false_iff in G as [G _]. rewrite <- G.
    clear - F. unfold fetch_response_body in F. destruct (_ || _); [now injection F as <- _|].
    destruct (buf_string _) as [[bb body] [er|]]; now injection F as <- _. }
  pose proof (TwiceFacts.resp_clean _ _ _ _ _ H G) as ->.
  destruct (TwiceFacts.act_swap _ _ _ _ _ _ _ _ _ H parse_act (or_intror (or_intror good1))) as (s & H1 & H2).
  rewrite parse_act in H1. apply Ret_inj in H1. injection H1 as <-. cbn [TwiceFacts.act] in H2.
  exists x. split; [reflexivity|]. destruct (fetch_response_body e t1) as [s2 y]. apply Ret_inj in H2. now injection H2 as -> ->.
Qed.
Lemma alike01 : alike t0 t1.
Proof. eapply touches_alike, th_body_parse, P0. Qed.
Lemma fine_alike : forall t, fine t -> alike t0 t.
Proof. intros t [A|A]; apply same_alike' in A; [exact A|]. eapply alike_trans; [apply alike01|exact A]. Qed.
Lemma fine_abort : forall t, fine t -> t_abort t = false.
Proof. intros t [((_ & _ & A) & _)|((_ & _ & A) & _)]; rewrite A; [apply abort0|exact A1]. Qed.
Lemma fine0 : fine t0.
Proof. left. apply same_refl. Qed.
Lemma fine_same : forall t u, fine t -> same t u -> fine u.
Proof. intros t u [S|S] K; [left|right]; eapply same_trans; eauto. Qed.
Lemma fine_parse : forall t, fine t -> exists t', request_body_parse O e t = Ret (t', r0) /\ fine t'.
Proof.
  intros t [S|S].
  - destruct (parse_same _ _ _ _ _ _ S P0) as (u & H & K). exists u. split; [exact H|now right].
  - destruct (parse_same _ _ _ _ _ _ S P1) as (u & H & K). exists u. split; [exact H|now right].
Qed.
Lemma fine_string : forall t, fine t -> exists t', fetch_request_body O e t = (t', snd (fetch_request_body O e t0)) /\ fine t'.
Proof.
  destruct string0 as (x & X0 & X1). intros t F. rewrite X0. cbn [snd].
  destruct F as [S|S]; destruct (reqbody_same O e _ _ S) as [K Q]; rewrite ?X0, ?X1 in K, Q; cbn [fst snd] in *;
  exists (fst (fetch_request_body O e t)); (split; [now rewrite <- Q; destruct (fetch_request_body O e t)|]); [left|right]; exact K.
Qed.
Lemma fine_resp : forall t, fine t -> exists t', fetch_response_body e t = (t', snd (fetch_response_body e t0)) /\ fine t'.
Proof.
  destruct resp0 as (x & X0 & X1). intros t F. rewrite X0. cbn [snd].
  destruct F as [S|S]; destruct (resbody_same e _ _ S) as [K Q]; rewrite ?X0, ?X1 in K, Q; cbn [fst snd] in *;
  exists (fst (fetch_response_body e t)); (split; [now rewrite <- Q; destruct (fetch_response_body e t)|]); [left|right]; exact K.
Qed.
Definition agrees (v : variable) (t : txn) : Prop :=
  exists t' a u' b, fetch O e v t = Ret (t', a) /\ fetch O e v t0 = Ret (u', b) /\ Permutation a b /\ fine t'.
Lemma plain_agrees : forall v t, looks_at_body v = false -> fine t -> agrees v t.
Proof.
  intros v t L F. destruct (steady_fetch O e v V L t t0 (alike_sym _ _ (fine_alike _ F))) as (t' & a & u' & b & X & Y & P & _).
  exists t', a, u', b. split; [exact X|]. split; [exact Y|]. split; [exact P|]. eapply fine_same; [exact F|]. eapply nonbody_same; eauto.
Qed.
Lemma post_agrees : forall f t, fine t -> agrees (VColl CArgsPost f) t.
Proof.
  intros f t F. unfold agrees. cbn [fetch fetch_coll]. unfold fetch_post. rewrite P0. destruct (fine_parse _ F) as (t' & -> & F'). cbn [bind].
  assert (X : forall m, exists t2 a u b, Ret (filter_fetch O f m t') = Ret (t2, a) /\ Ret (filter_fetch O f m t1) = Ret (u, b) /\ Permutation a b /\ fine t2).
  { intro m. eexists _, _, _, _. split; [reflexivity|]. split; [reflexivity|]. split; [|eapply fine_same; [exact F'|apply same_tick]].
    eapply Permutation_trans; [apply Permutation_flat_map, V|]. apply Permutation_sym, Permutation_flat_map, V. }
  assert (Y : exists t2 a u b, @Ret (txn * list bs) (t', []) = Ret (t2, a) /\ @Ret (txn * list bs) (t1, []) = Ret (u, b) /\ Permutation a b /\ fine t2).
  { exists t', [], t1, []. auto. }
  destruct r0 as [[[] [|m|[m|]]]|]; auto.
Qed.
Lemma post_names_agrees : forall f t, fine t -> agrees (VColl CArgsPostNames f) t.
Proof.
  intros f t F. unfold agrees. cbn [fetch fetch_coll]. unfold fetch_post_names. rewrite P0. destruct (fine_parse _ F) as (t' & -> & F'). cbn [bind].
  assert (X : forall m, exists t2 a u b, Ret (filter_names O f m t') = Ret (t2, a) /\ Ret (filter_names O f m t1) = Ret (u, b) /\ Permutation a b /\ fine t2).
  { intro m. eexists _, _, _, _. split; [reflexivity|]. split; [reflexivity|]. split; [|eapply fine_same; [exact F'|apply same_tick]].
    eapply Permutation_trans; [apply Permutation_map, V|]. apply Permutation_sym, Permutation_map, V. }
  assert (Y : exists t2 a u b, @Ret (txn * list bs) (t', []) = Ret (t2, a) /\ @Ret (txn * list bs) (t1, []) = Ret (u, b) /\ Permutation a b /\ fine t2).
  { exists t', [], t1, []. auto. }
  destruct r0 as [[[] [|m|[m|]]]|]; auto. now elim NF.
Qed.
Lemma fine_fetch : forall v t, fine t -> agrees v t.
Proof.
  intro v. induction v as [c f|s|g p|g p|v IH]; intros t F.
  - destruct (looks_at_body (VColl c f)) eqn:L; [|now apply plain_agrees]. destruct c; try discriminate L; [now apply post_agrees|now apply post_names_agrees].
  - destruct (looks_at_body (VScalar s)) eqn:L; [|now apply plain_agrees]. destruct s; try discriminate L; unfold agrees; cbn [fetch fetch_scalar].
    + destruct (fine_string _ F) as (t' & -> & F'). destruct (fetch_request_body O e t0) as [u b]. exists t', b, u, b. auto.
    + destruct (fine_resp _ F) as (t' & -> & F'). destruct (fetch_response_body e t0) as [u b]. exists t', b, u, b. auto.
  - destruct (plain_agrees (VColl CArgsGet g) t eq_refl F) as (t' & a & u' & b & X & Y & P & F').
    destruct (post_agrees p t' F') as (t2 & a2 & u2 & b2 & X2 & Y2 & Q & F2).
    destruct (plain_agrees (VColl CArgsGet g) t0 eq_refl fine0) as (u3 & a3 & u4 & b4 & X3 & _ & _ & F3).
    rewrite Y in X3. apply Ret_inj in X3. injection X3 as <- <-.
    destruct (post_agrees p u' F3) as (t5 & a5 & u5 & b5 & X5 & Y5 & Q5 & F5). rewrite Y2 in Y5. apply Ret_inj in Y5. injection Y5 as <- <-.
    unfold agrees. cbn [fetch] in *. rewrite X, Y. cbn [bind]. rewrite X2, X5. cbn [bind]. eexists _, _, _, _. split; [reflexivity|]. split; [reflexivity|].
    split; [|exact F2]. apply Permutation_app; [exact P|]. eapply Permutation_trans; [exact Q|]. now apply Permutation_sym.
  - destruct (plain_agrees (VColl CArgsGetNames g) t eq_refl F) as (t' & a & u' & b & X & Y & P & F').
    destruct (post_names_agrees p t' F') as (t2 & a2 & u2 & b2 & X2 & Y2 & Q & F2).
    destruct (plain_agrees (VColl CArgsGetNames g) t0 eq_refl fine0) as (u3 & a3 & u4 & b4 & X3 & _ & _ & F3).
    rewrite Y in X3. apply Ret_inj in X3. injection X3 as <- <-.
    destruct (post_names_agrees p u' F3) as (t5 & a5 & u5 & b5 & X5 & Y5 & Q5 & F5). rewrite Y2 in Y5. apply Ret_inj in Y5. injection Y5 as <- <-.
    unfold agrees. cbn [fetch] in *. rewrite X, Y. cbn [bind]. rewrite X2, X5. cbn [bind]. eexists _, _, _, _. split; [reflexivity|]. split; [reflexivity|].
    split; [|exact F2]. apply Permutation_app; [exact P|]. eapply Permutation_trans; [exact Q|]. now apply Permutation_sym.
  - destruct (IH t F) as (t' & a & u' & b & X & Y & P & F'). unfold agrees. cbn [fetch]. rewrite X, Y. cbn [bind].
    eexists _, _, _, _. split; [reflexivity|]. split; [reflexivity|]. split; [|exact F']. rewrite (Permutation_length P). apply Permutation_refl.
Qed.
Lemma fine_fetched : forall vs t t' raw, fine t -> fetched O e vs t t' raw ->
  fine t' /\ forall x, In x raw <-> exists v u a, In v vs /\ fetch O e v t0 = Ret (u, a) /\ In x a.
Proof.
  intros vs t t' raw F H. induction H as [|v vs t s1 s2 a b Hv Hvs IH].
  - split; [exact F|]. intro x. split; [intros []|intros (v & _ & _ & [] & _)].
  - destruct (fine_fetch v t F) as (t' & a' & u & b' & X & Y & P & F'). rewrite Hv in X. apply Ret_inj in X. injection X as <- <-.
    destruct (IH F') as (F2 & X2). split; [exact F2|]. intro x. rewrite in_app_iff, X2. split.
    + intros [I|(w & u2 & c & I & Z & Ic)]; [|exists w, u2, c; simpl; auto]. exists v, u, b'. split; [now left|]. split; [exact Y|]. eapply Permutation_in; eauto.
    + intros (w & u2 & c & [<-|I] & Z & Ic); [left|right; exists w, u2, c; auto]. rewrite Y in Z. apply Ret_inj in Z. injection Z as _ <-.
      eapply Permutation_in; [apply Permutation_sym, P|exact Ic].
Qed.
Lemma fine_evals : forall q t t' m, fine t -> evals O e q t t' m -> fine t' /\ (m = true <-> rule_matches O e t0 q).
Proof.
  intros q t t' m F E. unfold evals in E. destruct (C25_match_iff_some_value_hits _ _ _ _ _ _ E) as (raw & G & M & _).
  destruct (fine_fetched _ _ _ _ F G) as (F' & X). specialize (M (fine_abort _ F')). split; [exact F'|]. rewrite M. split.
  - intros (x & I & H). apply X in I as (v & u & a & I & G1 & Ia). exists v, u, a, x. auto.
  - intros (v & u & a & x & I & G1 & Ia & H). exists x. split; [apply X; exists v, u, a; auto|exact H].
Qed.
Lemma fine_all : forall rr t t', fine t -> all_match O e rr t t' -> fine t' /\ forall q, In q rr -> rule_matches O e t0 q.
Proof.
  intros rr t t' F M. induction M as [|r rr t s1 s2 E M IH]; [split; [exact F|intros q []]|].
  destruct (fine_evals _ _ _ _ F E) as (F1 & X). destruct (IH F1) as (F2 & Y). split; [exact F2|]. intros q [<-|I]; [now apply X|now apply Y].
Qed.
Lemma fine_miss : forall rr t t', fine t -> some_miss O e rr t t' -> fine t' /\ exists q, In q rr /\ ~ rule_matches O e t0 q.
Proof.
  intros rr t t' F M. induction M as [r rr t s1 E|r rr t s1 s2 E M IH].
  - destruct (fine_evals _ _ _ _ F E) as (F1 & X). split; [exact F1|]. exists r. split; [now left|]. intro Y. apply X in Y. discriminate.
  - destruct (fine_evals _ _ _ _ F E) as (F1 & X). destruct (IH F1) as (F2 & q & I & Y). split; [exact F2|]. exists q. split; [now right|exact Y].
Qed.
Lemma effect_samebody : forall rs a t, same t (effect rs a t).
Proof.
  intros rs a t. pose proof (same_alike _ _ (effect_same rs a t)) as [S1 S2].
  assert (X : req_bodies (effect rs a t) = req_bodies t /\ t_resbody (effect rs a t) = t_resbody t).
  { destruct a; try (now split); simpl.
    - unfold do_allow. destruct (bs_eqb arg []); [now split|]. destruct (bs_eqb arg _); [now split|]. now destruct (bs_eqb arg _).
    - unfold jump_to. now destruct (nrules rs (t_phase t) <=? t_cur t + 2). }
  destruct X as [X1 X2]. split; [|now split]. split; [exact S1|]. split; [exact X1|apply effect_abort].
Qed.
Lemma effects_samebody : forall rs l t, same t (effects rs l t).
Proof.
  intros rs l. induction l as [|a l IH]; intro t; [apply same_refl|]. change (effects rs (a :: l) t) with (effects rs l (effect rs a t)).
  eapply same_trans; [apply effect_samebody|apply IH].
Qed.
Variables (d : nat) (rs : ruleset) (p : Z).
Hypothesis G : plain_actions rs p.
Lemma fine_rule : forall i t t', fine t -> process_rule d O e rs p i t = Ret t' ->
  fine t' /\
  (i_disruptive (get_iv t') = true <-> i_disruptive (get_iv t) = true \/
     exists r, 0 <= i /\ nth_error (phase_rules rs p) (Z.to_nat i) = Some r /\ denies rs r /\ chain_matches O e t0 r).
Proof.
  intros i t t' F H.
  apply process_rule_cases in H as [[L ->]|[R [(r & Z0 & N & M)|(l & r & s1 & Z0 & N & M & CA & ->)]]].
  - split; [exact F|]. split; [auto|]. intros [D|(r & Z0 & N & _)]; [exact D|].
    apply nth_error_Some_lt in N. unfold nrules in L. lia.
  - destruct (fine_miss _ _ _ F M) as (F' & q & Q & X). split; [exact F'|]. rewrite (iv_miss _ _ _ _ _ (fine_abort _ F') M).
    split; [auto|]. intros [D|(r' & _ & N' & _ & C)]; [exact D|]. assert (r' = r) by congruence. subst. elim X. now apply C.
  - assert (I : In r (phase_rules rs p)) by (eapply nth_error_In; eauto).
    destruct (fine_all _ _ _ F M) as (F' & X). split; [eapply fine_same; [exact F'|apply effects_samebody]|].
    assert (NP : ~ In APass l).
    { intro Y. destruct (G APass) as (_ & Z & _); [|easy]. eapply chain_usable; eauto. }
    rewrite <- (iv_all _ _ _ _ _ (fine_abort _ F') M). split.
    + intro D. destruct (deny_dec l) as [Y|Y].
      * right. exists r. split; [lia|]. split; [exact N|]. split; [|exact X]. now apply (chain_deny _ _ _ CA).
      * left. eapply no_deny_disruptive; eauto.
    + intros [D|(r' & _ & N' & DN & _)]; [now apply effects_disruptive|]. assert (r' = r) by congruence. subst.
      apply deny_disruptive; [|exact NP]. now apply (chain_deny _ _ _ CA).
Qed.
Lemma next_samebody : forall t n t', next_rule rs t = (n, t') -> same t t'.
Proof. intros t n t' H. unfold next_rule in H. destruct (t_next t =? StatusEndOfRules); injection H as _ <-; repeat split. Qed.
Lemma fine_visits : forall n t l t', visits d O e rs p n t l t' -> fine t ->
  fine t' /\
  (i_disruptive (get_iv t') = true <-> i_disruptive (get_iv t) = true \/
     exists i u u1 r, In (i, u, u1) l /\ 0 <= i /\ nth_error (phase_rules rs p) (Z.to_nat i) = Some r /\ denies rs r /\ chain_matches O e t0 r).
Proof.
  intros n t l t' H. induction H as [n t X|n t s1 E N R D|n t s1 m s2 l t' E N R D NX H IH]; intro F.
  - split; [exact F|]. split; [auto|]. intros [D|(i & u & u1 & r & [] & _)]; exact D.
  - destruct (fine_rule _ _ _ F R) as (F1 & X). split; [eapply fine_same; [exact F1|]; repeat split|]. change (get_iv (touch_iv s1)) with (get_iv s1).
    rewrite X. split.
    + intros [Y|(r & Z0 & Y)]; [now left|]. right. exists n, t, s1, r. split; [now left|]. auto.
    + intros [Y|(i & u & u1 & r & [Q|[]] & Z0 & Y)]; [now left|]. injection Q as <- <- <-. right. eauto.
  - destruct (fine_rule _ _ _ F R) as (F1 & X). destruct (next_phase_same _ _ _ _ NX) as (_ & IV & _).
    assert (F2 : fine s2) by (eapply fine_same; [exact F1|]; eapply same_trans; [|eapply next_samebody; eauto]; repeat split).
    destruct (IH F2) as (F3 & Y). split; [exact F3|].
    assert (D2 : i_disruptive (get_iv s2) = false) by (unfold get_iv in *; rewrite IV; exact D).
    rewrite Y, D2. split.
    + intros [Q|(i & u & u1 & r & I & Z)]; [discriminate|]. right. exists i, u, u1, r. split; [now right|]. exact Z.
    + intros [Q|(i & u & u1 & r & [Q|I] & Z)].
      * assert (i_disruptive (get_iv s1) = true) by (apply X; now left). congruence.
      * injection Q as <- <- <-. assert (i_disruptive (get_iv s1) = true) by (apply X; right; eauto). congruence.
      * right. exists i, u, u1, r. auto.
Qed.
(** Whatever the actions, the bodies stay as they can be read. *)
Lemma fine_kept_rule : forall i t t', fine t -> process_rule d O e rs p i t = Ret t' -> fine t'.
Proof.
  intros i t t' F H. apply process_rule_cases in H as [[_ ->]|[_ [(r & _ & _ & M)|(l & r & s1 & _ & _ & M & _ & ->)]]]; [exact F| |].
  - apply (fine_miss _ _ _ F M).
  - eapply fine_same; [apply (fine_all _ _ _ F M)|apply effects_samebody].
Qed.
Lemma fine_kept : forall n t l t', visits d O e rs p n t l t' -> fine t -> fine t'.
Proof.
  intros n t l t' H. induction H as [n t X|n t s1 E N R D|n t s1 m s2 l t' E N R D NX H IH]; intro F; [exact F| |].
  - eapply fine_same; [exact (fine_kept_rule _ _ _ F R)|]. repeat split.
  - apply IH. eapply fine_same; [exact (fine_kept_rule _ _ _ F R)|]. eapply same_trans; [|eapply next_samebody; eauto]. repeat split.
Qed.
End Fine.

(** ** C86 *)
(** A phase of rules that only deny, whatever they look at: if the bodies can be read,
    the transaction is denied afterwards exactly if it was before or some denying rule
    matches the data and the bodies as the phase found them. *)
Theorem C86_denied_iff_some_rule_matches : forall f O e rs p t t',
  ord_valid O -> 1 <= p <= 6 -> plain_actions rs p -> readable O e t -> t_phase t < p ->
  process_phase f O e rs p t = Ret t' ->
  t_abort t' = false /\
  (i_disruptive (get_iv t') = true <-> i_disruptive (get_iv t) = true \/ denied_by O e rs p t).
Proof.
  intros f O e rs p t t' V P G ((t1 & r0 & P0 & E1 & A1 & NF) & S0 & R0) L H.
  pose proof (abort0 O e t t1 r0 P0 E1 A1) as A.
  destruct (phase_run _ _ _ _ _ _ _ P L A H) as (l & VS).
  destruct (entered_at rs p t ltac:(lia)) as (NX & E & _). destruct (next_phase_same _ _ _ _ NX) as (_ & IV & AB).
  assert (FE : fine t t1 (entered rs p t)) by (left; eapply same_trans; [|eapply next_samebody; eauto]; repeat split).
  assert (AE : t_abort (entered rs p t) = false) by (rewrite AB; exact A).
  assert (DE : i_disruptive (get_iv (entered rs p t)) = i_disruptive (get_iv t)) by (unfold get_iv; rewrite IV; reflexivity).
  destruct (fine_visits O e t t1 r0 V P0 E1 A1 NF S0 R0 f rs p G _ _ _ _ VS FE) as (F' & X). split; [eapply fine_abort; eauto|]. rewrite DE in X. split.
  - intro D. apply X in D as [D|(i & u & u1 & r & _ & _ & NT & DN & C)]; [now left|]. right. exists r.
    split; [eapply nth_error_In; eauto|]. auto.
  - intros [D|(r & I & DN & C)]; [apply X; now left|]. destruct (i_disruptive (get_iv t')) eqn:D; [reflexivity|exfalso].
    destruct (C31_every_rule_evaluated_partial f O e rs p t t' P ltac:(intros a U; apply G in U; tauto) L A H D) as (l2 & V2 & IX).
    destruct (fine_visits O e t t1 r0 V P0 E1 A1 NF S0 R0 f rs p G _ _ _ _ V2 FE) as (_ & X2). rewrite D in X2.
    enough (false = true) by discriminate. apply X2. right. apply In_nth_error in I as (k & NT).
    assert (LK : (k < length (phase_rules rs p))%nat) by (apply nth_error_Some; congruence).
    assert (IK : In (Z.of_nat k) (map index l2)) by (rewrite IX; apply in_map, in_seq; clear -LK; lia).
    apply in_map_iff in IK as ([[i u] u1] & Q & IN). unfold index in Q. cbn [fst] in Q. subst i.
    exists (Z.of_nat k), u, u1, r. split; [exact IN|]. split; [apply Nat2Z.is_nonneg|]. rewrite Nat2Z.id. auto.
Qed.
Definition readableQ (O : oracles) (e : engine) (r : option (btype * iface)) (t : txn) : Prop :=
  (exists t1, request_body_parse O e t = Ret (t1, r) /\ t_bodyerr t1 = false /\ t_abort t1 = false /\ r <> Some (BMultipart, IForm None)) /\
  t_abort (fst (fetch_request_body O e t)) = false.
Definition readable_as (O : oracles) (e : engine) (r : option (btype * iface)) (t : txn) : Prop :=
  readableQ O e r t /\ t_abort (fst (fetch_response_body e t)) = false.
Lemma readable_iff : forall O e t, readable O e t <-> exists r, readable_as O e r t.
Proof.
  intros O e t. unfold readable, readable_as, readableQ. split.
  - intros ((t1 & r & H) & A & B). exists r. split; [split; [exists t1; exact H|exact A]|exact B].
  - intros (r & ((t1 & H) & A) & B). split; [exists t1, r; exact H|]. auto.
Qed.
Lemma readableQ_same : forall O e r t u, sameQ t u -> readableQ O e r t -> readableQ O e r u.
Proof.
  intros O e r t u S ((t1 & P & E & A & N) & F). destruct (parse_sameQ _ _ _ _ _ _ S P) as (u1 & U & (_ & K1 & K2)).
  unfold req_bodies in K1. injection K1 as _ _ _ K1. split; [exists u1; split; [exact U|]; split; [congruence|]; split; [congruence|exact N]|].
  destruct (reqbody_sameQ O e _ _ S) as [(_ & _ & Q) _]. congruence.
Qed.
Lemma readable_same : forall O e r t u, same t u -> readable_as O e r t -> readable_as O e r u.
Proof.
  intros O e r t u S [Q R]. split; [eapply readableQ_same; [apply S|exact Q]|].
  destruct (resbody_same e _ _ S) as [((_ & _ & K) & _) _]. congruence.
Qed.
Lemma readable_abort : forall O e r t, readable_as O e r t -> t_abort t = false.
Proof. intros O e r t (((t1 & P & E & A & N) & _) & _). eapply abort0; eauto. Qed.
Lemma readable_phase : forall f O e rs p r0 t t', ord_valid O -> 1 <= p <= 6 -> readable_as O e r0 t ->
  process_phase f O e rs p t = Ret t' -> readable_as O e r0 t'.
Proof.
  intros f O e rs p r0 t t' V P R H. destruct (Z_lt_le_dec (t_phase t) p) as [L|L]; [|apply phase_works in H as [[_ ->]|(X & _)]; [exact R|clear -L X; lia]].
  pose proof R as (((t1 & P0 & E1 & A1 & NF) & S0) & R0).
  pose proof (abort0 O e t t1 r0 P0 E1 A1) as A. destruct (phase_run _ _ _ _ _ _ _ P L A H) as (l & VS).
  destruct (entered_at rs p t ltac:(lia)) as (NX & E & _).
  assert (FE : fine t t1 (entered rs p t)) by (left; eapply same_trans; [|eapply next_samebody; eauto]; repeat split).
  destruct (fine_kept O e t t1 r0 V P0 E1 A1 NF S0 R0 f rs p _ _ _ _ VS FE) as [F|F]; eapply readable_same; eauto.
  destruct (string0 O e t t1 r0 P0 E1 A1 S0) as (x & _ & X). destruct (resp0 O e t t1 r0 P0 E1 A1 R0) as (y & _ & Y).
  split; [split; [exists t1; split; [eapply P1; eauto|auto]|now rewrite X]|now rewrite Y].
Qed.

(** ** C87 *)
Lemma plain_phase : forall f O e rs p t t', 1 <= p <= 6 -> plain_actions rs p -> t_abort t = false -> process_phase f O e rs p t = Ret t' ->
  t_phase t' = Z.max p (t_phase t).
Proof.
  intros f O e rs p t t' P G A H. destruct (Z_lt_le_dec (t_phase t) p) as [L|L].
  - destruct (phase_run _ _ _ _ _ _ _ P L A H) as (l & VS). destruct (entered_at rs p t ltac:(lia)) as (NX & E & _).
    enough (t_phase t' = p) by lia. clear -VS E G.
    assert (R : forall d n t t1, process_rule d O e rs p n t = Ret t1 -> t_phase t1 = t_phase t).
    { clear -G. intros d n t t1 H. apply process_rule_cases in H as [[_ ->]|[_ [(r & _ & _ & M)|(l & r & t2 & _ & N & M & CA & ->)]]]; [reflexivity| |].
      - apply (frame_position _ _ (touches_frame _ _ (some_miss_touches _ _ _ _ _ M))).
      - rewrite effects_stay; [apply (frame_position _ _ (touches_frame _ _ (all_match_touches _ _ _ _ _ M)))|].
        intros a I. apply G. eapply chain_usable; eauto. eapply nth_error_In; eauto. }
    revert E. generalize (entered rs p t) as u, VS. clear t VS. intros u VS E. induction VS as [n t X|n t t1 Q N RR D|n t t1 m t2 l t' Q N RR D NX H IH].
    + exact E.
    + simpl. rewrite (R _ _ _ _ RR). exact E.
    + destruct (next_phase_same _ _ _ _ NX) as (PH & _ & _). apply IH. rewrite PH. simpl. rewrite (R _ _ _ _ RR). exact E.
  - apply phase_works in H as [[_ ->]|(X & _)]; lia.
Qed.
Lemma body_step : forall f O e rs o t t' b, ord_valid O -> (forall p, op_phase o = Some p -> plain_actions rs p) ->
  (forall p, op_phase o = Some p -> t_phase t < p -> gate rs p \/ readable O e (given o t)) -> feeding o -> t_abort t = false ->
  step f O e rs o t = Ret (t', b) ->
  t_abort t' = false /\
  t_phase t' = match op_phase o with Some p => Z.max p (t_phase t) | None => t_phase t end /\
  (i_disruptive (get_iv t') = true <-> i_disruptive (get_iv t) = true \/
     exists p, op_phase o = Some p /\ t_phase t < p /\ denied_by O e rs p (given o t)).
Proof.
  intros f O e rs o t t' b V G RD F A H. destruct (given_same o t) as (GP & GA & GI). destruct (op_phase o) as [p|] eqn:P.
  - rewrite (step_phase _ _ _ _ _ _ p P) in H. apply bind_Ret in H as (t1 & H & Q). apply Ret_inj in Q. injection Q as -> _.
    pose proof (op_phase_range _ _ P) as R. pose proof (G p eq_refl) as GT.
    assert (AG : t_abort (given o t) = false) by congruence.
    rewrite (plain_phase _ _ _ _ _ _ _ R GT AG H), GP.
    destruct (Z_lt_le_dec (t_phase t) p) as [L|L].
    + assert (X : t_abort t' = false /\ (i_disruptive (get_iv t') = true <-> i_disruptive (get_iv (given o t)) = true \/ denied_by O e rs p (given o t))).
      { destruct (RD p eq_refl L) as [GG|RR].
        - eapply C76_denied_iff_some_rule_matches; eauto. now rewrite GP.
        - eapply C86_denied_iff_some_rule_matches; eauto. now rewrite GP. }
      destruct X as (A' & X). split; [exact A'|]. split; [reflexivity|]. rewrite X. unfold get_iv at 1. rewrite GI. fold (get_iv t). split.
      * intros [D|D]; [now left|]. right. exists p. auto.
      * intros [D|(p' & Q & _ & D)]; [now left|]. injection Q as <-. now right.
    + apply phase_works in H as [[_ ->]|(X & _)]; [|lia]. split; [congruence|]. split; [reflexivity|].
      unfold get_iv at 1. rewrite GI. fold (get_iv t). split; [auto|]. intros [D|(p' & Q & L' & _)]; [exact D|]. injection Q as <-. lia.
  - assert (X : forall t0, t_abort t0 = t_abort t -> t_iv t0 = t_iv t -> t_phase t0 = t_phase t ->
       t_abort t0 = false /\ t_phase t0 = t_phase t /\
       (i_disruptive (get_iv t0) = true <-> i_disruptive (get_iv t) = true \/ exists p, @None Z = Some p /\ t_phase t < p /\ denied_by O e rs p (given o t))).
    { intros t0 X1 X2 X3. split; [congruence|]. split; [exact X3|]. unfold get_iv. rewrite X2. split; [auto|].
      intros [D|(p & Q & _)]; [exact D|discriminate]. }
    destruct o; try discriminate; try easy; cbn [step] in H.
    + apply Ret_inj in H. injection H as <- _. now apply X.
    + apply bind_Ret in H as ([[x n] er] & _ & H). apply Ret_inj in H. injection H as <- _. now apply X.
    + apply bind_Ret in H as ([[x n] er] & _ & H). apply Ret_inj in H. injection H as <- _. now apply X.
Qed.
Lemma body_steps : forall f O e rs os t t' bl, ord_valid O -> (forall o p, In o os -> op_phase o = Some p -> plain_actions rs p) ->
  (forall a o b p s c, os = a ++ o :: b -> op_phase o = Some p -> t_phase t < p -> ahead a p -> steps f O e rs a t = Ret (s, c) ->
     gate rs p \/ readable O e (given o s)) ->
  Forall feeding os -> t_abort t = false -> steps f O e rs os t = Ret (t', bl) ->
  t_abort t' = false /\ (t_phase t < 3 -> ahead os 3 -> t_phase t' < 3) /\
  (i_disruptive (get_iv t') = true <-> i_disruptive (get_iv t) = true \/
     exists a o b p s c, os = a ++ o :: b /\ op_phase o = Some p /\ t_phase t < p /\ ahead a p /\ steps f O e rs a t = Ret (s, c) /\
       denied_by O e rs p (given o s)).
Proof.
  intros f O e rs os. induction os as [|o os IH]; intros t t' bl V G RD F A H.
  - apply Ret_inj in H. injection H as <- _. split; [exact A|]. split; [auto|]. split; [auto|]. intros [D|(a & o & b & p & s & c & Q & _)]; [exact D|]. now destruct a.
  - apply steps_cons in H as (t1 & b1 & bl' & S & H & _). inversion F as [|? ? F1 F2]; subst.
    assert (RO : forall p, op_phase o = Some p -> t_phase t < p -> gate rs p \/ readable O e (given o t)).
    { intros p P L. eapply (RD [] o os p t []); [reflexivity|exact P|exact L|intros ? ? []|reflexivity]. }
    destruct (body_step _ _ _ _ _ _ _ _ V (fun p => G o p (or_introl eq_refl)) RO F1 A S) as (A1 & P1 & D1).
    assert (CS : forall a s c, steps f O e rs a t1 = Ret (s, c) -> steps f O e rs (o :: a) t = Ret (s, b1 :: c)).
    { intros a s c X. cbn [steps]. rewrite S. cbn [bind]. now rewrite X. }
    assert (CS' : forall a s c, steps f O e rs (o :: a) t = Ret (s, c) -> exists c', steps f O e rs a t1 = Ret (s, c')).
    { intros a s c X. apply steps_cons in X as (t2 & b2 & c' & S2 & X & _). rewrite S in S2. apply Ret_inj in S2. injection S2 as <- <-. eauto. }
    assert (PH : forall p, t_phase t1 < p -> t_phase t < p /\ forall q, op_phase o = Some q -> q < p).
    { intros p L. rewrite P1 in L. destruct (op_phase o) as [q|]; split; try (clear -L; lia); intros q' Q; [injection Q as <-; clear -L; lia|discriminate]. }
    destruct (IH t1 t' bl' V (fun x p I => G x p (or_intror I))) as (A2 & K2 & D2); [|exact F2|exact A1|exact H|].
    { intros a x b p s c -> P L AH X. destruct (PH p L) as [L1 L2]. eapply (RD (o :: a)); [reflexivity|exact P|exact L1| |apply CS; exact X].
      intros y q [<-|I] Q; [exact (L2 q Q)|eapply AH; eauto]. }
    split; [exact A2|]. split.
    { intros L AH. apply K2; [|intros x q I; apply AH; now right]. rewrite P1. destruct (op_phase o) as [q|] eqn:Q; [|exact L].
      specialize (AH o q (or_introl eq_refl) Q). clear -AH L. lia. }
    rewrite D2, D1. split.
    + intros [[D|(p & P & L & DB)]|(a & x & b & p & s & c & -> & P & L & AH & X & DB)].
      * now left.
      * right. exists [], o, os, p, t, []. split; [reflexivity|]. split; [exact P|]. split; [exact L|]. split; [intros ? ? []|]. split; [reflexivity|exact DB].
      * right. exists (o :: a), x, b, p, s, (b1 :: c). destruct (PH p L) as [L1 L2]. split; [reflexivity|]. split; [exact P|].
        split; [exact L1|]. split; [|split; [apply CS; exact X|exact DB]]. intros y q [<-|I] Q; [exact (L2 q Q)|eapply AH; eauto].
    + intros [D|(a & x & b & p & s & c & Q & P & L & AH & X & DB)]; [left; now left|]. destruct a as [|y a].
      * injection Q as <- <-. apply Ret_inj in X. injection X as <- _. left. right. exists p. auto.
      * injection Q as <- ->. right. apply CS' in X as (c' & X). exists a, x, b, p, s, c'. split; [reflexivity|]. split; [exact P|]. split.
        -- rewrite P1. destruct (op_phase o) as [q|] eqn:OQ; [|exact L]. specialize (AH o q (or_introl eq_refl) OQ). clear -AH L. lia.
        -- split; [intros z q I; apply AH; now right|]. split; [exact X|exact DB].
Qed.
(** Under rules that only deny, the first result a caller fetches says to intervene
    exactly if some call reached its phase in a state a denying rule of that phase
    matches; wherever rules look at bodies, the bodies must be readable. *)
Theorem C87_blocked_iff_some_call_denied : forall f O e rs os t' bl,
  ord_valid O -> (forall p, 1 <= p <= 6 -> plain_actions rs p) -> Forall feeding os ->
  (forall a o b p t c, os = a ++ o :: b -> op_phase o = Some p -> ahead a p -> steps f O e rs a (new_txn e) = Ret (t, c) ->
     gate rs p \/ readable O e (given o t)) ->
  steps f O e rs (os ++ [OpResult]) (new_txn e) = Ret (t', bl) ->
  exists i bl', bl = bl' ++ [ObsResult i] /\
    (i_disruptive i = true <->
     exists a o b p t c, os = a ++ o :: b /\ op_phase o = Some p /\ ahead a p /\ steps f O e rs a (new_txn e) = Ret (t, c) /\
       denied_by O e rs p (given o t)).
Proof.
  intros f O e rs os t' bl V G F RD H. apply steps_app in H as (t1 & b1 & b2 & H1 & H2 & ->).
  apply steps_cons in H2 as (t2 & b & b3 & S & H2 & ->). apply Ret_inj in H2. injection H2 as <- <-.
  cbn [step] in S. unfold result in S. apply Ret_inj in S. injection S as _ <-.
  destruct (body_steps f O e rs os (new_txn e) t1 b1 V) as (_ & _ & D); [intros o p _ P; apply G, (op_phase_range _ _ P)| |exact F|reflexivity|exact H1|].
  { intros a o b p s c Q P _ AH X. eapply RD; eauto. }
  exists (get_iv t1), b1. split; [reflexivity|]. rewrite D. split.
  - intros [X|(a & o & b & p & s & c & Q & P & _ & X)]; [discriminate|]. exists a, o, b, p, s, c. auto.
  - intros (a & o & b & p & s & c & Q & P & X). right. exists a, o, b, p, s, c. split; [exact Q|]. split; [exact P|]. split; [|exact X].
    pose proof (op_phase_range _ _ P) as R. simpl. unfold PhaseBegin. clear -R. lia.
Qed.

(** Phases that look at no body leave everything about bodies alone. *)
Lemma quiet_fetched : forall O e vs t t' raw, (forall v, In v vs -> looks_at_body v = false) -> fetched O e vs t t' raw -> same t t'.
Proof.
  intros O e vs t t' raw L F. induction F as [|v vs t t1 t2 a b Hv Hvs IH]; [apply same_refl|].
  eapply same_trans; [eapply nonbody_same; [|exact Hv]; apply L; now left|]. apply IH. intros w I. apply L. now right.
Qed.
Lemma quiet_evals : forall O e q t t' m, (forall v, In v (r_vars q) -> looks_at_body v = false) -> evals O e q t t' m -> same t t'.
Proof.
  intros O e q t t' m L E. unfold evals in E. destruct (C25_match_iff_some_value_hits _ _ _ _ _ _ E) as (raw & F & _). eapply quiet_fetched; eauto.
Qed.
Lemma quiet_all : forall O e rr t t', (forall q v, In q rr -> In v (r_vars q) -> looks_at_body v = false) -> all_match O e rr t t' -> same t t'.
Proof.
  intros O e rr t t' L M. induction M as [|r rr t t1 t2 E M IH]; [apply same_refl|].
  eapply same_trans; [eapply quiet_evals; [|exact E]; intros v; apply L; now left|]. apply IH. intros q v I. apply L. now right.
Qed.
Lemma quiet_miss : forall O e rr t t', (forall q v, In q rr -> In v (r_vars q) -> looks_at_body v = false) -> some_miss O e rr t t' -> same t t'.
Proof.
  intros O e rr t t' L M. induction M as [r rr t t1 E|r rr t t1 t2 E M IH].
  - eapply quiet_evals; [|exact E]. intros v. apply L. now left.
  - eapply same_trans; [eapply quiet_evals; [|exact E]; intros v; apply L; now left|]. apply IH. intros q v I. apply L. now right.
Qed.
Definition unseeing (rs : ruleset) (p : Z) : Prop :=
  forall r q v, In r (phase_rules rs p) -> In q (r :: r_subs r) -> In v (r_vars q) -> looks_at_body v = false.
Lemma quiet_phase : forall f O e rs p t t', 1 <= p <= 6 -> unseeing rs p -> t_abort t = false -> process_phase f O e rs p t = Ret t' -> same t t'.
Proof.
  intros f O e rs p t t' P G A H. destruct (Z_lt_le_dec (t_phase t) p) as [L|L]; [|apply phase_works in H as [[_ ->]|(X & _)]; [apply same_refl|clear -L X; lia]].
  destruct (phase_run _ _ _ _ _ _ _ P L A H) as (l & VS). destruct (entered_at rs p t ltac:(lia)) as (NX & E & _).
  assert (K : same t (entered rs p t)) by (eapply same_trans; [|eapply next_samebody; eauto]; repeat split).
  eapply same_trans; [exact K|]. clear -VS G.
  assert (R : forall d n t t1, process_rule d O e rs p n t = Ret t1 -> same t t1).
  { clear -G. intros d n s s1 H. apply process_rule_cases in H as [[_ ->]|[_ [(r & _ & N & M)|(l & r & t2 & _ & N & M & CA & ->)]]]; [apply same_refl| |].
    - eapply quiet_miss; [|exact M]. intros q v Iq Iv. eapply G; [eapply nth_error_In; eauto|exact Iq|exact Iv].
    - eapply same_trans; [|apply effects_samebody]. eapply quiet_all; [|exact M]. intros q v Iq Iv. eapply G; [eapply nth_error_In; eauto|exact Iq|exact Iv]. }
  revert VS. generalize (entered rs p t) as u. clear t. intros u VS. induction VS as [n t X|n t t1 Q N RR D|n t t1 m t2 l t' Q N RR D NX H IH].
  - apply same_refl.
  - eapply same_trans; [eapply R; eauto|]. repeat split.
  - eapply same_trans; [eapply R; eauto|]. eapply same_trans; [|exact IH]. eapply same_trans; [|eapply next_samebody; eauto]. repeat split.
Qed.
(** Nothing of the bodies was parsed yet. *)
Definition unparsed (t : txn) : Prop := t_cache_url t = None /\ t_cache_mp t = None /\ t_bodyerr t = false /\ t_abort t = false.
Lemma unparsed_same : forall t u, sameQ t u -> unparsed t -> unparsed u.
Proof. intros t u (_ & B & C) (U1 & U2 & U3 & U4). unfold req_bodies in B. injection B as B1 B2 B3 B4. repeat split; congruence. Qed.
Lemma unparsed_steps : forall f O e rs os t t' bl, (forall o p, In o os -> op_phase o = Some p -> unseeing rs p) -> Forall feeding os ->
  unparsed t -> steps f O e rs os t = Ret (t', bl) -> unparsed t'.
Proof.
  intros f O e rs os. induction os as [|o os IH]; intros t t' bl G F U H.
  - apply Ret_inj in H. now injection H as <- _.
  - apply steps_cons in H as (t1 & b1 & bl' & S & H & _). inversion F as [|? ? F1 F2]; subst. eapply IH; [|exact F2| |exact H]; [intros x p I; apply G; now right|].
    assert (UG : unparsed (given o t)) by (now destruct o). destruct (op_phase o) as [p|] eqn:P.
    + rewrite (step_phase _ _ _ _ _ _ p P) in S. apply bind_Ret in S as (t2 & S & Q). apply Ret_inj in Q. injection Q as -> _.
      eapply unparsed_same; [|exact UG]. eapply quiet_phase; [exact (op_phase_range _ _ P)|apply (G o p (or_introl eq_refl) P)| |exact S]. apply UG.
    + destruct o; try discriminate; try easy; cbn [step] in S.
      * apply Ret_inj in S. injection S as <- _. exact U.
      * apply bind_Ret in S as ([[x n] er] & _ & S). apply Ret_inj in S. injection S as <- _. exact U.
      * apply bind_Ret in S as ([[x n] er] & _ & S). apply Ret_inj in S. injection S as <- _. exact U.
Qed.
Lemma not_prefix : forall p s, (forall r, s <> p ++ r) -> has_prefix p s = false.
Proof.
  intros p s H. destruct (has_prefix p s) eqn:E; [|reflexivity]. apply has_prefix_iff in E as (r & E). now elim (H r).
Qed.
(** What the calls brought can be read when nothing was parsed before. *)
Lemma orderly_readable : forall f O e rs os t c, 0 <= e_reqmem e -> fault_free (request_writes os) -> steps f O e rs os (new_txn e) = Ret (t, c) ->
  unparsed t -> orderly O e os -> exists r, readableQ O e r t /\
  (forall ps body, body = stream (e_reqlimit e) (request_writes os) -> form_body O e os body -> Z.of_nat (length body) <= e_reqmem e -> form_pairs ps body ->
    r = Some (BUrlencoded, IValues (url_map O body))) /\
  (forall bd body m, body = stream (e_reqlimit e) (request_writes os) -> multipart_body O e os bd body -> Z.of_nat (length body) <= e_reqmem e -> multipart_fields O e bd body m ->
    r = Some (BMultipart, IForm (Some m))).
Proof.
  intros f O e rs os t c M FF S (U1 & U2 & U3 & U4) OR. pose proof (ev_between f O e rs os t c S) as E.
  destruct (C75_request_body_of_the_calls f O e rs os t M FF E) as (B1 & B2 & B3).
  pose proof (evaluating_kept _ _ _ _ _ _ M FF E) as K. set (body := stream _ _) in *.
  assert (LN : b_len (t_reqbody t) = zlen body) by (destruct K as [[(_ & A & _) _]|(_ & A & _)]; exact A).
  pose proof (evaluating_holds _ _ _ _ _ _ E) as (_ & RL & RH & _).
  assert (SS : forall x y, fetch O e (VScalar SRequestBody) t = Ret (x, y) -> fst (fetch_request_body O e t) = x).
  { intros x y Q. cbn [fetch fetch_scalar] in Q. apply Ret_inj in Q. now rewrite Q. }
  assert (FP : form_body O e os body -> parses e t).
  { intro FB. apply (form_body_guard _ _ _ _ _ _ body E) in FB as (X1 & X2 & X3 & _).
    split; [exact X1|]. split; [exact X2|]. rewrite LN. unfold zlen. destruct body; [easy|discriminate]. }
  assert (MP : forall bd, multipart_body O e os bd body -> parses e t).
  { intros bd (X1 & X2 & (u & m & p & X3 & X4) & _). pose proof (current_fun _ _ _ _ _ _ X3 RL) as Q. injection Q as _ QM _.
    split; [unfold body_method; rewrite <- QM; destruct X4 as [X4|[X4|[X4|[]]]]; auto|]. split; [exact X1|]. rewrite LN. unfold zlen. destruct body; [easy|discriminate]. }
  destruct (parses_dec e t) as [P|N].
  2: { exists None. split; [|split; [intros ps b -> FB; elim N; now apply FP|intros bd b m -> MB; elim N; now apply (MP bd)]]. split; [exists t; rewrite body_parse_skip by exact N; repeat split; auto; discriminate|].
       rewrite (SS t []); [exact U4|]. apply B3. intro FB. now apply N, FP. }
  assert (FORM : forall ps b, b = body -> form_body O e os b -> Z.of_nat (length b) <= e_reqmem e -> form_pairs ps b ->
     readableQ O e (Some (BUrlencoded, IValues (url_map O b))) t).
  { intros ps b -> FB LM FPS. split; [|rewrite (SS t [body]); [exact U4|apply B1; [exact FB|exact LM]]].
    assert (UB : url_body O e body t).
    { split; [exact P|]. apply (form_body_guard _ _ _ _ _ _ body E) in FB as (_ & _ & _ & X4 & X5). split.
      - unfold ctype. destruct (header_get _ _); [easy|]. rewrite X5. reflexivity.
      - destruct K as [[(_ & _ & K1 & K2) _]|(_ & _ & K1 & _)]; [auto|]. clear -K1 LM. unfold zlen in K1. lia. }
    rewrite (url_parse _ _ _ _ UB), U1, (form_pairs_query _ _ _ FPS). cbv zeta. cbn [snd].
    eexists. split; [reflexivity|]. cbn. repeat split; auto. discriminate. }
  assert (MULTI : forall bd b m, b = body -> multipart_body O e os bd b -> Z.of_nat (length b) <= e_reqmem e -> multipart_fields O e bd b m ->
     readableQ O e (Some (BMultipart, IForm (Some m))) t).
  { intros bd b m -> (_ & _ & _ & (h & ct & mt & X1 & X2 & X3 & X4)) LM MF.
    pose proof (current_fun _ _ _ _ _ _ X1 RH). subst h. pose proof (first_value_fun _ _ _ _ X2 (header_first (B "Content-Type") (t_reqheader t))) as HG. symmetry in HG.
    assert (IM : b_readed (t_reqbody t) = false /\ b_mem (t_reqbody t) = body /\ b_file (t_reqbody t) = None).
    { destruct K as [[(K0 & _ & K1 & K2) _]|(_ & _ & K1 & _)]; [unfold consts in K0; injection K0; auto|]. clear -K1 LM. unfold zlen in K1. lia. }
    destruct IM as (I1 & I2 & I3). split.
    - rewrite body_parse_eq by exact P. unfold ctype. rewrite HG. destruct ct as [|c0 ct]; [easy|]. rewrite X4. cbn [parse_types bt_ctype fst snd].
      replace (has_prefix (B "application/x-www-form-urlencoded") (B "multipart/" ++ mt)) with false by reflexivity.
      replace (has_prefix (B "multipart/") (B "multipart/" ++ mt)) with true by reflexivity. cbn [negb cache_get]. rewrite U2. cbn [run_parser].
      specialize (MF _ I1 I3 I2). destruct (multipart O (t_reqbody t) bd (e_reqmem e)) as [mr off]. cbn [fst] in MF. subst mr. cbn [bind].
      eexists. split; [reflexivity|]. cbn. repeat split; auto. discriminate.
    - rewrite (SS t []); [exact U4|]. apply B3. intros (_ & _ & _ & (h' & ct' & Y1 & Y2 & Y3 & Y4)).
      pose proof (current_fun _ _ _ _ _ _ Y1 RH). subst h'. pose proof (first_value_fun _ _ _ _ X2 Y2). subst ct'. rewrite X4 in Y4. discriminate Y4. }
  assert (ONE : forall r r', readableQ O e r t -> readableQ O e r' t -> r = r').
  { intros r r' ((x & X & _) & _) ((y & Y & _) & _). rewrite X in Y. apply Ret_inj in Y. now injection Y. }
  enough (exists r, readableQ O e r t) as (r & R).
  { exists r. split; [exact R|]. split; [intros ps b Q FB LM FPS; eapply ONE; [exact R|]; eapply FORM; eauto|intros bd b m Q MB LM MF; eapply ONE; [exact R|]; eapply MULTI; eauto]. }
  destruct OR as [OR|ps b Q FB LM FPS|bd b m Q MB LM MF|h ct mt CH FV -> N1 N2].
  - exfalso. elim P. intros BM [X2 X3]. elim X3. rewrite LN. unfold body. rewrite (OR _ _ _ RL X2); [reflexivity|]. destruct BM as [BM|[BM|BM]]; rewrite BM; simpl; auto.
  - eexists. eapply FORM; eauto.
  - eexists. eapply MULTI; eauto.
  - assert (NF : ~ form_body O e os body).
    { intros (_ & _ & _ & (h' & ct' & X1 & X2 & X3 & X4)). pose proof (current_fun _ _ _ _ _ _ CH X1). subst h'.
      pose proof (first_value_fun _ _ _ _ FV X2). subst ct'. destruct ct; [easy|]. apply (N1 []). rewrite X4. reflexivity. }
    exists None. split; [|rewrite (SS t []); [exact U4|now apply B3]].
    exists t. split; [|repeat split; auto; discriminate]. rewrite body_parse_eq by exact P. unfold ctype.
    pose proof (current_fun _ _ _ _ _ _ CH RH). subst h. pose proof (first_value_fun _ _ _ _ FV (header_first (B "Content-Type") (t_reqheader t))). subst ct.
    cbn [parse_types bt_ctype]. apply not_prefix in N1, N2. destruct (header_get (B "Content-Type") (t_reqheader t)) eqn:HG;
    rewrite N1, N2; reflexivity.
Qed.
Lemma response_readable : forall f O e rs os t c, steps f O e rs os (new_txn e) = Ret (t, c) -> t_abort t = false ->
  t_abort (fst (fetch_response_body e t)) = false.
Proof.
  intros f O e rs os t c S A. destruct (C51_response_body _ _ _ _ _ _ _ S) as (t2 & F & AB & _).
  cbn [fetch fetch_scalar] in F. apply Ret_inj in F. rewrite F. cbn [fst]. congruence.
Qed.
Lemma resp_abort : forall e t u, t_resbody u = t_resbody t -> t_abort u = t_abort t -> t_abort (fst (fetch_response_body e u)) = t_abort (fst (fetch_response_body e t)).
Proof.
  intros e t u B A. unfold fetch_response_body. rewrite B. destruct (_ || _); [exact A|]. destruct (buf_string (t_resbody t)) as [[bb body] [er|]]; [reflexivity|exact A].
Qed.
Lemma given_sameQ : forall o t, after_request o -> sameQ t (given o t).
Proof. intros o t A. destruct o; try easy; repeat split. Qed.
Lemma given_readable : forall O e r o t, after_request o -> readable_as O e r t -> readable_as O e r (given o t).
Proof.
  intros O e r o t A [RQ RR]. split; [eapply readableQ_same; [apply given_sameQ; exact A|exact RQ]|]. rewrite <- RR.
  destruct o; try easy; now apply resp_abort.
Qed.
Lemma after_steps : forall f O e rs r post pre t c t' c', ord_valid O -> Forall after_request post ->
  steps f O e rs pre (new_txn e) = Ret (t, c) -> readable_as O e r t -> steps f O e rs post t = Ret (t', c') -> readable_as O e r t'.
Proof.
  intros f O e rs r post. induction post as [|o post IH]; intros pre t c t' c' V F S R H.
  - apply Ret_inj in H. now injection H as <- _.
  - apply steps_cons in H as (t1 & b1 & bl' & S1 & H & _). inversion F as [|? ? F1 F2]; subst.
    assert (S2 : steps f O e rs (pre ++ [o]) (new_txn e) = Ret (t1, c ++ [b1])).
    { clear -S S1. revert S. generalize (new_txn e). revert c. induction pre as [|x pre IHp]; intros c s S.
      - apply Ret_inj in S. injection S as -> <-. cbn [app steps]. rewrite S1. reflexivity.
      - apply steps_cons in S as (s1 & b & bl & S2 & S & ->). cbn [app steps]. rewrite S2. cbn [bind]. rewrite (IHp _ _ S). reflexivity. }
    eapply (IH (pre ++ [o])); [exact V|exact F2|exact S2| |exact H].
    pose proof (readable_abort _ _ _ _ R) as A. pose proof (given_readable _ _ _ o _ F1 R) as RG. destruct R as [RQ RR].
    destruct (op_phase o) as [p|] eqn:P.
    + rewrite (step_phase _ _ _ _ _ _ p P) in S1. apply bind_Ret in S1 as (t2 & S1 & Q). apply Ret_inj in Q. injection Q as -> _.
      eapply readable_phase; [exact V|exact (op_phase_range _ _ P)|exact RG|exact S1].
    + destruct o; try discriminate; try easy. cbn [step] in S1. apply bind_Ret in S1 as ([[x n] er] & _ & S1). apply Ret_inj in S1. injection S1 as <- _.
      split; [eapply readableQ_same; [|exact RQ]; repeat split|]. eapply response_readable; [exact S2|exact A].
Qed.
Lemma request_readable : forall f O e rs pre post a o b p t c,
  ord_valid O -> 0 <= e_reqmem e -> fault_free (request_writes pre) ->
  (forall q, 1 <= q < 3 -> unseeing rs q) ->
  Forall feeding pre -> ahead pre 3 -> orderly O e pre -> Forall after_request post ->
  pre ++ post = a ++ o :: b -> op_phase o = Some p -> 3 <= p -> steps f O e rs a (new_txn e) = Ret (t, c) ->
  after_request o /\ (exists a2, a = pre ++ a2 /\ Forall after_request a2) /\
  exists r, readable_as O e r (given o t) /\
    (forall ps body, body = stream (e_reqlimit e) (request_writes pre) -> form_body O e pre body -> Z.of_nat (length body) <= e_reqmem e -> form_pairs ps body ->
    r = Some (BUrlencoded, IValues (url_map O body))) /\
    (forall bd body m, body = stream (e_reqlimit e) (request_writes pre) -> multipart_body O e pre bd body -> Z.of_nat (length body) <= e_reqmem e -> multipart_fields O e bd body m ->
    r = Some (BMultipart, IForm (Some m))).
Proof.
  intros f O e rs pre post a o b p t c V M FF G F AH OR AR Q P L S.
  assert (X : exists a2, a = pre ++ a2 /\ post = a2 ++ o :: b).
  { assert (NI : ~ In o pre) by (intro I; specialize (AH o p I P); clear -AH L; lia). clear -Q NI. revert a Q. induction pre as [|x pre IH]; intros a Q; [exists a; auto|].
    destruct a as [|y a]; [injection Q as -> _; elim NI; now left|]. injection Q as <- Q. destruct (IH (fun I => NI (or_intror I)) a Q) as (a2 & -> & E). exists a2. auto. }
  destruct X as (a2 & -> & ->). apply steps_app in S as (s & c1 & c2 & S1 & S2 & ->).
  assert (U : unparsed s).
  { eapply unparsed_steps; [|exact F| |exact S1]; [|repeat split]. intros x q I Q2. pose proof (op_phase_range _ _ Q2). apply G. specialize (AH x q I Q2). lia. }
  destruct (orderly_readable _ _ _ _ _ _ _ M FF S1 U OR) as (r & RQ & RF).
  apply Forall_app in AR as [AR AR2]. inversion AR2 as [|? ? AO _]; subst. split; [exact AO|]. split; [eauto|]. exists r. split; [|exact RF].
  apply given_readable; [exact AO|]. eapply after_steps; [exact V|exact AR|exact S1| |exact S2].
  split; [exact RQ|]. eapply response_readable; [exact S1|apply U].
Qed.
(** Where this is so: the rules of the first two phases look at no body, and the calls
    are those of a request whose body is complete and in order before the body phase. *)
Theorem C87_orderly_requests_are_readable : forall f O e rs pre post a o b p t c,
  ord_valid O -> 0 <= e_reqmem e -> fault_free (request_writes pre) ->
  (forall q, 1 <= q <= 6 -> plain_actions rs q) -> (forall q, 1 <= q < 3 -> gate rs q) ->
  Forall feeding pre -> ahead pre 3 -> orderly O e pre -> Forall after_request post ->
  pre ++ post = a ++ o :: b -> op_phase o = Some p -> steps f O e rs a (new_txn e) = Ret (t, c) ->
  gate rs p \/ readable O e (given o t).
Proof.
  intros f O e rs pre post a o b p t c V M FF PL G F AH OR AR Q P S. pose proof (op_phase_range _ _ P) as R.
  destruct (Z_lt_le_dec p 3) as [L|L]; [left; apply G; lia|right].
  destruct (request_readable _ _ _ _ _ _ _ _ _ _ _ _ V M FF (fun q Q0 => proj2 (G q Q0)) F AH OR AR Q P L S) as (_ & _ & r & RA & _). apply readable_iff. eauto.
Qed.
(** What the rules then see of a form: its decoded pairs. *)
Theorem C87_form_shown : forall f O e rs pre post a o b p t c ps body,
  ord_valid O -> 0 <= e_reqmem e -> fault_free (request_writes pre) ->
  (forall q, 1 <= q <= 6 -> plain_actions rs q) -> (forall q, 1 <= q < 3 -> gate rs q) ->
  Forall feeding pre -> ahead pre 3 -> Forall after_request post ->
  body = stream (e_reqlimit e) (request_writes pre) -> form_body O e pre body -> Z.of_nat (length body) <= e_reqmem e -> form_pairs ps body ->
  pre ++ post = a ++ o :: b -> op_phase o = Some p -> 3 <= p -> steps f O e rs a (new_txn e) = Ret (t, c) ->
  (exists t' out, fetch O e (VColl CArgsPost empty_filter) (given o t) = Ret (t', out) /\ Permutation out (map snd ps)) /\
  (exists t' out, fetch O e (VColl CArgsPostNames empty_filter) (given o t) = Ret (t', out) /\ NoDup out /\ forall k, In k out <-> In k (map fst ps)) /\
  (forall k v, exact k -> apply_calls O [Inc k] (VColl CArgsPost empty_filter) = Some v -> exists t', fetch O e v (given o t) = Ret (t', values_of k ps)) /\
  (exists t', fetch O e (VScalar SRequestBody) (given o t) = Ret (t', [body])).
Proof.
  intros f O e rs pre post a o b p t c ps body V M FF PL G F AH AR BE FB LM FP Q P L S.
  destruct (request_readable _ _ _ _ _ _ _ _ _ _ _ _ V M FF (fun q Q0 => proj2 (G q Q0)) F AH (or_form _ _ _ _ _ BE FB LM FP) AR Q P L S) as (AO & (a2 & EA & A2) & r & RA & RF & _).
  specialize (RF _ _ BE FB LM FP). subst r. destruct RA as (((t1 & RP & _) & _) & _).
  assert (UM : url_map O body = add_pairs ps []) by (unfold url_map; now rewrite (form_pairs_query _ _ _ FP)). rewrite UM in RP.
  split; [|split; [|split]].
  - cbn [fetch fetch_coll]. unfold fetch_post. rewrite RP. cbn [bind]. eexists _, _. split; [reflexivity|].
    rewrite no_filter_all, (Permutation_flat_map _ _ _ _ _ (V _ _ _)), add_pairs_values. simpl. now rewrite app_nil_r.
  - cbn [fetch fetch_coll]. unfold fetch_post_names. rewrite RP. cbn [bind]. eexists _, _. split; [reflexivity|]. rewrite no_filter_all.
    pose proof (Permutation_map fst (V (t_tick t1) _ (add_pairs ps []))) as PM. split.
    + eapply Permutation_NoDup; [apply Permutation_sym; exact PM|]. apply add_pairs_nodup. constructor.
    + intro k. rewrite <- (add_pairs_names ps k). split; apply Permutation_in; [exact PM|now apply Permutation_sym].
  - intros k v X A. apply exact_not_regex in X. cbn [apply_calls apply_call var_include] in A. unfold filter_include in A. rewrite X in A. injection A as <-.
    cbn [fetch fetch_coll]. unfold fetch_post. rewrite RP. cbn [bind]. unfold filter_fetch. eexists. do 2 f_equal.
    cbn [f_inc f_incre f_exc f_excre empty_filter app].
    destruct (one_filter O k (add_pairs ps [])) as [E LL]; [apply add_pairs_nodup; constructor|].
    rewrite (perm_short _ _ _ (V _ _ _) LL), E, add_pairs_assoc. reflexivity.
  - cbn [fetch fetch_scalar]. pose proof (reqbody_sameQ O e _ _ (given_sameQ o t AO)) as [_ K]. destruct (fetch_request_body O e (given o t)) as [tg xs]. cbn [snd] in K. subst xs. exists tg. do 2 f_equal.
    assert (W : request_writes a = request_writes pre).
    { subst a. rewrite request_writes_app. replace (request_writes a2) with (@nil bop); [apply app_nil_r|]. clear -A2. induction A2 as [|x l X _ IH]; [reflexivity|]. destruct x; easy. }
    assert (CUR : forall A (kind : op -> option A) d x, (forall o, after_request o -> kind o = None) -> current kind d pre x -> current kind d a x).
    { intros A kind d x KN X. subst a. clear -A2 KN X. revert pre X. induction A2 as [|y l Y _ IH]; intros pre X; [now rewrite app_nil_r|].
      replace (pre ++ y :: l) with ((pre ++ [y]) ++ l) by now rewrite <- app_assoc. apply IH. apply current_skip; auto. }
    assert (FBA : form_body O e a body).
    { destruct FB as (X1 & X2 & (u & m & pr & X3 & X4) & (h & ct & X5 & X6)). split; [exact X1|]. split; [exact X2|]. split.
      - exists u, m, pr. split; [|exact X4]. apply CUR; [|exact X3]. intros []; easy.
      - exists h, ct. split; [|exact X6]. apply CUR; [|exact X5]. intros []; easy. }
    destruct (C75_request_body_of_the_calls f O e rs a t M) as (B1 & _); [now rewrite W|eapply ev_between; exact S|]. rewrite W, <- BE in B1.
    specialize (B1 FBA LM). cbn [fetch fetch_scalar] in B1. apply Ret_inj in B1. now rewrite B1.
Qed.
(** And of a multipart form: its fields. *)
Theorem C87_multipart_shown : forall f O e rs pre post a o b p t c ps bd body,
  ord_valid O -> 0 <= e_reqmem e -> fault_free (request_writes pre) ->
  (forall q, 1 <= q <= 6 -> plain_actions rs q) -> (forall q, 1 <= q < 3 -> gate rs q) ->
  Forall feeding pre -> ahead pre 3 -> Forall after_request post ->
  body = stream (e_reqlimit e) (request_writes pre) -> multipart_body O e pre bd body -> Z.of_nat (length body) <= e_reqmem e -> multipart_fields O e bd body (add_pairs ps []) ->
  pre ++ post = a ++ o :: b -> op_phase o = Some p -> 3 <= p -> steps f O e rs a (new_txn e) = Ret (t, c) ->
  (exists t' out, fetch O e (VColl CArgsPost empty_filter) (given o t) = Ret (t', out) /\ Permutation out (map snd ps)) /\
  (exists t' out, fetch O e (VColl CArgsPostNames empty_filter) (given o t) = Ret (t', out) /\ NoDup out /\ forall k, In k out <-> In k (map fst ps)) /\
  (forall k v, exact k -> apply_calls O [Inc k] (VColl CArgsPost empty_filter) = Some v -> exists t', fetch O e v (given o t) = Ret (t', values_of k ps)).
Proof.
  intros f O e rs pre post a o b p t c ps bd body V M FF PL G F AH AR BE MB LM MF Q P L S.
  destruct (request_readable _ _ _ _ _ _ _ _ _ _ _ _ V M FF (fun q Q0 => proj2 (G q Q0)) F AH (or_multipart _ _ _ _ _ _ BE MB LM MF) AR Q P L S) as (AO & _ & r & RA & _ & RF).
  specialize (RF _ _ _ BE MB LM MF). subst r. destruct RA as (((t1 & RP & _) & _) & _).
  split; [|split].
  - cbn [fetch fetch_coll]. unfold fetch_post. rewrite RP. cbn [bind]. eexists _, _. split; [reflexivity|].
    rewrite no_filter_all, (Permutation_flat_map _ _ _ _ _ (V _ _ _)), add_pairs_values. simpl. now rewrite app_nil_r.
  - cbn [fetch fetch_coll]. unfold fetch_post_names. rewrite RP. cbn [bind]. eexists _, _. split; [reflexivity|]. rewrite no_filter_all.
    pose proof (Permutation_map fst (V (t_tick t1) _ (add_pairs ps []))) as PM. split.
    + eapply Permutation_NoDup; [apply Permutation_sym; exact PM|]. apply add_pairs_nodup. constructor.
    + intro k. rewrite <- (add_pairs_names ps k). split; apply Permutation_in; [exact PM|now apply Permutation_sym].
  - intros k v X A. apply exact_not_regex in X. cbn [apply_calls apply_call var_include] in A. unfold filter_include in A. rewrite X in A. injection A as <-.
    cbn [fetch fetch_coll]. unfold fetch_post. rewrite RP. cbn [bind]. unfold filter_fetch. eexists. do 2 f_equal.
    cbn [f_inc f_incre f_exc f_excre empty_filter app].
    destruct (one_filter O k (add_pairs ps [])) as [E LL]; [apply add_pairs_nodup; constructor|].
    rewrite (perm_short _ _ _ (V _ _ _) LL), E, add_pairs_assoc. reflexivity.
Qed.
(** A check for [plain_actions]. *)
Definition plain_check (rs : ruleset) (p : Z) : bool :=
  forallb plain_action (rs_default rs) && forallb (fun r => forallb (fun q => forallb plain_action (r_acts q)) (r :: r_subs r)) (phase_rules rs p).
Lemma plain_checked : forall rs p, plain_check rs p = true -> plain_actions rs p.
Proof.
  intros rs p H. unfold plain_check in H. apply andb_true_iff in H as [D H].
  assert (PL : forall a, plain_action a = true -> a <> ASkip /\ a <> APass /\ ~ leads_away a).
  { intros a Q. destruct a; try discriminate; (split; [discriminate|]); (split; [discriminate|]); intros (p1 & q1 & L); inversion L. }
  intros a [(r & q & I & J & K)|[_ K]]; apply PL.
  - rewrite forallb_forall in H. specialize (H r I). rewrite forallb_forall in H. specialize (H q J). rewrite forallb_forall in H. now apply H.
  - rewrite forallb_forall in D. now apply D.
Qed.

(** A chain that denies a form in which [user] is "root" whatever the case, and some
    value is "x y". *)
Definition body_rules : ruleset :=
  RuleSet [(1, [demo_rule 1 [VScalar SRequestMethod] (OpRx (B "put")) [ADeny] false []]);
           (3, [demo_rule 3 [VColl CArgsPost (Filter [B "user"] [] [] [])] (OpRx (B "root")) [ALog; ADeny] false
                  [demo_rule 3 [VColl CArgsPost empty_filter] (OpRx (B "x y")) [] false []]])] [].
Definition body_calls (body : string) : list op :=
  [OpConnection [] [] [] []; OpRequestURL (Some (demo_url "/p" "")) (B "POST") (B "HTTP/1.1");
   OpRequestHeader [(B "Content-Type", [B "application/x-www-form-urlencoded"])]; OpAppendRequestBody (B body) NoFault].

Example C86_example : let O := demo MpErr in let e := demo_engine body_rules in
  let t := demo_post "application/x-www-form-urlencoded" "user=ROOT&a=x+y" in
  plain_actions body_rules 3 /\ readable O e t /\ t_phase t < 3 /\
  (exists t', process_phase 9 O e body_rules 3 t = Ret t' /\ i_disruptive (get_iv t') = true) /\
  denied_by O e body_rules 3 t.
Proof.
  cbv zeta. split; [now apply plain_checked|]. split; [split; [eexists _, _; split; [vm_compute; reflexivity|now repeat split]|split; vm_compute; reflexivity]|].
  split; [reflexivity|]. split; [eexists; split; [vm_compute; reflexivity|reflexivity]|].
  eexists. split; [left; reflexivity|]. split; [eexists; split; [left; reflexivity|left; cbn; right; now left]|].
  intros q [<-|[<-|[]]].
  - eexists _, _, _, (B "ROOT"). split; [now left|]. split; [vm_compute; reflexivity|]. split; [now left|]. eapply hit_iff; vm_compute; reflexivity.
  - eexists _, _, _, (B "x y"). split; [now left|]. split; [vm_compute; reflexivity|]. split; [right; now left|]. eapply hit_iff; vm_compute; reflexivity.
Qed.
Example C86_example_not : let O := demo MpErr in
  exists t', process_phase 9 O (demo_engine body_rules) body_rules 3 (demo_post "application/x-www-form-urlencoded" "user=ROOT&a=xy") = Ret t' /\
    i_disruptive (get_iv t') = false.
Proof. eexists. split; [vm_compute; reflexivity|reflexivity]. Qed.

Example C87_example : let O := demo MpErr in let e := demo_engine body_rules in let body := B "user=ROOT&a=x+y" in
  let pre := body_calls "user=ROOT&a=x+y" in let ps := [(B "user", B "ROOT"); (B "a", B "x y")] in
  (forall q, 1 <= q <= 6 -> plain_actions body_rules q) /\ (forall q, 1 <= q < 3 -> gate body_rules q) /\
  0 <= e_reqmem e /\ fault_free (request_writes pre) /\ Forall feeding pre /\ ahead pre 3 /\
  body = stream (e_reqlimit e) (request_writes pre) /\ form_body O e pre body /\ Z.of_nat (length body) <= e_reqmem e /\ form_pairs ps body /\
  Forall after_request [OpRequestBody; OpLogging] /\
  (exists t' c i, steps 9 O e body_rules ((pre ++ [OpRequestBody; OpLogging]) ++ [OpResult]) (new_txn e) = Ret (t', c ++ [ObsResult i]) /\ i_disruptive i = true).
Proof.
  cbv zeta.
  split; [intros p P; assert (C : p = 1 \/ p = 2 \/ p = 3 \/ p = 4 \/ p = 5 \/ p = 6) by lia; destruct C as [->|[->|[->|[->|[->| ->]]]]]; now apply plain_checked|].
  split; [intros p P; assert (C : p = 1 \/ p = 2) by lia; destruct C as [->| ->]; now apply gate_checked|].
  split; [vm_compute; discriminate|]. split; [intros p ft I; cbn in I; intuition congruence|]. split; [repeat constructor|].
  split; [intros o q I Q; cbn in I; intuition (subst; cbn in Q; first [discriminate|injection Q as <-; reflexivity])|].
  split; [reflexivity|]. split.
  { split; [reflexivity|]. split; [discriminate|]. split.
    - eexists _, _, _. split; [|now left]. left. eexists [_], _, _. split; [reflexivity|]. split; [reflexivity|].
      intros o' I. cbn in I. intuition (subst; reflexivity).
    - eexists _, _. split; [|split; [|split]].
      + left. eexists [_; _], _, _. split; [reflexivity|]. split; [reflexivity|]. intros o' I. cbn in I. intuition (subst; reflexivity).
      + apply (fv_some _ _ _ [] [] []); [reflexivity|easy].
      + discriminate.
      + reflexivity. }
  split; [vm_compute; discriminate|]. split.
  { apply (fps_cons (B "user", B "ROOT") (B "user=ROOT") [(B "a", B "x y")] (B "a=x+y")).
    - apply (fp_pair _ _ (B "user") (B "ROOT")); repeat (constructor; [cbn; intuition discriminate|]); constructor.
    - apply fps_one. apply (fp_pair _ _ (B "a") (B "x+y")); (constructor; [cbn; intuition discriminate|]); [constructor|].
      apply ft_plus. constructor; [cbn; intuition discriminate|constructor]. }
  split; [repeat constructor|]. 
  eexists _, [_;_;_;_;_;_], _. split; [vm_compute; reflexivity|reflexivity].
Qed.
Print Assumptions C86_denied_iff_some_rule_matches.
Print Assumptions C87_blocked_iff_some_call_denied.
Print Assumptions C87_orderly_requests_are_readable.
Print Assumptions C87_multipart_shown.
Print Assumptions C87_form_shown.
