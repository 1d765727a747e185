(** Property theorems C71-C75: what the calls brought is what the variables show;
    header selectors; defaults. *)
From Verif Require Import Base BaseFacts GoStrings Utils Buffer SpecBuffer BufferFacts Types Transforms Operators Transaction Variables Rules Engine
  SpecText NumFacts SpecVars VarText VarFacts SpecRules PropText PropVars RuleFacts OrderFacts TxnFacts SpecTxn LoopFacts Witness PropRules PropPhases PropTxn SpecData.
From Verif Require SpecParse ParseFiles.
From Coq Require Import ZifyBool.

(** ** The data part of a transaction after any calls *)
Definition holds (os : list op) (t : txn) : Prop :=
  current connection ([], [], [], []) os (t_srcip t, t_srcport t, t_dstip t, t_dstport t) /\
  current request_line (None, [], []) os (t_url t, t_method t, t_reqproto t) /\
  current request_header [] os (t_reqheader t) /\
  current response_line (0, [], []) os (t_code t, t_resproto t, t_resheader t).

Lemma current_skip : forall A (kind : op -> option A) d os o x, kind o = None -> current kind d os x -> current kind d (os ++ [o]) x.
Proof.
  intros A kind d os o x N [(os1 & o1 & os2 & -> & K & R)|[R ->]].
  - left. exists os1, o1, (os2 ++ [o]). split; [now rewrite <- app_assoc|]. split; [exact K|].
    intros o' I. apply in_app_iff in I as [I|[<-|[]]]; auto.
  - right. split; [|reflexivity]. intros o' I. apply in_app_iff in I as [I|[<-|[]]]; auto.
Qed.
Lemma current_new : forall A (kind : op -> option A) d os o x, kind o = Some x -> current kind d (os ++ [o]) x.
Proof. intros A kind d os o x K. left. exists os, o, []. split; [reflexivity|]. split; [exact K|intros o' []]. Qed.
Lemma current_fun : forall A (kind : op -> option A) d os x y, current kind d os x -> current kind d os y -> x = y.
Proof.
  intros A kind d os. induction os as [|o os IH] using rev_ind; intros x y X Y.
  - assert (N : forall z, current kind d [] z -> z = d).
    { intros z [(os1 & o1 & os2 & E & _)|[_ E]]; [now destruct os1|exact E]. }
    rewrite (N x X), (N y Y). reflexivity.
  - destruct (kind o) as [k|] eqn:K.
    + assert (N : forall z, current kind d (os ++ [o]) z -> z = k).
      { intros z [(os1 & o1 & os2 & E & K1 & R)|[R _]].
        - destruct os2 as [|o2 os2 _] using rev_ind.
          + apply app_inj_tail in E as [_ <-]. congruence.
          + rewrite app_comm_cons, app_assoc in E. apply app_inj_tail in E as [_ <-].
            rewrite (R o ltac:(apply in_app_iff; right; now left)) in K. discriminate.
        - rewrite (R o ltac:(apply in_app_iff; right; now left)) in K. discriminate. }
      rewrite (N x X), (N y Y). reflexivity.
    + assert (N : forall z, current kind d (os ++ [o]) z -> current kind d os z).
      { intros z [(os1 & o1 & os2 & E & K1 & R)|[R E]].
        - destruct os2 as [|o2 os2 _] using rev_ind.
          + apply app_inj_tail in E as [_ <-]. congruence.
          + rewrite app_comm_cons, app_assoc in E. apply app_inj_tail in E as [-> _].
            left. exists os1, o1, os2. split; [reflexivity|]. split; [exact K1|]. intros o' I. apply R, in_app_iff. now left.
        - right. split; [|exact E]. intros o' I. apply R, in_app_iff. now left. }
      apply IH; auto.
Qed.
Lemma holds_new : forall e, holds [] (new_txn e).
Proof. intro e. repeat split; right; split; try reflexivity; intros o []. Qed.
Lemma holds_same : forall os t t', same_data t t' -> holds os t -> holds os t'.
Proof.
  intros os t t' (R & S & _) H. unfold request_part in R. unfold response_part in S. injection R as R1 R2 R3 R4 R5 R6 R7 R8.
  injection S as S1 S2 S3. unfold holds. now rewrite R1, R2, R3, R4, R5, R6, R7, R8, S1, S2, S3.
Qed.
Lemma holds_given : forall os o t, holds os t -> holds (os ++ [o]) (given o t).
Proof.
  intros os o t (A & B & C & D). destruct o; unfold holds; cbn;
  (split; [|split; [|split]]); first [now apply current_new|apply current_skip; [reflexivity|assumption]].
Qed.
Lemma given_data : forall o t, op_phase o = None -> (forall u m p, o <> OpRequestURL u m p) -> given o t = t.
Proof. intros [] t H N; try reflexivity; try discriminate. now elim (N u method proto). Qed.
Lemma step_holds : forall f O e rs os o t t' b, holds os t -> step f O e rs o t = Ret (t', b) -> holds (os ++ [o]) t'.
Proof.
  intros f O e rs os o t t' b H S. destruct (op_phase o) as [p|] eqn:P.
  - rewrite (step_phase _ _ _ _ _ _ p P) in S. apply bind_Ret in S as (t1 & S1 & S2). apply Ret_inj in S2. injection S2 as <- <-.
    apply (holds_given _ o) in H. destruct (phase_works _ _ _ _ _ _ _ S1) as [[_ ->]|(_ & W & _)]; [exact H|].
    eapply holds_same; [apply (works_same _ _ _ _ W)|]. eapply holds_same; [|exact H]. apply with_pos_same.
  - apply (holds_given _ o) in H. destruct o; try discriminate P; cbn [step given] in *.
    + apply Ret_inj in S. injection S as <- _. exact H.
    + apply bind_Ret in S as ([[b1 n] er] & S1 & S2). apply Ret_inj in S2. injection S2 as <- _. exact H.
    + apply bind_Ret in S as ([[b1 n] er] & S1 & S2). apply Ret_inj in S2. injection S2 as <- _. exact H.
    + unfold result in S. apply Ret_inj in S. injection S as <- _. unfold touch_iv. cbn. destruct (t_abort t); exact H.
    + apply Ret_inj in S. injection S as <- _. exact H.
Qed.
Lemma steps_holds : forall f O e rs os2 os1 t t' bl, holds os1 t -> steps f O e rs os2 t = Ret (t', bl) -> holds (os1 ++ os2) t'.
Proof.
  intros f O e rs os2. induction os2 as [|o os2 IH]; intros os1 t t' bl H S.
  - apply Ret_inj in S. injection S as <- _. now rewrite app_nil_r.
  - apply steps_cons in S as (t1 & b & bl' & S1 & S2 & ->). replace (os1 ++ o :: os2) with ((os1 ++ [o]) ++ os2) by now rewrite <- app_assoc.
    eapply IH; [|exact S2]. eapply step_holds; eauto.
Qed.

(** ** States in which variables are fetched *)
(** Between two calls, and while the rules of a phase are being evaluated: [os] are
    the calls so far, including the one in progress. *)
Inductive evaluating (f : nat) (O : oracles) (e : engine) (rs : ruleset) : list op -> txn -> Prop :=
| ev_between : forall os t b, steps f O e rs os (new_txn e) = Ret (t, b) -> evaluating f O e rs os t
| ev_rule : forall os o p t b l i u u1 t2 vs raw s, steps f O e rs os (new_txn e) = Ret (t, b) -> op_phase o = Some p ->
    visits f O e rs p 0 (entered rs p (given o t)) l t2 -> In (i, u, u1) l -> fetched O e vs u s raw ->
    evaluating f O e rs (os ++ [o]) s.
Lemma visits_states : forall d O e rs p n t l t', visits d O e rs p n t l t' -> forall i u u1, In (i, u, u1) l -> same_data t u.
Proof.
  induction 1 as [n t H|n t t1 P N R D|n t t1 m t2 l t' P N R D E V IH]; intros i u u1 I; [easy| |].
  - destruct I as [I|[]]. injection I as _ <- _. apply same_data_refl.
  - destruct I as [I|I]; [injection I as _ <- _; apply same_data_refl|].
    eapply same_data_trans; [|eapply IH; exact I]. apply process_rule_works, works_same in R.
    eapply same_data_trans; [exact R|]. eapply same_data_trans; [apply (works_same rs p); apply wk_iv|].
    pose proof (next_same rs (touch_iv t1)) as X. now rewrite E in X.
Qed.
Lemma evaluating_holds : forall f O e rs os s, evaluating f O e rs os s -> holds os s.
Proof.
  intros f O e rs os s [os' t b S|os' o p t b l i u u1 t2 vs raw s' S P V I F].
  - exact (steps_holds _ _ _ _ _ [] _ _ _ (holds_new e) S).
  - pose proof (steps_holds _ _ _ _ _ [] _ _ _ (holds_new e) S) as H. cbn [app] in H. apply (holds_given _ o) in H.
    eapply holds_same; [|exact H]. eapply same_data_trans; [|apply frame_same_data; eapply BodyFacts.fetched_frame; exact F].
    eapply same_data_trans; [|eapply visits_states; eauto]. unfold entered.
    eapply same_data_trans; [|apply next_same]. apply with_pos_same.
Qed.

(** ** C71 *)
Lemma header_first : forall k h, first_value k h (header_get k h).
Proof.
  intros k h. unfold header_get.
  assert (G : (exists h1 vs h2, h = h1 ++ (k, vs) :: h2 /\ ~ In k (map fst h1) /\ assoc k h = Some vs) \/ (~ In k (map fst h) /\ assoc k h = None)).
  { induction h as [|[j w] h IH]; [now right|]. cbn [assoc map fst]. destruct (bs_eqb_spec k j) as [->|N].
    - left. exists [], w, h. auto.
    - destruct IH as [(h1 & vs & h2 & -> & N1 & A)|[N1 A]].
      + left. exists ((j, w) :: h1), vs, h2. split; [reflexivity|]. split; [|exact A]. intros [E|I]; [now apply N|now apply N1].
      + right. split; [|exact A]. intros [E|I]; [now apply N|now apply N1]. }
  destruct G as [(h1 & vs & h2 & E & N & ->)|[N ->]]; [|now apply fv_none].
  destruct vs; [eapply fv_empty; eauto|eapply fv_some; eauto].
Qed.
Lemma scalars_held : forall O e os s v s' out, holds os s ->
  v <> SRequestBody -> v <> SResponseBody -> fetch O e (VScalar v) s = Ret (s', out) ->
  s' = s /\ scalar_value O os v out.
Proof.
  intros O e os s v s' out (A & R & H & P) N1 N2 F.
  fold no_connection in A. fold no_request in R. fold no_response in P.
  cbn [fetch] in F. apply Ret_inj in F. destruct v; try easy; cbn [fetch_scalar] in F.
  all: try (destruct (t_url s) as [u|] eqn:U; injection F as <- <-; (split; [reflexivity|]);
            [|eapply sv_no_url; [exact R|simpl; tauto]]).
  - eapply sv_query; exact R.
  - injection F as <- <-. split; [reflexivity|]. eapply sv_addr; exact A.
  - eapply sv_basename; [exact R|apply basename_last].
  - eapply sv_filename; exact R.
  - injection F as <- <-. split; [reflexivity|]. eapply sv_method; exact R.
  - injection F as <- <-. split; [reflexivity|]. eapply sv_protocol; exact R.
  - eapply sv_uri; exact R.
  - pose proof (header_first (B "Content-Length") (t_resheader s)) as L.
    destruct (header_get _ _) as [|c l]; injection F as <- <-; (split; [reflexivity|]);
    [eapply sv_no_length|eapply sv_length]; eauto. discriminate.
  - pose proof (header_first (B "Content-Type") (t_resheader s)) as L. cbv zeta in F.
    destruct (header_get _ _) as [|c l]; injection F as <- <-; (split; [reflexivity|]);
    [eapply sv_no_type|eapply sv_type]; eauto. discriminate.
  - injection F as <- <-. split; [reflexivity|]. eapply sv_rprotocol; exact P.
  - injection F as <- <-. split; [reflexivity|]. eapply sv_status; [exact P|apply itoa_decimal].
Qed.
Theorem C71_scalars_show_the_latest_call : forall f O e rs os s v s' out, evaluating f O e rs os s ->
  v <> SRequestBody -> v <> SResponseBody -> fetch O e (VScalar v) s = Ret (s', out) ->
  s' = s /\ scalar_value O os v out.
Proof. intros f O e rs os s v s' out E. apply scalars_held. now apply evaluating_holds in E. Qed.
(** The description fixes the value. *)
Lemma first_value_fun : forall k h a b, first_value k h a -> first_value k h b -> a = b.
Proof.
  assert (S : forall (k : bs) (h1 : vals) v1 h2 g1 w1 g2, h1 ++ (k, v1) :: h2 = g1 ++ (k, w1) :: g2 -> ~ In k (map fst h1) -> ~ In k (map fst g1) ->
    v1 = w1 :> list bs).
  { intros k. induction h1 as [|[j x] h1 IH]; intros v1 h2 [|[j' x'] g1] w1 g2 E N M; cbn in E; injection E.
    - auto.
    - intros _ _ <-. elim M. now left.
    - intros _ _ ->. elim N. now left.
    - intros E' _ _. eapply IH; [exact E'| |]; intro I; [apply N|apply M]; now right. }
  assert (P : forall (k : bs) v h1 h2, In k (map fst (h1 ++ (k, v) :: h2 : vals))).
  { intros. rewrite map_app. apply in_app_iff. right. now left. }
  intros k h a b X Y. inversion X as [v vs h1 h2 E N|h1 h2 E N|N]; inversion Y as [v' vs' g1 g2 E' N'|g1 g2 E' N'|N']; subst; try reflexivity;
  try (pose proof (S _ _ _ _ _ _ _ E' N N') as Q; now injection Q);
  try (pose proof (S _ _ _ _ _ _ _ E' N N') as Q; discriminate);
  try (elim N; apply P); try (elim N'; apply P).
Qed.
Theorem C71_value_determined : forall O os v a b, scalar_value O os v a -> scalar_value O os v b -> a = b.
Proof.
  intros O os v a b X Y. destruct X; inversion Y; subst;
  repeat match goal with
  | H1 : current ?k ?d os ?x, H2 : current ?k ?d os ?y |- _ =>
      lazymatch x with y => fail | _ => idtac end;
      pose proof (current_fun _ _ _ _ _ _ H1 H2) as Q; injection Q; clear Q; intros; subst; clear H2
  end; try congruence; try discriminate;
  try (match goal with I : In _ _ |- _ => cbn in I; intuition discriminate end);
  repeat match goal with
  | H1 : first_value ?k ?h ?x, H2 : first_value ?k ?h ?y |- _ =>
      lazymatch x with y => fail | _ => idtac end;
      pose proof (first_value_fun _ _ _ _ H1 H2); subst; clear H2
  end; try congruence.
  - f_equal. eapply last_segment_fun; eauto.
  - f_equal. match goal with A : decimal _ _, C : decimal _ _ |- _ => apply decimal_itoa in A, C; congruence end.
Qed.
(** Two connections and two requests were given; a rule of the last phase in progress
    is looking at the variables. *)
Definition C71_calls : list op :=
  [OpConnection (B "1.1.1.1") (B "1") (B "9.9.9.9") (B "80"); OpRequestURL (Some (demo_url "/old" "x=1")) (B "GET") (B "HTTP/1.0");
   OpConnection (B "2.2.2.2") (B "2") (B "9.9.9.9") (B "80"); OpRequestURL (Some (demo_url "/dir/new.php" "y=2")) (B "PUT") (B "HTTP/1.1")].
Example C71_example :
  let rs := add_rules [demo_rule PhaseResponseHeaders [VScalar SRequestMethod] (OpRx (B "put")) [ADeny] false []] new_ruleset in
  let e := demo_engine rs in
  let os := C71_calls ++ [OpResponseHeaders 404 (B "HTTP/1.1") [(B "Content-Type", [B "text/html"])]] in
  exists s, evaluating 5 (demo MpErr) e rs os s /\
    fetch (demo MpErr) e (VScalar SRemoteAddr) s = Ret (s, [B "2.2.2.2"]) /\
    fetch (demo MpErr) e (VScalar SRequestBasename) s = Ret (s, [B "new.php"]) /\
    fetch (demo MpErr) e (VScalar SResponseStatus) s = Ret (s, [B "404"]) /\
    fetch (demo MpErr) e (VScalar SResponseContentType) s = Ret (s, [B "text/html"]).
Proof.
  intros rs e os.
  destruct (steps 5 (demo MpErr) e rs C71_calls (new_txn e)) as [[t b]| |] eqn:S; [|vm_compute in S; discriminate|vm_compute in S; discriminate].
  set (o := OpResponseHeaders 404 (B "HTTP/1.1") [(B "Content-Type", [B "text/html"])]) in *.
  exists (entered rs PhaseResponseHeaders (given o t)). split.
  - eapply (ev_rule _ _ _ _ _ o PhaseResponseHeaders t b _ 0 (entered rs PhaseResponseHeaders (given o t)) _ _ []); [exact S|reflexivity| | |apply fd_nil].
    + vm_compute in S. injection S as <- _.
      eapply vs_last; [vm_compute; reflexivity|discriminate|vm_compute; reflexivity|vm_compute; reflexivity].
    + now left.
  - vm_compute in S. injection S as <- _. repeat split; vm_compute; reflexivity.
Qed.
Print Assumptions C71_scalars_show_the_latest_call.
Print Assumptions C71_value_determined.

(** ** C72 *)
Lemma headers_held : forall O e os s c cs v s' out, ord_valid O -> holds os s ->
  In c [CRequestHeaders; CRequestHeadersNames; CResponseHeaders; CResponseHeadersNames] ->
  apply_calls O cs (VColl c empty_filter) = Some v -> fetch O e v s = Ret (s', out) ->
  exists m kept, header_entries os c m /\ keeps (fun kv => selected (rx_match O) cs (fst kv)) m kept /\
    (c = CRequestHeaders \/ c = CResponseHeaders -> Permutation out (flat_map snd kept)) /\
    (c = CRequestHeadersNames \/ c = CResponseHeadersNames -> Permutation out (map fst kept)).
Proof.
  intros O e os s c cs v s' out V (_ & R & H & P) I A F.
  fold no_request in R. fold no_response in P.
  destruct (C13_selectors O e c cs v s s' out V A F) as (m & kept & EN & K & K1 & K2). exists m, kept. split.
  - destruct EN; try (cbn in I; intuition discriminate).
    + now apply he_req.
    + eapply he_reqn; [exact H|]. rewrite H0 in R. exact R.
    + eapply he_reqn0. rewrite H0 in R. exact R.
    + eapply he_res. exact P.
    + eapply he_resn. exact P.
  - split; [exact K|]. split; intro Q; [apply K1; destruct Q; subst; reflexivity|].
    apply K2. destruct Q; subst; reflexivity.
Qed.
Theorem C72_headers_show_the_latest_call : forall f O e rs os s c cs v s' out, ord_valid O -> evaluating f O e rs os s ->
  In c [CRequestHeaders; CRequestHeadersNames; CResponseHeaders; CResponseHeadersNames] ->
  apply_calls O cs (VColl c empty_filter) = Some v -> fetch O e v s = Ret (s', out) ->
  exists m kept, header_entries os c m /\ keeps (fun kv => selected (rx_match O) cs (fst kv)) m kept /\
    (c = CRequestHeaders \/ c = CResponseHeaders -> Permutation out (flat_map snd kept)) /\
    (c = CRequestHeadersNames \/ c = CResponseHeadersNames -> Permutation out (map fst kept)).
Proof. intros f O e rs os s c cs v s' out V E. apply headers_held; [exact V|]. now apply evaluating_holds in E. Qed.
Theorem C72_entries_determined : forall os c a b, header_entries os c a -> header_entries os c b -> a = b.
Proof.
  intros os c a b X Y. destruct X; inversion Y; subst;
  repeat match goal with
  | H1 : current ?k ?d os ?x, H2 : current ?k ?d os ?y |- _ =>
      lazymatch x with y => fail | _ => idtac end;
      pose proof (current_fun _ _ _ _ _ _ H1 H2) as Q; try discriminate Q; first [injection Q; clear Q; intros|idtac]; subst; clear H2
  end; try congruence; eapply current_fun; eauto.
Qed.
Example C72_example : let os := [OpRequestURL (Some (demo_url "/" "")) (B "GET") (B "HTTP/1.1");
    OpRequestHeader [(B "Host", [B "old"])]; OpRequestHeader [(B "Host", [B "new"]); (B "Accept", [B "a"; B "b"])]] in
  exists s, evaluating 5 (demo MpErr) (demo_engine new_ruleset) new_ruleset os s /\
    fetch (demo MpErr) (demo_engine new_ruleset) (VColl CRequestHeaders empty_filter) s = Ret (tick s, [B "new"; B "a"; B "b"]) /\
    fetch (demo MpErr) (demo_engine new_ruleset) (VColl CRequestHeadersNames empty_filter) s = Ret (tick s, [B "Host"; B "Accept"]).
Proof.
  intro os. destruct (steps 5 (demo MpErr) (demo_engine new_ruleset) new_ruleset os (new_txn (demo_engine new_ruleset))) as [[t b]| |] eqn:S;
  [|vm_compute in S; discriminate|vm_compute in S; discriminate]. exists t. split; [eapply ev_between; exact S|].
  vm_compute in S. injection S as <- _. split; vm_compute; reflexivity.
Qed.
Print Assumptions C72_headers_show_the_latest_call.
Print Assumptions C72_entries_determined.

(** ** C73: false of the code: the selector of a header is compared byte by byte. *)
Definition C73_claim : Prop := forall O e t h k k' vs v t' out, ord_valid O -> t_reqheader t = h -> In (k, vs) h ->
  exact k' -> SpecParse.same_letters k k' ->
  apply_calls O [Inc k'] (VColl CRequestHeaders empty_filter) = Some v -> fetch O e v t = Ret (t', out) ->
  forall x, In x vs -> In x out.
Theorem C73_header_names_ignore_case_refuted : exists O e t k k' v t', ord_valid O /\
  t_reqheader t = [(k, [B "curl"])] /\ exact k' /\ SpecParse.same_letters k k' /\
  apply_calls O [Inc k'] (VColl CRequestHeaders empty_filter) = Some v /\ fetch O e v t = Ret (t', []).
Proof.
  exists (demo MpErr), new_engine, (with_reqheader (new_txn new_engine) [(B "User-Agent", [B "curl"])]),
    (B "User-Agent"), (B "user-agent"), (VColl CRequestHeaders (Filter [B "user-agent"] [] [] [])),
    (tick (with_reqheader (new_txn new_engine) [(B "User-Agent", [B "curl"])])).
  split; [apply demo_ord|]. split; [reflexivity|]. split; [intros p Q; discriminate Q|]. split; [|split; vm_compute; reflexivity].
  now apply ParseFiles.same_letters_iff.
Qed.
(** With the exact name the values of that header are selected, and nothing else. *)
Theorem C73_exact_name_partial : forall f O e rs os s k v s' out, ord_valid O -> evaluating f O e rs os s -> exact k ->
  apply_calls O [Inc k] (VColl CRequestHeaders empty_filter) = Some v -> fetch O e v s = Ret (s', out) ->
  exists h, current request_header [] os h /\
    forall x, In x out <-> exists vs, In (k, vs) h /\ In x vs.
Proof.
  intros f O e rs os s k v s' out V E X A F.
  destruct (C72_headers_show_the_latest_call f O e rs os s CRequestHeaders [Inc k] v s' out V E ltac:(simpl; auto) A F)
    as (m & kept & H & K & P & _). specialize (P (or_introl eq_refl)). inversion H; subst. exists m. split; [assumption|].
  assert (S : forall j, selected (rx_match O) [Inc k] j <-> j = k).
  { intro j. unfold selected. split.
    - intros (S1 & _). destruct (S1 (ex_intro _ k (conj (or_introl eq_refl) X))) as ([Q|[]] & _). now injection Q.
    - intros ->. split; [|split; [|split]].
      + intros _. split; [now left|exact X].
      + intros (s0 & p & [Q|[]] & Pt). injection Q as <-. elim (X p Pt).
      + intros ([Q|[]] & _). discriminate.
      + intros (s0 & p & [Q|[]] & _). discriminate. }
  assert (G : forall vs, In (k, vs) m <-> In (k, vs) kept).
  { clear -K S. induction K as [|y l l' Py K IH|y l l' Py K IH]; intro vs; [tauto| |].
    - cbn. rewrite IH. tauto.
    - cbn. rewrite <- IH. split; [|tauto]. intros [->|I]; [|exact I]. elim Py. now apply S. }
  assert (G2 : forall y, In y kept -> fst y = k).
  { clear -K S. induction K as [|y l l' Py K IH|y l l' Py K IH]; intros z I; [easy| |auto].
    destruct I as [<-|I]; [now apply S|auto]. }
  intro x. split.
  - intro I. eapply Permutation_in in I; [|exact P]. apply in_flat_map in I as ((j, vs) & I & Ix).
    pose proof (G2 _ I) as Q. cbn in Q. subst j. exists vs. split; [now apply G|exact Ix].
  - intros (vs & I & Ix). eapply Permutation_in; [apply Permutation_sym; exact P|]. apply in_flat_map.
    exists (k, vs). split; [now apply G|exact Ix].
Qed.
Example C73_example : exact (B "User-Agent") /\
    exists v, apply_calls (demo MpErr) [Inc (B "User-Agent")] (VColl CRequestHeaders empty_filter) = Some v.
Proof.
  split; [intros p Q; discriminate Q|]. exists (VColl CRequestHeaders (Filter [B "User-Agent"] [] [] [])). reflexivity.
Qed.
Print Assumptions C73_header_names_ignore_case_refuted.
Print Assumptions C73_exact_name_partial.

(** ** C74: false of the code: the numbers are not those of the comments beside them. *)
Definition kib : Z := 1024.
Definition gib : Z := 1024 * 1024 * 1024.
Theorem C74_default_limits_refuted : exists e, e = new_engine /\
    e_reqlimit e <> 1 * gib /\ e_reslimit e <> 512 * kib.
Proof. exists new_engine. split; [reflexivity|]. split; vm_compute; discriminate. Qed.
(** The in-memory limit is as written; the other two are 128 MiB and 60 bytes less
    than 512 KiB; bodies are not looked at, there are no rules and nothing is enabled. *)
Theorem C74_default_engine_partial :
  e_reqmem new_engine = 128 * kib /\ e_reqlimit new_engine = 128 * kib * kib /\ e_reslimit new_engine = 512 * kib - 60 /\
    e_reqaccess new_engine = false /\ e_resaccess new_engine = false /\
    e_enabled new_engine = false /\ e_detection new_engine = false /\
    (forall p, phase_rules (e_ruleset new_engine) p = []) /\ rs_default (e_ruleset new_engine) = [].
Proof. repeat split; try reflexivity. Qed.
Example C74_example : exists t, new_transaction true (Some new_engine) (Some new_ruleset) = Some t /\
    b_filelimit (t_reqbody t) = 128 * kib * kib.
Proof. eexists. split; reflexivity. Qed.
Print Assumptions C74_default_limits_refuted.
Print Assumptions C74_default_engine_partial.

(** ** C75 *)
Definition kept_body (m l : Z) (acc : bs) (t : txn) : Prop :=
  mem_inv m l acc (t_reqbody t) /\ zlen acc <= m \/ spill_inv m l acc (t_reqbody t).
Lemma kept_same : forall m l acc t t', same_data t t' -> kept_body m l acc t -> kept_body m l acc t'.
Proof.
  intros m l acc t t' (_ & _ & R & _) [[H L]|H]; [left; split; [eapply reads_mem_inv; eauto|exact L]|right; eapply reads_spill_inv; eauto].
Qed.
Lemma given_body : forall o t, t_reqbody (given o t) = t_reqbody t.
Proof. now destruct o. Qed.
Lemma kept_write : forall m l acc t p, 0 <= m -> kept_body m l acc t ->
  exists b, (zlen (acc ++ p) <= l -> buf_write NoFault p (t_reqbody t) = Ret (b, zlen p, None) /\ kept_body m l (acc ++ p) (with_reqbody t b)) /\
    (l < zlen (acc ++ p) -> forall ft, buf_write ft p (t_reqbody t) = Ret (t_reqbody t, 0, Some ErrOutOfFileLimit)).
Proof.
  intros m l acc t p M K.
  assert (C : consts (t_reqbody t) = (m, l, false) /\ b_len (t_reqbody t) = zlen acc) by (destruct K as [[(A & B & _) _]|(A & B & _)]; auto).
  destruct C as [C Ln]. destruct (Z_le_dec (zlen (acc ++ p)) l) as [D|D].
  - assert (H : exists b1, buf_write NoFault p (t_reqbody t) = Ret (b1, zlen p, None) /\
        (mem_inv m l (acc ++ p) b1 /\ zlen (acc ++ p) <= m \/ spill_inv m l (acc ++ p) b1)).
    { destruct K as [[I Im]|I].
      - destruct (Z_le_dec (zlen (acc ++ p)) m) as [D'|D'].
        + destruct (mem_write_fits m l acc _ p NoFault I D D') as (b1 & H & I1). eauto.
        + destruct (mem_write_spills m l acc _ p M I Im D ltac:(lia)) as (b1 & H & I1 & _). eauto.
      - destruct (spill_write m l acc _ p M I D) as (b1 & H & I1 & _). eauto. }
    destruct H as (b & W & K'). exists b. split; [intros _; split; [exact W|exact K']|lia].
  - exists (t_reqbody t). split; [lia|]. intros _ ft. apply (mem_write_reject m l acc); auto. lia.
Qed.
Lemma step_kept : forall f O e rs o t t' b m l acc, 0 <= m -> (forall p ft, o = OpAppendRequestBody p ft -> ft = NoFault) ->
  kept_body m l acc t -> step f O e rs o t = Ret (t', b) -> kept_body m l (stream_from l acc (request_writes [o])) t'.
Proof.
  intros f O e rs o t t' b m l acc M FF K S.
  assert (KG : kept_body m l acc (given o t)) by (unfold kept_body; now rewrite given_body).
  destruct (op_phase o) as [p|] eqn:P.
  - replace (request_writes [o]) with (@nil bop) by now destruct o. cbn [stream_from].
    rewrite (step_phase _ _ _ _ _ _ p P) in S. apply bind_Ret in S as (t1 & S1 & S2). apply Ret_inj in S2. injection S2 as <- <-.
    destruct (phase_works _ _ _ _ _ _ _ S1) as [[_ ->]|(_ & W & _)]; [exact KG|].
    eapply kept_same; [apply (works_same _ _ _ _ W)|]. eapply kept_same; [|exact KG]. apply with_pos_same.
  - destruct o; try discriminate P; cbn [step] in S; cbn [request_writes stream_from].
    + apply Ret_inj in S. injection S as <- _. exact K.
    + rewrite (FF p ft eq_refl) in *. destruct (kept_write m l acc t p M K) as (b1 & W1 & W2). fold (zlen (acc ++ p)).
      destruct (Z.leb_spec (zlen (acc ++ p)) l) as [D|D].
      * destruct (W1 D) as [W K']. rewrite W in S. apply Ret_inj in S. injection S as <- _. exact K'.
      * rewrite (W2 D) in S. apply Ret_inj in S. injection S as <- _. exact K.
    + apply bind_Ret in S as ([[b1 n] er] & S1 & S2). apply Ret_inj in S2. injection S2 as <- _. exact K.
    + unfold result in S. apply Ret_inj in S. injection S as <- _. unfold touch_iv. cbn. destruct (t_abort t); exact K.
    + apply Ret_inj in S. injection S as <- _. exact K.
Qed.
Lemma request_writes_cons : forall o os, request_writes (o :: os) = request_writes [o] ++ request_writes os.
Proof. now destruct o. Qed.
Lemma request_writes_app : forall a b, request_writes (a ++ b) = request_writes a ++ request_writes b.
Proof.
  induction a as [|o a IH]; intro b; [reflexivity|]. cbn [app]. rewrite request_writes_cons, (request_writes_cons o a), IH. apply app_assoc.
Qed.
Lemma stream_from_app : forall l a b acc, stream_from l acc (a ++ b) = stream_from l (stream_from l acc a) b.
Proof.
  intros l. induction a as [|o a IH]; intros b acc; [reflexivity|]. cbn [app stream_from]. destruct o; try apply IH.
  destruct (_ <=? l); apply IH.
Qed.
Lemma steps_kept : forall f O e rs os t t' bl m l acc, 0 <= m -> fault_free (request_writes os) ->
  kept_body m l acc t -> steps f O e rs os t = Ret (t', bl) -> kept_body m l (stream_from l acc (request_writes os)) t'.
Proof.
  intros f O e rs os. induction os as [|o os IH]; intros t t' bl m l acc M FF K S.
  - apply Ret_inj in S. injection S as <- _. exact K.
  - apply steps_cons in S as (t1 & b & bl' & S1 & S2 & ->). rewrite request_writes_cons in FF |- *. rewrite stream_from_app.
    eapply IH; [exact M| | |exact S2].
    + intros p ft I. apply (FF p ft), in_app_iff. now right.
    + eapply step_kept; [exact M| |exact K|exact S1]. intros p ft ->. apply (FF p ft), in_app_iff. left. now left.
Qed.
Lemma evaluating_kept : forall f O e rs os s, 0 <= e_reqmem e -> fault_free (request_writes os) -> evaluating f O e rs os s ->
  kept_body (e_reqmem e) (e_reqlimit e) (stream (e_reqlimit e) (request_writes os)) s.
Proof.
  intros f O e rs os s M FF E.
  assert (K0 : kept_body (e_reqmem e) (e_reqlimit e) [] (new_txn e)) by (left; split; [apply new_mem_inv|exact M]).
  destruct E as [os' t b S|os' o p t b l i u u1 t2 vs raw s' S P V I F].
  - exact (steps_kept _ _ _ _ _ _ _ _ _ _ _ M FF K0 S).
  - rewrite request_writes_app in *. replace (request_writes [o]) with (@nil bop) in * by now destruct o. rewrite app_nil_r in *.
    pose proof (steps_kept _ _ _ _ _ _ _ _ _ _ _ M FF K0 S) as K.
    assert (KG : kept_body (e_reqmem e) (e_reqlimit e) (stream (e_reqlimit e) (request_writes os')) (given o t))
      by (unfold kept_body; rewrite given_body; exact K).
    eapply kept_same; [|exact KG]. eapply same_data_trans; [|apply frame_same_data; eapply BodyFacts.fetched_frame; exact F].
    eapply same_data_trans; [|eapply visits_states; eauto]. unfold entered.
    eapply same_data_trans; [|apply next_same]. apply with_pos_same.
Qed.
Lemma form_body_guard : forall f O e rs os s body, evaluating f O e rs os s ->
  form_body O e os body <-> body_guard O e s body.
Proof.
  intros f O e rs os s body E. apply evaluating_holds in E as (_ & R & H & _). fold no_request in R.
  unfold form_body, body_guard, BodyFacts.body_method. pose proof (header_first (B "Content-Type") (t_reqheader s)) as HF. split.
  - intros (A & N & (u & m & p & R' & Im) & (h & ct & H' & F' & N' & Mt)).
    pose proof (current_fun _ _ _ _ _ _ R R') as Q. injection Q as _ <- _. pose proof (current_fun _ _ _ _ _ _ H H'). subst h.
    pose proof (first_value_fun _ _ _ _ HF F'). subst ct. cbn in Im. repeat split; auto. intuition.
  - intros (Im & A & N & N' & Mt). split; [exact A|]. split; [exact N|]. split.
    + eexists _, _, _. split; [exact R|]. cbn. intuition.
    + eexists _, _. split; [exact H|]. split; [exact HF|]. split; auto.
Qed.
Theorem C75_request_body_of_the_calls : forall f O e rs os s, 0 <= e_reqmem e -> fault_free (request_writes os) -> evaluating f O e rs os s ->
  let body := stream (e_reqlimit e) (request_writes os) in
  (form_body O e os body -> Z.of_nat (length body) <= e_reqmem e -> fetch O e (VScalar SRequestBody) s = Ret (s, [body])) /\
  (form_body O e os body -> e_reqmem e < Z.of_nat (length body) ->
     exists s' i, fetch O e (VScalar SRequestBody) s = Ret (s', []) /\ t_abort s' = true /\
       t_iv s' = Some i /\ i_status i = 413 /\ i_disruptive i = true /\
       i_log i = i_log (get_iv s) ++ [log_prefix s ++ B "abort process with error out of memory limit"]) /\
  (~ form_body O e os body -> fetch O e (VScalar SRequestBody) s = Ret (s, [])).
Proof.
  intros f O e rs os s M FF E body. pose proof (evaluating_kept _ _ _ _ _ _ M FF E) as K.
  rewrite (form_body_guard _ _ _ _ _ _ body E). eapply request_body_core. exact K.
Qed.
(** A piece is refused exactly if the bytes accepted so far and the piece exceed the
    limit, and then leaves no trace. *)
Theorem C75_piece_refused : forall f O e rs os t b p t' ob, 0 <= e_reqmem e -> fault_free (request_writes os) ->
  steps f O e rs os (new_txn e) = Ret (t, b) -> step f O e rs (OpAppendRequestBody p NoFault) t = Ret (t', ob) ->
  let n := Z.of_nat (length (stream (e_reqlimit e) (request_writes os))) + Z.of_nat (length p) in
  (n <= e_reqlimit e /\ ob = ObsErr None) \/ (e_reqlimit e < n /\ ob = ObsErr (Some ErrOutOfFileLimit) /\ t' = t).
Proof.
  intros f O e rs os t b p t' ob M FF S H n. pose proof (evaluating_kept _ _ _ _ _ _ M FF (ev_between _ _ _ _ _ _ _ S)) as K.
  destruct (kept_write _ _ _ _ p M K) as (b1 & W1 & W2). rewrite zlen_app in W1, W2. unfold zlen in W1, W2. fold n in W1, W2. cbn [step] in H.
  destruct (Z_le_dec n (e_reqlimit e)) as [D|D].
  - left. destruct (W1 D) as [W _]. rewrite W in H. apply Ret_inj in H. injection H as _ <-. auto.
  - right. rewrite (W2 ltac:(lia)) in H. apply Ret_inj in H. injection H as <- <-. split; [lia|]. split; [reflexivity|]. apply BodyFacts.with_reqbody_id.
Qed.
Example C75_example : let e := Engine true false new_ruleset true true 10 6 10 in
  let os := [OpRequestURL (Some (demo_url "/" "")) (B "POST") (B "HTTP/1.1");
    OpRequestHeader [(B "Content-Type", [B "application/x-www-form-urlencoded"])];
    OpAppendRequestBody (B "a=1") NoFault; OpAppendRequestBody (B "&b=22222") NoFault; OpAppendRequestBody (B "&c") NoFault] in
  stream 10 (request_writes os) = B "a=1&c" /\ fault_free (request_writes os) /\ form_body (demo MpErr) e os (B "a=1&c") /\
  exists t, steps 5 (demo MpErr) e new_ruleset os (new_txn e) =
    Ret (t, [ObsNone; ObsNone; ObsErr None; ObsErr (Some ErrOutOfFileLimit); ObsErr None]).
Proof.
  cbv zeta. split; [reflexivity|]. split; [intros p ft I; cbn in I; intuition congruence|]. split.
  - split; [reflexivity|]. split; [discriminate|]. split.
    + eexists _, _, _. split; [|now left]. left. eexists [], _, _. split; [reflexivity|]. split; [reflexivity|].
      intros o' I. cbn in I. intuition (subst; reflexivity).
    + eexists _, _. split; [|split; [|split]].
      * left. eexists [_], _, _. split; [reflexivity|]. split; [reflexivity|]. intros o' I. cbn in I. intuition (subst; reflexivity).
      * apply (fv_some _ _ _ [] [] []); [reflexivity|easy].
      * discriminate.
      * reflexivity.
  - eexists. vm_compute. reflexivity.
Qed.
Print Assumptions C75_request_body_of_the_calls.
Print Assumptions C75_piece_refused.
