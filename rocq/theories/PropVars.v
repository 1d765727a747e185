(** Property theorems C13-C24: what variables inspect. *)
From Verif Require Import Base BaseFacts GoStrings Utils Buffer SpecBuffer BufferFacts Types Transaction Variables Rules Engine
  SpecText NumFacts SpecVars VarFacts VarText PropText BodyFacts Witness.
From Coq Require Import ZifyBool.

(** ** C13 *)
Theorem C13_selectors : forall O e c cs v t t' out, ord_valid O ->
  apply_calls O cs (VColl c empty_filter) = Some v -> fetch O e v t = Ret (t', out) ->
  exists m kept, entries O e t c m /\
    keeps (fun kv => selected (rx_match O) cs (fst kv)) m kept /\
    (value_coll c = true -> Permutation out (flat_map snd kept)) /\
    (value_coll c = false -> Permutation out (map fst kept) /\ (NoDup (map fst m) -> NoDup out)).
Proof.
  intros O e c cs v t t' out V A F.
  apply apply_calls_coll in A as (f & A & ->). apply filter_calls_of in A. rewrite filter_cat_empty in A. subst f.
  cbn [fetch] in F. destruct (fetch_coll_entries _ _ _ _ _ _ _ V F) as (m & E & P).
  exists m, (fetch_with_names O (filter_of cs) m). split; [exact E|]. pose proof (fetch_keeps O cs m) as K.
  split; [exact K|]. split; intro Q; rewrite Q in P; [exact P|]. split; [exact P|].
  intro N. eapply Permutation_NoDup; [apply Permutation_sym; exact P|]. eapply keeps_nodup; eauto.
Qed.
(** The entries of query strings and cookies have distinct names. *)
Theorem C13_names_distinct : forall O e t c m, entries O e t c m ->
  In c [CArgsGet; CArgsGetNames; CRequestCookies; CRequestCookiesNames] -> NoDup (map fst m).
Proof.
  intros O e t c m E I. destruct E; try constructor; try apply parse_query_nodup; try apply read_cookie_nodup;
  simpl in I; intuition discriminate.
Qed.
Example C13_example :
  let t := with_reqheader (demo_post "x" "") [(B "a", [B "1"; B "2"]); (B "b", [B "3"]); (B "c", [B "4"])] in
  exists v, apply_calls (demo MpErr) [Inc (B "a"); Exc (B "/c/"); Inc (B "b"); Inc (B "c")]
              (VColl CRequestHeaders empty_filter) = Some v /\
  fetch (demo MpErr) (demo_engine new_ruleset) v t = Ret (tick t, [B "1"; B "2"; B "3"]).
Proof.
  exists (VColl CRequestHeaders (Filter [B "a"; B "b"; B "c"] [] [] [B "c"])). split; vm_compute; reflexivity.
Qed.
Print Assumptions C13_selectors.
Print Assumptions C13_names_distinct.

(** ** C14: false of the code: an exact selector and a pattern intersect. *)
Definition named (rx : bs -> bs -> bool) (s k : bs) : Prop :=
  (exact s /\ s = k) \/ exists p, pattern s p /\ rx p k = true.
(** Selecting the union of what the selectors name. *)
Definition selected_union (rx : bs -> bs -> bool) (cs : list call) (k : bs) : Prop :=
  ((exists s, In (Inc s) cs) -> exists s, In (Inc s) cs /\ named rx s k) /\
  ~ (exists s, In (Exc s) cs /\ named rx s k).
Theorem C14_selectors_union_refuted : exists O e cs v t t' out,
  ord_valid O /\ apply_calls O cs (VColl CRequestHeaders empty_filter) = Some v /\
  fetch O e v t = Ret (t', out) /\
  (forall k vs, In (k, vs) (t_reqheader t) -> selected_union (rx_match O) cs k) /\
  t_reqheader t = [(B "a", [B "1"]); (B "b", [B "2"])] /\ out = [].
Proof.
  pose (t := with_reqheader (demo_post "x" "") [(B "a", [B "1"]); (B "b", [B "2"])]).
  exists (demo MpErr), (demo_engine new_ruleset), [Inc (B "a"); Inc (B "/b/")], 
    (VColl CRequestHeaders (Filter [B "a"] [B "b"] [] [])), t, (tick t), [].
  split; [apply demo_ord|]. split; [vm_compute; reflexivity|]. split; [vm_compute; reflexivity|].
  split; [|split; reflexivity].
  intros k vs I. simpl in I. split.
  - intros _. destruct I as [I|[I|[]]]; injection I as <- <-.
    + exists (B "a"). split; [now left|]. left. split; [|reflexivity]. intros p Q. destruct p; discriminate.
    + exists (B "/b/"). split; [right; now left|]. right. exists (B "b"). split; reflexivity.
  - intros (s & [J|[J|[]]] & _); discriminate.
Qed.
(** True when all selectors are exact, or all are patterns. *)
Theorem C14_selectors_union_partial : forall O cs k,
  (forall s, In (Inc s) cs -> exact s) \/ (forall s, In (Inc s) cs -> exists p, pattern s p) ->
  selected (rx_match O) cs k <-> selected_union (rx_match O) cs k.
Proof.
  assert (XP : forall s p, exact s -> pattern s p -> False) by (intros s p E P; exact (E p P)).
  intros O cs k U. unfold selected, selected_union, named. split.
  - intros (H1 & H2 & H3 & H4). split.
    + intros (s & I). destruct U as [U|U].
      * destruct (H1 (ex_intro _ s (conj I (U s I)))) as [J E]. exists k. split; [exact J|]. left. auto.
      * destruct (U s I) as (p & P). destruct (H2 (ex_intro _ s (ex_intro _ p (conj I P)))) as (s' & p' & J & P' & R).
        exists s'. split; [exact J|]. right. eauto.
    + intros (s & I & [[E ->]|(p & P & R)]); [apply H3; auto|apply H4; eauto].
  - intros (H1 & H2). split; [|split; [|split]].
    + intros (s & I & E). destruct (H1 (ex_intro _ s I)) as (s' & J & [[E' ->]|(p & P & R)]); [auto|].
      exfalso. destruct U as [U|U]; [exact (XP _ _ (U _ J) P)|]. destruct (U s I) as (q & Q). exact (XP _ _ E Q).
    + intros (s & p & I & P). destruct (H1 (ex_intro _ s I)) as (s' & J & [[E' ->]|(p' & P' & R)]); [|eauto 6].
      exfalso. destruct U as [U|U]; [exact (XP _ _ (U _ I) P)|]. destruct (U k J) as (q & Q). exact (XP _ _ E' Q).
    + intros [I E]. apply H2. exists k. split; [exact I|]. left. auto.
    + intros (s & p & I & P & R). apply H2. exists s. split; [exact I|]. right. eauto.
Qed.
Example C14_partial_example :
  selected_union (rx_match (demo MpErr)) [Inc (B "a"); Inc (B "b"); Exc (B "/c/")] (B "b") /\
  forall s, In (Inc s) [Inc (B "a"); Inc (B "b"); Exc (B "/c/")] -> exact s.
Proof.
  assert (X : forall c : ascii, exact [c]) by (intros c p Q; destruct p; discriminate).
  split; [split|].
  - intros _. exists (B "b"). split; [simpl; auto|]. left. split; [apply X|reflexivity].
  - intros (s & [J|[J|[J|[]]]] & N); try discriminate. injection J as <-. destruct N as [[_ N]|(p & P & R)]; [discriminate|].
    unfold pattern in P. injection P as P. change ["c"%char; "/"%char] with (["c"%char] ++ B "/") in P.
    apply app_inj_tail in P as [<- _]. discriminate.
  - intros s [J|[J|[J|[]]]]; try discriminate; injection J as <-; apply X.
Qed.
Print Assumptions C14_selectors_union_refuted.
Print Assumptions C14_selectors_union_partial.

(** ** C15 *)
Theorem C15_excluded_never_inspected : forall rx cs k,
  (In (Exc k) cs /\ exact k) \/ (exists s p, In (Exc s) cs /\ pattern s p /\ rx p k = true) ->
  ~ selected rx cs k.
Proof. intros rx cs k H (_ & _ & H3 & H4). tauto. Qed.
Lemma selected_exclude : forall rx c1 c2 s k, selected rx (c1 ++ Exc s :: c2) k -> selected rx (c1 ++ c2) k.
Proof.
  intros rx c1 c2 s k (H1 & H2 & H3 & H4).
  assert (I : forall x, In x (c1 ++ c2) -> In x (c1 ++ Exc s :: c2)) by (intros x X; rewrite in_app_iff in *; simpl; tauto).
  assert (J : forall y, In (Inc y) (c1 ++ Exc s :: c2) -> In (Inc y) (c1 ++ c2)).
  { intros y X. rewrite in_app_iff in *. destruct X as [X|[X|X]]; [auto|discriminate|auto]. }
  split; [|split; [|split]].
  - intros (x & X & E). destruct H1 as [A E2]; [eauto|]. auto.
  - intros (x & p & X & P). destruct H2 as (y & q & Y & Q & R); [eauto|]. eauto 6.
  - intros [X E]. apply H3. auto.
  - intros (x & p & X & P & R). apply H4. eauto 6.
Qed.
(** Adding an Exclude anywhere never adds a value: what is fetched with it is part of
    what is fetched without it. *)
Theorem C15_exclude_never_adds : forall O e c c1 c2 s v1 v2 t t1 t2 o1 o2, ord_valid O ->
  apply_calls O (c1 ++ Exc s :: c2) (VColl c empty_filter) = Some v1 ->
  apply_calls O (c1 ++ c2) (VColl c empty_filter) = Some v2 ->
  fetch O e v1 t = Ret (t1, o1) -> fetch O e v2 t = Ret (t2, o2) ->
  exists rest, Permutation o2 (o1 ++ rest).
Proof.
  intros O e c c1 c2 s v1 v2 t t1 t2 o1 o2 V A1 A2 F1 F2.
  apply apply_calls_coll in A1 as (f1 & A1 & ->). apply filter_calls_of in A1. rewrite filter_cat_empty in A1. subst f1.
  apply apply_calls_coll in A2 as (f2 & A2 & ->). apply filter_calls_of in A2. rewrite filter_cat_empty in A2. subst f2.
  cbn [fetch] in F1, F2.
  destruct (fetch_coll_entries _ _ _ _ _ _ _ V F1) as (m1 & E1 & P1).
  destruct (fetch_coll_entries _ _ _ _ _ _ _ V F2) as (m2 & E2 & P2).
  assert (m2 = m1).
  { inversion E1; subst; inversion E2; subst; try congruence;
    repeat match goal with [ H1 : request_body_parse O e t = _, H2 : request_body_parse O e t = _ |- _ ] =>
      rewrite H1 in H2; inversion H2; subst; clear H2 end; try congruence; try reflexivity;
    try match goal with [ H : forall m, Some _ <> Some _ |- _ ] => now elim (H _ eq_refl) end. }
  subst m2. clear E1 E2 F1 F2.
  set (g1 := fetch_with_names O (filter_of (c1 ++ Exc s :: c2)) m1) in *.
  set (g2 := fetch_with_names O (filter_of (c1 ++ c2)) m1) in *.
  assert (G : exists rest, Permutation g2 (g1 ++ rest)).
  { pose proof (fetch_keeps O (c1 ++ Exc s :: c2) m1) as K1. pose proof (fetch_keeps O (c1 ++ c2) m1) as K2.
    fold g1 in K1. fold g2 in K2. clearbody g1 g2. clear P1 P2. revert g2 K2.
    induction K1 as [|x l l' S K IH|x l l' S K IH]; intros g2 K2.
    - inversion K2; subst. exists []. constructor.
    - inversion K2; subst.
      + destruct (IH _ ltac:(eassumption)) as (r & R). exists r. simpl. now constructor.
      + exfalso. apply selected_exclude in S. contradiction.
    - inversion K2; subst.
      + destruct (IH _ ltac:(eassumption)) as (r & R). exists (x :: r).
        rewrite R. apply Permutation_middle.
      + eauto. }
  destruct G as (rest & G). destruct (value_coll c).
  - exists (flat_map snd rest). rewrite P2, P1, <- flat_map_app. now apply Permutation_flat_map.
  - exists (map fst rest). rewrite P2, P1, <- map_app. now apply Permutation_map.
Qed.
Example C15_example : ~ selected (rx_match (demo MpErr)) [Inc (B "a"); Exc (B "/a/"); Inc (B "/a/")] (B "a").
Proof. apply C15_excluded_never_inspected. right. exists (B "/a/"), (B "a"). repeat split. simpl. auto. Qed.
Print Assumptions C15_excluded_never_inspected.
Print Assumptions C15_exclude_never_adds.

(** ** C16 *)
Theorem C16_args_is_get_then_post : forall O e cs v t,
  apply_calls O cs (VArgs empty_filter empty_filter) = Some v ->
  exists vg vp, apply_calls O cs (VColl CArgsGet empty_filter) = Some vg /\
    apply_calls O cs (VColl CArgsPost empty_filter) = Some vp /\
    forall t' out, fetch O e v t = Ret (t', out) <->
      exists t1 a b, fetch O e vg t = Ret (t1, a) /\ fetch O e vp t1 = Ret (t', b) /\ out = a ++ b.
Proof.
  intros O e cs v t A. apply apply_calls_args in A as (g & p & G & P & ->).
  exists (VColl CArgsGet g), (VColl CArgsPost p). split; [now apply calls_coll_filter|].
  split; [now apply calls_coll_filter|]. intros t' out. cbn [fetch]. split.
  - intro H. apply bind_Ret in H as ([t1 a] & H1 & H). apply bind_Ret in H as ([t2 b] & H2 & H). inversion H; subst. eauto 6.
  - intros (t1 & a & b & H1 & H2 & ->). rewrite H1. cbn [bind]. rewrite H2. reflexivity.
Qed.
Theorem C16_args_names_is_get_then_post : forall O e cs v t,
  apply_calls O cs (VArgsNames empty_filter empty_filter) = Some v ->
  exists vg vp, apply_calls O cs (VColl CArgsGetNames empty_filter) = Some vg /\
    apply_calls O cs (VColl CArgsPostNames empty_filter) = Some vp /\
    forall t' out, fetch O e v t = Ret (t', out) <->
      exists t1 a b, fetch O e vg t = Ret (t1, a) /\ fetch O e vp t1 = Ret (t', b) /\ out = a ++ b.
Proof.
  intros O e cs v t A. apply apply_calls_args_names in A as (g & p & G & P & ->).
  exists (VColl CArgsGetNames g), (VColl CArgsPostNames p). split; [now apply calls_coll_filter|].
  split; [now apply calls_coll_filter|]. intros t' out. cbn [fetch]. split.
  - intro H. apply bind_Ret in H as ([t1 a] & H1 & H). apply bind_Ret in H as ([t2 b] & H2 & H). inversion H; subst. eauto 6.
  - intros (t1 & a & b & H1 & H2 & ->). rewrite H1. cbn [bind]. rewrite H2. reflexivity.
Qed.
Theorem C16_count : forall O e cs v w t t' out,
  apply_calls O cs (VCount v) = Some w -> fetch O e w t = Ret (t', out) ->
  exists v' a n, apply_calls O cs v = Some v' /\ fetch O e v' t = Ret (t', a) /\
    out = [n] /\ decimal n (Z.of_nat (length a)).
Proof.
  intros O e cs v w t t' out A F. apply apply_calls_count in A as (v' & A & ->). cbn [fetch] in F.
  apply bind_Ret in F as ([t1 a] & F & E). inversion E; subst. exists v', a, (itoa (Z.of_nat (length a))).
  split; [exact A|]. split; [exact F|]. split; [reflexivity|]. apply itoa_decimal.
Qed.
Example C16_example :
  let O := demo MpErr in let e := demo_engine new_ruleset in
  let t := with_request (demo_post "application/x-www-form-urlencoded" "a=1&b=2&a=3")
             (Some (demo_url "/p" "a=x&c=y")) (B "POST") [] in
  exists v t', apply_calls O [Exc (B "b")] (VArgs empty_filter empty_filter) = Some v /\
    fetch O e v t = Ret (t', [B "x"; B "y"; B "1"; B "3"]) /\
    fetch O e (VCount v) t = Ret (t', [B "4"]).
Proof. eexists _, _. split; [vm_compute; reflexivity|]. split; vm_compute; reflexivity. Qed.
Print Assumptions C16_args_is_get_then_post.
Print Assumptions C16_args_names_is_get_then_post.
Print Assumptions C16_count.

(** ** C17 *)
Lemma no_filter_all : forall O m, fetch_with_names O empty_filter m = m.
Proof. intros O m. induction m as [|kv m IH]; [reflexivity|]. change (kv :: fetch_with_names O empty_filter m = kv :: m). now rewrite IH. Qed.
Lemma one_filter : forall O k m, NoDup (map fst m) ->
  flat_map snd (fetch_with_names O (Filter [k] [] [] []) m) = match assoc k m with Some l => l | None => [] end /\
  (length (fetch_with_names O (Filter [k] [] [] []) m) <= 1)%nat.
Proof.
  assert (D : forall O k q, negb (filter_drops O (Filter [k] [] [] []) q) = bs_eqb q k).
  { intros O k q. unfold filter_drops. cbn [f_inc f_incre f_exc f_excre nonempty andb orb StringInSlice existsb].
    rewrite !orb_false_r. rewrite negb_involutive. destruct (bs_eqb_spec k q) as [->|E]; [now rewrite bs_eqb_refl|]. symmetry. apply bs_eqb_neq. auto. }
  intros O k m. unfold fetch_with_names. induction m as [|[q vs] m IH]; intro N; [simpl; auto|].
  inversion N as [|a b N1 N2]; subst. cbn [List.filter fst assoc]. rewrite D.
  destruct (bs_eqb_spec q k) as [->|E]; [|rewrite (proj2 (bs_eqb_neq k q)) by auto; now apply IH].
  rewrite bs_eqb_refl.
  assert (Z : List.filter (fun kv : bs * list bs => negb (filter_drops O (Filter [k] [] [] []) (fst kv))) m = []).
  { clear -N1 D. induction m as [|[q w] m IH]; [reflexivity|]. cbn [List.filter fst]. rewrite D.
    destruct (bs_eqb_spec q k) as [->|E]; [elim N1; now left|]. apply IH. intro I. apply N1. now right. }
  rewrite Z. simpl. split; [apply app_nil_r|lia].
Qed.
Lemma perm_short : forall A (l l' : list A), Permutation l l' -> (length l' <= 1)%nat -> l = l'.
Proof.
  intros A l l' P L. destruct l' as [|x [|y l']]; [now apply Permutation_sym, Permutation_nil in P| |simpl in L; lia].
  now apply Permutation_sym, Permutation_length_1_inv in P.
Qed.

Lemma add_pairs_names : forall ps k, In k (map fst (add_pairs ps [])) <-> In k (map fst ps).
Proof. intros ps k. rewrite add_pairs_keys. simpl. tauto. Qed.

Theorem C17_query_values : forall O e u ps t t' out, ord_valid O ->
  t_url t = Some u -> form_pairs ps (u_rawquery u) ->
  fetch O e (VColl CArgsGet empty_filter) t = Ret (t', out) -> Permutation out (map snd ps).
Proof.
  intros O e u ps t t' out V U F H. cbn [fetch fetch_coll] in H. rewrite U in H. apply Ret_inj in H.
  unfold filter_fetch in H. injection H as _ <-. rewrite no_filter_all. unfold url_query.
  rewrite (form_pairs_query _ _ _ F). simpl. rewrite (Permutation_flat_map _ _ _ _ _ (V _ _ _)), add_pairs_values.
  simpl. now rewrite app_nil_r.
Qed.
Theorem C17_query_names : forall O e u ps t t' out, ord_valid O ->
  t_url t = Some u -> form_pairs ps (u_rawquery u) ->
  fetch O e (VColl CArgsGetNames empty_filter) t = Ret (t', out) ->
  NoDup out /\ forall k, In k out <-> In k (map fst ps).
Proof.
  intros O e u ps t t' out V U F H. cbn [fetch fetch_coll] in H. rewrite U in H. apply Ret_inj in H.
  unfold filter_names in H. injection H as _ <-. rewrite no_filter_all. unfold url_query.
  rewrite (form_pairs_query _ _ _ F). simpl.
  pose proof (Permutation_map fst (V (t_tick t) _ (add_pairs ps []))) as P. split.
  - eapply Permutation_NoDup; [apply Permutation_sym; exact P|]. apply add_pairs_nodup. constructor.
  - intro k. rewrite <- (add_pairs_names ps k). split; apply Permutation_in; [exact P|now apply Permutation_sym].
Qed.
(** One name: exactly its values, in the order of the query string. *)
Theorem C17_query_one_name : forall O e u ps k t t' out, ord_valid O ->
  t_url t = Some u -> form_pairs ps (u_rawquery u) -> exact k ->
  (exists v, apply_calls O [Inc k] (VColl CArgsGet empty_filter) = Some v /\ fetch O e v t = Ret (t', out)) ->
  out = values_of k ps.
Proof.
  intros O e u ps k t t' out V U F X (v & A & H). apply exact_not_regex in X.
  cbn [apply_calls apply_call var_include] in A. unfold filter_include in A. rewrite X in A. injection A as <-.
  cbn [fetch fetch_coll] in H. rewrite U in H. apply Ret_inj in H.
  unfold filter_fetch in H. injection H as _ <-. unfold url_query.
  rewrite (form_pairs_query _ _ _ F). cbn [fst f_inc f_incre f_exc f_excre empty_filter app].
  destruct (one_filter O k (add_pairs ps [])) as [E L]; [apply add_pairs_nodup; constructor|].
  rewrite (perm_short _ _ _ (V _ _ _) L), E, add_pairs_assoc. reflexivity.
Qed.
Theorem C17_every_list_encodable : forall ps, exists q, form_pairs ps q.
Proof. exact form_pairs_exists. Qed.
Example C17_example : form_pairs [(B "a b", B "1&2"); (B "", B ""); (B "x", B "")] (B "a+b=1%262&&=&x").
Proof.
  change (B "a+b=1%262&&=&x") with (B "a+b=1%262" ++ "&"%char :: ("&"%char :: (B "=" ++ "&"%char :: B "x"))).
  apply fps_cons; [|apply fps_amp, fps_cons; [|apply fps_one]].
  - apply (fp_pair (B "a b") (B "1&2") (B "a+b") (B "1%262")).
    + repeat constructor; simpl; intuition discriminate.
    + apply ft_plain; [simpl; intuition discriminate|].
      apply (ft_hex "&" "2" "6" 2 6); try (split; [lia|vm_compute; auto]); try reflexivity.
      repeat constructor; simpl; intuition discriminate.
  - apply (fp_pair [] [] [] []); constructor.
  - apply fp_name; [|discriminate]. repeat constructor; simpl; intuition discriminate.
Qed.
Print Assumptions C17_query_values.
Print Assumptions C17_query_names.
Print Assumptions C17_query_one_name.

(** ** C18 *)
Theorem C18_cookie_values : forall O e lines ps t t' out, ord_valid O ->
  assoc (B "Cookie") (t_reqheader t) = Some lines -> cookie_lines ps lines ->
  fetch O e (VColl CRequestCookies empty_filter) t = Ret (t', out) -> Permutation out (map snd ps).
Proof.
  intros O e lines ps t t' out V L C H. cbn [fetch fetch_coll] in H. apply Ret_inj in H.
  unfold filter_fetch in H. injection H as _ <-. rewrite no_filter_all. unfold read_cookie. rewrite L.
  rewrite (cookie_lines_fold _ _ C). rewrite (Permutation_flat_map _ _ _ _ _ (V _ _ _)), add_pairs_values.
  simpl. now rewrite app_nil_r.
Qed.
Theorem C18_cookie_names : forall O e lines ps t t' out, ord_valid O ->
  assoc (B "Cookie") (t_reqheader t) = Some lines -> cookie_lines ps lines ->
  fetch O e (VColl CRequestCookiesNames empty_filter) t = Ret (t', out) ->
  NoDup out /\ forall k, In k out <-> In k (map fst ps).
Proof.
  intros O e lines ps t t' out V L C H. cbn [fetch fetch_coll] in H. apply Ret_inj in H.
  unfold filter_names in H. injection H as _ <-. rewrite no_filter_all. unfold read_cookie. rewrite L.
  rewrite (cookie_lines_fold _ _ C).
  pose proof (Permutation_map fst (V (t_tick t) _ (add_pairs ps []))) as P. split.
  - eapply Permutation_NoDup; [apply Permutation_sym; exact P|]. apply add_pairs_nodup. constructor.
  - intro k. rewrite <- (add_pairs_names ps k). split; apply Permutation_in; [exact P|now apply Permutation_sym].
Qed.
Lemma trimmed_ends : forall s c1 r1 c2 r2, s = c1 :: r1 -> s = r2 ++ [c2] ->
  code c1 <= 127 -> code c2 <= 127 -> ~ In c1 [TAB; LF; VT; FF; CR; SP] -> ~ In c2 [TAB; LF; VT; FF; CR; SP] ->
  trimmed s.
Proof.
  assert (K1 : forallb (fun e => match e with c :: _ => (127 <? code c) || existsb (Ascii.eqb c) [TAB; LF; VT; FF; CR; SP] | [] => false end) space_encs = true)
    by (vm_compute; reflexivity).
  assert (K2 : forallb (fun e => (127 <? code (last e NUL)) || existsb (Ascii.eqb (last e NUL)) [TAB; LF; VT; FF; CR; SP]) space_encs = true)
    by (vm_compute; reflexivity).
  rewrite forallb_forall in K1, K2.
  assert (EX : forall c l, existsb (Ascii.eqb c) l = true -> In c l).
  { intros c l H. apply existsb_exists in H as (x & I & E). apply Ascii.eqb_eq in E. now subst. }
  intros s c1 r1 c2 r2 E1 E2 L1 L2 N1 N2 w r W NE. apply white_encs in W as (ws & -> & F).
  split; intro Q.
  - destruct ws as [|x ws]; [easy|]. inversion F; subst. simpl in Q. specialize (K1 x H1). destruct x as [|c x]; [discriminate|].
    simpl in Q. injection Q as Q _. subst c. apply orb_true_iff in K1 as [K1|K1]; [lia|]. apply N1, EX, K1.
  - destruct ws as [|x ws] using rev_ind; [easy|]. clear IHws. apply Forall_app in F as [_ F]. inversion F; subst.
    rewrite concat_app in Q. simpl in Q. rewrite app_nil_r in Q. specialize (K2 x H1).
    destruct x as [|c x] using rev_ind; [apply space_encs_pos in H1; simpl in H1; lia|]. clear IHx.
    rewrite last_last in K2. rewrite E2, !app_assoc in Q. apply app_inj_tail in Q as [_ Q]. subst c.
    apply orb_true_iff in K2 as [K2|K2]; [lia|]. apply N2, EX, K2.
Qed.
Example C18_example : cookie_lines [(B "a", B "1=2"); (B "flag", B ""); (B "a", B "x y")]
  [B " a=1=2 ;; flag"; B "a=x y"].
Proof.
  assert (W : white [SP]) by (apply white_enc; vm_compute; tauto).
  assert (W0 : white []) by apply white_nil.
  apply (cls_cons [(B "a", B "1=2"); (B "flag", B "")] [(B "a", B "x y")] [B " a=1=2 "; B ""; B " flag"]).
  - apply (cps_cons (B "a", B "1=2") (B "a=1=2") _ [SP] [SP]); auto.
    + apply (ck_pair (B "a") (B "1=2")); try (simpl; intuition discriminate).
      apply (trimmed_ends _ "a" (B "=1=2") "2" (B "a=1=")); try reflexivity; try (vm_compute; discriminate); simpl; intuition discriminate.
    + apply cps_blank; auto. apply (cps_cons (B "flag", B "") (B "flag") _ [SP] []); auto; [|constructor].
      apply ck_name; try discriminate; try (simpl; intuition discriminate).
      apply (trimmed_ends _ "f" (B "lag") "g" (B "fla")); try reflexivity; try (vm_compute; discriminate); simpl; intuition discriminate.
  - apply (cls_cons [(B "a", B "x y")] [] [B "a=x y"]); [|constructor].
    apply (cps_cons (B "a", B "x y") (B "a=x y") _ [] []); auto; [|constructor].
    apply (ck_pair (B "a") (B "x y")); try (simpl; intuition discriminate).
    apply (trimmed_ends _ "a" (B "=x y") "y" (B "a=x ")); try reflexivity; try (vm_compute; discriminate); simpl; intuition discriminate.
Qed.
Print Assumptions C18_cookie_values.
Print Assumptions C18_cookie_names.

(** ** C19 *)
Theorem C19_basename : forall O e u t, t_url t = Some u ->
  exists s, fetch O e (VScalar SRequestBasename) t = Ret (t, [s]) /\ last_segment (u_path u) s /\
    (forall s', last_segment (u_path u) s' -> s' = s) /\
    s <> [] /\ (s = B "/" \/ Forall (fun c => ~ separator c) s).
Proof.
  intros O e u t U. exists (basename (u_path u)). cbn [fetch fetch_scalar]. rewrite U.
  pose proof (basename_last (u_path u)) as L. split; [reflexivity|]. split; [exact L|].
  split; [intros s' H; eapply last_segment_fun; eauto|].
  destruct L; split; auto; try discriminate.
Qed.
Example C19_example : last_segment (B "/a\b.php//") (B "b.php").
Proof.
  apply (ls_some (B "/a\") (B "b.php") (B "//")).
  - discriminate.
  - repeat constructor; intros [?|?]; discriminate.
  - repeat constructor.
  - right. exists (B "/a"), BSL. split; [reflexivity|now right].
Qed.
Print Assumptions C19_basename.

(** ** C20 *)
(** The request's body may be inspected. *)
Definition body_guard (O : oracles) (e : engine) (t : txn) (body : bs) : Prop :=
  body_method t /\ e_reqaccess e = true /\ body <> [] /\
  header_get (B "Content-Type") (t_reqheader t) <> [] /\
  fst (media_type O (header_get (B "Content-Type") (t_reqheader t))) = B "application/x-www-form-urlencoded".
Lemma request_body_core : forall O e t m l body,
  (mem_inv m l body (t_reqbody t) /\ zlen body <= m) \/ spill_inv m l body (t_reqbody t) ->
  (body_guard O e t body -> Z.of_nat (length body) <= m ->
     fetch O e (VScalar SRequestBody) t = Ret (t, [body])) /\
  (body_guard O e t body -> m < Z.of_nat (length body) ->
     exists t' i, fetch O e (VScalar SRequestBody) t = Ret (t', []) /\ t_abort t' = true /\
       t_iv t' = Some i /\ i_status i = 413 /\ i_disruptive i = true /\
       i_log i = i_log (get_iv t) ++ [log_prefix t ++ B "abort process with error out of memory limit"]) /\
  (~ body_guard O e t body -> fetch O e (VScalar SRequestBody) t = Ret (t, [])).
Proof.
  intros O e t m l body I.
  assert (LN : b_len (t_reqbody t) = zlen body) by (destruct I as [[(_ & A & _) _]|(_ & A & _)]; exact A).
  assert (Z0 : (buf_len (t_reqbody t) =? 0) = true <-> body = []).
  { unfold buf_len. rewrite LN. unfold zlen. destruct body; simpl; split; intro Q; try reflexivity; try discriminate; lia. }
  cbn [fetch fetch_scalar]. unfold fetch_request_body.
  assert (G : body_guard O e t body -> 
    (if negb (has_body_method t) then (t, []) else if negb (e_reqaccess e) || (buf_len (t_reqbody t) =? 0) then (t, [])
     else match header_get (B "Content-Type") (t_reqheader t) with [] => (t, [])
       | _ => if negb (bs_eqb (fst (media_type O (header_get (B "Content-Type") (t_reqheader t)))) (B "application/x-www-form-urlencoded"))
              then (t, []) else
          let '(b, bd, err) := buf_string (t_reqbody t) in
          let t := with_reqbody t b in
          match err with Some er => (abort_with_error 413 (berr_msg er) t, []) | None => (t, [bd]) end end)
    = let '(b, bd, err) := buf_string (t_reqbody t) in
          let t := with_reqbody t b in
          match err with Some er => (abort_with_error 413 (berr_msg er) t, []) | None => (t, [bd]) end).
  { intros (G1 & G2 & G3 & G4 & G5). apply has_body_method_iff in G1. rewrite G1, G2. cbn [negb orb].
    destruct (buf_len (t_reqbody t) =? 0) eqn:Q; [now rewrite (proj1 Z0 eq_refl) in G3|].
    rewrite G5, bs_eqb_refl. cbn [negb]. destruct (header_get _ _); [easy|reflexivity]. }
  split; [|split].
  - intros Gd L. f_equal. etransitivity; [apply G; exact Gd|].
    destruct I as [[(_ & _ & Me & Fi) _]|(_ & _ & Q & _)]; [|unfold zlen in Q; lia].
    rewrite mem_string by exact Fi. now rewrite with_reqbody_id, Me.
  - intros Gd L.
    destruct I as [[(_ & _ & Me & Fi) Q]|(_ & _ & Q & _ & Fi)]; [unfold zlen in Q; lia|].
    destruct (b_file (t_reqbody t)) as [f|] eqn:Ef; [|easy].
    eexists _, _. split; [f_equal; etransitivity; [apply G; exact Gd|]|].
    { unfold buf_string. destruct (b_file (init_read (t_reqbody t))) eqn:Q2; [reflexivity|].
      pose proof (init_read_keeps (t_reqbody t)) as (_ & _ & _ & KF & _). rewrite (proj1 KF Q2) in Ef. discriminate. }
    simpl. repeat split; reflexivity.
  - intro NG. f_equal.
    destruct (has_body_method t) eqn:G1; [|reflexivity]. destruct (e_reqaccess e) eqn:G2; [|reflexivity]. cbn [negb orb].
    destruct (buf_len (t_reqbody t) =? 0) eqn:G3; [reflexivity|].
    destruct (header_get (B "Content-Type") (t_reqheader t)) as [|c ct] eqn:G4; [reflexivity|].
    destruct (bs_eqb_spec (fst (media_type O (c :: ct))) (B "application/x-www-form-urlencoded")) as [G5|G5]; [|reflexivity].
    elim NG. unfold body_guard. rewrite <- has_body_method_iff, G4. repeat split; auto; [|discriminate].
    intro Q. apply Z0 in Q. congruence.
Qed.
Theorem C20_request_body : forall O e t m l os obs, 0 <= m -> fault_free os ->
  bruns os (new_buffer m l) = Ret (t_reqbody t, obs) ->
  let body := stream l os in
  (body_guard O e t body -> Z.of_nat (length body) <= m ->
     fetch O e (VScalar SRequestBody) t = Ret (t, [body])) /\
  (body_guard O e t body -> m < Z.of_nat (length body) ->
     exists t' i, fetch O e (VScalar SRequestBody) t = Ret (t', []) /\ t_abort t' = true /\
       t_iv t' = Some i /\ i_status i = 413 /\ i_disruptive i = true /\
       i_log i = i_log (get_iv t) ++ [log_prefix t ++ B "abort process with error out of memory limit"]) /\
  (~ body_guard O e t body -> fetch O e (VScalar SRequestBody) t = Ret (t, [])).
Proof.
  intros O e t m l os obs M FF R body.
  destruct (bruns_fault_free os m l [] (new_buffer m l) M FF (or_introl (conj (new_mem_inv m l) M)))
    as (b & obs' & R' & I). rewrite R in R'. injection R' as <- <-. fold (stream l os) in I. fold body in I.
  eapply request_body_core. exact I.
Qed.
Example C20_example : exists obs, 
  bruns [BWrite (B "a=1") NoFault; BRead 2; BWrite (B "&b=2") NoFault] (new_buffer 131072 134217728) =
    Ret (t_reqbody (demo_post "application/x-www-form-urlencoded" "a=1&b=2"), obs) /\
  body_guard (demo MpErr) (demo_engine new_ruleset) (demo_post "application/x-www-form-urlencoded" "a=1&b=2") (B "a=1&b=2").
Proof.
  eexists. split; [vm_compute; reflexivity|]. repeat split; try discriminate; try (vm_compute; reflexivity). now left.
Qed.
Print Assumptions C20_request_body.

(** ** C21: false of the code: a malformed field hides the whole body from the first
    evaluation. *)
Theorem C21_args_post_complete_refuted : exists O e t ps n t' out,
  ord_valid O /\ url_body O e (B "a=1&b=%zz") t /\ t_cache_url t = None /\
  form_mix ps n (B "a=1&b=%zz") /\ map snd ps = [B "1"] /\
  fetch O e (VColl CArgsPost empty_filter) t = Ret (t', out) /\ out = [] /\
  exists t'', fetch O e (VColl CArgsPost empty_filter) t' = Ret (t'', [B "1"]).
Proof.
  exists (demo MpErr), (demo_engine new_ruleset), (demo_post "application/x-www-form-urlencoded" "a=1&b=%zz"),
    [(B "a", B "1")], 1%nat.
  eexists _, _. split; [apply demo_ord|]. split; [|split; [vm_compute; reflexivity|split; [|split; [reflexivity|]]]].
  - split; [split; [now left|split; [reflexivity|vm_compute; discriminate]]|].
    split; [vm_compute; reflexivity|split; vm_compute; reflexivity].
  - change (B "a=1&b=%zz") with (B "a=1" ++ "&"%char :: B "b=%zz").
    apply fm_cons; [|apply fm_bad1].
    + apply (fp_pair (B "a") (B "1") (B "a") (B "1")); repeat constructor; simpl; intuition discriminate.
    + apply (bf (B "b=") (B "zz")); try (simpl; intuition discriminate). left. intros v Hv.
      apply TextFacts.hexdigit_ishex in Hv as [Hv _]. discriminate.
  - split; [vm_compute; reflexivity|]. split; [reflexivity|]. eexists. vm_compute. reflexivity.
Qed.
(** True for bodies without malformed fields, after any evaluations; and for every
    body once ARGS_POST was evaluated before. *)
Lemma C21_core : forall O e ps n body t t' out, ord_valid O ->
  url_body O e body t -> cache_coherent O body t -> form_mix ps n body ->
  n = 0%nat \/ t_cache_url t <> None ->
  fetch O e (VColl CArgsPost empty_filter) t = Ret (t', out) -> Permutation out (map snd ps).
Proof.
  intros O e ps n body t t' out V U C F N H. cbn [fetch fetch_coll] in H. unfold fetch_post in H.
  rewrite (url_parse _ _ _ _ U) in H.
  assert (UM : url_map O body = add_pairs ps []) by (unfold url_map; now rewrite (form_mix_query _ _ _ _ F)).
  assert (VP : forall k, Permutation (flat_map snd (ord O k _ (fetch_with_names O empty_filter (add_pairs ps [])))) (map snd ps)).
  { intro k. rewrite no_filter_all, (Permutation_flat_map _ _ _ _ _ (V _ _ _)), add_pairs_values. simpl. now rewrite app_nil_r. }
  destruct C as [C|C]; rewrite C in *.
  - destruct N as [->|N]; [|easy]. rewrite (form_mix_query _ _ _ _ F) in H. cbn in H. apply Ret_inj in H.
    injection H as _ <-. rewrite UM. apply VP.
  - cbn [bind] in H. apply Ret_inj in H. unfold filter_fetch in H. injection H as _ <-. rewrite UM. apply VP.
Qed.
Theorem C21_args_post_complete_partial : forall O e ps body vs t t1 raw t' out, ord_valid O ->
  url_body O e body t -> t_cache_url t = None -> form_pairs ps body ->
  fetched O e vs t t1 raw ->
  fetch O e (VColl CArgsPost empty_filter) t1 = Ret (t', out) -> Permutation out (map snd ps).
Proof.
  intros O e ps body vs t t1 raw t' out V U C F H G.
  assert (FM : form_mix ps 0 body) by (clear -F; induction F; econstructor; eauto).
  pose proof (fetched_frame _ _ _ _ _ _ H) as FR.
  destruct U as (P & X & Fi & Me).
  eapply (C21_core O e ps 0 body t1); eauto.
  - eapply frame_url_body; [exact FR|]. repeat split; auto; apply P.
  - eapply fetched_coherent; eauto. now left.
Qed.
Theorem C21_args_post_complete_malformed_partial : forall O e ps n body vs1 f vs2 t t1 raw t' out, ord_valid O ->
  url_body O e body t -> t_cache_url t = None -> form_mix ps n body ->
  fetched O e (vs1 ++ VColl CArgsPost f :: vs2) t t1 raw ->
  fetch O e (VColl CArgsPost empty_filter) t1 = Ret (t', out) -> Permutation out (map snd ps).
Proof.
  intros O e ps n body vs1 f vs2 t t1 raw t' out V U C F H G.
  pose proof (fetched_frame _ _ _ _ _ _ H) as FR.
  assert (CO : cache_coherent O body t1) by (destruct U as (P & X & Fi & Me); eapply fetched_coherent; eauto; now left).
  eapply (C21_core O e ps n body t1); eauto; [eapply frame_url_body; eauto|]. right.
  assert (CC : cache_coherent O body t) by now left.
  clear C G FR CO F V. revert t raw U H CC. induction vs1 as [|v vs1 IH]; intros t raw U H CC; cbn [app] in H.
  - inversion H as [|v0 w0 s0 s1 s2 a b Hv Hvs]; subst.
    assert (K : t_cache_url s1 <> None).
    { cbn [fetch fetch_coll] in Hv. unfold fetch_post in Hv. rewrite (url_parse _ _ _ _ U) in Hv.
      destruct CC as [CC|CC]; rewrite CC in Hv.
      - destruct (snd (parse_query (semi_sep O) body)); cbn in Hv; apply Ret_inj in Hv; injection Hv as <- _; simpl; discriminate.
      - cbn in Hv. apply Ret_inj in Hv; injection Hv as <- _; simpl. congruence. }
    apply cached_fetched in Hvs as [Q _]. destruct (t_cache_url s1) as [i|]; [|easy]. rewrite (Q i eq_refl). discriminate.
  - inversion H as [|v0 w0 s0 s1 s2 a b Hv Hvs]; subst. 
    assert (UC := U). destruct UC as (_ & _ & Fi & Me).
    eapply IH; [|exact Hvs|exact (coherent_fetch _ _ _ _ _ _ _ Fi Me CC Hv)].
    eapply frame_url_body; [eapply frame_fetch; eauto|exact U].
Qed.
Example C21_partial_example : exists t1 raw,
  fetched (demo MpErr) (demo_engine new_ruleset) [VColl CArgsPostNames empty_filter; VScalar SRequestBody]
    (demo_post "application/x-www-form-urlencoded" "a=1") t1 raw /\
  url_body (demo MpErr) (demo_engine new_ruleset) (B "a=1") (demo_post "application/x-www-form-urlencoded" "a=1").
Proof.
  eexists _, _. split.
  - eapply fd_cons; [vm_compute; reflexivity|]. eapply fd_cons; [vm_compute; reflexivity|]. constructor.
  - split; [split; [now left|split; [reflexivity|vm_compute; discriminate]]|].
    split; [vm_compute; reflexivity|split; vm_compute; reflexivity].
Qed.
Print Assumptions C21_args_post_complete_refuted.
Print Assumptions C21_args_post_complete_partial.
Print Assumptions C21_args_post_complete_malformed_partial.

(** ** C22: false of the code: after a failed multipart parse, listing the names of
    body arguments dereferences a nil form. *)
Theorem C22_no_panic_refuted : exists O e t t' out,
  ord_valid O /\ t = demo_post "multipart/form-data" "garbage" /\
  fetch O e (VColl CArgsPost empty_filter) t = Ret (t', out) /\
  fetch O e (VColl CArgsPostNames empty_filter) t' = Panic.
Proof.
  exists (demo MpErr), (demo_engine new_ruleset). eexists _, _, _. split; [apply demo_ord|]. split; [reflexivity|].
  split; vm_compute; reflexivity.
Qed.
(** The exact condition. *)
Theorem C22_no_panic_partial : forall O e v t, fetch O e v t = Panic <->
  lists_post_names v = true /\ parses e t /\ has_prefix (B "multipart/") (ctype O t) = true /\
  t_cache_mp t = Some (IForm None).
Proof. exact fetch_panic. Qed.
(** No panic in any history from a fresh parse state if the multipart parser reports no error. *)
Theorem C22_no_panic_without_form_error_partial : forall O e vs t t' raw v,
  (forall b bd m, fst (multipart O b bd m) <> MpErr) -> t_cache_mp t = None ->
  fetched O e vs t t' raw -> fetch O e v t' <> Panic.
Proof.
  intros O e vs t t' raw v M C F H. apply fetch_panic in H as (_ & _ & _ & H).
  eapply no_form_error_fetched in F; eauto. rewrite C. discriminate.
Qed.
Example C22_partial_example : exists t' raw, fetched (demo (MpOk [(B "a", [B "1"])])) (demo_engine new_ruleset)
  [VColl CArgsPost empty_filter; VArgsNames empty_filter empty_filter] (demo_post "multipart/form-data" "x") t' raw.
Proof. eexists _, _. eapply fd_cons; [vm_compute; reflexivity|]. eapply fd_cons; [vm_compute; reflexivity|]. constructor. Qed.
Print Assumptions C22_no_panic_refuted.
Print Assumptions C22_no_panic_partial.
Print Assumptions C22_no_panic_without_form_error_partial.

(** ** C23: false of the code in two ways: bytes appended after the first evaluation are
    never seen, and a malformed body changes from nothing to its well-formed part (C21). *)
Theorem C23_cache_reflects_body_refuted : exists O e t t1 out1 t2 er t3 out3,
  ord_valid O /\ t = demo_post "application/x-www-form-urlencoded" "a=1" /\
  fetch O e (VColl CArgsPost empty_filter) t = Ret (t1, out1) /\
  step 0 O e new_ruleset (OpAppendRequestBody (B "&b=2") NoFault) t1 = Ret (t2, ObsErr er) /\ er = None /\
  fetch O e (VColl CArgsPost empty_filter) t2 = Ret (t3, out3) /\
  url_body O e (B "a=1&b=2") t2 /\ out3 = [B "1"].
Proof.
  exists (demo MpErr), (demo_engine new_ruleset). eexists _, _, _, _, _, _, _. split; [apply demo_ord|]. split; [reflexivity|].
  split; [vm_compute; reflexivity|]. split; [vm_compute; reflexivity|]. split; [reflexivity|]. split; [vm_compute; reflexivity|].
  split; [|reflexivity]. split; [split; [now left|split; [reflexivity|vm_compute; discriminate]]|].
  split; [vm_compute; reflexivity|split; vm_compute; reflexivity].
Qed.
(** A successful parse is returned by every later parse, whatever is evaluated in between. *)
Theorem C23_parse_result_stable_partial : forall O e t t1 tp i vs t2 raw,
  request_body_parse O e t = Ret (t1, Some (tp, i)) -> fetched O e vs t1 t2 raw ->
  request_body_parse O e t2 = Ret (t2, Some (tp, i)).
Proof.
  intros O e t t1 tp i vs t2 raw H F.
  assert (P : parses e t) by (destruct (parses_dec e t) as [P|P]; [exact P|rewrite body_parse_skip in H by exact P; discriminate]).
  pose proof (frame_body_parse _ _ _ _ _ H) as F1. pose proof (fetched_frame _ _ _ _ _ _ F) as F2.
  apply parse_result_cached in H as (C & N & PF).
  apply cached_parse_again; auto.
  - eapply frame_parses; [exact F2|]. eapply frame_parses; eauto.
  - now rewrite (frame_ctype _ _ _ F2), (frame_ctype _ _ _ F1).
  - apply cached_fetched in F as [K1 K2]. destruct tp; [apply K1|apply K2]; exact C.
Qed.
(** Hence ARGS_POST with the same selectors returns the same values, up to order. *)
Theorem C23_same_content_partial : forall O e f t t1 t1' tp i out1 vs t2 raw t3 out3, ord_valid O ->
  request_body_parse O e t = Ret (t1', Some (tp, i)) ->
  fetch O e (VColl CArgsPost f) t = Ret (t1, out1) -> fetched O e vs t1 t2 raw ->
  fetch O e (VColl CArgsPost f) t2 = Ret (t3, out3) -> Permutation out1 out3.
Proof.
  intros O e f t t1 t1' tp i out1 vs t2 raw t3 out3 V R F1 H F3.
  cbn [fetch fetch_coll] in F1. unfold fetch_post in F1. rewrite R in F1. cbn [bind] in F1.
  assert (R2 : request_body_parse O e t2 = Ret (t2, Some (tp, i))).
  { destruct tp, i as [|m|[m|]];
    try (apply Ret_inj in F1; injection F1 as <- _; eapply C23_parse_result_stable_partial; eauto; fail);
    apply Ret_inj in F1; unfold filter_fetch in F1; injection F1 as <- _.
    - pose proof (frame_body_parse _ _ _ _ _ R) as Fa. pose proof (fetched_frame _ _ _ _ _ _ H) as Fb.
      pose proof (frame_trans _ _ _ Fa (frame_trans _ _ _ (frame_tick t1') Fb)) as Fc.
      assert (P : parses e t) by (destruct (parses_dec e t) as [P|P]; [exact P|rewrite body_parse_skip in R by exact P; discriminate]).
      apply parse_result_cached in R as (C & N & PF). apply cached_parse_again; auto.
      + eapply frame_parses; eauto.
      + now rewrite (frame_ctype _ _ _ Fc).
      + apply cached_fetched in H as [K1 K2]. apply K1, C.
    - pose proof (frame_body_parse _ _ _ _ _ R) as Fa. pose proof (fetched_frame _ _ _ _ _ _ H) as Fb.
      pose proof (frame_trans _ _ _ Fa (frame_trans _ _ _ (frame_tick t1') Fb)) as Fc.
      assert (P : parses e t) by (destruct (parses_dec e t) as [P|P]; [exact P|rewrite body_parse_skip in R by exact P; discriminate]).
      apply parse_result_cached in R as (C & N & PF). apply cached_parse_again; auto.
      + eapply frame_parses; eauto.
      + now rewrite (frame_ctype _ _ _ Fc).
      + apply cached_fetched in H as [K1 K2]. apply K2, C. }
  cbn [fetch fetch_coll] in F3. unfold fetch_post in F3. rewrite R2 in F3. cbn [bind] in F3.
  destruct tp, i as [|m|[m|]]; apply Ret_inj in F1, F3; unfold filter_fetch in F1, F3; injection F1 as _ <-; injection F3 as _ <-;
  try constructor; rewrite (Permutation_flat_map _ _ _ _ _ (V (t_tick t1') _ _)); apply Permutation_sym, Permutation_flat_map, V.
Qed.
Example C23_partial_example : exists t1 i t2 raw,
  request_body_parse (demo MpErr) (demo_engine new_ruleset) (demo_post "application/x-www-form-urlencoded" "a=1") =
    Ret (t1, Some (BUrlencoded, i)) /\
  fetched (demo MpErr) (demo_engine new_ruleset) [VColl CArgsPostNames empty_filter; VScalar SRequestBody] t1 t2 raw.
Proof.
  eexists _, _, _, _. split; [vm_compute; reflexivity|].
  eapply fd_cons; [vm_compute; reflexivity|]. eapply fd_cons; [vm_compute; reflexivity|]. constructor.
Qed.
Print Assumptions C23_cache_reflects_body_refuted.
Print Assumptions C23_parse_result_stable_partial.
Print Assumptions C23_same_content_partial.

(** ** C24 *)
Theorem C24_request_uri : forall O e u1 u2 t1 t2 o1 o2 s1 s2,
  t_url t1 = Some u1 -> t_url t2 = Some u2 ->
  u_path u1 = u_path u2 -> u_rawquery u1 = u_rawquery u2 -> u_rest u1 = u_rest u2 ->
  fetch O e (VScalar SRequestUri) t1 = Ret (s1, o1) -> fetch O e (VScalar SRequestUri) t2 = Ret (s2, o2) ->
  o1 = o2 /\ o1 = [url_string O (Url [] [] None [] (u_path u1) (u_rawquery u1) (u_rest u1))].
Proof.
  intros O e u1 u2 t1 t2 o1 o2 s1 s2 U1 U2 P Q R F1 F2. cbn [fetch fetch_scalar] in F1, F2. rewrite U1 in F1. rewrite U2 in F2.
  apply Ret_inj in F1, F2. injection F1 as _ <-. injection F2 as _ <-. unfold request_uri. rewrite P, Q, R. auto.
Qed.
Theorem C24_fetch_leaves_request : forall O e v t t' out, fetch O e v t = Ret (t', out) ->
  t_url t' = t_url t /\ t_method t' = t_method t /\ t_reqheader t' = t_reqheader t /\
  t_reqproto t' = t_reqproto t /\ t_srcip t' = t_srcip t /\ t_srcport t' = t_srcport t /\
  t_dstip t' = t_dstip t /\ t_dstport t' = t_dstport t.
Proof.
  intros O e v t t' out H. apply frame_fetch in H as (R & _). unfold request_part in R.
  injection R as R1 R2 R3 R4 R5 R6 R7 R8. auto 10.
Qed.
Example C24_example : exists t' ,
  fetch (demo MpErr) (demo_engine new_ruleset) (VScalar SRequestUri)
    (with_request (demo_post "x" "") (Some (Url (B "http") [] (Some (B "u")) (B "h") (B "/p") (B "q=1") [])) (B "GET") []) =
  Ret (t', [B "/p?q=1"]).
Proof. eexists. vm_compute. reflexivity. Qed.
Print Assumptions C24_request_uri.
Print Assumptions C24_fetch_leaves_request.
