(** The text of the rules, whatever actions they take, against the texts of a whole exchange. *)
From Verif Require PropScript.
From Verif Require Import Base BaseFacts GoStrings Utils Buffer BufferFacts SpecBuffer Types Transforms Operators Transaction Variables Rules Engine
  SpecText NumFacts TextFacts TransFacts SpecVars VarText VarFacts BodyFacts SpecRules PropText PropVars RuleFacts Scanner Registry Loader SpecParse ParseFacts ParseLists ParseFiles ParsePrint
  SpecLoad LoadFacts SpecTxn TxnFacts LoopFacts Witness PropRules PropPhases PropTxn PropLoad PropEnd SpecData PropData SpecQuery PropQuery SpecGate PropGate SpecHang PropHang SpecAccount PropAccount PropSafe PropFile SpecBody PropBody SpecVerdict PropVerdict
  SpecAnswer PropAnswer SpecReply PropReply PropReturn PropComplete Regex SpecRegex PropRegex Uri SpecUri PropUri Media SpecMedia PropMedia Multi SpecMulti PropMulti SpecFilter PropFilter SpecExchange PropExchange PropTotal SpecCourse.
From Coq Require Import ZifyBool.

Lemma same_pairs : forall A (l m : list A), (forall x, In x l -> In x m) -> Forall2 (fun x y => x = y /\ In y m) l l.
Proof. intros A l. induction l as [|z l IH]; intros m G; constructor; [split; [reflexivity|apply G; now left]|apply IH; intros; apply G; now right]. Qed.
Lemma course_snoc : forall O ds rq fs txt rp port ps p k, course O ds rq fs txt rp port (ps ++ [p]) k ->
  exists k0, course O ds rq fs txt rp port ps k0 /\ ((k_phase k0 < p /\ phase_plays O ds rq fs txt rp port p (at_phase p k0) k) \/ (p <= k_phase k0 /\ k = k0)).
Proof.
  intros O ds rq fs txt rp port ps p k H. inversion H as [E|ps' p' k0 k' C L R E|ps' p' k0 C L E].
  - now destruct ps.
  - apply app_inj_tail in E as (-> & ->). subst k'. exists k0. split; [exact C|]. left. now split.
  - apply app_inj_tail in E as (-> & ->). subst k0. exists k. split; [exact C|]. right. now split.
Qed.
Lemma answers_snoc : forall bl i, answers (bl ++ [ObsResult i]) = answers bl ++ [i].
Proof. intros. unfold answers. now rewrite flat_map_app. Qed.
Lemma answers_quiet : forall f O e rs os t t' bl, Forall feeding os -> steps f O e rs os t = Ret (t', bl) -> answers bl = [].
Proof.
  intros f O e rs os. induction os as [|o os IH]; intros t t' bl F H.
  - apply Ret_inj in H. now injection H as _ <-.
  - apply steps_cons in H as (t1 & b1 & bl' & S & H & ->). inversion F as [|? ? F1 F2]; subst. change (b1 :: bl') with ([b1] ++ bl'). unfold answers. rewrite flat_map_app. fold (answers bl').
    rewrite (IH _ _ _ F2 H), app_nil_r. destruct (op_phase o) as [p|] eqn:P.
    + rewrite (step_phase _ _ _ _ _ _ p P) in S. apply bind_Ret in S as (t2 & _ & S). apply Ret_inj in S. now injection S as _ <-.
    + destruct o; try discriminate; try easy; cbn [Engine.step] in S; try (apply bind_Ret in S as ([[x n] er] & _ & S)); apply Ret_inj in S; now injection S as _ <-.
Qed.

Lemma story_result : forall D R os k x li, story D R os k x li -> forall a, os = a ++ [OpResult] ->
  exists k0 x0 li0, story D R a k0 x0 li0 /\ li = li0 ++ [answer (k_reply k0)].
Proof.
  intros D R os k x li H a E. destruct H as [|a' o p s k k1 li H P L X Y|a' o p k li H P L|a' o p k x li H P L|a' o k x li H P F|a' s k x li H|a' k x li H].
  1: now destruct a.
  all: apply app_inj_tail in E as (-> & E); try (subst o; discriminate || contradiction); try discriminate.
  eauto 6.
Qed.

Section Course.
Variables (fuel : nat) (O : oracles) (n : nat) (text : bs) (ds : list directive) (l : list dire).
Hypothesis OV : ord_valid O.
Hypothesis UL : uri_library O.
Hypothesis ML : media_library O.
Hypothesis MU : multipart_library O.
Hypothesis FT : file_text ds text.
Hypothesis LD : new_direset fuel O n text = Ret (Some l).
Hypothesis TI : timely ds.
Let e := execute l new_engine.
Let rs := e_ruleset e.
Variables (f : nat) (rq : request) (port ip2 port2 : bs) (u : url) (pieces : list bs) (fs : list (bs * bs)) (txt : list bs) (rp : response) (pieces' : list bs).
Hypothesis FU : (length ds + 2 <= f)%nat.
Hypothesis PT : parse_target (q_target rq) = Some u.
Hypothesis BE : q_body rq = concat pieces.
Hypothesis LB : Z.of_nat (length (q_body rq)) <= 131072.
Hypothesis BF : body_fields (last (body_switches ds) false) rq fs txt.
Hypothesis RE : r_body rp = concat pieces'.
Hypothesis LR : Z.of_nat (length (r_body rp)) <= 524228.
Hypothesis TY : typed rp.
Let calls := exchange_calls rq port ip2 port2 u pieces rp pieces'.
Let C := course O ds rq fs txt rp port.

Lemma calls_feed : Forall feeding calls.
Proof. unfold calls, exchange_calls. apply Forall_app. split; [apply pre_feeding|]. eapply Forall_impl; [|exact (later_after rp pieces')]. intros []; cbn; easy. Qed.
Lemma plays_iff : forall a o b p t c k k', calls = a ++ o :: b -> op_phase o = Some p -> steps f O e rs a (new_txn e) = Ret (t, c) ->
  (text_plays O e ds p (given o t) k k' <-> phase_plays O ds rq fs txt rp port p k k').
Proof.
  intros a o b p t c k k' Q P S. destruct (address_known O l f rq port ip2 port2 u pieces rp pieces' a o b p t c Q P S) as (E1 & E2). unfold text_plays. fold e in E1, E2. rewrite E1, E2.
  assert (M : forall cs z, chains ds cs -> In z (List.filter (in_phase p) cs) -> (Forall (written_matches O e (given o t)) z <-> Forall (holds_in O ds rq fs txt rp) z)).
  { intros cs z CH I. apply filter_In in I as (I & IP). apply (chain_in_iff _ _ CH) in I. destruct z as [|w z]; [discriminate IP|]. cbn [in_phase] in IP.
    assert (PH : pas_phase (w_acts w) = p) by (clear -IP; lia). rewrite !Forall_forall.
    assert (RS : forall w', In w' (w :: z) -> (written_matches O e (given o t) w' <-> holds_in O ds rq fs txt rp w')) by (intros w' J; eapply rules_see; eauto).
    clear -RS. split; intros K w' J; apply RS; auto. }
  split; intros (cs & CH & R); exists cs; (split; [exact CH|]);
    (eapply (plays_along _ _ _ _ _ _ (fun x y => x = y /\ In y (List.filter (in_phase p) cs))); [| | |exact R]).
  1, 4: intros x z (-> & I); pose proof (M _ _ CH I) as X; tauto.
  1, 3: intros x z y (-> & _) K; exact K.
  all: apply same_pairs; auto.
Qed.
Lemma reads : forall a b, calls = a ++ b -> forall a' o b' p t c, a = a' ++ o :: b' -> op_phase o = Some p -> steps f O e rs a' (new_txn e) = Ret (t, c) -> t_phase t < p -> t_abort t = false ->
  bodiless ds p \/ readable O e (given o t).
Proof.
  intros a b Q a' o b' p t c Q' P S _ _. rewrite Q', <- app_assoc in Q. cbn [app] in Q.
  exact (later_phases_read fuel O n text ds l OV ML MU FT LD TI f rq port ip2 port2 u pieces fs txt rp pieces' BE LB BF a' o (b' ++ b) p t c Q P S).
Qed.
Lemma reads_result : forall a b, calls = a ++ b -> forall a' o b' p t c, a ++ [OpResult] = a' ++ o :: b' -> op_phase o = Some p -> steps f O e rs a' (new_txn e) = Ret (t, c) -> t_phase t < p -> t_abort t = false ->
  bodiless ds p \/ readable O e (given o t).
Proof. intros a b Q a' o b' p t c Q' P. destruct (phase_before_result _ _ _ _ _ Q' P) as (b2 & E). apply (reads a b Q a' o b2 p t c E P). Qed.
Lemma story_course : forall a k x li, story (in_run f O e rs) (text_plays O e ds) a k x li -> forall b, calls = a ++ b -> x = false /\ li = [] /\ C (phases_of a) k.
Proof.
  intros a k x li H. induction H as [|a o p s k k1 li H IH P L X Y|a o p k li H IH P L|a o p k x li H IH P L|a o k x li H IH P F|a s k x li H IH|a k x li H IH]; intros b Q.
  1: split; [reflexivity|]; split; [reflexivity|constructor].
  all: rewrite <- app_assoc in Q; cbn [app] in Q; destruct (IH _ Q) as (X1 & X2 & X3); clear IH.
  - do 2 (split; [assumption|]). rewrite phases_of_app. replace (phases_of [o]) with [p] by (unfold phases_of; cbn [flat_map]; now rewrite P).
    eapply co_phase; [exact X3|exact L|]. destruct X as (t & c & S & ->). eapply plays_iff; eauto.
  - discriminate.
  - do 2 (split; [assumption|]). rewrite phases_of_app. replace (phases_of [o]) with [p] by (unfold phases_of; cbn [flat_map]; now rewrite P). now apply co_passed.
  - do 2 (split; [assumption|]). rewrite phases_of_app. replace (phases_of [o]) with (@nil Z) by (unfold phases_of; cbn [flat_map]; now rewrite P). now rewrite app_nil_r.
  - pose proof calls_feed as F. rewrite Q in F. apply Forall_app in F as (_ & F). inversion F; contradiction.
  - pose proof calls_feed as F. rewrite Q in F. apply Forall_app in F as (_ & F). inversion F; contradiction.
Qed.
Lemma course_story : forall a b k, calls = a ++ b -> C (phases_of a) k -> story (in_run f O e rs) (text_plays O e ds) a k false [].
Proof.
  intros a. induction a as [|o a IH] using rev_ind; intros b k Q H.
  - inversion H as [E|ps p k0 k' _ _ _ E|ps p k0 _ _ E]; [constructor|now destruct ps|now destruct ps].
  - rewrite <- app_assoc in Q. cbn [app] in Q. rewrite phases_of_app in H. destruct (op_phase o) as [p|] eqn:P.
    + replace (phases_of [o]) with [p] in H by (unfold phases_of; cbn [flat_map]; now rewrite P). apply course_snoc in H as (k0 & H & R). specialize (IH _ _ Q H).
      destruct R as [(L & R)|(L & ->)]; [|eapply so_late; eauto].
      destruct (proj2 (C95_settled_answers_exactly fuel O n text ds l OV FT LD f a [] FU (reads a _ Q))) as (t & bl & S & _); [eauto|].
      eapply so_phase; [exact IH|exact P|exact L|exists t, bl; split; [exact S|reflexivity]|]. eapply plays_iff; eauto.
    + replace (phases_of [o]) with (@nil Z) in H by (unfold phases_of; cbn [flat_map]; now rewrite P). rewrite app_nil_r in H. apply so_data; [eapply IH; eauto|exact P|].
      pose proof calls_feed as F. rewrite Q in F. apply Forall_app in F as (_ & F). now inversion F.
Qed.
Lemma exchange_exactly : forall a b i, calls = a ++ b ->
  (exists t bl, steps f O e rs (a ++ [OpResult]) (new_txn e) = Ret (t, bl ++ [ObsResult i])) <-> (exists k, C (phases_of a) k /\ i = answer (k_reply k)).
Proof.
  intros a b i Q. pose proof (C95_settled_answers_exactly fuel O n text ds l OV FT LD f (a ++ [OpResult]) [i] FU (reads_result a b Q)) as X. fold e rs in X. split.
  - intros (t & bl & H). assert (A : answers bl = []).
    { pose proof H as H0. apply steps_app in H as (t1 & b1 & b2 & S1 & S2 & E). apply steps_cons in S2 as (t2 & b3 & b4 & _ & S2 & ->). apply Ret_inj in S2. injection S2 as _ <-.
      apply app_inj_tail in E as (-> & _). eapply answers_quiet; [|exact S1]. pose proof calls_feed as F. rewrite Q in F. now apply Forall_app in F. }
    destruct (proj1 X) as (k & x & S); [exists t, (bl ++ [ObsResult i]); split; [exact H|]; now rewrite answers_snoc, A|].
    destruct (story_result _ _ _ _ _ _ S a eq_refl) as (k0 & x0 & li & H1 & E). destruct (story_course _ _ _ _ H1 _ Q) as (_ & -> & K). exists k0. split; [exact K|]. cbn [app] in E. congruence.
  - intros (k & K & ->). pose proof (course_story _ _ _ Q K) as S. apply so_result in S. cbn [app] in S.
    destruct (proj2 X) as (t & bl & H & A); [eauto|].
    pose proof H as H0. apply steps_app in H0 as (t1 & b1 & b2 & S1 & S2 & ->). apply steps_cons in S2 as (t2 & b3 & b4 & S3 & S2 & ->). apply Ret_inj in S2. injection S2 as _ <-.
    cbn [Engine.step] in S3. apply Ret_inj in S3. injection S3 as _ <-. rewrite answers_snoc in A.
    assert (A1 : answers b1 = []) by (eapply answers_quiet; [|exact S1]; pose proof calls_feed as F; rewrite Q in F; now apply Forall_app in F).
    rewrite A1 in A. injection A as <-. eauto.
Qed.
Lemma exchange_never_panics : forall a b, calls = a ++ b -> steps f O e rs (a ++ [OpResult]) (new_txn e) <> Panic.
Proof.
  intros a b Q. pose proof (C65_execute l new_engine) as (_ & _ & _ & _ & _ & _ & _ & MM & _). fold e in MM.
  apply C78_settled_calls_never_panic; [exact OV| | |].
  - apply (loaded_armed fuel O n text l new_engine LD). intros p r q [].
  - left. rewrite MM. discriminate.
  - exact (text_settled fuel O n text ds l OV FT LD f _ (reads_result a b Q)).
Qed.
Lemma exchange_ends : forall a b, no_way_back ds -> calls = a ++ b -> steps f O e rs (a ++ [OpResult]) (new_txn e) <> Timeout.
Proof.
  intros a b NW Q. pose proof (C65_execute l new_engine) as (_ & _ & _ & _ & _ & DF & _ & MM & _). fold e rs in DF, MM.
  rewrite <- (calls_calm f O e rs _ OV (text_settled fuel O n text ds l OV FT LD f _ (reads_result a b Q))).
  apply C32_no_way_back_terminates_partial.
  - intros p r x P I CA. apply (text_phase l p r P) in I as [I R]. destruct (text_chains fuel O n text ds l FT LD) as [T1 _]. destruct (T1 r I) as (c & CI & CH).
    pose proof CH as (w & c' & -> & _). rewrite <- R, (chain_phase O OV _ _ _ CH). apply (NW w c' _ CI). rewrite DF in CA. eapply chain_actions_words; [exact OV| |exact (chain_members _ _ _ CH)].
    clear -CA. inversion CA as [|r0 rr l1 l2 RA CR]; subst. constructor; [exact RA|exact CR].
  - rewrite DF. easy.
  - right. intros b0 bd m. apply calm_ok.
  - exact (text_fits fuel O n text ds l FT LD f FU).
Qed.
End Course.

(** ** C95 *)
(** The result fetched at any moment of an exchange, under rules with any actions: it is what
    the course of the exchange through the text says; and where there is no such course
    the calls never come to an end. *)
Theorem C95_any_exchange_exactly : forall fuel O n text ds l, ord_valid O -> uri_library O -> media_library O -> multipart_library O ->
  file_text ds text -> new_direset fuel O n text = Ret (Some l) -> timely ds ->
  let e := execute l new_engine in
  forall f rq port ip2 port2 u pieces fields body rp pieces', (length ds + 2 <= f)%nat ->
  parse_target (q_target rq) = Some u -> q_body rq = concat pieces -> Z.of_nat (length (q_body rq)) <= 131072 ->
  body_fields (last (body_switches ds) false) rq fields body ->
  r_body rp = concat pieces' -> Z.of_nat (length (r_body rp)) <= 524228 -> typed rp ->
  forall a b i, exchange_calls rq port ip2 port2 u pieces rp pieces' = a ++ b ->
  (exists t bl, steps f O e (e_ruleset e) (a ++ [OpResult]) (new_txn e) = Ret (t, bl ++ [ObsResult i])) <->
  (exists k, course O ds rq fields body rp port (phases_of a) k /\ i = answer (k_reply k)).
Proof.
  intros fuel O n text ds l OV UL ML MU FT LD TI e f rq port ip2 port2 u pieces fs txt rp pieces' FU PT BE LB BF RE LR TY a b i Q.
  exact (exchange_exactly fuel O n text ds l OV UL ML MU FT LD TI f rq port ip2 port2 u pieces fs txt rp pieces' FU PT BE LB BF RE LR TY a b i Q).
Qed.
Theorem C95_course_unique : forall O ds rq fields body rp port ps k k',
  course O ds rq fields body rp port ps k -> course O ds rq fields body rp port ps k' -> k' = k.
Proof.
  intros O ds rq fs txt rp port ps k k' H. revert k'. induction H as [|ps p k k1 H IH L R|ps p k H IH L]; intros k' K.
  - inversion K as [E|ps p k0 k1 _ _ _ E|ps p k0 _ _ E]; [reflexivity|now destruct ps|now destruct ps].
  - apply course_snoc in K as (k0 & K & [(L' & R')|(L' & ->)]); apply IH in K; subst k0; [|lia].
    destruct R as (cs & C & R), R' as (cs' & C' & R'). rewrite (chains_fun _ _ C _ C') in R'. eapply plays_one; [|exact R'|exact R]. intros c x x' X Z. eapply takes_fun; eauto.
  - apply course_snoc in K as (k0 & K & [(L' & R')|(L' & ->)]); apply IH in K; subst k0; [lia|reflexivity].
Qed.
(** Texts with no way back answer every exchange at every moment. *)
Theorem C95_any_exchange_answered : forall fuel O n text ds l, ord_valid O -> uri_library O -> media_library O -> multipart_library O ->
  file_text ds text -> new_direset fuel O n text = Ret (Some l) -> timely ds -> no_way_back ds ->
  let e := execute l new_engine in
  forall f rq port ip2 port2 u pieces fields body rp pieces', (length ds + 2 <= f)%nat ->
  parse_target (q_target rq) = Some u -> q_body rq = concat pieces -> Z.of_nat (length (q_body rq)) <= 131072 ->
  body_fields (last (body_switches ds) false) rq fields body ->
  r_body rp = concat pieces' -> Z.of_nat (length (r_body rp)) <= 524228 -> typed rp ->
  forall a b, exchange_calls rq port ip2 port2 u pieces rp pieces' = a ++ b ->
  exists k t bl, course O ds rq fields body rp port (phases_of a) k /\
    steps f O e (e_ruleset e) (a ++ [OpResult]) (new_txn e) = Ret (t, bl ++ [ObsResult (answer (k_reply k))]).
Proof.
  intros fuel O n text ds l OV UL ML MU FT LD TI NW e f rq port ip2 port2 u pieces fs txt rp pieces' FU PT BE LB BF RE LR TY a b Q.
  pose proof (exchange_never_panics fuel O n text ds l OV ML MU FT LD TI f rq port ip2 port2 u pieces fs txt rp pieces' BE LB BF a b Q) as NP.
  pose proof (exchange_ends fuel O n text ds l OV ML MU FT LD TI f rq port ip2 port2 u pieces fs txt rp pieces' FU BE LB BF a b NW Q) as NT. fold e in NP, NT.
  destruct (steps f O e (e_ruleset e) (a ++ [OpResult]) (new_txn e)) as [[t bl]| |] eqn:H; [|easy|easy].
  assert (X : exists b1 i, bl = b1 ++ [ObsResult i]).
  { apply steps_app in H as (t1 & b1 & b2 & S1 & S2 & ->). apply steps_cons in S2 as (t2 & b3 & b4 & S3 & S2 & ->). apply Ret_inj in S2. injection S2 as _ <-.
    cbn [Engine.step] in S3. apply Ret_inj in S3. injection S3 as _ <-. eauto. }
  destruct X as (b1 & i & ->).
  destruct (proj1 (C95_any_exchange_exactly fuel O n text ds l OV UL ML MU FT LD TI f rq port ip2 port2 u pieces fs txt rp pieces' FU PT BE LB BF RE LR TY a b i Q)) as (k & K & ->); [eauto|].
  exists k, t, b1. auto.
Qed.
(** ** C32 *)
(** The calls of an exchange hang exactly if the texts leave it without a course. *)
Theorem C32_exchange_hangs_exactly : forall fuel O n text ds l, ord_valid O -> uri_library O -> media_library O -> multipart_library O ->
  file_text ds text -> new_direset fuel O n text = Ret (Some l) -> timely ds ->
  let e := execute l new_engine in
  forall rq port ip2 port2 u pieces fields body rp pieces',
  parse_target (q_target rq) = Some u -> q_body rq = concat pieces -> Z.of_nat (length (q_body rq)) <= 131072 ->
  body_fields (last (body_switches ds) false) rq fields body ->
  r_body rp = concat pieces' -> Z.of_nat (length (r_body rp)) <= 524228 -> typed rp ->
  forall a b, exchange_calls rq port ip2 port2 u pieces rp pieces' = a ++ b ->
  (forall f, (length ds + 2 <= f)%nat -> steps f O e (e_ruleset e) (a ++ [OpResult]) (new_txn e) = Timeout) <->
  ~ exists k, course O ds rq fields body rp port (phases_of a) k.
Proof.
  intros fuel O n text ds l OV UL ML MU FT LD TI e rq port ip2 port2 u pieces fs txt rp pieces' PT BE LB BF RE LR TY a b Q.
  assert (EX : forall f, (length ds + 2 <= f)%nat -> forall i, _) by (intros f FU i; exact (C95_any_exchange_exactly fuel O n text ds l OV UL ML MU FT LD TI f rq port ip2 port2 u pieces fs txt rp pieces' FU PT BE LB BF RE LR TY a b i Q)). fold e in EX.
  split.
  - intros H (k & K). destruct (proj2 (EX (length ds + 2)%nat (Nat.le_refl _) (answer (k_reply k)))) as (t & bl & X); [eauto|]. rewrite (H _ (Nat.le_refl _)) in X. discriminate.
  - intros N f FU. destruct (steps f O e (e_ruleset e) (a ++ [OpResult]) (new_txn e)) as [[t bl]| |] eqn:H; [| |reflexivity]; exfalso.
    + assert (X : exists b1 i, bl = b1 ++ [ObsResult i]).
      { pose proof H as H0. apply steps_app in H0 as (t1 & b1 & b2 & S1 & S2 & ->). apply steps_cons in S2 as (t2 & b3 & b4 & S3 & S2 & ->). apply Ret_inj in S2. injection S2 as _ <-.
        cbn [Engine.step] in S3. apply Ret_inj in S3. injection S3 as _ <-. eauto. }
      destruct X as (b1 & i & ->). destruct (proj1 (EX f FU i)) as (k & K & _); [eauto|]. apply N. eauto.
    + exact (exchange_never_panics fuel O n text ds l OV ML MU FT LD TI f rq port ip2 port2 u pieces fs txt rp pieces' BE LB BF a b Q H).
Qed.

(** ** C96: clients that are let through *)
Lemma through_takes : forall w, lets_through w -> chain_takes [w] [AAllow []].
Proof.
  intros w H. change [AAllow []] with ([AAllow []] ++ @nil action). eapply ct_cons; [exact H| |constructor]. exists [AAllow []]. split.
  - repeat split; try apply Permutation_refl. repeat constructor.
  - apply uf_cons; [discriminate|constructor].
Qed.
Lemma plays_through : forall (M : list written -> Prop) ip port p l1 w l2 y, Forall (fun c => ~ M c) l1 -> M [w] -> lets_through w -> p <> 6 -> y_denied y = false ->
  plays M chain_takes ip port p (l1 ++ [w] :: l2) (Account p (-1) (Some 0%nat) y) (Account 6 (-1) (Some 0%nat) y).
Proof.
  intros M ip port p l1 w l2 y N MW T P D. set (L := l1 ++ [w] :: l2).
  assert (X : forall d i j, (i + d = length l1)%nat -> plays M chain_takes ip port p L (Account p j (Some i) y) (Account 6 (-1) (Some 0%nat) y)).
  { induction d as [|d IH]; intros i j E.
    - eapply (pl_on _ _ _ _ _ _ _ i [w]); [reflexivity|reflexivity| |left; split; [exact MW|]; exists [AAllow []]; split; [now apply through_takes|reflexivity]|exact D|apply pl_away; cbn; congruence].
      unfold L. rewrite nth_error_app2 by lia. now replace (i - length l1)%nat with 0%nat by lia.
    - destruct (nth_error L i) as [c|] eqn:Q; [|apply nth_error_None in Q; unfold L in Q; rewrite app_length in Q; cbn in Q; lia].
      assert (I : In c l1) by (unfold L in Q; rewrite nth_error_app1 in Q by lia; eapply nth_error_In; eauto). rewrite Forall_forall in N.
      eapply (pl_on _ _ _ _ _ _ _ i c); [reflexivity|reflexivity|exact Q|right; split; [now apply N|reflexivity]|exact D|].
      unfold arrive, upto. replace (1 + i <? length L)%nat with true; [apply IH; lia|]. unfold L. rewrite app_length. cbn [length]. symmetry. apply Nat.ltb_lt. lia. }
  now apply (X (length l1)).
Qed.
(** A client the first matching rule of phase 1 lets through is never denied: from the first
    call on the result is 200, with no lines, whatever all later rules say. *)
Theorem C96_clients_let_through : forall fuel O n text ds cs l, ord_valid O -> uri_library O -> media_library O -> multipart_library O ->
  file_text ds text -> new_direset fuel O n text = Ret (Some l) -> timely ds -> chains ds cs ->
  let e := execute l new_engine in
  forall f rq port ip2 port2 u pieces fields body rp pieces', (length ds + 2 <= f)%nat ->
  parse_target (q_target rq) = Some u -> q_body rq = concat pieces -> Z.of_nat (length (q_body rq)) <= 131072 ->
  body_fields (last (body_switches ds) false) rq fields body ->
  r_body rp = concat pieces' -> Z.of_nat (length (r_body rp)) <= 524228 -> typed rp ->
  forall w, first_that (Forall (holds_in O ds rq fields body rp)) (List.filter (in_phase 1) cs) [w] -> lets_through w ->
  forall a b, exchange_calls rq port ip2 port2 u pieces rp pieces' = a ++ b ->
  exists t bl, steps f O e (e_ruleset e) (a ++ [OpResult]) (new_txn e) = Ret (t, bl ++ [ObsResult (Intervention 200 0 None [] false)]).
Proof.
  intros fuel O n text ds cs l OV UL ML MU FT LD TI CH e f rq port ip2 port2 u pieces fs txt rp pieces' FU PT BE LB BF RE LR TY w (l1 & l2 & FI & MW & N) LT a b Q.
  apply (C95_any_exchange_exactly fuel O n text ds l OV UL ML MU FT LD TI f rq port ip2 port2 u pieces fs txt rp pieces' FU PT BE LB BF RE LR TY a b _ Q).
  pose proof (exchange_phases rq port ip2 port2 u pieces rp pieces') as EP. rewrite Q, phases_of_app in EP.
  enough (X : forall ps qs, ps ++ qs = [1; 2; 3; 4; 5; 6] -> ps = [] \/ course O ds rq fs txt rp port ps (Account 6 (-1) (Some 0%nat) SpecAnswer.silent)).
  { destruct (X _ _ EP) as [->|X1]; (eexists; split; [eassumption || apply co_start|reflexivity]). }
  clear -CH FI MW N LT. intros ps. induction ps as [|p ps IH] using rev_ind; intros qs E; [now left|right].
  rewrite <- app_assoc in E. cbn [app] in E. destruct (IH _ E) as [->|K].
  - injection E as -> _. eapply (co_phase _ _ _ _ _ _ _ []); [apply co_start|cbn; lia|]. exists cs. split; [exact CH|]. rewrite FI. apply plays_through; auto. discriminate.
  - apply co_passed; [exact K|]. cbn [k_phase]. assert (I : In p [1; 2; 3; 4; 5; 6]) by (rewrite <- E; apply in_app_iff; right; now left). cbn in I. lia.
Qed.

(** ** Example: clients of one network are let through, a rule skipped, a response refused *)
Definition gate_text : bs :=
  B "SecRule REMOTE_ADDR ""@rx ^192[.]168[.]"" ""id:1,phase:1,allow""" ++ [LF] ++
  B "SecRule REQUEST_METHOD ""@rx POST"" ""id:2,phase:2,log,skip:1""" ++ [LF] ++
  B "SecRule REQUEST_PROTOCOL ""@rx HTTP"" ""id:3,phase:2,status:405,deny""" ++ [LF] ++
  B "SecRule RESPONSE_STATUS ""@ge 500"" ""id:4,phase:4,status:502,deny""".
Definition gate_written : list written :=
  [Written [PVar KRemoteAddr [] false false] (POper KRx false (B "^192[.]168[.]")) (PActions 1 1 false [] [PAction KAllow []]);
   Written [PVar KRequestMethod [] false false] (POper KRx false (B "POST")) (PActions 2 2 false [] [PAction KLog []; PAction KSkip (B "1")]);
   Written [PVar KRequestProtocol [] false false] (POper KRx false (B "HTTP")) (PActions 3 2 false [] [PAction KStatus (B "405"); PAction KDeny []]);
   Written [PVar KResponseStatus [] false false] (POper KGe false (B "500")) (PActions 4 4 false [] [PAction KStatus (B "502"); PAction KDeny []])].
Definition gate_directives : list directive := map line_of gate_written.
Definition gate_request (ip m : string) : request := Request (B ip) (B m) (B "/x") (B "HTTP/1.1") [] [].
Definition gate_first : written := Written [PVar KRemoteAddr [] false false] (POper KRx false (B "^192[.]168[.]")) (PActions 1 1 false [] [PAction KAllow []]).
Example C95_any_exchange_example : let O := multir MpErr in
  ord_valid O /\ uri_library O /\ media_library O /\ multipart_library O /\
  file_text gate_directives gate_text /\ ~ straight gate_directives /\ timely gate_directives /\ no_way_back gate_directives /\
  chains gate_directives (map (fun w => [w]) gate_written) /\ lets_through gate_first /\
  (forall ip m, body_fields (last (body_switches gate_directives) false) (gate_request ip m) [] []) /\ (forall code, typed (guard_response code)) /\
  (forall m code, first_that (Forall (holds_in O gate_directives (gate_request "192.168.0.7" m) [] [] (guard_response code)))
     (List.filter (in_phase 1) (map (fun w => [w]) gate_written)) [gate_first]) /\
  exists l, new_direset 700 O 0 gate_text = Ret (Some l) /\ let e := execute l new_engine in
    let answer ip m code k i := exists u t bl, parse_target (B "/x") = Some u /\
      steps 6 O e (e_ruleset e) (firstn k (exchange_calls (gate_request ip m) (B "99") [] [] u [] (guard_response code) [B "a Se"; B "cret"]) ++ [OpResult]) (new_txn e) = Ret (t, bl ++ [ObsResult i]) in
    answer "192.168.0.7"%string "GET"%string 503 10%nat (Intervention 200 0 None [] false) /\
    answer "10.1.1.1"%string "GET"%string 200 10%nat (Intervention 405 0 None [client_line (B "10.1.1.1") (B "99") 2 (B "Access denied with code 403")] true) /\
    answer "10.1.1.1"%string "POST"%string 503 10%nat (Intervention 502 0 None [client_line (B "10.1.1.1") (B "99") 2 (B "running action in phase 2 rule 0"); client_line (B "10.1.1.1") (B "99") 4 (B "Access denied with code 403")] true).
Proof.
  cbv zeta. destruct (multir_ok MpErr) as (A1 & A2 & A3 & A4 & A5). do 4 (split; [assumption|]).
  assert (FT : file_text gate_directives gate_text) by (apply parse_text_iff; exists 700%nat; vm_compute; reflexivity). split; [exact FT|].
  assert (FC : forall w ds, pas_chain (w_acts w) = false -> first_chain (line_of w :: ds) [w] ds) by (intros w ds C; exists (line_of w), w, ds; split; [reflexivity|]; split; [reflexivity|]; left; auto).
  assert (CH : chains gate_directives (map (fun w => [w]) gate_written)) by (do 4 (eapply ch_chain; [apply FC; reflexivity|]); constructor).
  split; [intro S; destruct (S (line_of gate_first) gate_first (PAction KAllow [])) as [_ X]; [now left|reflexivity|now left|now apply X]|].
  split.
  { intros w c w' v CI I V. apply (chain_in_iff _ _ CH) in CI. cbn in CI. destruct CI as [E|[E|[E|[E|[]]]]]; injection E as <- <-; destruct I as [<-|[]]; destruct V as [<-|[]]; cbn; clear; lia. }
  split.
  { apply (C99_texts_without_way_back _ _ FT). intros w c ws CI P CW. apply (chain_in_iff _ _ CH) in CI. cbn in CI. destruct CI as [E|[E|[E|[E|[]]]]]; injection E as <- <-; cbn in P; try (clear -P; lia).
    inversion CW as [|? ? x y X Y]; subst. inversion Y; subst. rewrite app_nil_r.
    assert (W : forall l z, words_of l z -> (forall q, In q l -> pa_tok q <> KAllow) -> z = []).
    { clear. intros l z H. induction H as [|s x l z U H IH|a l z N H IH]; intro G; [reflexivity|elim (G (PAction KAllow s)); [now left|reflexivity]|apply IH; intros q I; apply G; now right]. }
    rewrite (W _ _ X); [easy|]. cbn. intros q [<-|[<-|[]]]; discriminate. }
  split; [exact CH|]. split; [apply (acm_cons _ _ [AAllow []]); [apply am_allow; apply trimQuote_iff; reflexivity|constructor]|].
  split; [intros ip m; apply bf_unseen; now left|].
  destruct C95_exchanges_example as (_ & _ & _ & _ & _ & _ & _ & _ & _ & _ & TY & _). split; [exact TY|]. split.
  { intros m code. exists [], []. split; [reflexivity|]. split; [|constructor]. constructor; [|constructor].
    exists KRemoteAddr, false, [B "192.168.0.7"], (B "192.168.0.7"), (OpRx (B "^192[.]168[.]")). split; [eexists; split; [now left|now split]|]. split; [left; apply sh_addr|]. split; [now left|].
    split; [apply om_rx; [reflexivity|vm_compute; reflexivity]|]. vm_compute. reflexivity. }
  eexists. split; [vm_compute; reflexivity|]. cbv zeta. split; [|split]; (eexists _, _, [_; _; _; _; _; _; _; _; _]; split; vm_compute; reflexivity).
Qed.

Print Assumptions C95_any_exchange_exactly.
Print Assumptions C95_course_unique.
Print Assumptions C95_any_exchange_answered.
Print Assumptions C32_exchange_hangs_exactly.
Print Assumptions C96_clients_let_through.
Print Assumptions C95_any_exchange_example.
