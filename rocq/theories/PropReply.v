(** Property theorems C95-C96: from the text of the rules to the whole answer. *)
From Verif Require Import Base BaseFacts GoStrings Utils Buffer BufferFacts SpecBuffer Types Transforms Operators Transaction Variables Rules Engine
  SpecText NumFacts SpecVars VarText VarFacts BodyFacts SpecRules PropText PropVars RuleFacts Scanner Loader SpecParse ParseFacts ParseLists ParseFiles ParsePrint
  SpecLoad LoadFacts SpecTxn TxnFacts LoopFacts Witness PropRules PropPhases PropTxn PropLoad PropEnd SpecData PropData SpecGate PropGate PropSafe PropFile SpecBody PropBody SpecVerdict PropVerdict
  SpecAnswer PropAnswer SpecReply.
From Coq Require Import ZifyBool.

(** ** Chains in order *)
Lemma other_rules : forall oth, Forall no_rule oth -> rules_of oth = [].
Proof. intros oth H. induction H as [|d l N H IH]; [reflexivity|]. unfold rules_of in *. cbn [flat_map]. rewrite IH. destruct d; [elim N|reflexivity..]. Qed.
Lemma assembled_chains : forall O items l, assembled items l -> forall n ds, loaded O n ds items ->
  exists cs, chains ds cs /\ Forall2 (chain_as O) cs (rules_of l).
Proof.
  intros O items l A. induction A as [|d c l l' N A IH|r l l' A IH|r l subs oth rest l' F A IH]; intros n ds L; inversion L as [|n1 d1 ds1 x xs FA L1]; subst.
  - exists []. split; constructor.
  - pose proof (dire_other _ _ _ _ _ FA N) as NR. destruct (IH _ _ L1) as (cs & C1 & C2). exists cs. split; [now apply ch_other|].
    unfold rules_of in *. cbn [flat_map]. destruct d; [elim N|exact C2..].
  - apply dire_rule in FA as (w & W & R). destruct (from_seclang_chain _ _ _ _ _ R) as [C S]. destruct (IH _ _ L1) as (cs & C1 & C2).
    exists ([w] :: cs). split.
    + apply (ch_chain _ _ ds1); [|exact C1]. exists d1, w, ds1. split; [reflexivity|]. split; [exact W|]. left. auto.
    + unfold rules_of in *. cbn [flat_map app]. constructor; [|exact C2].
      exists w, []. split; [reflexivity|]. rewrite S. split; [|constructor]. exists n, false. rewrite R. do 2 f_equal. destruct r; cbn in S; now subst.
  - apply dire_rule in FA as (w & W & R). destruct (from_seclang_chain _ _ _ _ _ R) as [C S]. destruct (followers_written _ _ _ _ _ F _ _ L1) as (ws & ds' & n' & F1 & F2 & F3).
    destruct (IH _ _ F3) as (cs & C1 & C2).
    assert (NO : Forall no_rule oth) by (clear -F; induction F; auto).
    exists ((w :: ws) :: cs). split.
    + apply (ch_chain _ _ ds'); [|exact C1]. exists d1, w, ds1. split; [reflexivity|]. split; [exact W|]. right. split; [auto|]. exists ws. auto.
    + apply other_rules in NO. unfold rules_of in *. cbn [flat_map app]. rewrite flat_map_app, NO. cbn [app]. constructor; [|exact C2].
      exists w, ws. split; [reflexivity|]. unfold with_followers. cbn [r_subs]. rewrite S. split; [|exact F2]. exists n, true. rewrite R. do 2 f_equal. destruct r; cbn in S; now subst.
Qed.
Lemma chains_fun : forall ds a, chains ds a -> forall b, chains ds b -> b = a.
Proof.
  assert (NF : forall c rest, ~ first_chain [] c rest) by (intros c rest (? & ? & ? & E & _); discriminate).
  assert (NO : forall d ds c rest, no_rule_line d -> ~ first_chain (d :: ds) c rest) by (intros d ds c rest N (? & w & ? & E & W & _); injection E as <- <-; eapply N; exact W).
  intros ds a H. induction H as [|ds c rest cs F H IH|d ds cs N H IH]; intros b K.
  - inversion K as [|? c' rest' cs' F' K'|]; [reflexivity|]. now apply NF in F'.
  - inversion K as [E|? c' rest' cs' F' K'|? ? ? N' K' E]; subst.
    + now apply NF in F.
    + destruct (first_chain_fun _ _ _ _ _ F F') as [-> ->]. now rewrite (IH _ K').
    + now apply NO in F.
  - inversion K as [E|? c' rest' cs' F' K'|? ? ? N' K' E]; subst; [now apply NO in F'|auto].
Qed.
Lemma chain_in_iff : forall ds cs, chains ds cs -> forall c, In c cs <-> chain_in ds c.
Proof.
  intros ds cs H. induction H as [|ds c0 rest cs F H IH|d ds cs N H IH]; intro c.
  - split; [intros []|]. intro K. inversion K as [? ? ? F|? ? ? ? F|]; subst; destruct F as (? & ? & ? & ? & _); discriminate.
  - split.
    + intros [->|I]; [eapply ci_here; eauto|eapply ci_later; eauto; now apply IH].
    + intro K. destruct (chain_in_inv _ _ _ _ F K) as [->|J]; [now left|right; now apply IH].
  - rewrite IH. split; [apply ci_other; exact N|]. intro K. inversion K as [? ? ? F|? ? ? ? F|? ? ? ? J]; subst; [| |exact J];
    exfalso; destruct F as (d' & w & ds2 & E & W & _); injection E as <- <-; eapply N; eauto.
Qed.
(** ** Reactions carry over *)
Lemma reacts_along : forall A B (M : A -> Prop) (S : A -> list action -> Prop) (M' : B -> Prop) (S' : B -> list action -> Prop) (R : B -> A -> Prop) ip port p,
  (forall b a, R b a -> (M a <-> M' b)) -> (forall b a l, R b a -> S a l -> S' b l) ->
  forall l i y y', reacts M S ip port p i l y y' -> forall l', Forall2 R l' l -> reacts M' S' ip port p i l' y y'.
Proof.
  intros A B M S M' S' R ip port p RM RS l i y y' H. induction H as [i y|i r l y y' N D H IH|i r l y N D|i r l y acts y1 y' C CA E D H IH|i r l y acts y1 C CA E D];
  intros l' F; inversion F as [|b a l1 l2 X F' E1 E2]; subst.
  - constructor.
  - apply rc_miss; [intro Q; apply N; now apply (RM b r X)|exact D|now apply IH].
  - apply rc_miss_stop; [intro Q; apply N; now apply (RM b r X)|exact D].
  - eapply rc_fire; [now apply (RM b r X)|eapply RS; eauto|reflexivity|exact D|now apply IH].
  - eapply rc_fire_stop; [now apply (RM b r X)|eapply RS; eauto|reflexivity|exact D].
Qed.
Lemma after_along : forall (R R' : Z -> txn -> reply -> reply -> Prop) f O e rs, (forall p t y y', 1 <= p <= 6 -> R p t y y' -> R' p t y y') ->
  forall os y, reply_after R f O e rs os y -> reply_after R' f O e rs os y.
Proof.
  intros R R' f O e rs H os y K. induction K as [|a o p t c y y' K IH P AH ST X|a o y K IH N]; [constructor| |now apply ra_other].
  eapply ra_phase; eauto. apply H; [apply (op_phase_range _ _ P)|exact X].
Qed.
Lemma forall2_filter : forall A B (R : A -> B -> Prop) (f : A -> bool) (g : B -> bool), (forall a b, R a b -> f a = g b) ->
  forall l l', Forall2 R l l' -> Forall2 R (List.filter f l) (List.filter g l').
Proof. intros A B R f g E l l' F. induction F as [|a b l l' X F IH]; [constructor|]. cbn [List.filter]. rewrite (E _ _ X). destruct (g b); [now constructor|exact IH]. Qed.

Section Text.
Variables (fuel : nat) (O : oracles) (n : nat) (text : bs) (ds : list directive) (l : list dire).
Hypothesis OV : ord_valid O.
Hypothesis FT : file_text ds text.
Hypothesis LD : new_direset fuel O n text = Ret (Some l).
Let e := execute l new_engine.
Let rs := e_ruleset e.
Lemma takes_loaded : forall c qs acts, Forall2 (loaded_as O) c qs -> chain_actions [] qs acts -> chain_takes c acts.
Proof.
  intros c qs acts F. revert acts. induction F as [|w q c qs (m & ch & H) F IH]; intros acts C; inversion C as [|? ? l1 l2 RA C']; subst; [constructor|].
  destruct (C70_rule_as_written _ _ _ _ _ _ _ OV H) as (_ & _ & _ & _ & _ & _ & A & _). econstructor; [exact A|exact RA|now apply IH].
Qed.
Lemma alone_actions : forall d r acts, chain_actions d (r :: r_subs r) acts -> chain_actions d (alone r :: r_subs r) acts.
Proof. intros d r acts H. inversion H as [|? ? l1 l2 RA C]; subst. now constructor. Qed.
Lemma text_reaction : forall p t y y', 1 <= p <= 6 -> phase_reacts O e rs p t y y' -> text_reacts O e ds p t y y'.
Proof.
  intros p t y y' P H.
  destruct (proj1 (C62_texts O n text l) (ex_intro _ fuel LD)) as (ds' & items & F & L & A). pose proof (file_text_fun _ _ _ FT F). subst ds'.
  destruct (assembled_chains _ _ _ A _ _ L) as (cs & C1 & C2). exists cs. split; [exact C1|].
  unfold phase_reacts in H. destruct (C65_execute l new_engine) as (_ & _ & _ & D & _). fold e in D. fold rs in D. rewrite D in H by exact P.
  change (phase_rules (e_ruleset new_engine) p) with (@nil rule) in H. cbn [app] in H. rewrite (text_default l : rs_default rs = []) in H.
  eapply reacts_along; [| |exact H|].
  - intros c r CA. cbv beta in CA. pose proof (chain_members O c r CA) as M. rewrite Forall_forall. split.
    + intros CM w K. destruct (forall2_left _ _ _ _ _ _ M K) as (q' & J' & LA). apply (loaded_matches O e t w q' OV LA).
      destruct J' as [<-|J']; [exact (CM r (or_introl eq_refl))|apply CM; now right].
    + intros FA q [<-|J].
      * destruct (forall2_right _ _ _ _ _ (alone r) M) as (w' & K & LA); [now left|]. apply (loaded_matches O e t w' _ OV LA). now apply FA.
      * destruct (forall2_right _ _ _ _ _ q M) as (w' & K & LA); [now right|]. apply (loaded_matches O e t w' _ OV LA). now apply FA.
  - intros c r acts CA C. eapply takes_loaded; [apply (chain_members O c r CA)|]. now apply alone_actions.
  - apply (forall2_filter _ _ (chain_as O)); [|exact C2]. intros c r CA. pose proof CA as (w & c' & -> & _). cbn [in_phase]. now rewrite <- (chain_phase O OV _ _ _ CA).
Qed.
End Text.

(** ** C95 *)
(** The first result a caller fetches is, in full, the one the text of the rules spells out. *)
Theorem C95_text_answers : forall fuel O n text ds l, ord_valid O -> file_text ds text -> new_direset fuel O n text = Ret (Some l) -> straight ds ->
  let e := execute l new_engine in
  forall f os t' bl, Forall feeding os ->
  (forall a o b p t c, os = a ++ o :: b -> op_phase o = Some p -> ahead a p -> steps f O e (e_ruleset e) a (new_txn e) = Ret (t, c) ->
     bodiless ds p \/ readable O e (given o t)) ->
  steps f O e (e_ruleset e) (os ++ [OpResult]) (new_txn e) = Ret (t', bl) ->
  exists y bl', reply_after (text_reacts O e ds) f O e (e_ruleset e) os y /\
    bl = bl' ++ [ObsResult (Intervention (y_code y) 0 None (y_lines y) (y_denied y))].
Proof.
  intros fuel O n text ds l OV FT LD S e f os t' bl F RD H.
  destruct (C94_answer f O e (e_ruleset e) os t' bl OV) as (y & bl' & RA & E); [|exact F| |exact H|].
  - intros p P. eapply text_plain; eauto.
  - intros a o b p t c Q P AH ST. destruct (RD a o b p t c Q P AH ST) as [B|R]; [left|now right]. pose proof (op_phase_range _ _ P). eapply text_gate; eauto.
  - exists y, bl'. split; [|exact E]. eapply after_along; [|exact RA]. intros p t y1 y2 P. eapply text_reaction; eauto.
Qed.
(** The text spells out one answer only. *)
Lemma acts_mean_fun : forall a x, acts_mean a x -> forall y, acts_mean a y -> y = x.
Proof.
  assert (F : forall a x, act_means a x -> forall y, act_means a y -> y = x).
  { intros a x H y K. destruct H; inversion K; subst; try reflexivity; try (cbn in *; intuition discriminate).
    - f_equal. f_equal. match goal with U : unquoted ?s ?x, U' : unquoted ?s ?y |- _ => apply trimQuote_iff in U, U'; congruence end.
    - f_equal. f_equal. match goal with U : unquoted ?s ?x, U' : unquoted ?s ?y |- _ => assert (y = x) by (apply trimQuote_iff in U, U'; congruence); subst end. eapply denotes_unique; eauto. }
  intros a x H. induction H as [|b l x y A H IH]; intros z K; inversion K as [|? ? x' y' A' K']; subst; [reflexivity|]. now rewrite (F _ _ A _ A'), (IH _ K').
Qed.
Lemma takes_fun : forall c a, chain_takes c a -> forall b, chain_takes c b -> a = b.
Proof.
  intros c a H. induction H as [|w c x l1 l2 A (g & S & U) H IH]; intros b K; inversion K as [|? ? x' l1' l2' A' (g' & S' & U') K']; subst; [reflexivity|].
  rewrite (acts_mean_fun _ _ A _ A') in S'. rewrite (stable_unique _ _ _ S' S) in U'. rewrite (unfolds_fun _ _ _ _ U' U). f_equal. now apply IH.
Qed.
Lemma text_reacts_fun : forall O e ds p t y a b, text_reacts O e ds p t y a -> text_reacts O e ds p t y b -> a = b.
Proof.
  intros O e ds p t y a b (cs & C & H) (cs' & C' & H'). rewrite (chains_fun _ _ C _ C') in H'. eapply reacts_fun; [|exact H|exact H'].
  intros c x z X Z. eapply takes_fun; eauto.
Qed.
Theorem C95_text_answer_unique : forall f O e rs ds os y1 y2,
  reply_after (text_reacts O e ds) f O e rs os y1 -> reply_after (text_reacts O e ds) f O e rs os y2 -> y1 = y2.
Proof. intros f O e rs ds os y1 y2. apply after_fun. intros p t y a b. apply text_reacts_fun. Qed.

(** ** C96 *)
Lemma denies_takes : forall w n acts, denies_with w n -> chain_takes [w] acts -> acts = [AStatus n; ADeny].
Proof.
  intros w n acts (x & A & P & _) H. eapply takes_fun; [exact H|]. change [AStatus n; ADeny] with ([AStatus n; ADeny] ++ []). econstructor; [exact A| |constructor].
  exists [AStatus n; ADeny]. split.
  - split; [exact P|]. split; [repeat constructor; cbn; clear; lia|]. intro k. apply Permutation_sym, Permutation_length_2_inv in P as [->| ->]; [reflexivity|].
    cbn [List.filter group_of]. destruct (1 =? k) eqn:E1, (3 =? k) eqn:E2; try reflexivity. exfalso. clear -E1 E2. lia.
  - repeat (apply uf_cons; [discriminate|]). constructor.
Qed.
Definition one_denial (c : list written) : Prop := exists w n, c = [w] /\ denies_with w n.
Lemma firm_reacts : forall (M : list written -> Prop) ip port p l i y y', reacts M chain_takes ip port p i l y y' -> Forall one_denial l -> y_denied y = false ->
  (y' = y /\ Forall (fun c => ~ M c) l) \/
  (exists w n, first_that M l [w] /\ denies_with w n /\ y_denied y' = true /\ y_code y' = if y_code y =? 200 then n else y_code y).
Proof.
  intros M ip port p l i y y' H. induction H as [i y|i r l y y' N D H IH|i r l y N D|i r l y acts y1 y' C CA E D H IH|i r l y acts y1 C CA E D]; intros F K; try inversion F as [|? ? (w & n & -> & W) F']; subst.
  - left. split; constructor.
  - destruct (IH F' K) as [[-> X]|(w' & n' & (l1 & l2 & -> & X1 & X2) & X3)]; [left; split; [reflexivity|now constructor]|right].
    exists w', n'. split; [|exact X3]. exists ([w] :: l1), l2. split; [reflexivity|]. split; [exact X1|now constructor].
  - congruence.
  - rewrite (denies_takes _ _ _ W CA) in D. discriminate.
  - right. exists w, n. split; [exists [], l; split; [reflexivity|]; split; [exact C|constructor]|]. split; [exact W|]. split; [exact D|].
    rewrite (denies_takes _ _ _ W CA). cbn [fold_left says y_code y_next asked_code]. destruct W as (x & _ & _ & R & _).
    replace ((100 <=? n) && (n <=? 599)) with true by (clear -R; lia). reflexivity.
Qed.
Lemma firm_kept : forall (M : list written -> Prop) ip port p l i y y', reacts M chain_takes ip port p i l y y' -> Forall one_denial l -> y_denied y = true -> y_code y <> 200 ->
  y_denied y' = true /\ y_code y' = y_code y.
Proof.
  intros M ip port p l i y y' H F K N. inversion H as [|? ? ? ? ? ? D|? ? ? ? ? D|? ? ? ? acts y1 ? C CA E D|? ? ? ? acts y1 C CA E D]; subst; auto; try congruence;
  inversion F as [|? ? (w & n & -> & W) F']; subst; rewrite (denies_takes _ _ _ W CA) in *; [discriminate|]. split; [exact D|]. cbn [fold_left says y_code].
  destruct (Z.eqb_spec (y_code y) 200); [contradiction|reflexivity].
Qed.
Lemma firm_filter : forall cs p, Forall one_denial cs -> Forall one_denial (List.filter (in_phase p) cs).
Proof. intros cs p H. rewrite Forall_forall in *. intros c I. apply filter_In in I as [I _]. now apply H. Qed.
Lemma first_code : forall f O e rs ds cs os y, chains ds cs -> Forall one_denial cs -> reply_after (text_reacts O e ds) f O e rs os y ->
  (y = silent /\ forall a o b p t c x, os = a ++ o :: b -> op_phase o = Some p -> ahead a p -> steps f O e rs a (new_txn e) = Ret (t, c) ->
     In x cs -> in_phase p x = true -> ~ Forall (written_matches O e (given o t)) x) \/
  (y_denied y = true /\ exists a o b p t c w n, os = a ++ o :: b /\ op_phase o = Some p /\ ahead a p /\ steps f O e rs a (new_txn e) = Ret (t, c) /\
     (forall a' o' b' p' t' c' x, a = a' ++ o' :: b' -> op_phase o' = Some p' -> ahead a' p' -> steps f O e rs a' (new_txn e) = Ret (t', c') ->
        In x cs -> in_phase p' x = true -> ~ Forall (written_matches O e (given o' t')) x) /\
     first_that (Forall (written_matches O e (given o t))) (List.filter (in_phase p) cs) [w] /\ denies_with w n /\ y_code y = n).
Proof.
  intros f O e rs ds cs os y CH F H.
  assert (SN : forall (a : list op) o a' o' b', a ++ [o] = a' ++ o' :: b' -> (a = a' /\ o = o' /\ b' = []) \/ exists b'', b' = b'' ++ [o] /\ a = a' ++ o' :: b'').
  { intros a o a' o' b' Q. destruct b' as [|x b' _] using rev_ind; [left; apply app_inj_tail in Q as [-> ->]; auto|right].
    exists b'. rewrite app_comm_cons, app_assoc in Q. apply app_inj_tail in Q as [-> ->]. auto. }
  induction H as [|a o p t c y y' H IH P AH ST RR|a o y H IH N].
  - left. split; [reflexivity|]. intros a o b p t c x Q. now destruct a.
  - destruct RR as (cs' & CH' & RR). rewrite (chains_fun _ _ CH _ CH') in RR. destruct IH as [[-> NO]|(D & a' & o' & b' & p' & t' & c' & w & n & -> & P' & AH' & ST' & NO & FT & W & CO)].
    + destruct (firm_reacts _ _ _ _ _ _ _ _ RR (firm_filter _ _ F) eq_refl) as [[-> X]|(w & n & FT & W & D & CO)].
      * left. split; [reflexivity|]. intros a' o' b' p' t' c' x Q P' AH' ST' I IP. apply SN in Q as [(-> & -> & ->)|(b'' & -> & ->)].
        -- rewrite ST in ST'. apply Ret_inj in ST'. injection ST' as <- <-. rewrite P in P'. injection P' as <-. rewrite Forall_forall in X. apply X, filter_In. auto.
        -- eapply NO; eauto.
      * right. split; [exact D|]. exists a, o, [], p, t, c, w, n. split; [reflexivity|]. repeat (split; [assumption|]). exact CO.
    + right. assert (N2 : y_code y <> 200) by (destruct W as (? & _ & _ & _ & W); congruence).
      destruct (firm_kept _ _ _ _ _ _ _ _ RR (firm_filter _ _ F) D N2) as [D' CO']. split; [exact D'|].
      exists a', o', (b' ++ [o]), p', t', c', w, n. split; [now rewrite <- app_assoc|]. repeat (split; [assumption|]). congruence.
  - destruct IH as [[-> NO]|(D & a' & o' & b' & p' & t' & c' & w & n & -> & P' & AH' & ST' & NO & X)].
    + left. split; [reflexivity|]. intros a' o' b' p' t' c' x Q P' AH' ST' I IP. apply SN in Q as [(-> & -> & ->)|(b'' & -> & ->)]; [now elim (N _ P')|eapply NO; eauto].
    + right. split; [exact D|]. exists a', o', (b' ++ [o]), p', t', c', w, n. split; [now rewrite <- app_assoc|]. auto.
Qed.
(** Rules that each deny with a status of their own: the first result a caller fetches
    carries the status of the first rule, in order of the text, that matches at the
    first call at which any rule matches; without any such call it is 200. *)
Theorem C96_first_match_sets_status : forall fuel O n text ds cs l, ord_valid O -> file_text ds text -> new_direset fuel O n text = Ret (Some l) ->
  straight ds -> chains ds cs -> (forall c, In c cs -> exists w k, c = [w] /\ denies_with w k) ->
  let e := execute l new_engine in
  forall f os t' bl, Forall feeding os ->
  (forall a o b p t c, os = a ++ o :: b -> op_phase o = Some p -> ahead a p -> steps f O e (e_ruleset e) a (new_txn e) = Ret (t, c) ->
     bodiless ds p \/ readable O e (given o t)) ->
  steps f O e (e_ruleset e) (os ++ [OpResult]) (new_txn e) = Ret (t', bl) ->
  let matched a o x := exists p t c, op_phase o = Some p /\ ahead a p /\ steps f O e (e_ruleset e) a (new_txn e) = Ret (t, c) /\
     first_that (Forall (written_matches O e (given o t))) (List.filter (in_phase p) cs) x in
  exists i bl', bl = bl' ++ [ObsResult i] /\
    ((i = Intervention 200 0 None [] false /\ forall a o b x, os = a ++ o :: b -> ~ matched a o x) \/
     (i_disruptive i = true /\ exists a o b w k, os = a ++ o :: b /\ matched a o [w] /\ (forall a' o' b' x, a = a' ++ o' :: b' -> ~ matched a' o' x) /\
        denies_with w k /\ i_status i = k)).
Proof.
  intros fuel O n text ds cs l OV FT LD S CH OD e f os t' bl F RD H matched.
  destruct (C95_text_answers fuel O n text ds l OV FT LD S f os t' bl F RD H) as (y & bl' & RA & E). fold e in RA.
  assert (FO : Forall one_denial cs) by (apply Forall_forall; exact OD).
  assert (NM : forall a o, (forall p t c x, op_phase o = Some p -> ahead a p -> steps f O e (e_ruleset e) a (new_txn e) = Ret (t, c) ->
     In x cs -> in_phase p x = true -> ~ Forall (written_matches O e (given o t)) x) -> forall x, ~ matched a o x).
  { intros a o NO x (p & t & c & P & AH & ST & (l1 & l2 & Q & M & _)). assert (I : In x (List.filter (in_phase p) cs)) by (rewrite Q; apply in_app_iff; right; now left).
    apply filter_In in I as [I1 I2]. eapply NO; eauto. }
  eexists _, bl'. split; [exact E|]. destruct (first_code _ _ _ _ _ _ _ _ CH FO RA) as [[-> NO]|(D & a & o & b & p & t & c & w & k & Q & P & AH & ST & NO & FM & W & CO)].
  - left. split; [reflexivity|]. intros a o b x Q. apply NM. intros p t c z. eapply NO; eauto.
  - right. split; [exact D|]. exists a, o, b, w, k. split; [exact Q|]. split; [exists p, t, c; auto|]. split; [|split; [exact W|exact CO]].
    intros a' o' b' x Q'. apply NM. intros p' t2 c' z. eapply NO; eauto.
Qed.

(** ** Examples *)
Definition status_text : bs :=
  B "SecRule ARGS_GET ""@rx nobody"" ""id:1,phase:2,status:451,deny""" ++ [LF] ++ B "SecRuleEngine On" ++ [LF] ++
  B "SecRule ARGS_GET:user ""@rx root"" ""id:2,phase:2,t:lowercase,deny,tag:x,status:406""" ++ [LF] ++
  B "SecRule REQUEST_METHOD ""@rx POST"" ""id:3,phase:2,status:405,deny""".
Definition status_written : list written :=
  [Written [PVar KArgsGet [] false false] (POper KRx false (B "nobody")) (PActions 1 2 false [] [PAction KStatus (B "451"); PAction KDeny []]);
   Written [PVar KArgsGet (B "user") false false] (POper KRx false (B "root")) (PActions 2 2 false [KLowercase] [PAction KDeny []; PAction KTag (B "x"); PAction KStatus (B "406")]);
   Written [PVar KRequestMethod [] false false] (POper KRx false (B "POST")) (PActions 3 2 false [] [PAction KStatus (B "405"); PAction KDeny []])].
Definition line_of (w : written) : directive := DRule (w_vars w) (w_op w) (w_acts w).
Definition status_directives : list directive :=
  match map line_of status_written with a :: l => a :: DRuleEng 1 :: l | [] => [] end.
Lemma status_denotes : forall s n, parse_int64 s = Some n -> act_means (PAction KStatus s) [AStatus n] \/ trimQuote s <> s.
Proof.
  intros s n H. destruct (bs_eqb_spec (trimQuote s) s) as [E|E]; [left|now right]. apply parse_int64_iff in H as [H1 H2]. econstructor; eauto. now apply trimQuote_iff.
Qed.
Example C95_example : let O := demo MpErr in
  file_text status_directives status_text /\ straight status_directives /\ (forall p, 1 <= p <= 6 -> bodiless status_directives p) /\
  chains status_directives (map (fun w => [w]) status_written) /\
  (forall c, In c (map (fun w => [w]) status_written) -> exists w k, c = [w] /\ denies_with w k) /\
  exists l, new_direset 500 O 0 status_text = Ret (Some l) /\ let e := execute l new_engine in
    (exists t bl, steps 9 O e (e_ruleset e) (verdict_calls "POST" ++ [OpResult]) (new_txn e) =
       Ret (t, bl ++ [ObsResult (Intervention 406 0 None [client_line [] [] 2 (B "Access denied with code 403")] true)])).
Proof.
  cbv zeta. split; [apply parse_text_iff; exists 500%nat; vm_compute; reflexivity|].
  assert (LN : forall d w, In d status_directives -> rule_line d w -> In w status_written).
  { intros d w I W. cbn in I. unfold rule_line in W. destruct w as [a b c]. cbn [w_vars w_op w_acts] in W.
    destruct I as [<-|[<-|[<-|[<-|[]]]]]; try discriminate W; injection W as <- <- <-; cbn; auto. }
  split.
  { intros d w x I W J. apply (LN _ _ I) in W. cbn in W. destruct W as [<-|[<-|[<-|[]]]]; cbn in J; intuition (subst; discriminate). }
  split.
  { intros p _ w c w' v CI _ I V. destruct (chain_in_lines _ _ CI _ I) as (d & D & W). apply (LN _ _ D) in W. cbn in W.
    destruct W as [<-|[<-|[<-|[]]]]; cbn in V; intuition (subst; cbn in *; intuition discriminate). }
  assert (FC : forall w ds, pas_chain (w_acts w) = false -> first_chain (line_of w :: ds) [w] ds) by (intros w ds C; exists (line_of w), w, ds; split; [reflexivity|]; split; [reflexivity|]; left; auto).
  split.
  { eapply ch_chain; [apply FC; reflexivity|]. apply ch_other; [intros w W; discriminate W|]. do 2 (eapply ch_chain; [apply FC; reflexivity|]). constructor. }
  split.
  { assert (ST : forall s n, parse_int64 s = Some n -> trimQuote s = s -> act_means (PAction KStatus s) [AStatus n]) by (intros s n H1 H2; destruct (status_denotes s n H1); [assumption|contradiction]).
    intros c I. cbn in I. destruct I as [<-|[<-|[<-|[]]]]; (eexists _, _; split; [reflexivity|]; eexists; split; [|split; [|split]]).
    - apply (acm_cons _ _ [AStatus 451]); [apply ST; reflexivity|]. apply (acm_cons _ _ [ADeny]); constructor.
    - apply Permutation_refl.
    - clear; lia.
    - discriminate.
    - apply (acm_cons _ _ [ADeny]); [constructor|]. apply (acm_cons _ _ []); [apply am_meta; now left|]. apply (acm_cons _ _ [AStatus 406]); [apply ST; reflexivity|constructor].
    - apply perm_swap.
    - clear; lia.
    - discriminate.
    - apply (acm_cons _ _ [AStatus 405]); [apply ST; reflexivity|]. apply (acm_cons _ _ [ADeny]); constructor.
    - apply Permutation_refl.
    - clear; lia.
    - discriminate. }
  eexists. split; [vm_compute; reflexivity|]. eexists _, [_; _; _; _]. vm_compute. reflexivity.
Qed.
Print Assumptions C95_text_answers.
Print Assumptions C95_text_answer_unique.
Print Assumptions C96_first_match_sets_status.
