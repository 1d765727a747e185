(** Further theorems of C07, C25, C28, C29, C31, C32 and C35: rules built from callers' own
    variables, transformations, operators and actions. *)
From Verif Require Import Base BaseFacts GoStrings Utils Buffer BufferFacts Types Transforms Operators Transaction Variables Rules Engine
  SpecText SpecVars VarFacts SpecRules RuleFacts SpecTxn TxnFacts Witness PropRules Custom SpecCustom.
From Coq Require Import ZifyBool Sorting.Sorted.

(** ** Grouping, for any key *)
Section Keys.
Variables (A : Type) (key : A -> Z).
Notation sel n := (List.filter (fun a => key a =? n)).
Lemma key_none : forall (l : list A) n, (forall x, In x l -> key x <> n) -> sel n l = [].
Proof.
  induction l as [|a l IH]; intros n N; [reflexivity|]. cbn [List.filter].
  destruct (Z.eqb_spec (key a) n) as [Q|Q]; [elim (N a (or_introl eq_refl) Q)|]. apply IH. intros x I. apply N. now right.
Qed.
Lemma key_determined : forall g1 g2 : list A, Sorted Z.le (map key g1) -> Sorted Z.le (map key g2) ->
  (forall n, sel n g1 = sel n g2) -> g1 = g2.
Proof.
  induction g1 as [|a g1 IH]; intros g2 S1 S2 F.
  - destruct g2 as [|b g2]; [reflexivity|]. specialize (F (key b)). simpl in F. rewrite Z.eqb_refl in F. discriminate.
  - destruct g2 as [|b g2]; [specialize (F (key a)); simpl in F; rewrite Z.eqb_refl in F; discriminate|].
    apply Sorted_StronglySorted in S1, S2; try (intros x y z; lia).
    inversion S1 as [|x l SS1 L1]; subst. inversion S2 as [|x l SS2 L2]; subst. rewrite Forall_forall in L1, L2.
    assert (E : key a = key b).
    { pose proof (F (key a)) as Fa. pose proof (F (key b)) as Fb. simpl in Fa, Fb. rewrite Z.eqb_refl in Fa, Fb.
      destruct (Z.eqb_spec (key b) (key a)) as [Q|Q]; [congruence|].
      destruct (Z.eqb_spec (key a) (key b)) as [Q'|Q']; [congruence|].
      assert (Ia : In a (sel (key a) g2)) by (rewrite <- Fa; now left).
      assert (Ib : In b (sel (key b) g1)) by (rewrite Fb; now left).
      apply filter_In in Ia as [Ia _], Ib as [Ib _].
      pose proof (L2 (key a) (in_map _ _ _ Ia)). pose proof (L1 (key b) (in_map _ _ _ Ib)). lia. }
    assert (H : a = b /\ forall n, sel n g1 = sel n g2).
    { pose proof (F (key a)) as Fa. simpl in Fa. rewrite E, Z.eqb_refl in Fa. injection Fa as Q Fa. split; [exact Q|].
      intro n. specialize (F n). simpl in F. rewrite E in F. destruct (key b =? n); [now injection F|exact F]. }
    destruct H as [-> H]. f_equal. apply IH; [now apply StronglySorted_Sorted|now apply StronglySorted_Sorted|exact H].
Qed.
Lemma key_perm : forall l g : list A, (forall n, sel n g = sel n l) -> Permutation l g.
Proof.
  induction l as [|a l IH]; intros g F.
  - destruct g as [|b g]; [constructor|]. specialize (F (key b)). simpl in F. rewrite Z.eqb_refl in F. discriminate.
  - assert (I : exists g1 g2, g = g1 ++ a :: g2 /\ forall x, In x g1 -> key x <> key a).
    { pose proof (F (key a)) as Fa. simpl in Fa. rewrite Z.eqb_refl in Fa. clear -Fa. revert Fa.
      induction g as [|b g IH]; simpl; [discriminate|]. destruct (Z.eqb_spec (key b) (key a)) as [Q|Q]; intro H.
      - injection H as -> _. exists [], g. split; [reflexivity|]. intros x [].
      - destruct (IH H) as (g1 & g2 & -> & N). exists (b :: g1), g2. split; [reflexivity|]. intros x [<-|X]; auto. }
    destruct I as (g1 & g2 & -> & N). apply Permutation_cons_app. apply IH. intro n. specialize (F n).
    rewrite filter_app in *. simpl in F. destruct (Z.eqb_spec (key a) n) as [Q|Q]; [|exact F].
    rewrite (key_none g1) in *; try (intros x X; specialize (N x X); lia). simpl in *. now injection F.
Qed.
Lemma key_self : forall (l : list A) n k, sel n (sel k l) = if n =? k then sel k l else [].
Proof.
  intros l n k. destruct (Z.eqb_spec n k) as [->|N].
  - induction l as [|a l IH]; [reflexivity|]. cbn [List.filter]. destruct (key a =? k) eqn:Q; [|exact IH]. cbn [List.filter]. rewrite Q. now f_equal.
  - apply key_none. intros x I. apply filter_In in I as [_ I]. lia.
Qed.
Lemma key_sorted : forall (l : list A) ks, Sorted Z.lt ks -> Sorted Z.le (map key (flat_map (fun k => sel k l) ks)).
Proof.
  intros l ks S. apply StronglySorted_Sorted. apply Sorted_StronglySorted in S; [|intros x y z; lia].
  induction S as [|k ks S IH L]; cbn [flat_map]; [constructor|]. rewrite map_app.
  assert (A1 : forall a, In a (map key (sel k l)) -> a = k).
  { intros a I. apply in_map_iff in I as (x & <- & I). apply filter_In in I as [_ I]. lia. }
  assert (A2 : forall a, In a (map key (flat_map (fun k => sel k l) ks)) -> k < a).
  { intros a I. apply in_map_iff in I as (x & <- & I). apply in_flat_map in I as (j & J & I). apply filter_In in I as [_ I].
    rewrite Forall_forall in L. specialize (L j J). lia. }
  revert IH A1 A2. generalize (map key (sel k l)) as x. generalize (map key (flat_map (fun k => sel k l) ks)) as y. intros y x Sy A1 A2.
  induction x as [|a x IHx]; [exact Sy|]. cbn [app]. constructor.
  - apply IHx. intros b I. apply A1. now right.
  - apply Forall_forall. intros b I. pose proof (A1 a (or_introl eq_refl)). apply in_app_iff in I as [I|I]; [pose proof (A1 b (or_intror I)); lia|specialize (A2 b I); lia].
Qed.
End Keys.

(** Parts of a caller's, as engine_test.go:9-63 defines them, and an action that keeps a
    journal of its own. *)
Definition const_var {X} (l : list bs) (s : st X) : out (st X * list bs) := Ret (s, l).
Definition append_trans {X} (a : bs) (s : st X) (v : bs) : out (st X * bs) := Ret (s, v ++ a).
Definition eq_op {X} (a : bs) (s : st X) (v : bs) : out (st X * bool) := Ret (s, bs_eqb a v).
Definition log_action {X} (m : bs) : caction X := CAction 2 (fun s => Ret (logf m (fst s), snd s)).
Definition journal (g : Z) (m : bs) : caction (list bs) := CAction g (fun s => Ret (fst s, snd s ++ [m])).
Definition abort_action {X} : caction X := CAction 3 (fun s => Ret (abort_with_status 403 (fst s), snd s)).
Definition test_rule {X} (want : bs) (as_ : list (caction X)) (subs : list (crule X)) : crule X :=
  CRule [const_var [B "abc"]] [append_trans (B "d"); append_trans (B "ef")] (Some (eq_op want)) as_ false subs.
Definition fresh : txn := new_txn new_engine.

(** ** C29 *)
Lemma groups_by_groups : forall X (l : list (caction X)), (forall a, In a l -> known_group a) ->
  by_groups l (flat_map (c_bucket l) [0; 1; 2; 3; 4]).
Proof.
  intros X l K.
  assert (F : forall n, List.filter (fun a => ca_group a =? n) (flat_map (c_bucket l) [0; 1; 2; 3; 4]) = List.filter (fun a => ca_group a =? n) l).
  { intro n. cbn [flat_map]. unfold c_bucket. rewrite !filter_app, app_nil_r, !key_self.
    destruct (Z.eqb_spec n 0) as [->|N0]; [now rewrite ?app_nil_r|]. destruct (Z.eqb_spec n 1) as [->|N1]; [now rewrite ?app_nil_r|].
    destruct (Z.eqb_spec n 2) as [->|N2]; [now rewrite ?app_nil_r|]. destruct (Z.eqb_spec n 3) as [->|N3]; [now rewrite ?app_nil_r|].
    destruct (Z.eqb_spec n 4) as [->|N4]; [now rewrite ?app_nil_r|]. cbn [app]. symmetry. apply key_none. intros x I. specialize (K x I).
    unfold known_group in K. lia. }
  split; [now apply key_perm with (key := ca_group)|]. split; [|exact F].
  apply (key_sorted _ ca_group). repeat constructor; lia.
Qed.
Lemma run_in_turn : forall X (l : list (caction X)) s s', c_run l s = Ret s' <-> in_turn l s s'.
Proof.
  intros X l. induction l as [|a l IH]; intros s s'; cbn [c_run]; split; intro H.
  - apply Ret_inj in H. subst. constructor.
  - inversion H; subst. reflexivity.
  - apply bind_Ret in H as (s1 & H1 & H). econstructor; [exact H1|]. now apply IH.
  - inversion H as [|? ? ? s1 ? H1 H2]; subst. rewrite H1. cbn [bind]. now apply IH.
Qed.
(** Actions whose groups exist run one after the other by groups, in the order given inside
    a group; an action whose group does not exist panics before any action has run. *)
Theorem C29_any_actions_grouped : forall X (l : list (caction X)),
  ((forall a, In a l -> known_group a) ->
     exists g, by_groups l g /\ (forall g', by_groups l g' -> g' = g) /\ forall s s', c_actions l s = Ret s' <-> in_turn g s s') /\
  ((exists a, In a l /\ ~ known_group a) -> forall s, c_actions l s = Panic).
Proof.
  intros X l. split.
  - intro K. exists (flat_map (c_bucket l) [0; 1; 2; 3; 4]). pose proof (groups_by_groups X l K) as G. split; [exact G|]. split.
    + intros g' (P & S & F). destruct G as (_ & S' & F'). apply (key_determined _ ca_group); auto. intro n. now rewrite F, F'.
    + intros s s'. unfold c_actions. assert (E : forallb (fun a => (0 <=? ca_group a) && (ca_group a <? 5)) l = true).
      { apply forallb_forall. intros a I. specialize (K a I). unfold known_group in K. lia. }
      rewrite E. apply run_in_turn.
  - intros (a & I & N) s. unfold c_actions. destruct (forallb _ l) eqn:E; [|reflexivity].
    rewrite forallb_forall in E. specialize (E a I). unfold known_group in N. lia.
Qed.
Example C29_any_actions_example :
  let l := [journal 4 (B "flow"); journal 2 (B "x"); journal 0 (B "meta"); journal 2 (B "y")] in
  (forall a, In a l -> known_group a) /\
  c_actions l (fresh, []) = Ret (fresh, [B "meta"; B "x"; B "y"; B "flow"]) /\
  c_actions [journal 2 (B "x"); journal 5 (B "odd")] (fresh, []) = Panic.
Proof. split; [|split; reflexivity]. intros a I. unfold known_group. repeat (destruct I as [<-|I]; [simpl; lia|]). now destruct I. Qed.

(** ** C28 *)
Lemma match_subs_true : forall X (l : list (crule X)) s s', c_match_subs l s = Ret (s', true) <-> all_hit l s s'.
Proof.
  intros X l. induction l as [|r l IH]; intros s s'; cbn [c_match_subs]; split; intro H.
  - apply Ret_inj in H. injection H as <-. constructor.
  - inversion H; subst. reflexivity.
  - apply bind_Ret in H as ([s1 []] & H1 & H); [|discriminate]. econstructor; [exact H1|]. now apply IH.
  - inversion H as [|? ? ? s1 ? H1 H2]; subst. rewrite H1. cbn [bind]. now apply IH.
Qed.
Lemma match_subs_false : forall X (l : list (crule X)) s s', c_match_subs l s = Ret (s', false) <-> one_misses l s s'.
Proof.
  intros X l. induction l as [|r l IH]; intros s s'; cbn [c_match_subs]; split; intro H.
  - discriminate.
  - inversion H.
  - apply bind_Ret in H as ([s1 []] & H1 & H).
    + eapply om_later; [exact H1|]. now apply IH.
    + apply Ret_inj in H. injection H as <-. now apply om_here.
  - inversion H as [? ? ? ? H1|? ? ? s1 ? H1 H2]; subst; rewrite H1; cbn [bind]; [reflexivity|]. now apply IH.
Qed.
Lemma actions_by_groups : forall X (l : list (caction X)) s s', c_actions l s = Ret s' <->
  exists g, by_groups l g /\ (forall a, In a g -> known_group a) /\ in_turn g s s'.
Proof.
  intros X l s s'. destruct (C29_any_actions_grouped X l) as (G & B). split.
  - intro H. assert (K : forall a, In a l -> known_group a).
    { intros a I. unfold known_group. destruct (Z_le_dec 0 (ca_group a)) as [A|A]; [destruct (Z_le_dec (ca_group a) 4) as [C|C]; [lia|]|];
        (exfalso; rewrite (B (ex_intro _ a (conj I (fun Q : known_group a => ltac:(unfold known_group in Q; lia)))) s) in H; discriminate). }
    destruct (G K) as (g & BG & _ & E). exists g. split; [exact BG|]. split; [|now apply E].
    intros a I. apply K. destruct BG as (P & _). eapply Permutation_in; [apply Permutation_sym; exact P|exact I].
  - intros (g & BG & K & T). destruct G as (g' & BG' & U & E).
    + intros a I. apply K. destruct BG as (P & _). eapply Permutation_in; [exact P|exact I].
    + apply E. now rewrite <- (U g BG).
Qed.
Lemma subs_in_turn : forall X (l : list (crule X)) s s', c_subs_actions l s = Ret s' <-> chain_in_turn l s s'.
Proof.
  intros X l. induction l as [|r l IH]; intros s s'; cbn [c_subs_actions]; split; intro H.
  - apply Ret_inj in H. subst. constructor.
  - inversion H; subst. reflexivity.
  - apply bind_Ret in H as (s1 & H1 & H). apply actions_by_groups in H1 as (g & BG & K & T). econstructor; eauto. now apply IH.
  - inversion H as [|? ? g ? s1 ? BG K T H2]; subst.
    assert (H1 : c_actions (c_acts r) s = Ret s1) by (apply actions_by_groups; eauto). rewrite H1. cbn [bind]. now apply IH.
Qed.
(** A rule with its sub-rules either misses, and then nothing is executed, or all of them
    match and all their actions run. *)
Theorem C28_any_chain_all_or_nothing : forall X (r : crule X) s s', c_do_rule r s = Ret s' <->
  one_misses (r :: c_subs r) s s' \/
  exists s1, all_hit (r :: c_subs r) s s1 /\ chain_in_turn (r :: c_subs r) s1 s'.
Proof.
  intros X r s s'. unfold c_do_rule. split.
  - intro H. apply bind_Ret in H as ([s1 []] & H1 & H).
    + apply bind_Ret in H as ([s2 []] & H2 & H).
      * right. exists s2. split; [econstructor; [exact H1|now apply match_subs_true]|]. apply (subs_in_turn X (r :: c_subs r)). exact H.
      * apply Ret_inj in H. subst s2. left. eapply om_later; [exact H1|]. now apply match_subs_false.
    + apply Ret_inj in H. subst s1. left. now apply om_here.
  - intros [M|(s1 & A & C)].
    + inversion M as [? ? ? ? H1|? ? ? s1 ? H1 H2]; subst; rewrite H1; cbn [bind]; [reflexivity|].
      apply match_subs_false in H2. rewrite H2. reflexivity.
    + inversion A as [|? ? ? s2 ? H1 H2]; subst. rewrite H1. cbn [bind]. apply match_subs_true in H2. rewrite H2. cbn [bind].
      now apply (subs_in_turn X (r :: c_subs r)) in C.
Qed.
(** When a chain misses, what its actions are makes no difference. *)
Theorem C28_any_miss_runs_nothing : forall X (r r' : crule X) s s',
  one_misses (r :: c_subs r) s s' -> Forall2 same_test (r :: c_subs r) (r' :: c_subs r') -> c_do_rule r' s = Ret s'.
Proof.
  intros X r r' s s' M F. apply C28_any_chain_all_or_nothing. left. revert F. generalize (r' :: c_subs r') as l'.
  induction M as [q l s s1 E|q l s s1 s2 E M IH]; intros l' F; inversion F as [|? q' ? l'' (A & B & C & D) F']; subst;
    assert (E' : c_match q' s = c_match q s) by (unfold c_match; now rewrite A, B, C, D).
  - apply om_here. now rewrite E'.
  - eapply om_later; [rewrite E'; exact E|now apply IH].
Qed.
Example C28_any_chain_example :
  let sub w := test_rule w [journal 1 (B "sub")] [] in
  let r w := test_rule (B "abcdef") [journal 1 (B "main")] [sub w] in
  c_do_rule (r (B "abcdef")) (fresh, []) = Ret (fresh, [B "main"; B "sub"]) /\
  c_do_rule (r (B "other")) (fresh, []) = Ret (fresh, []) /\
  one_misses (r (B "other") :: c_subs (r (B "other"))) (fresh, []) (fresh, []) /\
  all_hit (r (B "abcdef") :: c_subs (r (B "abcdef"))) (fresh, []) (fresh, []).
Proof.
  cbv zeta. split; [vm_compute; reflexivity|]. split; [vm_compute; reflexivity|]. split.
  - eapply om_later; [vm_compute; reflexivity|]. apply om_here. vm_compute. reflexivity.
  - eapply ah_cons; [vm_compute; reflexivity|]. eapply ah_cons; [vm_compute; reflexivity|]. constructor.
Qed.

(** ** C25 and C07 *)
Lemma values_found : forall X op neg vs (s : st X) s', c_match_values op neg s vs = Ret (s', true) ->
  exists f v s1, op = Some f /\ In v vs /\ t_abort (fst s1) = false /\ f s1 v = Ret (s', negb neg).
Proof.
  intros X op neg vs. induction vs as [|v vs IH]; intros s s' H; cbn [c_match_values] in H; [discriminate|].
  destruct (t_abort (fst s)) eqn:A; [discriminate|]. destruct op as [f|]; [|discriminate].
  apply bind_Ret in H as ([s1 m] & H1 & H). destruct (negb (Bool.eqb neg m)) eqn:Q.
  - apply Ret_inj in H. injection H as <-. exists f, v, s. split; [reflexivity|]. split; [now left|]. split; [exact A|].
    rewrite H1. f_equal. f_equal. destruct neg, m; easy.
  - apply IH in H as (g & w & s2 & E & I & R). exists g, w, s2. split; [exact E|]. split; [now right|exact R].
Qed.
(** Any rule: a match is always due to some value fetched, for which the operator
    answered the opposite of the negation while the transaction was not aborted. *)
Theorem C25_any_match_has_a_value : forall X (r : crule X) s s', c_match r s = Ret (s', true) ->
  exists s1 vs f v s2, c_fetch_all (c_trans r) (c_vars r) s = Ret (s1, vs) /\ c_op r = Some f /\ In v vs /\
    t_abort (fst s2) = false /\ f s2 v = Ret (s', negb (c_not r)).
Proof.
  intros X r s s' H. unfold c_match in H. apply bind_Ret in H as ([s1 vs] & H1 & H).
  apply values_found in H as (f & v & s2 & E & I & A & F). exists s1, vs, f, v, s2. auto.
Qed.
(** An operator that only looks: the rule matches exactly if some value satisfies it, or fails
    to under negation, unless fetching aborted the transaction. *)
Theorem C25_any_looking_operator : forall X (r : crule X) f (h : st X -> bs -> bool) s s1 vs,
  c_op r = Some f -> (forall s v, f s v = Ret (s, h s v)) ->
  c_fetch_all (c_trans r) (c_vars r) s = Ret (s1, vs) ->
  exists m, c_match r s = Ret (s1, m) /\
    (m = true <-> t_abort (fst s1) = false /\ exists v, In v vs /\ h s1 v <> c_not r).
Proof.
  intros X r f h s s1 vs E P F. unfold c_match. rewrite F. cbn [bind]. rewrite E. clear E F.
  destruct (t_abort (fst s1)) eqn:A.
  - exists false. split; [destruct vs; cbn [c_match_values]; [reflexivity|now rewrite A]|]. split; [discriminate|]. now intros [H _].
  - induction vs as [|v vs IH]; cbn [c_match_values].
    + exists false. split; [reflexivity|]. split; [discriminate|]. now intros (_ & w & [] & _).
    + rewrite A, P. cbn [bind]. destruct IH as (m & IH & I). destruct (negb (Bool.eqb (c_not r) (h s1 v))) eqn:Q.
      * exists true. split; [reflexivity|]. split; [|reflexivity]. intros _. split; [reflexivity|]. exists v. split; [now left|].
        destruct (c_not r), (h s1 v); easy.
      * exists m. split; [exact IH|]. rewrite I. split; intros (_ & w & J & N); (split; [reflexivity|]).
        -- exists w. split; [now right|exact N].
        -- destruct J as [<-|J]; [destruct (c_not r), (h s1 v); easy|]. exists w. now split.
Qed.
Example C25_any_example :
  let r := test_rule (X := unit) (B "abcdef") [] [] in
  c_op r = Some (eq_op (B "abcdef")) /\ (forall s v, eq_op (X := unit) (B "abcdef") s v = Ret (s, bs_eqb (B "abcdef") v)) /\
  c_fetch_all (c_trans r) (c_vars r) (fresh, tt) = Ret ((fresh, tt), [B "abcdef"]) /\
  c_match r (fresh, tt) = Ret ((fresh, tt), true).
Proof. repeat split; vm_compute; reflexivity. Qed.
(** Transformations that only compute are applied left to right to every value. *)
Theorem C07_any_transformations_left_to_right : forall X (r : crule X) (hs : list (bs -> bs)) s s' vs,
  Forall2 (fun f h => forall s v, f s v = Ret (s, h v)) (c_trans r) hs ->
  (c_fetch_all (c_trans r) (c_vars r) s = Ret (s', vs) <->
   exists raw, c_fetch_all [] (c_vars r) s = Ret (s', raw) /\ vs = map (fun v => fold_left (fun v h => h v) hs v) raw).
Proof.
  intros X r hs s s' vs P.
  assert (T : forall s v, c_transform (c_trans r) s v = Ret (s, fold_left (fun v h => h v) hs v)).
  { induction P as [|f h ts hs F P IH]; intros u v; [reflexivity|]. cbn [c_transform fold_left]. rewrite F. cbn [bind]. apply IH. }
  assert (TA : forall l s, c_transform_all (c_trans r) s l = Ret (s, map (fun v => fold_left (fun v h => h v) hs v) l)).
  { induction l as [|v l IH]; intro u; [reflexivity|]. cbn [c_transform_all]. rewrite T. cbn [bind]. rewrite IH. reflexivity. }
  assert (T0 : forall l (s : st X), c_transform_all [] s l = Ret (s, l)).
  { induction l as [|v l IH]; intro u; [reflexivity|]. cbn [c_transform_all c_transform bind]. rewrite IH. reflexivity. }
  clear T P. revert s s' vs. induction (c_vars r) as [|f fs IH]; intros s s' vs; cbn [c_fetch_all].
  - split; [intro H; apply Ret_inj in H; injection H as <- <-; exists []; auto|]. intros (raw & H & ->). apply Ret_inj in H. injection H as <- <-. reflexivity.
  - destruct (f s) as [[s1 l]| |]; cbn [bind]; [|now split; [|intros (? & ? & _)]..]. rewrite TA, T0. cbn [bind].
    split.
    + intro H. apply bind_Ret in H as ([s2 rest] & H1 & H). apply Ret_inj in H. injection H as <- <-.
      apply IH in H1 as (raw & H1 & ->). rewrite H1. cbn [bind]. exists (l ++ raw). split; [reflexivity|]. symmetry. apply map_app.
    + intros (raw & H & ->). apply bind_Ret in H as ([s2 rest] & H1 & H). apply Ret_inj in H. injection H as <- <-.
      assert (H2 : c_fetch_all (c_trans r) fs s1 = Ret (s2, map (fun v => fold_left (fun v h => h v) hs v) rest)) by (apply IH; eauto).
      rewrite H2. cbn [bind]. now rewrite map_app.
Qed.
Example C07_any_example :
  let r := test_rule (X := unit) (B "abcdef") [] [] in
  Forall2 (fun f h => forall s v, f s v = Ret (s, h v)) (c_trans r) [fun v => v ++ B "d"; fun v => v ++ B "ef"] /\
  c_fetch_all [] (c_vars r) (fresh, tt) = Ret ((fresh, tt), [B "abc"]).
Proof. split; [repeat constructor|reflexivity]. Qed.

(** ** C25 and C07 for parts that change the transaction or the caller's state *)
(** Each part is called on the state the call before it left: the transformations on a value, ... *)
Inductive passes {X} : list (st X -> bs -> out (st X * bs)) -> st X -> bs -> st X -> bs -> Prop :=
| pa_none : forall s v, passes [] s v s v
| pa_next : forall ts f s v s1 v1 s2 v2, f s v = Ret (s1, v1) -> passes ts s1 v1 s2 v2 -> passes (f :: ts) s v s2 v2.
(** ... the values of a variable one after the other, ... *)
Inductive passes_each {X} (ts : list (st X -> bs -> out (st X * bs))) : st X -> list bs -> st X -> list bs -> Prop :=
| pe_none : forall s, passes_each ts s [] s []
| pe_next : forall s v vs s1 w s2 ws, passes ts s v s1 w -> passes_each ts s1 vs s2 ws -> passes_each ts s (v :: vs) s2 (w :: ws).
(** ... the variables, each with its values transformed before the next is fetched, ... *)
Inductive gathers {X} (ts : list (st X -> bs -> out (st X * bs))) : list (st X -> out (st X * list bs)) -> st X -> st X -> list bs -> Prop :=
| ga_none : forall s, gathers ts [] s s []
| ga_next : forall f fs s s1 vs s2 ws s3 rest, f s = Ret (s1, vs) -> passes_each ts s1 vs s2 ws -> gathers ts fs s2 s3 rest ->
    gathers ts (f :: fs) s s3 (ws ++ rest).
(** ... and the operator on the values, up to the first it is satisfied with or an abort. *)
Inductive asks {X} (op : option (st X -> bs -> out (st X * bool))) (neg : bool) : st X -> list bs -> st X -> bool -> Prop :=
| ak_none : forall s, asks op neg s [] s false
| ak_over : forall s vs, t_abort (fst s) = true -> asks op neg s vs s false
| ak_yes : forall f s v vs s1 m, op = Some f -> t_abort (fst s) = false -> f s v = Ret (s1, m) -> m <> neg -> asks op neg s (v :: vs) s1 true
| ak_no : forall f s v vs s1 s2 b, op = Some f -> t_abort (fst s) = false -> f s v = Ret (s1, neg) -> asks op neg s1 vs s2 b -> asks op neg s (v :: vs) s2 b.
Lemma passes_iff : forall X ts (s : st X) v s' w, c_transform ts s v = Ret (s', w) <-> passes ts s v s' w.
Proof.
  intros X ts. induction ts as [|f ts IH]; intros s v s' w; cbn [c_transform]; split; intro H.
  - apply Ret_inj in H. injection H as <- <-. constructor.
  - inversion H; subst; reflexivity.
  - apply bind_Ret in H as ([s1 v1] & H1 & H). econstructor; [exact H1|now apply IH].
  - inversion H as [|ts0 f0 s0 v0 s1 v1 s2 v2 H1 H2]; subst. rewrite H1. cbn [bind]. now apply IH.
Qed.
Lemma passes_each_iff : forall X ts vs (s : st X) s' ws, c_transform_all ts s vs = Ret (s', ws) <-> passes_each ts s vs s' ws.
Proof.
  intros X ts vs. induction vs as [|v vs IH]; intros s s' ws; cbn [c_transform_all]; split; intro H.
  - apply Ret_inj in H. injection H as <- <-. constructor.
  - inversion H; subst; reflexivity.
  - apply bind_Ret in H as ([s1 w] & H1 & H). apply bind_Ret in H as ([s2 l] & H2 & H). apply Ret_inj in H. injection H as <- <-.
    econstructor; [apply passes_iff; exact H1|apply IH; exact H2].
  - inversion H as [|s0 v0 vs0 s1 w s2 l H1 H2]; subst. apply passes_iff in H1. rewrite H1. cbn [bind]. apply IH in H2. now rewrite H2.
Qed.
Lemma gathers_iff : forall X ts fs (s : st X) s' l, c_fetch_all ts fs s = Ret (s', l) <-> gathers ts fs s s' l.
Proof.
  intros X ts fs. induction fs as [|f fs IH]; intros s s' l; cbn [c_fetch_all]; split; intro H.
  - apply Ret_inj in H. injection H as <- <-. constructor.
  - inversion H; subst; reflexivity.
  - apply bind_Ret in H as ([s1 vs] & H1 & H). apply bind_Ret in H as ([s2 ws] & H2 & H). apply bind_Ret in H as ([s3 rest] & H3 & H). apply Ret_inj in H. injection H as <- <-.
    econstructor; [exact H1|apply passes_each_iff; exact H2|apply IH; exact H3].
  - inversion H as [|f0 fs0 s0 s1 vs s2 ws s3 rest H1 H2 H3]; subst. rewrite H1. cbn [bind]. apply passes_each_iff in H2. rewrite H2. cbn [bind]. apply IH in H3. now rewrite H3.
Qed.
Lemma asks_iff : forall X op neg vs (s : st X) s' b, c_match_values op neg s vs = Ret (s', b) <-> asks op neg s vs s' b.
Proof.
  intros X op neg vs. induction vs as [|v vs IH]; intros s s' b; cbn [c_match_values]; split; intro H.
  - apply Ret_inj in H. injection H as <- <-. constructor.
  - inversion H; subst; reflexivity.
  - destruct (t_abort (fst s)) eqn:A; [apply Ret_inj in H; injection H as <- <-; now apply ak_over|]. destruct op as [f|] eqn:OP; [|discriminate].
    apply bind_Ret in H as ([s1 m] & H1 & H). destruct (negb (Bool.eqb neg m)) eqn:Q.
    + apply Ret_inj in H. injection H as <- <-. apply (ak_yes _ _ f s v vs s1 m); auto. destruct neg, m; easy.
    + apply (ak_no _ _ f s v vs s1); auto; [|now apply IH]. rewrite H1. do 2 f_equal. destruct neg, m; easy.
  - inversion H as [|s0 vs0 A|f s0 v0 vs0 s1 m OP A E N|f s0 v0 vs0 s1 s2 b0 OP A E R]; subst; rewrite A; [reflexivity| |]; rewrite E; cbn [bind].
    + replace (negb (Bool.eqb neg m)) with true by (destruct neg, m; easy). reflexivity.
    + rewrite Bool.eqb_reflx. cbn [negb]. now apply IH.
Qed.
Theorem C25_any_match_exactly : forall X (r : crule X) s s' b, c_match r s = Ret (s', b) <->
  exists s1 vs, gathers (c_trans r) (c_vars r) s s1 vs /\ asks (c_op r) (c_not r) s1 vs s' b.
Proof.
  intros X r s s' b. unfold c_match. split.
  - intro H. apply bind_Ret in H as ([s1 vs] & H1 & H2). exists s1, vs. split; [now apply gathers_iff|now apply asks_iff].
  - intros (s1 & vs & H1 & H2). apply gathers_iff in H1. rewrite H1. cbn [bind]. now apply asks_iff.
Qed.
(** Parts that count their calls: two transformations on two values, an operator satisfied with the third call of its own. *)
Example C25_any_match_exactly_example :
  let tr : st nat -> bs -> out (st nat * bs) := fun s v => Ret ((fst s, (snd s + 1)%nat), v ++ itoa (Z.of_nat (snd s))) in
  let op : st nat -> bs -> out (st nat * bool) := fun s v => Ret ((fst s, (snd s + 10)%nat), (20 <? snd s)%nat) in
  let r := CRule [fun s => Ret (s, [B "a"; B "b"]); fun s => Ret (s, [B "c"; B "d"])] [tr; tr] (Some op) [] false [] in
  gathers (c_trans r) (c_vars r) (fresh, 0%nat) (fresh, 8%nat) [B "a01"; B "b23"; B "c45"; B "d67"] /\
  asks (c_op r) (c_not r) (fresh, 8%nat) [B "a01"; B "b23"; B "c45"; B "d67"] (fresh, 38%nat) true /\
  c_match r (fresh, 0%nat) = Ret ((fresh, 38%nat), true).
Proof. cbv zeta. split; [apply gathers_iff; reflexivity|]. split; [apply asks_iff; reflexivity|reflexivity]. Qed.

(** ** C31, C32, C36 *)
Lemma touch_place : forall t, place (touch_iv t) = place t.
Proof. reflexivity. Qed.
Lemma loop_in_turn : forall X (m : cset X) p l n pre s s', l <> [] -> c_phase p m = pre ++ l -> n = Z.of_nat (length pre) -> Forall stays l ->
  place (fst s) = (p, n, if c_count m p <=? n + 1 then -2 else n + 1) ->
  (forall fuel, c_loop fuel m p n s = Ret s' -> rules_in_turn (c_count m p) n l s s') /\
  (rules_in_turn (c_count m p) n l s s' -> forall fuel, (length l < fuel)%nat -> c_loop fuel m p n s = Ret s').
Proof.
  intros X m p l. induction l as [|r l IH]; intros n pre s s' NE E -> ST PL; [easy|]. apply Forall_cons_iff in ST as [Sr ST].
  unfold place in PL. injection PL as Pp Pc Pn.
  assert (C : c_count m p = Z.of_nat (length pre) + 1 + Z.of_nat (length l)) by (unfold c_count; rewrite E, app_length; cbn [length]; lia).
  assert (PR : c_process_rule m p (Z.of_nat (length pre)) s = c_do_rule r s).
  { unfold c_process_rule. destruct (Z.ltb_spec (Z.of_nat (length pre)) (c_count m p)) as [_|Q]; [|lia].
    destruct (Z.ltb_spec (Z.of_nat (length pre)) 0) as [Q|_]; [lia|]. rewrite Nat2Z.id, E, nth_error_app2, Nat.sub_diag by lia. reflexivity. }
  assert (ON : (t_phase (fst s) =? p) && negb (Z.of_nat (length pre) =? StatusEndOfRules) = true) by (unfold StatusEndOfRules; lia).
  assert (NX : forall t1 x, c_do_rule r s = Ret (t1, x) -> t_phase t1 = p /\
     c_next m (touch_iv t1) = match l with [] => (-2, with_pos (touch_iv t1) (t_phase t1) (-2) (-2))
       | _ => (Z.of_nat (length pre) + 1, with_pos (touch_iv t1) (t_phase t1) (Z.of_nat (length pre) + 1)
                (if c_count m p <=? Z.of_nat (length pre) + 2 then -2 else Z.of_nat (length pre) + 2)) end).
  { intros t1 x H. pose proof (Sr _ _ H) as Q. unfold place in Q. cbn [fst] in Q. injection Q as Q1 Q2 Q3. rewrite Pp in Q1. rewrite Pn in Q3.
    split; [exact Q1|]. unfold c_next. change (t_next (touch_iv t1)) with (t_next t1). change (t_phase (touch_iv t1)) with (t_phase t1). rewrite Q3, Q1.
    unfold StatusEndOfRules. destruct l as [|r2 l].
    - cbn [length] in C. destruct (Z.leb_spec (c_count m p) (Z.of_nat (length pre) + 1)) as [_|Q]; [|lia]. reflexivity.
    - cbn [length] in C. destruct (Z.leb_spec (c_count m p) (Z.of_nat (length pre) + 1)) as [Q|_]; [lia|].
      destruct (Z.eqb_spec (Z.of_nat (length pre) + 1) (-2)) as [Q|_]; [lia|].
      replace (Z.of_nat (length pre) + 1 + 1) with (Z.of_nat (length pre) + 2) by lia. reflexivity. }
  assert (GT : forall t1, get_iv (touch_iv t1) = get_iv t1) by reflexivity.
  assert (NEXT : forall t1 x, l <> [] -> c_do_rule r s = Ret (t1, x) ->
    let s2 := (with_pos (touch_iv t1) (t_phase t1) (Z.of_nat (length pre) + 1) (if c_count m p <=? Z.of_nat (length pre) + 2 then -2 else Z.of_nat (length pre) + 2), x) in
    (forall fuel, c_loop fuel m p (Z.of_nat (length pre) + 1) s2 = Ret s' -> rules_in_turn (c_count m p) (Z.of_nat (length pre) + 1) l s2 s') /\
    (rules_in_turn (c_count m p) (Z.of_nat (length pre) + 1) l s2 s' -> forall fuel, (length l < fuel)%nat -> c_loop fuel m p (Z.of_nat (length pre) + 1) s2 = Ret s')).
  { intros t1 x N H s2. destruct (NX _ _ H) as [Q1 _].
    apply (IH (Z.of_nat (length pre) + 1) (pre ++ [r])); [exact N|now rewrite E, <- app_assoc|rewrite app_length; cbn [length]; lia|exact ST|].
    unfold place, s2. cbn [fst t_phase t_cur t_next with_pos]. rewrite Q1.
    now replace (Z.of_nat (length pre) + 1 + 1) with (Z.of_nat (length pre) + 2) by lia. }
  split.
  - intros [|fuel] H; [discriminate|]. cbn [c_loop] in H. rewrite ON, PR in H. apply bind_Ret in H as ([t1 x] & H1 & H).
    rewrite GT in H. destruct (i_disruptive (get_iv t1)) eqn:D.
    + apply Ret_inj in H. subst s'. now apply rt_stop.
    + destruct (NX _ _ H1) as [Q1 Q2]. rewrite Q2 in H. destruct l as [|r2 l].
      * destruct fuel as [|fuel]; [discriminate|]. cbn [c_loop] in H.
        replace ((_ =? p) && negb (-2 =? StatusEndOfRules)) with false in H by (unfold StatusEndOfRules; lia).
        apply Ret_inj in H. subst s'. now apply rt_last.
      * eapply rt_next; [discriminate|exact H1|exact D|]. now apply (NEXT t1 x ltac:(discriminate) H1) in H.
  - intros H fuel F. destruct fuel as [|fuel]; [lia|]. cbn [length] in F. cbn [c_loop]. rewrite ON, PR. clear Pp Pc Pn.
    inversion H as [? ? ? ? t1 x H1 D|? ? ? t1 x H1 D|? ? ? ? t1 x ? N H1 D R]; subst; rewrite H1; cbn [bind]; rewrite GT, D; [reflexivity| |].
    + destruct (NX _ _ H1) as [_ Q2]. rewrite Q2. destruct fuel as [|fuel]; [lia|]. cbn [c_loop].
      replace ((_ =? p) && negb (-2 =? StatusEndOfRules)) with false by (unfold StatusEndOfRules; lia). reflexivity.
    + destruct (NX _ _ H1) as [_ Q2]. rewrite Q2. destruct l as [|r2 l]; [easy|]. apply (NEXT t1 x N H1); [exact R|lia].
Qed.
Lemma enter_phase : forall X fuel (m : cset X) p t x, 1 <= p <= 6 -> t_phase t < p -> t_abort t = false ->
  c_process_phase fuel m p (t, x) = c_loop fuel m p 0 (with_pos t p 0 (if c_count m p <=? 1 then -2 else 1), x).
Proof.
  intros X fuel m p t x P L A. unfold c_process_phase. destruct (Z.leb_spec p (t_phase t)) as [Q|_]; [lia|].
  assert (J : jump_to_phase p t = with_pos t p (-1) 0).
  { unfold jump_to_phase, PhaseBegin, PhaseEnd, StatusNotStarted. destruct (Z.ltb_spec p 0); [lia|]. destruct (Z.leb_spec 7 p); [lia|]. reflexivity. }
  rewrite J. change (t_abort (with_pos t p (-1) 0)) with (t_abort t). rewrite A. reflexivity.
Qed.
(** A phase whose rules leave the cursor alone evaluates them one after the other from the
    first, each once, up to the first that leaves a disruptive intervention; and it comes
    to an end if they do. *)
Theorem C31_any_rules_in_order : forall X (m : cset X) p t x s',
  1 <= p <= 6 -> t_phase t < p -> t_abort t = false -> c_phase p m <> [] -> Forall stays (c_phase p m) ->
  let s := (with_pos t p 0 (if c_count m p <=? 1 then -2 else 1), x) in
  (forall fuel, c_process_phase fuel m p (t, x) = Ret s' -> rules_in_turn (c_count m p) 0 (c_phase p m) s s') /\
  (rules_in_turn (c_count m p) 0 (c_phase p m) s s' ->
   forall fuel, (length (c_phase p m) < fuel)%nat -> c_process_phase fuel m p (t, x) = Ret s').
Proof.
  intros X m p t x s' P L A N ST s.
  destruct (loop_in_turn X m p (c_phase p m) 0 [] s s' N eq_refl eq_refl ST ltac:(reflexivity)) as (H1 & H2).
  split; [intro fuel|intros R fuel F]; rewrite enter_phase by auto; [apply H1|now apply H2].
Qed.
(** The same for termination: no phase hangs if its rules end and leave the cursor alone. *)
Theorem C32_any_phase_ends : forall X fuel (m : cset X) p t x,
  1 <= p <= 6 -> Forall stays (c_phase p m) -> (forall r s, In r (c_phase p m) -> c_do_rule r s <> Timeout) ->
  (length (c_phase p m) + 1 < fuel)%nat -> c_process_phase fuel m p (t, x) <> Timeout.
Proof.
  intros X fuel m p t x P ST NT F. destruct (Z_lt_dec (t_phase t) p) as [L|L].
  2:{ unfold c_process_phase. destruct (Z.leb_spec p (t_phase t)); [discriminate|lia]. }
  destruct (t_abort t) eqn:A.
  { unfold c_process_phase. destruct (Z.leb_spec p (t_phase t)); [lia|]. change (t_abort (jump_to_phase p t)) with (t_abort t). rewrite A. discriminate. }
  rewrite enter_phase by auto.
  assert (G : forall l n pre fuel s, c_phase p m = pre ++ l -> n = Z.of_nat (length pre) -> (length l + 1 < fuel)%nat ->
     place (fst s) = (p, n, if c_count m p <=? n + 1 then -2 else n + 1) -> c_loop fuel m p n s <> Timeout).
  { clear t x F L A fuel. induction l as [|r l IH]; intros n pre fuel s E -> F PL; (destruct fuel as [|fuel]; [lia|]); cbn [c_loop];
      unfold place in PL; injection PL as Pp Pc Pn; (destruct ((t_phase (fst s) =? p) && _); [|discriminate]).
    - unfold c_process_rule. rewrite app_nil_r in E.
      destruct (Z.ltb_spec (Z.of_nat (length pre)) (c_count m p)) as [Q|_]; [unfold c_count in Q; rewrite E in Q; lia|].
      destruct s as [t x]. cbn [bind]. destruct (i_disruptive _); [discriminate|]. cbn [fst] in *. unfold c_next.
      change (t_next (touch_iv t)) with (t_next t). rewrite Pn.
      assert (C : (c_count m p <=? Z.of_nat (length pre) + 1) = true) by (unfold c_count; rewrite E; lia). rewrite C.
      change (-2 =? StatusEndOfRules) with true. cbv iota. destruct fuel as [|fuel]; [cbn [length] in F; lia|]. cbn [c_loop].
      replace ((_ =? p) && negb _) with false by (unfold StatusEndOfRules; lia). discriminate.
    - assert (C : c_count m p = Z.of_nat (length pre) + 1 + Z.of_nat (length l)) by (unfold c_count; rewrite E, app_length; cbn [length]; lia).
      assert (PR : c_process_rule m p (Z.of_nat (length pre)) s = c_do_rule r s).
      { unfold c_process_rule. destruct (Z.ltb_spec (Z.of_nat (length pre)) (c_count m p)) as [_|Q]; [|lia].
        destruct (Z.ltb_spec (Z.of_nat (length pre)) 0) as [Q|_]; [lia|]. rewrite Nat2Z.id, E, nth_error_app2, Nat.sub_diag by lia. reflexivity. }
      rewrite PR. assert (IR : In r (c_phase p m)) by (rewrite E; apply in_app_iff; right; now left).
      destruct (c_do_rule r s) as [[t1 x1]| |] eqn:D; cbn [bind]; [|discriminate|now elim (NT r s IR)].
      destruct (i_disruptive _); [discriminate|].
      rewrite Forall_forall in ST. pose proof (ST r IR _ _ D) as Q. unfold place in Q. cbn [fst] in Q. injection Q as Q1 Q2 Q3.
      unfold c_next. change (t_next (touch_iv t1)) with (t_next t1). change (t_phase (touch_iv t1)) with (t_phase t1).
      rewrite Q3, Pn, Q1, Pp. unfold StatusEndOfRules in *.
      destruct (Z.leb_spec (c_count m p) (Z.of_nat (length pre) + 1)) as [Z1|Z1].
      + change (-2 =? -2) with true. cbv iota. cbn [length] in F. destruct fuel as [|fuel]; [lia|]. cbn [c_loop].
        replace ((_ =? p) && negb _) with false by (unfold StatusEndOfRules; lia). discriminate.
      + destruct (Z.eqb_spec (Z.of_nat (length pre) + 1) (-2)) as [Q|_]; [lia|].
        apply (IH _ (pre ++ [r])); [now rewrite E, <- app_assoc|rewrite app_length; cbn [length]; lia|cbn [length] in F; lia|].
        reflexivity. }
  apply (G (c_phase p m) 0 []); [reflexivity|reflexivity|exact F|reflexivity].
Qed.
Definition logging_rule (m : bs) : crule (list bs) := test_rule (B "abcdef") [log_action m; journal 2 m] [].
Lemma logging_rule_does : forall m t x, c_do_rule (logging_rule m) (t, x) =
  if t_abort t then Ret (t, x) else Ret (logf m t, x ++ [m]).
Proof. intros m t x. unfold c_do_rule, c_match. cbn -[bs_eqb B]. destruct (t_abort t); [reflexivity|]. reflexivity. Qed.
Example C31_any_example :
  let m := [(1, [logging_rule (B "one"); logging_rule (B "two"); test_rule (B "abcdef") [abort_action] []; logging_rule (B "three")])] in
  c_phase 1 m <> [] /\ Forall stays (c_phase 1 m) /\ (forall r s, In r (c_phase 1 m) -> c_do_rule r s <> Timeout) /\
  exists t', c_process_phase 9 m 1 (fresh, []) = Ret (t', [B "one"; B "two"]) /\ t_abort t' = true.
Proof.
  cbv zeta. split; [discriminate|].
  assert (A : forall t (x : list bs), c_do_rule (test_rule (B "abcdef") [abort_action] []) (t, x) =
    if t_abort t then Ret (t, x) else Ret (abort_with_status 403 t, x)).
  { intros t x. unfold c_do_rule, c_match. cbn -[bs_eqb B]. destruct (t_abort t); reflexivity. }
  assert (L : forall m, stays (logging_rule m)).
  { intros m [t x] s' H. rewrite logging_rule_does in H. destruct (t_abort t); apply Ret_inj in H; subst s'; reflexivity. }
  split; [|split].
  - cbn [c_phase Z.eqb]. constructor; [apply L|]. constructor; [apply L|]. constructor; [|constructor; [apply L|constructor]].
    intros [t x] s' H. rewrite A in H. destruct (t_abort t); apply Ret_inj in H; subst s'; reflexivity.
  - intros r [t x] I. cbn [c_phase Z.eqb] in I.
    destruct I as [<-|[<-|[<-|[<-|[]]]]]; rewrite ?logging_rule_does, ?A; destruct (t_abort t); discriminate.
  - eexists. split; [vm_compute; reflexivity|reflexivity].
Qed.

(** ** C35, C30 *)
(** Once a transaction is aborted, or past a phase, none of the callers' parts is run any more:
    the outcome is the same whatever the rules are. *)
Theorem C35_any_abort_is_final : forall X fuel fuel' (m m' : cset X) os t x,
  t_abort t = true -> c_steps fuel m os (t, x) = c_steps fuel' m' os (t, x) /\
  forall t' x' bl, c_steps fuel m os (t, x) = Ret ((t', x'), bl) -> t_abort t' = true /\ x' = x.
Proof.
  intros X fuel fuel' m m' os. induction os as [|o os IH]; intros t x A; cbn [c_steps].
  - split; [reflexivity|]. intros t' x' bl H. apply Ret_inj in H. injection H as <- <- _. auto.
  - assert (PH : forall fuel (m : cset X) p t, t_abort t = true -> exists t1, t_abort t1 = true /\ c_process_phase fuel m p (t, x) = Ret (t1, x) /\
        forall fuel' (m' : cset X), c_process_phase fuel' m' p (t, x) = Ret (t1, x)).
    { clear. intros fuel m p t A. exists (if p <=? t_phase t then t else jump_to_phase p t).
      assert (K : forall fuel (m : cset X), c_process_phase fuel m p (t, x) = Ret (if p <=? t_phase t then t else jump_to_phase p t, x)).
      { intros. unfold c_process_phase. destruct (p <=? t_phase t); [reflexivity|]. change (t_abort (jump_to_phase p t)) with (t_abort t). now rewrite A. }
      split; [now destruct (p <=? t_phase t)|]. auto. }
    assert (ST : exists y, c_step fuel m o (t, x) = y /\ c_step fuel' m' o (t, x) = y /\ (forall s b, y = Ret (s, b) -> t_abort (fst s) = true /\ snd s = x)).
    { destruct o; cbn [c_step]; try (match goal with |- context [c_process_phase fuel m ?p (?u, x)] =>
          destruct (PH fuel m p u A) as (t1 & A1 & E1 & E2); rewrite E1, (E2 fuel' m'); cbn [bind]; eexists; split; [reflexivity|]; split; [reflexivity|];
          intros s b H; apply Ret_inj in H; injection H as <- _; now split end).
      - eexists; split; [reflexivity|]; split; [reflexivity|]. intros s b H. apply Ret_inj in H. injection H as <- _. now split.
      - eexists; split; [reflexivity|]; split; [reflexivity|]. intros s b H. apply bind_Ret in H as ([[b1 n] er] & _ & H). apply Ret_inj in H. injection H as <- _. now split.
      - eexists; split; [reflexivity|]; split; [reflexivity|]. intros s b H. apply bind_Ret in H as ([[b1 n] er] & _ & H). apply Ret_inj in H. injection H as <- _. now split.
      - eexists; split; [reflexivity|]; split; [reflexivity|]. intros s b H. unfold result in H. apply Ret_inj in H. injection H as <- _.
        change (t_abort (touch_iv t)) with (t_abort t). rewrite A. now split.
      - eexists; split; [reflexivity|]; split; [reflexivity|]. intros s b H. apply Ret_inj in H. injection H as <- _. now split. }
    destruct ST as (y & -> & -> & K). destruct y as [[[t1 x1] b]| |]; cbn [bind]; [|split; [reflexivity|discriminate]..].
    destruct (K _ _ eq_refl) as [A1 X1]. cbn [fst snd] in A1, X1. subst x1. destruct (IH t1 x A1) as [E R]. rewrite <- E.
    split; [reflexivity|]. intros t' x' bl H. apply bind_Ret in H as ([[t2 x2] bl2] & H & H2). apply Ret_inj in H2. injection H2 as <- <- _. eauto.
Qed.
Example C35_any_example :
  let m := [(1, [test_rule (B "abcdef") [abort_action] []]); (2, [logging_rule (B "late")])] in
  exists t, c_steps 9 m [OpConnection [] [] [] []; OpRequestHeader []] (fresh, []) = Ret ((t, []), [ObsNone; ObsNone]) /\ t_abort t = true.
Proof. eexists. split; [vm_compute; reflexivity|reflexivity]. Qed.
Theorem C30_any_past_phase_is_not_run : forall X fuel (m : cset X) p t x, p <= t_phase t -> c_process_phase fuel m p (t, x) = Ret (t, x).
Proof. intros X fuel m p t x L. unfold c_process_phase. destruct (Z.leb_spec p (t_phase t)); [reflexivity|lia]. Qed.

Example C30_any_example : exists t, c_steps 9 [(2, [logging_rule (B "once")])] [OpRequestHeader []; OpRequestHeader []] (fresh, []) =
  Ret ((t, [B "once"]), [ObsNone; ObsNone]) /\ 2 <= t_phase t.
Proof. eexists. split; [vm_compute; reflexivity|]. vm_compute. discriminate. Qed.

(** ** The repository's rules are such rules *)
Definition beside1 {X} (x : X) (m : out txn) : out (st X) :=
  match m with Ret t => Ret (t, x) | Panic => Panic | Timeout => Timeout end.
Section Own.
Variables (X : Type) (O : oracles) (e : engine) (rs : ruleset) (f : nat).
Notation orule := (@own_rule X f O e rs).
Lemma own_transform : forall ts (s : st X) v, c_transform (map (own_trans O) ts) s v = Ret (s, transform_string O ts v).
Proof. induction ts as [|t ts IH]; intros s v; [reflexivity|]. cbn [map c_transform transform_string own_trans bind]. apply IH. Qed.
Lemma own_transform_all : forall ts l (s : st X), c_transform_all (map (own_trans O) ts) s l = Ret (s, map (transform_string O ts) l).
Proof. intros ts l. induction l as [|v l IH]; intro s; [reflexivity|]. cbn [c_transform_all map]. rewrite own_transform. cbn [bind]. now rewrite IH. Qed.
Lemma own_fetch : forall r l t x, c_fetch_all (map (own_trans O) (r_trans r)) (map (@own_var X O e) l) (t, x) = beside x (fetch_all O e r l t).
Proof.
  intros r l. induction l as [|v l IH]; intros t x; [reflexivity|]. cbn [map c_fetch_all fetch_all]. unfold own_var at 1, transform_variable. cbn [fst snd].
  destruct (fetch O e v t) as [[t1 vs]| |]; cbn [bind]; [|reflexivity..]. rewrite own_transform_all. cbn [bind]. rewrite IH.
  destruct (fetch_all O e r l t1) as [[t2 b]| |]; reflexivity.
Qed.
Lemma own_values : forall r l t x, c_match_values (option_map (own_op O) (r_op r)) (r_not r) (t, x) l =
  match match_values O (t_abort t) r l with Ret m => Ret ((t, x) : st X, m) | Panic => Panic | Timeout => Timeout end.
Proof.
  intros r l t x. induction l as [|v l IH]; [reflexivity|]. cbn [c_match_values match_values fst]. destruct (t_abort t); [reflexivity|].
  destruct (r_op r) as [o|]; cbn [option_map]; [|reflexivity]. unfold own_op at 1. cbn [bind]. destruct (negb _); [reflexivity|exact IH].
Qed.
Lemma own_match : forall r t x, c_match (orule r) (t, x) = beside x (match_rule O e r t).
Proof.
  intros r t x. unfold c_match, match_rule.
  assert (E : c_trans (orule r) = map (own_trans O) (r_trans r) /\ c_vars (orule r) = map (own_var O e) (r_vars r) /\ c_op (orule r) = option_map (own_op O) (r_op r) /\ c_not (orule r) = r_not r) by (destruct r; auto).
  destruct E as (-> & -> & -> & ->). rewrite own_fetch. destruct (fetch_all O e r (r_vars r) t) as [[t1 vs]| |]; cbn [bind beside]; [|reflexivity..].
  rewrite own_values. destruct (match_values O (t_abort t1) r vs); reflexivity.
Qed.
Lemma own_match_subs : forall l t x, c_match_subs (map orule l) (t, x) = beside x (match_subs O e l t).
Proof.
  induction l as [|r l IH]; intros t x; [reflexivity|]. cbn [map c_match_subs match_subs]. rewrite own_match.
  destruct (match_rule O e r t) as [[t1 []]| |]; cbn [bind beside]; [apply IH|reflexivity..].
Qed.
Lemma own_run : forall l t x, c_run (map (@own_action X f rs) l) (t, x) = beside1 x (act_list f rs l t).
Proof.
  induction l as [|a l IH]; intros t x; [reflexivity|]. cbn [map c_run act_list]. unfold own_action at 1. cbn [ca_do fst snd].
  assert (E : own_do f rs a t = act1 f rs a t) by (destruct a; reflexivity). rewrite E.
  destruct (act1 f rs a t) as [t1| |]; cbn [bind]; [apply IH|reflexivity..].
Qed.
Lemma own_buckets : forall l ns, flat_map (c_bucket (map (@own_action X f rs) l)) (map Z.of_nat ns) = map (own_action f rs) (flat_map (bucket l) ns).
Proof.
  intros l ns. induction ns as [|n ns IH]; [reflexivity|]. cbn [map flat_map]. rewrite map_app, IH. f_equal. clear. unfold c_bucket, bucket.
  induction l as [|a l IH]; [reflexivity|]. cbn [map List.filter]. unfold own_action at 1. cbn [ca_group].
  assert (E : (group_of a =? Z.of_nat n) = Nat.eqb (action_group a) n) by (rewrite group_of_nat; lia). rewrite E.
  destruct (Nat.eqb (action_group a) n); cbn [map]; [now f_equal|exact IH].
Qed.
Lemma own_actions : forall l t x, c_actions (map (@own_action X f rs) l) (t, x) = beside1 x (actions_execute (S f) rs l t).
Proof.
  intros l t x. rewrite execute_eq, <- own_run. unfold c_actions.
  assert (E : forallb (fun a => (0 <=? ca_group a) && (ca_group a <? 5)) (map (@own_action X f rs) l) = true).
  { apply forallb_forall. intros c I. apply in_map_iff in I as (a & <- & _). now destruct a. }
  rewrite E. unfold grouped. now rewrite <- own_buckets.
Qed.
Lemma own_subs : forall l t x, c_subs_actions (map orule l) (t, x) = beside1 x (subs_execute (S f) rs l t).
Proof.
  induction l as [|r l IH]; intros t x; [reflexivity|]. cbn [map c_subs_actions subs_execute].
  assert (E : c_acts (orule r) = map (own_action f rs) (r_acts r)) by (now destruct r). rewrite E, own_actions.
  destruct (actions_execute (S f) rs (r_acts r) t) as [t1| |]; cbn [bind beside1]; [apply IH|reflexivity..].
Qed.
Lemma own_do_rule : forall r t x, c_do_rule (orule r) (t, x) = beside1 x (do_rule (S f) O e rs r t).
Proof.
  intros r t x. unfold c_do_rule, do_rule. rewrite own_match. destruct (match_rule O e r t) as [[t1 []]| |]; cbn [bind beside]; [|reflexivity..].
  assert (E : c_acts (orule r) = map (own_action f rs) (r_acts r) /\ c_subs (orule r) = map orule (r_subs r)) by (now destruct r).
  destruct E as [-> ->]. rewrite own_match_subs. destruct (match_subs O e (r_subs r) t1) as [[t2 []]| |]; cbn [bind beside]; [|reflexivity..].
  rewrite own_actions. destruct (actions_execute (S f) rs (r_acts r) t2) as [t3| |]; cbn [bind beside1]; [apply own_subs|reflexivity..].
Qed.
Lemma own_phase : forall p, c_phase p (@own_set X f O e rs) = map orule (phase_rules rs p).
Proof.
  intro p. unfold phase_rules, own_set. induction (rs_phases rs) as [|[q l] m IH]; [reflexivity|]. cbn [map fst snd c_phase zassoc].
  destruct (p =? q); [reflexivity|exact IH].
Qed.
Lemma own_count : forall p, c_count (@own_set X f O e rs) p = nrules rs p.
Proof. intro p. unfold c_count, nrules. now rewrite own_phase, map_length. Qed.
Lemma own_next : forall t, c_next (@own_set X f O e rs) t = next_rule rs t.
Proof. intro t. unfold c_next, next_rule. now rewrite own_count. Qed.
Lemma own_loop : forall fuel p n t x, c_loop fuel (@own_set X f O e rs) p n (t, x) = beside1 x (phase_loop fuel (S f) O e rs p n t).
Proof.
  induction fuel as [|fuel IH]; intros p n t x; [reflexivity|]. cbn [c_loop phase_loop fst]. destruct ((t_phase t =? p) && _); [|reflexivity].
  assert (E : c_process_rule (own_set f O e rs) p n (t, x) = beside1 x (process_rule (S f) O e rs p n t)).
  { unfold c_process_rule, process_rule. rewrite own_count. destruct (n <? nrules rs p); [|reflexivity]. destruct (n <? 0); [reflexivity|].
    rewrite own_phase, nth_error_map. destruct (nth_error (phase_rules rs p) (Z.to_nat n)); [apply own_do_rule|reflexivity]. }
  rewrite E. destruct (process_rule (S f) O e rs p n t) as [t1| |]; cbn [bind beside1]; [|reflexivity..].
  destruct (i_disruptive _); [reflexivity|]. rewrite own_next. destruct (next_rule rs (touch_iv t1)) as [n' t3]. apply IH.
Qed.
End Own.
Lemma own_process : forall X O e rs fuel p t (x : X),
  c_process_phase fuel (own_set (pred fuel) O e rs) p (t, x) = beside1 x (process_phase fuel O e rs p t).
Proof.
  intros X O e rs fuel p t x. unfold c_process_phase, process_phase, process_phase_inner. destruct (p <=? t_phase t); [reflexivity|].
  destruct (t_abort _); [reflexivity|]. rewrite own_next. destruct (next_rule rs (jump_to_phase p t)) as [n t1].
  destruct fuel as [|fuel]; [reflexivity|]. apply own_loop.
Qed.
(** Everything above speaks of the repository's rules too: any sequence of calls gives
    the same whether its rules are run as such or as a caller's. *)
Theorem C31_own_rules_are_such_rules : forall X fuel O e rs os t (x : X),
  c_steps fuel (own_set (pred fuel) O e rs) os (t, x) = beside x (steps fuel O e rs os t).
Proof.
  intros X fuel O e rs os. induction os as [|o os IH]; intros t x; [reflexivity|]. cbn [c_steps steps].
  assert (E : c_step fuel (own_set (pred fuel) O e rs) o (t, x) = beside x (step fuel O e rs o t)).
  { destruct o; cbn [c_step step]; try rewrite own_process; try (match goal with |- context [process_phase fuel O e rs ?p ?u] => destruct (process_phase fuel O e rs p u) end); try reflexivity.
    - destruct (buf_write ft p (t_reqbody t)) as [[[b n] er]| |]; reflexivity.
    - destruct (buf_write ft p (t_resbody t)) as [[[b n] er]| |]; reflexivity. }
  rewrite E. destruct (step fuel O e rs o t) as [[t1 b]| |]; cbn [bind beside]; [|reflexivity..]. rewrite IH.
  destruct (steps fuel O e rs os t1) as [[t2 bl]| |]; reflexivity.
Qed.
Example C31_own_example :
  exists t bl, steps 9 (demo MpErr) new_engine (add_rules [Rule 1 1 [VScalar SRemoteAddr] [] (Some (OpRx (B "1.2.3.4"))) [ADeny] false [] []] new_ruleset)
    [OpConnection (B "1.2.3.4") (B "5") [] []; OpResult] fresh = Ret (t, bl) /\
  match bl with [ObsNone; ObsResult i] => i_disruptive i | _ => false end = true.
Proof. eexists. eexists. split; [vm_compute; reflexivity|reflexivity]. Qed.

Print Assumptions C29_any_actions_grouped.
Print Assumptions C28_any_chain_all_or_nothing.
Print Assumptions C28_any_miss_runs_nothing.
Print Assumptions C25_any_match_has_a_value.
Print Assumptions C25_any_looking_operator.
Print Assumptions C25_any_match_exactly.
Print Assumptions C07_any_transformations_left_to_right.
Print Assumptions C31_any_rules_in_order.
Print Assumptions C32_any_phase_ends.
Print Assumptions C35_any_abort_is_final.
Print Assumptions C30_any_past_phase_is_not_run.
Print Assumptions C31_own_rules_are_such_rules.
