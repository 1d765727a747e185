(** Property theorem C27: what two loads of the same text have in common. *)
From Verif Require Import Base BaseFacts GoStrings Utils Buffer BufferFacts Types Transforms Operators Transaction Variables Rules Engine Scanner Loader
  SpecText NumFacts SpecVars VarFacts SpecRules PropText BodyFacts OrderFacts SpecParse SpecLoad LoadFacts TwiceFacts Witness.
From Coq Require Import ZifyBool.

(** The variables of the language that read a body. *)
Definition body_names : list vtok := [KArgs; KArgsNames; KArgsPost; KArgsPostNames; KRequestBody; KResponseBody].
(** Each rule of the text names at most one of them, with or without [&]. *)
Definition one_body_name (ds : list directive) : Prop :=
  forall vs o a, In (DRule vs o a) ds -> forall x y, In x vs -> In y vs -> In (pv_tok x) body_names -> In (pv_tok y) body_names ->
    pv_tok x = pv_tok y /\ pv_count x = pv_count y.

(** ** Loading *)
Lemma start_reads : forall t c v, start c t = Some v -> reads v = true -> In t body_names.
Proof. intros t c v H R. destruct t, c; vm_compute in H; try discriminate; injection H as <-; try discriminate; vm_compute; tauto. Qed.
Lemma call_kind : forall O c x y, apply_call O c x = Some y -> kind y = kind x.
Proof.
  intros O c x. revert c. induction x as [k f|s|g p|g p|x IH]; intros c y H; destruct c as [i|i]; cbn in H.
  - destruct (filter_include O i f); [|discriminate]. injection H as <-. reflexivity.
  - destruct (filter_exclude O i f); [|discriminate]. injection H as <-. reflexivity.
  - injection H as <-. reflexivity.
  - injection H as <-. reflexivity.
  - destruct (filter_include O i g); [|discriminate]. destruct (filter_include O i p); [|discriminate]. injection H as <-. reflexivity.
  - destruct (filter_exclude O i g); [|discriminate]. destruct (filter_exclude O i p); [|discriminate]. injection H as <-. reflexivity.
  - destruct (filter_include O i g); [|discriminate]. destruct (filter_include O i p); [|discriminate]. injection H as <-. reflexivity.
  - destruct (filter_exclude O i g); [|discriminate]. destruct (filter_exclude O i p); [|discriminate]. injection H as <-. reflexivity.
  - destruct (var_include O i x) as [z|] eqn:E; [|discriminate]. injection H as <-. cbn. apply (IH (Inc i)). exact E.
  - destruct (var_exclude O i x) as [z|] eqn:E; [|discriminate]. injection H as <-. cbn. apply (IH (Exc i)). exact E.
Qed.
Lemma calls_kind : forall O cs x y, apply_calls O cs x = Some y -> kind y = kind x.
Proof.
  intros O. induction cs as [|c cs IH]; intros x y H; simpl in H; [now injection H as <-|].
  destruct (apply_call O c x) as [z|] eqn:E; [|discriminate]. apply IH in H. apply call_kind in E. congruence.
Qed.
Lemma stands_reads : forall O vs t c x, stands_for O vs (t, c) x -> reads x = true -> In t body_names.
Proof.
  intros O vs t c x (fr & S1 & S2) R. apply calls_kind in S2. apply (start_reads t c fr S1). unfold reads in *. now rewrite <- S2.
Qed.
Lemma one_loaded : forall O n vs l, ord_valid O -> apply_variables O n vs = Some l ->
  (forall x y, In x vs -> In y vs -> In (pv_tok x) body_names -> In (pv_tok y) body_names -> pv_tok x = pv_tok y /\ pv_count x = pv_count y) -> one l.
Proof.
  intros O n vs l V H U. destruct (apply_variables_spec O n vs l V H) as (ks & N & M & F).
  assert (G : forall k1 k2, In k1 ks -> In k2 ks -> In (fst k1) body_names -> In (fst k2) body_names -> k1 = k2).
  { intros [t1 c1] [t2 c2] I1 I2 B1 B2. apply M in I1 as (x & X & <- & <-). apply M in I2 as (y & Y & <- & <-). destruct (U x y X Y B1 B2) as [-> ->]. reflexivity. }
  clear M U H. unfold one. induction F as [|k x ks l S F IH]; [simpl; lia|]. inversion N as [|? ? NI N']; subst. cbn [List.filter].
  destruct (reads x) eqn:R; [|apply IH; auto; intros; apply G; simpl; auto]. destruct k as [t c]. pose proof (stands_reads _ _ _ _ _ S R) as B1.
  assert (E : List.filter reads l = []); [|rewrite E; simpl; lia].
  assert (Q : forall k, In k ks -> ~ In (fst k) body_names) by (intros k K B2; apply NI; rewrite (G (t, c) k (or_introl eq_refl) (or_intror K) B1 B2); exact K).
  clear - F Q. induction F as [|[t' c'] y ks l S F IH]; [reflexivity|]. cbn [List.filter]. destruct (reads y) eqn:R.
  - exfalso. apply (Q (t', c')); [now left|]. now apply (stands_reads _ _ _ _ _ S).
  - apply IH. intros k K. apply Q. now right.
Qed.

Section Load.
Variables (O1 O2 : oracles) (b : bool).
Hypothesis RX : forall p, rx_ok O1 p = rx_ok O2 p.
Hypothesis V1 : ord_valid O1.
Hypothesis V2 : ord_valid O2.
Inductive dire_sim : dire -> dire -> Prop :=
| ds_rule : forall r1 r2, rule_sim b r1 r2 -> dire_sim (IRule r1) (IRule r2)
| ds_other : forall d, (forall r, d <> IRule r) -> dire_sim d d.
Definition single (d : directive) : Prop :=
  match d with
  | DRule vs _ _ => b = true -> forall x y, In x vs -> In y vs -> In (pv_tok x) body_names -> In (pv_tok y) body_names -> pv_tok x = pv_tok y /\ pv_count x = pv_count y
  | _ => True
  end.

Lemma list_same : forall vs ms, apply_variable_list O1 vs ms = apply_variable_list O2 vs ms.
Proof.
  induction vs as [|v vs IH]; intro ms; cbn [apply_variable_list]; [reflexivity|].
  assert (E : apply_variable O1 v ms = apply_variable O2 v ms).
  { destruct ms as [vm cm]. unfold apply_variable. destruct (var_factory (pv_tok v)); [|reflexivity].
    destruct (negb (pv_count v)); rewrite !select_calls, (calls_same O1 O2 RX); reflexivity. }
  rewrite E. destruct (apply_variable O2 v ms); auto.
Qed.
Lemma factory_sim : forall n1 n2 d, single d ->
  match dire_factory O1 n1 d, dire_factory O2 n2 d with
  | Some (IRule r1, c1), Some (IRule r2, c2) => sim b r1 r2 /\ r_subs r1 = [] /\ r_subs r2 = [] /\ c1 = c2
  | Some (d1, _), Some (d2, _) => d1 = d2
  | None, None => True
  | _, _ => False
  end.
Proof.
  intros n1 n2 d S. destruct d as [vs o a|x|x|x]; try reflexivity. cbn [dire_factory]. unfold rule_from_seclang.
  assert (E : operator_factory O1 o = operator_factory O2 o) by (unfold operator_factory, new_rx; now rewrite RX). rewrite E.
  destruct (apply_variables O1 n1 vs) as [l1|] eqn:A1, (apply_variables O2 n2 vs) as [l2|] eqn:A2.
  - destruct (operator_factory O2 o) as [op|]; [|exact I]. destruct (apply_action_list (pas_acts a) [] []) as [[meta acts]|]; [|exact I]. cbn.
    split; [|auto]. unfold sim. cbn. repeat (split; [reflexivity|]). split; [now apply (variables_perm O1 O2 n1 n2 vs)|].
    intro B. right. apply (one_loaded O1 n1 vs l1 V1 A1). now apply S.
  - unfold apply_variables in *. rewrite list_same in A1. destruct (apply_variable_list O2 vs ([], [])) as [[? ?]|]; discriminate.
  - unfold apply_variables in *. rewrite list_same in A1. destruct (apply_variable_list O2 vs ([], [])) as [[? ?]|]; discriminate.
  - exact I.
Qed.
Lemma sub_sim : forall l1 l2, Forall2 dire_sim l1 l2 -> forall i s1 s2, sim b s1 s2 -> Forall2 dire_sim (add_sub_at i s1 l1) (add_sub_at i s2 l2).
Proof.
  induction 1 as [|d1 d2 l1 l2 D F IH]; intros i s1 s2 S; [destruct i; constructor|]. destruct D as [r1 r2 (R1 & R2)|d N].
  - destruct i as [|i]; cbn [add_sub_at]; (constructor; [|auto]); constructor; split; cbn; auto. apply Forall2_app; auto.
  - destruct i as [|i]; destruct d; cbn [add_sub_at]; try (now exfalso; eapply N); (constructor; [now apply ds_other|auto]).
Qed.
Lemma dires_sim : forall ds n1 n2 parent l1 l2, Forall single ds -> Forall2 dire_sim l1 l2 ->
  snd (add_dires O1 n1 ds parent l1) = snd (add_dires O2 n2 ds parent l2) /\ Forall2 dire_sim (fst (add_dires O1 n1 ds parent l1)) (fst (add_dires O2 n2 ds parent l2)).
Proof.
  induction ds as [|d ds IH]; intros n1 n2 parent l1 l2 S F; [auto|]. inversion S as [|? ? S1 S2]; subst. cbn [add_dires].
  pose proof (factory_sim n1 n2 d S1) as K.
  assert (L : length l1 = length l2) by (clear - F; induction F; simpl; congruence).
  destruct (dire_factory O1 n1 d) as [[d1 c1]|], (dire_factory O2 n2 d) as [[d2 c2]|].
  - assert (X : (exists r1 r2, d1 = IRule r1 /\ d2 = IRule r2 /\ sim b r1 r2 /\ r_subs r1 = [] /\ r_subs r2 = [] /\ c1 = c2) \/ (d1 = d2 /\ forall r, d1 <> IRule r)).
    { destruct d1, d2; try discriminate; try (right; split; [exact K|discriminate]). left. eauto 10. }
    destruct X as [(r1 & r2 & -> & -> & SS & E1 & E2 & ->)|(<- & NR)].
    + destruct parent as [i|].
      * apply IH; [exact S2|]. now apply sub_sim.
      * rewrite L. apply IH; [exact S2|]. apply Forall2_app; [exact F|]. constructor; [|constructor]. constructor. split; [exact SS|]. rewrite E1, E2. constructor.
    + destruct d1; try (now exfalso; eapply NR); (apply IH; [exact S2|]; apply Forall2_app; [exact F|]; constructor; [now apply ds_other|constructor]).
  - destruct d1; easy.
  - easy.
  - auto.
Qed.
Lemma sim_refl : forall r, sim b r r.
Proof. intro r. unfold sim. repeat (split; [reflexivity|]). auto. Qed.
Lemma rs_refl : forall rs, rs_sim b rs rs.
Proof.
  intro rs. split; [reflexivity|]. intro p. induction (phase_rules rs p) as [|r l IH]; constructor; [|exact IH]. split; [apply sim_refl|].
  induction (r_subs r); constructor; [apply sim_refl|assumption].
Qed.
Lemma exec_sim : forall l1 l2, Forall2 dire_sim l1 l2 -> forall e1 rs2, rs_sim b (e_ruleset e1) rs2 ->
  exists rs2', execute l2 (set_ruleset e1 rs2) = set_ruleset (execute l1 e1) rs2' /\ rs_sim b (e_ruleset (execute l1 e1)) rs2'.
Proof.
  induction 1 as [|d1 d2 l1 l2 D F IH]; intros e1 rs2 R; [exists rs2; auto|]. unfold execute. cbn [fold_left]. destruct D as [r1 r2 (S1 & S2)|d N].
  - cbn [execute_dire]. unfold add_sec_rule. cbn [add_rules]. destruct S1 as (I1 & P1 & S1).
    change (set_ruleset (set_ruleset e1 rs2) ?x) with (set_ruleset e1 x). change (e_ruleset (set_ruleset e1 rs2)) with rs2.
    rewrite P1. destruct ((PhaseEnd <=? r_phase r2) || (r_phase r2 <=? PhaseBegin)) eqn:C.
    + apply (IH (set_ruleset e1 (e_ruleset e1)) rs2). exact R.
    + apply (IH (set_ruleset e1 (RuleSet (phases_append (r_phase r2) r1 (rs_phases (e_ruleset e1))) (rs_default (e_ruleset e1))))
                (RuleSet (phases_append (r_phase r2) r2 (rs_phases rs2)) (rs_default rs2))).
      destruct R as [R1 R2]. split; [exact R1|]. intro p. unfold phase_rules in *. cbn. rewrite !zassoc_append. apply Forall2_app; [apply R2|].
      destruct (p =? r_phase r2); constructor; [|constructor]. split; [unfold sim; auto|exact S2].
  - destruct d as [r|x|x|x]; [now exfalso; eapply N|..]; cbn [execute_dire].
    + apply (IH (set_reqaccess e1 x) rs2). exact R.
    + apply (IH (set_resaccess e1 x) rs2). exact R.
    + destruct (x =? TriBoolTrue); [apply (IH (enable StatusOn e1) rs2); exact R|]. destruct (x =? TriBoolFalse); [apply (IH (enable StatusOff e1) rs2); exact R|].
      destruct (x =? TriBoolElse); [apply (IH (enable StatusDect e1) rs2); exact R|]. now apply IH.
Qed.
End Load.
Lemma sim_sym : forall b r1 r2, sim b r1 r2 -> sim b r2 r1.
Proof.
  intros b r1 r2 (S1 & S2 & S3 & S4 & S5 & S6 & S7 & S8 & S9). unfold sim. repeat (split; [now symmetry|]). intro B. destruct (S9 B) as [E|E]; [left; now symmetry|].
  right. now apply (one_perm _ _ S8).
Qed.
Lemma rs_sym : forall b rs1 rs2, rs_sim b rs1 rs2 -> rs_sim b rs2 rs1.
Proof.
  intros b rs1 rs2 [R1 R2]. split; [now symmetry|]. intro p. specialize (R2 p). induction R2 as [|r1 r2 l1 l2 (S1 & S2) F IH]; constructor; [|exact IH].
  split; [now apply sim_sym|]. induction S2; constructor; [now apply sim_sym|assumption].
Qed.

(** ** C27 *)
(** Two loads succeed together, and the engines give the same result for every
    history of calls if no rule names two variables that read a body, or if the
    history met no malformed and no oversized body and was not aborted.  Missing:
    rules with several body variables on histories where reading a body fails;
    there the claim is false, see below. *)
Theorem C27_same_verdict_partial : forall fuel O1 O2 n1 n2 text l1, (forall p, rx_ok O1 p = rx_ok O2 p) -> ord_valid O1 -> ord_valid O2 ->
  new_direset fuel O1 n1 text = Ret (Some l1) ->
  exists l2, new_direset fuel O2 n2 text = Ret (Some l2) /\
    forall f O e0 os t obs, ord_valid O ->
      (forall ds, parse_text fuel text = Ret (ROk ds) -> one_body_name ds) \/ (t_bodyerr t = false /\ t_abort t = false) ->
      let e1 := execute l1 e0 in let e2 := execute l2 e0 in
      steps f O e1 (e_ruleset e1) os (new_txn e1) = Ret (t, obs) <-> steps f O e2 (e_ruleset e2) os (new_txn e2) = Ret (t, obs).
Proof.
  intros fuel O1 O2 n1 n2 text l1 RX V1 V2 H. unfold new_direset, add_seclang in *. destruct (parse_text fuel text) as [[ds|er]| |] eqn:P; cbn in H; try discriminate.
  cbn [bind]. cbn [bind] in H. destruct (add_dires O1 n1 ds None []) as [k1 ok1] eqn:A1. destruct ok1; [|discriminate]. injection H as <-.
  assert (G : forall b, Forall (single b) ds -> snd (add_dires O2 n2 ds None []) = true /\ Forall2 (dire_sim b) k1 (fst (add_dires O2 n2 ds None []))).
  { intros b S. destruct (dires_sim O1 O2 b RX V1 V2 ds n1 n2 None [] [] S (Forall2_nil _)) as (E & F). rewrite A1 in *. auto. }
  destruct (add_dires O2 n2 ds None []) as [k2 ok2] eqn:A2. cbn [fst snd] in G.
  assert (G0 : Forall (single false) ds) by (clear; induction ds as [|[] ds IH]; constructor; auto; simpl; discriminate || exact I).
  destruct (G false G0) as (-> & _). exists k2. split; [reflexivity|]. intros f O e0 os t obs V C. cbv zeta. set (e1 := execute k1 e0). set (e2 := execute k2 e0).
  assert (GB : exists b, fine b t /\ Forall (single b) ds).
  { destruct C as [C|[C1 C2]].
    - exists true. split; [now left|]. specialize (C ds eq_refl). apply Forall_forall. intros [vs o a| | |] I; simpl; auto. intros _ x y. now apply (C vs o a).
    - exists false. split; [right; unfold bad; now rewrite C1, C2|exact G0]. }
  destruct GB as (b & FN & S). destruct (G b S) as (_ & F).
  destruct (exec_sim b _ _ F e0 (e_ruleset e0) (rs_refl b _)) as (rs2 & E & R).
  assert (E0 : set_ruleset e0 (e_ruleset e0) = e0) by (now destruct e0). rewrite E0 in E. subst e2. rewrite E.
  set (O' := reorder O (fun _ _ l => l)).
  assert (V' : ord_valid O') by (intros n A l; apply Permutation_refl).
  assert (ID : forall n A (l : list A), ord O' n A l = l) by reflexivity.
  rewrite <- !(reorder_steps O (fun _ _ l => l) V V'). change (new_txn (set_ruleset (execute k1 e0) rs2)) with (new_txn e1). fold e1. split; intro H.
  - apply (steps_sim b O' e1 (e_ruleset e1) rs2 ID R _ _ _ _ _ H FN).
  - assert (E1 : e1 = set_ruleset (set_ruleset e1 rs2) (e_ruleset e1)) by (now destruct e1). rewrite E1.
    apply (steps_sim b O' (set_ruleset e1 rs2) rs2 (e_ruleset e1) ID (rs_sym _ _ _ R) _ _ _ _ _ H FN).
Qed.
(** A rule that names several variables, one of which reads a body. *)
Definition twice_text : bs :=
  B "SecRequestBodyAccess On" ++ [LF] ++ B "SecRule ARGS_POST|ARGS_GET|REQUEST_HEADERS ""@rx b"" ""id:1,phase:3,deny""".
Example C27_example : exists ds l, parse_text 300 twice_text = Ret (ROk ds) /\ one_body_name ds /\ new_direset 300 (demo MpErr) 0 twice_text = Ret (Some l).
Proof.
  eexists. eexists. split; [vm_compute; reflexivity|]. split; [|vm_compute; reflexivity]. intros vs o a I. simpl in I.
  destruct I as [I|[I|[]]]; [discriminate|]. injection I as <- <- <-. intros x y X Y BX BY. simpl in X, Y.
  destruct X as [<-|[<-|[<-|[]]]]; [|simpl in BX; intuition discriminate..]. destruct Y as [<-|[<-|[<-|[]]]]; [|simpl in BY; intuition discriminate..]. auto.
Qed.

(** Two loads that differ only in the order in which the map of variables is
    walked: a malformed body is blocked by one engine and passed by the other. *)
Definition unlucky_text : bs :=
  B "SecRequestBodyAccess On" ++ [LF] ++ B "SecRule ARGS_POST|ARGS_POST_NAMES ""@rx b"" ""id:1,phase:3,deny""".
Definition unlucky_calls : list op :=
  [OpConnection (B "1") (B "2") (B "3") (B "4"); OpRequestURL (Some (demo_url "/" "")) (B "POST") (B "HTTP/1.1");
   OpRequestHeader [(B "Content-Type", [B "application/x-www-form-urlencoded"])]; OpAppendRequestBody (B "a=b&%zz") NoFault; OpRequestBody; OpResult].
Definition backwards : oracles := reorder (demo MpErr) (fun _ A l => rev l).
Lemma backwards_ord : ord_valid backwards.
Proof. intros n A l. apply Permutation_sym, Permutation_rev. Qed.
Theorem C27_load_order_refuted : exists l1 l2 t1 t2 i1 i2 a1 a2,
  new_direset 300 (demo MpErr) 0 unlucky_text = Ret (Some l1) /\ new_direset 300 backwards 0 unlucky_text = Ret (Some l2) /\
  (let e1 := execute l1 new_engine in steps 5 (demo MpErr) e1 (e_ruleset e1) unlucky_calls (new_txn e1) = Ret (t1, a1 ++ [ObsResult i1])) /\
  (let e2 := execute l2 new_engine in steps 5 (demo MpErr) e2 (e_ruleset e2) unlucky_calls (new_txn e2) = Ret (t2, a2 ++ [ObsResult i2])) /\
  i_disruptive i1 = false /\ i_disruptive i2 = true /\ i_status i2 = 403.
Proof.
  do 6 eexists. exists [ObsNone; ObsNone; ObsNone; ObsErr None; ObsNone], [ObsNone; ObsNone; ObsNone; ObsErr None; ObsNone].
  split; [vm_compute; reflexivity|]. split; [vm_compute; reflexivity|]. split; [vm_compute; reflexivity|]. split; [vm_compute; reflexivity|].
  vm_compute. auto.
Qed.
Print Assumptions C27_same_verdict_partial.
Print Assumptions C27_load_order_refuted.
