(** Property theorem C80: what loaded rules say they are. *)
From Verif Require Import Base BaseFacts GoStrings Buffer Types Operators Variables Rules Scanner Loader SpecText NumFacts SpecVars VarFacts SpecParse
  ParseFacts ParseLists ParsePrint SpecLoad LoadFacts Witness PropLoad Names.

(** ** C80 *)
(** Selecting does not change which variable it is. *)
Lemma include_name : forall O i v v', var_include O i v = Some v' -> variable_Name v' = variable_Name v.
Proof.
  intros O i v. induction v as [c f|s|g p|g p|v IH]; intros v' H; simpl in H.
  - destruct (filter_include O i f); [|discriminate]. now injection H as <-.
  - now injection H as <-.
  - destruct (filter_include O i g), (filter_include O i p); try discriminate. now injection H as <-.
  - destruct (filter_include O i g), (filter_include O i p); try discriminate. now injection H as <-.
  - destruct (var_include O i v) as [w|]; [|discriminate]. injection H as <-. cbn [variable_Name]. now apply IH.
Qed.
Lemma exclude_name : forall O i v v', var_exclude O i v = Some v' -> variable_Name v' = variable_Name v.
Proof.
  intros O i v. induction v as [c f|s|g p|g p|v IH]; intros v' H; simpl in H.
  - destruct (filter_exclude O i f); [|discriminate]. now injection H as <-.
  - now injection H as <-.
  - destruct (filter_exclude O i g), (filter_exclude O i p); try discriminate. now injection H as <-.
  - destruct (filter_exclude O i g), (filter_exclude O i p); try discriminate. now injection H as <-.
  - destruct (var_exclude O i v) as [w|]; [|discriminate]. injection H as <-. cbn [variable_Name]. now apply IH.
Qed.
Lemma calls_name : forall O cs v v', apply_calls O cs v = Some v' -> variable_Name v' = variable_Name v.
Proof.
  intros O cs. induction cs as [|c cs IH]; intros v v' H; simpl in H; [now injection H as <-|].
  destruct (apply_call O c v) as [w|] eqn:E; [|discriminate]. rewrite (IH _ _ H). destruct c as [i|i]; [now apply (include_name O i)|now apply (exclude_name O i)].
Qed.
Lemma means_name : forall t s, In (t, s) var_means -> variable_Name s = var_name t.
Proof. intros t s H. simpl in H. repeat (destruct H as [H|H]; [injection H as <- <-; reflexivity|]). destruct H. Qed.

(** The actions that are not metadata. *)
Definition acting (l : list paction) : list paction :=
  List.filter (fun a => match pa_tok a with KTag | KMsg | KRev | KVer => false | _ => true end) l.
Lemma act_means_name : forall a x, act_means a x -> map action_Name x = map (fun a => act_name (pa_tok a)) (acting [a]).
Proof.
  intros a x H. destruct H as [s|s|s|s|s x _|s x n _ _ _|t s I]; try reflexivity.
  simpl in I. repeat (destruct I as [<-|I]; [reflexivity|]). destruct I.
Qed.
Lemma acts_mean_names : forall l x, acts_mean l x -> map action_Name x = map (fun a => act_name (pa_tok a)) (acting l).
Proof.
  intros l x H. induction H as [|a l x y A H IH]; [reflexivity|]. rewrite map_app, IH, (act_means_name a x A).
  rewrite <- map_app. f_equal. unfold acting. simpl. destruct (pa_tok a); reflexivity.
Qed.
Lemma factory_object : forall O o, operator_factory O o = option_map op_core (opobj_factory O o).
Proof.
  intros O [t n a]. unfold operator_factory, opobj_factory, new_rx, new_compare, newOperatorCompare. cbn [po_tok po_arg].
  destruct t; try (destruct (rx_ok O a); reflexivity); destruct (parse_int64 (trim_space a)); reflexivity.
Qed.
Lemma object_name : forall O o x, opobj_factory O o = Some x -> op_Name x = op_name (po_tok o).
Proof.
  intros O [t n a] x H. unfold opobj_factory, newOperatorCompare in H. cbn [po_tok po_arg] in *.
  destruct t; try (destruct (rx_ok O a); [injection H as <-; reflexivity|discriminate]);
    destruct (parse_int64 (trim_space a)); try discriminate; injection H as <-; reflexivity.
Qed.

(** The parts of a loaded rule name themselves as the rule text does. *)
Theorem C80_names_as_written : forall O n vs o a r chain, ord_valid O -> rule_from_seclang O n vs o a = Some (r, chain) ->
  map trans_Name (r_trans r) = map trans_name (pas_trans a) /\
  (exists x, opobj_factory O o = Some x /\ r_op r = Some (op_core x) /\ op_Name x = op_name (po_tok o)) /\
  map action_Name (r_acts r) = map (fun a => act_name (pa_tok a)) (acting (pas_acts a)) /\
  (forall w, In w (map variable_Name (r_vars r)) <-> In w (map (fun v => var_name (pv_tok v)) vs)).
Proof.
  intros O n vs o a r chain OV H. pose proof (C70_rule_as_written O n vs o a r chain OV H) as (_ & _ & _ & _ & T & _ & A & _ & _ & V).
  split; [|split; [|split]].
  - rewrite T, map_map. apply map_ext. now intros [].
  - unfold rule_from_seclang in H. destruct (apply_variables O n vs); [|discriminate]. rewrite factory_object in H.
    destruct (opobj_factory O o) as [x|] eqn:E; [|discriminate]. simpl in H. destruct (apply_action_list (pas_acts a) [] []) as [[m l']|]; [|discriminate].
    injection H as <- _. exists x. split; [reflexivity|]. split; [reflexivity|]. now apply (object_name O).
  - now apply acts_mean_names.
  - destruct V as (keys & _ & M & F). intro w.
    assert (E : map variable_Name (r_vars r) = map (fun k => var_name (fst k)) keys).
    { clear M. induction F as [|[t c] x keys l (s & I & X) F IH]; [reflexivity|]. simpl in *. rewrite IH. f_equal.
      rewrite (calls_name O _ _ _ X). rewrite <- (means_name t s I). now destruct c. }
    rewrite E. rewrite !in_map_iff. split.
    + intros ([t c] & W & K). apply M in K as (v & I & T1 & _). exists v. simpl in W. now rewrite T1.
    + intros (v & W & I). exists (pv_tok v, pv_count v). split; [exact W|]. apply M. exists v. auto.
Qed.
(** Different kinds have different names, so a name tells the kind. *)
Theorem C80_names_distinct :
  (forall t u, trans_Name t = trans_Name u -> t = u) /\
  (forall c d, coll_Name c = coll_Name d -> c = d) /\ (forall s t, scalar_Name s = scalar_Name t -> s = t) /\
  (forall c s, coll_Name c <> scalar_Name s) /\
  (forall c, ~ In (coll_Name c) (map B ["ARGS"; "ARGS_NAMES"]%string)) /\ (forall s, ~ In (scalar_Name s) (map B ["ARGS"; "ARGS_NAMES"]%string)).
Proof.
  split; [|split; [|split; [|split; [|split]]]].
  - intros [] []; vm_compute; congruence.
  - intros [] []; vm_compute; congruence.
  - intros [] []; vm_compute; congruence.
  - intros [] []; vm_compute; congruence.
  - intros [] H; vm_compute in H; intuition discriminate.
  - intros [] H; vm_compute in H; intuition discriminate.
Qed.

(** The argument of an operator, as it reports it, is the written one without the
    white space around numbers; and written back it gives the same operator. *)
Lemma trim_twice : forall s, parse_int64 (trim_space s) <> None -> trim_space (trim_space s) = trim_space s.
Proof.
  intros s H. destruct (parse_int64 (trim_space s)) as [z|] eqn:E; [|easy]. apply parse_int64_iff in E as [D _]. now apply (trim_denotes _ z).
Qed.
Theorem C80_operator_written_back : forall O o x nt, opobj_factory O o = Some x ->
  (po_tok o = KRx /\ op_Args x = po_arg o \/ po_tok o <> KRx /\ trimmed_of (po_arg o) (op_Args x)) /\
  parse_operator (B "@" ++ op_Name x ++ B " " ++ op_Args x) = ROk (POper (po_tok o) false (op_Args x)) /\
  opobj_factory O (POper (po_tok o) nt (op_Args x)) = Some x.
Proof.
  intros O [t n a] x nt H. cbn [po_tok po_arg]. pose proof (object_name O _ x H) as NM. cbn [po_tok] in NM. rewrite NM. split; [|split].
  - unfold opobj_factory, newOperatorCompare in H. cbn [po_tok po_arg] in H.
    destruct t; [left; split; [reflexivity|]; destruct (rx_ok O a); [now injection H as <-|discriminate]|right; split; [discriminate|]; apply trim_iff;
      destruct (parse_int64 (trim_space a)); [now injection H as <-|discriminate]..].
  - destruct t; reflexivity.
  - unfold opobj_factory, newOperatorCompare in *. cbn [po_tok po_arg] in *.
    destruct t; [destruct (rx_ok O a) eqn:R; [|discriminate]; injection H as <-; cbn [op_Args]; now rewrite R|..].
    all: destruct (parse_int64 (trim_space a)) as [z|] eqn:E; [|discriminate]; injection H as <-; cbn [op_Args]; rewrite trim_twice by congruence; now rewrite E.
Qed.

(** An action written back as its name and value is the same action unless the
    value of allow is in quotes again. *)
Theorem C80_action_written_back_partial : forall a x, action_factory a = Some (PAct x) ->
  (pa_tok a <> KAllow \/ unquoted (action_Value x) (action_Value x)) ->
  action_factory (PAction (pa_tok a) (action_Value x)) = Some (PAct x).
Proof.
  intros [t s] x H Q. unfold action_factory in *. cbn [pa_tok pa_arg] in *.
  destruct t; try discriminate; try (injection H as <-; try reflexivity).
  - destruct Q as [Q|Q]; [easy|]. apply trimQuote_iff in Q. simpl in *. now rewrite Q.
  - destruct (atoi (trimQuote s)) as [z|] eqn:E; [|discriminate]. injection H as <-. apply parse_int64_iff in E as [_ I]. simpl.
    pose proof (itoa_denotes z) as D. rewrite (proj2 (trimQuote_iff _ _) (denotes_unquoted _ _ D)).
    unfold atoi. now rewrite (proj2 (parse_int64_iff _ _) (conj D I)).
Qed.
Theorem C80_action_written_back_refuted : exists a x, action_factory a = Some (PAct x) /\
  action_factory (PAction (pa_tok a) (action_Value x)) <> Some (PAct x).
Proof. exists (PAction KAllow (B "''phase''")), (AAllow (B "'phase'")). split; [vm_compute; reflexivity|vm_compute; discriminate]. Qed.
(** The number of rules to skip is not kept at all. *)
Theorem C80_skip_forgets_its_number : forall s, action_factory (PAction KSkip s) = Some (PAct ASkip) /\ action_Value ASkip = [].
Proof. now split. Qed.

Example C80_example : exists r, rule_from_seclang (demo MpErr) 0 [PVar KArgs (B "a") false false; PVar KArgs [] true false; PVar KRequestUri [] false false]
    (POper KGe true (B " 12 ")) (PActions 7 3 true [KLowercase; KNone] [PAction KMsg (B "'m'"); PAction KStatus (B "'404'"); PAction KDeny []]) = Some (r, true) /\
  map variable_Name (r_vars r) = map B ["ARGS"; "REQUEST_URI"; "ARGS"]%string /\ map trans_Name (r_trans r) = map B ["lowercase"; "none"]%string /\
  map action_Name (r_acts r) = map B ["status"; "deny"]%string /\ map action_Value (r_acts r) = [B "404"; []] /\
  option_map op_Args (opobj_factory (demo MpErr) (POper KGe true (B " 12 "))) = Some (B "12").
Proof. eexists. split; [vm_compute; reflexivity|]. repeat split; vm_compute; reflexivity. Qed.
Print Assumptions C80_names_as_written.
Print Assumptions C80_names_distinct.
Print Assumptions C80_operator_written_back.
Print Assumptions C80_action_written_back_partial.
Print Assumptions C80_action_written_back_refuted.
Print Assumptions C80_skip_forgets_its_number.
