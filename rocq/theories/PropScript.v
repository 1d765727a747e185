(** Property theorems C95, C27: from the text of the rules to every answer of every history, and what the order of loading decides. *)
From Verif Require Import Base BaseFacts GoStrings Utils Buffer BufferFacts Types Transforms Operators Transaction Variables Rules Engine
  SpecText NumFacts SpecVars VarFacts OrderFacts SpecRules RuleFacts Scanner Loader SpecParse ParseFacts ParseFiles SpecLoad LoadFacts SpecTxn TwiceFacts Witness PropRules PropLoad PropTwice
  SpecVerdict PropVerdict SpecAnswer SpecReply PropReply SpecAccount SpecChronicle PropChronicle.
From Coq Require Import ZifyBool.

(** ** An engine that reads as the text *)
Definition rule_reads (O : oracles) (w : written) (r : rule) : Prop :=
  r_id r = pas_id (w_acts w) /\ r_phase r = pas_phase (w_acts w) /\ r_not r = po_not (w_op w) /\ r_trans r = map trans_means (pas_trans (w_acts w)) /\
  (exists x, r_op r = Some x /\ op_means O (w_op w) x) /\ acts_mean (pas_acts (w_acts w)) (r_acts r) /\ variables_as_written O (w_vars w) (r_vars r).
Definition chain_reads (O : oracles) (c : list written) (r : rule) : Prop := Forall2 (rule_reads O) c (r :: r_subs r).
Definition response_switches (ds : list directive) : list bool := flat_map (fun d => match d with DResBody b => [b] | _ => [] end) ds.
Definition engine_reads (O : oracles) (ds : list directive) (e : engine) : Prop :=
  e_reqaccess e = last (body_switches ds) false /\ e_resaccess e = last (response_switches ds) false /\
  e_reqlimit e = 134217728 /\ e_reqmem e = 131072 /\ e_reslimit e = 524228 /\ rs_default (e_ruleset e) = [] /\
  exists cs, chains ds cs /\ forall p, 1 <= p <= 6 -> Forall2 (chain_reads O) (List.filter (in_phase p) cs) (phase_rules (e_ruleset e) p).
Lemma loaded_answers : forall O n ds items, loaded O n ds items -> res_flags (map fst items) = response_switches ds.
Proof.
  intros O n ds items L. induction L as [n|n d ds [x c] xs F L IH]; [reflexivity|]. unfold res_flags, response_switches in *. cbn [map fst flat_map]. rewrite IH. f_equal.
  destruct d as [vs o a|v|b|b]; cbn in F; [|injection F as <- _; reflexivity..]. destruct (rule_from_seclang O n vs o a); [|discriminate]. now injection F as <- _.
Qed.
Lemma res_flags_filter : forall l, res_flags l = res_flags (List.filter (fun d => match d with IRule _ => false | _ => true end) l).
Proof. intro l. unfold res_flags. induction l as [|[r|b|b|v] l IH]; cbn; try rewrite IH; reflexivity. Qed.
Lemma loaded_reads : forall O w r, ord_valid O -> loaded_as O w r -> rule_reads O w r.
Proof.
  intros O w r V (n & c & H). destruct (C70_rule_as_written _ _ _ _ _ _ _ V H) as (R1 & R2 & _ & R4 & R5 & R6 & R7 & _ & _ & R10). unfold rule_reads. auto 10.
Qed.
Lemma chain_as_reads : forall O c r, ord_valid O -> chain_as O c r -> chain_reads O c r.
Proof.
  intros O c r V (w & l & -> & LA & F). constructor.
  - apply loaded_reads in LA; [|exact V]. exact LA.
  - induction F as [|x y l l' X F IH]; constructor; auto using loaded_reads.
Qed.
Lemma text_reads : forall fuel O n text ds l, ord_valid O -> file_text ds text -> new_direset fuel O n text = Ret (Some l) -> engine_reads O ds (execute l new_engine).
Proof.
  intros fuel O n text ds l V FT LD.
  destruct (proj1 (C62_texts O n text l) (ex_intro _ fuel LD)) as (ds' & items & F & L & A). pose proof (file_text_fun _ _ _ FT F). subst ds'.
  destruct (C62_nothing_lost _ _ _ _ _ L A) as (_ & N2 & _).
  pose proof (C65_execute l new_engine) as (A1 & A2 & _ & D & _ & DF & M1 & M2 & M3).
  destruct (assembled_chains _ _ _ A _ _ L) as (cs & C1 & C2).
  split; [rewrite A1, req_flags_filter, N2, <- req_flags_filter, (loaded_switches _ _ _ _ L); reflexivity|].
  split; [rewrite A2, res_flags_filter, N2, <- res_flags_filter, (loaded_answers _ _ _ _ L); reflexivity|].
  split; [exact M1|]. split; [exact M2|]. split; [exact M3|]. split; [exact DF|]. exists cs. split; [exact C1|]. intros p P. rewrite D by exact P.
  change (phase_rules (e_ruleset new_engine) p) with (@nil rule). cbn [app].
  apply forall2_filter.
  - intros c r CR. inversion CR as [|w r' c' l' R F']; subst. destruct R as (_ & R & _). cbn [in_phase]. now rewrite R.
  - clear -C2 V. induction C2; constructor; auto using chain_as_reads.
Qed.
(** ** C95: every history on an engine loaded from a text *)
Theorem C95_every_history : forall fuel O n text ds l, ord_valid O -> file_text ds text -> new_direset fuel O n text = Ret (Some l) ->
  exists e, engine_reads O ds e /\ e = execute l new_engine /\ forall os,
    (forall li, (exists f t, steps f O e (e_ruleset e) os (new_txn e) = Ret (t, li)) <-> chronicle O e (e_ruleset e) no_facts (start e) os li) /\
    ((exists f, steps f O e (e_ruleset e) os (new_txn e) = Panic) <-> breakdown O e (e_ruleset e) no_facts (start e) os) /\
    ((forall f, steps f O e (e_ruleset e) os (new_txn e) = Timeout) <->
     (forall li, ~ chronicle O e (e_ruleset e) no_facts (start e) os li) /\ ~ breakdown O e (e_ruleset e) no_facts (start e) os).
Proof.
  intros fuel O n text ds l V FT LD. exists (execute l new_engine). split; [eapply text_reads; eassumption|]. split; [reflexivity|]. intro os.
  split; [intro li; now apply C94_every_history|]. split; [now apply C78_breaks_exactly|now apply C32_hangs_exactly].
Qed.

(** ** C27: the order in which the map of variables is walked decides whether a request panics *)
Definition fatal_text : bs :=
  B "SecRequestBodyAccess On" ++ [LF] ++ B "SecRule ARGS_POST|ARGS_POST_NAMES ""@rx b"" ""id:1,phase:3,deny""".
Definition fatal_calls : list op :=
  [OpRequestURL None (B "POST") (B "HTTP/1.1"); OpRequestHeader [(B "Content-Type", [B "multipart/form-data"])]; OpAppendRequestBody (B "garbage") NoFault; OpRequestBody; OpResult].
Theorem C27_load_order_decides_panic_refuted : exists text l1 l2 os t obs, ord_valid backwards /\
  new_direset 300 (demo MpErr) 0 text = Ret (Some l1) /\ new_direset 300 backwards 0 text = Ret (Some l2) /\
  (let e1 := execute l1 new_engine in steps 5 (demo MpErr) e1 (e_ruleset e1) os (new_txn e1) = Panic) /\
  (let e2 := execute l2 new_engine in steps 5 (demo MpErr) e2 (e_ruleset e2) os (new_txn e2) = Ret (t, obs)).
Proof.
  exists fatal_text. do 2 eexists. exists fatal_calls. do 2 eexists. split; [apply backwards_ord|]. split; [vm_compute; reflexivity|]. split; [vm_compute; reflexivity|].
  split; vm_compute; reflexivity.
Qed.
(** The text above loads, is denied for a form that says b, and breaks down for a body that is no form. *)
Example C95_every_history_example : exists ds l, file_text ds fatal_text /\ new_direset 300 (demo MpErr) 0 fatal_text = Ret (Some l) /\
  (let e := execute l new_engine in
   chronicle (demo MpErr) e (e_ruleset e) no_facts (start e)
     [OpRequestURL None (B "POST") []; OpRequestHeader [(B "Content-Type", [B "application/x-www-form-urlencoded"])]; OpAppendRequestBody (B "a=b") NoFault; OpRequestBody; OpResult]
     [ObsNone; ObsNone; ObsErr None; ObsNone; ObsResult (Intervention 403 0 None [B "[client :] (phase 3) ModSecurity: Access denied with code 403"] true)] /\
   breakdown (demo MpErr) e (e_ruleset e) no_facts (start e) fatal_calls).
Proof.
  destruct (parse_text 300 fatal_text) as [[ds|]| |] eqn:P; try (vm_compute in P; discriminate). exists ds.
  assert (LD : exists l, new_direset 300 (demo MpErr) 0 fatal_text = Ret (Some l)) by (eexists; vm_compute; reflexivity). destruct LD as (l & LD). exists l.
  assert (FT : file_text ds fatal_text) by (apply parse_text_iff; exists 300%nat; exact P).
  split; [exact FT|]. split; [exact LD|]. cbv zeta. vm_compute in LD. apply Ret_inj in LD. injection LD as <-.
  split; [apply C94_every_history; [apply demo_ord|]; exists 9%nat; eexists|apply C78_breaks_exactly; [apply demo_ord|]; exists 9%nat]; vm_compute; reflexivity.
Qed.
Print Assumptions C95_every_history.
Print Assumptions C27_load_order_decides_panic_refuted.
