(** Facts about the loader. *)
From Verif Require Import Base BaseFacts GoStrings Buffer Types Transaction Variables Operators Rules Engine Scanner Loader
  SpecText NumFacts SpecVars VarFacts SpecParse ParseFacts ParseLists SpecLoad.
From Coq Require Import ZifyBool.

(** ** Chains *)
Lemma add_sub_app : forall pre r post sub, add_sub_at (length pre) sub (pre ++ IRule r :: post) = pre ++ IRule (append_sub sub r) :: post.
Proof.
  induction pre as [|d pre IH]; intros r post sub; [reflexivity|]. cbn [app length]. destruct d; simpl; now rewrite IH.
Qed.
Lemma with_nil : forall r, with_followers r [] = r.
Proof. intros []. unfold with_followers. simpl. now rewrite app_nil_r. Qed.
Lemma with_cons : forall r s subs, with_followers (append_sub s r) subs = with_followers r (s :: subs).
Proof. intros [] s subs. unfold with_followers, append_sub. simpl. now rewrite <- app_assoc. Qed.

(** Loading all: with no chain open, and with one open. *)
Lemma add_dires_all : forall ds O n items, loaded O n ds items ->
  (forall l old, assembled items l -> add_dires O n ds None old = (old ++ l, true)) /\
  (forall subs oth rest l pre r post, followers items subs oth rest -> assembled rest l ->
     add_dires O n ds (Some (length pre)) (pre ++ IRule r :: post) = (pre ++ IRule (with_followers r subs) :: post ++ oth ++ l, true)).
Proof.
  intros ds O n items H. induction H as [n|n d ds x xs E H [IH1 IH2]]; split.
  - intros l old A. inversion A; subst. simpl. now rewrite app_nil_r.
  - intros subs oth rest l pre r post F A. inversion F; subst. inversion A; subst. simpl. now rewrite app_nil_r, with_nil.
  - intros l old A. cbn [add_dires]. rewrite E. inversion A as [|d0 c l0 l' NR A'|r l0 l' A'|r l0 subs oth rest l' F A']; subst.
    + assert (K : old ++ d0 :: l' = (old ++ [d0]) ++ l') by now rewrite <- app_assoc. rewrite K. destruct d0; [destruct NR|..]; now apply IH1.
    + rewrite (IH1 l' _ A'). now rewrite <- app_assoc.
    + rewrite (IH2 subs oth rest l' old r [] F A'). reflexivity.
  - intros subs oth rest l pre r post F A. cbn [add_dires]. rewrite E.
    inversion F as [|r0 l0|r0 l0 subs0 oth0 rest0 F'|d0 c l0 subs0 oth0 rest0 NR F']; subst.
    + rewrite add_sub_app, (IH1 l _ A). cbn [app]. rewrite <- app_assoc. cbn [app]. now rewrite <- (with_cons r r0 []), with_nil.
    + rewrite add_sub_app, (IH2 _ _ _ _ pre _ post F' A). now rewrite with_cons.
    + assert (K : forall q, add_dires O (S (S n)) ds (Some (length pre)) ((pre ++ IRule r :: post) ++ [q]) =
                  (pre ++ IRule (with_followers r subs) :: post ++ q :: oth0 ++ l, true)).
      { intro q. rewrite <- app_assoc. cbn [app]. rewrite (IH2 _ _ _ _ pre r (post ++ [q]) F' A). now rewrite <- app_assoc. }
      destruct d0; [destruct NR|..]; apply K.
Qed.
Lemma followers_exist : forall items, exists subs oth rest, followers items subs oth rest /\ (length rest <= length items)%nat.
Proof.
  induction items as [|[d c] items (subs & oth & rest & F & L)]; [do 3 eexists; split; [constructor|auto]|]. destruct d as [r|b|b|v].
  - destruct c; do 3 eexists; (split; [(apply fo_more; eauto) || apply fo_last|simpl; lia]).
  - do 3 eexists. split; [apply fo_other; [exact I|eauto]|simpl; lia].
  - do 3 eexists. split; [apply fo_other; [exact I|eauto]|simpl; lia].
  - do 3 eexists. split; [apply fo_other; [exact I|eauto]|simpl; lia].
Qed.
Lemma assembled_exists : forall items, exists l, assembled items l.
Proof.
  intro items. remember (length items) as n eqn:E. assert (L : (length items <= n)%nat) by lia. clear E. revert items L.
  induction n as [|n IH]; intros items L; [destruct items; [eexists; constructor|simpl in L; lia]|].
  destruct items as [|[d c] items]; [eexists; constructor|]. simpl in L. destruct (IH items ltac:(lia)) as (l & A).
  destruct d as [r|b|b|v].
  - destruct c; [|eexists; apply as_rule; exact A]. destruct (followers_exist items) as (subs & oth & rest & F & L').
    destruct (IH rest ltac:(lia)) as (l' & A'). eexists. apply (as_chain r items subs oth rest l' F A').
  - eexists. apply as_other; [exact I|exact A].
  - eexists. apply as_other; [exact I|exact A].
  - eexists. apply as_other; [exact I|exact A].
Qed.
Lemma loaded_or_fails : forall O ds n, (exists items, loaded O n ds items) \/
  exists ds1 d ds2 items, ds = ds1 ++ d :: ds2 /\ loaded O n ds1 items /\ dire_factory O (n + 2 * length ds1) d = None.
Proof.
  intro O. induction ds as [|d ds IH]; intro n; [left; eexists; constructor|]. destruct (dire_factory O n d) as [x|] eqn:E.
  - destruct (IH (S (S n))) as [(items & L)|(ds1 & d' & ds2 & items & -> & L & F)]; [left; eexists; econstructor; eauto|].
    right. exists (d :: ds1), d', ds2, (x :: items). split; [reflexivity|]. split; [econstructor; eauto|]. cbn [length].
    replace (n + 2 * S (length ds1))%nat with (S (S n) + 2 * length ds1)%nat by lia. exact F.
  - right. exists [], d, ds, []. split; [reflexivity|]. split; [constructor|]. cbn [length]. now rewrite Nat.add_0_r.
Qed.
(** A failing directive leaves what was loaded before it. *)
Lemma add_dires_prefix : forall O ds1 d ds2 n parent dires, dire_factory O (n + 2 * length ds1) d = None ->
  (exists items, loaded O n ds1 items) ->
  add_dires O n (ds1 ++ d :: ds2) parent dires = (fst (add_dires O n ds1 parent dires), false).
Proof.
  intro O. induction ds1 as [|d1 ds1 IH]; intros d ds2 n parent dires E (items & L).
  - cbn [length] in E. rewrite Nat.add_0_r in E. cbn [app add_dires]. now rewrite E.
  - inversion L as [|? ? ? x xs E1 L1]; subst. cbn [app add_dires]. rewrite E1. cbn [length] in E.
    replace (n + 2 * S (length ds1))%nat with (S (S n) + 2 * length ds1)%nat in E by lia.
    destruct x as [[r|b|b|v] c]; [destruct parent|..]; apply IH; eauto.
Qed.
Lemma loaded_fun : forall O n ds a, loaded O n ds a -> forall b, loaded O n ds b -> a = b.
Proof.
  induction 1 as [n|n d ds x xs E L IH]; intros b H; inversion H as [|? ? ? y ys E' L']; subst; [reflexivity|].
  rewrite E in E'. injection E' as <-. f_equal. now apply IH.
Qed.
Lemma followers_fun : forall l s o r, followers l s o r -> forall s' o' r', followers l s' o' r' -> s' = s /\ o' = o /\ r' = r.
Proof.
  induction 1 as [|r l|r l s o rest F IH|d c l s o rest N F IH]; intros s' o' r' H; inversion H; subst; auto; clear H; try clear F;
    try match goal with K : no_rule (IRule _) |- _ => destruct K end;
    match goal with K : followers _ _ _ _ |- _ => apply IH in K as (-> & -> & ->) end; auto.
Qed.
Lemma assembled_fun : forall l a, assembled l a -> forall b, assembled l b -> b = a.
Proof.
  induction 1 as [|d c l l' N A IH|r l l' A IH|r l s o rest l' F A IH]; intros b H; inversion H; subst; auto; clear H;
    try match goal with K : no_rule (IRule _) |- _ => destruct K end; try (f_equal; now apply IH).
  clear A. match goal with K : followers l ?x ?y ?z, K2 : assembled ?z _ |- _ =>
    apply (followers_fun _ _ _ _ F) in K as (-> & -> & ->); apply IH in K2 as -> end. reflexivity.
Qed.
Lemma add_dires_iff : forall O n ds old new, add_dires O n ds None old = (new, true) <->
  exists items l, loaded O n ds items /\ assembled items l /\ new = old ++ l.
Proof.
  intros O n ds old new. split.
  - intro H. destruct (loaded_or_fails O ds n) as [(items & L)|(ds1 & d & ds2 & items & -> & L & F)].
    + destruct (assembled_exists items) as (l & A). exists items, l. split; [exact L|]. split; [exact A|].
      rewrite (proj1 (add_dires_all ds O n items L) l old A) in H. now injection H.
    + rewrite (add_dires_prefix O ds1 d ds2 n None old F (ex_intro _ _ L)) in H. discriminate.
  - intros (items & l & L & A & ->). now apply (add_dires_all ds O n items L).
Qed.
Lemma add_dires_false : forall O n ds old new, add_dires O n ds None old = (new, false) <->
  exists ds1 d ds2 items l, ds = ds1 ++ d :: ds2 /\ loaded O n ds1 items /\ dire_factory O (n + 2 * length ds1) d = None /\
    assembled items l /\ new = old ++ l.
Proof.
  intros O n ds old new. split.
  - intro H. destruct (loaded_or_fails O ds n) as [(items & L)|(ds1 & d & ds2 & items & -> & L & F)].
    + destruct (assembled_exists items) as (l & A). rewrite (proj1 (add_dires_all ds O n items L) l old A) in H. discriminate.
    + rewrite (add_dires_prefix O ds1 d ds2 n None old F (ex_intro _ _ L)) in H. injection H as <-.
      destruct (assembled_exists items) as (l & A). exists ds1, d, ds2, items, l. repeat split; auto.
      now rewrite (proj1 (add_dires_all ds1 O n items L) l old A).
  - intros (ds1 & d & ds2 & items & l & -> & L & F & A & ->). rewrite (add_dires_prefix O ds1 d ds2 n None old F (ex_intro _ _ L)).
    now rewrite (proj1 (add_dires_all ds1 O n items L) l old A).
Qed.
(** Nothing is lost: the rules with their followers, and the other directives. *)
Definition unchained (ds : list dire) : list rule := flat_map (fun d => match d with IRule r => alone r :: r_subs r | _ => [] end) ds.
Lemma alone_same : forall r, r_subs r = [] -> alone r = r.
Proof. intros [] H. simpl in H. now subst. Qed.

(** ** Configuration *)
Lemma zassoc_append : forall p q r m, zassoc p (phases_append q r m) = zassoc p m ++ (if p =? q then [r] else []).
Proof.
  intros p q r. induction m as [|[k l] m IH]; simpl.
  - now destruct (p =? q).
  - destruct (q =? k) eqn:E; simpl.
    + apply Z.eqb_eq in E. subst k. destruct (p =? q); [reflexivity|]. now rewrite app_nil_r.
    + destruct (p =? k) eqn:E'; [|exact IH]. apply Z.eqb_eq in E'. subst k. rewrite Z.eqb_sym in E. rewrite E. now rewrite app_nil_r.
Qed.
Lemma add_rules_phase : forall rules rs p, phase_rules (add_rules rules rs) p =
  phase_rules rs p ++ (if (1 <=? p) && (p <=? 6) then List.filter (fun r => r_phase r =? p) rules else []).
Proof.
  induction rules as [|r rules IH]; intros rs p; cbn [add_rules].
  - cbn [List.filter]. destruct ((1 <=? p) && (p <=? 6)); now rewrite app_nil_r.
  - cbn [List.filter]. unfold PhaseEnd, PhaseBegin. destruct ((7 <=? r_phase r) || (r_phase r <=? 0)) eqn:E; rewrite IH.
    + destruct ((1 <=? p) && (p <=? 6)) eqn:P; [|reflexivity]. destruct (Z.eqb_spec (r_phase r) p); [lia|reflexivity].
    + unfold phase_rules. cbn [rs_phases]. rewrite zassoc_append, <- app_assoc. f_equal. rewrite Z.eqb_sym.
      destruct ((1 <=? p) && (p <=? 6)) eqn:P; destruct (Z.eqb_spec (r_phase r) p); try lia; reflexivity.
Qed.
Lemma add_rules_default : forall rules rs, rs_default (add_rules rules rs) = rs_default rs.
Proof.
  induction rules as [|r rules IH]; intro rs; cbn [add_rules]; [reflexivity|]. destruct ((PhaseEnd <=? r_phase r) || (r_phase r <=? PhaseBegin)); now rewrite IH.
Qed.
Lemma add_rules_app : forall a b rs, add_rules (a ++ b) rs = add_rules b (add_rules a rs).
Proof. induction a as [|r a IH]; intros b rs; cbn [app add_rules]; [reflexivity|]. destruct ((PhaseEnd <=? r_phase r) || (r_phase r <=? PhaseBegin)); apply IH. Qed.
Lemma last_app_d : forall A (a b : list A) d, last (a ++ b) d = last b (last a d).
Proof.
  induction a as [|x a IH]; intros b d; [reflexivity|]. cbn [app]. rewrite !last_next. apply IH.
Qed.
Lemma execute_spec : forall ds e, let e' := execute ds e in
  e_ruleset e' = add_rules (rules_of ds) (e_ruleset e) /\
  e_reqaccess e' = last (req_flags ds) (e_reqaccess e) /\ e_resaccess e' = last (res_flags ds) (e_resaccess e) /\
  (e_enabled e', e_detection e') = last (modes ds) (e_enabled e, e_detection e) /\
  e_reqlimit e' = e_reqlimit e /\ e_reqmem e' = e_reqmem e /\ e_reslimit e' = e_reslimit e.
Proof.
  induction ds as [|d ds IH]; intros e e'; [repeat split; reflexivity|].
  destruct (IH (execute_dire d e)) as (I1 & I2 & I3 & I4 & I5 & I6 & I7). subst e'.
  change (execute (d :: ds) e) with (execute ds (execute_dire d e)). rewrite I1, I2, I3, I4, I5, I6, I7. clear.
  unfold rules_of, req_flags, res_flags, modes. cbn [flat_map]. rewrite add_rules_app, !last_app_d.
  destruct d as [r|b|b|v]; [now repeat split..|].
  unfold execute_dire, TriBoolTrue, TriBoolFalse, TriBoolElse, mode_bits.
  destruct (v =? 1); [now repeat split|]. destruct (v =? 0); [now repeat split|]. destruct (v =? 2); now repeat split.
Qed.

(** ** Variables *)
Definition sel (c : bool) (ms : list (vtok * variable) * list (vtok * variable)) := if c then snd ms else fst ms.
(** The variable a token stands for before any selector. *)
Definition start (c : bool) (t : vtok) : option variable := option_map (fun x => if c then VCount x else x) (var_factory t).
Lemma get_set : forall t u v m, vmap_get t (vmap_set u v m) = if vtok_eq_dec t u then Some v else vmap_get t m.
Proof.
  intros t u v. induction m as [|[k w] m IH]; simpl.
  - now destruct (vtok_eq_dec t u).
  - destruct (vtok_eq_dec u k) as [->|N]; simpl; [now destruct (vtok_eq_dec t k)|]. rewrite IH. destruct (vtok_eq_dec t k) as [->|]; [|reflexivity].
    now destruct (vtok_eq_dec k u) as [->|].
Qed.
Lemma set_keys : forall u v m, map fst (vmap_set u v m) = if in_dec vtok_eq_dec u (map fst m) then map fst m else map fst m ++ [u].
Proof.
  intros u v. induction m as [|[k w] m IH]; simpl; [reflexivity|]. destruct (vtok_eq_dec u k) as [->|N]; simpl.
  - now destruct (vtok_eq_dec k k).
  - destruct (vtok_eq_dec k u) as [->|]; [easy|]. rewrite IH. now destruct (in_dec vtok_eq_dec u (map fst m)).
Qed.
Lemma set_nodup : forall u v m, NoDup (map fst m) -> NoDup (map fst (vmap_set u v m)).
Proof.
  intros u v m N. rewrite set_keys. destruct (in_dec vtok_eq_dec u (map fst m)) as [|NI]; [exact N|].
  apply (Permutation_NoDup (l := u :: map fst m)); [apply Permutation_cons_append|now constructor].
Qed.
Lemma get_in : forall m t x, NoDup (map fst m) -> vmap_get t m = Some x <-> In (t, x) m.
Proof.
  induction m as [|[k w] m IH]; intros t x N; simpl; [split; [discriminate|easy]|]. inversion N as [|? ? N1 N2]; subst.
  destruct (vtok_eq_dec t k) as [->|NE].
  - split; [intro H; injection H as ->; now left|]. intros [H|H]; [now injection H as ->|]. elim N1. now apply (in_map fst) in H.
  - rewrite (IH t x N2). split; [now right|]. intros [H|H]; [|exact H]. injection H as -> _. easy.
Qed.
Lemma calls_app : forall t c ws vs, calls_of t c (ws ++ vs) = calls_of t c ws ++ calls_of t c vs.
Proof. intros. unfold calls_of. apply flat_map_app. Qed.
Lemma apply_calls_app : forall O a b x, apply_calls O (a ++ b) x = match apply_calls O a x with Some y => apply_calls O b y | None => None end.
Proof. intros O. induction a as [|c a IH]; intros b x; simpl; [reflexivity|]. destruct (apply_call O c x); [apply IH|reflexivity]. Qed.
Lemma calls_none : forall t c vs, ~ mentions t c vs -> calls_of t c vs = [].
Proof.
  intros t c. induction vs as [|v vs IH]; intro N; [reflexivity|]. unfold calls_of. cbn [flat_map]. fold (calls_of t c vs).
  rewrite IH by (intros (w & I & E); apply N; exists w; split; [now right|exact E]). rewrite app_nil_r.
  destruct (vtok_eq_dec (pv_tok v) t) as [E|]; [|reflexivity]. destruct (Bool.eqb (pv_count v) c) eqn:E2; [|reflexivity].
  apply eqb_prop in E2. elim N. exists v. split; [now left|auto].
Qed.
Lemma select_calls : forall O v x, var_select O v x = apply_calls O (calls_of (pv_tok v) (pv_count v) [v]) x.
Proof.
  intros O v x. unfold var_select, calls_of. cbn [flat_map]. destruct (vtok_eq_dec (pv_tok v) (pv_tok v)); [|easy]. rewrite eqb_reflx, app_nil_r.
  destruct (pv_index v) as [|a i]; [reflexivity|]. destruct (pv_excl v); simpl; [now destruct (var_exclude O (a :: i) x)|now destruct (var_include O (a :: i) x)].
Qed.
Lemma calls_other : forall t c v, ~ (t = pv_tok v /\ c = pv_count v) -> calls_of t c [v] = [].
Proof.
  intros t c v N. apply calls_none. intros (w & [<-|[]] & E1 & E2). apply N. auto.
Qed.
Definition var_inv (O : oracles) (ws : list pvar) ms : Prop :=
  forall c, NoDup (map fst (sel c ms)) /\ (forall t, mentions t c ws -> vmap_get t (sel c ms) <> None) /\ forall t x, vmap_get t (sel c ms) = Some x -> mentions t c ws /\ exists fr, start c t = Some fr /\ apply_calls O (calls_of t c ws) fr = Some x.
Definition current (c : bool) (v : pvar) ms (fresh : variable) : variable :=
  match vmap_get (pv_tok v) (sel c ms) with Some x => x | None => if c then VCount fresh else fresh end.
Definition put (c : bool) (t : vtok) (x : variable) (ms : list (vtok * variable) * list (vtok * variable)) :=
  if c then (fst ms, vmap_set t x (snd ms)) else (vmap_set t x (fst ms), snd ms).
Lemma apply_variable_eq : forall O v ms, apply_variable O v ms =
  match var_factory (pv_tok v) with
  | None => None
  | Some fresh => option_map (fun x => put (pv_count v) (pv_tok v) x ms) (var_select O v (current (pv_count v) v ms fresh))
  end.
Proof.
  intros O v [vm cm]. unfold apply_variable, current, sel, put. destruct (var_factory (pv_tok v)); [|reflexivity]. destruct (pv_count v); reflexivity.
Qed.
Lemma current_calls : forall O ws v ms fr, var_inv O ws ms -> var_factory (pv_tok v) = Some fr ->
  exists s, start (pv_count v) (pv_tok v) = Some s /\ apply_calls O (calls_of (pv_tok v) (pv_count v) ws) s = Some (current (pv_count v) v ms fr).
Proof.
  intros O ws v ms fr I E. destruct (I (pv_count v)) as (_ & G & H). unfold current.
  destruct (vmap_get (pv_tok v) (sel (pv_count v) ms)) as [x|] eqn:EG.
  - now apply H in EG as (_ & K).
  - exists (if pv_count v then VCount fr else fr). unfold start. rewrite E. split; [reflexivity|]. rewrite calls_none; [reflexivity|]. intro M. now apply G in M.
Qed.
Lemma mentions_app : forall t c ws v, mentions t c (ws ++ [v]) <-> mentions t c ws \/ (t = pv_tok v /\ c = pv_count v).
Proof.
  intros t c ws v. unfold mentions. split.
  - intros (w & I & E1 & E2). apply in_app_iff in I as [I|[<-|[]]]; [left; eauto|right; auto].
  - intros [(w & I & E)|[-> ->]]; [exists w|exists v]; (split; [apply in_or_app; simpl; auto|auto]).
Qed.
Lemma var_inv_step : forall O ws v ms ms', var_inv O ws ms -> apply_variable O v ms = Some ms' -> var_inv O (ws ++ [v]) ms'.
Proof.
  intros O ws v ms ms' I H. rewrite apply_variable_eq in H. destruct (var_factory (pv_tok v)) as [fr|] eqn:E; [|discriminate].
  destruct (var_select O v (current (pv_count v) v ms fr)) as [y|] eqn:S; [|discriminate]. injection H as <-. rewrite select_calls in S.
  destruct (current_calls O ws v ms fr I E) as (s & ES & EC). intro c. destruct (Bool.bool_dec c (pv_count v)) as [->|NC].
  - assert (K : sel (pv_count v) (put (pv_count v) (pv_tok v) y ms) = vmap_set (pv_tok v) y (sel (pv_count v) ms)) by (unfold sel, put; now destruct (pv_count v)).
    rewrite K. destruct (I (pv_count v)) as (N & G & X). split; [now apply set_nodup|]. split.
    + intros t M. rewrite get_set. destruct (vtok_eq_dec t (pv_tok v)); [discriminate|]. apply mentions_app in M as [M|[M _]]; [now apply G|easy].
    + intros t x Q. rewrite get_set in Q. rewrite mentions_app, calls_app. destruct (vtok_eq_dec t (pv_tok v)) as [->|NT].
      * injection Q as <-. split; [auto|]. exists s. split; [exact ES|]. now rewrite apply_calls_app, EC.
      * apply X in Q as (M & f & EF & EA). split; [now left|]. exists f. split; [exact EF|].
        rewrite (calls_other t (pv_count v) v) by tauto. now rewrite app_nil_r.
  - assert (K : sel c (put (pv_count v) (pv_tok v) y ms) = sel c ms) by (unfold sel, put; destruct c, (pv_count v); easy).
    rewrite K. destruct (I c) as (N & G & X). split; [exact N|]. split.
    + intros t M. apply mentions_app in M as [M|[_ M]]; [now apply G|easy].
    + intros t x Q. apply X in Q as (M & f & EF & EA). split; [apply mentions_app; now left|]. exists f. split; [exact EF|].
      rewrite calls_app, (calls_other t c v) by tauto. now rewrite app_nil_r.
Qed.
Lemma var_inv_list : forall O vs ws ms ms', var_inv O ws ms -> apply_variable_list O vs ms = Some ms' -> var_inv O (ws ++ vs) ms'.
Proof.
  intro O. induction vs as [|v vs IH]; intros ws ms ms' I H; simpl in H.
  - injection H as <-. now rewrite app_nil_r.
  - destruct (apply_variable O v ms) as [m1|] eqn:E; [|discriminate]. replace (ws ++ v :: vs) with ((ws ++ [v]) ++ vs) by now rewrite <- app_assoc.
    apply (IH _ m1); [|exact H]. now apply (var_inv_step O ws v ms).
Qed.
Lemma var_inv_nil : forall O, var_inv O [] ([], []).
Proof. intros O c. destruct c; (split; [constructor|]; split; [intros t (v & [] & _)|intros t x H; discriminate]). Qed.
(** The variables a list stands for: one for every token and count mark. *)
Definition stands_for (O : oracles) (vs : list pvar) (k : vtok * bool) (x : variable) : Prop :=
  exists fr, start (snd k) (fst k) = Some fr /\ apply_calls O (calls_of (fst k) (snd k) vs) fr = Some x.
Lemma stands_fun : forall O vs k x y, stands_for O vs k x -> stands_for O vs k y -> x = y.
Proof. intros O vs k x y (f & E1 & E2) (g & E3 & E4). rewrite E1 in E3. injection E3 as <-. congruence. Qed.
Lemma nodup_app : forall A (a b : list A), NoDup a -> NoDup b -> (forall x, In x a -> ~ In x b) -> NoDup (a ++ b).
Proof.
  induction a as [|x a IH]; intros b N1 N2 D; [exact N2|]. inversion N1 as [|? ? NI N1']; subst. cbn [app]. constructor.
  - rewrite in_app_iff. intros [K|K]; [easy|]. now apply (D x (or_introl eq_refl)).
  - apply IH; auto. intros y Y. apply D. now right.
Qed.
Lemma nodup_map_pair : forall A B (c : B) (l : list A), NoDup l -> NoDup (map (fun k => (k, c)) l).
Proof.
  intros A B c l N. induction N as [|x l NI N IH]; [constructor|]. cbn [map]. constructor; [|exact IH]. rewrite in_map_iff. intros (k & EQ & K). injection EQ as ->. easy.
Qed.
Lemma apply_variables_spec : forall O n vs l, ord_valid O -> apply_variables O n vs = Some l ->
  exists keys, NoDup keys /\ (forall t c, In (t, c) keys <-> mentions t c vs) /\ Forall2 (stands_for O vs) keys l.
Proof.
  intros O n vs l V H. unfold apply_variables in H. destruct (apply_variable_list O vs ([], [])) as [[vm cm]|] eqn:E; [|discriminate].
  injection H as <-. assert (I : var_inv O vs (vm, cm)) by (apply (var_inv_list O vs [] ([], [])); [apply var_inv_nil|exact E]).
  pose proof (V n _ vm) as P1. pose proof (V (S n) _ cm) as P2. set (vm' := ord O n _ vm) in *. set (cm' := ord O (S n) _ cm) in *.
  assert (I' : var_inv O vs (vm', cm')).
  { intro c. destruct (I c) as (N & G & X). assert (P : Permutation (sel c (vm', cm')) (sel c (vm, cm))) by (destruct c; [exact P2|exact P1]).
    assert (N' : NoDup (map fst (sel c (vm', cm')))) by (apply (Permutation_NoDup (l := map fst (sel c (vm, cm)))); [apply Permutation_map; now symmetry|exact N]).
    assert (Q : forall t x, vmap_get t (sel c (vm', cm')) = Some x <-> vmap_get t (sel c (vm, cm)) = Some x).
    { intros t x. rewrite !get_in by assumption. split; apply Permutation_in; [exact P|now symmetry]. }
    split; [exact N'|]. split.
    - intros t M EQ. apply G in M. destruct (vmap_get t (sel c (vm, cm))) as [x|] eqn:EG; [|easy]. apply Q in EG. congruence.
    - intros t x K. apply Q in K. now apply X. }
  destruct (I' false) as (N1 & G1 & X1), (I' true) as (N2 & G2 & X2). cbn [sel fst snd] in *.
  exists (map (fun k => (k, false)) (map fst vm') ++ map (fun k => (k, true)) (map fst cm')). split; [|split].
  - apply nodup_app; [now apply nodup_map_pair|now apply nodup_map_pair|]. intros [t c] J1 J2.
    apply in_map_iff in J1 as (k & EQ & _). apply in_map_iff in J2 as (k' & EQ' & _). congruence.
  - intros t c. rewrite in_app_iff, !in_map_iff. split.
    + intros [(k & EQ & K)|(k & EQ & K)]; injection EQ as -> <-; apply in_map_iff in K as ([k x] & <- & K).
      * apply get_in in K; [|exact N1]. now apply X1 in K as [K _].
      * apply get_in in K; [|exact N2]. now apply X2 in K as [K _].
    + intro M. destruct c; [right|left]; exists t; (split; [reflexivity|]).
      * apply G2 in M. destruct (vmap_get t cm') as [x|] eqn:EG; [|easy]. apply get_in in EG; [|exact N2]. now apply (in_map fst) in EG.
      * apply G1 in M. destruct (vmap_get t vm') as [x|] eqn:EG; [|easy]. apply get_in in EG; [|exact N1]. now apply (in_map fst) in EG.
  - apply Forall2_app.
    + assert (K : forall t x, In (t, x) vm' -> stands_for O vs (t, false) x) by (intros t x K; apply get_in in K; [|exact N1]; now apply X1 in K as [_ K]).
      clear - K. induction vm' as [|[t x] m IH]; constructor; [apply K; now left|]. apply IH. intros u y J. apply K. now right.
    + assert (K : forall t x, In (t, x) cm' -> stands_for O vs (t, true) x) by (intros t x K; apply get_in in K; [|exact N2]; now apply X2 in K as [_ K]).
      clear - K. induction cm' as [|[t x] m IH]; constructor; [apply K; now left|]. apply IH. intros u y J. apply K. now right.
Qed.

(** ** What can be loaded *)
Fixpoint named_var (v : variable) : bool :=
  match v with VScalar _ => false | VCount v' => named_var v' | _ => true end.
Lemma filter_call_ok : forall O c f, (exists g, filter_call O c f = Some g) <->
  forall p, pattern (match c with Inc i => i | Exc i => i end) p -> rx_ok O p = true.
Proof.
  intros O c f.
  assert (K : forall i (g h : filter), (exists x, (if is_regex i then if rx_ok O (inner i) then Some g else None else Some h) = Some x) <->
            forall p, pattern i p -> rx_ok O p = true).
  { intros i g h. destruct (is_regex i) eqn:R.
    - apply is_regex_pattern in R as (p & P). rewrite (inner_pattern _ _ P). destruct (rx_ok O p) eqn:E; split; eauto.
      + intros _ q Q. rewrite <- (inner_pattern _ _ P), (inner_pattern _ _ Q) in E. exact E.
      + intros (x & X). discriminate.
      + intro H. rewrite (H p P) in E. discriminate.
    - apply exact_not_regex in R. split; [intros _ p P; now apply R in P|eauto]. }
  destruct c as [i|i]; simpl; unfold filter_include, filter_exclude; apply K.
Qed.
Lemma call_ok : forall O c x, (exists y, apply_call O c x = Some y) <->
  (named_var x = true -> forall p, pattern (match c with Inc i => i | Exc i => i end) p -> rx_ok O p = true).
Proof.
  intros O c x. induction x as [k f|k|g p|g p|x IH].
  - rewrite <- (filter_call_ok O c f). simpl. destruct c; simpl; split.
    + intros (y & Y) _. destruct (filter_include O s f); [eauto|discriminate].
    + intro H. destruct (H eq_refl) as (g & ->). simpl. eauto.
    + intros (y & Y) _. destruct (filter_exclude O s f); [eauto|discriminate].
    + intro H. destruct (H eq_refl) as (g & ->). simpl. eauto.
  - simpl. split; [discriminate|]. intros _. destruct c; simpl; eauto.
  - pose proof (filter_call_ok O c g) as K1. pose proof (filter_call_ok O c p) as K2. simpl. destruct c as [i|i]; simpl in *; (split; [intros (y & Y) _|intro H]).
    + apply K1. destruct (filter_include O i g); [eauto|discriminate].
    + destruct (proj2 K1 (H eq_refl)) as (a & ->), (proj2 K2 (H eq_refl)) as (b & ->). eauto.
    + apply K1. destruct (filter_exclude O i g); [eauto|discriminate].
    + destruct (proj2 K1 (H eq_refl)) as (a & ->), (proj2 K2 (H eq_refl)) as (b & ->). eauto.
  - pose proof (filter_call_ok O c g) as K1. pose proof (filter_call_ok O c p) as K2. simpl. destruct c as [i|i]; simpl in *; (split; [intros (y & Y) _|intro H]).
    + apply K1. destruct (filter_include O i g); [eauto|discriminate].
    + destruct (proj2 K1 (H eq_refl)) as (a & ->), (proj2 K2 (H eq_refl)) as (b & ->). eauto.
    + apply K1. destruct (filter_exclude O i g); [eauto|discriminate].
    + destruct (proj2 K1 (H eq_refl)) as (a & ->), (proj2 K2 (H eq_refl)) as (b & ->). eauto.
  - cbn [named_var]. rewrite <- IH. destruct c as [i|i]; simpl; split; intros (y & Y).
    + destruct (var_include O i x); [eauto|discriminate].
    + rewrite Y. simpl. eauto.
    + destruct (var_exclude O i x); [eauto|discriminate].
    + rewrite Y. simpl. eauto.
Qed.
Lemma call_named : forall O c x y, apply_call O c x = Some y -> named_var y = named_var x.
Proof.
  intros O c x. induction x as [k f|k|g p|g p|x IH]; intros y H; destruct c as [i|i]; simpl in *.
  - destruct (filter_include O i f); [|discriminate]. now injection H as <-.
  - destruct (filter_exclude O i f); [|discriminate]. now injection H as <-.
  - now injection H as <-.
  - now injection H as <-.
  - destruct (filter_include O i g), (filter_include O i p); try discriminate. now injection H as <-.
  - destruct (filter_exclude O i g), (filter_exclude O i p); try discriminate. now injection H as <-.
  - destruct (filter_include O i g), (filter_include O i p); try discriminate. now injection H as <-.
  - destruct (filter_exclude O i g), (filter_exclude O i p); try discriminate. now injection H as <-.
  - destruct (var_include O i x) eqn:E; [|discriminate]. injection H as <-. simpl. now apply IH.
  - destruct (var_exclude O i x) eqn:E; [|discriminate]. injection H as <-. simpl. now apply IH.
Qed.
Lemma calls_named : forall O cs x y, apply_calls O cs x = Some y -> named_var y = named_var x.
Proof.
  intro O. induction cs as [|c cs IH]; intros x y H; simpl in H; [now injection H as <-|].
  destruct (apply_call O c x) as [z|] eqn:E; [|discriminate]. apply call_named in E. apply IH in H. congruence.
Qed.
Lemma start_named : forall c t fr, start c t = Some fr -> (named_var fr = true <-> named_values t).
Proof.
  intros c t fr H. unfold start in H. destruct (var_factory t) as [x|] eqn:E; [|discriminate]. injection H as <-.
  assert (K : named_var (if c then VCount x else x) = named_var x) by now destruct c. rewrite K. unfold named_values.
  destruct t; simpl in E; try discriminate; injection E as <-; simpl; intuition discriminate.
Qed.
Lemma var_factory_some : forall t, t <> KXML <-> exists x, var_factory t = Some x.
Proof. intros []; simpl; split; eauto; try discriminate; try (intros (x & X); discriminate); easy. Qed.
Lemma apply_variable_loads : forall O ws v ms, var_inv O ws ms -> (exists ms', apply_variable O v ms = Some ms') <-> loads_var O v.
Proof.
  intros O ws v ms I. rewrite apply_variable_eq. unfold loads_var. destruct (var_factory (pv_tok v)) as [fr|] eqn:E.
  - assert (NX : pv_tok v <> KXML) by (apply var_factory_some; eauto).
    destruct (current_calls O ws v ms fr I E) as (s & ES & EC). apply calls_named in EC. pose proof (start_named _ _ _ ES) as SN.
    assert (K : (exists ms', option_map (fun x => put (pv_count v) (pv_tok v) x ms) (var_select O v (current (pv_count v) v ms fr)) = Some ms') <->
                exists y, var_select O v (current (pv_count v) v ms fr) = Some y).
    { destruct (var_select O v (current (pv_count v) v ms fr)) as [y|]; simpl; split; eauto; intros (y & Y); discriminate. }
    rewrite K. unfold var_select. destruct (pv_index v) as [|a i] eqn:PI.
    + split; [|eauto]. intros _. split; [exact NX|]. intros _ p P. destruct p; discriminate.
    + rewrite <- SN, <- EC. destruct (pv_excl v).
      * pose proof (call_ok O (Exc (a :: i)) (current (pv_count v) v ms fr)) as C. simpl in C. tauto.
      * pose proof (call_ok O (Inc (a :: i)) (current (pv_count v) v ms fr)) as C. simpl in C. tauto.
  - split; [intros (y & Y); discriminate|]. intros [NX _]. apply var_factory_some in NX as (x & X). congruence.
Qed.
Lemma apply_list_loads : forall O vs ws ms, var_inv O ws ms -> (exists ms', apply_variable_list O vs ms = Some ms') <-> Forall (loads_var O) vs.
Proof.
  intro O. induction vs as [|v vs IH]; intros ws ms I; simpl; [split; eauto|]. pose proof (apply_variable_loads O ws v ms I) as K.
  destruct (apply_variable O v ms) as [m1|] eqn:E.
  - rewrite (IH (ws ++ [v]) m1 (var_inv_step O ws v ms m1 I E)). split; [intro F; constructor; [apply K; eauto|exact F]|]. intro F. now inversion F.
  - split; [intros (y & Y); discriminate|]. intro F. inversion F as [|? ? F1 F2]; subst. apply K in F1 as (y & Y). discriminate.
Qed.
Lemma apply_variables_loads : forall O n vs, (exists l, apply_variables O n vs = Some l) <-> Forall (loads_var O) vs.
Proof.
  intros O n vs. rewrite <- (apply_list_loads O vs [] ([], []) (var_inv_nil O)). unfold apply_variables.
  destruct (apply_variable_list O vs ([], [])) as [[vm cm]|]; split; eauto; intros (y & Y); discriminate.
Qed.

Lemma operator_means : forall O o x, operator_factory O o = Some x <-> op_means O o x.
Proof.
  intros O [tok nt arg] x. unfold operator_factory. split.
  - intro H. destruct tok; simpl in H.
    + unfold new_rx in H. destruct (rx_ok O arg) eqn:E; [|discriminate]. injection H as <-. now apply (om_rx O (POper KRx nt arg)).
    + apply new_compare_some in H as (z & P & ->). apply (om_cmp O (POper KEq nt arg)); simpl; tauto.
    + apply new_compare_some in H as (z & P & ->). apply (om_cmp O (POper KGe nt arg)); simpl; tauto.
    + apply new_compare_some in H as (z & P & ->). apply (om_cmp O (POper KGt nt arg)); simpl; tauto.
    + apply new_compare_some in H as (z & P & ->). apply (om_cmp O (POper KLe nt arg)); simpl; tauto.
    + apply new_compare_some in H as (z & P & ->). apply (om_cmp O (POper KLt nt arg)); simpl; tauto.
  - intro H. destruct H as [o T R|o c z I P].
    + rewrite T. unfold new_rx. now rewrite R.
    + apply (cmp_in_int64 c) in P. simpl in I. destruct (po_tok o); repeat destruct I as [I|I]; try discriminate; try easy; injection I as <-; exact P.
Qed.

Lemma op_loads : forall O o, (exists x, operator_factory O o = Some x) <-> loads_op O o.
Proof.
  intros O o. unfold operator_factory, loads_op. destruct (po_tok o).
  - unfold new_rx. destruct (rx_ok O (po_arg o)); split; eauto; try discriminate. intros (x & X). discriminate.
  - apply cmp_constructor.
  - apply cmp_constructor.
  - apply cmp_constructor.
  - apply cmp_constructor.
  - apply cmp_constructor.
Qed.
Definition acts_of (p : processed) : list action := match p with PAct a => [a] | PMeta _ _ => [] end.
Lemma action_means : forall a x, (exists p, action_factory a = Some p /\ x = acts_of p) <-> act_means a x.
Proof.
  intros [t s] x. split.
  - intros (p & H & ->). unfold action_factory in H. simpl in H. destruct t; try discriminate.
    + injection H as <-. simpl. constructor. now apply trimQuote_iff.
    + injection H as <-. apply am_meta. simpl. tauto.
    + injection H as <-. apply am_meta. simpl. tauto.
    + injection H as <-. apply am_meta. simpl. tauto.
    + injection H as <-. apply am_meta. simpl. tauto.
    + injection H as <-. constructor.
    + injection H as <-. constructor.
    + injection H as <-. constructor.
    + destruct (atoi (trimQuote s)) as [n|] eqn:E; [|discriminate]. injection H as <-. apply parse_int64_iff in E as [D I].
      simpl. apply (am_status s (trimQuote s)); [now apply trimQuote_iff|exact D|exact I].
    + injection H as <-. constructor.
  - unfold action_factory. generalize (PAction t s). clear t s. intros a H. destruct H as [s|s|s|s|s x U|s x n U D I|t s I]; simpl; try (eexists; split; reflexivity).
    + apply trimQuote_iff in U as ->. eexists; split; reflexivity.
    + apply trimQuote_iff in U as ->. assert (E : atoi x = Some n) by (apply parse_int64_iff; tauto). rewrite E. eexists; split; reflexivity.
    + simpl in I. destruct I as [<-|[<-|[<-|[<-|[]]]]]; eexists; split; reflexivity.
Qed.
Lemma act_loads : forall a, (exists p, action_factory a = Some p) <-> loads_act a.
Proof.
  intro a. transitivity (exists x, act_means a x).
  - split; [intros (p & P); exists (acts_of p); apply action_means; eauto|]. intros (x & X). apply action_means in X as (p & P & _). eauto.
  - unfold loads_act. split.
    + intros (x & X). destruct X as [s|s|s|s|s x U|s x n U D I|t s I]; simpl; try tauto.
      right. split; [reflexivity|eauto].
    + destruct a as [t s]. simpl. intros [I|[-> (x & n & U & D & J)]].
      * repeat destruct I as [I|I]; try subst t; try easy; try (eexists; constructor; fail); try (exists []; apply am_meta; simpl; tauto).
        exists [AAllow (trimQuote s)]. constructor. now apply trimQuote_iff.
      * exists [AStatus n]. now apply (am_status s x).
Qed.
Lemma action_list_loads : forall l meta acts, (exists r, apply_action_list l meta acts = Some r) <-> Forall loads_act l.
Proof.
  induction l as [|a l IH]; intros meta acts; simpl; [split; eauto|]. pose proof (act_loads a) as K.
  destruct (action_factory a) as [[k v|x]|].
  - rewrite IH. split; [intro F; constructor; [apply K; eauto|exact F]|]. intro F. now inversion F.
  - rewrite IH. split; [intro F; constructor; [apply K; eauto|exact F]|]. intro F. now inversion F.
  - split; [intros (y & Y); discriminate|]. intro F. inversion F as [|? ? F1 F2]; subst. apply K in F1 as (y & Y). discriminate.
Qed.
Lemma dire_loads : forall O n d, (exists r, dire_factory O n d = Some r) <-> loadable O d.
Proof.
  intros O n [vs o a|b|b|v]; simpl; try (split; eauto; fail). unfold rule_from_seclang.
  pose proof (apply_variables_loads O n vs) as K1. pose proof (op_loads O o) as K2. pose proof (action_list_loads (pas_acts a) [] []) as K3.
  rewrite <- K1, <- K2, <- K3. clear.
  destruct (apply_variables O n vs), (operator_factory O o), (apply_action_list (pas_acts a) [] []) as [[m l']|]; simpl; split;
    try (intros (x & X); discriminate); try (intros ((x & X) & (y & Y) & (z & Z)); discriminate); eauto 6.
Qed.

(** ** Loaded rules *)
Lemma acts_mean_app : forall l a x y, acts_mean l x -> act_means a y -> acts_mean (l ++ [a]) (x ++ y).
Proof.
  intros l a x y H Y. induction H as [|b l u v U V IH]; simpl.
  - rewrite <- (app_nil_r y). now constructor; [|constructor].
  - rewrite <- app_assoc. now constructor.
Qed.
Lemma action_list_acts : forall l meta acts m' acts', apply_action_list l meta acts = Some (m', acts') ->
  exists x, acts_mean l x /\ acts' = acts ++ x.
Proof.
  induction l as [|a l IH]; intros meta acts m' acts' H; simpl in H.
  - injection H as <- <-. exists []. split; [constructor|now rewrite app_nil_r].
  - destruct (action_factory a) as [p|] eqn:E; [|discriminate].
    assert (A : act_means a (acts_of p)) by (apply action_means; eauto).
    destruct p as [k v|x]; apply IH in H as (y & Y & ->); simpl in A.
    + exists y. split; [|reflexivity]. now apply (acm_cons a l [] y).
    + exists (x :: y). split; [now apply (acm_cons a l [x] y)|now rewrite <- app_assoc].
Qed.
Definition stored (m : vals) (k : bs) : list bs := match assoc k m with Some l => l | None => [] end.
Lemma stored_add : forall k v k' m, stored (vals_add k v m) k' = if bs_eqb k k' then stored m k' ++ [v] else stored m k'.
Proof.
  intros k v k' m. unfold stored. rewrite vals_add_assoc, (bs_eqb_sym k' k). destruct (bs_eqb k k') eqn:E; [|reflexivity].
  apply bs_eqb_eq in E as ->. destruct (assoc k' m); reflexivity.
Qed.
Lemma action_list_meta : forall l meta acts m' acts' t k, In (t, k) meta_names -> apply_action_list l meta acts = Some (m', acts') ->
  exists vs, meta_values t l vs /\ stored m' k = stored meta k ++ vs.
Proof.
  induction l as [|a l IH]; intros meta acts m' acts' t k I H; simpl in H.
  - injection H as <- <-. exists []. split; [constructor|now rewrite app_nil_r].
  - destruct a as [u s]. destruct (action_factory (PAction u s)) as [p|] eqn:E; [|discriminate].
    assert (C : (exists v, p = PMeta k v /\ u = t /\ v = trimQuote s) \/
                (u <> t /\ forall k' v, p = PMeta k' v -> bs_eqb k' k = false)).
    { unfold action_factory in E. simpl in E, I.
      destruct I as [I|[I|[I|[I|[]]]]]; injection I as <- <-; destruct u; try discriminate;
        try (destruct (atoi (trimQuote s)); [|discriminate]); injection E as <-;
        (left; eexists; repeat split; reflexivity) || (right; split; [discriminate|intros k' v K; try discriminate; injection K as <- <-; reflexivity]). }
    destruct C as [(v & -> & -> & ->)|[N C]].
    + destruct (IH _ _ _ _ t k I H) as (vs & M & S). exists (trimQuote s :: vs). split; [constructor; [now apply trimQuote_iff|exact M]|].
      rewrite S, stored_add, bs_eqb_refl, <- app_assoc. reflexivity.
    + destruct p as [k' v|x].
      * destruct (IH _ _ _ _ t k I H) as (vs & M & S). exists vs. split; [now apply mv_other|].
        now rewrite S, stored_add, (C k' v eq_refl).
      * destruct (IH _ _ _ _ t k I H) as (vs & M & S). exists vs. split; [now apply mv_other|exact S].
Qed.
Lemma rule_written : forall O n vs o a r chain, ord_valid O -> rule_from_seclang O n vs o a = Some (r, chain) ->
  r_id r = pas_id a /\ r_phase r = pas_phase a /\ chain = pas_chain a /\ r_not r = po_not o /\
  r_trans r = map trans_means (pas_trans a) /\ (exists x, r_op r = Some x /\ op_means O o x) /\ acts_mean (pas_acts a) (r_acts r) /\
  (forall t k, In (t, k) meta_names -> meta_values t (pas_acts a) (stored (r_meta r) k)) /\ r_subs r = [] /\
  exists keys, NoDup keys /\ (forall t c, In (t, c) keys <-> mentions t c vs) /\ Forall2 (stands_for O vs) keys (r_vars r).
Proof.
  intros O n vs o a r chain OV H. unfold rule_from_seclang in H.
  destruct (apply_variables O n vs) as [vars|] eqn:E1; [|discriminate].
  destruct (operator_factory O o) as [x|] eqn:E2; [|discriminate].
  destruct (apply_action_list (pas_acts a) [] []) as [[meta acts]|] eqn:E3; [|discriminate].
  injection H as <- <-. simpl. do 4 (split; [reflexivity|]). split; [apply map_ext; now intros []|].
  split. { exists x. split; [reflexivity|]. now apply operator_means. }
  split. { apply action_list_acts in E3 as (y & Y & ->). exact Y. }
  split. { intros t k I. destruct (action_list_meta _ _ _ _ _ t k I E3) as (ws & M & S). simpl in S. now rewrite S. }
  split; [reflexivity|]. now apply (apply_variables_spec O n vs vars OV).
Qed.

(** ** Nothing is lost *)
Definition item_rules (items : list (dire * bool)) : list rule := rules_of (map fst items).
Definition others (ds : list dire) : list dire := List.filter (fun d => match d with IRule _ => false | _ => true end) ds.
Lemma unchained_app : forall a b, unchained (a ++ b) = unchained a ++ unchained b.
Proof. intros a b. unfold unchained. apply flat_map_app. Qed.
Lemma others_app : forall a b, others (a ++ b) = others a ++ others b.
Proof. intros a b. apply filter_app. Qed.
Lemma loaded_nosubs : forall O n ds items, loaded O n ds items -> Forall (fun r => r_subs r = []) (item_rules items).
Proof.
  intros O n ds items L. induction L as [n|n d ds x xs F L IH]; [constructor|]. unfold item_rules, rules_of in *. cbn [map flat_map].
  apply Forall_app. split; [|exact IH]. destruct d as [vs o a|b|b|v]; simpl in F; try (injection F as <-; constructor).
  unfold rule_from_seclang in F. destruct (apply_variables O n vs), (operator_factory O o), (apply_action_list (pas_acts a) [] []) as [[m ac]|];
    try discriminate. injection F as <-. now repeat constructor.
Qed.
Lemma rules_of_cons : forall d l, rules_of (d :: l) = match d with IRule r => [r] | _ => [] end ++ rules_of l.
Proof. reflexivity. Qed.
Lemma unchained_cons : forall d l, unchained (d :: l) = match d with IRule r => alone r :: r_subs r | _ => [] end ++ unchained l.
Proof. reflexivity. Qed.
Lemma others_cons : forall d l, others (d :: l) = match d with IRule _ => [] | _ => [d] end ++ others l.
Proof. now intros [] l. Qed.
Lemma followers_kept : forall l subs oth rest, followers l subs oth rest ->
  item_rules l = subs ++ item_rules rest /\ others (map fst l) = oth ++ others (map fst rest) /\ unchained oth = [] /\ others oth = oth.
Proof.
  intros l subs oth rest F. unfold item_rules. induction F as [|r l|r l subs oth rest F (I1 & I2 & I3 & I4)|d c l subs oth rest N F (I1 & I2 & I3 & I4)];
    [now repeat split..| |]; cbn [map fst]; rewrite rules_of_cons, !others_cons, I1, I2, ?unchained_cons, ?I3, ?I4.
  - now repeat split.
  - destruct d as [r|b|b|v]; [easy|..]; now repeat split.
Qed.
Lemma assembled_kept : forall items l, assembled items l -> Forall (fun r => r_subs r = []) (item_rules items) ->
  unchained l = item_rules items /\ others l = others (map fst items).
Proof.
  intros items l A. unfold item_rules. induction A as [|d c l l' N A IH|r l l' A IH|r l subs oth rest l' F A IH]; intro NS; [now split|..]; cbn [map fst] in *;
    rewrite rules_of_cons in *; apply Forall_app in NS as [N1 N2].
  - destruct (IH N2) as [I1 I2]. rewrite unchained_cons, !others_cons, I1, I2. destruct d as [r|b|b|v]; [easy|..]; now split.
  - destruct (IH N2) as [I1 I2]. rewrite unchained_cons, !others_cons, I1, I2. apply Forall_inv in N1. now rewrite (alone_same r N1), N1.
  - apply followers_kept in F as (F1 & F2 & F3 & F4). unfold item_rules in F1. rewrite F1 in *. apply Forall_app in N2 as [_ N2]. destruct (IH N2) as [I1 I2].
    apply Forall_inv in N1. rewrite unchained_cons, !others_cons, unchained_app, others_app, F2, F3, F4, I1, I2. cbn [r_subs with_followers]. rewrite N1.
    change (alone (with_followers r subs)) with (alone r). rewrite (alone_same r N1). split; reflexivity.
Qed.
Lemma loaded_iff : forall O ds n, (exists items, loaded O n ds items) <-> Forall (loadable O) ds.
Proof.
  intros O. induction ds as [|d ds IH]; intro n; [split; [constructor|eexists; constructor]|]. split.
  - intros (items & L). inversion L as [|? ? ? x xs F L']; subst. constructor; [apply (dire_loads O n d); eauto|apply (IH (S (S n))); eauto].
  - intro F. inversion F as [|? ? F1 F2]; subst. apply (dire_loads O n d) in F1 as (x & X). apply (IH (S (S n))) in F2 as (xs & L). exists (x :: xs). now apply ld_cons.
Qed.
Lemma var_means_iff : forall t x, var_factory t = Some x <-> In (t, x) var_means.
Proof.
  intros t x. split.
  - intro H. unfold var_means. destruct t; simpl in H; try discriminate; injection H as <-; simpl; repeat (first [left; reflexivity | right]).
  - intro H. unfold var_means in H. simpl in H. repeat (destruct H as [H|H]; [injection H as <- <-; reflexivity|]). destruct H.
Qed.

(** ** Two loads *)
Lemma calls_same : forall O1 O2, (forall p, rx_ok O1 p = rx_ok O2 p) -> forall cs x, apply_calls O1 cs x = apply_calls O2 cs x.
Proof.
  intros O1 O2 H. assert (FI : forall i f, filter_include O1 i f = filter_include O2 i f) by (intros; unfold filter_include; now rewrite H).
  assert (FE : forall i f, filter_exclude O1 i f = filter_exclude O2 i f) by (intros; unfold filter_exclude; now rewrite H).
  assert (VI : forall i x, var_include O1 i x = var_include O2 i x) by (intros i; induction x; simpl; rewrite ?FI, ?FE, ?IHx; reflexivity).
  assert (VE : forall i x, var_exclude O1 i x = var_exclude O2 i x) by (intros i; induction x; simpl; rewrite ?FI, ?FE, ?IHx; reflexivity).
  induction cs as [|c cs IH]; intro x; simpl; [reflexivity|].
  replace (apply_call O1 c x) with (apply_call O2 c x) by (destruct c; simpl; congruence). destruct (apply_call O2 c x); [apply IH|reflexivity].
Qed.
Lemma variables_perm : forall O1 O2 n1 n2 vs l1 l2, (forall p, rx_ok O1 p = rx_ok O2 p) -> ord_valid O1 -> ord_valid O2 ->
  apply_variables O1 n1 vs = Some l1 -> apply_variables O2 n2 vs = Some l2 -> Permutation l1 l2.
Proof.
  intros O1 O2 n1 n2 vs l1 l2 R V1 V2 H1 H2.
  destruct (apply_variables_spec O1 n1 vs l1 V1 H1) as (k1 & N1 & M1 & F1). destruct (apply_variables_spec O2 n2 vs l2 V2 H2) as (k2 & N2 & M2 & F2).
  assert (P : Permutation k1 k2) by (apply NoDup_Permutation; [assumption..|]; intros [t c]; rewrite M1, M2; tauto).
  destruct (Permutation_Forall2 P F1) as (l' & P' & F'). rewrite P'. clear - R F' F2. assert (E : l' = l2); [|now rewrite E].
  revert l2 F2. induction F' as [|k x ks l' S F' IH]; intros l2 F2; inversion F2 as [|? y ? ? S2 F2']; subst; [reflexivity|].
  f_equal; [|now apply IH]. apply (stands_fun O2 vs k); [|exact S2]. destruct S as (fr & S1 & S3). exists fr. split; [exact S1|]. now rewrite <- (calls_same O1 O2 R).
Qed.
