(** Programs whose engines may share their limits: C41, C65, C68. *)
From Verif Require Import Base BaseFacts GoStrings Buffer BufferFacts Types Transforms Operators Transaction Variables Rules Engine Scanner Loader
  World SpecWorld PropWorld Shared SpecShared Witness.
From Coq Require Import ZifyBool.

(** ** Limits behind pointers *)
Lemma in_with : forall l e, limits_in (with_limits l e) = l.
Proof. now intros []. Qed.
Lemma with_in : forall e, with_limits (limits_in e) e = e.
Proof. now intros []. Qed.
Lemma filled_length : forall lims engs of, length (filled lims of engs) = length engs.
Proof. intros lims. induction engs as [|x engs IH]; intros [|m of]; cbn; auto. Qed.
Lemma filled_nth : forall lims engs of i, nth_error (filled lims of engs) i =
  match nth_error engs i with
  | Some x => match nth_error of i with
      | Some m => match nth_error lims m with Some l => Some (HEng (with_limits l (he_conf x)) (he_set x)) | None => Some x end
      | None => Some x end
  | None => None end.
Proof.
  intros lims. induction engs as [|x engs IH]; intros [|m of] [|i]; cbn; try reflexivity.
  - now destruct (nth_error engs i).
  - now destruct (nth_error lims m).
  - apply IH.
Qed.
Lemma works_points : forall s i l, placed s -> works_with s i l <-> exists m, points s i m /\ nth_error (s_lims s) m = Some l.
Proof.
  intros s i l [P1 P2]. unfold works_with, points, seen. cbn [w_engs]. split.
  - intros (x & X & L). rewrite filled_nth in X. destruct (nth_error (w_engs (s_world s)) i) as [y|] eqn:Y; [|discriminate].
    assert (I : (i < length (s_of s))%nat) by (rewrite P1; eapply nth_lt; eauto).
    destruct (nth_error (s_of s) i) as [m|] eqn:M; [|apply nth_error_None in M; lia]. exists m. split; [reflexivity|].
    destruct (nth_error (s_lims s) m) as [l'|] eqn:E.
    + injection X as <-. cbn [he_conf] in L. rewrite in_with in L. now subst.
    + apply nth_error_None in E. apply nth_error_In, P2 in M. lia.
  - intros (m & M & E). rewrite filled_nth, M, E. destruct (nth_error (w_engs (s_world s)) i) as [y|] eqn:Y.
    + eexists. split; [reflexivity|]. cbn [he_conf]. apply in_with.
    + apply nth_error_None in Y. apply nth_lt in M. lia.
Qed.
Lemma put_length : forall A n (x : A) l, length (put n x l) = length l.
Proof. intros A. induction n as [|n IH]; intros x [|y l]; cbn; auto. Qed.
Lemma put_In : forall A n (x y : A) l, In y (put n x l) -> y = x \/ In y l.
Proof. intros A. induction n as [|n IH]; intros x y [|z l] H; cbn in *; try tauto; destruct H as [->|H]; auto. apply IH in H as [H|H]; auto. Qed.

(** ** What an operation does to the limits in the engines *)
Definition set_as (ds : list dire) (l : limits) : limits :=
  Limits (switched req_switch (l_req l) ds) (switched res_switch (l_res l) ds) (l_reqlimit l) (l_reqmem l) (l_reslimit l).
Definition kept_engs (w w1 : world) : Prop :=
  length (w_engs w1) = length (w_engs w) /\
  forall j x, nth_error (w_engs w) j = Some x -> exists x1, nth_error (w_engs w1) j = Some x1 /\ limits_in (he_conf x1) = limits_in (he_conf x).
Definition moved_eng (i : nat) (g : limits -> limits) (w w1 : world) : Prop :=
  length (w_engs w1) = length (w_engs w) /\
  forall j x, nth_error (w_engs w) j = Some x -> exists x1, nth_error (w_engs w1) j = Some x1 /\
    limits_in (he_conf x1) = if Nat.eqb j i then g (limits_in (he_conf x)) else limits_in (he_conf x).
Lemma kept_same : forall w w1, w_engs w1 = w_engs w -> kept_engs w w1.
Proof. intros w w1 E. split; [now rewrite E|]. intros j x X. exists x. now rewrite E. Qed.
Lemma conf_moves : forall i g h w w1, (forall e, limits_in (g e) = h (limits_in e)) -> with_conf i g w = Ret w1 -> moved_eng i h w w1.
Proof.
  intros i g h w w1 G H. unfold with_conf in H. apply bind_Ret in H as (x & X & H). apply deref_Ret in X. apply Ret_inj in H as <-.
  split; [apply put_length|]. intros j y Y. cbn [put_eng w_engs]. destruct (Nat.eqb_spec j i) as [->|N].
  - rewrite X in Y. injection Y as <-. eexists. split; [apply put_same; eapply nth_lt; eauto|]. apply G.
  - exists y. split; [|reflexivity]. rewrite put_other; auto.
Qed.
Lemma moved_kept : forall i w w1, moved_eng i (fun l => l) w w1 -> kept_engs w w1.
Proof. intros i w w1 [A B]. split; [exact A|]. intros j x X. destruct (B j x X) as (x1 & E & L). exists x1. split; [exact E|]. now destruct (Nat.eqb j i). Qed.
Lemma add_kept : forall i r w w1, w_add_sec_rule i r w = Ret w1 -> w_engs w1 = w_engs w.
Proof.
  intros i r w w1 H. unfold w_add_sec_rule in H. apply bind_Ret in H as (x & _ & H). destruct (he_set x); [|discriminate].
  apply bind_Ret in H as (rs & _ & H). now apply Ret_inj in H as <-.
Qed.
Lemma moved_trans : forall i g h w w1 w2, moved_eng i g w w1 -> moved_eng i h w1 w2 -> moved_eng i (fun l => h (g l)) w w2.
Proof.
  intros i g h w w1 w2 [A B] [C D]. split; [congruence|]. intros j x X. destruct (B j x X) as (x1 & X1 & L1).
  destruct (D j x1 X1) as (x2 & X2 & L2). exists x2. split; [exact X2|]. destruct (Nat.eqb j i); congruence.
Qed.
Lemma enable_limits : forall s e, limits_in (enable s e) = limits_in e.
Proof. now intros [] []. Qed.
Lemma dire_limits : forall d e, limits_in (execute_dire d e) = set_as [d] (limits_in e).
Proof.
  intros [r|v|v|v] e; try reflexivity. change (set_as [IRuleEng v] (limits_in e)) with (limits_in e). cbn [execute_dire].
  destruct (v =? TriBoolTrue); [apply enable_limits|]. destruct (v =? TriBoolFalse); [apply enable_limits|].
  destruct (v =? TriBoolElse); [apply enable_limits|reflexivity].
Qed.
Lemma execute_moves : forall i ds w w1, w_execute ds i w = Ret w1 -> moved_eng i (set_as ds) w w1.
Proof.
  intros i ds. induction ds as [|d ds IH]; intros w w1 H.
  - apply Ret_inj in H as <-. split; [reflexivity|]. intros j x X. exists x. split; [exact X|].
    destruct (Nat.eqb j i); [|reflexivity]. unfold set_as, switched. cbn. now destruct (he_conf x).
  - assert (S1 : exists w2, moved_eng i (set_as [d]) w w2 /\ w_execute ds i w2 = Ret w1).
    { destruct d as [r|v|v|v]; cbn [w_execute] in H; apply bind_Ret in H as (w2 & H1 & H); exists w2; split; auto;
        try (eapply conf_moves; [|exact H1]; intro e; apply dire_limits).
      apply add_kept in H1. destruct (kept_same _ _ H1) as [A B]. split; [exact A|]. intros j x X. destruct (B j x X) as (x1 & X1 & L).
      exists x1. split; [exact X1|]. rewrite L. destruct (Nat.eqb j i); [|reflexivity]. unfold set_as, switched. cbn. now destruct (he_conf x). }
    destruct S1 as (w2 & M1 & H2). exact (moved_trans _ _ _ _ _ _ M1 (IH _ _ H2)).
Qed.
Lemma new_kept : forall dir i j w w1 b, w_new_transaction dir i j w = Ret (w1, b) -> w_engs w1 = w_engs w.
Proof.
  intros dir i j w w1 b H. unfold w_new_transaction in H. destruct i; [|now inv_Ret H]. destruct j; [|now inv_Ret H].
  apply bind_Ret in H as (x & _ & H). apply bind_Ret in H as (y & _ & H). destruct dir; now inv_Ret H.
Qed.
Lemma wstep_engs : forall f O o w w1 b, wstep f O o w = Ret (w1, b) ->
  match o with
  | WNewEngine => exists j, w_engs w1 = w_engs w ++ [HEng new_engine j]
  | WLimits i a b x y z => moved_eng i (fun _ => Limits a b x y z) w w1 /\ (i < length (w_engs w))%nat
  | WExecute d i => exists ds, nth_error (w_dires w) d = Some ds /\ moved_eng i (set_as ds) w w1
  | _ => kept_engs w w1
  end.
Proof.
  intros f O o w w1 b H. destruct o; cbn [wstep] in H.
  - inv_Ret H. eexists. reflexivity.
  - inv_Ret H. now apply kept_same.
  - apply bind_Ret in H as (w2 & H1 & H). inv_Ret H. apply bind_Ret in H1 as (x & X & H1). apply deref_Ret in X. apply Ret_inj in H1 as <-.
    apply (moved_kept i). split; [apply put_length|]. intros k y Y. cbn [put_eng w_engs]. destruct (Nat.eqb_spec k i) as [->|N].
    + rewrite X in Y. injection Y as <-. eexists. split; [apply put_same; eapply nth_lt; eauto|reflexivity].
    + exists y. split; [|reflexivity]. rewrite put_other; auto.
  - apply bind_Ret in H as (w2 & H1 & H). inv_Ret H. apply (moved_kept i). eapply conf_moves; [|exact H1]. intro e. apply enable_limits.
  - apply bind_Ret in H as (w2 & H1 & H). inv_Ret H. split; [eapply conf_moves; [|exact H1]; reflexivity|].
    unfold with_conf in H1. apply bind_Ret in H1 as (x & X & _). apply deref_Ret in X. eapply nth_lt; eauto.
  - apply bind_Ret in H as (w2 & H1 & H). inv_Ret H. apply kept_same. eapply add_kept; eauto.
  - apply bind_Ret in H as (w2 & H1 & H). inv_Ret H. apply bind_Ret in H1 as (x & _ & H1). apply Ret_inj in H1 as <-. now apply kept_same.
  - apply bind_Ret in H as (w2 & H1 & H). inv_Ret H. apply bind_Ret in H1 as (x & _ & H1). apply Ret_inj in H1 as <-. now apply kept_same.
  - inv_Ret H. now apply kept_same.
  - apply bind_Ret in H as (ds & _ & H). apply bind_Ret in H as ([ds' ok] & _ & H). inv_Ret H. now apply kept_same.
  - apply bind_Ret in H as (w2 & H1 & H). inv_Ret H. apply bind_Ret in H1 as (ds & D & H1). apply deref_Ret in D.
    exists ds. split; [exact D|]. now apply execute_moves.
  - apply bind_Ret in H as (x & _ & H). apply kept_same. eapply new_kept; eauto.
  - apply kept_same. eapply new_kept; eauto.
  - change (wstep f O (WCall k o) w = Ret (w1, b)) in H. apply call_inv in H as (h & x & rs & t' & ob & _ & _ & _ & _ & -> & _). now apply kept_same.
Qed.
Lemma seen_length : forall s, length (w_engs (seen s)) = length (w_engs (s_world s)).
Proof. intro s. apply filled_length. Qed.

(** ** C65: who gets to see a change of limits *)
Lemma step_placed : forall f O o s s1 b, placed s -> sstep f O o s = Ret (s1, b) -> placed s1.
Proof.
  intros f O o s s1 b [P1 P2] H. destruct o as [o|l|i m|m l]; cbn [sstep] in H.
  - apply bind_Ret in H as ([w1 b1] & H1 & H). inv_Ret H. apply wstep_engs in H1.
    assert (K : length (w_engs w1) = length (w_engs (seen s)) -> placed (SWorld w1 (s_lims s) (s_of s))).
    { intro L. split; [cbn; now rewrite L, seen_length|exact P2]. }
    assert (Q : forall i g, moved_eng i g (seen s) w1 -> placed match nth_error (w_engs w1) i, nth_error (s_of s) i with
      | Some x, Some m => SWorld w1 (put m (limits_in (he_conf x)) (s_lims s)) (s_of s)
      | _, _ => SWorld w1 (s_lims s) (s_of s) end).
    { intros i g [L _]. destruct (nth_error (w_engs w1) i); [|now apply K]. destruct (nth_error (s_of s) i); [|now apply K].
      split; cbn; [now rewrite L, seen_length|]. intros q N. rewrite put_length. now apply P2. }
    destruct o; cbn [stored]; try (now apply K; apply H1).
    + destruct H1 as (j & E). split; cbn.
      * rewrite E, !app_length, seen_length, P1. reflexivity.
      * intros m M. rewrite app_length. cbn. apply in_app_iff in M as [M|[<-|[]]]; [apply P2 in M; lia|lia].
    + destruct H1 as [H1 _]. eapply Q; eauto.
    + destruct H1 as (ds & _ & H1). eapply Q; eauto.
  - inv_Ret H. split; [exact P1|]. intros m M. cbn. rewrite app_length. apply P2 in M. lia.
  - apply bind_Ret in H as (x & X & H). apply bind_Ret in H as (l & L & H). apply deref_Ret in X, L. inv_Ret H.
    split; cbn; [now rewrite put_length|]. intros n N. apply put_In in N as [->|N]; [eapply nth_lt; eauto|now apply P2].
  - apply bind_Ret in H as (l0 & L & H). inv_Ret H. split; [exact P1|]. intros n N. cbn. rewrite put_length. now apply P2.
Qed.
Lemma no_placed : placed no_sworld.
Proof. split; [reflexivity|]. intros m []. Qed.
(** In a program that begins with nothing every engine always has limits. *)
Theorem C65_engines_have_limits : forall f O os s1 bl, srun f O os no_sworld = Ret (s1, bl) -> placed s1.
Proof.
  intros f O os s1 bl. generalize no_placed. generalize no_sworld as s. revert s1 bl.
  induction os as [|o os IH]; intros s1 bl s P H; [now inv_Ret H|]. cbn [srun] in H.
  apply bind_Ret in H as ([s2 b] & H1 & H). apply bind_Ret in H as ([s3 bl2] & H2 & H). inv_Ret H.
  eapply IH; [|exact H2]. eapply step_placed; eauto.
Qed.
Lemma seen_engine : forall s i m l, placed s -> points s i m -> nth_error (s_lims s) m = Some l ->
  exists x, nth_error (w_engs (seen s)) i = Some x /\ limits_in (he_conf x) = l.
Proof. intros s i m l P M L. apply (works_points s i l P). eauto. Qed.
Lemma step_lims : forall f O o s s1 b m l, placed s -> sstep f O o s = Ret (s1, b) -> nth_error (s_lims s) m = Some l ->
  exists l1, nth_error (s_lims s1) m = Some l1 /\ (writes s o m l1 \/ (l1 = l /\ forall l', ~ writes s o m l')).
Proof.
  intros f O o s s1 b m l P H L. destruct o as [o|l0|i m0|m0 l0]; cbn [sstep] in H.
  - apply bind_Ret in H as ([w1 b1] & H1 & H). inv_Ret H. apply wstep_engs in H1.
    destruct o; cbn [stored]; try (exists l; split; [exact L|right; split; [reflexivity|intros l' W; inversion W]]).
    + exists l. split; [cbn; rewrite nth_error_app1; [exact L|eapply nth_lt; eauto]|]. right. split; [reflexivity|]. intros l' W; inversion W.
    + destruct H1 as [[H1 H2] HI]. rewrite seen_length in HI. destruct (nth_error (s_of s) i) as [m'|] eqn:M.
      2:{ apply nth_error_None in M. destruct P as [P _]. lia. }
      destruct (nth_error (s_lims s) m') as [l'|] eqn:L'.
      2:{ apply nth_error_None in L'. apply nth_error_In in M. destruct P as [_ P]. apply P in M. lia. }
      destruct (seen_engine s i m' l' P M L') as (x & X & E). destruct (H2 i x X) as (x1 & X1 & E1). rewrite Nat.eqb_refl in E1.
      rewrite X1. cbn [s_lims]. rewrite E1. destruct (Nat.eq_dec m' m) as [->|N].
      * eexists. split; [apply put_same; eapply nth_lt; eauto|]. left. now constructor.
      * exists l. split; [now rewrite put_other|]. right. split; [reflexivity|]. intros l2 W. inversion W; subst. unfold points in *. congruence.
    + destruct H1 as (ds & D & H1 & H2). cbn in D. destruct (nth_error (s_of s) i) as [m'|] eqn:M.
      2:{ exists l. split; [destruct (nth_error (w_engs w1) i); exact L|]. right. split; [reflexivity|]. intros l2 W. inversion W; subst. unfold points in *. congruence. }
      destruct (nth_error (s_lims s) m') as [l'|] eqn:L'.
      2:{ apply nth_error_None in L'. apply nth_error_In in M. destruct P as [_ P]. apply P in M. lia. }
      destruct (seen_engine s i m' l' P M L') as (x & X & E). destruct (H2 i x X) as (x1 & X1 & E1). rewrite Nat.eqb_refl in E1.
      rewrite X1. cbn [s_lims]. rewrite E1, E. destruct (Nat.eq_dec m' m) as [->|N].
      * eexists. split; [apply put_same; eapply nth_lt; eauto|]. left. now apply wr_execute.
      * exists l. split; [now rewrite put_other|]. right. split; [reflexivity|]. intros l2 W. inversion W; subst. unfold points in *. congruence.
  - inv_Ret H. exists l. split; [cbn; rewrite nth_error_app1; [exact L|eapply nth_lt; eauto]|]. right. split; [reflexivity|]. intros l' W; inversion W.
  - apply bind_Ret in H as (x & X & H). apply bind_Ret in H as (l1 & L1 & H). inv_Ret H. exists l. split; [exact L|]. right. split; [reflexivity|]. intros l' W; inversion W.
  - apply bind_Ret in H as (l1 & L1 & H). inv_Ret H. cbn. destruct (Nat.eq_dec m0 m) as [->|N].
    + exists l0. split; [apply put_same; eapply nth_lt; eauto|]. left. constructor.
    + exists l. split; [now rewrite put_other|]. right. split; [reflexivity|]. intros l' W; inversion W; subst; congruence.
Qed.
Lemma step_of : forall f O o s s1 b i m, sstep f O o s = Ret (s1, b) -> points s i m -> (forall m', o <> SPoint i m') -> points s1 i m.
Proof.
  unfold points. intros f O o s s1 b i m H M N. destruct o as [o|l0|i0 m0|m0 l0]; cbn [sstep] in H.
  - apply bind_Ret in H as ([w1 b1] & H1 & H). inv_Ret H.
    destruct o; cbn [stored]; try exact M.
    + cbn. rewrite nth_error_app1; [exact M|eapply nth_lt; eauto].
    + destruct (nth_error (w_engs w1) i0); [|exact M]. now destruct (nth_error (s_of s) i0).
    + destruct (nth_error (w_engs w1) i0); [|exact M]. now destruct (nth_error (s_of s) i0).
  - now inv_Ret H.
  - apply bind_Ret in H as (x & X & H). apply bind_Ret in H as (l1 & L1 & H). inv_Ret H. cbn. rewrite put_other; [exact M|]. intros ->. eapply N. reflexivity.
  - apply bind_Ret in H as (l1 & L1 & H). now inv_Ret H.
Qed.
(** An engine that is not given other limits works, after any operation of the program,
    with what the operation wrote to the limits it points to, through whichever engine it
    was written, and with its limits of before if the operation wrote nothing there. *)
Theorem C65_limits_seen_by_all_who_share : forall f O o s s1 b i m l, placed s -> sstep f O o s = Ret (s1, b) ->
  points s i m -> works_with s i l -> (forall m', o <> SPoint i m') ->
  points s1 i m /\ exists l1, works_with s1 i l1 /\ (writes s o m l1 \/ (l1 = l /\ forall l', ~ writes s o m l')).
Proof.
  intros f O o s s1 b i m l P H M W N. apply (works_points s i l P) in W as (m' & M' & L).
  assert (m' = m) as -> by (unfold points in *; congruence).
  pose proof (step_of _ _ _ _ _ _ _ _ H M N) as M1. split; [exact M1|].
  destruct (step_lims _ _ _ _ _ _ _ _ P H L) as (l1 & L1 & C). exists l1. split; [|exact C].
  apply (works_points s1 i l1 (step_placed _ _ _ _ _ _ P H)). eauto.
Qed.
(** [e.Limits = l]: from then on the engine works with what [l] holds, as all others do
    that point to it. *)
Theorem C65_taking_limits : forall f O i m s s1 b, placed s -> sstep f O (SPoint i m) s = Ret (s1, b) ->
  points s1 i m /\ s_lims s1 = s_lims s /\ exists l, nth_error (s_lims s) m = Some l /\ works_with s1 i l /\
    forall j l', j <> i -> works_with s j l' -> works_with s1 j l'.
Proof.
  intros f O i m s s1 b P H. pose proof (step_placed _ _ _ _ _ _ P H) as P1. pose proof H as H0. cbn [sstep] in H.
  apply bind_Ret in H as (x & X & H). apply bind_Ret in H as (l & L & H). apply deref_Ret in X, L. inv_Ret H.
  assert (M : points (SWorld (s_world s) (s_lims s) (put i m (s_of s))) i m) by (unfold points; cbn; apply put_same; eapply nth_lt; eauto).
  split; [exact M|]. split; [reflexivity|]. exists l. split; [exact L|]. split.
  - apply (works_points _ i l P1). exists m. now split.
  - intros j l' N W. apply (works_points s j l' P) in W as (m' & M' & L'). apply (works_points _ j l' P1). exists m'. split; [|exact L'].
    eapply step_of; [exact H0|exact M'|]. intros m2 E. injection E as E _. congruence.
Qed.

(** ** Programs that do not share limits are those of World.v *)
Lemma filled_same : forall lims of engs, length of = length engs ->
  (forall i x, nth_error engs i = Some x -> exists m, nth_error of i = Some m /\ nth_error lims m = Some (limits_in (he_conf x))) ->
  filled lims of engs = engs.
Proof.
  intros lims of engs. revert of. induction engs as [|x engs IH]; intros [|m of] L H; try discriminate; [reflexivity|]. cbn in *.
  destruct (H 0%nat x eq_refl) as (m' & E & E'). cbn in E. injection E as <-. rewrite E', with_in. f_equal; [now destruct x|].
  apply IH; [congruence|]. intros i y Y. exact (H (S i) y Y).
Qed.
Lemma seen_same : forall w s, length (s_of s) = length (w_engs w) -> s_world s = w ->
  (forall i x, nth_error (w_engs w) i = Some x -> exists m, nth_error (s_of s) i = Some m /\ nth_error (s_lims s) m = Some (limits_in (he_conf x))) ->
  seen s = w.
Proof. intros w s L <- H. unfold seen. rewrite filled_same; auto. now destruct (s_world s). Qed.
Lemma seen_holds : forall s i x, placed s -> nth_error (w_engs (seen s)) i = Some x ->
  exists m, nth_error (s_of s) i = Some m /\ nth_error (s_lims s) m = Some (limits_in (he_conf x)).
Proof. intros s i x P X. apply (works_points s i _ P). now exists x. Qed.
Lemma moved_back : forall i g w w1 j x1, moved_eng i g w w1 -> nth_error (w_engs w1) j = Some x1 ->
  exists x, nth_error (w_engs w) j = Some x /\ limits_in (he_conf x1) = if Nat.eqb j i then g (limits_in (he_conf x)) else limits_in (he_conf x).
Proof.
  intros i g w w1 j x1 [L H] X. assert (I : (j < length (w_engs w))%nat) by (rewrite <- L; eapply nth_lt; eauto).
  destruct (nth_error (w_engs w) j) as [x|] eqn:E; [|apply nth_error_None in E; lia].
  destruct (H j x E) as (x1' & X' & C). rewrite X in X'. injection X' as <-. now exists x.
Qed.
Lemma kept_moved : forall w w1, kept_engs w w1 -> moved_eng 0 (fun l => l) w w1.
Proof. intros w w1 [A B]. split; [exact A|]. intros j x X. destruct (B j x X) as (x1 & E & L). exists x1. split; [exact E|]. now destruct (Nat.eqb j 0). Qed.
Lemma unshared_step : forall f O o s w1 b, placed s -> unshared s -> wstep f O o (seen s) = Ret (w1, b) ->
  exists s1, sstep f O (SProgram o) s = Ret (s1, b) /\ seen s1 = w1 /\ placed s1 /\ unshared s1.
Proof.
  intros f O o s w1 b P U H. cbn [sstep]. rewrite H. cbn [bind]. eexists. split; [reflexivity|].
  assert (PL : placed (stored o w1 s)).
  { eapply (step_placed f O (SProgram o) s _ b P). cbn [sstep]. rewrite H. reflexivity. }
  assert (UN : unshared (stored o w1 s)).
  { unfold unshared in *. destruct o; cbn [stored]; try exact U.
    - cbn. apply (proj2 (NoDup_Add (Add_app (length (s_lims s)) (s_of s) []))). rewrite app_nil_r. split; [exact U|].
      intro M. destruct P as [_ P]. apply P in M. lia.
    - destruct (nth_error (w_engs w1) i); [|exact U]. now destruct (nth_error (s_of s) i).
    - destruct (nth_error (w_engs w1) i); [|exact U]. now destruct (nth_error (s_of s) i). }
  split; [|now split]. pose proof (wstep_engs _ _ _ _ _ _ H) as W.
  assert (K : kept_engs (seen s) w1 -> seen (SWorld w1 (s_lims s) (s_of s)) = w1).
  { intro Q. apply kept_moved in Q. apply seen_same; [destruct Q as [Q _]; cbn; rewrite Q, seen_length; apply P|reflexivity|].
    intros j x1 X1. destruct (moved_back _ _ _ _ _ _ Q X1) as (x & X & E). destruct (seen_holds s j x P X) as (m & M & L). exists m.
    split; [exact M|]. cbn. rewrite L, E. now destruct (Nat.eqb j 0). }
  assert (Q : forall i g, moved_eng i g (seen s) w1 -> seen match nth_error (w_engs w1) i, nth_error (s_of s) i with
      | Some x, Some m => SWorld w1 (put m (limits_in (he_conf x)) (s_lims s)) (s_of s)
      | _, _ => SWorld w1 (s_lims s) (s_of s) end = w1).
  { intros i g Q. pose proof Q as [QL _]. rewrite seen_length in QL.
    destruct (nth_error (w_engs w1) i) as [xi|] eqn:XI.
    - destruct (moved_back _ _ _ _ _ _ Q XI) as (x0 & X0 & _). destruct (seen_holds s i x0 P X0) as (mi & MI & LI). rewrite MI.
      apply seen_same; [cbn; rewrite QL; apply P|reflexivity|]. intros j x1 X1. cbn.
      destruct (moved_back _ _ _ _ _ _ Q X1) as (x & X & E). destruct (seen_holds s j x P X) as (m & M & L). exists m. split; [exact M|].
      destruct (Nat.eqb_spec j i) as [->|N].
      + assert (m = mi) as -> by congruence. rewrite XI in X1. injection X1 as <-. apply put_same. eapply nth_lt; eauto.
      + rewrite put_other; [now rewrite L, E|]. intros ->. apply N. eapply (proj1 (NoDup_nth_error (s_of s))); [exact U|eapply nth_lt; eauto|congruence].
    - apply K. destruct Q as [QA QB]. split; [exact QA|]. intros j x X. destruct (QB j x X) as (x1 & X1 & E). exists x1. split; [exact X1|].
      destruct (Nat.eqb_spec j i) as [->|N]; [congruence|exact E]. }
  destruct o; cbn [stored]; try (now apply K).
  - destruct W as (j & E). apply seen_same; [apply PL|reflexivity|]. intros i x X. cbn. rewrite E in X.
    destruct (Nat.lt_ge_cases i (length (w_engs (seen s)))) as [G|G].
    + rewrite nth_error_app1 in X by exact G. destruct (seen_holds s i x P X) as (m & M & L). exists m.
      split; [rewrite nth_error_app1; [exact M|eapply nth_lt; eauto]|rewrite nth_error_app1; [exact L|eapply nth_lt; eauto]].
    + rewrite nth_error_app2 in X by exact G. rewrite seen_length in *. destruct P as [P1 P2]. rewrite <- P1 in X, G.
      destruct (i - length (s_of s))%nat as [|n] eqn:D; [|now destruct n]. injection X as <-.
      exists (length (s_lims s)). rewrite nth_error_app2, D by exact G. split; [reflexivity|]. rewrite nth_error_app2, Nat.sub_diag by lia. reflexivity.
  - destruct W as [W _]. eapply Q; eauto.
  - destruct W as (ds & _ & W). eapply Q; eauto.
Qed.
(** So everything proved of programs in World.v holds of programs here that never assign a
    [Limits]: they run the same way, see the same and end in the same world. *)
Theorem C41_programs_without_sharing : forall f O os s w1 bl, placed s -> unshared s -> wrun f O os (seen s) = Ret (w1, bl) ->
  exists s1, srun f O (map SProgram os) s = Ret (s1, bl) /\ seen s1 = w1 /\ placed s1 /\ unshared s1.
Proof.
  intros f O os. induction os as [|o os IH]; intros s w1 bl P U H.
  - inv_Ret H. exists s. split; [reflexivity|]. split; [reflexivity|]. now split.
  - cbn [wrun] in H. apply bind_Ret in H as ([w2 b] & H1 & H). apply bind_Ret in H as ([w3 bl2] & H2 & H). inv_Ret H.
    destruct (unshared_step _ _ _ _ _ _ P U H1) as (s2 & S1 & <- & P2 & U2).
    destruct (IH s2 w3 bl2 P2 U2 H2) as (s3 & S2 & E & P3 & U3). exists s3. split; [cbn [map srun]; rewrite S1; cbn [bind]; now rewrite S2|]. split; [exact E|]. now split.
Qed.
Theorem C41_programs_from_nothing : forall f O os w1 bl, wrun f O os no_world = Ret (w1, bl) ->
  exists s1, srun f O (map SProgram os) no_sworld = Ret (s1, bl) /\ seen s1 = w1.
Proof.
  intros f O os w1 bl H. destruct (C41_programs_without_sharing f O os no_sworld w1 bl no_placed (NoDup_nil _) H) as (s1 & E & S & _). now exists s1.
Qed.

(** ** C41: transactions of engines that share limits do not disturb each other either *)
Ltac parts := repeat match goal with |- _ /\ _ => split end; auto.
Definition bare (x : heng) : heng := HEng (with_limits (limits_in new_engine) (he_conf x)) (he_set x).
Definition bared (w : world) : world := World (map bare (w_engs w)) (w_sets w) (w_dires w) (w_txns w).
Definition alike (k : nat) (s s' : sworld) : Prop :=
  view k (bared (s_world s)) (bared (s_world s')) /\ s_lims s = s_lims s' /\ s_of s = s_of s' /\ placed s.
Lemma bare_filled : forall lims engs of, map bare (filled lims of engs) = map bare engs.
Proof. intros lims. induction engs as [|x engs IH]; intros [|m of]; cbn [filled map]; try reflexivity. rewrite IH. f_equal. now destruct (nth_error lims m). Qed.
Lemma bared_seen : forall s, bared (seen s) = bared (s_world s).
Proof. intro s. unfold bared, seen. cbn [w_engs w_sets w_dires w_txns]. now rewrite bare_filled. Qed.
Lemma view_bared : forall k w w', view k w w' -> view k (bared w) (bared w').
Proof. intros k w w' (A & B & C & D & E). repeat split; auto. cbn. now rewrite A. Qed.
Lemma fill_bare : forall lims of engs engs', length of = length engs -> (forall m, In m of -> (m < length lims)%nat) -> map bare engs = map bare engs' ->
  filled lims of engs = filled lims of engs'.
Proof.
  intros lims. induction of as [|m of IH]; intros [|x engs] [|x' engs'] L I H; cbn [length map filled] in *; try discriminate; try reflexivity.
  assert (T : forall A (x y : A) l l', x :: l = y :: l' -> x = y /\ l = l') by (intros ? ? ? ? ? Q; now injection Q).
  apply T in H as [H1 H2]. f_equal; [|apply IH; [congruence| |exact H2]; intros n N; apply I; now right].
  destruct (nth_error lims m) as [l|] eqn:E; [|apply nth_error_None in E; specialize (I m (or_introl eq_refl)); lia].
  destruct x as [c j], x' as [c' j']. unfold bare in H1. cbn in H1 |- *. injection H1 as H1 H2' H3 H4. unfold with_limits, set_limits. congruence.
Qed.
Lemma alike_seen : forall k s s', alike k s s' -> view k (seen s) (seen s').
Proof.
  intros k s s' ((A & B & C & D & E) & L & M & P1 & P2). unfold seen. repeat split; auto. cbn in A |- *. rewrite <- L, <- M. now apply fill_bare.
Qed.
Lemma alike_placed : forall k s s', alike k s s' -> placed s'.
Proof.
  intros k s s' ((A & _) & L & M & P1 & P2). split; [|now rewrite <- L, <- M]. rewrite <- M, P1. cbn in A. apply (f_equal (@length _)) in A. now rewrite !map_length in A.
Qed.
Lemma stored_alike : forall k o w w' s s', view k w w' -> s_lims s = s_lims s' -> s_of s = s_of s' -> placed (stored o w s) -> alike k (stored o w s) (stored o w' s').
Proof.
  intros k o w w' s s' V L M P. assert (G : forall lims of, placed (SWorld w lims of) -> alike k (SWorld w lims of) (SWorld w' lims of)).
  { intros lims of Q. split; [now apply view_bared|]. solve [parts]. }
  pose proof V as (A & _). destruct o; cbn [stored] in *; rewrite ?L, ?M, ?A in *; try (now apply G);
    destruct (nth_error (w_engs w') i); try (now apply G); destruct (nth_error (s_of s') i); now apply G.
Qed.
Definition others_call (k : nat) (o : sop) : bool := match o with SProgram o => by_others k o | _ => false end.
Lemma alike_step : forall f O k o s s' s1 b, others_call k o = false -> alike k s s' -> sstep f O o s = Ret (s1, b) ->
  exists s1', sstep f O o s' = Ret (s1', b) /\ alike k s1 s1'.
Proof.
  intros f O k o s s' s1 b N A H. pose proof A as (V & L & M & P). pose proof (step_placed _ _ _ _ _ _ P H) as P1.
  destruct o as [o|l|i m|m l]; cbn [sstep] in *.
  - apply bind_Ret in H as ([w1 b1] & H1 & H). inv_Ret H.
    destruct (view_step f O k o _ _ _ _ N (alike_seen _ _ _ A) H1) as (w1' & E & V1). rewrite E. cbn [bind].
    eexists. split; [reflexivity|]. now apply stored_alike.
  - inv_Ret H. rewrite <- L. eexists. split; [reflexivity|]. split; [exact V|]. cbn. solve [parts].
  - apply bind_Ret in H as (x & X & H). apply bind_Ret in H as (l & Y & H). inv_Ret H. rewrite <- L, <- M, X, Y. cbn [bind].
    eexists. split; [reflexivity|]. split; [exact V|]. cbn. solve [parts].
  - apply bind_Ret in H as (l0 & Y & H). inv_Ret H. rewrite <- L, Y. cbn [bind].
    eexists. split; [reflexivity|]. split; [exact V|]. cbn. solve [parts].
Qed.
Lemma alike_call : forall f O k o s s' s1 b, others_call k o = true -> alike k s s' -> sstep f O o s = Ret (s1, b) -> alike k s1 s'.
Proof.
  intros f O k o s s' s1 b N (V & L & M & P) H. pose proof (step_placed _ _ _ _ _ _ P H) as P1.
  destruct o as [o|l|i m|m l]; try discriminate. destruct o as [| | | | | | | | | | | | |k' o]; try discriminate. cbn in N. apply Bool.negb_true_iff, Nat.eqb_neq in N.
  cbn [sstep] in H. apply bind_Ret in H as ([w1 b1] & H1 & H). inv_Ret H. cbn [stored] in *.
  split; [|solve [parts]]. cbn [s_world]. apply (call_others f O k) in H1; [|exact N]. apply view_bared in H1. rewrite bared_seen in H1. eapply view_trans; eauto.
Qed.
Lemma s_alone_alike : forall f O k os s s' s1 bl, alike k s s' -> srun f O os s = Ret (s1, bl) ->
  exists s1' bl', srun f O (s_alone k os) s' = Ret (s1', bl') /\ alike k s1 s1' /\ s_heard k os bl = s_heard k (s_alone k os) bl'.
Proof.
  intros f O k os. induction os as [|o os IH]; intros s s' s1 bl A H.
  - inv_Ret H. exists s', []. solve [parts].
  - cbn [srun] in H. apply bind_Ret in H as ([s2 b] & H1 & H). apply bind_Ret in H as ([s3 bl2] & H2 & H). inv_Ret H.
    destruct (others_call k o) eqn:N.
    + pose proof (alike_call _ _ _ _ _ _ _ _ N A H1) as A2. destruct (IH _ _ _ _ A2 H2) as (s1' & bl' & E & A3 & HH).
      exists s1', bl'. destruct o as [o|l|i m|m l]; try discriminate. unfold s_alone. cbn [List.filter others_call] in *. rewrite N. cbn [negb]. fold (s_alone k os).
      split; [exact E|]. split; [exact A3|]. rewrite <- HH. destruct o as [| | | | | | | | | | | | |k' o]; try discriminate. cbn in N. apply Bool.negb_true_iff in N.
      cbn [s_heard]. rewrite N. now destruct b.
    + destruct (alike_step _ _ _ _ _ _ _ _ N A H1) as (s2' & E1 & A2). destruct (IH _ _ _ _ A2 H2) as (s1' & bl' & E & A3 & HH).
      exists s1', (b :: bl'). assert (F : s_alone k (o :: os) = o :: s_alone k os).
      { unfold s_alone. cbn [List.filter]. destruct o as [o|l|i m|m l]; try reflexivity. cbn in N. now rewrite N. }
      rewrite F. split; [cbn [srun]; rewrite E1; cbn [bind]; now rewrite E|]. split; [exact A3|].
      destruct o as [o|l|i m|m l]; cbn [s_heard]; try exact HH. destruct o; cbn [s_heard]; try exact HH. destruct b; try exact HH. now rewrite HH.
Qed.
(** Whatever a program does with other transactions, be they of the same engine, of one
    that shares its limits or of another, transaction [k] gets the answers it gets if none
    of those calls are made, and ends in the same state; so do limits and engines. *)
Theorem C41_sharing_limits_is_no_channel : forall f O k os s s1 bl, placed s -> srun f O os s = Ret (s1, bl) ->
  exists s1' bl', srun f O (s_alone k os) s = Ret (s1', bl') /\ s_heard k os bl = s_heard k (s_alone k os) bl' /\
    nth_error (w_txns (s_world s1)) k = nth_error (w_txns (s_world s1')) k /\ w_engs (seen s1) = w_engs (seen s1') /\
    s_lims s1 = s_lims s1' /\ s_of s1 = s_of s1'.
Proof.
  intros f O k os s s1 bl P H. destruct (s_alone_alike f O k os s s s1 bl) as (s1' & bl' & E & A & HH); auto.
  { split; [apply view_refl|]. solve [parts]. }
  exists s1', bl'. split; [exact E|]. split; [exact HH|]. pose proof (alike_seen _ _ _ A) as (A1 & _ & _ & _ & A2).
  destruct A as (_ & A3 & A4 & _). repeat split; auto.
Qed.

(** ** C68: the limits of a transaction are those its engine worked with when it was made *)
Lemma keeps_limits : forall f O k o s s1 b h, sstep f O o s = Ret (s1, b) -> nth_error (w_txns (s_world s)) k = Some h -> opened (ht_txn h) ->
  exists h', nth_error (w_txns (s_world s1)) k = Some h' /\ limits_of (ht_txn h') = limits_of (ht_txn h) /\ ht_eng h' = ht_eng h /\ ht_set h' = ht_set h /\ opened (ht_txn h').
Proof.
  intros f O k o s s1 b h H E OP. destruct o as [o|l|i m|m l]; cbn [sstep] in H.
  - apply bind_Ret in H as ([w1 b1] & H1 & H). inv_Ret H. assert (W : s_world (stored o w1 s) = w1).
    { destruct o; try reflexivity; cbn [stored]; destruct (nth_error (w_engs w1) i); try reflexivity; now destruct (nth_error (s_of s) i). }
    rewrite W. assert (D : (exists o', o = WCall k o') \/ (forall o', o <> WCall k o')).
    { destruct o; try (right; discriminate). destruct (Nat.eq_dec k0 k) as [->|N]; [left; eauto|right; congruence]. }
    destruct D as [[o' ->]|N].
    + apply call_inv in H1 as (h0 & x & rs & t' & ob & X1 & X2 & X3 & X4 & -> & ->). cbn [seen w_txns] in X1. rewrite E in X1. injection X1 as <-.
      apply step_limits in X4 as [Y1 Y2]; [|exact OP]. eexists. split; [cbn; apply put_same; eapply nth_lt; eauto|]. solve [parts].
    + exists h. split; [eapply other_keeps; eauto|]. solve [parts].
  - inv_Ret H. exists h. solve [parts].
  - apply bind_Ret in H as (x & X & H). apply bind_Ret in H as (l & Y & H). inv_Ret H. exists h. solve [parts].
  - apply bind_Ret in H as (l0 & Y & H). inv_Ret H. exists h. solve [parts].
Qed.
Theorem C68_shared_limits_at_creation : forall f O i os s s0 s1 k bl l, placed s -> works_with s i l ->
  sstep f O (SProgram (WNewTransaction true i)) s = Ret (s0, WNew k) -> srun f O os s0 = Ret (s1, bl) ->
  exists h, nth_error (w_txns (s_world s1)) k = Some h /\ ht_eng h = i /\
    limits_of (ht_txn h) = (l_reqmem l, l_reqlimit l, l_reslimit l, l_reslimit l).
Proof.
  intros f O i os s s0 s1 k bl l P (x & X & XL) H R.
  assert (Q : exists h, nth_error (w_txns (s_world s0)) k = Some h /\ ht_eng h = i /\ opened (ht_txn h) /\
    limits_of (ht_txn h) = (l_reqmem l, l_reqlimit l, l_reslimit l, l_reslimit l)).
  { cbn [sstep] in H. apply bind_Ret in H as ([w1 b1] & H1 & H). apply Ret_inj in H. injection H as <- ->. cbn [wstep] in H1.
    apply bind_Ret in H1 as (x' & X' & H1). apply deref_Ret in X'. rewrite X in X'. injection X' as <-. unfold w_new_transaction in H1.
    destruct (he_set x) as [j|] eqn:J; [|discriminate]. unfold deref at 1 in H1. rewrite X in H1. cbn [bind] in H1. apply bind_Ret in H1 as (rs & _ & H1). inv_Ret H1.
    exists (HTxn i j (new_txn (he_conf x))). split; [cbn; rewrite nth_error_app2, Nat.sub_diag by (cbn; lia); reflexivity|]. split; [reflexivity|]. split; [now split|].
    rewrite <- XL. reflexivity. }
  clear H. destruct Q as (h & E & I & OP & LM). revert s0 bl h E I OP LM R. induction os as [|o os IH]; intros s0 bl h E I OP LM R.
  - inv_Ret R. exists h. solve [parts].
  - cbn [srun] in R. apply bind_Ret in R as ([s2 b] & H1 & R). apply bind_Ret in R as ([s3 bl2] & H2 & R). inv_Ret R.
    destruct (keeps_limits _ _ _ _ _ _ _ _ H1 E OP) as (h' & E' & L' & I' & _ & OP'). eapply IH; [exact E'|congruence|exact OP'|congruence|exact H2].
Qed.

(** ** An example *)
(** Engine 1 has a rule on the request body and no access to bodies.  A text that gives
    engine 0 access to request bodies is executed on engine 0 while a transaction of
    engine 1 is under way: its body is looked at if engine 1 has taken engine 0's limits,
    and not if it has not.  (In a text 3 is the phase of request bodies.) *)
Definition rule_text : bs := B "SecRule REQUEST_BODY ""evil"" ""id:9,phase:3,deny,status:501""".
Definition open_text : bs := B "SecRequestBodyAccess On".
Definition two_engines (share : list sop) : list sop :=
  map SProgram [WNewEngine; WNewEngine; WNewDires; WAddText 0 0 rule_text; WExecute 0 1; WNewDires; WAddText 1 1 open_text] ++ share ++
  map SProgram [WNewTransaction true 1; WNewTransaction true 0; WCall 0 (OpRequestURL None (B "POST") []); WCall 0 (OpRequestHeader [(B "Content-Type", [B "application/x-www-form-urlencoded"])]);
    WCall 0 (OpAppendRequestBody (B "evil") NoFault); WExecute 1 0; WCall 1 (OpRequestHeader []); WCall 0 OpRequestBody; WCall 0 OpResult].
Definition final (share : list sop) : option (list obs * list limits * list nat) :=
  match srun 500 (demo MpErr) (two_engines share) no_sworld with
  | Ret (s, bl) => Some (s_heard 0 (two_engines share) bl, s_lims s, s_of s)
  | _ => None
  end.
Definition default_limits (req : bool) : limits := Limits req false 134217728 131072 524228.
Example C65_shared_limits_example :
  (exists i, final [SPoint 1 0] = Some ([ObsNone; ObsNone; ObsErr None; ObsNone; ObsResult i], [default_limits true; default_limits false], [0%nat; 0%nat]) /\ i_status i = 501) /\
  (exists i, final [] = Some ([ObsNone; ObsNone; ObsErr None; ObsNone; ObsResult i], [default_limits true; default_limits false], [0%nat; 1%nat]) /\ i_status i = 200).
Proof. split; eexists; (split; [vm_compute; reflexivity|reflexivity]). Qed.
(** The hypotheses of the theorems are met: the two engines after the sharing. *)
Example C65_sharing_hypotheses_example :
  exists s bl, srun 500 (demo MpErr) [SProgram WNewEngine; SProgram WNewEngine; SPoint 1 0; SProgram WNewDires; SProgram (WAddText 0 0 open_text)] no_sworld = Ret (s, bl) /\
    placed s /\ ~ unshared s /\ points s 0 0 /\ points s 1 0 /\ works_with s 1 (default_limits false) /\
    writes s (SProgram (WExecute 0 0)) 0 (default_limits true) /\
    exists s1 b, sstep 500 (demo MpErr) (SProgram (WExecute 0 0)) s = Ret (s1, b) /\ works_with s1 1 (default_limits true).
Proof.
  eexists _, _. split; [vm_compute; reflexivity|]. split; [split; [reflexivity|cbn; intros m [<-|[<-|[]]]; lia]|].
  split; [intro N; inversion N as [|a l A B]; apply A; now left|]. split; [reflexivity|]. split; [reflexivity|].
  split; [eexists; split; reflexivity|]. split; [apply (wr_execute _ 0 0 0 [IReqBody true] (default_limits false)); reflexivity|].
  eexists _, _. split; [vm_compute; reflexivity|]. eexists. split; reflexivity.
Qed.
Example C41_unshared_example : exists s bl, srun 500 (demo MpErr) (two_engines []) no_sworld = Ret (s, bl) /\ placed s /\ unshared s /\ length (s_of s) = 2%nat.
Proof.
  eexists _, _. split; [vm_compute; reflexivity|]. split; [split; [reflexivity|cbn; intros m [<-|[<-|[]]]; lia]|].
  split; [|reflexivity]. unfold unshared. cbn. constructor; [intros [H|[]]; discriminate|]. constructor; [intros []|constructor].
Qed.
(** Limits lowered after a transaction was made, through the engine that shares them. *)
Example C68_shared_limits_example :
  let make := [SProgram WNewEngine; SProgram WNewEngine; SPoint 1 0; SSet 0 (Limits true true 12 12 12); SProgram (WNewTransaction true 1)] in
  let post := SProgram (WCall 0 (OpAppendRequestBody (B "0123456789") NoFault)) in
  match srun 9 (demo MpErr) (make ++ [SProgram (WLimits 0 true true 5 5 5); post; post]) no_sworld with
  | Ret (_, bl) => skipn 5 bl = [WNone; WAnswer (ObsErr None); WAnswer (ObsErr (Some ErrOutOfFileLimit))]
  | _ => False
  end.
Proof. vm_compute. reflexivity. Qed.

Print Assumptions C65_engines_have_limits.
Print Assumptions C65_limits_seen_by_all_who_share.
Print Assumptions C65_taking_limits.
Print Assumptions C41_programs_without_sharing.
Print Assumptions C41_programs_from_nothing.
Print Assumptions C41_sharing_limits_is_no_channel.
Print Assumptions C68_shared_limits_at_creation.
