(** C92, further: body buffers that are closed and used afterwards. *)
From Verif Require Import Base Buffer Closed SpecBuffer SpecTape.
From Verif Require Import BaseFacts BufferFacts PropTape.

(** ** Specification: what a closed buffer answers *)
(** [shut_tells l mem n disk os obs disk']: after it was closed, a buffer with size limit [l], [n] bytes accepted,
    [mem] in memory and its file on disk or not answers [obs] to [os]. *)
Inductive shut_tells (l : Z) (mem : bs) (n : Z) : bool -> list cop -> list cobs -> bool -> Prop :=
| sh_nil : forall disk, shut_tells l mem n disk [] [] disk
| sh_over : forall disk p ft os obs disk', l < n + Z.of_nat (length p) -> shut_tells l mem n disk os obs disk' ->
    shut_tells l mem n disk (CDo (BWrite p ft) :: os) (CAnswer (OWrite 0 (Some ErrOutOfFileLimit)) :: obs) disk'
| sh_write : forall disk p ft os obs disk', n + Z.of_nat (length p) <= l -> shut_tells l mem n disk os obs disk' ->
    shut_tells l mem n disk (CDo (BWrite p ft) :: os) (CAnswer (OWrite 0 (Some ErrOS)) :: obs) disk'
| sh_string : forall disk os obs disk', shut_tells l mem n disk os obs disk' ->
    shut_tells l mem n disk (CDo BString :: os) (CAnswer (OString mem (Some ErrOutOfMemLimit)) :: obs) disk'
| sh_read : forall disk k os obs disk', shut_tells l mem n disk os obs disk' ->
    shut_tells l mem n disk (CDo (BRead k) :: os) (CNothing :: obs) disk'
| sh_write_to : forall disk os obs disk', shut_tells l mem n disk os obs disk' ->
    shut_tells l mem n disk (CDo BWriteTo :: os) (CNothing :: obs) disk'
| sh_seek : forall disk off wh os obs disk', shut_tells l mem n disk os obs disk' ->
    shut_tells l mem n disk (CDo (BSeek off wh) :: os) (CAnswer (OSeek None) :: obs) disk'
| sh_removed : forall disk cf os obs disk', shut_tells l mem n false os obs disk' ->
    shut_tells l mem n disk (CClose cf false :: os) (CClosed (Some CloseError) :: obs) disk'
| sh_kept : forall disk cf os obs disk', shut_tells l mem n disk os obs disk' ->
    shut_tells l mem n disk (CClose cf true :: os) (CClosed (Some CloseError) :: obs) disk'.

(** ** Facts *)
Lemma shut_runs os : forall c, b_readed (cb_buf c) = false -> has_file (cb_buf c) = true -> cb_shut c = true ->
  exists obs disk, cruns os c = Ret (CBuffer (cb_buf c) true disk, obs) /\
    shut_tells (b_filelimit (cb_buf c)) (b_mem (cb_buf c)) (b_len (cb_buf c)) (cb_disk c) os obs disk.
Proof.
  induction os as [|o os IH]; intros c R F S.
  - exists [], (cb_disk c). destruct c as [b s d]; cbn in *; subst s. split; [reflexivity|constructor].
  - destruct o as [o|cf rf].
    + destruct (IH c R F S) as (obs & disk & E & T). exists (shut_step o (cb_buf c) :: obs), disk. split.
      * cbn [cruns cstep]. rewrite S. cbn [bind]. now rewrite E.
      * destruct o as [p ft| |k| |off wh]; cbn [shut_step]; try (constructor; exact T).
        unfold shut_write. rewrite R. unfold zlen. destruct (Z.ltb_spec (b_filelimit (cb_buf c)) (b_len (cb_buf c) + Z.of_nat (length p))).
        -- apply sh_over; [lia|exact T].
        -- apply sh_write; [lia|exact T].
    + destruct (IH (CBuffer (cb_buf c) true (cb_disk c && (rf || negb (cb_disk c)))) R F eq_refl) as (obs & disk & E & T).
      exists (CClosed (Some CloseError) :: obs), disk. split.
      * cbn [cruns cstep]. rewrite F, S, Bool.orb_true_r. cbn [bind]. cbn [cb_buf] in E. now rewrite E.
      * cbn [cb_buf cb_disk] in T. destruct rf.
        -- apply sh_kept. now rewrite Bool.andb_true_r in T.
        -- apply sh_removed. cbn [orb] in T. now rewrite Bool.andb_negb_r in T.
Qed.
Lemma shut_fun l mem n disk os obs disk1 : shut_tells l mem n disk os obs disk1 ->
  forall obs' disk2, shut_tells l mem n disk os obs' disk2 -> obs = obs' /\ disk1 = disk2.
Proof.
  induction 1; intros obs' d2 H'; inversion H'; subst; try lia; try (split; reflexivity);
    match goal with IH : forall a b, _ -> _ /\ _, X : shut_tells _ _ _ _ _ _ _ |- _ => destruct (IH _ _ X) as [-> ->] end; split; reflexivity.
Qed.

Lemma written_len : forall os b b' obs, b_readed b = false -> bruns os b = Ret (b', obs) ->
  b_readed b' = false /\ b_filelimit b' = b_filelimit b /\ b_len b' = b_len b + reported obs.
Proof.
  induction os as [|o os IH]; intros b b' obs R H; cbn [bruns] in H.
  - apply Ret_inj in H. injection H as <- <-. cbn. repeat split; auto; lia.
  - apply bind_Ret in H as ([b1 ob] & H1 & H). apply bind_Ret in H as ([b2 obs2] & H2 & H). apply Ret_inj in H. injection H as <- <-.
    destruct (is_write o) eqn:W.
    + destruct o as [p ft| | | |]; try discriminate. cbn [bstep] in H1. apply bind_Ret in H1 as ([[b0 n] e] & H1 & H). apply Ret_inj in H. injection H as <- <-.
      destruct (buf_write_len _ _ _ _ _ _ R H1) as (C & _ & L & _). unfold consts in C. injection C as _ C1 C2.
      destruct (IH b0 b2 obs2 ltac:(congruence) H2) as (X1 & X2 & X3). cbn [reported]. repeat split; [exact X1|congruence|lia].
    + destruct (bstep_reads _ _ _ _ W H1) as (C & L & _). unfold consts in C. injection C as _ C1 C2.
      destruct (IH b1 b2 obs2 ltac:(congruence) H2) as (X1 & X2 & X3).
      assert (Q : reported (ob :: obs2) = reported obs2).
      { destruct o as [p ft| |k| |off wh]; try discriminate; cbn [bstep] in H1.
        - destruct (buf_string b) as [[? ?] ?]. apply Ret_inj in H1. now injection H1 as _ <-.
        - destruct (buf_read k b) as [[? ?] ?]. apply Ret_inj in H1. now injection H1 as _ <-.
        - destruct (buf_write_to b) as [? ?]. apply Ret_inj in H1. now injection H1 as _ <-.
        - destruct (buf_seek off wh b) as [? ?]. apply Ret_inj in H1. now injection H1 as _ <-. }
      rewrite Q. repeat split; [exact X1|congruence|lia].
Qed.
(** Until it is closed the buffer is the one of Buffer.v. *)
Lemma open_runs : forall os rest b d, d = has_file b ->
  cruns (map CDo os ++ rest) (CBuffer b false d) =
  match bruns os b with
  | Ret (b', obs) => '(c, l) <- cruns rest (CBuffer b' false (has_file b')) ;; Ret (c, map CAnswer obs ++ l)
  | Panic => Panic
  | Timeout => Timeout
  end.
Proof.
  induction os as [|o os IH]; intros rest b d ->.
  - cbn [map app bruns]. destruct (cruns rest _) as [[c l]| |]; reflexivity.
  - cbn [map app cruns cstep cb_shut cb_buf bruns]. destruct (bstep o b) as [[b1 ob]| |]; cbn [bind]; try reflexivity.
    rewrite (IH rest b1 _ eq_refl). destruct (bruns os b1) as [[b2 obs]| |]; cbn [bind]; try reflexivity.
    destruct (cruns rest _) as [[c l]| |]; reflexivity.
Qed.
Lemma then_string : forall os b b' obs, bruns os b = Ret (b', obs) ->
  exists b'', bruns (os ++ [BString]) b = Ret (b'', obs ++ [OString (b_mem b') (if has_file b' then Some ErrOutOfMemLimit else None)]).
Proof.
  induction os as [|o os IH]; intros b b' obs H; cbn [bruns app] in H |- *.
  - apply Ret_inj in H. injection H as <- <-. cbn [bstep]. unfold buf_string.
    destruct (init_read_keeps b) as (_ & _ & M & F & _). rewrite M. cbn [bind app]. eexists.
    replace (match b_file (init_read b) with Some _ => Some ErrOutOfMemLimit | None => None end) with (if has_file b then Some ErrOutOfMemLimit else None); [reflexivity|].
    unfold has_file. destruct (b_file (init_read b)), (b_file b); try reflexivity; [discriminate (proj2 F eq_refl)|discriminate (proj1 F eq_refl)].
  - apply bind_Ret in H as ([b1 ob] & H1 & H). apply bind_Ret in H as ([b2 obs2] & H2 & H). apply Ret_inj in H. injection H as <- <-.
    destruct (IH _ _ _ H2) as (b'' & E). rewrite H1. cbn [bind]. rewrite E. cbn [bind app]. eauto.
Qed.

(** ** C92: a body that is closed, for the first time, and whatever follows *)
Definition first_error (cf rf : bool) : option cerr := if cf then Some CloseError else if rf then Some RemoveError else None.
Definition after_close (m l : Z) (os1 : list bop) (cf rf : bool) (os2 : list cop) (obs : list cobs) (disk : bool) : Prop :=
  exists obs1 mem obs2,
    tells m l [] 0 Memory (os1 ++ [BString]) (obs1 ++ [OString mem (Some ErrOutOfMemLimit)]) /\
    shut_tells l mem (reported obs1) rf os2 obs2 disk /\
    obs = map CAnswer obs1 ++ CClosed (first_error cf rf) :: obs2.
Theorem C92_used_after_close_partial : forall m l os1 cf rf os2, 0 <= m ->
  (forall obs disk, (exists b, cruns (map CDo os1 ++ CClose cf rf :: os2) (new_cbuffer m l) = Ret (CBuffer b true disk, obs)) <->
     after_close m l os1 cf rf os2 obs disk) /\
  (forall c obs, cruns (map CDo os1 ++ CClose cf rf :: os2) (new_cbuffer m l) = Ret (c, obs) -> cb_shut c = true) /\
  (cruns (map CDo os1 ++ CClose cf rf :: os2) (new_cbuffer m l) = Panic <->
     exists obs1 mem, tells m l [] 0 Memory (os1 ++ [BString]) (obs1 ++ [OString mem None])) /\
  cruns (map CDo os1 ++ CClose cf rf :: os2) (new_cbuffer m l) <> Timeout.
Proof.
  intros m l os1 cf rf os2 M. destruct (C48_always_answers m l os1 M) as (b & obs1 & R).
  destruct (written_len _ (new_buffer m l) _ _ eq_refl R) as (RD & LIM & LEN). cbn [new_buffer b_filelimit b_len] in LIM, LEN.
  destruct (then_string _ _ _ _ R) as (b'' & RS).
  pose proof (proj1 (C48_every_answer m l _ _ M) (ex_intro _ b'' RS)) as TS.
  unfold new_cbuffer. rewrite (open_runs os1 _ (new_buffer m l) false eq_refl), R. cbn [cruns cstep cb_buf cb_shut cb_disk].
  assert (UN : forall o1 x y, tells m l [] 0 Memory (os1 ++ [BString]) (o1 ++ [OString x y]) ->
     o1 = obs1 /\ x = b_mem b /\ y = if has_file b then Some ErrOutOfMemLimit else None).
  { intros o1 x y T. pose proof (tells_fun _ _ _ _ _ _ _ T _ TS) as E. apply app_inj_tail in E as [-> E]. injection E as -> ->. auto. }
  destruct (has_file b) eqn:F.
  - cbn [negb andb orb]. rewrite !Bool.orb_false_r. cbn [bind].
    destruct (shut_runs os2 (CBuffer b true rf) RD F eq_refl) as (obs2 & disk & E & T). cbn [cb_buf cb_disk] in E, T. rewrite E. cbn [bind].
    rewrite LIM, LEN, Z.add_0_l in T. repeat split.
    + intros (b0 & H). apply Ret_inj in H. injection H as -> -> <-. exists obs1, (b_mem b0), obs2. repeat split; assumption.
    + intros (o1 & x & o2 & A1 & A2 & ->). destruct (UN _ _ _ A1) as (-> & -> & _). destruct (shut_fun _ _ _ _ _ _ _ T _ _ A2) as [<- <-]. exists b. reflexivity.
    + intros c obs H. apply Ret_inj in H. now injection H as <- _.
    + discriminate.
    + intros (o1 & x & A). destruct (UN _ _ _ A) as (_ & _ & Q). discriminate.
    + discriminate.
  - cbn [bind]. repeat split.
    + intros (b0 & H). discriminate.
    + intros (o1 & x & o2 & A1 & _). destruct (UN _ _ _ A1) as (_ & _ & Q). discriminate.
    + discriminate.
    + intros _. eauto.
    + discriminate.
Qed.
(** The file is on disk exactly if the body spilled and no call of Close could remove it.  Nothing but Close removes it. *)
Theorem C92_file_on_disk_partial : forall m l os c obs, cruns os (new_cbuffer m l) = Ret (c, obs) ->
  (cb_disk c = true <-> snd (buf_string (cb_buf c)) <> None /\ forall cf rf, In (CClose cf rf) os -> rf = true).
Proof.
  intros m l os c obs H.
  assert (G : forall os c0 c obs, (cb_shut c0 = false -> cb_disk c0 = has_file (cb_buf c0)) -> (cb_shut c0 = true -> has_file (cb_buf c0) = true) ->
    cruns os c0 = Ret (c, obs) ->
    (cb_disk c = true <-> has_file (cb_buf c) = true /\ (cb_shut c0 = true -> cb_disk c0 = true) /\ forall cf rf, In (CClose cf rf) os -> rf = true)).
  { clear. induction os as [|o os IH]; intros c0 c obs D S H; cbn [cruns] in H.
    - apply Ret_inj in H. injection H as <- _. destruct (cb_shut c0) eqn:E; [|rewrite D by reflexivity]; intuition.
    - apply bind_Ret in H as ([c1 a] & H1 & H). apply bind_Ret in H as ([c2 l2] & H2 & H). apply Ret_inj in H. injection H as <- _.
      destruct o as [o|cf rf]; cbn [cstep] in H1.
      + destruct (cb_shut c0) eqn:E.
        * apply Ret_inj in H1. injection H1 as <- _. rewrite (IH c0 c2 l2 ltac:(intro; congruence) ltac:(intros _; exact (S eq_refl)) H2). rewrite E. cbn [In]. intuition (eauto; try discriminate).
        * apply bind_Ret in H1 as ([b1 ob] & _ & H1). apply Ret_inj in H1. injection H1 as <- _.
          rewrite (IH (CBuffer b1 false (has_file b1)) c2 l2 (fun _ => eq_refl) ltac:(discriminate) H2). cbn [cb_shut In]. intuition (eauto; try discriminate).
      + destruct (has_file (cb_buf c0)) eqn:F; [|discriminate]. apply Ret_inj in H1. injection H1 as <- _.
        rewrite (IH (CBuffer (cb_buf c0) true (cb_disk c0 && (rf || negb (cb_disk c0)))) c2 l2 ltac:(discriminate) (fun _ => F) H2). cbn [cb_shut cb_disk In].
        assert (K : cb_shut c0 = false -> cb_disk c0 = true) by (intro E; rewrite (D E); reflexivity).
        split.
        * intros (A1 & A2 & A3). specialize (A2 eq_refl). destruct (cb_disk c0); [|discriminate]. rewrite Bool.orb_false_r in A2. cbn in A2.
          repeat split; auto. intros x y [Q|Q]; [injection Q as <- <-; exact A2|eauto].
        * intros (A1 & A2 & A3). rewrite (A3 cf rf (or_introl eq_refl)). cbn [orb].
          assert (X : cb_disk c0 = true) by (destruct (cb_shut c0); auto). rewrite X. repeat split; auto. intros x y Q. apply (A3 x y). now right. }
  rewrite (G os (new_cbuffer m l) c obs (fun _ => eq_refl) ltac:(discriminate) H). cbn [new_cbuffer cb_shut].
  assert (E : has_file (cb_buf c) = true <-> snd (buf_string (cb_buf c)) <> None).
  { unfold buf_string. cbn [snd]. destruct (init_read_keeps (cb_buf c)) as (_ & _ & _ & F & _). unfold has_file.
    destruct (b_file (init_read (cb_buf c))), (b_file (cb_buf c)); split; intros; try congruence; try discriminate; [discriminate (proj2 F eq_refl)|discriminate (proj1 F eq_refl)]. }
  rewrite E. intuition discriminate.
Qed.
Definition closing_history : list cop :=
  [CDo (BWrite (B "abc") NoFault); CDo BString; CClose false true; CDo (BWrite (B "d") NoFault); CDo (BWrite (B "defghijk") NoFault);
   CDo BString; CDo (BRead 2); CDo BWriteTo; CDo (BSeek 0 0); CClose false false; CClose false false].
Example C92_used_after_close_example :
  exists b, cruns closing_history (new_cbuffer 2 9) = Ret (CBuffer b true false,
    [CAnswer (OWrite 3 None); CAnswer (OString (B "ab") (Some ErrOutOfMemLimit)); CClosed (Some RemoveError);
     CAnswer (OWrite 0 (Some ErrOS)); CAnswer (OWrite 0 (Some ErrOutOfFileLimit)); CAnswer (OString (B "ab") (Some ErrOutOfMemLimit));
     CNothing; CNothing; CAnswer (OSeek None); CClosed (Some CloseError); CClosed (Some CloseError)]).
Proof. eexists. vm_compute. reflexivity. Qed.
Print Assumptions C92_used_after_close_partial.
Print Assumptions C92_file_on_disk_partial.
