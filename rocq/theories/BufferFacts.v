From Verif Require Import Base BaseFacts Buffer SpecBuffer.
From Coq Require Import ZifyBool.

Lemma zlen_app : forall a b, zlen (a ++ b) = zlen a + zlen b.
Proof. intros. unfold zlen. rewrite app_length. lia. Qed.
Lemma zlen_nonneg : forall a, 0 <= zlen a.
Proof. intros. unfold zlen. lia. Qed.

Lemma Ret_inj : forall A (a b : A), Ret a = Ret b -> a = b.
Proof. intros A a b H. now inversion H. Qed.

(** ** Limits and constants never change *)
Definition consts (b : buffer) := (b_memlimit b, b_filelimit b, b_readed b).

Lemma init_read_keeps : forall b, consts (init_read b) = consts b /\ b_len (init_read b) = b_len b
  /\ b_mem (init_read b) = b_mem b /\ (b_file (init_read b) = None <-> b_file b = None)
  /\ option_map f_data (b_file (init_read b)) = option_map f_data (b_file b).
Proof.
  intro b. unfold init_read. destruct (b_readed b) eqn:R; [repeat split; auto|].
  destruct (b_file b) as [f|] eqn:F; unfold consts, set_file; simpl; rewrite ?F; repeat split; auto; easy.
Qed.

Definition reads_ok (b b' : buffer) : Prop :=
  consts b' = consts b /\ b_len b' = b_len b /\ b_mem b' = b_mem b
  /\ option_map f_data (b_file b') = option_map f_data (b_file b).

Lemma reads_ok_refl : forall b, reads_ok b b.
Proof. now repeat split. Qed.
Lemma reads_ok_init : forall b, reads_ok b (init_read b).
Proof. intro b. destruct (init_read_keeps b) as (A & B & C & D & E). now repeat split. Qed.
Lemma reads_ok_off : forall b f f', b_file b = Some f -> f_data f' = f_data f ->
  reads_ok b (set_file b (Some f')).
Proof. intros b f f' H E. unfold reads_ok, set_file, consts. simpl. rewrite H. simpl. now rewrite E. Qed.
Lemma reads_ok_trans : forall a b c, reads_ok a b -> reads_ok b c -> reads_ok a c.
Proof. intros a b c (A1&A2&A3&A4) (B1&B2&B3&B4). repeat split; congruence. Qed.

(** Reading operations change nothing but the file offset. *)
Lemma bstep_reads : forall o b b' ob, is_write o = false -> bstep o b = Ret (b', ob) -> reads_ok b b'.
Proof.
  intros o b b' ob W H. pose proof (reads_ok_init b) as R.
  destruct o; simpl in W; try discriminate; simpl in H.
  - inversion H; subst. exact R.
  - unfold buf_read in H. destruct (b_file (init_read b)) as [f|] eqn:F.
    + inversion H; subst. eapply reads_ok_trans; [exact R|]. eapply reads_ok_off; eauto.
    + destruct (b_mem (init_read b)); inversion H; subst; exact R.
  - unfold buf_write_to in H. destruct (b_file (init_read b)) as [f|] eqn:F; inversion H; subst.
    + eapply reads_ok_trans; [exact R|]. eapply reads_ok_off; eauto.
    + exact R.
  - unfold buf_seek in H. cbv zeta in H.
    destruct (if whence =? 0 then Some 0 else _) as [base|]; [|inversion H; subst; exact R].
    destruct (base + off <? 0); [inversion H; subst; exact R|].
    destruct (b_file (init_read b)) as [f|] eqn:F; inversion H; subst; [|exact R].
    eapply reads_ok_trans; [exact R|]. eapply reads_ok_off; eauto.
Qed.

Lemma bstep_reads_ret : forall o b, is_write o = false -> exists b' ob, bstep o b = Ret (b', ob).
Proof.
  intros o b W. destruct o; simpl in W; try discriminate; simpl.
  - eexists _, _. reflexivity.
  - destruct (buf_read n b) as [[b' s] e]. eauto.
  - destruct (buf_write_to b) as [b' s]. eauto.
  - destruct (buf_seek off whence b) as [b' p]. eauto.
Qed.

Lemma bstep_reads_reported : forall o b b' ob, is_write o = false -> bstep o b = Ret (b', ob) ->
  forall obs, reported (ob :: obs) = reported obs.
Proof.
  intros o b b' ob W H obs. destruct o; simpl in W; try discriminate; simpl in H.
  - now inversion H.
  - destruct (buf_read n b) as [[? ?] ?]. now inversion H.
  - destruct (buf_write_to b) as [? ?]. now inversion H.
  - destruct (buf_seek off whence b) as [? ?]. now inversion H.
Qed.

(** ** C45: the limit, with faults *)
Lemma buf_write_len : forall ft p b b' n e, b_readed b = false ->
  buf_write ft p b = Ret (b', n, e) ->
  consts b' = consts b /\ 0 <= n /\ b_len b' = b_len b + n /\
  (b_len b + zlen p <= b_filelimit b -> n <= zlen p) /\
  (b_filelimit b < b_len b + zlen p -> b' = b /\ n = 0 /\ e = Some ErrOutOfFileLimit) /\
  (b_len b + zlen p <= b_filelimit b -> e <> Some ErrOutOfFileLimit) /\
  (b_len b + zlen p <= b_filelimit b -> e = None -> n = zlen p).
Proof.
  intros ft p b b' n e R H. unfold buf_write in H. rewrite R in H.
  pose proof (zlen_nonneg p) as P.
  assert (FF : forall b0 f, consts b0 = consts b -> b_len b0 = b_len b ->
     finish_file_write b0 f p ft = (b', n, e) ->
     consts b' = consts b /\ 0 <= n /\ b_len b' = b_len b + n /\ n <= zlen p /\
     e <> Some ErrOutOfFileLimit /\ (e = None -> n = zlen p)).
  { intros b0 f C L Q. unfold finish_file_write in Q.
    assert (FN : forall k, zlen (firstn k p) <= zlen p) by (intro k; unfold zlen; rewrite firstn_length; lia).
    assert (KK : forall q, consts (set_len (set_file b0 (Some (file_write f q))) (b_len b0 + zlen q)) = consts b)
      by (intro q; rewrite <- C; reflexivity).
    destruct ft; inversion Q; subst; unfold set_len, set_file; simpl;
    repeat split; try (apply KK); try (rewrite <- C; reflexivity); try lia; try discriminate; try apply FN; try apply zlen_nonneg. }
  destruct (b_filelimit b <? b_len b + zlen p) eqn:E.
  { inversion H; subst. repeat split; try lia; auto. }
  assert (WRAP : (consts b' = consts b /\ 0 <= n /\ b_len b' = b_len b + n /\ n <= zlen p /\
     e <> Some ErrOutOfFileLimit /\ (e = None -> n = zlen p)) ->
    consts b' = consts b /\ 0 <= n /\ b_len b' = b_len b + n /\
    (b_len b + zlen p <= b_filelimit b -> n <= zlen p) /\
    (b_filelimit b < b_len b + zlen p -> b' = b /\ n = 0 /\ e = Some ErrOutOfFileLimit) /\
    (b_len b + zlen p <= b_filelimit b -> e <> Some ErrOutOfFileLimit) /\
    (b_len b + zlen p <= b_filelimit b -> e = None -> n = zlen p)).
  { intros (A1&A2&A3&A4&A5&A6). repeat split; auto; try lia. }
  apply WRAP. clear WRAP.
  destruct (b_file b) as [f|] eqn:F.
  { eapply (FF b f); auto. now inversion H. }
  destruct (b_memlimit b <? b_len b + zlen p) eqn:M.
  - destruct (b_memlimit b - b_len b <? 0) eqn:K; [discriminate|].
    destruct ft; apply Ret_inj in H;
      try (eapply FF; [| |exact H]; reflexivity); inversion H; subst;
    unfold consts, set_file, set_mem; simpl; repeat split; try lia; try discriminate.
  - inversion H; subst. unfold consts, set_len, set_mem; simpl. repeat split; try lia; try discriminate.
Qed.

Lemma bruns_limit : forall os b b' obs, b_readed b = false -> 0 <= b_len b <= b_filelimit b ->
  bruns os b = Ret (b', obs) ->
  consts b' = consts b /\ 0 <= b_len b' <= b_filelimit b' /\ b_len b' = b_len b + reported obs.
Proof.
  induction os as [|o os IH]; intros b b' obs R L H; simpl in H.
  - inversion H; subst. simpl. repeat split; try lia.
  - apply bind_Ret in H as ([b1 ob] & H1 & H). apply bind_Ret in H as ([b2 obs2] & H2 & H).
    inversion H; subst.
    destruct (is_write o) eqn:W.
    + destruct o as [p ft| | | |]; try discriminate. simpl in H1.
      apply bind_Ret in H1 as ([[b1' n] e] & H1 & Q). inversion Q; subst.
      destruct (buf_write_len _ _ _ _ _ _ R H1) as (C & N0 & LL & N1 & N2 & _).
      assert (C' := C). unfold consts in C'. inversion C'.
      assert (L1 : 0 <= b_len b1 <= b_filelimit b1).
      { destruct (Z_le_dec (b_len b + zlen p) (b_filelimit b)) as [D|D]; [specialize (N1 D); lia|].
        destruct (N2 ltac:(lia)) as (-> & _). lia. }
      destruct (IH b1 b' obs2 ltac:(congruence) L1 H2) as (C2 & L2 & E2).
      split; [congruence|]. split; [exact L2|]. simpl. lia.
    + pose proof (bstep_reads _ _ _ _ W H1) as (C & LL & _).
      assert (C' := C). unfold consts in C'. inversion C'.
      destruct (IH b1 b' obs2 ltac:(congruence) ltac:(lia) H2) as (C2 & L2 & E2).
      split; [congruence|]. split; [exact L2|].
      rewrite (bstep_reads_reported _ _ _ _ W H1). lia.
Qed.

(** ** C46-C48: content *)

(** State reached by a fault-free history, or by any history that stays in memory. *)
Definition mem_inv (m l : Z) (acc : bs) (b : buffer) : Prop :=
  consts b = (m, l, false) /\ b_len b = zlen acc /\ b_mem b = acc /\ b_file b = None.
Definition spill_inv (m l : Z) (acc : bs) (b : buffer) : Prop :=
  consts b = (m, l, false) /\ b_len b = zlen acc /\ m < zlen acc /\
  b_mem b = firstn (Z.to_nat m) acc /\ b_file b <> None.

Lemma reads_mem_inv : forall m l acc b b', mem_inv m l acc b -> reads_ok b b' -> mem_inv m l acc b'.
Proof.
  intros m l acc b b' (A&B&C&D) (E&F&G&H). repeat split; try congruence.
  rewrite D in H. simpl in H. destruct (b_file b'); [discriminate|reflexivity].
Qed.
Lemma reads_spill_inv : forall m l acc b b', spill_inv m l acc b -> reads_ok b b' -> spill_inv m l acc b'.
Proof.
  intros m l acc b b' (A&B&C&D&I) (E&F&G&H). repeat split; try congruence.
  intro Q. rewrite Q in H. simpl in H. destruct (b_file b); [discriminate|contradiction].
Qed.

Lemma mem_write_reject : forall m l acc b p ft, consts b = (m, l, false) -> b_len b = zlen acc ->
  l < zlen (acc ++ p) -> buf_write ft p b = Ret (b, 0, Some ErrOutOfFileLimit).
Proof.
  intros m l acc b p ft C L H. unfold consts in C. injection C as Hm Hl Hr. unfold buf_write.
  rewrite zlen_app in H. assert (E : (b_filelimit b <? b_len b + zlen p) = true) by lia. rewrite Hr, E. reflexivity.
Qed.

Lemma mem_write_fits : forall m l acc b p ft, mem_inv m l acc b ->
  zlen (acc ++ p) <= l -> zlen (acc ++ p) <= m ->
  exists b', buf_write ft p b = Ret (b', zlen p, None) /\ mem_inv m l (acc ++ p) b'.
Proof.
  intros m l acc b p ft (C & L & M & F) H1 H2. rewrite zlen_app in *. unfold consts in C. injection C as Hm Hl Hr.
  unfold buf_write. rewrite F.
  assert (E : (b_filelimit b <? b_len b + zlen p) = false) by lia.
  assert (E2 : (b_memlimit b <? b_len b + zlen p) = false) by lia.
  rewrite Hr, E, E2. eexists. split; [reflexivity|].
  unfold mem_inv, consts, set_len, set_mem. simpl. rewrite zlen_app, M. repeat split; congruence.
Qed.

Lemma mem_write_spills : forall m l acc b p, 0 <= m -> mem_inv m l acc b ->
  zlen acc <= m -> zlen (acc ++ p) <= l -> m < zlen (acc ++ p) ->
  exists b', buf_write NoFault p b = Ret (b', zlen p, None) /\ spill_inv m l (acc ++ p) b' /\
    b_file b' = Some (file_write (file_write (TFile [] 0) (firstn (Z.to_nat m) (acc ++ p))) p).
Proof.
  intros m l acc b p M0 (C & L & M & F) H0 H1 H2. assert (H2' := H2). rewrite zlen_app in H1, H2'.
  unfold consts in C. injection C as Hm Hl Hr.
  unfold buf_write. rewrite F.
  assert (E : (b_filelimit b <? b_len b + zlen p) = false) by lia.
  assert (E2 : (b_memlimit b <? b_len b + zlen p) = true) by lia.
  assert (E3 : (b_memlimit b - b_len b <? 0) = false) by lia.
  rewrite Hr, E, E2, E3.
  assert (FN : b_mem b ++ firstn (Z.to_nat (b_memlimit b - b_len b)) p = firstn (Z.to_nat m) (acc ++ p)).
  { rewrite M, firstn_app, (firstn_all2 (n := Z.to_nat m) acc) by (unfold zlen in *; lia). f_equal. f_equal.
    unfold zlen in *. lia. }
  unfold finish_file_write, set_len, set_mem, set_file. simpl. rewrite FN.
  eexists. split; [reflexivity|]. split; [|reflexivity].
  unfold spill_inv, consts. simpl. rewrite L, zlen_app. repeat split; try congruence; try lia.
Qed.

Lemma spill_write : forall m l acc b p, 0 <= m -> spill_inv m l acc b -> zlen (acc ++ p) <= l ->
  exists b', buf_write NoFault p b = Ret (b', zlen p, None) /\ spill_inv m l (acc ++ p) b' /\
    exists f, b_file b = Some f /\ b_file b' = Some (file_write f p).
Proof.
  intros m l acc b p M0 (C & L & G & M & F) H1. assert (Z0 := zlen_nonneg p).
  assert (Zapp := zlen_app acc p). unfold consts in C. injection C as Hm Hl Hr.
  destruct (b_file b) as [f|] eqn:Fb; [|contradiction].
  unfold buf_write. rewrite Fb.
  assert (E : (b_filelimit b <? b_len b + zlen p) = false) by lia.
  rewrite Hr, E. unfold finish_file_write, set_len, set_file. eexists. split; [reflexivity|].
  split; [|eauto].
  unfold spill_inv, consts. simpl. rewrite L, zlen_app. repeat split; try congruence; try lia.
  rewrite M, firstn_app.
  replace (Z.to_nat m - length acc)%nat with 0%nat by (unfold zlen in *; lia). simpl. now rewrite app_nil_r.
Qed.

Lemma stream_from_mono : forall os l acc, (length acc <= length (stream_from l acc os))%nat.
Proof.
  induction os as [|o os IH]; intros l acc; simpl; [lia|].
  destruct o; try apply IH.
  destruct (Z.of_nat (length (acc ++ p)) <=? l); [|apply IH].
  specialize (IH l (acc ++ p)). rewrite app_length in IH. lia.
Qed.

(** Any fault pattern, as long as everything accepted fits in memory. *)
Lemma bruns_mem : forall os m l acc b, mem_inv m l acc b ->
  zlen (stream_from l acc os) <= m ->
  exists b' obs, bruns os b = Ret (b', obs) /\ mem_inv m l (stream_from l acc os) b'.
Proof.
  induction os as [|o os IH]; intros m l acc b I L; simpl in *; [eauto|].
  destruct (is_write o) eqn:W.
  - destruct o as [p ft| | | |]; try discriminate. simpl.
    destruct (Z.of_nat (length (acc ++ p)) <=? l) eqn:E.
    + pose proof (stream_from_mono os l (acc ++ p)) as Mo.
      destruct (mem_write_fits m l acc b p ft I) as (b1 & H & I1).
      * unfold zlen in *. lia.
      * unfold zlen in *. lia.
      * rewrite H. simpl. destruct (IH m l (acc ++ p) b1 I1 L) as (b' & obs & H2 & I2).
        rewrite H2. simpl. eauto.
    + destruct I as (C & Ln & M & F).
      rewrite (mem_write_reject m l acc b p ft C Ln) by (unfold zlen; lia). simpl.
      destruct (IH m l acc b ltac:(now repeat split) L) as (b' & obs & H2 & I2).
      rewrite H2. simpl. eauto.
  - destruct (bstep_reads_ret o b W) as (b1 & ob & H). rewrite H. simpl.
    pose proof (reads_mem_inv _ _ _ _ _ I (bstep_reads _ _ _ _ W H)) as I1.
    assert (Q : stream_from l acc (o :: os) = stream_from l acc os) by (destruct o; easy).
    simpl in Q. rewrite Q in *. destruct (IH m l acc b1 I1 L) as (b' & obs & H2 & I2).
    rewrite H2. simpl. eauto.
Qed.

Lemma fault_free_cons : forall o os, fault_free (o :: os) -> fault_free os.
Proof. intros o os H p ft I. apply (H p ft). now right. Qed.

Lemma bruns_fault_free : forall os m l acc b, 0 <= m -> fault_free os ->
  (mem_inv m l acc b /\ zlen acc <= m \/ spill_inv m l acc b) ->
  exists b' obs, bruns os b = Ret (b', obs) /\
   (mem_inv m l (stream_from l acc os) b' /\ zlen (stream_from l acc os) <= m
    \/ spill_inv m l (stream_from l acc os) b').
Proof.
  induction os as [|o os IH]; intros m l acc b M0 FF I; simpl in *; [eauto|].
  assert (FF' := fault_free_cons _ _ FF).
  assert (C : consts b = (m, l, false) /\ b_len b = zlen acc)
    by (destruct I as [[(A&B&_) _]|(A&B&_)]; auto).
  destruct C as [C Ln].
  destruct (is_write o) eqn:W.
  - destruct o as [p ft| | | |]; try discriminate.
    assert (ft = NoFault) by (apply (FF p ft); now left). subst ft. simpl.
    destruct (Z.of_nat (length (acc ++ p)) <=? l) eqn:E.
    + assert (El : zlen (acc ++ p) <= l) by (unfold zlen; lia).
      assert (H : exists b1, buf_write NoFault p b = Ret (b1, zlen p, None) /\
        (mem_inv m l (acc ++ p) b1 /\ zlen (acc ++ p) <= m \/ spill_inv m l (acc ++ p) b1)).
      { destruct I as [[I Im]|I].
        - destruct (Z_le_dec (zlen (acc ++ p)) m) as [D|D].
          + destruct (mem_write_fits m l acc b p NoFault I El D) as (b1 & H & I1). eauto.
          + destruct (mem_write_spills m l acc b p M0 I Im El ltac:(lia)) as (b1 & H & I1 & _). eauto.
        - destruct (spill_write m l acc b p M0 I El) as (b1 & H & I1 & _). eauto. }
      destruct H as (b1 & H & I1). rewrite H. simpl.
      destruct (IH m l (acc ++ p) b1 M0 FF' I1) as (b' & obs & H2 & I2). rewrite H2. simpl. eauto.
    + rewrite (mem_write_reject m l acc b p NoFault C Ln) by (unfold zlen; lia). simpl.
      destruct (IH m l acc b M0 FF' I) as (b' & obs & H2 & I2). rewrite H2. simpl. eauto.
  - destruct (bstep_reads_ret o b W) as (b1 & ob & H). rewrite H. simpl.
    pose proof (bstep_reads _ _ _ _ W H) as R.
    assert (I1 : mem_inv m l acc b1 /\ zlen acc <= m \/ spill_inv m l acc b1).
    { destruct I as [[I Im]|I]; [left|right].
      - split; [eapply reads_mem_inv; eauto|exact Im].
      - eapply reads_spill_inv; eauto. }
    assert (Q : stream_from l acc (o :: os) = stream_from l acc os) by (destruct o; easy).
    simpl in Q. rewrite Q in *. destruct (IH m l acc b1 M0 FF' I1) as (b' & obs & H2 & I2).
    rewrite H2. simpl. eauto.
Qed.

Lemma new_mem_inv : forall m l, mem_inv m l [] (new_buffer m l).
Proof. intros. now repeat split. Qed.

Lemma mem_inv_reads : forall m l s b, mem_inv m l s b ->
  snd (fst (buf_string b)) = s /\ snd (buf_string b) = None /\ snd (buf_write_to b) = s /\ buf_len b = zlen s.
Proof.
  intros m l s b (C & L & M & F). unfold buf_string, buf_write_to.
  destruct (init_read_keeps b) as (_ & _ & KM & KF & _). rewrite KM, (proj2 KF F). simpl.
  auto.
Qed.
Lemma spill_inv_string : forall m l s b, spill_inv m l s b ->
  snd (fst (buf_string b)) = firstn (Z.to_nat m) s /\ snd (buf_string b) = Some ErrOutOfMemLimit /\ buf_len b = zlen s.
Proof.
  intros m l s b (C & L & G & M & F). unfold buf_string.
  destruct (init_read_keeps b) as (_ & _ & KM & KF & _). rewrite KM. simpl.
  destruct (b_file (init_read b)) eqn:E; [auto|]. tauto.
Qed.

(** ** Spilled content, writes only *)
Definition file_is (b : buffer) (d : bs) : Prop := b_file b = Some (TFile d (length d)).

Lemma file_write_end : forall d p, file_write (TFile d (length d)) p = TFile (d ++ p) (length (d ++ p)).
Proof.
  intros d p. unfold file_write. simpl. destruct p as [|c p]; [now rewrite app_nil_r|].
  rewrite firstn_all, Nat.sub_diag. simpl.
  rewrite (skipn_all2 d) by lia. rewrite app_nil_r, app_length. reflexivity.
Qed.

(** Offset of the spilling write in the accepted stream; None if nothing spills. *)
Fixpoint spill_at (m l : Z) (acc : bs) (os : list bop) : option nat :=
  match os with
  | [] => None
  | BWrite p _ :: os' =>
      if Z.of_nat (length (acc ++ p)) <=? l then
        if m <? Z.of_nat (length (acc ++ p)) then Some (length acc)
        else spill_at m l (acc ++ p) os'
      else spill_at m l acc os'
  | _ :: os' => spill_at m l acc os'
  end.

Lemma stream_from_app : forall os l acc, exists r, stream_from l acc os = acc ++ r.
Proof.
  induction os as [|o os IH]; intros l acc; simpl; [exists []; now rewrite app_nil_r|].
  destruct o; try apply IH. destruct (Z.of_nat (length (acc ++ p)) <=? l); [|apply IH].
  destruct (IH l (acc ++ p)) as [r ->]. exists (p ++ r). now rewrite app_assoc.
Qed.

Lemma writes_after_spill : forall os m l acc b k, 0 <= m -> fault_free os ->
  Forall (fun o => is_write o = true) os -> spill_inv m l acc b ->
  (k <= length acc)%nat ->
  file_is b (firstn (Z.to_nat m) acc ++ skipn k acc) ->
  exists b' obs, bruns os b = Ret (b', obs) /\
    file_is b' (firstn (Z.to_nat m) (stream_from l acc os) ++ skipn k (stream_from l acc os)).
Proof.
  induction os as [|o os IH]; intros m l acc b k M0 FF W I K F; simpl; [eauto|].
  inversion W as [|? ? Wo W']; subst. destruct o as [p ft| | | |]; try discriminate.
  assert (ft = NoFault) by (apply (FF p ft); now left). subst ft. simpl.
  assert (FF' := fault_free_cons _ _ FF).
  destruct (Z.of_nat (length (acc ++ p)) <=? l) eqn:E.
  - destruct (spill_write m l acc b p M0 I ltac:(unfold zlen; lia)) as (b1 & H & I1 & f & Hf & Hf').
    rewrite H. simpl.
    assert (F1 : file_is b1 (firstn (Z.to_nat m) (acc ++ p) ++ skipn k (acc ++ p))).
    { unfold file_is in *. rewrite Hf' . rewrite F in Hf. inversion Hf; subst f.
      rewrite file_write_end. f_equal.
      assert (Ef : firstn (Z.to_nat m) (acc ++ p) = firstn (Z.to_nat m) acc).
      { destruct I as (_ & _ & G & _). rewrite firstn_app.
        replace (Z.to_nat m - length acc)%nat with 0%nat by (unfold zlen in *; lia). simpl. now rewrite app_nil_r. }
      assert (Es : skipn k (acc ++ p) = skipn k acc ++ p).
      { rewrite skipn_app. replace (k - length acc)%nat with 0%nat by lia. reflexivity. }
      rewrite Ef, Es, <- app_assoc. reflexivity. }
    destruct (IH m l (acc ++ p) b1 k M0 FF' W' I1 ltac:(rewrite app_length; lia) F1) as (b' & obs & H2 & F2).
    rewrite H2. simpl. eauto.
  - destruct I as (C & Ln & Rest).
    rewrite (mem_write_reject m l acc b p NoFault C Ln) by (unfold zlen; lia). simpl.
    destruct (IH m l acc b k M0 FF' W' ltac:(repeat split; tauto) K F) as (b' & obs & H2 & F2).
    rewrite H2. simpl. eauto.
Qed.

Lemma writes_spill_content : forall os m l acc b k, 0 <= m -> fault_free os ->
  Forall (fun o => is_write o = true) os -> mem_inv m l acc b -> zlen acc <= m ->
  spill_at m l acc os = Some k ->
  exists b' obs, bruns os b = Ret (b', obs) /\
    file_is b' (firstn (Z.to_nat m) (stream_from l acc os) ++ skipn k (stream_from l acc os)).
Proof.
  induction os as [|o os IH]; intros m l acc b k M0 FF W I K S; simpl in *; [discriminate|].
  inversion W as [|? ? Wo W']; subst. destruct o as [p ft| | | |]; try discriminate.
  assert (ft = NoFault) by (apply (FF p ft); now left). subst ft. simpl.
  assert (FF' := fault_free_cons _ _ FF).
  destruct (Z.of_nat (length (acc ++ p)) <=? l) eqn:E.
  - destruct (m <? Z.of_nat (length (acc ++ p))) eqn:Em.
    + inversion S; subst k.
      destruct (mem_write_spills m l acc b p M0 I K ltac:(unfold zlen; lia) ltac:(unfold zlen; lia))
        as (b1 & H & I1 & Hf).
      rewrite H. simpl.
      assert (F1 : file_is b1 (firstn (Z.to_nat m) (acc ++ p) ++ skipn (length acc) (acc ++ p))).
      { unfold file_is. rewrite Hf.
        change (TFile [] 0) with (TFile [] (length (@nil ascii))).
        rewrite file_write_end. cbn [app]. rewrite file_write_end. f_equal.
        assert (Es : skipn (length acc) (acc ++ p) = p) by (rewrite skipn_app, skipn_all, Nat.sub_diag; reflexivity).
        now rewrite Es. }
      destruct (writes_after_spill os m l (acc ++ p) b1 (length acc) M0 FF' W' I1
         ltac:(rewrite app_length; lia) F1) as (b' & obs & H2 & F2).
      rewrite H2. simpl. eauto.
    + destruct (mem_write_fits m l acc b p NoFault I ltac:(unfold zlen; lia) ltac:(unfold zlen; lia)) as (b1 & H & I1).
      rewrite H. simpl.
      destruct (IH m l (acc ++ p) b1 k M0 FF' W' I1 ltac:(unfold zlen; lia) S) as (b' & obs & H2 & F2).
      rewrite H2. simpl. eauto.
  - assert (I' := I). destruct I' as (C & Ln & Rest).
    rewrite (mem_write_reject m l acc b p NoFault C Ln) by (unfold zlen; lia). simpl.
    destruct (IH m l acc b k M0 FF' W' I K S) as (b' & obs & H2 & F2).
    rewrite H2. simpl. eauto.
Qed.

Lemma spill_at_bound : forall os m l acc k, zlen acc <= m ->
  spill_at m l acc os = Some k -> (k <= Z.to_nat m)%nat /\ Z.of_nat k <= m /\ m < zlen (stream_from l acc os).
Proof.
  induction os as [|o os IH]; intros m l acc k K S; simpl in *; [discriminate|].
  destruct o; try (eapply IH; eauto; fail).
  destruct (Z.of_nat (length (acc ++ p)) <=? l); [|eapply IH; eauto].
  destruct (m <? Z.of_nat (length (acc ++ p))) eqn:E.
  - inversion S; subst. unfold zlen in *. pose proof (stream_from_mono os l (acc ++ p)). lia.
  - eapply IH; eauto. unfold zlen in *. lia.
Qed.

Lemma spill_at_none : forall os m l acc, zlen acc <= m ->
  (spill_at m l acc os = None <-> zlen (stream_from l acc os) <= m).
Proof.
  induction os as [|o os IH]; intros m l acc K; simpl in *; [easy|].
  destruct o; try (apply IH; easy).
  destruct (Z.of_nat (length (acc ++ p)) <=? l); [|apply IH; easy].
  destruct (m <? Z.of_nat (length (acc ++ p))) eqn:E.
  - split; [easy|]. intro H. pose proof (stream_from_mono os l (acc ++ p)). unfold zlen in *. lia.
  - apply IH. unfold zlen in *. lia.
Qed.

Lemma file_is_write_to : forall b d, b_readed b = false -> file_is b d -> snd (buf_write_to b) = d.
Proof.
  intros b d R F. unfold file_is in F. unfold buf_write_to, init_read. rewrite R, F. reflexivity.
Qed.

(** The reading operations do not affect what String reports. *)
Lemma stream_writes_only : forall os l acc, stream_from l acc (writes_only os) = stream_from l acc os.
Proof.
  induction os as [|o os IH]; intros l acc; simpl; [reflexivity|].
  destruct o; simpl; try apply IH. destruct (_ <=? l); apply IH.
Qed.

(** ** Reads restart *)
Definition content (b : buffer) : bs := match b_file b with Some f => f_data f | None => b_mem b end.

Lemma read_is_prefix : forall n b, b_readed b = false ->
  snd (fst (buf_read n b)) = firstn n (content b) /\
  (content b <> [] -> (0 < n)%nat -> snd (buf_read n b) = false) /\
  content (fst (fst (buf_read n b))) = content b /\ b_readed (fst (fst (buf_read n b))) = false.
Proof.
  intros n b R. unfold buf_read, init_read, content. rewrite R.
  destruct (b_file b) as [f|] eqn:F; simpl.
  - repeat split; auto. intros H N. destruct (f_data f) as [|c d]; [easy|]. destruct n; [lia|]. simpl. reflexivity.
  - rewrite F. destruct (b_mem b) as [|c d] eqn:M; simpl.
    + rewrite F, M. repeat split; auto; [now destruct n|easy].
    + rewrite F, M. repeat split; auto.
Qed.
