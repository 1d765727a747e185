(** Property theorems C45-C50: the body buffer. *)
From Verif Require Import Base BaseFacts Buffer SpecBuffer BufferFacts.

(** ** C45 *)
Theorem C45_size_limit : forall m l os b obs, 0 <= l ->
  bruns os (new_buffer m l) = Ret (b, obs) ->
  0 <= buf_len b <= l /\ buf_len b = reported obs.
Proof.
  intros m l os b obs L H.
  destruct (bruns_limit os (new_buffer m l) b obs eq_refl ltac:(simpl; lia) H) as (C & I & E).
  unfold consts in C. injection C as C1 C2 C3. unfold buf_len. rewrite <- C2. split; [exact I|].
  simpl in E. exact E.
Qed.
Theorem C45_write_rejected_iff_over_limit : forall m l os b obs p ft b' n e, 0 <= l ->
  bruns os (new_buffer m l) = Ret (b, obs) -> buf_write ft p b = Ret (b', n, e) ->
  (e = Some ErrOutOfFileLimit <-> l < buf_len b + Z.of_nat (length p)) /\
  (e = Some ErrOutOfFileLimit -> b' = b /\ n = 0).
Proof.
  intros m l os b obs p ft b' n e L H W.
  destruct (bruns_limit os (new_buffer m l) b obs eq_refl ltac:(simpl; lia) H) as (C & I & E).
  unfold consts in C. injection C as C1 C2 C3.
  destruct (buf_write_len ft p b b' n e C3 W) as (_ & _ & _ & _ & N2 & N3 & _).
  rewrite C2 in *. unfold buf_len. fold (zlen p).
  destruct (Z_le_dec (b_len b + zlen p) l) as [D|D].
  - split; [split; intro Q; [elim (N3 D Q)|lia]|]. intro Q. elim (N3 D Q).
  - destruct (N2 ltac:(lia)) as (-> & -> & ->). split; [split; [lia|reflexivity]|auto].
Qed.
Example C45_example : exists b obs,
  bruns [BWrite (B "abc") NoFault; BWrite (B "defg") (WriteFails 2); BWrite (B "xyz") NoFault; BRead 2]
    (new_buffer 2 7) = Ret (b, obs) /\ buf_len b = 5.
Proof. eexists _, _. split; vm_compute; reflexivity. Qed.
Print Assumptions C45_size_limit.
Print Assumptions C45_write_rejected_iff_over_limit.

(** ** C46: any interleaved reads, any fault pattern *)
Theorem C46_in_memory_content : forall m l os,
  Z.of_nat (length (stream l os)) <= m ->
  exists b obs, bruns os (new_buffer m l) = Ret (b, obs) /\
    snd (fst (buf_string b)) = stream l os /\ snd (buf_string b) = None /\
    snd (buf_write_to b) = stream l os /\ buf_len b = Z.of_nat (length (stream l os)).
Proof.
  intros m l os H. destruct (bruns_mem os m l [] (new_buffer m l) (new_mem_inv m l) H) as (b & obs & R & I).
  exists b, obs. split; [exact R|]. exact (mem_inv_reads _ _ _ _ I).
Qed.
Example C46_example : Z.of_nat (length (stream 5 [BWrite (B "abc") NoFault; BString; BWrite (B "toolong") NoFault;
  BRead 1; BWrite (B "de") TempFileFails])) <= 8.
Proof. vm_compute. discriminate. Qed.
Print Assumptions C46_in_memory_content.

(** ** C47 *)
Theorem C47_spilled_prefix : forall m l os, 0 <= m -> fault_free os ->
  exists b obs, bruns os (new_buffer m l) = Ret (b, obs) /\
    buf_len b = Z.of_nat (length (stream l os)) /\
    (m < Z.of_nat (length (stream l os)) ->
       snd (fst (buf_string b)) = firstn (Z.to_nat m) (stream l os) /\
       snd (buf_string b) = Some ErrOutOfMemLimit) /\
    (Z.of_nat (length (stream l os)) <= m ->
       snd (fst (buf_string b)) = stream l os /\ snd (buf_string b) = None).
Proof.
  intros m l os M FF.
  destruct (bruns_fault_free os m l [] (new_buffer m l) M FF (or_introl (conj (new_mem_inv m l) M)))
    as (b & obs & R & I).
  exists b, obs. split; [exact R|]. fold (stream l os) in I.
  destruct I as [[I L]|I].
  - destruct (mem_inv_reads _ _ _ _ I) as (A & C & _ & D). split; [exact D|].
    split; [unfold zlen in L; lia|auto].
  - destruct (spill_inv_string _ _ _ _ I) as (A & C & D). split; [exact D|].
    split; [auto|]. destruct I as (_ & _ & G & _). unfold zlen in G. lia.
Qed.
Example C47_example : fault_free [BWrite (B "abc") NoFault; BString; BWrite (B "de") NoFault] /\
  4 < Z.of_nat (length (stream 10 [BWrite (B "abc") NoFault; BString; BWrite (B "de") NoFault])).
Proof. split; [|reflexivity]. intros p ft I. simpl in I. intuition congruence. Qed.
Print Assumptions C47_spilled_prefix.

(** ** C48: false of the code: the part of the spilling write that fits in memory
    is written to the file twice. *)
Definition C48_claim : Prop := forall m l os b obs, 0 <= m -> fault_free os ->
  bruns os (new_buffer m l) = Ret (b, obs) -> snd (buf_write_to b) = stream l os.
Theorem C48_spilled_content_refuted : exists m l os b obs, 0 <= m /\ fault_free os /\
  bruns os (new_buffer m l) = Ret (b, obs) /\
  stream l os = B "ab" /\ snd (buf_write_to b) = B "aab".
Proof.
  exists 1, 10, [BWrite (B "ab") NoFault]. eexists _, _.
  split; [lia|]. split; [intros p ft I; simpl in I; intuition congruence|].
  split; [vm_compute; reflexivity|]. split; vm_compute; reflexivity.
Qed.
(** Exactly what is stored by fault-free histories of writes: with [k] bytes
    accepted before the spilling write, bytes [k..m) appear twice; so the content
    is right iff memory was exactly full ([k = m]). *)
Theorem C48_spilled_content_partial : forall m l os k, 0 <= m -> fault_free os ->
  Forall (fun o => is_write o = true) os -> spill_at m l [] os = Some k ->
  exists b obs, bruns os (new_buffer m l) = Ret (b, obs) /\
    snd (buf_write_to b) = firstn (Z.to_nat m) (stream l os) ++ skipn k (stream l os) /\
    (snd (buf_write_to b) = stream l os <-> Z.of_nat k = m).
Proof.
  intros m l os k M FF W S.
  destruct (writes_spill_content os m l [] (new_buffer m l) k M FF W (new_mem_inv m l) M S) as (b & obs & R & F).
  fold (stream l os) in F.
  exists b, obs. split; [exact R|].
  assert (Rd : b_readed b = false).
  { destruct (bruns_fault_free os m l [] (new_buffer m l) M FF (or_introl (conj (new_mem_inv m l) M)))
      as (b2 & obs2 & R2 & I). rewrite R in R2. inversion R2; subst b2 obs2.
    destruct I as [[(C & _) _]|(C & _)]; unfold consts in C; congruence. }
  rewrite (file_is_write_to b _ Rd F). split; [reflexivity|].
  destruct (spill_at_bound os m l [] k M S) as (K1 & K2 & K3). fold (stream l os) in K3. unfold zlen in K3.
  split.
  - intro E. apply (f_equal (@length ascii)) in E.
    rewrite app_length, firstn_length, skipn_length in E. lia.
  - intro E. replace k with (Z.to_nat m) by lia. apply firstn_skipn.
Qed.
Example C48_example : spill_at 4 100 [] [BWrite (B "abc") NoFault; BWrite (B "defg") NoFault; BWrite (B "h") NoFault] = Some 3%nat.
Proof. reflexivity. Qed.
Print Assumptions C48_spilled_content_refuted.
Print Assumptions C48_spilled_content_partial.

(** ** C49: false of the code: every Read starts again at the beginning. *)
Definition C49_claim : Prop := forall m l p b obs, bruns [BWrite p NoFault; BRead 1; BRead 1] (new_buffer m l) = Ret (b, obs) ->
  forall x y r, p = x :: y :: r -> exists o, obs = [o; ORead [x] false; ORead [y] false].
Theorem C49_reading_advances_refuted : exists m l b obs,
  bruns [BWrite (B "ab") NoFault; BRead 1; BRead 1; BRead 1] (new_buffer m l) = Ret (b, obs) /\
  obs = [OWrite 2 None; ORead (B "a") false; ORead (B "a") false; ORead (B "a") false].
Proof. exists 10, 10. eexists _, _. split; vm_compute; reflexivity. Qed.
(** Exactly what happens: any number of reads of any sizes each deliver a prefix
    of the same content, and EOF is reported exactly for an empty content (asking for
    no bytes: only of an empty content in memory). *)
Theorem C49_reading_advances_partial : forall ns b, b_readed b = false ->
  exists b', bruns (map BRead ns) b =
    Ret (b', map (fun n => ORead (firstn n (content b)) (snd (buf_read n b))) ns) /\
  (content b <> [] -> forall n, (0 < n)%nat -> snd (buf_read n b) = false) /\
  (content b = [] -> forall n, (0 < n)%nat -> snd (buf_read n b) = true) /\
  snd (buf_read 0 b) = match b_file b, content b with None, [] => true | _, _ => false end.
Proof.
  intros ns b R.
  assert (EOF : forall b1 n, b_readed b1 = false -> content b1 = content b ->
     (b_file b1 = None <-> b_file b = None) -> snd (buf_read n b1) = snd (buf_read n b)).
  { intros b1 n R1 C F. unfold buf_read, init_read, content in *. rewrite R, R1.
    destruct (b_file b1) as [f1|] eqn:F1; destruct (b_file b) as [f|] eqn:F0; simpl in *.
    - now rewrite C.
    - destruct F as [_ F]. now specialize (F eq_refl).
    - destruct F as [F _]. now specialize (F eq_refl).
    - rewrite F1, F0, C. now destruct (b_mem b). }
  assert (S : forall n b1, b_readed b1 = false -> (b_file b1 = None <-> b_file b = None) ->
     (b_file (fst (fst (buf_read n b1))) = None <-> b_file b = None)).
  { intros n b1 R1 F. unfold buf_read, init_read. rewrite R1.
    destruct (b_file b1) as [f1|] eqn:F1; simpl.
    - split; [easy|]. intro Q. apply F in Q. discriminate.
    - rewrite F1. destruct (b_mem b1); simpl; rewrite F1; exact F. }
  assert (Main : forall ns b1, b_readed b1 = false -> content b1 = content b ->
     (b_file b1 = None <-> b_file b = None) ->
     exists b', bruns (map BRead ns) b1 =
       Ret (b', map (fun n => ORead (firstn n (content b)) (snd (buf_read n b))) ns)).
  { induction ns0 as [|n ns0 IH]; intros b1 R1 C1 F1; simpl; [eauto|].
    destruct (read_is_prefix n b1 R1) as (P & _ & C2 & R2).
    pose proof (EOF b1 n R1 C1 F1) as E. pose proof (S n b1 R1 F1) as F2.
    destruct (buf_read n b1) as [[b2 s] eof]. simpl in *.
    destruct (IH b2 R2 ltac:(congruence) F2) as (b' & Q). rewrite Q. simpl. exists b'. subst. now rewrite C1. }
  destruct (Main ns b R eq_refl (iff_refl _)) as (b' & Q). exists b'. split; [exact Q|].
  split; [intros N n Hn; now apply (read_is_prefix n b R)|]. clear - R.
  unfold buf_read, init_read, content. rewrite R. destruct (b_file b) as [f|] eqn:F; cbn [set_file b_file f_data f_off skipn]; rewrite ?F.
  - split; [|reflexivity]. intros -> n Hn. destruct n; [lia|reflexivity].
  - split; [now intros ->|]. now destruct (b_mem b).
Qed.
Example C49_example : exists b, b_readed b = false /\ content b = B "abc" /\ b_file b <> None /\
  exists b', bruns (map BRead [2; 0; 9]%nat) b = Ret (b', [ORead (B "ab") false; ORead [] false; ORead (B "abc") false]).
Proof.
  exists (set_file (new_buffer 0 99) (Some (TFile (B "abc") 1))). split; [reflexivity|]. split; [reflexivity|]. split; [discriminate|].
  eexists. reflexivity.
Qed.
Print Assumptions C49_reading_advances_refuted.
Print Assumptions C49_reading_advances_partial.

(** ** C50: false of the code once the body has spilled: a read rewinds the file
    and the next write overwrites its beginning. *)
Definition C50_claim : Prop := forall m l os b obs b2 obs2, 0 <= m -> fault_free os ->
  bruns os (new_buffer m l) = Ret (b, obs) -> bruns (writes_only os) (new_buffer m l) = Ret (b2, obs2) ->
  snd (buf_write_to b) = snd (buf_write_to b2).
Theorem C50_reads_writes_refuted : exists m l os b obs b2 obs2, 0 <= m /\ fault_free os /\
  bruns os (new_buffer m l) = Ret (b, obs) /\ bruns (writes_only os) (new_buffer m l) = Ret (b2, obs2) /\
  snd (buf_write_to b) = B "Xbc" /\ snd (buf_write_to b2) = B "abcX" /\
  last obs (OWriteTo []) = OWrite 1 None.
Proof.
  exists 0, 10, [BWrite (B "abc") NoFault; BString; BWrite (B "X") NoFault]. eexists _, _, _, _.
  split; [lia|]. split; [intros p ft I; simpl in I; intuition congruence|].
  split; [vm_compute; reflexivity|]. split; [vm_compute; reflexivity|]. repeat split; vm_compute; reflexivity.
Qed.
(** What holds: in memory nothing interferes; and String and Len never notice. *)
Theorem C50_reads_writes_partial : forall m l os, 0 <= m -> fault_free os ->
  exists b obs b2 obs2,
  bruns os (new_buffer m l) = Ret (b, obs) /\ bruns (writes_only os) (new_buffer m l) = Ret (b2, obs2) /\
  snd (fst (buf_string b)) = snd (fst (buf_string b2)) /\ snd (buf_string b) = snd (buf_string b2) /\
  buf_len b = buf_len b2 /\
  (Z.of_nat (length (stream l os)) <= m -> snd (buf_write_to b) = snd (buf_write_to b2)).
Proof.
  intros m l os M FF.
  assert (FF2 : fault_free (writes_only os))
    by (intros p ft I; apply filter_In in I as [I _]; now apply (FF p ft)).
  assert (E : stream l (writes_only os) = stream l os) by apply stream_writes_only.
  destruct (C47_spilled_prefix m l os M FF) as (b & obs & R & L & A1 & A2).
  destruct (C47_spilled_prefix m l (writes_only os) M FF2) as (b2 & obs2 & R2 & L2 & B1 & B2).
  rewrite E in *. exists b, obs, b2, obs2. split; [exact R|]. split; [exact R2|].
  destruct (Z_le_dec (Z.of_nat (length (stream l os))) m) as [D|D].
  - destruct (A2 D), (B2 D).
    destruct (C46_in_memory_content m l os D) as (b' & obs' & R' & _ & _ & W & _).
    rewrite R in R'. inversion R'; subst b' obs'.
    destruct (C46_in_memory_content m l (writes_only os)) as (b' & obs' & R'' & _ & _ & W2 & _); [now rewrite E|].
    rewrite R2 in R''. inversion R''; subst b' obs'. rewrite E in W2.
    repeat split; congruence.
  - destruct (A1 ltac:(lia)), (B1 ltac:(lia)). repeat split; try congruence. lia.
Qed.
Print Assumptions C50_reads_writes_refuted.
Print Assumptions C50_reads_writes_partial.

(** ** C88: false of the code: the position a [Seek] reports is not where the next
    read starts. *)
Definition C88_claim : Prop := forall off wh b b' q n, b_readed b = false -> buf_seek off wh b = (b', Some q) ->
  snd (fst (buf_read n b')) = firstn n (skipn (Z.to_nat q) (content b)).
Theorem C88_seek_moves_reader_refuted : exists off wh b b' q n, b_readed b = false /\ buf_seek off wh b = (b', Some q) /\
  q = 1 /\ content b = B "abc" /\ snd (fst (buf_read n b')) = B "ab".
Proof.
  exists 1, 0, (set_mem (new_buffer 9 9) (B "abc")). eexists _, _, 2%nat. split; [reflexivity|]. split; [reflexivity|]. repeat split.
Qed.
(** What a seek does: it reports the position counted from the start (the current
    position always is the start) or from the end; it fails exactly if that is
    negative or the origin unknown; it changes no content and no length, and reads
    go on as before. *)
Definition seek_origin (wh : Z) (c : bs) (z : Z) : Prop :=
  (wh = 0 /\ z = 0) \/ (wh = 1 /\ z = 0) \/ (wh = 2 /\ z = Z.of_nat (length c)).
Theorem C88_seek_moves_reader_partial : forall off wh b b' p, b_readed b = false -> buf_seek off wh b = (b', p) ->
  (forall q, p = Some q <-> 0 <= q /\ seek_origin wh (content b) (q - off)) /\
  content b' = content b /\ buf_len b' = buf_len b /\ b_readed b' = false /\
  (forall n, snd (fst (buf_read n b')) = firstn n (content b) /\ snd (buf_read n b') = snd (buf_read n b)).
Proof.
  intros off wh b b' p R H.
  assert (X : content b' = content b /\ buf_len b' = buf_len b /\ b_readed b' = false /\ (b_file b' = None <-> b_file b = None)).
  { unfold buf_seek, init_read in H. rewrite R in H. cbv zeta in H. unfold content, buf_len.
    destruct (b_file b) as [f|] eqn:F; cbn [set_file b_file] in H; rewrite ?F in H;
      (destruct (if wh =? 0 then _ else _) as [z|]; [destruct (z + off <? 0)|]); injection H as <- _; cbn; rewrite ?F; repeat split; auto; discriminate. }
  destruct X as (X1 & X2 & X3 & X4). split; [|split; [exact X1|split; [exact X2|split; [exact X3|]]]].
  - unfold buf_seek, init_read in H. rewrite R in H. cbv zeta in H. unfold seek_origin, content. intro q.
    destruct (b_file b) as [f|] eqn:F; cbn [set_file b_file f_data] in H; rewrite ?F in H; unfold zlen in H;
      (destruct (wh =? 0) eqn:W0; [|destruct (wh =? 1) eqn:W1; [|destruct (wh =? 2) eqn:W2]]);
      try (match type of H with context [if ?c then _ else _] => destruct c eqn:C end);
      injection H as _ <-; (split; [intro Q; try discriminate; injection Q as <-; lia|intros [Q1 Q2]; try (f_equal; lia); exfalso; lia]).
  - intro n. destruct (read_is_prefix n b' X3) as (P & _). rewrite P, X1. split; [reflexivity|].
    unfold buf_read, init_read. rewrite R, X3. unfold content in X1.
    destruct (b_file b') as [f1|] eqn:F1; destruct (b_file b) as [f|] eqn:F0; cbn [set_file b_file f_data f_off] in *.
    + now rewrite X1.
    + destruct X4 as [_ X4]. now specialize (X4 eq_refl).
    + destruct X4 as [X4 _]. now specialize (X4 eq_refl).
    + rewrite F1, F0, X1. now destruct (b_mem b).
Qed.
(** Where the next write goes: in memory to the end, whatever happened before; in a
    body that has spilled to the place the last read or seek left. *)
Definition left_at (c : bs) (o : bop) (q : nat) : Prop :=
  match o with
  | BString => q = 0%nat
  | BRead n => q = Nat.min n (length c)
  | BWriteTo => q = length c
  | BSeek off wh => seek_origin wh c (Z.of_nat q - off)
  | BWrite _ _ => False
  end.
Lemma left_at_file : forall o b b1 ob q, b_readed b = false -> bstep o b = Ret (b1, ob) -> left_at (content b) o q ->
  b1 = set_file b (match b_file b with Some f => Some (TFile (f_data f) q) | None => None end).
Proof.
  intros o b b1 ob q R H L.
  assert (SF : b_file b = None -> set_file b None = b) by (intro F; unfold set_file; rewrite <- F; now destruct b).
  destruct o as [p ft| |n| |off wh]; cbn [bstep left_at] in H, L; [elim L| | | |].
  - subst q. unfold buf_string, init_read in H. rewrite R in H. destruct (b_file b) as [f|] eqn:F; cbn in H; injection H as <- _; cbn; [reflexivity|now rewrite SF].
  - subst q. unfold buf_read, init_read, content in *. rewrite R in H. destruct (b_file b) as [f|] eqn:F; cbn [set_file b_file f_data f_off] in H; rewrite ?F in H.
    + injection H as <- _. cbn [skipn]. unfold set_file. cbn. do 3 f_equal. apply firstn_length.
    + rewrite SF by reflexivity. destruct (b_mem b); now injection H as <- _.
  - subst q. unfold buf_write_to, init_read, content in *. rewrite R in H. destruct (b_file b) as [f|] eqn:F; cbn [set_file b_file f_data f_off] in H; rewrite ?F in H; injection H as <- _.
    + reflexivity.
    + now rewrite SF.
  - destruct (buf_seek off wh b) as [b' p] eqn:E. injection H as <- <-.
    destruct (C88_seek_moves_reader_partial _ _ _ _ _ R E) as (P & _). assert (Q : p = Some (Z.of_nat q)) by (apply P; split; [lia|exact L]). subst p. clear P L.
    unfold buf_seek, init_read in E. rewrite R in E. cbv zeta in E.
    destruct (b_file b) as [f|] eqn:F; cbn [set_file b_file f_data] in E; rewrite ?F in E;
      (destruct (if wh =? 0 then _ else _) as [z|]; [destruct (z + off <? 0)|]); try discriminate; injection E as <- E.
    + rewrite E, Nat2Z.id. reflexivity.
    + now rewrite SF.
Qed.
Theorem C88_next_write_partial : forall o b b1 ob q d b2 n, b_readed b = false ->
  bstep o b = Ret (b1, ob) -> left_at (content b) o q -> buf_write NoFault d b1 = Ret (b2, n, None) -> d <> [] ->
  (b_file b <> None -> content b2 = firstn q (content b) ++ repeat NUL (q - length (content b)) ++ d ++ skipn (q + length d) (content b)) /\
  (b_file b2 = None -> content b2 = content b ++ d).
Proof.
  intros o b b1 ob q d b2 n R H L W D. rewrite (left_at_file _ _ _ _ _ R H L) in W. clear H L. unfold buf_write in W. cbn [set_file b_readed b_filelimit b_len b_memlimit b_mem b_file] in W. rewrite R in W.
  destruct (b_filelimit b <? b_len b + zlen d); [discriminate|]. unfold content. destruct (b_file b) as [f|] eqn:F.
  - unfold finish_file_write in W. apply Ret_inj in W. injection W as <- _. cbn [set_len set_file b_file]. split; [|discriminate]. intros _.
    unfold file_write. destruct d as [|c d]; [easy|]. reflexivity.
  - split; [easy|]. destruct (b_memlimit b <? b_len b + zlen d).
    + destruct (b_memlimit b - b_len b <? 0); [discriminate|]. apply Ret_inj in W. unfold finish_file_write in W. injection W as <- _. discriminate.
    + apply Ret_inj in W. injection W as <- _. reflexivity.
Qed.
Example C88_example : exists b b1 b2, content b = B "abcdef" /\ b_file b <> None /\ b_readed b = false /\
  bstep (BSeek (-2) 2) b = Ret (b1, OSeek (Some 4)) /\ left_at (content b) (BSeek (-2) 2) 4 /\
  buf_write NoFault (B "XYZ") b1 = Ret (b2, 3, None) /\ content b2 = B "abcdXYZ".
Proof.
  exists (set_file (new_buffer 0 99) (Some (TFile (B "abcdef") 6))). eexists _, _. split; [reflexivity|]. split; [discriminate|]. split; [reflexivity|].
  split; [reflexivity|]. split; [right; right; split; reflexivity|]. split; reflexivity.
Qed.
Print Assumptions C88_seek_moves_reader_refuted.
Print Assumptions C88_seek_moves_reader_partial.
Print Assumptions C88_next_write_partial.

(** ** C91: false of the code: what a failing write reports is not what it stores. *)
Definition C91_claim : Prop := forall ft p b b' n e, b_readed b = false -> buf_write ft p b = Ret (b', n, Some e) ->
  content b' = content b ++ firstn (Z.to_nat n) p.
Theorem C91_failed_write_refuted :
  (exists m l os b obs, bruns os (new_buffer m l) = Ret (b, obs) /\
     obs = [OWrite 2 None; OWrite 0 (Some ErrOS)] /\ buf_len b = 2 /\ content b = B "abcd" /\
     buf_string b = (b, B "abcd", None)) /\
  (exists m l os b obs, bruns os (new_buffer m l) = Ret (b, obs) /\
     obs = [OWrite 2 None; OWrite 0 (Some ErrOS)] /\ buf_len b = 2 /\ content b = B "a").
Proof.
  split.
  - exists 4, 10, [BWrite (B "ab") NoFault; BWrite (B "cdef") TempFileFails]. eexists _, _.
    split; [vm_compute; reflexivity|]. repeat split.
  - exists 4, 10, [BWrite (B "ab") NoFault; BWrite (B "cdef") (FirstWriteFails 1)]. eexists _, _.
    split; [vm_compute; reflexivity|]. repeat split.
Qed.
(** What a write that hits a file-system failure leaves.  [room] is the memory that
    was left. *)
Inductive after_failure (b : buffer) (p : bs) : wfault -> bs -> bs -> option berr -> Z -> Prop :=
| af_temp : forall room, b_file b = None -> 0 <= room -> room = b_memlimit b - buf_len b -> room < Z.of_nat (length p) ->
    (* no file: what fits is kept in memory though nothing is reported *)
    after_failure b p TempFileFails (b_mem b ++ firstn (Z.to_nat room) p) (b_mem b ++ firstn (Z.to_nat room) p) None 0
| af_copy : forall room k, b_file b = None -> 0 <= room -> room = b_memlimit b - buf_len b -> room < Z.of_nat (length p) ->
    (* the file holds only the beginning of the memory *)
    after_failure b p (FirstWriteFails k) (firstn k (b_mem b ++ firstn (Z.to_nat room) p))
      (b_mem b ++ firstn (Z.to_nat room) p) (Some ErrOutOfMemLimit) 0
| af_spill : forall room k, b_file b = None -> 0 <= room -> room = b_memlimit b - buf_len b -> room < Z.of_nat (length p) ->
    (* the part that fits and then the part that was written *)
    after_failure b p (WriteFails k) (b_mem b ++ firstn (Z.to_nat room) p ++ firstn k p)
      (b_mem b ++ firstn (Z.to_nat room) p) (Some ErrOutOfMemLimit) (Z.of_nat (Nat.min k (length p)))
| af_file : forall f k, b_file b = Some f ->
    (* in a file: the first [k] bytes, at the position of the file *)
    after_failure b p (WriteFails k)
      (match firstn k p with [] => f_data f | q => firstn (f_off f) (f_data f) ++ repeat NUL (f_off f - length (f_data f)) ++ q ++
         skipn (f_off f + length q) (f_data f) end)
      (b_mem b) (Some ErrOutOfMemLimit) (Z.of_nat (Nat.min k (length p))).
Theorem C91_failed_write_partial : forall ft p b b' n, b_readed b = false -> buf_write ft p b = Ret (b', n, Some ErrOS) ->
  after_failure b p ft (snd (buf_write_to b')) (snd (fst (buf_string b'))) (snd (buf_string b')) n /\
  buf_len b' = buf_len b + n /\ b_readed b' = false.
Proof.
  intros ft p b b' n R H. unfold buf_write in H. rewrite R in H.
  destruct (b_filelimit b <? b_len b + zlen p) eqn:L; [discriminate|].
  assert (ZL : zlen p = Z.of_nat (length p)) by reflexivity.
  destruct (b_file b) as [f|] eqn:F.
  - apply Ret_inj in H. unfold finish_file_write in H. destruct ft; try discriminate. injection H as <- <-.
    unfold buf_write_to, buf_string, init_read, buf_len. cbn [set_len set_file b_file b_readed b_len b_mem]. rewrite R. cbn [set_file b_file b_mem f_data f_off skipn fst snd].
    split; [|split; [reflexivity|reflexivity]].
    unfold zlen. rewrite firstn_length. 
    replace (f_data (file_write f (firstn n0 p))) with (match firstn n0 p with [] => f_data f | q => firstn (f_off f) (f_data f) ++ repeat NUL (f_off f - length (f_data f)) ++ q ++
         skipn (f_off f + length q) (f_data f) end) by (unfold file_write; now destruct (firstn n0 p)).
    apply (af_file b p f n0 F).
  - destruct (b_memlimit b <? b_len b + zlen p) eqn:M; [|discriminate].
    destruct (b_memlimit b - b_len b <? 0) eqn:K; [discriminate|].
    assert (R1 : 0 <= b_memlimit b - buf_len b) by (unfold buf_len; lia).
    assert (R2 : b_memlimit b - buf_len b < Z.of_nat (length p)) by (unfold buf_len; lia).
    set (rm := firstn (Z.to_nat (b_memlimit b - b_len b)) p) in *.
    destruct ft; apply Ret_inj in H.
    + discriminate.
    + injection H as <- <-. unfold buf_write_to, buf_string, init_read, buf_len. cbn [set_mem b_readed]. rewrite R. cbn [set_mem b_file b_mem fst snd b_len]. rewrite F.
      cbn [set_mem b_file]. rewrite F. cbn [fst snd b_mem set_mem]. split; [|split; [lia|reflexivity]]. now apply (af_temp b p _ F R1 eq_refl).
    + injection H as <- <-. unfold buf_write_to, buf_string, init_read, buf_len. cbn [set_mem set_file b_readed b_file]. rewrite R. cbn [set_mem set_file b_file b_mem fst snd b_len f_data f_off skipn].
      split; [|split; [lia|reflexivity]].
      replace (f_data (file_write (TFile [] 0) (firstn n0 (b_mem b ++ rm)))) with (firstn n0 (b_mem b ++ rm)).
      * now apply (af_copy b p _ n0 F R1 eq_refl).
      * pose proof (file_write_end [] (firstn n0 (b_mem b ++ rm))) as E. cbn in E. rewrite E. reflexivity.
    + unfold finish_file_write in H. injection H as <- <-. unfold buf_write_to, buf_string, init_read, buf_len. cbn [set_len set_mem set_file b_readed b_file]. rewrite R. cbn [set_mem set_file set_len b_file b_mem fst snd b_len f_data f_off skipn].
      split; [|split; [reflexivity|reflexivity]].
      pose proof (file_write_end [] (b_mem b ++ rm)) as E. cbn in E. rewrite E.
      rewrite file_write_end. cbn [f_data]. unfold zlen. rewrite firstn_length, <- app_assoc.
      now apply (af_spill b p _ n0 F R1 eq_refl).
Qed.
Example C91_example : exists b b', content b = B "abc" /\ b_readed b = false /\
  buf_write (WriteFails 2) (B "defg") b = Ret (b', 2, Some ErrOS) /\ snd (buf_write_to b') = B "abcdde" /\ buf_len b' = 5.
Proof.
  exists (Buffer 3 4 99 (B "abc") None false). eexists. repeat split.
Qed.
Print Assumptions C91_failed_write_refuted.
Print Assumptions C91_failed_write_partial.

(** ** C92: false of the code: a buffer that never spilled cannot be closed. *)
Definition C92_claim : Prop := forall m l os b obs, bruns os (new_buffer m l) = Ret (b, obs) ->
  buf_close false false b = Ret (None, true).
Theorem C92_close_refuted : exists m l os b obs, bruns os (new_buffer m l) = Ret (b, obs) /\
  obs = [OWrite 2 None; ORead (B "ab") false] /\ forall x y, buf_close x y b = Panic.
Proof. exists 4, 10, [BWrite (B "ab") NoFault; BRead 5]. eexists _, _. split; [vm_compute; reflexivity|]. repeat split. Qed.
(** It panics exactly if [String] reports no error; otherwise the file is removed
    unless removing fails, and the first error is reported. *)
Theorem C92_close_partial : forall m l os b obs cf rf, bruns os (new_buffer m l) = Ret (b, obs) ->
  (buf_close cf rf b = Panic <-> snd (buf_string b) = None) /\
  (forall e gone, buf_close cf rf b = Ret (e, gone) ->
     (gone = true <-> rf = false) /\
     (e = None <-> cf = false /\ rf = false) /\ (e = Some CloseError <-> cf = true) /\ (e = Some RemoveError <-> cf = false /\ rf = true)).
Proof.
  intros m l os b obs cf rf H. split.
  - unfold buf_close, buf_string, init_read. destruct (b_readed b), (b_file b) as [f|] eqn:F; cbn; rewrite ?F; split; congruence.
  - intros e gone C. unfold buf_close in C. destruct (b_file b); [|discriminate]. apply Ret_inj in C. injection C as <- <-.
    destruct cf, rf; cbn; intuition congruence.
Qed.
Theorem C92_spilled_bodies_close_partial : forall m l os, 0 <= m -> fault_free os -> m < Z.of_nat (length (stream l os)) ->
  exists b obs, bruns os (new_buffer m l) = Ret (b, obs) /\ buf_close false false b = Ret (None, true).
Proof.
  intros m l os M FF S. destruct (C47_spilled_prefix m l os M FF) as (b & obs & R & _ & A & _).
  exists b, obs. split; [exact R|]. destruct (A S) as [_ E].
  destruct (C92_close_partial m l os b obs false false R) as [P _].
  unfold buf_close in *. destruct (b_file b); [reflexivity|]. rewrite (proj1 P eq_refl) in E. discriminate.
Qed.
Example C92_example : fault_free [BWrite (B "abc") NoFault; BString] /\ 2 < Z.of_nat (length (stream 9 [BWrite (B "abc") NoFault; BString])).
Proof. split; [|reflexivity]. intros p ft I. simpl in I. intuition congruence. Qed.
Print Assumptions C92_close_refuted.
Print Assumptions C92_close_partial.
Print Assumptions C92_spilled_bodies_close_partial.
