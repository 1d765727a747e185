(** URLs and header maps that the program keeps and changes: C41, C71, C72. *)
From Verif Require Import Base BaseFacts GoStrings Buffer BufferFacts Types Transforms Operators Transaction Variables Rules Engine Scanner Loader
  SpecRules LoadFacts SpecVars VarFacts RuleFacts SpecTxn TxnFacts LoopFacts OrderFacts PropText PropVars PropRules PropPhases PropTxn PropGate SpecData PropData LoadFacts World SpecWorld PropWorld
  Held SpecHeld Witness.
From Coq Require Import ZifyBool.

(** ** Objects *)
Lemma put_put : forall A n (x y : A) l, put n x (put n y l) = put n x l.
Proof. intros A. induction n as [|n IH]; intros x y [|z l]; cbn; try reflexivity. now rewrite IH. Qed.
Lemma put_id : forall A n (x : A) l, nth_error l n = Some x -> put n x l = l.
Proof. intros A. induction n as [|n IH]; intros x [|z l] H; cbn in *; try discriminate; [now injection H as ->|]. now rewrite IH. Qed.
Lemma put_length : forall A n (x : A) l, length (put n x l) = length l.
Proof. intros A. induction n as [|n IH]; intros x [|z l]; cbn; try reflexivity. now rewrite IH. Qed.

Lemma hcall_inv : forall f O k g o w w1 b, hcall f O k g o w = Ret (w1, b) ->
  exists h x e rs t' ob, nth_error (hw_holds w) k = Some h /\ nth_error (w_txns (hw_world w)) k = Some x /\
    nth_error (w_engs (hw_world w)) (ht_eng x) = Some e /\ nth_error (w_sets (hw_world w)) (ht_set x) = Some rs /\
    step f O (he_conf e) rs o (refresh (g h) (hw_urls w) (hw_heads w) (ht_txn x)) = Ret (t', ob) /\
    w1 = HWorld (put_txn k (HTxn (ht_eng x) (ht_set x) t') (hw_world w)) (hw_urls w) (hw_heads w) (put k (g h) (hw_holds w)) /\
    b = WAnswer ob.
Proof.
  intros f O k g o w w1 b H. unfold hcall in H. apply bind_Ret in H as (h & H1 & H). apply bind_Ret in H as (x & H2 & H).
  apply deref_Ret in H1, H2. apply bind_Ret in H as ([w' b'] & H3 & H). inv_Ret H.
  apply call_inv in H3 as (h' & e & rs & t' & ob & X1 & X2 & X3 & X4 & -> & ->).
  unfold put_txn in X1 at 1. cbn [w_txns] in X1. rewrite put_same in X1 by (eapply nth_lt; eauto). injection X1 as <-.
  cbn [ht_eng ht_set ht_txn put_txn w_engs w_sets w_dires w_txns] in *.
  exists h, x, e, rs, t', ob. repeat split; auto. unfold put_txn. cbn [w_engs w_sets w_dires w_txns]. now rewrite put_put.
Qed.
(** Each operation on a transaction is such a call. *)
Definition holding (o : hop) : hold -> hold :=
  match o with
  | HDo (WCall _ c) => lets_go c
  | HGiveURL _ i _ _ => fun h => Hold (Some i) (h_req h) (h_res h)
  | HGiveRequest _ i => fun h => Hold (h_url h) (Some i) (h_res h)
  | HGiveResponse _ _ _ i => fun h => Hold (h_url h) (h_req h) (Some i)
  | _ => fun h => h
  end.
Lemma call_eq : forall f O o k w c, amounts_to w o k c -> hstep f O o w = hcall f O k (holding o) c w.
Proof. intros f O o k w c H. destruct H; cbn [hstep holding]; unfold deref; rewrite ?H; reflexivity. Qed.
Lemma on_call : forall f O o k w w1 b, on o = Some k -> hstep f O o w = Ret (w1, b) ->
  exists c, amounts_to w o k c /\ hcall f O k (holding o) c w = Ret (w1, b).
Proof.
  intros f O o k w w1 b E H.
  assert (A : exists c, amounts_to w o k c).
  { destruct o as [o| | | | |k' i m p|k' i|k' c p i]; try discriminate E.
    - destruct o; try discriminate E. injection E as ->. eexists. constructor.
    - injection E as ->. cbn [hstep] in H. apply bind_Ret in H as (u & H1 & H). apply deref_Ret in H1. eexists. constructor. exact H1.
    - injection E as ->. cbn [hstep] in H. apply bind_Ret in H as (u & H1 & H). apply deref_Ret in H1. eexists. constructor. exact H1.
    - injection E as ->. cbn [hstep] in H. apply bind_Ret in H as (u & H1 & H). apply deref_Ret in H1. eexists. constructor. exact H1. }
  destruct A as (c & A). exists c. split; [exact A|]. now rewrite <- (call_eq f O o k w c A).
Qed.

(** ** C41: sharing objects does not let transactions influence one another *)
Definition hview (k : nat) (w w' : hworld) : Prop :=
  view k (hw_world w) (hw_world w') /\ hw_urls w = hw_urls w' /\ hw_heads w = hw_heads w' /\
  length (hw_holds w) = length (hw_holds w') /\ nth_error (hw_holds w) k = nth_error (hw_holds w') k.
Lemma hview_refl : forall k w, hview k w w.
Proof. intros. split; [apply view_refl|]. now repeat split. Qed.
Lemma hview_sym : forall k w w', hview k w w' -> hview k w' w.
Proof. intros k w w' (A & B & C & D & E). split; [now apply view_sym|]. repeat split; congruence. Qed.
Lemma hview_trans : forall k a b c, hview k a b -> hview k b c -> hview k a c.
Proof. intros k a b c (A & B & C & D & E) (A' & B' & C' & D' & E'). split; [eapply view_trans; eauto|]. repeat split; congruence. Qed.
Lemma other_view : forall f O k o w w1 b, on_other k o = true -> hstep f O o w = Ret (w1, b) -> hview k w1 w.
Proof.
  intros f O k o w w1 b N H. unfold on_other in N. destruct (on o) as [k'|] eqn:E; [|discriminate].
  apply Bool.negb_true_iff, Nat.eqb_neq in N. destruct (on_call _ _ _ _ _ _ _ E H) as (c & _ & H').
  apply hcall_inv in H' as (h & x & e & rs & t' & ob & X1 & X2 & X3 & X4 & X5 & -> & ->).
  unfold hview. cbn [hw_world hw_urls hw_heads hw_holds]. split.
  - repeat split; cbn; try reflexivity.
    + unfold pointers. cbn [put_txn w_txns]. eapply put_map; [exact X2|reflexivity].
    + now apply put_other.
  - repeat split; [apply put_length|now apply put_other].
Qed.
Lemma hcall_view : forall f O k g c w w' w1 b, hview k w w' -> hcall f O k g c w = Ret (w1, b) ->
  exists w1', hcall f O k g c w' = Ret (w1', b) /\ hview k w1 w1'.
Proof.
  intros f O k g c w w' w1 b (A & B & C & D & E) H. unfold hcall in *.
  apply bind_Ret in H as (h & H1 & H). apply bind_Ret in H as (x & H2 & H). apply bind_Ret in H as ([w2 b'] & H3 & H). inv_Ret H.
  apply deref_Ret in H1, H2. pose proof A as (A1 & A2 & A3 & A4 & A5).
  unfold deref. rewrite <- E, H1. cbn [bind]. rewrite <- A5, H2. cbn [bind]. rewrite <- B, <- C.
  set (y := HTxn _ _ _) in *.
  destruct (view_step f O k (WCall k c) (put_txn k y (hw_world w)) (put_txn k y (hw_world w')) w2 b') as (w2' & E2 & V2).
  - cbn [by_others]. now rewrite Nat.eqb_refl.
  - repeat split; cbn; try assumption.
    + unfold pointers in *. cbn [put_txn w_txns]. rewrite (put_map _ _ _ _ _ _ x), (put_map _ _ _ _ _ _ x); auto; congruence.
    + rewrite !put_same; [reflexivity| |]; eapply nth_lt; [rewrite <- A5|]; exact H2.
  - exact H3.
  - rewrite E2. cbn [bind]. eexists. split; [reflexivity|]. split; [exact V2|]. cbn [hw_urls hw_heads hw_holds].
    repeat split; auto; [now rewrite !put_length|]. rewrite !put_same; [reflexivity| |]; eapply nth_lt; [rewrite <- E|]; exact H1.
Qed.
Lemma pad_nth : forall n l l' k, length l = length l' -> nth_error l k = nth_error l' k -> nth_error (pad n l) k = nth_error (pad n l') k.
Proof.
  intros n l l' k L E. unfold pad. rewrite L. destruct (Nat.lt_ge_cases k (length l')) as [G|G].
  - rewrite !nth_error_app1 by lia. exact E.
  - rewrite !nth_error_app2 by lia. now rewrite L.
Qed.
Lemma pad_length : forall n l, length (pad n l) = Nat.max n (length l).
Proof. intros. unfold pad. rewrite app_length, repeat_length. lia. Qed.
Lemma own_view : forall f O k o w w' w1 b, on_other k o = false -> hview k w w' -> hstep f O o w = Ret (w1, b) ->
  exists w1', hstep f O o w' = Ret (w1', b) /\ hview k w1 w1'.
Proof.
  intros f O k o w w' w1 b N V H. pose proof V as (A & B & C & D & E).
  assert (P : forall o, by_others k o = false ->
    forall r, ('(w', b) <- wstep f O o (hw_world w) ;; Ret (HWorld w' (hw_urls w) (hw_heads w) (pad (length (w_txns w')) (hw_holds w)), b)) = Ret r ->
    exists w1', ('(w'', b) <- wstep f O o (hw_world w') ;; Ret (HWorld w'' (hw_urls w') (hw_heads w') (pad (length (w_txns w'')) (hw_holds w')), b)) = Ret (w1', snd r) /\ hview k (fst r) w1').
  { clear - A B C D E. intros o N r H. apply bind_Ret in H as ([w2 b] & H1 & H). apply Ret_inj in H as <-.
    destruct (view_step _ _ _ _ _ _ _ _ N A H1) as (w2' & E2 & V2). rewrite E2. cbn [bind fst snd]. eexists. split; [reflexivity|].
    split; [exact V2|]. cbn [hw_urls hw_heads hw_holds]. pose proof (view_length _ _ _ V2) as L. rewrite L. repeat split; auto.
    - now rewrite !pad_length, D.
    - now apply pad_nth. }
  destruct o as [o|u|h|i u|i h|k' i m p|k' i|k' c p i].
  - destruct o as [| | | | | | | | | | | | |k' o];
      try (match type of H with hstep _ _ (HDo ?c) _ = _ => exact (P c eq_refl _ H) end).
    unfold on_other in N. cbn [on] in N. apply Bool.negb_false_iff, Nat.eqb_eq in N as ->. cbn [hstep] in *. eapply hcall_view; eauto.
  - inv_Ret H. cbn [hstep]. rewrite <- B. eexists. split; [reflexivity|]. split; [exact A|]. cbn. repeat split; congruence.
  - inv_Ret H. cbn [hstep]. rewrite <- C. eexists. split; [reflexivity|]. split; [exact A|]. cbn. repeat split; congruence.
  - cbn [hstep] in *. apply bind_Ret in H as (y & H1 & H). inv_Ret H. rewrite <- B, H1. cbn [bind]. eexists. split; [reflexivity|].
    split; [exact A|]. cbn. repeat split; congruence.
  - cbn [hstep] in *. apply bind_Ret in H as (y & H1 & H). inv_Ret H. rewrite <- C, H1. cbn [bind]. eexists. split; [reflexivity|].
    split; [exact A|]. cbn. repeat split; congruence.
  - unfold on_other in N. cbn [on] in N. apply Bool.negb_false_iff, Nat.eqb_eq in N as ->. cbn [hstep] in *.
    apply bind_Ret in H as (y & H1 & H). rewrite <- B, H1. cbn [bind]. eapply hcall_view; eauto.
  - unfold on_other in N. cbn [on] in N. apply Bool.negb_false_iff, Nat.eqb_eq in N as ->. cbn [hstep] in *.
    apply bind_Ret in H as (y & H1 & H). rewrite <- C, H1. cbn [bind]. eapply hcall_view; eauto.
  - unfold on_other in N. cbn [on] in N. apply Bool.negb_false_iff, Nat.eqb_eq in N as ->. cbn [hstep] in *.
    apply bind_Ret in H as (y & H1 & H). rewrite <- C, H1. cbn [bind]. eapply hcall_view; eauto.
Qed.
Lemma halone_view : forall f O k os w w' w1 bl, hview k w w' -> hrun f O os w = Ret (w1, bl) ->
  exists w1' bl', hrun f O (halone k os) w' = Ret (w1', bl') /\ hview k w1 w1' /\ hheard k os bl = hheard k (halone k os) bl'.
Proof.
  intros f O k os. induction os as [|o os IH]; intros w w' w1 bl V H.
  - inv_Ret H. exists w', []. split; [reflexivity|]. split; [exact V|reflexivity].
  - cbn [hrun] in H. apply bind_Ret in H as ([w2 b] & H1 & H). apply bind_Ret in H as ([w3 bl2] & H2 & H). inv_Ret H.
    unfold halone. cbn [List.filter]. fold (halone k os). destruct (on_other k o) eqn:N; cbn [negb].
    + destruct (IH w2 w' w3 bl2) as (w1' & bl' & E & V' & HH); [eapply hview_trans; [eapply other_view; eauto|exact V]|exact H2|].
      exists w1', bl'. split; [exact E|]. split; [exact V'|]. rewrite <- HH. cbn [hheard]. unfold on_other in N.
      destruct (on o) as [k'|]; [|discriminate]. apply Bool.negb_true_iff in N. now rewrite N.
    + destruct (own_view _ _ _ _ _ _ _ _ N V H1) as (w2' & E1 & V1).
      destruct (IH w2 w2' w3 bl2 V1 H2) as (w1' & bl' & E & V' & HH).
      exists w1', (b :: bl'). split; [cbn [hrun]; rewrite E1; cbn [bind]; now rewrite E|]. split; [exact V'|].
      cbn [hheard]. rewrite HH. reflexivity.
Qed.
(** Whatever a program does with other transactions, and whatever URLs and header maps it
    has handed to several of them, transaction [k] gets the answers, and looks as, if none
    of the calls on the others were made; only what the program itself writes counts. *)
Theorem C41_sharing_data_does_not_matter : forall f O k os w w1 bl, hrun f O os w = Ret (w1, bl) ->
  exists w1' bl', hrun f O (halone k os) w = Ret (w1', bl') /\ hheard k os bl = hheard k (halone k os) bl' /\
    (forall e j s, looks k w1 e j s <-> looks k w1' e j s) /\
    hw_urls w1 = hw_urls w1' /\ hw_heads w1 = hw_heads w1' /\
    w_engs (hw_world w1) = w_engs (hw_world w1') /\ w_sets (hw_world w1) = w_sets (hw_world w1').
Proof.
  intros f O k os w w1 bl H. destruct (halone_view f O k os w w w1 bl (hview_refl k w) H) as (w1' & bl' & E & V & HH).
  pose proof V as ((A & B & C & D & F) & G & I & J & K). exists w1', bl'. split; [exact E|]. split; [exact HH|].
  split; [|repeat split; auto]. intros e j s. split; intro L; destruct L as [h x X1 X2].
  - rewrite G, I. constructor; congruence.
  - rewrite <- G, <- I. constructor; congruence.
Qed.
(** Nobody but the program writes into its objects. *)
Theorem C41_calls_leave_objects_alone : forall f O o k w w1 b, on o = Some k -> hstep f O o w = Ret (w1, b) ->
  hw_urls w1 = hw_urls w /\ hw_heads w1 = hw_heads w.
Proof.
  intros f O o k w w1 b E H. destruct (on_call _ _ _ _ _ _ _ E H) as (c & _ & H').
  apply hcall_inv in H' as (h & x & e & rs & t' & ob & _ & _ & _ & _ & _ & -> & _). now split.
Qed.

(** ** C71, C72: the rules see the present contents of what was handed over last *)
Lemma last_given_new : forall A (kind : hop -> option A) d os o x, kind o = Some x -> last_given kind d (os ++ [o]) x.
Proof. intros A kind d os o x H. left. exists os, o, []. repeat split; [exact H|]. intros o' []. Qed.
Lemma last_given_old : forall A (kind : hop -> option A) d os o x, kind o = None -> last_given kind d os x -> last_given kind d (os ++ [o]) x.
Proof.
  intros A kind d os o x H [(os1 & o1 & os2 & -> & K & N)|[N ->]].
  - left. exists os1, o1, (os2 ++ [o]). split; [now rewrite <- app_assoc|]. split; [exact K|]. intros o' I.
    apply in_app_or in I as [I|[<-|[]]]; auto.
  - right. split; [|reflexivity]. intros o' I. apply in_app_or in I as [I|[<-|[]]]; auto.
Qed.
Lemma hrun_app : forall f O a b w w2 bl, hrun f O (a ++ b) w = Ret (w2, bl) ->
  exists w1 bl1 bl2, hrun f O a w = Ret (w1, bl1) /\ hrun f O b w1 = Ret (w2, bl2) /\ bl = bl1 ++ bl2.
Proof.
  intros f O a. induction a as [|o a IH]; intros b w w2 bl H.
  - exists w, [], bl. now repeat split.
  - cbn [hrun app] in H. apply bind_Ret in H as ([w1 b1] & H1 & H). apply bind_Ret in H as ([w3 bl3] & H2 & H). inv_Ret H.
    destruct (IH _ _ _ _ H2) as (w1' & bl1 & bl2 & E1 & E2 & ->). exists w1', (b1 :: bl1), bl2. split; [|split; [exact E2|reflexivity]].
    cbn [hrun]. rewrite H1. cbn [bind]. now rewrite E1.
Qed.
(** How transactions come about. *)
Lemma plain_txns : forall f O o w w1 b, (forall k c, o <> WCall k c) -> wstep f O o w = Ret (w1, b) ->
  w_txns w1 = w_txns w \/ exists i j e, w_txns w1 = w_txns w ++ [HTxn i j (new_txn e)].
Proof.
  intros f O o w w1 b N H.
  assert (C : forall i g w w1, with_conf i g w = Ret w1 -> w_txns w1 = w_txns w).
  { clear. intros i g w w1 H. unfold with_conf in H. apply bind_Ret in H as (x & _ & H). apply Ret_inj in H as <-. reflexivity. }
  assert (R : forall i r w w1, w_add_sec_rule i r w = Ret w1 -> w_txns w1 = w_txns w).
  { clear. intros i r w w1 H. unfold w_add_sec_rule in H. apply bind_Ret in H as (x & _ & H). destruct (he_set x); [|discriminate].
    apply bind_Ret in H as (rs & _ & H). apply Ret_inj in H as <-. reflexivity. }
  assert (T : forall dir i j w1 b, w_new_transaction dir i j w = Ret (w1, b) ->
    w_txns w1 = w_txns w \/ exists i j e, w_txns w1 = w_txns w ++ [HTxn i j (new_txn e)]).
  { clear. intros dir i j w1 b H. unfold w_new_transaction in H.
    destruct i; [|inv_Ret H; now left]. destruct j; [|inv_Ret H; now left].
    apply bind_Ret in H as (x & _ & H). apply bind_Ret in H as (y & _ & H). destruct dir; inv_Ret H; [|now left].
    right. cbn. eauto. }
  destruct o; cbn [wstep] in H.
  - inv_Ret H. now left.
  - inv_Ret H. now left.
  - apply bind_Ret in H as (w2 & H1 & H). inv_Ret H. apply bind_Ret in H1 as (x & _ & H1). apply Ret_inj in H1 as <-. now left.
  - apply bind_Ret in H as (w2 & H1 & H). inv_Ret H. left. eauto.
  - apply bind_Ret in H as (w2 & H1 & H). inv_Ret H. left. eauto.
  - apply bind_Ret in H as (w2 & H1 & H). inv_Ret H. left. eauto.
  - apply bind_Ret in H as (w2 & H1 & H). inv_Ret H. apply bind_Ret in H1 as (x & _ & H1). apply Ret_inj in H1 as <-. now left.
  - apply bind_Ret in H as (w2 & H1 & H). inv_Ret H. apply bind_Ret in H1 as (x & _ & H1). apply Ret_inj in H1 as <-. now left.
  - inv_Ret H. now left.
  - apply bind_Ret in H as (ds & _ & H). apply bind_Ret in H as ([ds' ok] & _ & H). inv_Ret H. now left.
  - apply bind_Ret in H as (w2 & H1 & H). inv_Ret H. apply bind_Ret in H1 as (ds & _ & H1). left.
    clear - C R H1. revert w H1. induction ds as [|[r|v|v|v] ds IH]; intros w H; cbn [w_execute] in H;
        [apply Ret_inj in H as <-; reflexivity| | | |]; apply bind_Ret in H as (w3 & H1 & H);
        rewrite (IH _ H); eauto.
  - apply bind_Ret in H as (x & _ & H). eapply T; eauto.
  - eapply T; eauto.
  - exfalso. eapply N. reflexivity.
Qed.
(** What a call leaves in the data of a transaction. *)
Lemma step_data : forall f O e rs o t t' b, Engine.step f O e rs o t = Ret (t', b) -> alike (given o t) t'.
Proof.
  intros f O e rs o t t' b H. destruct (op_phase o) as [p|] eqn:P.
  - rewrite (step_phase _ _ _ _ _ _ _ P) in H. apply bind_Ret in H as (u & H1 & H). inv_Ret H. now apply phase_alike in H1.
  - destruct o; try discriminate P; cbn [Engine.step] in H.
    all: try (apply bind_Ret in H as ([[bf n] r] & H1 & H)); try destruct (result t) eqn:R; inv_Ret H; try (now split).
    all: unfold result, touch_iv in *; destruct (t_iv t); cbn in *; try (destruct (t_abort t)); try (injection R as <- <-); try (now split).
Qed.

Inductive points {A} (n : nat) : option nat -> datum A -> A -> Prop :=
| po_value : forall a, points n None (ByValue a) a
| po_object : forall i a, (i < n)%nat -> points n (Some i) (Object i) a.
Definition kept (k : nat) (os : list hop) (w : hworld) : Prop :=
  forall h x, nth_error (hw_holds w) k = Some h -> nth_error (w_txns (hw_world w)) k = Some x ->
  last_given (connection_given k) ([], [], [], []) os (t_srcip (ht_txn x), t_srcport (ht_txn x), t_dstip (ht_txn x), t_dstport (ht_txn x)) /\
  (exists d m p, last_given (url_given k) (ByValue None, [], []) os (d, m, p) /\
     points (length (hw_urls w)) (h_url h) d (t_url (ht_txn x)) /\ t_method (ht_txn x) = m /\ t_reqproto (ht_txn x) = p) /\
  (exists d, last_given (request_given k) (ByValue []) os d /\ points (length (hw_heads w)) (h_req h) d (t_reqheader (ht_txn x))) /\
  (exists c p d, last_given (response_given k) (0, [], ByValue []) os (c, p, d) /\
     t_code (ht_txn x) = c /\ t_resproto (ht_txn x) = p /\ points (length (hw_heads w)) (h_res h) d (t_resheader (ht_txn x))).
(** All transactions, and calls only on those that are there. *)
Definition in_order (os : list hop) (w : hworld) : Prop :=
  length (hw_holds w) = length (w_txns (hw_world w)) /\
  (forall o k, In o os -> on o = Some k -> (k < length (w_txns (hw_world w)))%nat) /\
  forall k, kept k os w.
Lemma points_grow : forall A n n' i (d : datum A) a, (n <= n')%nat -> points n i d a -> points n' i d a.
Proof. intros A n n' i d a L P. destruct P; constructor. lia. Qed.
Lemma points_url : forall us i d u u', points (length us) i d u -> u' = read_url i us u -> points (length us) i d u'.
Proof. intros us i d u u' P ->. destruct P; cbn [read_url]; constructor; assumption. Qed.
Lemma points_head : forall hs i d u u', points (length hs) i d u -> u' = read_head i hs u -> points (length hs) i d u'.
Proof. intros us i d u u' P ->. destruct P; cbn [read_head]; constructor; assumption. Qed.
Lemma given_refresh_url : forall o k o', url_given k o = None -> forall w, amounts_to w o k o' -> forall h us hs t,
  h_url (holding o h) = h_url h /\ t_url (given o' (refresh (holding o h) us hs t)) = read_url (h_url h) us (t_url t) /\
  t_method (given o' (refresh (holding o h) us hs t)) = t_method t /\ t_reqproto (given o' (refresh (holding o h) us hs t)) = t_reqproto t.
Proof.
  intros o k o' N w A h us hs t. destruct A; cbn [url_given] in N; rewrite ?Nat.eqb_refl in N; try discriminate; try (now repeat split).
  destruct o; cbn [url_given] in N; rewrite ?Nat.eqb_refl in N; try discriminate; now repeat split.
Qed.
Lemma given_refresh_req : forall o k o', request_given k o = None -> forall w, amounts_to w o k o' -> forall h us hs t,
  h_req (holding o h) = h_req h /\ t_reqheader (given o' (refresh (holding o h) us hs t)) = read_head (h_req h) hs (t_reqheader t).
Proof.
  intros o k o' N w A h us hs t. destruct A; cbn [request_given] in N; rewrite ?Nat.eqb_refl in N; try discriminate; try (now repeat split).
  destruct o; cbn [request_given] in N; rewrite ?Nat.eqb_refl in N; try discriminate; now repeat split.
Qed.
Lemma given_refresh_res : forall o k o', response_given k o = None -> forall w, amounts_to w o k o' -> forall h us hs t,
  h_res (holding o h) = h_res h /\ t_resheader (given o' (refresh (holding o h) us hs t)) = read_head (h_res h) hs (t_resheader t) /\
  t_code (given o' (refresh (holding o h) us hs t)) = t_code t /\ t_resproto (given o' (refresh (holding o h) us hs t)) = t_resproto t.
Proof.
  intros o k o' N w A h us hs t. destruct A; cbn [response_given] in N; rewrite ?Nat.eqb_refl in N; try discriminate; try (now repeat split).
  destruct o; cbn [response_given] in N; rewrite ?Nat.eqb_refl in N; try discriminate; now repeat split.
Qed.
Lemma kept_call : forall f O k o c os w w1 b, amounts_to w o k c -> hcall f O k (holding o) c w = Ret (w1, b) ->
  kept k os w -> kept k (os ++ [o]) w1.
Proof.
  intros f O k o c os w w1 b A H K h1 x1 Q1 Q2. apply hcall_inv in H as (h & x & e & rs & t' & ob & X1 & X2 & _ & _ & X5 & -> & ->).
  destruct (K h x X1 X2) as (L0 & (d & m & p & L1 & P1 & M1 & M2) & (d2 & L2 & P2) & (c3 & p3 & d3 & L3 & C3 & C4 & P3)). clear K.
  cbn [hw_holds hw_world put_txn w_txns hw_urls hw_heads] in *. rewrite put_same in Q1, Q2 by (eapply nth_lt; eauto).
  injection Q1 as <-. injection Q2 as <-. cbn [ht_txn]. apply step_data in X5 as [D1 D2]. unfold request_part in D1. unfold response_part in D2.
  injection D1 as A1 A2 A3 A4 E1 E2 E3 E4. injection D2 as F1 F2 F3. rewrite A1, A2, A3, A4, E1, E2, E3, E4, F1, F2, F3.
  clear A1 A2 A3 A4 E1 E2 E3 E4 F1 F2 F3.
  split; [|split; [|split]].
  - destruct (connection_given k o) as [q|] eqn:G.
    + destruct A; try discriminate G. destruct o; try discriminate G. cbn [connection_given] in G. rewrite Nat.eqb_refl in G.
      injection G as <-. apply last_given_new. cbn. now rewrite Nat.eqb_refl.
    + apply last_given_old; [exact G|]. destruct A; try exact L0. destruct o; try exact L0. cbn in G. rewrite Nat.eqb_refl in G. discriminate.
  - destruct (url_given k o) as [[[d' m'] p']|] eqn:G.
    + exists d', m', p'. split; [now apply last_given_new|]. destruct A; cbn [url_given] in G.
      * destruct o; try discriminate. rewrite Nat.eqb_refl in G. injection G as <- <- <-. repeat split; constructor.
      * rewrite Nat.eqb_refl in G. injection G as <- <- <-. repeat split. constructor. eapply nth_lt; eauto.
      * discriminate.
      * discriminate.
    + exists d, m, p. split; [now apply last_given_old|].
      destruct (given_refresh_url o k c G w A h (hw_urls w) (hw_heads w) (ht_txn x)) as (-> & -> & -> & ->).
      split; [eapply points_url; eauto|now split].
  - destruct (request_given k o) as [d'|] eqn:G.
    + exists d'. split; [now apply last_given_new|]. destruct A; cbn [request_given] in G.
      * destruct o; try discriminate. rewrite Nat.eqb_refl in G. injection G as <-. constructor.
      * discriminate.
      * rewrite Nat.eqb_refl in G. injection G as <-. constructor. eapply nth_lt; eauto.
      * discriminate.
    + exists d2. split; [now apply last_given_old|].
      destruct (given_refresh_req o k c G w A h (hw_urls w) (hw_heads w) (ht_txn x)) as (-> & ->). eapply points_head; eauto.
  - destruct (response_given k o) as [[[c' p'] d']|] eqn:G.
    + exists c', p', d'. split; [now apply last_given_new|]. destruct A; cbn [response_given] in G.
      * destruct o; try discriminate. rewrite Nat.eqb_refl in G. injection G as <- <- <-. repeat split; constructor.
      * discriminate.
      * discriminate.
      * rewrite Nat.eqb_refl in G. injection G as <- <- <-. repeat split. constructor. eapply nth_lt; eauto.
    + exists c3, p3, d3. split; [now apply last_given_old|].
      destruct (given_refresh_res o k c G w A h (hw_urls w) (hw_heads w) (ht_txn x)) as (-> & -> & -> & ->).
      repeat split; auto. eapply points_head; eauto.
Qed.
(** Operations that give transaction [k] nothing. *)
Lemma gives_nothing : forall k o, on o <> Some k -> connection_given k o = None /\ url_given k o = None /\ request_given k o = None /\ response_given k o = None.
Proof.
  intros k o N. destruct o as [o| | | | |k' i m p|k' i|k' c p i]; try (now repeat split).
  - destruct o as [| | | | | | | | | | | | |k' o]; try (now repeat split).
    assert (Q : Nat.eqb k' k = false) by (apply Nat.eqb_neq; intros ->; now apply N).
    destruct o; cbn; rewrite ?Q; now repeat split.
  - assert (Q : Nat.eqb k' k = false) by (apply Nat.eqb_neq; intros ->; now apply N). cbn. rewrite Q. now repeat split.
  - assert (Q : Nat.eqb k' k = false) by (apply Nat.eqb_neq; intros ->; now apply N). cbn. rewrite Q. now repeat split.
  - assert (Q : Nat.eqb k' k = false) by (apply Nat.eqb_neq; intros ->; now apply N). cbn. rewrite Q. now repeat split.
Qed.
Lemma kept_same : forall k o os w w1, on o <> Some k -> kept k os w ->
  (length (hw_urls w) <= length (hw_urls w1))%nat -> (length (hw_heads w) <= length (hw_heads w1))%nat ->
  (forall h x, nth_error (hw_holds w1) k = Some h -> nth_error (w_txns (hw_world w1)) k = Some x ->
     nth_error (hw_holds w) k = Some h /\ nth_error (w_txns (hw_world w)) k = Some x) ->
  kept k (os ++ [o]) w1.
Proof.
  intros k o os w w1 N K LU LH S h x Q1 Q2. destruct (S h x Q1 Q2) as [X1 X2].
  destruct (K h x X1 X2) as (L0 & (d & m & p & L1 & P1 & M1 & M2) & (d2 & L2 & P2) & (c3 & p3 & d3 & L3 & C3 & C4 & P3)).
  destruct (gives_nothing k o N) as (G0 & G1 & G2 & G3). split; [now apply last_given_old|]. split; [|split].
  - exists d, m, p. split; [now apply last_given_old|]. split; [eapply points_grow; eauto|now split].
  - exists d2. split; [now apply last_given_old|]. eapply points_grow; eauto.
  - exists c3, p3, d3. split; [now apply last_given_old|]. split; [exact C3|]. split; [exact C4|]. eapply points_grow; eauto.
Qed.
Lemma never_last : forall A (kind : hop -> option A) d os, (forall o, In o os -> kind o = None) -> last_given kind d os d.
Proof. intros. right. now split. Qed.
Lemma in_order_step : forall f O o os w w1 b, in_order os w -> hstep f O o w = Ret (w1, b) -> in_order (os ++ [o]) w1.
Proof.
  intros f O o os w w1 b (L & I & K) H.
  assert (CALL : forall k, on o = Some k -> in_order (os ++ [o]) w1).
  { intros k E. destruct (on_call _ _ _ _ _ _ _ E H) as (c & A & H'). pose proof H' as H2.
    apply hcall_inv in H2 as (h & x & e & rs & t' & ob & X1 & X2 & _ & _ & _ & W & _).
    assert (T : length (w_txns (hw_world w1)) = length (w_txns (hw_world w))) by (rewrite W; cbn; apply put_length).
    split; [rewrite T, W; cbn; now rewrite put_length|]. split.
    - intros o' k' J Q. rewrite T. apply in_app_or in J as [J|[<-|[]]]; [eapply I; eauto|].
      rewrite E in Q. injection Q as <-. eapply nth_lt; eauto.
    - intro k'. destruct (Nat.eq_dec k k') as [->|N]; [eapply kept_call; eauto|].
      apply (kept_same k' o os w w1); auto; try (rewrite W; cbn; lia); [congruence|].
      intros h' x' Q1 Q2. rewrite W in Q1, Q2. cbn in Q1, Q2. rewrite put_other in Q1, Q2 by exact N. now split. }
  destruct (on o) as [k|] eqn:E; [now apply (CALL k)|]. clear CALL.
  assert (SAME : w_txns (hw_world w1) = w_txns (hw_world w) -> hw_holds w1 = hw_holds w ->
    (length (hw_urls w) <= length (hw_urls w1))%nat -> (length (hw_heads w) <= length (hw_heads w1))%nat -> in_order (os ++ [o]) w1).
  { intros T1 T2 LU LH. split; [congruence|]. split.
    - intros o' k' J Q. rewrite T1. apply in_app_or in J as [J|[<-|[]]]; [eapply I; eauto|congruence].
    - intro k. apply (kept_same k o os w w1); auto; [congruence|]. intros h x Q1 Q2. split; congruence. }
  destruct o as [o|u|h|i u|i h|k' i m p|k' i|k' c p i]; try discriminate E.
  - assert (N : forall k c, o <> WCall k c) by (intros k c ->; discriminate E).
    assert (H' : ('(w', b) <- wstep f O o (hw_world w) ;; Ret (HWorld w' (hw_urls w) (hw_heads w) (pad (length (w_txns w')) (hw_holds w)), b)) = Ret (w1, b))
      by (destruct o; try exact H; exfalso; eapply N; reflexivity).
    clear H. apply bind_Ret in H' as ([w2 b2] & H1 & H). inv_Ret H.
    destruct (plain_txns _ _ _ _ _ _ N H1) as [T|(i & j & en & T)].
    + apply SAME; cbn; auto. unfold pad. rewrite T, L, Nat.sub_diag. cbn. apply app_nil_r.
    + assert (TL : length (w_txns w2) = S (length (w_txns (hw_world w)))) by (rewrite T, app_length; cbn; lia).
      split; [cbn; rewrite pad_length; lia|]. split.
      * intros o' k' J Q. cbn. apply in_app_or in J as [J|[<-|[]]]; [|congruence]. specialize (I _ _ J Q). lia.
      * intro k. destruct (Nat.lt_ge_cases k (length (w_txns (hw_world w)))) as [G|G].
        -- apply (kept_same k _ os w); auto; [congruence|]. intros h x Q1 Q2. cbn in Q1, Q2. unfold pad in Q1. rewrite T in Q2.
           rewrite nth_error_app1 in Q1, Q2 by lia. now split.
        -- intros h x Q1 Q2. cbn in Q1, Q2. rewrite T in Q2. rewrite nth_error_app2 in Q2 by lia.
           assert (k = length (w_txns (hw_world w))) by (apply nth_lt in Q2; cbn in Q2; lia). subst k. rewrite Nat.sub_diag in Q2.
           injection Q2 as <-. unfold pad in Q1. rewrite nth_error_app2 in Q1 by lia. rewrite L, Nat.sub_diag, TL in Q1.
           replace (S _ - _)%nat with 1%nat in Q1 by lia. injection Q1 as <-.
           assert (NO : forall o', In o' (os ++ [HDo o]) -> on o' <> Some (length (w_txns (hw_world w)))).
           { intros o' J Q. apply in_app_or in J as [J|[<-|[]]]; [|congruence]. specialize (I _ _ J Q). lia. }
           split; [apply never_last; intros o' J; now apply gives_nothing, NO|]. split; [|split].
           ++ exists (ByValue None), [], []. split; [apply never_last; intros o' J; now apply gives_nothing, NO|]. repeat split. constructor.
           ++ exists (ByValue []). split; [apply never_last; intros o' J; now apply gives_nothing, NO|]. constructor.
           ++ exists 0, [], (ByValue []). split; [apply never_last; intros o' J; now apply gives_nothing, NO|]. repeat split. constructor.
  - inv_Ret H. apply SAME; cbn; auto. rewrite app_length. lia.
  - inv_Ret H. apply SAME; cbn; auto. rewrite app_length. lia.
  - cbn [hstep] in H. apply bind_Ret in H as (y & H1 & H). inv_Ret H. apply SAME; cbn; auto. now rewrite put_length.
  - cbn [hstep] in H. apply bind_Ret in H as (y & H1 & H). inv_Ret H. apply SAME; cbn; auto. now rewrite put_length.
Qed.
Lemma in_order_run : forall f O os w bl, hrun f O os no_hworld = Ret (w, bl) -> in_order os w.
Proof.
  intros f O os. induction os as [|o os IH] using rev_ind; intros w bl H.
  - inv_Ret H. split; [reflexivity|]. split; [intros o k []|]. intros k h x _ Q. destruct k; discriminate.
  - apply hrun_app in H as (w1 & bl1 & bl2 & H1 & H2 & ->). cbn [hrun] in H2. apply bind_Ret in H2 as ([w2 b] & H2 & H3). inv_Ret H3.
    eapply in_order_step; eauto.
Qed.
Lemma points_reads_url : forall us i d u, points (length us) i d u -> reads_as us Some d (read_url i us u).
Proof.
  intros us i d u P. destruct P as [a|i a L]; cbn [read_url]; [constructor|].
  destruct (nth_error us i) eqn:E; [now constructor|]. apply nth_error_None in E. lia.
Qed.
Lemma points_reads_head : forall hs i d h, points (length hs) i d h -> reads_as hs (fun h => h) d (read_head i hs h).
Proof.
  intros us i d u P. destruct P as [a|i a L]; cbn [read_head]; [constructor|].
  destruct (nth_error us i) eqn:E; [exact (ra_object us (fun h => h) i v E)|]. apply nth_error_None in E. lia.
Qed.
(** A call is carried out on the transaction as it looks. *)
Lemma refresh_given : forall f O e rs o k c w h us hs t, amounts_to w o k c -> hw_urls w = us -> hw_heads w = hs ->
  Engine.step f O e rs c (refresh (holding o h) us hs t) = Engine.step f O e rs c (refresh h us hs t).
Proof. intros f O e rs o k c w h us hs t A <- <-. destruct A; try reflexivity. destruct o; reflexivity. Qed.
Theorem C72_calls_see_present_contents : forall f O os w bl k, hrun f O os no_hworld = Ret (w, bl) ->
  (k < length (w_txns (hw_world w)))%nat ->
  exists i j s, looks k w i j s /\ up_to_date k os w s /\
  forall o c e rs, amounts_to w o k c -> nth_error (w_engs (hw_world w)) i = Some e -> nth_error (w_sets (hw_world w)) j = Some rs ->
    (r <- hstep f O o w ;; Ret (snd r)) = (r <- Engine.step f O (he_conf e) rs c s ;; Ret (WAnswer (snd r))) /\
    forall w1 b, hstep f O o w = Ret (w1, b) -> exists t' ob, Engine.step f O (he_conf e) rs c s = Ret (t', ob) /\
      nth_error (w_txns (hw_world w1)) k = Some (HTxn i j t').
Proof.
  intros f O os w bl k H K. destruct (in_order_run _ _ _ _ _ H) as (L & _ & KE).
  destruct (nth_error (w_txns (hw_world w)) k) as [x|] eqn:X; [|apply nth_error_None in X; lia].
  destruct (nth_error (hw_holds w) k) as [h|] eqn:Y; [|apply nth_error_None in Y; lia].
  exists (ht_eng x), (ht_set x), (refresh h (hw_urls w) (hw_heads w) (ht_txn x)). split; [now constructor|]. split.
  - destruct (KE k h x Y X) as (L0 & (d & m & p & L1 & P1 & M1 & M2) & (d2 & L2 & P2) & (c3 & p3 & d3 & L3 & C3 & C4 & P3)).
    split; [exact L0|]. split; [|split].
    + exists d, m, p. repeat split; auto. now apply points_reads_url.
    + exists d2. split; auto. now apply points_reads_head.
    + exists c3, p3, d3. repeat split; auto. now apply points_reads_head.
  - intros o c e rs A E1 E2. split.
    + rewrite (call_eq _ _ _ _ _ _ A). unfold hcall, deref. rewrite Y, X. cbn [bind wstep]. unfold deref at 1. cbn [put_txn w_txns].
      rewrite put_same by lia. cbn [bind ht_eng ht_set ht_txn put_txn w_engs w_sets]. unfold deref. rewrite E1. cbn [bind]. rewrite E2. cbn [bind].
      rewrite (refresh_given _ _ _ _ _ _ _ _ _ _ _ _ A eq_refl eq_refl). now destruct (Engine.step _ _ _ _ _ _) as [[t' ob]| |].
    + intros w1 b S. rewrite (call_eq _ _ _ _ _ _ A) in S.
      apply hcall_inv in S as (h' & x' & e' & rs' & t' & ob & X1 & X2 & X3 & X4 & X5 & -> & ->).
      rewrite Y in X1. injection X1 as <-. rewrite X in X2. injection X2 as <-. rewrite E1 in X3. injection X3 as <-. rewrite E2 in X4. injection X4 as <-.
      rewrite (refresh_given _ _ _ _ _ _ _ _ _ _ _ _ A eq_refl eq_refl) in X5. exists t', ob. split; [exact X5|]. cbn. apply put_same. lia.
Qed.

(** ** And so do the variables *)
Lemma as_now_call : forall k w o c, amounts_to w o k c -> as_now k w o = [c].
Proof.
  intros k w o c A. unfold as_now. destruct A; cbn [on]; rewrite Nat.eqb_refl; try reflexivity; rewrite ?H; try reflexivity;
  now rewrite (nth_error_nth _ _ _ H).
Qed.
Lemma last_current : forall A B (kind : hop -> option A) (kind' : op -> option B) (g : A -> B) d d' k w os x y,
  (forall o c, In c (as_now k w o) -> kind' c = option_map g (kind o)) ->
  (forall o z, kind o = Some z -> exists c, as_now k w o = [c]) -> g d = d' -> g x = y ->
  last_given kind d os x -> SpecData.current kind' d' (calls_now k w os) y.
Proof.
  intros A B kind kind' g d d' k w os x y T S <- <- [(os1 & o & os2 & -> & K & N)|[N ->]].
  - destruct (S _ _ K) as (c & E). left. exists (calls_now k w os1), c, (calls_now k w os2). unfold calls_now. split.
    + rewrite flat_map_app. cbn [flat_map]. now rewrite E.
    + split; [rewrite (T o c), K; [reflexivity|rewrite E; now left]|]. intros c' I. apply in_flat_map in I as (o' & I1 & I2).
      rewrite (T _ _ I2), (N _ I1). reflexivity.
  - right. split; [|reflexivity]. intros c I. apply in_flat_map in I as (o' & I1 & I2). now rewrite (T _ _ I2), (N _ I1).
Qed.
Definition url_now (w : hworld) (d : datum (option url)) : option url := match d with ByValue u => u | Object i => nth_error (hw_urls w) i end.
Definition head_now (w : hworld) (d : datum vals) : vals := match d with ByValue h => h | Object i => nth i (hw_heads w) [] end.
Lemma url_now_reads : forall w d u, reads_as (hw_urls w) Some d u -> url_now w d = u.
Proof. intros w d u R. destruct R; [reflexivity|exact H]. Qed.
Lemma head_now_reads : forall w d h, reads_as (hw_heads w) (fun h => h) d h -> head_now w d = h.
Proof. intros w d u R. destruct R; [reflexivity|]. cbn. now apply nth_error_nth. Qed.
Lemma as_now_in : forall k w o c, In c (as_now k w o) -> as_now k w o = [c] /\ on o = Some k.
Proof.
  intros k w o c I. unfold as_now in *. destruct (on o) as [k'|] eqn:E; [|destruct I]. destruct (Nat.eqb_spec k' k) as [->|]; [|destruct I].
  split; [|reflexivity]. destruct o as [o| | | | | | |]; try destruct I as [<-|[]]; try reflexivity; try destruct I.
  destruct o; try destruct I as [<-|[]]; try reflexivity; try destruct I.
Qed.
Ltac same_kind := intros o c I; apply as_now_in in I as [E1 E2]; unfold as_now in E1; rewrite E2, Nat.eqb_refl in E1;
  destruct o as [o| | | | |k' i m p|k' i|k' c3 p i]; try discriminate; try destruct o; try discriminate; cbn in E2;
  injection E2 as ->; injection E1 as <-; cbn; rewrite ?Nat.eqb_refl; try reflexivity.
Ltac kind_call := intros o z E; destruct o as [o| | | | |k' i m p|k' i|k' c3 p i]; try discriminate; try destruct o; try discriminate; cbn in E;
  try (destruct o; try discriminate);
  match type of E with (if Nat.eqb ?a ?b then _ else _) = _ => destruct (Nat.eqb_spec a b) as [->|]; [|discriminate] end;
  unfold as_now; cbn [on]; rewrite Nat.eqb_refl; eexists; reflexivity.
Lemma looks_hold : forall k os w s, up_to_date k os w s -> holds (calls_now k w os) s.
Proof.
  intros k os w s (L0 & (d & m & p & L1 & R1 & M1 & M2) & (d2 & L2 & R2) & (c3 & p3 & d3 & L3 & C3 & C4 & R3)).
  apply url_now_reads in R1. apply head_now_reads in R2. apply head_now_reads in R3. split; [|split; [|split]].
  - eapply (last_current _ _ (connection_given k) connection (fun x => x)); [| | | |exact L0]; auto.
    + clear. same_kind. destruct o; cbn; rewrite ?Nat.eqb_refl; reflexivity.
    + clear. kind_call.
  - eapply (last_current _ _ (url_given k) request_line (fun x => (url_now w (fst (fst x)), snd (fst x), snd x))); [| | | |exact L1]; auto.
    + clear. same_kind. destruct o; cbn; rewrite ?Nat.eqb_refl; reflexivity.
    + clear. kind_call.
    + cbn. congruence.
  - eapply (last_current _ _ (request_given k) request_header (head_now w)); [| | | |exact L2]; auto.
    + clear. same_kind. destruct o; cbn; rewrite ?Nat.eqb_refl; reflexivity.
    + clear. kind_call.
  - eapply (last_current _ _ (response_given k) response_line (fun x => (fst (fst x), snd (fst x), head_now w (snd x)))); [| | | |exact L3]; auto.
    + clear. same_kind. destruct o; cbn; rewrite ?Nat.eqb_refl; reflexivity.
    + clear. kind_call.
    + cbn. congruence.
Qed.
(** A state in which a rule is evaluated during a call on [k] made after [os]. *)
Definition evaluated (f : nat) (O : oracles) (os : list hop) (k : nat) (o : hop) (w : hworld) (e : engine) (u : txn) : Prop :=
  exists bl i j s0 c p x rs l n v v1 t2 vs raw,
    hrun f O os no_hworld = Ret (w, bl) /\ looks k w i j s0 /\ amounts_to w o k c /\ op_phase c = Some p /\
    nth_error (w_engs (hw_world w)) i = Some x /\ e = he_conf x /\ nth_error (w_sets (hw_world w)) j = Some rs /\
    visits f O e rs p 0 (entered rs p (given c s0)) l t2 /\ In (n, v, v1) l /\ fetched O e vs v u raw.
Lemma evaluated_holds : forall f O os k o w e u, evaluated f O os k o w e u -> holds (calls_now k w (os ++ [o])) u.
Proof.
  intros f O os k o w e u (bl & i & j & s0 & c & p & x & rs & l & n & v & v1 & t2 & vs & raw & H & L & A & P & X1 & -> & X2 & V & I & F).
  assert (K : (k < length (w_txns (hw_world w)))%nat) by (destruct L as [h y Y1 Y2]; eapply nth_lt; eauto).
  destruct (C72_calls_see_present_contents _ _ _ _ _ _ H K) as (i' & j' & s & L' & U & _).
  assert (s = s0).
  { clear - L L'. destruct L as [h1 y1 A1 A2]. inversion L' as [h2 y2 B1 B2 Q1 Q2 Q3]. congruence. }
  subst s. apply looks_hold in U. unfold calls_now. rewrite flat_map_app. cbn [flat_map]. rewrite (as_now_call _ _ _ _ A). cbn [app].
  apply (holds_given _ c) in U. eapply holds_same; [|exact U].
  eapply same_data_trans; [|apply frame_same_data; eapply BodyFacts.fetched_frame; exact F].
  eapply same_data_trans; [|eapply visits_states; eauto]. unfold entered.
  eapply same_data_trans; [|apply next_same]. apply with_pos_same.
Qed.
(** The variables of a rule show the present contents of the objects handed over, as if
    the calls had just been made with them. *)
Theorem C71_scalars_show_present_contents : forall f O os k o w e u v u' out, evaluated f O os k o w e u ->
  v <> SRequestBody -> v <> SResponseBody -> fetch O e (VScalar v) u = Ret (u', out) ->
  u' = u /\ scalar_value O (calls_now k w (os ++ [o])) v out.
Proof. intros f O os k o w e u v u' out E. apply scalars_held. eapply evaluated_holds; eauto. Qed.
Theorem C72_headers_show_present_contents : forall f O os k o w e u c cs v u' out, ord_valid O -> evaluated f O os k o w e u ->
  In c [CRequestHeaders; CRequestHeadersNames; CResponseHeaders; CResponseHeadersNames] ->
  apply_calls O cs (VColl c empty_filter) = Some v -> fetch O e v u = Ret (u', out) ->
  exists m kept, header_entries (calls_now k w (os ++ [o])) c m /\ keeps (fun kv => selected (rx_match O) cs (fst kv)) m kept /\
    (c = CRequestHeaders \/ c = CResponseHeaders -> Permutation out (flat_map snd kept)) /\
    (c = CRequestHeadersNames \/ c = CResponseHeadersNames -> Permutation out (map fst kept)).
Proof. intros f O os k o w e u c cs v u' out V E. apply headers_held; [exact V|]. eapply evaluated_holds; eauto. Qed.

(** ** Objects the program does not write into are as good as values *)
Definition settled (w : hworld) : Prop :=
  length (hw_holds w) = length (w_txns (hw_world w)) /\
  forall k h x, nth_error (hw_holds w) k = Some h -> nth_error (w_txns (hw_world w)) k = Some x ->
    (forall i, h_url h = Some i -> nth_error (hw_urls w) i = t_url (ht_txn x) /\ (i < length (hw_urls w))%nat) /\
    (forall i, h_req h = Some i -> nth_error (hw_heads w) i = Some (t_reqheader (ht_txn x))) /\
    (forall i, h_res h = Some i -> nth_error (hw_heads w) i = Some (t_resheader (ht_txn x))).
Lemma refresh_id : forall h us hs t,
  (forall i, h_url h = Some i -> nth_error us i = t_url t /\ (i < length us)%nat) ->
  (forall i, h_req h = Some i -> nth_error hs i = Some (t_reqheader t)) ->
  (forall i, h_res h = Some i -> nth_error hs i = Some (t_resheader t)) -> refresh h us hs t = t.
Proof.
  intros h us hs t A B C.
  assert (U : read_url (h_url h) us (t_url t) = t_url t).
  { destruct (h_url h) as [i|]; cbn [read_url]; [|reflexivity]. destruct (A i eq_refl) as [A1 A2]. rewrite A1. now destruct (t_url t). }
  assert (R : read_head (h_req h) hs (t_reqheader t) = t_reqheader t).
  { destruct (h_req h) as [i|]; cbn [read_head]; [|reflexivity]. now rewrite (B i eq_refl). }
  assert (S : read_head (h_res h) hs (t_resheader t) = t_resheader t).
  { destruct (h_res h) as [i|]; cbn [read_head]; [|reflexivity]. now rewrite (C i eq_refl). }
  unfold refresh. cbn. rewrite U, R, S. now destruct t.
Qed.
(** Data left by a call that is carried out with objects as they are. *)
Lemma settled_call : forall f O k o c w w1 b, settled w -> amounts_to w o k c -> hcall f O k (holding o) c w = Ret (w1, b) -> settled w1.
Proof.
  intros f O k o c w w1 b (L & S) A H. apply hcall_inv in H as (h & x & e & rs & t' & ob & X1 & X2 & _ & _ & X5 & -> & ->).
  destruct (S k h x X1 X2) as (S1 & S2 & S3). split; [cbn; now rewrite !put_length|].
  intros k' h' x' Q1 Q2. cbn [hw_holds hw_world put_txn w_txns hw_urls hw_heads] in *.
  destruct (Nat.eq_dec k k') as [<-|N]; [|rewrite put_other in Q1, Q2 by exact N; eapply S; eauto].
  rewrite put_same in Q1, Q2 by (eapply nth_lt; eauto). injection Q1 as <-. injection Q2 as <-. cbn [ht_txn].
  apply step_data in X5 as [D1 D2]. unfold request_part in D1. unfold response_part in D2.
  injection D1 as _ _ _ _ E1 _ _ E4. injection D2 as _ _ F3. rewrite E1, E4, F3. clear E1 E4 F3.
  assert (U : forall i, h_url h = Some i -> nth_error (hw_urls w) i = read_url (h_url h) (hw_urls w) (t_url (ht_txn x)) /\ (i < length (hw_urls w))%nat).
  { intros i Q. destruct (S1 i Q) as [V1 V2]. rewrite Q. cbn [read_url]. split; [|exact V2]. rewrite V1. destruct (t_url (ht_txn x)); [reflexivity|].
    apply nth_error_None in V1. lia. }
  assert (R2 : forall i, h_req h = Some i -> nth_error (hw_heads w) i = Some (read_head (h_req h) (hw_heads w) (t_reqheader (ht_txn x)))).
  { intros i Q. rewrite Q. cbn [read_head]. now rewrite (S2 i Q). }
  assert (R3 : forall i, h_res h = Some i -> nth_error (hw_heads w) i = Some (read_head (h_res h) (hw_heads w) (t_resheader (ht_txn x)))).
  { intros i Q. rewrite Q. cbn [read_head]. now rewrite (S3 i Q). }
  clear S1 S2 S3 S.
  destruct A; cbn [holding].
  - destruct o; cbn; (split; [|split]); auto; intros ? [=].
  - cbn. split; auto. intros i' [= <-]. split; [exact H|eapply nth_lt; eauto].
  - cbn. split; auto. split; auto. intros i' [= <-]. exact H.
  - cbn. split; auto. split; auto. intros i' [= <-]. exact H.
Qed.
Lemma settled_hcall : forall f O k o c w, settled w -> amounts_to w o k c ->
  (r <- hcall f O k (holding o) c w ;; Ret (hw_world (fst r), snd r)) = wstep f O (WCall k c) (hw_world w).
Proof.
  intros f O k o c w (L & S) A. unfold hcall, deref. destruct (nth_error (w_txns (hw_world w)) k) as [x|] eqn:X.
  2:{ assert (Y : nth_error (hw_holds w) k = None) by (apply nth_error_None; apply nth_error_None in X; lia). rewrite Y. cbn [bind wstep].
      unfold deref. now rewrite X. }
  destruct (nth_error (hw_holds w) k) as [h|] eqn:Y; [|apply nth_error_None in Y; apply nth_lt in X; lia]. cbn [bind].
  cbn [wstep]. unfold deref at 1 4. cbn [put_txn w_txns]. rewrite put_same by (eapply nth_lt; eauto). rewrite X. cbn [bind ht_eng ht_set ht_txn put_txn w_engs w_sets].
  destruct (deref (ht_eng x) _) as [e| |]; [|reflexivity|reflexivity]. cbn [bind]. destruct (deref (ht_set x) _) as [rs| |]; [|reflexivity|reflexivity]. cbn [bind].
  rewrite (refresh_given _ _ _ _ _ _ _ _ _ _ _ _ A eq_refl eq_refl). destruct (S k h x Y X) as (S1 & S2 & S3). rewrite (refresh_id _ _ _ _ S1 S2 S3).
  destruct (Engine.step _ _ _ _ _ _) as [[t' ob]| |]; [|reflexivity|reflexivity]. cbn. unfold put_txn. cbn. now rewrite put_put.
Qed.
Lemma settled_plain : forall f O o w w2 b, (forall k c, o <> WCall k c) -> settled w -> wstep f O o (hw_world w) = Ret (w2, b) ->
  settled (HWorld w2 (hw_urls w) (hw_heads w) (pad (length (w_txns w2)) (hw_holds w))).
Proof.
  intros f O o w w2 b N (L & S) H. destruct (plain_txns _ _ _ _ _ _ N H) as [T|(i & j & en & T)].
  - unfold pad. rewrite T, L, Nat.sub_diag. cbn [repeat]. rewrite app_nil_r. split; cbn; [congruence|]. rewrite T. exact S.
  - split; cbn [hw_holds hw_world]; [rewrite pad_length, T, app_length; cbn; lia|]. intros k h x Q1 Q2. cbn [hw_holds hw_world hw_urls hw_heads] in *.
    rewrite T in Q2. unfold pad in Q1. destruct (Nat.lt_ge_cases k (length (w_txns (hw_world w)))) as [G|G].
    + rewrite nth_error_app1 in Q1, Q2 by lia. eapply S; eauto.
    + rewrite nth_error_app2 in Q1 by lia. apply nth_error_In, repeat_spec in Q1. subst h. repeat split; discriminate.
Qed.
Lemma values_run : forall f O os w, settled w -> never_writes os -> objects_exist (length (hw_urls w)) (length (hw_heads w)) os ->
  (r <- hrun f O os w ;; Ret (hw_world (fst r), but_objects os (snd r))) = wrun f O (by_value (hw_urls w) (hw_heads w) os) (hw_world w).
Proof.
  intros f O os. induction os as [|o os IH]; intros w S N X; [reflexivity|].
  assert (N' : never_writes os) by (intros o' I; apply N; now right).
  assert (CALL : forall k c, amounts_to w o k c -> but_objects (o :: os) = (fun bl => match bl with b :: bl' => b :: but_objects os bl' | [] => [] end) ->
    objects_exist (length (hw_urls w)) (length (hw_heads w)) os ->
    (r <- hrun f O (o :: os) w ;; Ret (hw_world (fst r), but_objects (o :: os) (snd r))) =
    wrun f O (WCall k c :: by_value (hw_urls w) (hw_heads w) os) (hw_world w)).
  { intros k c A BO X'. cbn [hrun wrun]. rewrite (call_eq f O o k w c A). rewrite <- (settled_hcall f O k o c w S A).
    destruct (hcall f O k (holding o) c w) as [[w1 b]| |] eqn:E; [|reflexivity|reflexivity]. cbn [bind fst snd].
    pose proof (settled_call _ _ _ _ _ _ _ _ S A E) as S1.
    assert (Q : hw_urls w1 = hw_urls w /\ hw_heads w1 = hw_heads w)
      by (apply hcall_inv in E as (h & x & e & rs & t' & ob & _ & _ & _ & _ & _ & -> & _); now split). destruct Q as [Q1 Q2].
    specialize (IH w1 S1 N'). rewrite Q1, Q2 in IH. rewrite <- IH by exact X'.
    destruct (hrun f O os w1) as [[w2 bl]| |]; [|reflexivity|reflexivity]. cbn [bind fst snd]. now rewrite BO. }
  assert (FREE : forall w1 b l, hstep f O o w = Ret (w1, b) -> hw_world w1 = hw_world w -> settled w1 ->
    objects_exist (length (hw_urls w1)) (length (hw_heads w1)) os ->
    but_objects (o :: os) = (fun bl => match bl with _ :: bl' => but_objects os bl' | [] => [] end) -> l = by_value (hw_urls w1) (hw_heads w1) os ->
    (r <- hrun f O (o :: os) w ;; Ret (hw_world (fst r), but_objects (o :: os) (snd r))) = wrun f O l (hw_world w)).
  { intros w1 b l E W S1 X1 BO ->. cbn [hrun]. rewrite E. cbn [bind]. rewrite <- W, <- (IH w1 S1 N' X1).
    destruct (hrun f O os w1) as [[w2 bl]| |]; [|reflexivity|reflexivity]. cbn [bind fst snd]. now rewrite BO. }
  destruct o as [o|u|h|i u|i h|k i m p|k i|k c p i]; cbn [by_value objects_exist] in *.
  - assert (D : (exists k c, o = WCall k c) \/ forall k c, o <> WCall k c) by (destruct o; try (right; discriminate); left; eauto).
    destruct D as [(k & c & ->)|D]; [apply CALL; [constructor|reflexivity|exact X]|].
    cbn [hrun wrun].
    assert (E : hstep f O (HDo o) w = ('(w', b) <- wstep f O o (hw_world w) ;; Ret (HWorld w' (hw_urls w) (hw_heads w) (pad (length (w_txns w')) (hw_holds w)), b)))
      by (destruct o; try reflexivity; exfalso; eapply D; reflexivity).
    rewrite E. destruct (wstep f O o (hw_world w)) as [[w1 b]| |] eqn:W; [|reflexivity|reflexivity]. cbn [bind].
    pose proof (settled_plain _ _ _ _ _ _ D S W) as S1. specialize (IH _ S1 N'). cbn [hw_urls hw_heads hw_world] in IH. rewrite <- IH by exact X.
    destruct (hrun f O os _) as [[w2 bl]| |]; reflexivity.
  - eapply FREE; [reflexivity|reflexivity| | |reflexivity|reflexivity].
    + destruct S as (L & S). split; [exact L|]. intros k h x Q1 Q2. destruct (S k h x Q1 Q2) as (S1 & S2 & S3). cbn. split; [|now split].
      intros i Q. destruct (S1 i Q) as [V1 V2]. rewrite nth_error_app1 by exact V2. split; [exact V1|]. rewrite app_length. lia.
    + cbn. rewrite app_length, Nat.add_1_r. exact X.
  - eapply FREE; [reflexivity|reflexivity| | |reflexivity|reflexivity].
    + destruct S as (L & S). split; [exact L|]. intros k h' x Q1 Q2. destruct (S k h' x Q1 Q2) as (S1 & S2 & S3). cbn. split; [exact S1|].
      split; intros i Q; (rewrite nth_error_app1; [now auto|]); eapply nth_lt; eauto.
    + cbn. rewrite app_length, Nat.add_1_r. exact X.
  - specialize (N _ (or_introl eq_refl)). discriminate.
  - specialize (N _ (or_introl eq_refl)). discriminate.
  - destruct X as [X1 X]. destruct (nth_error (hw_urls w) i) as [u|] eqn:E; [|apply nth_error_None in E; lia].
    apply CALL; [now constructor|reflexivity|exact X].
  - destruct X as [X1 X]. destruct (nth_error (hw_heads w) i) as [v|] eqn:E; [|apply nth_error_None in E; lia].
    rewrite (nth_error_nth _ _ _ E). apply CALL; [now constructor|reflexivity|exact X].
  - destruct X as [X1 X]. destruct (nth_error (hw_heads w) i) as [v|] eqn:E; [|apply nth_error_None in E; lia].
    rewrite (nth_error_nth _ _ _ E). apply CALL; [now constructor|reflexivity|exact X].
Qed.
(** A program that never writes into its objects does exactly what it does when the
    objects are handed over by value, including panics and calls that do not return. *)
Theorem C41_unwritten_data_are_values : forall f O os, never_writes os -> objects_exist 0 0 os ->
  (r <- hrun f O os no_hworld ;; Ret (hw_world (fst r), but_objects os (snd r))) = wrun f O (by_value [] [] os) no_world.
Proof.
  intros f O os N X. apply (values_run f O os no_hworld); auto. split; [reflexivity|]. intros k h x _ Q. destruct k; discriminate.
Qed.

(** ** Examples *)
Definition kept_rule : rule := demo_rule PhaseResponseHeaders [VColl CRequestHeaders empty_filter] (OpRx (B "bad")) [ADeny; AStatus 503] false [].
(** Two transactions are given one header map; it is written into between the calls. *)
Definition shared_program (late : vals) : list hop :=
  [ HDo WNewEngine; HDo (WAddSecRule 0 [kept_rule]); HDo (WNewTransaction true 0); HDo (WNewTransaction true 0);
    HNewHead [(B "A", [B "good"])]; HNewURL (demo_url "/p" "");
    HGiveURL 0 0 (B "GET") (B "HTTP/1.1"); HGiveRequest 0 0; HGiveRequest 1 0;
    HDo (WCall 0 (OpResponseHeaders 200 (B "HTTP/1.1") [])); HDo (WCall 0 OpResult);
    HPutHead 0 late;
    HDo (WCall 1 (OpResponseHeaders 200 (B "HTTP/1.1") [])); HDo (WCall 1 OpResult) ].
Definition codes (bl : list wobs) : list Z :=
  flat_map (fun b => match b with WAnswer (ObsResult i) => [i_status i] | _ => [] end) bl.
Example C41_shared_program : exists w bl w' bl', hrun 9 (demo MpErr) (shared_program [(B "A", [B "bad"])]) no_hworld = Ret (w, bl) /\
  hrun 9 (demo MpErr) (shared_program [(B "A", [B "fine"])]) no_hworld = Ret (w', bl') /\
  codes (hheard 0 (shared_program [(B "A", [B "bad"])]) bl) = [200] /\ codes (hheard 1 (shared_program [(B "A", [B "bad"])]) bl) = [503] /\
  codes (hheard 0 (shared_program []) bl') = [200] /\ codes (hheard 1 (shared_program []) bl') = [200].
Proof. eexists _, _, _, _. split; [vm_compute; reflexivity|]. split; [vm_compute; reflexivity|]. repeat split; vm_compute; reflexivity. Qed.
(** What the program writes after a call reaches the rules of later calls: the answers to the
    calls are not decided by what the calls brought. *)
Theorem C72_later_writes_are_seen : exists f O os os' w bl w' bl' k, ord_valid O /\
  hrun f O os no_hworld = Ret (w, bl) /\ hrun f O os' no_hworld = Ret (w', bl') /\
  List.filter (fun o => negb (writes o)) os = List.filter (fun o => negb (writes o)) os' /\ hheard k os bl <> hheard k os' bl'.
Proof.
  exists 9%nat, (demo MpErr), (shared_program [(B "A", [B "bad"])]), (shared_program []). eexists _, _, _, _. exists 1%nat.
  split; [apply demo_ord|]. split; [vm_compute; reflexivity|]. split; [vm_compute; reflexivity|]. split; [reflexivity|].
  intro H. apply (f_equal codes) in H. vm_compute in H. discriminate.
Qed.
(** The rule of the second transaction is evaluated where the theorems above look. *)
Example C72_present_contents_example :
  let os := firstn 12 (shared_program [(B "A", [B "bad"])]) in let o := HDo (WCall 1 (OpResponseHeaders 200 (B "HTTP/1.1") [])) in
  exists w e u u', evaluated 9 (demo MpErr) os 1 o w e u /\
    fetch (demo MpErr) e (VColl CRequestHeaders empty_filter) u = Ret (u', [B "bad"]).
Proof.
  cbv zeta. destruct (hrun 9 (demo MpErr) (firstn 12 (shared_program [(B "A", [B "bad"])])) no_hworld) as [[w bl]| |] eqn:S;
    [|vm_compute in S; discriminate|vm_compute in S; discriminate].
  set (c := OpResponseHeaders 200 (B "HTTP/1.1") []) in *. set (rs := add_rules [kept_rule] new_ruleset).
  destruct (nth_error (hw_holds w) 1) as [h|] eqn:H; [|vm_compute in S; injection S as <- _; discriminate H].
  destruct (nth_error (w_txns (hw_world w)) 1) as [x|] eqn:X; [|vm_compute in S; injection S as <- _; discriminate X].
  set (s0 := refresh h (hw_urls w) (hw_heads w) (ht_txn x)).
  exists w, new_engine, (entered rs PhaseResponseHeaders (given c s0)). eexists. split.
  - exists bl, (ht_eng x), (ht_set x), s0, c, PhaseResponseHeaders, (HEng new_engine (Some 0%nat)), rs. eexists. exists 0, (entered rs PhaseResponseHeaders (given c s0)).
    eexists _, _. exists [], []. split; [exact S|]. split; [now constructor|]. split; [constructor|]. split; [reflexivity|].
    vm_compute in S. injection S as <- <-. vm_compute in H. injection H as <-. vm_compute in X. injection X as <-.
    split; [vm_compute; reflexivity|]. split; [reflexivity|]. split; [vm_compute; reflexivity|]. split; [|split; [|apply fd_nil]].
    + eapply vs_last; [vm_compute; reflexivity|discriminate|vm_compute; reflexivity|vm_compute; reflexivity].
    + now left.
  - vm_compute in S. injection S as <- <-. vm_compute in H. injection H as <-. vm_compute in X. injection X as <-. vm_compute. reflexivity.
Qed.
Example C41_unwritten_example : exists w bl, let os := List.filter (fun o => negb (writes o)) (shared_program []) in
  never_writes os /\ objects_exist 0 0 os /\ hrun 9 (demo MpErr) os no_hworld = Ret (w, bl) /\ codes bl = [200; 200].
Proof.
  eexists _, _. cbv zeta. split; [intros o I; apply filter_In in I as [_ I]; now apply Bool.negb_true_iff in I|].
  split; [cbn; repeat split; lia|]. split; [vm_compute; reflexivity|]. vm_compute. reflexivity.
Qed.

Print Assumptions C41_sharing_data_does_not_matter.
Print Assumptions C41_calls_leave_objects_alone.
Print Assumptions C41_unwritten_data_are_values.
Print Assumptions C71_scalars_show_present_contents.
Print Assumptions C72_calls_see_present_contents.
Print Assumptions C72_headers_show_present_contents.
Print Assumptions C72_later_writes_are_seen.
