(** Content types: which header values make a body a form, and which hide it. *)
From Verif Require Import Base BaseFacts GoStrings Utils Buffer BufferFacts SpecBuffer Types Transforms Operators Transaction Variables Rules Engine
  SpecText NumFacts TextFacts TransFacts SpecVars VarText VarFacts BodyFacts SpecRules PropText PropVars RuleFacts Scanner Registry Loader SpecParse ParseFacts ParseLists ParseFiles ParsePrint
  SpecLoad LoadFacts SpecTxn TxnFacts LoopFacts Witness PropRules PropPhases PropTxn PropLoad PropEnd SpecData PropData SpecGate PropGate PropSafe PropFile SpecBody PropBody SpecVerdict PropVerdict Regex SpecRegex PropRegex Uri SpecUri PropUri Media SpecMedia.
From Coq Require Import ZifyBool.

(** ** Characters *)
Lemma special_iff : forall c, existsb (Ascii.eqb c) tspecial = true <-> In c specials.
Proof. intro c. change tspecial with specials. rewrite existsb_exists. split; [intros (d & I & E); apply Ascii.eqb_eq in E; now subst|intro I; exists c; split; [exact I|apply Ascii.eqb_refl]]. Qed.
Lemma special_false : forall c, existsb (Ascii.eqb c) tspecial = false <-> ~ In c specials.
Proof. intro c. rewrite <- special_iff. destruct (existsb _ _); split; congruence. Qed.
Lemma plain_iff : forall c, token_char c = true <-> plain_char c.
Proof.
  intro c. unfold token_char, plain_char. rewrite !andb_true_iff, negb_true_iff, special_false. split; intros; intuition lia.
Qed.
Lemma white_iff : forall c, is_space c = true <-> white c.
Proof. intro c. unfold is_space, white. lia. Qed.
Lemma white_not_plain : forall c, white c -> token_char c = false.
Proof. intros c W. destruct (token_char c) eqn:E; [|reflexivity]. apply plain_iff in E as [E _]. unfold white in W. lia. Qed.
Lemma plain_not_white : forall c, plain_char c -> is_space c = false.
Proof. intros c [P _]. destruct (is_space c) eqn:E; [|reflexivity]. apply white_iff in E. unfold white in E. lia. Qed.
Lemma plain_not : forall c d, plain_char c -> In d specials -> c <> d.
Proof. intros c d [_ P] I ->. contradiction. Qed.
Lemma white_not : forall c d, white c -> In d specials -> c <> d.
Proof. intros c d W I ->. assert (F : Forall (fun x => is_space x = false) specials) by (repeat constructor). rewrite Forall_forall in F. apply white_iff in W. rewrite (F _ I) in W. discriminate. Qed.

Definition stands_out (s : bs) : Prop := match s with [] => True | c :: _ => is_space c = false end.
Lemma skip_spaces : forall a s, spaces a -> stands_out s -> trim_space_left (a ++ s) = s.
Proof.
  unfold trim_space_left. induction a as [|c a IH]; intros s A B; cbn [app drop_while].
  - destruct s as [|c s]; [reflexivity|]. cbn in B |- *. now rewrite B.
  - inversion A; subst. replace (is_space c) with true by (symmetry; now apply white_iff). now apply IH.
Qed.
Lemma only_spaces : forall a, spaces a -> trim_space_left a = [].
Proof. intros a A. rewrite <- (app_nil_r a). now apply skip_spaces. Qed.
Definition word_ends (s : bs) : Prop := match s with [] => True | c :: _ => token_char c = false end.
Lemma token_read : forall w s, Forall plain_char w -> word_ends s -> token (w ++ s) = (w, s).
Proof.
  unfold token. induction w as [|c w IH]; intros s A B; cbn [app take_while drop_while].
  - destruct s as [|c s]; [reflexivity|]. cbn in B |- *. now rewrite B.
  - inversion A; subst. replace (token_char c) with true by (symmetry; now apply plain_iff). specialize (IH s H2 B). injection IH as E1 E2. now rewrite E1, E2.
Qed.
Lemma spaces_end_word : forall a s, spaces a -> word_ends s -> word_ends (a ++ s).
Proof. intros [|c a] s A B; [exact B|]. inversion A; subst. cbn. now apply white_not_plain. Qed.
Lemma token_word_out : forall w s, token_word w -> stands_out (w ++ s).
Proof. intros [|c w] s [N F]; [easy|]. inversion F; subst. cbn. now apply plain_not_white. Qed.
Lemma special_ends : forall c s, In c specials -> word_ends (c :: s).
Proof. intros c s I. cbn. destruct (token_char c) eqn:E; [|reflexivity]. apply plain_iff in E as [_ E]. contradiction. Qed.
Lemma special_out : forall c s, In c specials -> stands_out (c :: s).
Proof. intros c s I. cbn. destruct (is_space c) eqn:E; [|reflexivity]. apply white_iff in E. now elim (white_not c c E I). Qed.

(** ** One parameter *)
Lemma quoted_read : forall v q s, quoted_text v q -> quoted_value (q ++ s) = Some (v, s).
Proof.
  intros v q s H. induction H as [|c v q C N1 N2 N3 N4 H IH|c v q I H IH|c v q I H IH].
  - reflexivity.
  - cbn [app quoted_value]. rewrite (proj2 (Ascii.eqb_neq c """") N1). destruct (q ++ s) as [|d r] eqn:E; [discriminate IH|].
    rewrite (proj2 (Ascii.eqb_neq c "\") N2), (proj2 (Ascii.eqb_neq c CR) N3), (proj2 (Ascii.eqb_neq c LF) N4). cbn [andb orb]. now rewrite IH.
  - cbn [app]. change (quoted_value ("\"%char :: c :: q ++ s)) with
      (if existsb (Ascii.eqb c) tspecial then match quoted_value (q ++ s) with Some (v, r) => Some (c :: v, r) | None => None end
       else match quoted_value (c :: q ++ s) with Some (v, r) => Some ("\"%char :: v, r) | None => None end).
    now rewrite (proj2 (special_iff c) I), IH.
  - cbn [app]. change (quoted_value ("\"%char :: c :: q ++ s)) with
      (if existsb (Ascii.eqb c) tspecial then match quoted_value (q ++ s) with Some (v, r) => Some (c :: v, r) | None => None end
       else match quoted_value (c :: q ++ s) with Some (v, r) => Some ("\"%char :: v, r) | None => None end).
    rewrite (proj2 (special_false c) I). cbn [app] in IH. now rewrite IH.
Qed.
Lemma value_read : forall v q s, value_written v q -> word_ends s -> value (q ++ s) = Some (v, s) /\ stands_out (q ++ s).
Proof.
  intros v q s [[W ->]|(r & Q & ->)] E.
  - split; [|now apply token_word_out]. destruct W as [N F]. destruct v as [|c v]; [easy|]. unfold value. cbn [app]. inversion F as [|? ? F1 F2]; subst.
    rewrite (proj2 (Ascii.eqb_neq c """") (plain_not c """" F1 ltac:(cbn; tauto))). change (c :: v ++ s) with ((c :: v) ++ s). now rewrite token_read.
  - split; [|reflexivity]. cbn [app value]. now apply quoted_read.
Qed.
Lemma lower_read : forall s l, in_lower s l -> lower s = l.
Proof. intros s l H. unfold lower. induction H as [|x y s l L H IH]; [reflexivity|]. cbn. rewrite IH. f_equal. symmetry. now apply lowered_ascii. Qed.
Lemma param_read : forall p s r, parameter p s -> word_ends r -> param (s ++ r) = Some (fst p, snd p, r) /\ trim_space_left (s ++ r) <> [] /\ (0 < length s)%nat.
Proof.
  intros [k v] s r (b1 & b2 & key & b3 & b4 & val & -> & B1 & B2 & B3 & B4 & K & ST & L & V) E. cbn [fst snd] in *.
  destruct (value_read v val r V E) as (VR & VO).
  assert (X : trim_space_left ((b1 ++ ";"%char :: b2 ++ key ++ b3 ++ "="%char :: b4 ++ val) ++ r) = ";"%char :: b2 ++ key ++ b3 ++ "="%char :: b4 ++ val ++ r).
  { rewrite <- app_assoc. rewrite skip_spaces; [|exact B1|reflexivity]. cbn [app]. now rewrite <- !app_assoc, <- app_comm_cons, <- app_assoc. }
  split; [|split; [rewrite X; discriminate|rewrite app_length; cbn; lia]].
  unfold param. rewrite X. rewrite Ascii.eqb_refl. rewrite skip_spaces; [|exact B2|now apply token_word_out].
  rewrite token_read; [|apply K|apply spaces_end_word; [exact B3|apply special_ends; cbn; tauto]].
  destruct key as [|c key]; [now destruct K|]. rewrite skip_spaces; [|exact B3|reflexivity]. rewrite Ascii.eqb_refl. rewrite skip_spaces; [|exact B4|exact VO].
  rewrite VR. now rewrite (lower_read _ _ L).
Qed.
Lemma parameters_end : forall ps s, parameters ps s -> word_ends s.
Proof.
  intros ps s H. destruct H as [s H|s r H _|p s ps r (b1 & b2 & key & b3 & b4 & val & -> & B1 & _) _].
  - rewrite <- (app_nil_r s). now apply spaces_end_word.
  - apply spaces_end_word; [exact H|apply special_ends; cbn; tauto].
  - rewrite <- app_assoc. apply spaces_end_word; [exact B1|apply special_ends; cbn; tauto].
Qed.
Lemma lower_no_star : forall key k, in_lower key k -> ~ In "*"%char key -> existsb (Ascii.eqb "*") k = false.
Proof.
  intros key k H N. destruct (existsb _ k) eqn:E; [|reflexivity]. apply existsb_exists in E as (c & I & E). apply Ascii.eqb_eq in E. subst c.
  exfalso. clear -H N I. induction H as [|x y s l L H IH]; [easy|]. destruct I as [->|I]; [|apply IH; [|exact I]; intro; apply N; now right].
  apply N. left. destruct L as [[U L]|[_ L]]; [unfold upper in U; change (code "*") with 42 in L; lia|congruence].
Qed.
Lemma trim_semicolon : forall a b, spaces a -> spaces b -> trim (a ++ ";"%char :: b) = B ";".
Proof.
  intros a b A C. unfold trim. rewrite skip_spaces; [|exact A|reflexivity]. cbn [rev]. rewrite skip_spaces; [reflexivity|apply Forall_rev; exact C|reflexivity].
Qed.

(** ** All of them *)
Lemma get_in : forall k v ps, NoDup (map fst ps) -> (get k ps = Some v <-> In (k, v) ps).
Proof.
  induction ps as [|[k' v'] ps IH]; intro ND; [cbn; split; [discriminate|easy]|]. cbn [map fst] in ND. inversion ND as [|? ? N1 N2]; subst. cbn [get].
  destruct (bs_eqb_spec k k') as [->|N].
  - split; [injection 1 as ->; now left|]. intros [E|I]; [now injection E as ->|]. elim N1. apply in_map_iff. exists (k', v). auto.
  - rewrite (IH N2). split; [now right|]. intros [E|I]; [congruence|exact I].
Qed.
Lemma get_none : forall k ps, get k ps = None <-> ~ In k (map fst ps).
Proof.
  induction ps as [|[k' v'] ps IH]; cbn [get map fst]; [cbn; tauto|]. destruct (bs_eqb_spec k k') as [->|N].
  - split; [discriminate|]. intro H. elim H. now left.
  - rewrite IH. cbn. intuition congruence.
Qed.
Lemma params_read : forall ps s, parameters ps s -> forall n acc, (length s <= n)%nat -> NoDup (map fst (rev ps ++ acc)) -> params n acc s = Some (PsOk (rev ps ++ acc)).
Proof.
  intros ps s H. induction H as [s S|s r S R|p s ps r P H IH]; intros n acc LE ND.
  - destruct n; cbn [params]; now rewrite only_spaces.
  - assert (X : trim_space_left (s ++ ";"%char :: r) = ";"%char :: r) by (apply skip_spaces; [exact S|reflexivity]).
    destruct n; [rewrite app_length in LE; cbn in LE; lia|]. cbn [params]. rewrite X. unfold param. rewrite X, Ascii.eqb_refl, (only_spaces r R). cbn [token take_while drop_while].
    now rewrite trim_semicolon.
  - destruct (param_read p s r P (parameters_end _ _ H)) as (PR & NE & LS). rewrite app_length in LE. destruct n as [|n]; [lia|]. cbn [params].
    destruct (trim_space_left (s ++ r)); [easy|]. rewrite PR. destruct P as (b1 & b2 & key & b3 & b4 & val & _ & _ & _ & _ & _ & _ & ST & L & _). rewrite (lower_no_star _ _ L ST).
    cbn [rev] in ND |- *. rewrite <- app_assoc in ND |- *. cbn [app] in ND |- *.
    replace (get (fst p) acc) with (@None bs).
    + destruct p as [k v]. cbn [fst snd]. apply IH; [lia|exact ND].
    + symmetry. apply get_none. rewrite map_app in ND. apply NoDup_remove_2 in ND. intro I. apply ND. apply in_app_iff. now right.
Qed.
Lemma params_twice : forall ps1 s, parameters ps1 s -> forall k v ps2 v' ps3 a n acc, ps1 = a ++ (k, v') :: ps3 -> acc = rev ps2 -> In (k, v) (a ++ ps2) -> v <> v' ->
  (length s <= n)%nat -> NoDup (map fst (rev a ++ acc)) -> params n acc s = Some PsTwice.
Proof.
  intros ps1 s H. induction H as [s S|s r S R|p s ps r P H IH]; intros k v ps2 v' ps3 a n acc E EA I NE LE ND.
  - destruct a; discriminate.
  - destruct a; discriminate.
  - destruct (param_read p s r P (parameters_end _ _ H)) as (PR & NN & LS). rewrite app_length in LE. destruct n as [|n]; [lia|]. cbn [params].
    destruct (trim_space_left (s ++ r)); [easy|]. rewrite PR. destruct P as (b1 & b2 & key & b3 & b4 & val & _ & _ & _ & _ & _ & _ & ST & L & _). rewrite (lower_no_star _ _ L ST).
    destruct a as [|q a]; cbn [app] in E; injection E as -> ->.
    + cbn [fst snd]. cbn [rev app] in ND. rewrite (proj2 (get_in k v acc ND)); [|subst acc; now apply -> in_rev]. destruct (bs_eqb_spec v' v); [congruence|reflexivity].
    + cbn [rev] in ND. rewrite <- app_assoc in ND. cbn [app] in ND. replace (get (fst q) acc) with (@None bs).
      * destruct q as [k0 v0]. cbn [fst snd]. apply (IH k v (ps2 ++ [(k0, v0)]) v' ps3 a); [reflexivity| | |exact NE|lia|exact ND].
        -- subst acc. now rewrite rev_app_distr.
        -- cbn [app] in I. rewrite app_assoc. apply in_app_iff. destruct I as [<-|I]; [right; now left|now left].
      * symmetry. apply get_none. rewrite map_app in ND. apply NoDup_remove_2 in ND. intro J. apply ND. apply in_app_iff. now right.
Qed.

(** ** The header *)
Lemma spaces_small : forall s, spaces s -> Forall (fun c => code c < 128) s.
Proof. intros s H. eapply Forall_impl; [|exact H]. intros c W. unfold white in W. lia. Qed.
Lemma plain_small : forall s, Forall plain_char s -> Forall (fun c => code c < 128) s.
Proof. intros s H. eapply Forall_impl; [|exact H]. intros c [W _]. lia. Qed.
Lemma specials_small : forall c, In c specials -> code c < 128.
Proof. assert (F : Forall (fun c => code c < 128) specials) by (repeat constructor). now apply Forall_forall. Qed.
Lemma quoted_small : forall v q, quoted_text v q -> Forall (fun c => code c < 128) q.
Proof. intros v q H. induction H as [|c v q C N1 N2 N3 N4 H IH|c v q I H IH|c v q I H IH]; [repeat constructor|now constructor| |]; (constructor; [reflexivity|]); [|exact IH]. constructor; [now apply specials_small|exact IH]. Qed.
Lemma parameters_small : forall ps s, parameters ps s -> Forall (fun c => code c < 128) s.
Proof.
  intros ps s H. induction H as [s S|s r S R|p s ps r P H IH].
  - now apply spaces_small.
  - apply Forall_app. split; [now apply spaces_small|]. constructor; [reflexivity|now apply spaces_small].
  - apply Forall_app. split; [|exact IH]. destruct P as (b1 & b2 & key & b3 & b4 & val & -> & B1 & B2 & B3 & B4 & [_ K] & _ & _ & V).
    apply Forall_app. split; [now apply spaces_small|]. constructor; [reflexivity|]. apply Forall_app. split; [now apply spaces_small|]. apply Forall_app. split; [now apply plain_small|].
    apply Forall_app. split; [now apply spaces_small|]. constructor; [reflexivity|]. apply Forall_app. split; [now apply spaces_small|].
    destruct V as [[[_ V] ->]|(q & Q & ->)]; [now apply plain_small|]. constructor; [reflexivity|]. eapply quoted_small; eauto.
Qed.
Lemma type_chars : forall s, type_name s -> Forall (fun c => plain_char c \/ c = "/"%char) s.
Proof.
  assert (W : forall s, token_word s -> Forall (fun c => plain_char c \/ c = "/"%char) s).
  { intros s [_ F]. eapply Forall_impl; [|exact F]. intros c P. now left. }
  intros s [T|(x & y & X & Y & ->)]; [now apply W|]. apply Forall_app. split; [now apply W|]. constructor; [now right|now apply W].
Qed.
Lemma lowered_plain : forall c d, lowered c d -> plain_char c -> plain_char d.
Proof.
  intros c d L P. apply lowered_ascii in L. subst d. revert c P.
  assert (K : forall c, implb (token_char c) (token_char (lower_ascii c)) = true) by (apply for_all_bytes; vm_compute; reflexivity).
  intros c P. apply plain_iff. apply plain_iff in P. specialize (K c). now rewrite P in K.
Qed.
Lemma lowered_token : forall s l, in_lower s l -> token_word s -> token_word l.
Proof.
  intros s l H [N F]. split; [intro; subst; inversion H; now subst|]. clear N. induction H as [|x y s l L H IH]; [constructor|]. inversion F; subst. constructor; [eapply lowered_plain; eauto|auto].
Qed.
Lemma type_good : forall s l, in_lower s l -> type_name s -> good_type l = true.
Proof.
  assert (W : forall l s, token_word l -> word_ends s -> token (l ++ s) = (l, s)) by (intros l s [_ F] E; now apply token_read).
  intros s l L [T|(x & y & X & Y & ->)]; unfold good_type.
  - apply (lowered_token _ _ L) in T. rewrite <- (app_nil_r l), W; [|exact T|exact I]. destruct T, l; easy.
  - apply Forall2_app_inv_l in L as (lx & r & L1 & L2 & ->). inversion L2 as [|? z ? ly L3 L4]; subst. apply lowered_ascii in L3. change (lower_ascii "/") with "/"%char in L3. subst z.
    apply (lowered_token _ _ L1) in X. apply (lowered_token _ _ L4) in Y. rewrite W; [|exact X|apply special_ends; cbn; tauto]. destruct lx; [now destruct X|]. cbn [Ascii.eqb].
    rewrite <- (app_nil_r ly), W; [|exact Y|exact I]. destruct ly; [now destruct Y|]. reflexivity.
Qed.
Lemma type_edges : forall s, Forall (fun c => plain_char c \/ c = "/"%char) s -> stands_out s.
Proof. intros [|c s] F; [exact I|]. inversion F as [|? ? [P|P] _]; subst; [now apply plain_not_white|reflexivity]. Qed.
Lemma trim_type : forall a s b, spaces a -> s <> [] -> Forall (fun c => plain_char c \/ c = "/"%char) s -> spaces b -> trim (a ++ s ++ b) = s.
Proof.
  intros a s b A N S B0. unfold trim. rewrite skip_spaces; [|exact A|]. 2: { pose proof (type_edges _ S). destruct s; [easy|exact H]. }
  rewrite rev_app_distr, skip_spaces; [apply rev_involutive|apply Forall_rev; exact B0|]. apply type_edges. now apply Forall_rev.
Qed.
Lemma lower_spaces : forall a, spaces a -> lower a = a.
Proof.
  intros a H. apply lower_read. induction H as [|c a W H IH]; constructor; [|exact IH]. right. split; [|reflexivity]. unfold upper. unfold white in W. lia.
Qed.
(** Where the parameters start. *)
Lemma parameters_start : forall ps s, parameters ps s -> exists b r, s = b ++ r /\ spaces b /\ parameters ps r /\ (r = [] \/ exists r', r = ";"%char :: r').
Proof.
  intros ps s H. destruct H as [s S|s r S R|p s ps r P H].
  - exists s, []. rewrite app_nil_r. repeat split; auto. constructor. constructor.
  - exists s, (";"%char :: r). repeat split; eauto. apply (pm_semicolon []); [constructor|exact R].
  - destruct P as (b1 & b2 & key & b3 & b4 & val & -> & B1 & P). exists b1, ((";"%char :: b2 ++ key ++ b3 ++ "="%char :: b4 ++ val) ++ r). rewrite <- app_assoc. split; [reflexivity|]. split; [exact B1|].
    split; [|right; eexists; reflexivity]. constructor; [|exact H]. exists [], b2, key, b3, b4, val. split; [reflexivity|]. split; [constructor|exact P].
Qed.
Lemma media_eq : forall mt ps ct, content_type mt ps ct -> exists s, parameters ps s /\ (length s <= length ct)%nat /\
  media_params ct = match params (length ct) [] s with
             | None => None
             | Some (PsOk ps) => Some (mt, ps)
             | Some PsBad => Some (mt, [])
             | Some PsTwice => Some ([], [])
             end.
Proof.
  intros mt ps ct (b1 & name & b2 & rest & E & B1 & T & B2 & L & P). destruct (parameters_start _ _ P) as (b3 & r & -> & B3 & PR & R). exists r. split; [exact PR|].
  assert (SM : forallb (fun c => code c <? 128) ct = true).
  { apply forallb_forall. apply Forall_forall. apply parameters_small in P. apply spaces_small in B1, B2. subst ct.
    enough (F : Forall (fun c => code c < 128) (b1 ++ name ++ b2 ++ b3 ++ r)) by (eapply Forall_impl; [|exact F]; intros c H; now apply Z.ltb_lt).
    apply Forall_app. split; [exact B1|]. apply Forall_app. split; [|apply Forall_app; split; [exact B2|exact P]]. eapply Forall_impl; [|apply type_chars; exact T]. intros c [[X _]|X]; [lia|subst; reflexivity]. }
  assert (NS : ~ In ";"%char (b1 ++ name ++ b2 ++ b3)).
  { intro I. rewrite !in_app_iff in I. unfold spaces in *. rewrite Forall_forall in B1, B2, B3. pose proof (type_chars _ T) as TC. rewrite Forall_forall in TC.
    assert (SP : In ";"%char specials) by (cbn; tauto).
    destruct I as [I|[I|[I|I]]]; [now elim (white_not _ _ (B1 _ I) SP)| |now elim (white_not _ _ (B2 _ I) SP)|now elim (white_not _ _ (B3 _ I) SP)].
    destruct (TC _ I) as [X|X]; [now elim (plain_not _ _ X SP)|discriminate]. }
  assert (CE : ct = (b1 ++ name ++ b2 ++ b3) ++ r) by (subst ct; now rewrite <- !app_assoc).
  assert (CU : fst (cut ";" ct) = b1 ++ name ++ b2 ++ b3) by (rewrite CE; destruct R as [->|(r' & ->)]; [rewrite app_nil_r, cut_none by exact NS|rewrite cut_app by exact NS]; reflexivity).
  assert (NN : name <> []) by (destruct T as [[X _]|(x & y & _ & _ & ->)]; [exact X|now destruct x]).
  split; [rewrite CE, (app_length _ r); lia|].
  unfold media_params. rewrite SM. cbn [negb]. rewrite CU.
  assert (TR : trim (lower (b1 ++ name ++ b2 ++ b3)) = mt).
  { unfold lower. rewrite !map_app. fold (lower b1) (lower b2) (lower b3) (lower name). rewrite (lower_spaces _ B1), (lower_spaces _ B2), (lower_spaces _ B3), (lower_read _ _ L).
    apply trim_type; [exact B1| |  |now apply Forall_app].
    - intros ->. inversion L. now subst.
    - pose proof (type_chars _ T) as TC. clear -L TC. induction L as [|x y s l X L IH]; [constructor|]. inversion TC as [|? ? [C|C] TC']; subst; (constructor; [|now apply IH]).
      + left. eapply lowered_plain; eauto.
      + right. apply lowered_ascii in X. exact X. }
  rewrite TR, (type_good _ _ L T). cbn [negb]. rewrite CE at 2. now rewrite skipn_app, skipn_all, Nat.sub_diag.
Qed.
Lemma params_of_type : forall mt ps ct, content_type mt ps ct ->
  (NoDup (map fst ps) -> exists qs, media_params ct = Some (mt, qs) /\ NoDup (map fst qs) /\ forall k v, In (k, v) qs <-> In (k, v) ps) /\
  (at_odds ps -> media_params ct = Some ([], [])).
Proof.
  intros mt ps ct C. destruct (media_eq _ _ _ C) as (s & P & LE & ->). split.
  - intro ND. assert (ND' : NoDup (map fst (rev ps))) by (rewrite map_rev; now apply NoDup_rev).
    rewrite (params_read ps s P); [|exact LE|now rewrite app_nil_r]. rewrite app_nil_r. exists (rev ps). split; [reflexivity|]. split; [exact ND'|]. intros k v. symmetry. apply in_rev.
  - intros (ps1 & k & v & ps2 & v' & ps3 & E & ND & NE).
    rewrite (params_twice ps s P k v [] v' ps3 (ps1 ++ (k, v) :: ps2)); [reflexivity| |reflexivity| |exact NE|exact LE|].
    + rewrite E, <- app_assoc. reflexivity.
    + rewrite app_nil_r. apply in_app_iff. right. now left.
    + rewrite app_nil_r, map_rev. now apply NoDup_rev.
Qed.
Lemma param_of_in : forall k ps, NoDup (map fst ps) -> (forall v, In (k, v) ps -> param_of k ps = v) /\ ((forall v, ~ In (k, v) ps) -> param_of k ps = []).
Proof.
  intros k ps ND. unfold param_of. split.
  - intros v I. now rewrite (proj2 (get_in k v ps ND) I).
  - intro N. destruct (get k ps) as [v|] eqn:G; [|reflexivity]. apply get_in in G; [|exact ND]. now elim (N v).
Qed.
(** What a header says of the body. *)
Theorem C20_media_types : forall mt ps ct, content_type mt ps ct ->
  (NoDup (map fst ps) -> exists b, media ct = Some (mt, b) /\ (forall v, In (B "boundary", v) ps -> b = v) /\ ((forall v, ~ In (B "boundary", v) ps) -> b = [])) /\
  (at_odds ps -> media ct = Some ([], [])).
Proof.
  intros mt ps ct C. destruct (params_of_type _ _ _ C) as (T1 & T2). unfold media. split.
  - intro ND. destruct (T1 ND) as (qs & -> & NQ & Q). eexists. split; [reflexivity|]. destruct (param_of_in (B "boundary") qs NQ) as (F1 & F2). split.
    + intros v I. apply F1. now apply Q.
    + intro N. apply F2. intros v I. apply (N v). now apply Q.
  - intro AO. now rewrite (T2 AO).
Qed.
(** A body is a form to the rules exactly by its media type: of any other type but multipart, no line about its fields refuses it. *)
Theorem C90_other_types_unread : forall O n lines text fuel, ord_valid O -> Forall (good_form_line O) lines -> file_text (form_directives lines) text -> (length text < fuel)%nat ->
  exists l, new_direset fuel O n text = Ret (Some l) /\
    let e := execute l new_engine in
    forall f ip port ip2 port2 u m p h ct pieces later t bl,
      first_value (B "Content-Type") h ct -> ct <> [] ->
      (forall s, fst (media_type O ct) <> B "application/x-www-form-urlencoded" ++ s) -> (forall s, fst (media_type O ct) <> B "multipart/" ++ s) ->
      Forall after_request later ->
      steps f O e (e_ruleset e) ((([OpConnection ip port ip2 port2; OpRequestURL u m p; OpRequestHeader h] ++ map (fun x => OpAppendRequestBody x NoFault) pieces) ++ OpRequestBody :: later) ++ [OpResult]) (new_txn e) = Ret (t, bl) ->
      exists i bl', bl = bl' ++ [ObsResult i] /\ i_disruptive i = false.
Proof.
  intros O n lines text fuel OV G FT FU.
  destruct (text_loads O n _ text fuel FT) as (l & LD); [|exact FU|].
  { constructor; [exact I|]. apply Forall_map. eapply Forall_impl; [|exact G]. intros d [EX RX]. split; [|split].
    - constructor; [|constructor]. split; [discriminate|]. intros _ q Q. elim (EX q Q).
    - exact RX.
    - constructor; [|constructor]. left. now left. }
  exists l. split; [exact LD|]. intros e f ip port ip2 port2 u m p h ct pieces later t bl FV CN N1 N2 LA H.
  set (pre := [OpConnection ip port ip2 port2; OpRequestURL u m p; OpRequestHeader h] ++ map (fun x => OpAppendRequestBody x NoFault) pieces) in *.
  destruct (C65_execute l new_engine) as (_ & _ & _ & _ & _ & _ & _ & L2 & _). fold e in L2.
  assert (M : 0 <= e_reqmem e) by (rewrite L2; discriminate).
  assert (RW : request_writes pre = map (fun x => BWrite x NoFault) pieces) by (unfold pre; rewrite request_writes_app, piece_writes; reflexivity).
  assert (FF : fault_free (request_writes pre)).
  { rewrite RW. intros x ft I. apply in_map_iff in I as (y & Y & _). now injection Y. }
  assert (FEE : Forall feeding pre) by (apply Forall_app; split; [repeat constructor|]; apply Forall_map, Forall_forall; easy).
  assert (AH : ahead pre 3).
  { intros o q I Q. apply in_app_iff in I as [[<-|[<-|[<-|[]]]]|I]; try discriminate; try (injection Q as <-; reflexivity). apply in_map_iff in I as (x & <- & _). discriminate. }
  assert (AR : Forall after_request (OpRequestBody :: later)) by (constructor; [exact I|exact LA]).
  assert (CH : current request_header [] pre h).
  { left. exists [OpConnection ip port ip2 port2; OpRequestURL u m p]. eexists _, (map (fun x => OpAppendRequestBody x NoFault) pieces).
    split; [reflexivity|]. split; [reflexivity|]. intros o' I. apply in_map_iff in I as (x & <- & _). reflexivity. }
  assert (OR : orderly O e pre) by (eapply or_other; [exact CH|exact FV|reflexivity| |]; destruct ct; try easy; assumption).
  destruct (C90_orderly_requests fuel O n text _ l OV FT LD (form_straight lines) (form_bodiless lines 1 ltac:(discriminate)) (form_bodiless lines 2 ltac:(discriminate))
     f pre (OpRequestBody :: later) t bl FF FEE AH OR AR H) as (i & bl' & E & X).
  exists i, bl'. split; [exact E|]. destruct (i_disruptive i) eqn:D; [|reflexivity]. exfalso. apply proj1 in X. specialize (X eq_refl). fold e in X. clear D.
  assert (PL : forall q, 1 <= q <= 6 -> plain_actions (e_ruleset e) q) by (intros q Q; eapply text_plain; eauto using form_straight).
  assert (GA : forall q, 1 <= q < 3 -> gate (e_ruleset e) q).
  { intros q Q. eapply text_gate; eauto using form_straight; [clear -Q; lia|apply form_bodiless; clear -Q; lia]. }
  destruct X as (a & o & b & q & s & c & Q1 & Q2 & Q3 & Q4 & (w & cs & CI & PH & _ & FA)). apply form_chains in CI as (d & I & EQ). injection EQ as -> ->. cbn in PH. subst q.
  inversion FA as [|? ? W _]; subst.
  destruct (request_readable _ _ _ _ _ _ _ _ _ _ _ _ OV M FF (fun q Q => proj2 (GA q Q)) FEE AH OR AR Q1 Q2 ltac:(discriminate) Q4) as (AO & (a2 & EA & A2) & _).
  assert (RH : t_reqheader (given o s) = h).
  { pose proof (evaluating_holds _ _ _ _ _ _ (ev_between f O e (e_ruleset e) a s c Q4)) as (_ & _ & RH & _).
    assert (CA : current request_header [] a h).
    { subst a. clearbody pre. clear -A2 CH. revert pre CH. induction A2 as [|y l Y _ IH]; intros pre CH; [now rewrite app_nil_r|].
      replace (pre ++ y :: l) with ((pre ++ [y]) ++ l) by now rewrite <- app_assoc. apply IH. apply current_skip; [destruct y; easy|exact CH]. }
    pose proof (current_fun _ _ _ _ _ _ CA RH). subst h. destruct o; try discriminate Q2; reflexivity. }
  assert (HG : header_get (B "Content-Type") (t_reqheader (given o s)) = ct) by (rewrite RH; eapply first_value_fun; [apply header_first|exact FV]).
  assert (RP : request_body_parse O e (given o s) = Ret (given o s, None)).
  { destruct (parses_dec e (given o s)) as [P|P]; [|now apply body_parse_skip]. rewrite body_parse_eq by exact P. unfold ctype. rewrite HG. destruct ct as [|c0 ct]; [easy|].
    cbn [parse_types bt_ctype]. apply not_prefix in N1, N2. now rewrite N1, N2. }
  destruct W as (tk & cn & sx & y & t2 & vs & v & oo & (pv & [<-|[]] & <- & <-) & V & A' & F' & IN & _). cbn [pv_tok pv_count] in *.
  assert (SX : sx = VColl CArgsPost empty_filter) by (rewrite <- var_means_iff in V; cbn in V; now injection V).
  subst sx. assert (Y : exists ff, y = VColl CArgsPost ff).
  { cbn [form_written w_vars calls_of flat_map pv_tok pv_count pv_index pv_excl app] in A'. cbn in A'. destruct (fl_name d) as [|x0 nm]; cbn in A'; [injection A' as <-; eauto|].
    destruct (filter_include O (x0 :: nm) empty_filter); [injection A' as <-; eauto|discriminate]. }
  destruct Y as (ff & ->). cbn [fetch fetch_coll] in F'. unfold fetch_post in F'. rewrite RP in F'. cbn [bind] in F'. apply Ret_inj in F'. injection F' as _ <-. destruct IN.
Qed.

Lemma some_type : forall mt ps ct, content_type mt ps ct -> ct <> [] /\ mt <> [].
Proof.
  intros mt ps ct (b1 & name & b2 & rest & -> & _ & T & _ & L & _).
  assert (NN : name <> []) by (destruct T as [[X _]|(x & y & _ & _ & ->)]; [exact X|now destruct x]).
  destruct name as [|c name]; [easy|]. split; [now destruct b1|]. inversion L; subst. discriminate.
Qed.
(** The filter of C90_word_form_filter, by the text of the Content-Type header. *)
Theorem C90_form_by_content_type : forall O n lines text fuel, ord_valid O -> library O -> media_library O -> Forall (fun d => exact (fl_name d) /\ exists M, says (fl_pat d) M) lines ->
  file_text (form_directives lines) text -> (length text < fuel)%nat ->
  exists l, new_direset fuel O n text = Ret (Some l) /\
    let e := execute l new_engine in
    forall f ip port ip2 port2 u m p h mt qs ct pieces body ps later t bl,
      In m body_methods -> first_value (B "Content-Type") h ct -> content_type mt qs ct ->
      body = concat pieces -> body <> [] -> Z.of_nat (length body) <= 131072 -> form_pairs ps body -> Forall after_request later ->
      steps f O e (e_ruleset e) ((([OpConnection ip port ip2 port2; OpRequestURL u m p; OpRequestHeader h] ++ map (fun x => OpAppendRequestBody x NoFault) pieces) ++ OpRequestBody :: later) ++ [OpResult]) (new_txn e) = Ret (t, bl) ->
      exists i bl', bl = bl' ++ [ObsResult i] /\
        (mt = B "application/x-www-form-urlencoded" -> NoDup (map fst qs) -> (i_disruptive i = true <-> Exists (form_line_said O ps) lines)) /\
        (at_odds qs -> i_disruptive i = false) /\
        ((forall s, mt <> B "application/x-www-form-urlencoded" ++ s) -> (forall s, mt <> B "multipart/" ++ s) -> NoDup (map fst qs) -> i_disruptive i = false).
Proof.
  intros O n lines text fuel OV L ML W FT FU.
  destruct (C90_word_form_filter O n lines text fuel OV L W FT FU) as (l & LD & Q).
  destruct (C90_other_types_unread O n lines text fuel OV) as (l' & LD' & Q'); [|exact FT|exact FU|].
  { eapply Forall_impl; [|exact W]. intros d (A1 & A2). split; [exact A1|now apply said_ok]. }
  rewrite LD in LD'. apply Ret_inj in LD'. injection LD' as <-.
  exists l. split; [exact LD|]. intros e f ip port ip2 port2 u m p h mt qs ct pieces bd ps later t bl BM FV CT BE BN LB FP LA H.
  destruct (some_type _ _ _ CT) as (CN & MN). destruct (C20_media_types mt qs ct CT) as (T1 & T2).
  assert (R : exists i bl', bl = bl' ++ [ObsResult i]).
  { apply steps_app in H as (s & c & c2 & _ & H & ->). cbn [steps] in H. apply bind_Ret in H as ([s2 b2] & S & H). cbn [step] in S. apply Ret_inj in S. injection S as _ <-. cbn [bind] in H. apply Ret_inj in H. injection H as _ <-. eauto. }
  destruct R as (i & bl' & ->). exists i, bl'. split; [reflexivity|].
  assert (ONE : forall j b2, bl' ++ [ObsResult i] = b2 ++ [ObsResult j] -> j = i) by (intros j b2 E; apply app_inj_tail in E as [_ E]; now injection E).
  split; [|split].
  - intros -> ND. destruct (T1 ND) as (bd' & MD & _). apply ML in MD.
    destruct (Q f ip port ip2 port2 u m p h ct pieces bd ps later t (bl' ++ [ObsResult i]) BM FV CN) as (j & b2 & E & X); try assumption; [now rewrite MD|]. apply ONE in E. subst j. exact X.
  - intro AO. specialize (T2 AO). apply ML in T2.
    destruct (Q' f ip port ip2 port2 u m p h ct pieces later t (bl' ++ [ObsResult i]) FV CN) as (j & b2 & E & X); try assumption; try (rewrite T2; discriminate). apply ONE in E. subst j. exact X.
  - intros N1 N2 ND. destruct (T1 ND) as (bd' & MD & _). apply ML in MD.
    destruct (Q' f ip port ip2 port2 u m p h ct pieces later t (bl' ++ [ObsResult i]) FV CN) as (j & b2 & E & X); try assumption; try (rewrite MD; assumption). apply ONE in E. subst j. exact X.
Qed.
(** The library's regular expressions, URLs and content types, and the rest as in Witness.v. *)
Definition mimer (mp : mpres) : oracles :=
  Oracles (rx_ok (webr mp)) (rx_match (webr mp)) (fun ct => match media ct with Some r => r | None => ([], []) end) (multipart (webr mp)) (url_string (webr mp)) (uni_lower (webr mp)) (semi_sep (webr mp)) (ord (webr mp)).
Lemma mimer_ok : forall mp, ord_valid (mimer mp) /\ library (mimer mp) /\ uri_library (mimer mp) /\ media_library (mimer mp).
Proof. intro mp. destruct (webr_ok mp) as (A & L & U). split; [exact A|]. split; [exact L|]. split; [exact U|]. intros ct mt b E. cbn [mimer media_type]. now rewrite E. Qed.

Example C20_media_example :
  content_type (B "application/x-www-form-urlencoded") [(B "charset", B "a b;""")] (B " Application/x-www-form-URLENCODED ; charset = ""a b;\"""" ; ") /\
  (exists qs, content_type (B "application/x-www-form-urlencoded") qs (B "application/x-www-form-urlencoded; charset=a;charset=b") /\ at_odds qs) /\
  content_type (B "multipart/form-data") [(B "boundary", B "xyz")] (B "multipart/form-data;boundary=xyz").
Proof.
  assert (PL : forall s, forallb token_char s = true -> s <> [] -> token_word s).
  { intros s F N. split; [exact N|]. apply Forall_forall. intros c I. apply plain_iff. rewrite forallb_forall in F. auto. }
  assert (SP : forall s, forallb is_space s = true -> spaces s).
  { intros s F. apply Forall_forall. intros c I. apply white_iff. rewrite forallb_forall in F. auto. }
  assert (LO : forall s, in_lower s (lower s)) by (intro s; induction s; constructor; [apply lower_ascii_lowered|assumption]).
  assert (NS : forall s, existsb (Ascii.eqb "*") s = false -> ~ In "*"%char s).
  { intros s E I. assert (X : existsb (Ascii.eqb "*") s = true) by (apply existsb_exists; exists "*"%char; auto). congruence. }
  assert (TY : forall x y, forallb token_char x = true -> x <> [] -> forallb token_char y = true -> y <> [] -> type_name (x ++ "/"%char :: y)) by (intros x y ? ? ? ?; right; exists x, y; auto).
  split; [|split].
  - exists (B " "), (B "Application/x-www-form-URLENCODED"), (B " "), (B "; charset = ""a b;\"""" ; "). split; [reflexivity|]. split; [now apply SP|].
    split; [apply (TY (B "Application")); now vm_compute|]. split; [now apply SP|]. split; [apply LO|].
    apply (pm_one (B "charset", B "a b;""") (B "; charset = ""a b;\""""") [] (B " ; ")); [|apply (pm_semicolon (B " ") (B " ")); now apply SP].
    exists [], (B " "), (B "charset"), (B " "), (B " "), (B """a b;\"""""). split; [reflexivity|]. split; [now apply SP|]. split; [now apply SP|]. split; [now apply SP|]. split; [now apply SP|].
    split; [now apply PL|]. split; [now apply NS|]. split; [apply (LO (B "charset"))|]. right. eexists. split; [|reflexivity].
    do 4 (apply qt_plain; [reflexivity|discriminate|discriminate|discriminate|discriminate|]). apply qt_escaped; [cbn; tauto|]. constructor.
  - assert (ONE : forall v, forallb token_char v = true -> v <> [] -> parameter (B "charset", v) (B ";charset=" ++ v)).
    { intros v F N. exists [], [], (B "charset"), [], [], v. split; [reflexivity|]. split; [now apply SP|]. split; [now apply SP|]. split; [now apply SP|]. split; [now apply SP|].
      split; [now apply PL|]. split; [now apply NS|]. split; [apply (LO (B "charset"))|]. left. split; [now apply PL|reflexivity]. }
    exists [(B "charset", B "a"); (B "charset", B "b")]. split.
    + exists [], (B "application/x-www-form-urlencoded"), [], (B "; charset=a;charset=b"). split; [reflexivity|]. split; [now apply SP|]. split; [apply (TY (B "application")); now vm_compute|]. split; [now apply SP|].
      split; [apply LO|]. apply (pm_one _ (B "; charset=a") _ (B ";charset=b")).
      * exists [], (B " "), (B "charset"), [], [], (B "a"). split; [reflexivity|]. split; [now apply SP|]. split; [now apply SP|]. split; [now apply SP|]. split; [now apply SP|].
        split; [now apply PL|]. split; [now apply NS|]. split; [apply (LO (B "charset"))|]. left. split; [now apply PL|reflexivity].
      * apply (pm_one _ (B ";charset=" ++ B "b") [] []); [now apply ONE|]. constructor. now apply SP.
    + exists [], (B "charset"), (B "a"), [], (B "b"), []. split; [reflexivity|]. split; [repeat constructor; easy|discriminate].
  - exists [], (B "multipart/form-data"), [], (B ";boundary=xyz"). split; [reflexivity|]. split; [now apply SP|]. split; [apply (TY (B "multipart")); now vm_compute|]. split; [now apply SP|].
    split; [apply (LO (B "multipart/form-data"))|]. apply (pm_one _ (B ";boundary=xyz") [] []); [|constructor; now apply SP].
    exists [], [], (B "boundary"), [], [], (B "xyz"). split; [reflexivity|]. split; [now apply SP|]. split; [now apply SP|]. split; [now apply SP|]. split; [now apply SP|].
    split; [now apply PL|]. split; [now apply NS|]. split; [apply (LO (B "boundary"))|]. left. split; [now apply PL|reflexivity].
Qed.
(** One and the same body, refused under one header and let through under the other. *)
Example C90_content_type_example : let O := mimer MpErr in
  let lines := [FormLine (B "user") [KLowercase] (B "^root") 1] in
  let text := B "SecRequestBodyAccess On" ++ [LF] ++ B "SecRule ARGS_POST:user ""@rx ^root"" ""id:1,phase:3,t:lowercase,deny""" in
  let calls ct := [OpConnection [] [] [] []; OpRequestURL (Some (demo_url "/" "")) (B "POST") (B "HTTP/1.1"); OpRequestHeader [(B "Content-Type", [B ct])];
                   OpAppendRequestBody (B "user=Root") NoFault; OpRequestBody; OpResult] in
  Forall (fun d => exact (fl_name d) /\ exists M, says (fl_pat d) M) lines /\ file_text (form_directives lines) text /\
  exists l, new_direset 500 O 0 text = Ret (Some l) /\ let e := execute l new_engine in
    (exists t bl i, steps 5 O e (e_ruleset e) (calls "application/x-www-form-urlencoded; charset=a"%string) (new_txn e) = Ret (t, bl ++ [ObsResult i]) /\ i_disruptive i = true) /\
    (exists t bl i, steps 5 O e (e_ruleset e) (calls "application/x-www-form-urlencoded; charset=a;charset=b"%string) (new_txn e) = Ret (t, bl ++ [ObsResult i]) /\ i_disruptive i = false).
Proof.
  cbv zeta. split; [|split].
  - constructor; [|constructor]. split; [intros p Q; discriminate Q|]. eexists; apply (say_starts (B "root")); now apply plain_by.
  - apply parse_text_iff. exists 500%nat. vm_compute. reflexivity.
  - eexists. split; [vm_compute; reflexivity|]. split; eexists _, [_; _; _; _; _], _; (split; [vm_compute; reflexivity|reflexivity]).
Qed.
Print Assumptions C20_media_types.
Print Assumptions C90_other_types_unread.
Print Assumptions C90_form_by_content_type.
