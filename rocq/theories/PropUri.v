(** Request targets: what REQUEST_URI, REQUEST_FILENAME and QUERY_STRING show of the text the client sent. *)
From Verif Require Import Base BaseFacts GoStrings Utils Buffer BufferFacts SpecBuffer Types Transforms Operators Transaction Variables Rules Engine
  SpecText NumFacts TextFacts TransFacts SpecVars VarText VarFacts BodyFacts SpecRules PropText PropVars RuleFacts Scanner Registry Loader SpecParse ParseFacts ParseLists ParseFiles ParsePrint
  SpecLoad LoadFacts SpecTxn TxnFacts LoopFacts Witness PropRules PropPhases PropTxn PropLoad PropEnd Regex SpecRegex PropRegex Uri SpecUri.
From Coq Require Import ZifyBool.

(** ** Escapes *)
Lemma among_iff : forall l c, among l c = true <-> In c l.
Proof. intros l c. unfold among. rewrite existsb_exists. split; [intros (d & I & E); apply Ascii.eqb_eq in E; now subst|intro I; exists c; split; [exact I|apply Ascii.eqb_refl]]. Qed.
Lemma alnum_iff : forall c, is_alnum c = true <-> alnum c.
Proof. intro c. unfold is_alnum, is_digit, in_range, alnum. change (code "a") with 97. change (code "z") with 122. change (code "A") with 65. change (code "Z") with 90. change (code "0") with 48. change (code "9") with 57. lia. Qed.
Lemma shown_iff : forall c, path_escaped c = false <-> shown_byte c.
Proof.
  intro c. unfold path_escaped, shown_byte. rewrite negb_false_iff, !orb_true_iff, !among_iff, alnum_iff. change (B "-_.~$&+,/:;=@") with (B "-_.~" ++ B "$&+,/:;=@"). rewrite in_app_iff. tauto.
Qed.
Lemma path_byte_iff : forall c, among (B "!$&'()*+,;=:@[]%") c || negb (path_escaped c) = true <-> path_byte c.
Proof.
  intro c. rewrite orb_true_iff, negb_true_iff, shown_iff, among_iff. unfold path_byte, shown_byte. cbn [In B]. unfold B. cbn. tauto.
Qed.
Lemma valid_iff : forall s, valid_encoded s = true <-> Forall path_byte s.
Proof. intro s. unfold valid_encoded. rewrite forallb_forall, Forall_forall. split; intros H c I; now apply path_byte_iff, H. Qed.
Lemma ishex_same : forall c, is_hex c = IsHex c /\ (is_hex c = true -> unhex c = UnHex c).
Proof.
  intro c. assert (K : forallb (fun c => Bool.eqb (is_hex c) (IsHex c) && (negb (is_hex c) || (unhex c =? UnHex c))) all_bytes = true) by (vm_compute; reflexivity).
  pose proof (for_all_bytes _ K c) as Q. apply andb_true_iff in Q as (Q1 & Q2). apply eqb_prop in Q1. split; [exact Q1|]. intro H. rewrite H in Q2. cbn in Q2. lia.
Qed.
Lemma unescape_iff : forall e p, path_unescape e = Some p <-> spells_path e p.
Proof.
  assert (F : forall n e p, (length e <= n)%nat -> path_unescape e = Some p -> spells_path e p).
  { induction n as [|n IH]; intros [|c e] p L H; try (cbn [length] in L; lia); try (injection H as <-; constructor).
    cbn [path_unescape] in H. destruct (Ascii.eqb_spec c "%") as [->|N].
    - destruct e as [|a [|b e]]; try discriminate H. destruct (is_hex a && is_hex b) eqn:X; [|discriminate H]. apply andb_true_iff in X as (X1 & X2).
      destruct (path_unescape e) as [q|] eqn:Q; [|discriminate H]. injection H as <-. destruct (ishex_same a) as (A1 & A2), (ishex_same b) as (B1 & B2).
      rewrite A1 in X1. rewrite B1 in X2. apply sp_hex with (hi := UnHex a) (lo := UnHex b); [now apply ishex_hexdigit|now apply ishex_hexdigit| |apply IH; [cbn [length] in L; lia|exact Q]].
      rewrite A2, B2 by congruence. pose proof (unhex_range a). pose proof (unhex_range b). rewrite code_byte_of_small; lia.
    - destruct (path_unescape e) as [q|] eqn:Q; [|discriminate H]. injection H as <-. apply sp_same; [exact N|]. apply IH; [cbn [length] in L; lia|exact Q]. }
  intros e p. split; [now apply (F (length e))|]. intro H. induction H as [|h l hi lo b e p H1 H2 E H IH|c e p N H IH]; [reflexivity| |]; cbn [path_unescape].
  - cbn [Ascii.eqb Bool.eqb]. apply hexdigit_ishex in H1 as (A1 & A2 & A3), H2 as (B1 & B2 & B3). destruct (ishex_same h) as (X1 & X2), (ishex_same l) as (Y1 & Y2).
    rewrite X1, Y1, A1, B1. cbn [andb]. rewrite IH. cbn [option_map]. rewrite X2, Y2 by congruence. rewrite A2, B2. do 2 f_equal. apply code_inj. rewrite code_byte_of_small; lia.
  - destruct (Ascii.eqb_spec c "%"); [easy|]. now rewrite IH.
Qed.
Lemma spells_fun : forall e p p', spells_path e p -> spells_path e p' -> p = p'.
Proof. intros e p p' H H'. apply unescape_iff in H, H'. congruence. Qed.
Lemma hex_up : forall z, 0 <= z < 16 -> nth_error (B "0123456789ABCDEF") (Z.to_nat z) = Some (hex_digit z).
Proof. intros z R. unfold hex_digit. apply nth_error_nth'. cbn. lia. Qed.
Lemma escape_rewritten : forall p, rewritten p (path_escape p).
Proof.
  induction p as [|c p IH]; [constructor|]. unfold path_escape. cbn [flat_map]. fold (path_escape p). unfold escape_byte. destruct (path_escaped c) eqn:E; cbn [app].
  - pose proof (code_range c). pose proof (Z.div_mod (code c) 16 ltac:(lia)). pose proof (Z.mod_pos_bound (code c) 16 ltac:(lia)). pose proof (Z.div_pos (code c) 16 ltac:(lia) ltac:(lia)).
    apply rw_hex with (hi := code c / 16) (lo := code c mod 16); try (apply hex_up); try (apply IH); [|lia|lia|lia|lia|lia].
    intro X. apply shown_iff in X. congruence.
  - apply rw_same; [now apply shown_iff|exact IH].
Qed.
Lemma rewritten_fun : forall p e, rewritten p e -> e = path_escape p.
Proof.
  intros p e H. induction H as [|c p e S H IH|c hi lo h l p e S H1 H2 E N1 N2 H IH]; [reflexivity| |]; unfold path_escape; cbn [flat_map]; fold (path_escape p); rewrite <- IH; unfold escape_byte.
  - apply shown_iff in S. now rewrite S.
  - assert (X : path_escaped c = true) by (destruct (path_escaped c) eqn:Q; [reflexivity|]; apply shown_iff in Q; easy). rewrite X.
    assert (L1 : hi < 16) by (assert (Z.to_nat hi < 16)%nat by (apply (proj1 (nth_error_Some (B "0123456789ABCDEF") _)); congruence); lia).
    assert (L2 : lo < 16) by (assert (Z.to_nat lo < 16)%nat by (apply (proj1 (nth_error_Some (B "0123456789ABCDEF") _)); congruence); lia).
    rewrite (hex_up hi) in N1 by lia. rewrite (hex_up lo) in N2 by lia. injection N1 as <-. injection N2 as <-.
    replace (code c / 16) with hi by (apply (Z.div_unique _ _ _ lo); lia). replace (code c mod 16) with lo by (apply (Z.mod_unique _ _ hi); lia). reflexivity.
Qed.
Lemma hex_shown : forall h v, hexdigit h v -> shown_byte h.
Proof. intros h v H. apply hexdigit_ishex in H as (H & _). left. apply alnum_iff. revert h H. assert (K : forallb (fun h => negb (IsHex h) || is_alnum h) all_bytes = true) by (vm_compute; reflexivity).
  intros h H. pose proof (for_all_bytes _ K h) as Q. cbn beta in Q. rewrite H in Q. exact Q. Qed.
Lemma rewritten_spells : forall p e, rewritten p e -> spells_path e p /\ Forall path_byte e.
Proof.
  intros p e H. induction H as [|c p e S H IH|c hi lo h l p e S H1 H2 E N1 N2 H (IH1 & IH2)].
  - split; constructor.
  - destruct IH as (IH1 & IH2). split; [apply sp_same; [|exact IH1]|constructor; [now left|exact IH2]]. intros ->. destruct S as [[X|[X|X]]|X]; [cbn in X; lia..|]. cbn in X. intuition discriminate.
  - assert (D1 : hexdigit h hi) by (split; [exact H1|now right]). assert (D2 : hexdigit l lo) by (split; [exact H2|now right]).
    split; [now apply sp_hex with (hi := hi) (lo := lo)|]. constructor; [right; now left|]. constructor; [left; exact (hex_shown _ _ D1)|]. constructor; [left; exact (hex_shown _ _ D2)|exact IH2].
Qed.

(** ** Targets *)
Lemma target_cut : forall t raw q, target t raw q <-> match cut "?" t with (a, Some b) => raw = a /\ q = "?"%char :: b | (a, None) => raw = a /\ q = [] end.
Proof.
  intros t raw q. split.
  - intros [p q' N [->|(r & ->)]]; [rewrite app_nil_r, cut_none by exact N|rewrite cut_app by exact N]; now split.
  - pose proof (cut_spec "?" t) as C. destruct (cut "?" t) as [a [b|]]; destruct C as (N & ->); intros (-> & ->).
    + constructor; [exact N|right; now exists b].
    + rewrite <- (app_nil_r a) at 1. constructor; [exact N|now left].
Qed.
Lemma target_fun : forall t raw q raw' q', target t raw q -> target t raw' q' -> raw = raw' /\ q = q'.
Proof. intros t raw q raw' q' H H'. apply target_cut in H, H'. destruct (cut "?" t) as [a [b|]]; destruct H as (-> & ->), H' as (-> & ->); now split. Qed.
Lemma target_text : forall t raw q, target t raw q -> t = raw ++ q.
Proof. intros t raw q []. reflexivity. Qed.
Lemma target_total : forall t, exists raw q, target t raw q.
Proof. intro t. destruct (cut "?" t) as [a [b|]] eqn:E; eexists a, _; apply target_cut; rewrite E; now split. Qed.
Lemma no_control_iff : forall t, existsb is_ctl t = false <-> no_control t.
Proof.
  intro t. split.
  - intros H c I. destruct (Z_lt_le_dec (code c) 32) as [L|G]; [|destruct (Z.eq_dec (code c) 127) as [E|N]; [|now split]];
      assert (X : existsb is_ctl t = true) by (apply existsb_exists; exists c; split; [exact I|unfold is_ctl; lia]); congruence.
  - intro H. apply not_true_iff_false. intro X. apply existsb_exists in X as (c & I & X). destruct (H c I). unfold is_ctl in X. lia.
Qed.
(** What a target is taken apart to. *)
Lemma parse_target_iff : forall t u, parse_target t = Some u <->
  no_control t /\ exists raw q path, target t raw q /\ spells_path raw path /\ (t = B "*" \/ exists r, t = "/"%char :: r) /\
    u = Url [] [] None [] path (query_text q) ((if bs_eqb raw (path_escape path) || bs_eqb t (B "*") then [] else raw) ++ (if bs_eqb q (B "?") then B "?" else [])).
Proof.
  intros t u. unfold parse_target. destruct (existsb is_ctl t) eqn:CT.
  { split; [discriminate|]. intros (N & _). apply no_control_iff in N. congruence. }
  apply no_control_iff in CT. destruct (bs_eqb_spec t (B "*")) as [->|NS].
  { split.
    - intro H. injection H as <-. split; [exact CT|]. exists (B "*"), [], (B "*"). split; [apply target_cut; now split|]. split; [apply sp_same; [discriminate|constructor]|]. split; [now left|reflexivity].
    - intros (_ & raw & q & path & T & S & _ & ->). apply target_cut in T. cbn in T. destruct T as (-> & ->). apply unescape_iff in S. cbn in S. injection S as <-. reflexivity. }
  assert (G : forall t', t = "/"%char :: t' -> (match cut "?" t with (raw, Some []) => set_path raw [] true | (raw, Some q) => set_path raw q false | (raw, None) => set_path raw [] false end = Some u <->
    exists raw q path, target t raw q /\ spells_path raw path /\ u = Url [] [] None [] path (query_text q) ((if bs_eqb raw (path_escape path) then [] else raw) ++ (if bs_eqb q (B "?") then B "?" else [])))).
  { intros t' _.
    assert (S : forall raw q f, f = bs_eqb q (B "?") -> target t raw q -> (set_path raw (query_text q) f = Some u <-> exists raw q path, target t raw q /\ spells_path raw path /\
      u = Url [] [] None [] path (query_text q) ((if bs_eqb raw (path_escape path) then [] else raw) ++ (if bs_eqb q (B "?") then B "?" else [])))).
    { intros raw q f -> T. unfold set_path. split.
      - destruct (path_unescape raw) as [path|] eqn:P; [|discriminate]. apply unescape_iff in P. intro H. injection H as <-. now exists raw, q, path.
      - intros (raw' & q' & path & T' & SP & ->). destruct (target_fun _ _ _ _ _ T T') as (<- & <-). apply unescape_iff in SP. now rewrite SP. }
    destruct (cut "?" t) as [raw [[|c q]|]] eqn:C.
    - apply (S raw (B "?") true eq_refl). apply target_cut. rewrite C. now split.
    - apply (S raw ("?"%char :: c :: q) false eq_refl). apply target_cut. rewrite C. now split.
    - apply (S raw [] false eq_refl). apply target_cut. rewrite C. now split. }
  destruct t as [|c t].
  { split; [discriminate|]. intros (_ & raw & q & path & _ & _ & [X|(r & X)] & _); discriminate X. }
  destruct (Ascii.eqb_spec c "/") as [->|NC].
  - rewrite (G t eq_refl). split.
    + intros (raw & q & path & T & S & ->). split; [exact CT|]. exists raw, q, path. split; [exact T|]. split; [exact S|]. split; [right; now exists t|]. now rewrite orb_false_r.
    + intros (_ & raw & q & path & T & S & _ & ->). exists raw, q, path. split; [exact T|]. split; [exact S|]. now rewrite orb_false_r.
  - split; [discriminate|]. intros (_ & raw & q & path & _ & _ & [X|(r & X)] & _); [easy|]. injection X as X _. easy.
Qed.
(** A target is taken just if it is the star or begins with a slash, has no control characters, and only whole escapes in its path;
    then REQUEST_FILENAME is the path decoded and QUERY_STRING what follows the first question mark. *)
Theorem C71_targets : forall t,
  ((exists u, parse_target t = Some u) <-> no_control t /\ (t = B "*" \/ exists r, t = "/"%char :: r) /\ exists raw q path, target t raw q /\ spells_path raw path) /\
  forall u raw q, parse_target t = Some u -> target t raw q -> spells_path raw (u_path u) /\ u_rawquery u = query_text q.
Proof.
  intro t. split.
  - split.
    + intros (u & H). apply parse_target_iff in H as (N & raw & q & path & T & S & B & _). split; [exact N|]. split; [exact B|]. now exists raw, q, path.
    + intros (N & B & raw & q & path & T & S). eexists. apply parse_target_iff. split; [exact N|]. exists raw, q, path. split; [exact T|]. split; [exact S|]. split; [exact B|reflexivity].
  - intros u raw q H T. apply parse_target_iff in H as (_ & raw' & q' & path & T' & S & _ & ->). destruct (target_fun _ _ _ _ _ T T') as (-> & ->). now split.
Qed.

(** ** REQUEST_URI *)
Lemma rest_parts_plain : forall raw (f : bool), ~ In "?"%char raw -> rest_parts (raw ++ (if f then B "?" else [])) = (raw, f).
Proof.
  intros raw [] N; unfold rest_parts.
  - rewrite rev_app_distr. cbn. now rewrite rev_involutive.
  - rewrite app_nil_r. destruct (rev raw) as [|c r] eqn:E; [now apply (f_equal (@rev _)) in E; rewrite rev_involutive in E; subst|].
    destruct (Ascii.eqb_spec c "?") as [->|]; [|reflexivity]. elim N. apply in_rev. rewrite E. now left.
Qed.
(** The target as sent, if its path has only the bytes of paths; otherwise the decoded path written anew, and the query as sent. *)
Theorem C24_uri_of_target : forall O t u raw q, uri_library O -> parse_target t = Some u -> target t raw q ->
  (Forall path_byte raw /\ request_uri O u = t) \/ (~ Forall path_byte raw /\ exists e, rewritten (u_path u) e /\ request_uri O u = e ++ q).
Proof.
  intros O t u raw q L H T. apply parse_target_iff in H as (_ & raw' & q' & path & T' & S & BG & ->). destruct (target_fun _ _ _ _ _ T T') as (<- & <-). unfold request_uri. cbn [u_path u_rawquery u_rest].
  rewrite L. unfold uri_string. pose proof (target_text _ _ _ T) as TT.
  assert (NQ : ~ In "?"%char raw) by (destruct T; assumption).
  assert (QE : (bs_eqb q (B "?") || negb (bs_eqb (query_text q) []) = false /\ q = []) \/ (bs_eqb q (B "?") || negb (bs_eqb (query_text q) []) = true /\ q = "?"%char :: query_text q)).
  { destruct T as [p q _ [->|(r & ->)]]; [left; now split|right]. cbn [query_text tl]. split; [|reflexivity]. destruct r as [|c r]; reflexivity. }
  assert (TAIL : (if bs_eqb q (B "?") || negb (bs_eqb (query_text q) []) then "?"%char :: query_text q else []) = q) by (destruct QE as [(Q1 & Q2)|(Q1 & Q2)]; rewrite Q1; now symmetry).
  assert (RP : forall x, (x = raw \/ x = []) -> rest_parts (x ++ (if bs_eqb q (B "?") then B "?" else [])) = (x, bs_eqb q (B "?"))).
  { intros x [->| ->]; apply rest_parts_plain; [exact NQ|easy]. }
  destruct BG as [->|(r & E)].
  - rewrite orb_true_r, (RP []) by now right. apply target_cut in T. cbn in T. destruct T as (-> & ->). apply unescape_iff in S. cbn in S. injection S as <-. left. split; [|reflexivity].
    constructor; [right; cbn; tauto|constructor].
  - assert (NS : bs_eqb t (B "*") = false) by (subst t; destruct (bs_eqb_spec ("/"%char :: r) (B "*")) as [X|]; [discriminate X|reflexivity]). rewrite NS, orb_false_r.
    assert (RS : exists r', raw = "/"%char :: r').
    { destruct raw as [|c raw]; [|rewrite TT in E; injection E as -> _; now exists raw]. cbn [app] in TT. rewrite TT in E. destruct QE as [(_ & Q2)|(_ & Q2)]; rewrite Q2 in E; discriminate E. }
    destruct RS as (r' & RS).
    assert (PS : exists p', path = "/"%char :: p') by (rewrite RS in S; inversion S; subst; eauto). destruct PS as (p' & PS).
    assert (NP : bs_eqb path (B "*") = false) by (rewrite PS; destruct (bs_eqb_spec ("/"%char :: p') (B "*")) as [X|]; [discriminate X|reflexivity]).
    assert (CL : forall x, among (fst (cut "/" ("/"%char :: x))) ":" = false) by reflexivity.
    destruct (bs_eqb_spec raw (path_escape path)) as [EQ|NE].
    + rewrite (RP []) by now right. unfold escaped_path. cbn [bs_eqb negb andb]. rewrite NP, <- EQ. left. split; [|rewrite RS at 1; now rewrite CL, TAIL].
      rewrite EQ. apply (rewritten_spells path). apply escape_rewritten.
    + rewrite (RP raw) by now left. unfold escaped_path. rewrite NP. assert (NN : bs_eqb raw [] = false) by (rewrite RS; reflexivity). rewrite NN. cbn [negb andb].
      pose proof S as S'. apply unescape_iff in S'. rewrite S'. destruct (bs_eqb_spec path path) as [_|]; [|easy]. rewrite andb_true_r. pose proof (valid_iff raw) as V. destruct (valid_encoded raw).
      * left. split; [now apply V|]. rewrite RS at 1. now rewrite CL, TAIL.
      * right. split; [intro X; apply V in X; discriminate X|]. exists (path_escape path). split; [apply escape_rewritten|]. rewrite TAIL. rewrite PS at 1. reflexivity.
Qed.
(** In either case its path decodes to REQUEST_FILENAME and has only the bytes of paths. *)
Theorem C24_uri_decodes : forall O t u raw q, uri_library O -> parse_target t = Some u -> target t raw q ->
  exists e, request_uri O u = e ++ q /\ spells_path e (u_path u) /\ Forall path_byte e.
Proof.
  intros O t u raw q L H T. destruct (C24_uri_of_target O t u raw q L H T) as [(F & E)|(F & e & R & E)].
  - exists raw. split; [rewrite E; now apply target_text|]. split; [|exact F]. exact (proj1 (proj2 (C71_targets t) u raw q H T)).
  - exists e. split; [exact E|]. now apply rewritten_spells.
Qed.
(** So a word with a byte that paths do not have, and no question mark, is only ever found in the query. *)
Theorem C24_uri_words_in_query : forall O t u raw q w, uri_library O -> parse_target t = Some u -> target t raw q ->
  (exists c, In c w /\ ~ path_byte c) -> ~ In "?"%char w -> (contains w (request_uri O u) <-> contains w (u_rawquery u)).
Proof.
  intros O t u raw q w L H T (c & I & NB) NQ. destruct (C24_uri_decodes O t u raw q L H T) as (e & E & _ & F). destruct (C71_targets t) as (_ & Q). destruct (Q u raw q H T) as (_ & QT). rewrite E, QT.
  rewrite Forall_forall in F. split.
  - intros (a & b & W). apply in_split in I as (w1 & w2 & ->).
    assert (K : exists d, a = e ++ d /\ q = d ++ (w1 ++ c :: w2) ++ b).
    { clear E. revert a W. induction e as [|x e IE]; intros a W; [exists a; now split|]. destruct a as [|y a].
      - exfalso.
        cbn [app] in W. destruct (Nat.le_gt_cases (length (w1 ++ c :: w2)) (length (x :: e))) as [LE|GT].
        + assert (IC : In c (x :: e)). { change ((x :: e) ++ q = (w1 ++ c :: w2) ++ b) in W. apply (f_equal (firstn (length (w1 ++ c :: w2)))) in W. rewrite firstn_app, firstn_app in W.
            replace (length (w1 ++ c :: w2) - length (x :: e))%nat with 0%nat in W by lia. rewrite Nat.sub_diag, firstn_O, firstn_O, !app_nil_r, firstn_all in W.
            rewrite <- (firstn_skipn (length (w1 ++ c :: w2)) (x :: e)). rewrite W. apply in_app_iff. left. apply in_app_iff. right. now left. }
          exact (NB (F c IC)).
        + change ((x :: e) ++ q = (w1 ++ c :: w2) ++ b) in W. apply (f_equal (firstn (length (w1 ++ c :: w2)))) in W. rewrite firstn_app, firstn_app in W.
          rewrite Nat.sub_diag, firstn_O, app_nil_r, firstn_all in W. rewrite (firstn_all2 (x :: e)) in W by lia.
          destruct T as [p q' _ [->|(r & ->)]].
          * rewrite firstn_nil, app_nil_r in W. rewrite W in GT. lia.
          * destruct (length (w1 ++ c :: w2) - length (x :: e))%nat eqn:D; [lia|]. apply NQ. rewrite <- W. cbn [firstn]. apply in_app_iff. right. now left.
      - cbn [app] in W. injection W as <- W. destruct (IE (fun z Z => F z (or_intror Z)) a W) as (d & -> & D). now exists d. }
    destruct K as (d & _ & K). destruct T as [p q' _ [->|(r & ->)]].
    + symmetry in K. apply app_eq_nil in K as (_ & K). apply app_eq_nil in K as (K & _). destruct w1; discriminate K.
    + destruct d as [|x d].
      * exfalso. destruct w1 as [|y w1]; cbn [app] in K; injection K as K _; apply NQ; [subst; now left|subst; now left].
      * cbn [app] in K. injection K as _ K. exists d, b. exact K.
  - intros (a & b & W). destruct T as [p q' _ [->|(r & ->)]]; cbn [query_text tl] in W.
    + symmetry in W. apply app_eq_nil in W as (_ & W). apply app_eq_nil in W as (W & _). subst w. destruct I.
    + exists (e ++ "?"%char :: a), b. rewrite W, <- app_assoc. reflexivity.
Qed.
(** With t:urlDecode or t:urlDecodeUni, a path without plus signs is seen as it decodes. *)
Lemma spells_decodes : forall uni e p r o n, spells_path e p -> ~ In "+"%char e -> decodes uni r o n -> decodes uni (e ++ r) (p ++ o) n.
Proof.
  intros uni e p r o n H. induction H as [|h l hi lo b e p H1 H2 E H IH|c e p N H IH]; intros NP D; [exact D| |]; cbn [app].
  - apply dec_hex with (hi := hi) (lo := lo); try assumption. apply IH; [intro I; apply NP; now do 3 right|exact D].
  - apply dec_other; [exact N|intros ->; apply NP; now left|]. apply IH; [intro I; apply NP; now right|exact D].
Qed.
Lemma spells_plus : forall e p, spells_path e p -> In "+"%char e -> In "+"%char p.
Proof.
  intros e p H. induction H as [|h l hi lo b e p H1 H2 E H IH|c e p N H IH]; [easy| |].
  - intros [I|[I|[I|I]]]; [discriminate I| | |right; now apply IH]; [apply hexdigit_ishex in H1 as (X & _)|apply hexdigit_ishex in H2 as (X & _)]; subst; discriminate X.
  - intros [->|I]; [now left|right; now apply IH].
Qed.
Theorem C24_uri_url_decoded : forall O t u raw q tr, uri_library O -> parse_target t = Some u -> target t raw q -> ~ In "+"%char (u_path u) -> tr = TUrlDecode \/ tr = TUrlDecodeUni ->
  apply_trans O tr (request_uri O u) = u_path u ++ apply_trans O tr q.
Proof.
  intros O t u raw q tr L H T NP TR. destruct (C24_uri_decodes O t u raw q L H T) as (e & -> & S & _).
  assert (NE : ~ In "+"%char e) by (intro I; apply NP; now apply (spells_plus e)).
  destruct (C02_transformations O (e ++ q) (u_path u ++ apply_trans O tr q)) as (D1 & D2). destruct TR as [->| ->]; [apply D1|apply D2];
    [destruct (proj1 (proj1 (C02_transformations O q (apply_trans O TUrlDecode q))) eq_refl) as (n & D)|destruct (proj1 (proj2 (C02_transformations O q (apply_trans O TUrlDecodeUni q))) eq_refl) as (n & D)];
    exists n; now apply spells_decodes.
Qed.
(** A rule on REQUEST_FILENAME judges the decoded path: escapes in the target do not hide it. *)
Theorem C66_target_blocked : forall O n ts pat id fuel, ord_valid O -> library O -> plain_pattern pat -> (exists M, says pat M) -> int64 id ->
  (length (deny_text [KRequestFilename] ts pat id) < fuel)%nat ->
  exists l, new_direset fuel O n (deny_text [KRequestFilename] ts pat id) = Ret (Some l) /\
    let e := execute l new_engine in
    forall f ip port ip2 port2 tgt u raw q path m p h later, (2 <= f)%nat -> Forall later_call later ->
      parse_target tgt = Some u -> target tgt raw q -> spells_path raw path ->
      exists t i, steps f O e (e_ruleset e) ([OpConnection ip port ip2 port2; OpRequestURL (Some u) m p; OpRequestHeader h] ++ later ++ [OpResult]) (new_txn e) =
          Ret (t, [ObsNone; ObsNone; ObsNone] ++ map (fun _ => ObsNone) later ++ [ObsResult i]) /\
        ((said pat (transformed_by O ts path) /\ i_disruptive i = true /\ i_status i = 403) \/ (~ said pat (transformed_by O ts path) /\ i_disruptive i = false /\ i_status i = 200)).
Proof.
  intros O n ts pat id fuel OV L PP S I FU.
  destruct (C66_word_rule_blocks O n [KRequestFilename] ts pat id fuel OV L) as (l & LD & Q); try assumption; [discriminate|repeat constructor; cbn; tauto|].
  exists l. split; [exact LD|]. intros e f ip port ip2 port2 tgt u raw q path m p h later FF LC PT T SP. destruct (Q f ip port ip2 port2 u m p h later FF LC) as (t & i & E & D). exists t, i. split; [exact E|].
  assert (UP : u_path u = path) by (apply (spells_fun raw); [exact (proj1 (proj2 (C71_targets tgt) u raw q PT T))|exact SP]).
  assert (X : (exists tk v, In tk [KRequestFilename] /\ request_value O ip u m p tk v /\ said pat (transformed_by O ts v)) <-> said pat (transformed_by O ts path)).
  { split; [intros (tk & v & [<-|[]] & RV & Y); inversion RV; subst; exact Y|]. intro Y. exists KRequestFilename, path. split; [now left|]. split; [rewrite <- UP; constructor|exact Y]. }
  destruct D as [(D1 & D2)|(D1 & D2)]; [left|right]; (split; [|exact D2]); [now apply X|]. intro Y. apply D1. now apply X.
Qed.
(** The library's regular expressions and URLs, and the rest as in Witness.v. *)
Definition webr (mp : mpres) : oracles :=
  Oracles (rx_ok (libr mp)) (rx_match (libr mp)) (media_type (demo mp)) (multipart (demo mp)) (fun u => uri_string (u_path u) (u_rawquery u) (u_rest u)) (uni_lower (demo mp)) (semi_sep (demo mp)) (ord (demo mp)).
Lemma webr_ok : forall mp, ord_valid (webr mp) /\ library (webr mp) /\ uri_library (webr mp).
Proof. intro mp. split; [intros n A m; apply Permutation_refl|]. split; [exact (libr_library mp)|]. intros path query rest. reflexivity. Qed.
Example C24_target_example : let O := webr MpErr in
  (exists u, parse_target (B "/%61dmin/x%2fy?a=<b>") = Some u /\ u_path u = B "/admin/x/y" /\ u_rawquery u = B "a=<b>" /\ request_uri O u = B "/%61dmin/x%2fy?a=<b>") /\
  (exists u, parse_target (B "/<b>/%61?") = Some u /\ u_path u = B "/<b>/a" /\ request_uri O u = B "/%3Cb%3E/a?" /\ apply_trans O TUrlDecode (request_uri O u) = B "/<b>/a?") /\
  parse_target (B "/%zz") = None /\ parse_target (B "a") = None /\ parse_target (B "/a" ++ [LF]) = None /\
  target (B "/<b>/%61?") (B "/<b>/%61") (B "?") /\ spells_path (B "/<b>/%61") (B "/<b>/a") /\
  (exists c, In c (B "<b>") /\ ~ path_byte c) /\ ~ In "+"%char (B "/<b>/a").
Proof.
  cbn zeta. split; [eexists; split; [vm_compute; reflexivity|]; vm_compute; auto|]. split; [eexists; split; [vm_compute; reflexivity|]; vm_compute; auto|].
  split; [vm_compute; reflexivity|]. split; [vm_compute; reflexivity|]. split; [vm_compute; reflexivity|]. split; [apply target_cut; vm_compute; auto|]. split; [apply unescape_iff; vm_compute; reflexivity|].
  split; [exists "<"%char; split; [now left|]; intro X; apply path_byte_iff in X; vm_compute in X; discriminate X|]. cbn. intuition discriminate.
Qed.
Example C66_target_example : let O := webr MpErr in let text := deny_text [KRequestFilename] [KLowercase] (B "^/admin") 7 in
  exists l, new_direset 300 O 0 text = Ret (Some l) /\ let e := execute l new_engine in
    forall tgt, In tgt [B "/%41dmin"; B "/ADMIN?x"; B "/adm%69n/"] -> exists u t bl i, parse_target tgt = Some u /\
      steps 4 O e (e_ruleset e) [OpConnection [] [] [] []; OpRequestURL (Some u) (B "GET") (B "HTTP/1.1"); OpRequestHeader []; OpResult] (new_txn e) = Ret (t, bl ++ [ObsResult i]) /\
      i_disruptive i = true /\ i_status i = 403.
Proof.
  cbn zeta. eexists. split; [vm_compute; reflexivity|]. intros tgt [<-|[<-|[<-|[]]]]; eexists _, _, [_; _; _], _; (split; [vm_compute; reflexivity|]); (split; [vm_compute; reflexivity|split; reflexivity]).
Qed.
Print Assumptions C71_targets.
Print Assumptions C24_uri_of_target.
Print Assumptions C24_uri_decodes.
Print Assumptions C24_uri_words_in_query.
Print Assumptions C24_uri_url_decoded.
Print Assumptions C66_target_blocked.
