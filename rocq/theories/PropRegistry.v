(** Property theorems C81-C84: the registries, string arguments, StartsWith, and
    the rule cursor. *)
From Verif Require Import Base BaseFacts GoStrings Buffer Types Transaction SpecText TextFacts TransFacts Scanner Loader SpecParse ParseFacts ParseFiles Rules Engine Witness PropRules
  PropParse Registry.
From Coq Require Import ZifyBool.

(** ** C81 *)
(** [x] is the last element of [l] with [P]. *)
Definition latest {X} (P : X -> Prop) (l : list X) (x : X) : Prop :=
  exists a b, l = a ++ x :: b /\ P x /\ Forall (fun y => ~ P y) b.
(** A registration: token, name, factory; and the registry after several. *)
Definition registration (F : Type) : Type := (Z * bs * F)%type.
Definition r_tk {F} (r : registration F) : Z := fst (fst r).
Definition r_name {F} (r : registration F) : bs := snd (fst r).
Definition registered {F} (O : oracles) (l : list (registration F)) : registry F :=
  fold_left (fun g r => register_dir O g (r_tk r) (r_name r) (snd r)) l empty_registry.

Lemma zmap_get_set : forall A k (v : A) k' m, zmap_get k' (zmap_set k v m) = if k' =? k then Some v else zmap_get k' m.
Proof.
  intros A k v k' m. induction m as [|[q w] m IH]; simpl; [reflexivity|].
  destruct (Z.eqb_spec k q) as [->|N]; simpl.
  - destruct (Z.eqb_spec k' q); reflexivity.
  - destruct (Z.eqb_spec k' q) as [->|N2]; [destruct (Z.eqb_spec q k); [congruence|reflexivity]|exact IH].
Qed.
Lemma smap_get_set : forall A k (v : A) k' m, assoc k' (smap_set k v m) = if bs_eqb k' k then Some v else assoc k' m.
Proof.
  intros A k v k' m. induction m as [|[q w] m IH]; simpl; [reflexivity|].
  destruct (bs_eqb k q) eqn:E; simpl.
  - apply bs_eqb_eq in E as ->. destruct (bs_eqb k' q); reflexivity.
  - destruct (bs_eqb k' q) eqn:E2; [|exact IH]. apply bs_eqb_eq in E2 as ->. destruct (bs_eqb q k) eqn:E3; [|reflexivity].
    apply bs_eqb_eq in E3 as ->. now rewrite bs_eqb_refl in E.
Qed.
Lemma registered_snoc : forall F O l (r : registration F), registered O (l ++ [r]) = register_dir O (registered O l) (r_tk r) (r_name r) (snd r).
Proof. intros. unfold registered. now rewrite fold_left_app. Qed.
Lemma latest_snoc : forall X (P : X -> Prop) l y x, latest P (l ++ [y]) x <-> P y /\ x = y \/ ~ P y /\ latest P l x.
Proof.
  intros X P l y x. split.
  - intros (a & b & E & H & F). destruct b as [|z b _] using rev_ind.
    + apply app_inj_tail in E as [_ ->]. auto.
    + rewrite app_comm_cons, app_assoc in E. apply app_inj_tail in E as [E <-]. apply Forall_app in F as [F1 F2]. inversion F2; subst.
      right. split; [assumption|]. exists a, b. auto.
  - intros [[H ->]|[N (a & b & -> & H & F)]].
    + exists l, []. auto.
    + exists a, (b ++ [y]). rewrite <- app_assoc. split; [reflexivity|]. split; [exact H|]. apply Forall_app. auto.
Qed.
Lemma index_latest : forall F O (l : list (registration F)) k tk, assoc k (g_index (registered O l)) = Some tk <->
  exists r, latest (fun r => to_lower (uni_lower O) (r_name r) = k) l r /\ r_tk r = tk.
Proof.
  intros F O l k tk. induction l as [|r l IH] using rev_ind.
  - simpl. split; [discriminate|]. intros (r & (a & b & E & _) & _). now destruct a.
  - rewrite registered_snoc. unfold register_dir. cbn [g_index]. rewrite smap_get_set. destruct (bs_eqb k (to_lower (uni_lower O) (r_name r))) eqn:E.
    + apply bs_eqb_eq in E as ->. split.
      * intro H. injection H as <-. exists r. split; [|reflexivity]. apply latest_snoc. auto.
      * intros (x & L & <-). apply latest_snoc in L as [[_ ->]|[N _]]; [reflexivity|easy].
    + assert (N : to_lower (uni_lower O) (r_name r) <> k) by (intros <-; now rewrite bs_eqb_refl in E).
      rewrite IH. split; intros (x & L & T); exists x; (split; [|exact T]).
      * apply latest_snoc. auto.
      * apply latest_snoc in L as [[Q _]|[_ L]]; [easy|exact L].
Qed.
Lemma dirs_latest : forall F O (l : list (registration F)) tk d, zmap_get tk (g_dirs (registered O l)) = Some d <->
  exists r, latest (fun r => r_tk r = tk) l r /\ d = Desc (r_tk r) (r_name r) (snd r).
Proof.
  intros F O l tk d. induction l as [|r l IH] using rev_ind.
  - simpl. split; [discriminate|]. intros (r & (a & b & E & _) & _). now destruct a.
  - rewrite registered_snoc. unfold register_dir. cbn [g_dirs]. rewrite zmap_get_set. destruct (Z.eqb_spec tk (r_tk r)) as [->|N].
    + split.
      * intro H. injection H as <-. exists r. split; [|reflexivity]. apply latest_snoc. auto.
      * intros (x & L & ->). apply latest_snoc in L as [[_ ->]|[N _]]; [reflexivity|easy].
    + rewrite IH. split; intros (x & L & T); exists x; (split; [|exact T]).
      * apply latest_snoc. auto.
      * apply latest_snoc in L as [[Q _]|[_ L]]; [now elim N|exact L].
Qed.
(** Looking a name up gives the last directive registered for the token that the
    name, in any case, was last registered with; nothing iff it never was. *)
Theorem C81_lookup : forall F O (l : list (registration F)) str d, directive_from_string O (registered O l) str = Some d <->
  exists r r', latest (fun r => to_lower (uni_lower O) (r_name r) = to_lower (uni_lower O) str) l r /\
    latest (fun r' => r_tk r' = r_tk r) l r' /\ d = Desc (r_tk r') (r_name r') (snd r').
Proof.
  intros F O l str d. unfold directive_from_string. split.
  - destruct (assoc (to_lower (uni_lower O) str) (g_index (registered O l))) as [tk|] eqn:E; [|discriminate].
    apply index_latest in E as (r & L & <-). intro H. apply dirs_latest in H as (r' & L' & ->). exists r, r'. auto.
  - intros (r & r' & L & L' & ->). rewrite (proj2 (index_latest F O l _ (r_tk r))) by eauto. apply dirs_latest. eauto.
Qed.
Theorem C81_unknown : forall F O (l : list (registration F)) str, directive_from_string O (registered O l) str = None <->
  Forall (fun r => to_lower (uni_lower O) (r_name r) <> to_lower (uni_lower O) str) l.
Proof.
  intros F O l str. unfold directive_from_string. induction l as [|r l IH] using rev_ind; [split; [constructor|reflexivity]|].
  rewrite registered_snoc. unfold register_dir. cbn [g_dirs g_index]. rewrite smap_get_set, Forall_app.
  destruct (bs_eqb (to_lower (uni_lower O) str) (to_lower (uni_lower O) (r_name r))) eqn:E.
  - apply bs_eqb_eq in E. rewrite zmap_get_set, Z.eqb_refl. split; [discriminate|]. intros [_ K]. inversion K; subst. congruence.
  - assert (N : to_lower (uni_lower O) (r_name r) <> to_lower (uni_lower O) str) by (intro Q; rewrite Q, bs_eqb_refl in E; discriminate).
    destruct (assoc (to_lower (uni_lower O) str) (g_index (registered O l))) as [tk|] eqn:A.
    + assert (G : exists d, zmap_get tk (g_dirs (registered O l)) = Some d).
      { clear IH E N. apply index_latest in A as (x & (a & b & -> & _ & _) & <-). induction b as [|y b IHb] using rev_ind.
        - change (a ++ [x]) with (a ++ [x]). rewrite registered_snoc. unfold register_dir. cbn [g_dirs]. rewrite zmap_get_set, Z.eqb_refl. eauto.
        - rewrite app_comm_cons, app_assoc, registered_snoc. unfold register_dir. cbn [g_dirs]. rewrite zmap_get_set. destruct (r_tk x =? r_tk y); eauto. }
      destruct G as (d & G). rewrite zmap_get_set. rewrite G in *. split.
      * destruct (tk =? r_tk r); discriminate.
      * intros [K _]. apply IH in K. discriminate.
    + split; [intros _|reflexivity]. split; [now apply IH|]. constructor; [exact N|constructor].
Qed.
(** What the parser package registers at start-up is what the scanner looks up. *)
Lemma lower_map : forall ul w, ascii_text w -> to_lower ul w = map lower_ascii w.
Proof.
  intros ul w A. apply (lowered_fun w); [now apply lower_ascii_text|]. clear A. induction w as [|c w IH]; constructor; [|exact IH].
  unfold lower_ascii, lowered, upper, in_range. change (code "A") with 65. change (code "Z") with 90.
  destruct ((65 <=? code c) && (code c <=? 90)) eqn:E; [left|right; split; [lia|reflexivity]].
  split; [lia|]. apply code_byte_of_small. lia.
Qed.
Theorem C81_start_up : forall O w, ascii_text w ->
  directive_from_string O (init_directives O) w = option_map (fun t => Desc (dtok_code t) (dir_name t) t) (dir_from_string w).
Proof.
  intros O w A. unfold directive_from_string, dir_from_string. rewrite (lower_map _ w A).
  assert (E : g_index (init_directives O) = map (fun t => (map lower_ascii (dir_name t), dtok_code t)) [KDirRule; KDirRuleEng; KDirReqBody; KDirResBody]).
  { unfold init_directives, register_dir. cbn [g_index empty_registry].
    rewrite !lower_map by (repeat constructor; vm_compute; discriminate). reflexivity. }
  rewrite E. clear E A.
  assert (D : g_dirs (init_directives O) = map (fun t => (dtok_code t, Desc (dtok_code t) (dir_name t) t)) [KDirRule; KDirRuleEng; KDirReqBody; KDirResBody]) by reflexivity.
  rewrite D. clear D. generalize (map lower_ascii w). intro k. unfold dir_names. cbn [map assoc fst snd dir_name].
  repeat (match goal with |- context [bs_eqb k ?x] => destruct (bs_eqb k x); [reflexivity|] end). reflexivity.
Qed.
(** Registering directive types panics exactly on a token that is taken; otherwise
    every token finds the type registered for it. *)
Lemma register_dires_spec : forall D (l m : list (Z * D)),
  (NoDup (map fst l) /\ (forall tk, In tk (map fst l) -> zmap_get tk m = None) /\
   exists m', register_dires m l = Ret m' /\ forall tk, dire_type m' tk = match zmap_get tk l with Some d => Some d | None => zmap_get tk m end) \/
  (~ (NoDup (map fst l) /\ (forall tk, In tk (map fst l) -> zmap_get tk m = None)) /\ register_dires m l = Panic).
Proof.
  intros D l. induction l as [|[tk d] l IH]; intro m.
  - left. split; [constructor|]. split; [intros ? []|]. exists m. split; reflexivity.
  - cbn [register_dires map fst]. unfold register_dire. destruct (zmap_get tk m) as [x|] eqn:E.
    + right. split; [|reflexivity]. intros [_ K]. rewrite (K tk (or_introl eq_refl)) in E. discriminate.
    + cbn [bind]. destruct (IH (zmap_set tk d m)) as [(N & U & m' & R & L)|(NG & R)].
      * left. assert (NI : ~ In tk (map fst l)).
        { intro I. apply U in I. rewrite zmap_get_set, Z.eqb_refl in I. discriminate. }
        split; [constructor; assumption|]. split.
        -- intros q [<-|I]; [exact E|]. pose proof (U q I) as K. rewrite zmap_get_set in K. destruct (q =? tk); [discriminate|exact K].
        -- exists m'. split; [exact R|]. intro q. rewrite L, zmap_get_set. cbn [zmap_get]. destruct (Z.eqb_spec q tk) as [->|NE]; [|reflexivity].
           destruct (zmap_get tk l) as [y|] eqn:G; [|reflexivity]. elim NI. clear -G. induction l as [|[a b] l IH]; [discriminate|].
           simpl in *. destruct (Z.eqb_spec tk a); [left; congruence|right; auto].
      * right. split; [|exact R]. intros [N U]. apply NG. inversion N; subst. split; [assumption|]. intros q I. rewrite zmap_get_set.
        destruct (Z.eqb_spec q tk) as [->|_]; [easy|]. apply U. now right.
Qed.
Theorem C81_types : forall D (l : list (Z * D)),
  (register_dires [] l = Panic <-> ~ NoDup (map fst l)) /\
  (NoDup (map fst l) -> exists m, register_dires [] l = Ret m /\ forall tk d, dire_type m tk = Some d <-> In (tk, d) l).
Proof.
  intros D l. assert (Z0 : forall tk, In tk (map fst l) -> zmap_get tk (@nil (Z * D)) = None) by reflexivity.
  destruct (register_dires_spec D l []) as [(N & _ & m & R & L)|(NG & R)].
  - split; [rewrite R; split; [discriminate|easy]|]. intros _. exists m. split; [exact R|]. intros tk d. rewrite L. clear L R m Z0.
    induction l as [|[a b] l IH]; [split; [discriminate|intros []]|]. simpl in N |- *. inversion N; subst. destruct (Z.eqb_spec tk a) as [->|NE].
    + split; [intro Q; left; congruence|]. intros [Q|I]; [congruence|]. elim H1. apply in_map_iff. exists (a, d). auto.
    + rewrite IH by assumption. split; [auto|]. intros [Q|I]; [congruence|exact I].
  - split; [split; [intros _ N; now apply NG|intros _; exact R]|]. intro N. elim NG. auto.
Qed.
Theorem C81_types_start_up : exists m, register_dires [] init_dires = Ret m /\ forall t, dire_type m (dtok_code t) = Some t.
Proof. eexists. split; [vm_compute; reflexivity|]. now intros []. Qed.
Example C81_example : let O := demo MpErr in
  let g := registered O [(1, B "SecA", 10); (2, B "SecB", 20); (2, B "seca", 30)] in
  option_map d_func (directive_from_string O g (B "SECA")) = Some 30 /\ option_map d_func (directive_from_string O g (B "secb")) = Some 30 /\
  directive_from_string O g (B "SecC") = None /\ register_dires [] [(1, 1); (2, 2); (1, 3)] = Panic.
Proof. vm_compute. auto. Qed.
Print Assumptions C81_lookup.
Print Assumptions C81_unknown.
Print Assumptions C81_start_up.
Print Assumptions C81_types.
Print Assumptions C81_types_start_up.

(** ** C82 *)
(** A string directive takes exactly one argument, as every other reader does. *)
Theorem C82_string_argument : forall tk tk' rest s e line,
  (exists fuel line', read_string_arg tk fuel (Scanner false (e ++ rest) [] line) = Ret (Scanner false rest [] line', ROk (tk', s))) <->
  tk' = tk /\ argument rest s e.
Proof.
  intros tk tk' rest s e line. rewrite <- (C52_arguments_exactly rest s e line). unfold read_string_arg. split.
  - intros (fuel & line' & H). destruct (read_string fuel (Scanner false (e ++ rest) [] line)) as [[s1 [x|er]]| |] eqn:E; try discriminate.
    cbn [bind] in H. injection H as -> <- ->. split; [reflexivity|]. exists fuel, line'. exact E.
  - intros [-> (fuel & line' & H)]. exists fuel, line'. now rewrite H.
Qed.
Theorem C82_errors_passed_on : forall tk fuel s s' e, read_string_arg tk fuel s = Ret (s', RErr e) <-> read_string fuel s = Ret (s', RErr e).
Proof.
  intros tk fuel s s' e. unfold read_string_arg. destruct (read_string fuel s) as [[s1 [x|er]]| |]; cbn [bind]; split; intro H; try discriminate; now injection H as <- <-.
Qed.
Example C82_example : read_string_arg 7 30 (Scanner false (B " ""/tmp/a b"" rest") [] 1) = Ret (Scanner false (B " rest") [] 1, ROk (7, B "/tmp/a b")) /\
  read_string_arg 7 30 (Scanner false (B "  ") [] 1) = Ret (Scanner false [] [] 1, RErr EEOS).
Proof. split; vm_compute; reflexivity. Qed.
Print Assumptions C82_string_argument.
Print Assumptions C82_errors_passed_on.

(** ** C83 *)
(** The characters 128 to 255 have no ASCII lower case. *)
Definition high_stays_high (O : oracles) : Prop := forall r, 128 <= r <= 255 -> 128 <= uni_lower O r.
Lemma fold_char : forall O c d, high_stays_high O -> code d <= 127 ->
  (lower_rune (uni_lower O) (code c) =? lower_rune (uni_lower O) (code d)) = true <-> exists z, lowered c z /\ lowered d z.
Proof.
  intros O c d H L. pose proof (code_range c) as R. pose proof (code_range d) as R2. unfold lower_rune, zin. assert (E : (code d <? 128) = true) by lia. rewrite E. clear E.
  assert (SD : forall x, exists z, lowered x z /\ code z = if (65 <=? code x) && (code x <=? 90) then code x + 32 else code x).
  { intro x. pose proof (code_range x). destruct ((65 <=? code x) && (code x <=? 90)) eqn:U.
    - assert (Q : code (byte_of (code x + 32)) = code x + 32) by (apply code_byte_of_small; lia). exists (byte_of (code x + 32)). split; [left; unfold upper; lia|exact Q].
    - exists x. split; [right; unfold upper; split; [lia|reflexivity]|reflexivity]. }
  assert (UN : forall x z z', lowered x z -> lowered x z' -> z = z').
  { intros x z z' [[? ?]|[? ?]] [[? ?]|[? ?]]; try easy; [apply code_inj; congruence|congruence]. }
  destruct (SD c) as (zc & C1 & C2). destruct (SD d) as (zd & D1 & D2). rewrite <- D2. destruct (code c <? 128) eqn:K.
  - rewrite <- C2. rewrite Z.eqb_eq. split.
    + intro Q. apply code_inj in Q. subst. eauto.
    + intros (z & A & B). now rewrite (UN _ _ _ C1 A), (UN _ _ _ D1 B).
  - specialize (H (code c) ltac:(lia)). split.
    + intro Q. destruct ((65 <=? code d) && (code d <=? 90)) eqn:U; lia.
    + intros (z & A & B). rewrite (UN _ _ _ D1 B) in D2. rewrite (UN _ _ _ C1 A) in C2.
      destruct ((65 <=? code c) && (code c <=? 90)) eqn:U1; [lia|]. destruct ((65 <=? code d) && (code d <=? 90)) eqn:U; lia.
Qed.
Lemma save_advance_cons : forall c r buf line, save_and_advance (Scanner false (c :: r) buf line) = Scanner false r (buf ++ [c]) line.
Proof.
  intros. unfold save_and_advance, current, advance. cbn [s_bos s_inp s_buf s_line tl]. now rewrite byte_of_code.
Qed.
Definition same_char (x y : ascii) : Prop := exists z, lowered x z /\ lowered y z.
(** StartsWith reads on exactly as far as the text agrees with the word, letters
    in either case, saving what it passes; it answers whether that was all of the
    word. *)
Inductive agree : bs -> bs -> bs -> bs -> Prop :=   (* word, text: common part, rest *)
| ag_all : forall inp, agree [] inp [] inp
| ag_more : forall w ws c r p k, same_char c w -> agree ws r p k -> agree (w :: ws) (c :: r) (c :: p) k
| ag_end : forall w ws, agree (w :: ws) [] [] []
| ag_stop : forall w ws c r, ~ same_char c w -> agree (w :: ws) (c :: r) [] (c :: r).
Lemma startswith_agree : forall O str inp buf line, high_stays_high O -> ascii_text str ->
  exists p k b, startswith_loop O (map code str) (Scanner false inp buf line) = (Scanner false k (buf ++ p) line, b) /\ agree str inp p k /\
    (b = true <-> same_letters p str).
Proof.
  intros O str. induction str as [|w ws IH]; intros inp buf line H A.
  - exists [], inp, true. simpl. rewrite app_nil_r. split; [reflexivity|]. split; [constructor|]. split; [constructor|reflexivity].
  - inversion A as [|? ? A1 A2]; subst. destruct inp as [|c r].
    + exists [], [], false. cbn [map startswith_loop]. change (current (Scanner false [] buf line)) with (-2). rewrite app_nil_r.
      assert (E : (lower_rune (uni_lower O) (-2) =? lower_rune (uni_lower O) (code w)) = false).
      { pose proof (code_range w). change (lower_rune (uni_lower O) (-2)) with (-2). unfold lower_rune, zin. assert (K : (code w <? 128) = true) by lia. rewrite K. destruct ((65 <=? code w) && (code w <=? 90)); lia. }
      rewrite E. split; [reflexivity|]. split; [constructor|]. split; [discriminate|]. intro Q. inversion Q.
    + cbn [map startswith_loop]. change (current (Scanner false (c :: r) buf line)) with (code c).
      destruct (lower_rune (uni_lower O) (code c) =? lower_rune (uni_lower O) (code w)) eqn:E.
      * apply fold_char in E; [|assumption..]. rewrite save_advance_cons. destruct (IH r (buf ++ [c]) line H A2) as (p & k & b & E1 & E2 & E3).
        exists (c :: p), k, b. rewrite E1, <- app_assoc. split; [reflexivity|]. split; [now constructor|]. rewrite E3. unfold same_letters. split.
        -- intro F. now constructor.
        -- intro F. now inversion F.
      * assert (N : ~ same_char c w) by (intro Q; apply (fold_char O c w H A1) in Q; congruence).
        exists [], (c :: r), false. rewrite app_nil_r. split; [reflexivity|]. split; [now constructor|]. split; [discriminate|]. intro Q. inversion Q.
Qed.
Theorem C83_starts_with : forall O str inp buf line, high_stays_high O -> ascii_text str ->
  exists p k b, StartsWith O str (Scanner false inp buf line) = (Scanner false k (buf ++ p) line, b) /\ agree str inp p k /\
    (b = true <-> exists q rest, inp = q ++ rest /\ same_letters q str).
Proof.
  intros O str inp buf line H A. unfold StartsWith. rewrite (ascii_runes str A). destruct (startswith_agree O str inp buf line H A) as (p & k & b & E1 & E2 & E3).
  exists p, k, b. split; [exact E1|]. split; [exact E2|]. rewrite E3. clear E1 E3 A. split.
  - intro S. exists p, k. split; [|exact S]. clear S. induction E2; simpl; congruence.
  - intros (q & rest & -> & S). revert rest p k E2. induction S as [|x y q str XY S IH]; intros rest p k E2.
    + inversion E2; subst; constructor.
    + simpl in E2. inversion E2; subst; [|contradiction]. constructor; [exact XY|]. eapply IH. eassumption.
Qed.
(** No text is lost: saved and unread characters together stay the same. *)
Theorem C83_no_text_lost : forall O str inp buf line s' b, high_stays_high O -> ascii_text str ->
  StartsWith O str (Scanner false inp buf line) = (s', b) -> s_buf s' ++ s_inp s' = buf ++ inp /\ s_line s' = line.
Proof.
  intros O str inp buf line s' b H A E. destruct (C83_starts_with O str inp buf line H A) as (p & k & b' & E1 & E2 & _). rewrite E in E1.
  injection E1 as -> _. split; [|reflexivity]. cbn [s_buf s_inp]. rewrite <- app_assoc. f_equal. clear E A H. induction E2; simpl; congruence.
Qed.
(** Before the first character nothing but the empty word is found, and nothing changes. *)
Theorem C83_before_the_text : forall O str inp buf line, ascii_text str ->
  StartsWith O str (Scanner true inp buf line) = (Scanner true inp buf line, match str with [] => true | _ => false end).
Proof.
  intros O str inp buf line A. unfold StartsWith. rewrite (ascii_runes str A). destruct A as [|w ws A1 A2]; [reflexivity|].
  cbn [map startswith_loop]. change (current (Scanner true inp buf line)) with (-1).
  assert (E : (lower_rune (uni_lower O) (-1) =? lower_rune (uni_lower O) (code w)) = false).
  { pose proof (code_range w). change (lower_rune (uni_lower O) (-1)) with (-1). unfold lower_rune, zin. assert (K : (code w <? 128) = true) by lia. rewrite K. destruct ((65 <=? code w) && (code w <=? 90)); lia. }
  now rewrite E.
Qed.
(** But a word that was not found may no longer be asked for another: the
    characters they share are gone. *)
Theorem C83_failed_leaves_unchanged_refuted : exists O str str2 s, high_stays_high O /\
  snd (StartsWith O str2 s) = true /\ snd (StartsWith O str s) = false /\ snd (StartsWith O str2 (fst (StartsWith O str s))) = false.
Proof.
  exists (demo MpErr), (B "SecX"), (B "SecRule"), (Scanner false (B "SecRule ARGS") [] 1). split; [intros r R; vm_compute (uni_lower _); lia|].
  repeat split; vm_compute; reflexivity.
Qed.
Example C83_example : let s := Scanner false (B "sEcRuleEngine On") [] 1 in
  StartsWith (demo MpErr) (B "SecRule") s = (Scanner false (B "Engine On") (B "sEcRule") 1, true) /\
  high_stays_high (demo MpErr) /\ ascii_text (B "SecRule").
Proof. split; [vm_compute; reflexivity|]. split; [intros r R; vm_compute (uni_lower _); lia|]. repeat constructor; vm_compute; discriminate. Qed.
Print Assumptions C83_starts_with.
Print Assumptions C83_no_text_lost.
Print Assumptions C83_before_the_text.
Print Assumptions C83_failed_leaves_unchanged_refuted.

(** ** C84 *)
(** What [k] calls of Next return, and the state then. *)
Fixpoint nexts (rs : ruleset) (k : nat) (t : txn) : list Z * txn :=
  match k with
  | O => ([], t)
  | S k' => let '(i, t1) := next_rule rs t in let '(l, t2) := nexts rs k' t1 in (i :: l, t2)
  end.
Definition end_of_rules : Z := -2.
Lemma next_at : forall rs t, t_next t = end_of_rules -> next_rule rs t = (end_of_rules, with_pos t (t_phase t) end_of_rules end_of_rules).
Proof. intros rs t E. unfold next_rule. rewrite E. reflexivity. Qed.
Lemma nexts_end : forall rs k t, t_next t = end_of_rules -> fst (nexts rs k t) = repeat end_of_rules k.
Proof.
  intros rs k. induction k as [|k IH]; intros t E; [reflexivity|]. cbn [nexts]. rewrite (next_at rs t E).
  specialize (IH (with_pos t (t_phase t) end_of_rules end_of_rules) eq_refl). destruct (nexts rs k _) as [l t2]. simpl in *. now rewrite IH.
Qed.
Lemma nexts_from : forall rs k t i, t_next t = Z.of_nat i -> (i < length (phase_rules rs (t_phase t)))%nat ->
  fst (nexts rs k t) = map Z.of_nat (seq i (Nat.min k (length (phase_rules rs (t_phase t)) - i))) ++
    repeat end_of_rules (k - (length (phase_rules rs (t_phase t)) - i)).
Proof.
  intros rs k. induction k as [|k IH]; intros t i E L; [reflexivity|]. cbn [nexts]. unfold next_rule. rewrite E.
  assert (Q : (Z.of_nat i =? StatusEndOfRules) = false) by (unfold StatusEndOfRules; lia). rewrite Q. set (n := length (phase_rules rs (t_phase t))) in *.
  destruct (nrules rs (t_phase t) <=? Z.of_nat i + 1) eqn:C; unfold nrules in C; fold n in C.
  - assert (N1 : (n - i = 1)%nat) by lia. rewrite N1. pose proof (nexts_end rs k (with_pos t (t_phase t) (Z.of_nat i) StatusEndOfRules) eq_refl) as X.
    destruct (nexts rs k _) as [l t2]. simpl in X |- *. rewrite X. replace (k - 0)%nat with k by lia. destruct k; reflexivity.
  - assert (E' : t_next (with_pos t (t_phase t) (Z.of_nat i) (Z.of_nat i + 1)) = Z.of_nat (S i)) by (simpl; lia).
    specialize (IH _ (S i) E'). change (t_phase (with_pos t (t_phase t) (Z.of_nat i) (Z.of_nat i + 1))) with (t_phase t) in IH. fold n in IH.
    specialize (IH ltac:(lia)). destruct (nexts rs k _) as [l t2]. simpl fst in *. rewrite IH. replace (n - i)%nat with (S (n - S i)) by lia. reflexivity.
Qed.
(** From the start of a phase with rules, Next counts through them and then says
    that there are no more, however often it is asked. *)
Theorem C84_next_counts_partial : forall rs p k t, 0 <= p <= 7 -> phase_rules rs p <> [] ->
  fst (nexts rs k (jump_to_phase p t)) = map Z.of_nat (seq 0 (Nat.min k (length (phase_rules rs p)))) ++ repeat (-2) (k - length (phase_rules rs p)).
Proof.
  intros rs p k t R NE. assert (E : t_phase (jump_to_phase p t) = p).
  { unfold jump_to_phase, PhaseBegin, PhaseEnd. simpl. destruct (p <? 0) eqn:A; [lia|]. destruct (7 <=? p) eqn:C; lia. }
  pose proof (nexts_from rs k (jump_to_phase p t) 0 eq_refl) as N. rewrite E in N. rewrite Nat.sub_0_r in N. apply N. destruct (phase_rules rs p); [easy|simpl; lia].
Qed.
(** A phase without rules is entered as if it had one. *)
Theorem C84_next_counts_refuted : exists rs p t, 0 <= p <= 7 /\ phase_rules rs p = [] /\ fst (nexts rs 3 (jump_to_phase p t)) = [0; -2; -2].
Proof. exists (RuleSet [] []), 3, (new_txn (demo_engine (RuleSet [] []))). split; [lia|]. split; vm_compute; reflexivity. Qed.
(** With each index goes the rule there; before the first and after the last there
    is none. *)
Lemma nexts_phase : forall rs k t, t_phase (snd (nexts rs k t)) = t_phase t.
Proof.
  intros rs k. induction k as [|k IH]; intro t; [reflexivity|]. cbn [nexts]. destruct (next_rule rs t) as [i t1] eqn:E. specialize (IH t1).
  destruct (nexts rs k t1) as [l t2]. simpl in *. rewrite IH. unfold next_rule in E. destruct (t_next t =? StatusEndOfRules); now injection E as <- <-.
Qed.
Lemma nexts_cur : forall rs k t, t_cur (snd (nexts rs (S k) t)) = last (fst (nexts rs (S k) t)) 0.
Proof.
  intros rs k. induction k as [|k IH]; intro t; cbn [nexts].
  - destruct (next_rule rs t) as [i t1] eqn:E. simpl. unfold next_rule in E. destruct (t_next t =? StatusEndOfRules) eqn:Q; injection E as <- <-; simpl; [lia|reflexivity].
  - destruct (next_rule rs t) as [i t1] eqn:E. specialize (IH t1). cbn [nexts] in IH. destruct (next_rule rs t1) as [j t2]. destruct (nexts rs k t2) as [l t3].
    cbn [fst snd] in *. rewrite IH. reflexivity.
Qed.
Theorem C84_current_rule : forall rs p k t, 0 <= p <= 7 -> phase_rules rs p <> [] ->
  current_sec_rule rs (snd (nexts rs k (jump_to_phase p t))) = match k with O => None | S j => nth_error (phase_rules rs p) j end.
Proof.
  intros rs p k t R NE. assert (E : t_phase (jump_to_phase p t) = p).
  { unfold jump_to_phase, PhaseBegin, PhaseEnd. simpl. destruct (p <? 0) eqn:A; [lia|]. destruct (7 <=? p) eqn:C; lia. }
  unfold current_sec_rule, current_phase_rules. rewrite nexts_phase, E. unfold PhaseBegin, PhaseEnd.
  assert (G : (p <? 0) || (7 <? p) = false) by lia. rewrite G. destruct k as [|j].
  - change (t_cur (snd (nexts rs 0 (jump_to_phase p t)))) with (-1). simpl. now rewrite orb_true_r.
  - rewrite nexts_cur, C84_next_counts_partial by assumption. set (n := length (phase_rules rs p)). assert (N0 : (0 < n)%nat) by (unfold n; destruct (phase_rules rs p); [easy|simpl; lia]).
    destruct (Nat.leb_spec (S j) n) as [L|L].
    + replace (S j - n)%nat with 0%nat by lia. rewrite app_nil_r, Nat.min_l by lia. rewrite seq_S, map_app; cbn [map]; rewrite last_last. simpl Nat.add.
      assert (C : (Z.of_nat n <=? Z.of_nat j) || (Z.of_nat j <? 0) = false) by lia. rewrite C. now rewrite Nat2Z.id.
    + replace (S j - n)%nat with (S (j - n)) by lia. replace (S (j - n)) with (j - n + 1)%nat by lia. rewrite repeat_app. cbn [repeat]. rewrite app_assoc, last_last.
      rewrite (proj2 (nth_error_None (phase_rules rs p) j)) by (fold n; lia). now rewrite orb_true_r.
Qed.
(** JumpTo: the next rule is the one named, or there are no more. *)
Theorem C84_jump_to : forall rs i k t, 0 <= i -> phase_rules rs (t_phase t) <> [] ->
  let n := length (phase_rules rs (t_phase t)) in
  fst (jump_to rs i t) = (if i <? Z.of_nat n then i else -2) /\
  fst (nexts rs k (snd (jump_to rs i t))) = map Z.of_nat (seq (Z.to_nat i) (Nat.min k (n - Z.to_nat i))) ++ repeat (-2) (k - (n - Z.to_nat i)).
Proof.
  intros rs i k t I NE n. unfold jump_to, nrules. fold n. destruct (Z.of_nat n <=? i) eqn:C.
  - assert (L : (i <? Z.of_nat n) = false) by lia. rewrite L. split; [reflexivity|]. cbn [snd]. rewrite nexts_end by reflexivity.
    replace (n - Z.to_nat i)%nat with 0%nat by lia. rewrite Nat.min_0_r, Nat.sub_0_r. reflexivity.
  - assert (L : (i <? Z.of_nat n) = true) by lia. rewrite L. split; [reflexivity|]. cbn [snd].
    apply (nexts_from rs k (with_pos t (t_phase t) (t_cur t) i) (Z.to_nat i)); [cbn; lia|]. change (t_phase (with_pos t (t_phase t) (t_cur t) i)) with (t_phase t). fold n. lia.
Qed.
(** JumpToPhase and NextPhase stay within the phases. *)
Theorem C84_phase_in_range : forall p t, t_phase (jump_to_phase p t) = Z.max 0 (Z.min 7 p) /\
  (0 <= t_phase t <= 7 -> t_phase (next_phase t) = Z.min 7 (t_phase t + 1)).
Proof.
  intros p t. unfold next_phase, jump_to_phase, PhaseBegin, PhaseEnd. cbn [t_phase with_pos]. split.
  - destruct (p <? 0) eqn:A; [lia|]. destruct (7 <=? p) eqn:C; lia.
  - intro R. destruct (t_phase t + 1 <? 0) eqn:A; [lia|]. destruct (7 <=? t_phase t + 1) eqn:C; lia.
Qed.
Example C84_example : let r := demo_rule 3 [] (OpRx []) [] false [] in let rs := RuleSet [(3, [r; r; r])] [] in
  fst (nexts rs 5 (jump_to_phase 3 (new_txn (demo_engine rs)))) = [0; 1; 2; -2; -2] /\
  fst (nexts rs 3 (snd (jump_to rs 1 (jump_to_phase 3 (new_txn (demo_engine rs)))))) = [1; 2; -2].
Proof. split; vm_compute; reflexivity. Qed.
Print Assumptions C84_next_counts_partial.
Print Assumptions C84_next_counts_refuted.
Print Assumptions C84_current_rule.
Print Assumptions C84_jump_to.
Print Assumptions C84_phase_in_range.
