(** The buffer directory: C68, and what it means for bodies (C91). *)
From Verif Require Import Base BaseFacts GoStrings Buffer BufferFacts Types Engine Witness Dirs SpecDirs.
From Coq Require Import ZifyBool.

Lemma path_eqb_eq : forall p q, path_eqb p q = true <-> p = q.
Proof. intros p q. unfold path_eqb. destruct (list_eq_dec (list_eq_dec ascii_dec) p q); split; congruence. Qed.
Lemma set_same : forall f p n, set_node f p n p = Some n.
Proof. intros f p n. unfold set_node. now rewrite (proj2 (path_eqb_eq p p) eq_refl). Qed.
Lemma set_other : forall f p n q, p <> q -> set_node f p n q = f q.
Proof. intros f p n q N. unfold set_node. destruct (path_eqb p q) eqn:E; [apply path_eqb_eq in E; contradiction|reflexivity]. Qed.

Lemma passable_cons : forall f n d, passable f (n :: d) <-> passable f d /\ exists w, f d = Some (NDir w true).
Proof.
  intros f n d. split.
  - intro P. split; [|exact (P [] n d eq_refl)]. intros r c a E. apply (P (n :: r) c a). now rewrite E.
  - intros [P W] [|x r] c a E; cbn [app] in E; injection E as <- E; [now subst|]. apply (P r c a E).
Qed.
Lemma passable_nil : forall f, passable f [].
Proof. intros f r c a E. now destruct r. Qed.

Lemma look_found : forall f p n, look f p = Found n <-> passable f p /\ f p = Some n.
Proof.
  intros f p. induction p as [|x d IH]; intro n; cbn [look].
  - destruct (f []) as [m|]; split; try discriminate.
    + intro H. injection H as <-. split; [apply passable_nil|reflexivity].
    + intros [_ H]. injection H as <-. reflexivity.
    + intros [_ H]. discriminate.
  - rewrite passable_cons. case_eq (look f d); [intros [|w []] L|intros L|intros L].
    + apply IH in L as [P E]. split; [discriminate|]. intros [[_ [w W]] _]. congruence.
    + apply IH in L as [P E]. split.
      * intro H. split; [split; [exact P|now exists w]|]. destruct (f (x :: d)); [now injection H as <-|discriminate].
      * intros [_ ->]. reflexivity.
    + apply IH in L as [P E]. split; [discriminate|]. intros [[_ [w' W]] _]. congruence.
    + split; [discriminate|]. intros [[P [w W]] _]. rewrite (proj2 (IH (NDir w true)) (conj P W)) in L. discriminate.
    + split; [discriminate|]. intros [[P [w W]] _]. rewrite (proj2 (IH (NDir w true)) (conj P W)) in L. discriminate.
Qed.
Lemma passable_above : forall f r q, r <> [] -> passable f (r ++ q) -> exists w, f q = Some (NDir w true).
Proof.
  intros f r q N P. destruct r as [|c r] using rev_ind; [easy|]. apply (P r c q). now rewrite <- app_assoc.
Qed.
Lemma look_none : forall f p, look f p = NotExist <-> exists r q, p = r ++ q /\ passable f q /\ f q = None.
Proof.
  intros f p. split.
  - induction p as [|x d IH]; cbn [look].
    + destruct (f []) eqn:E; [discriminate|]. intros _. exists [], []. split; [reflexivity|]. split; [apply passable_nil|exact E].
    + case_eq (look f d); [intros [|w []] L|intros L|intros L]; try discriminate.
      * apply look_found in L as [P E]. destruct (f (x :: d)) eqn:X; [discriminate|]. intros _. exists [], (x :: d).
        split; [reflexivity|]. split; [|exact X]. apply passable_cons. split; [exact P|now exists w].
      * intros _. destruct (IH L) as (r & q & -> & P). exists (x :: r), q. auto.
  - intros (r & q & -> & P & N). induction r as [|x r IH]; cbn [app look].
    + destruct q as [|c q]; cbn [look]; [now rewrite N|]. apply passable_cons in P as [P [w W]].
      rewrite (proj2 (look_found f q (NDir w true)) (conj P W)), N. reflexivity.
    + now rewrite IH.
Qed.

(** What making directories changes: it adds directories with room where nothing was. *)
Definition grows (f g : fsys) : Prop := forall q, f q = g q \/ (f q = None /\ g q = Some (NDir true true)).
Lemma grows_refl : forall f, grows f f.
Proof. intros f q. now left. Qed.
Lemma grows_trans : forall f g h, grows f g -> grows g h -> grows f h.
Proof. intros f g h A C q. destruct (A q) as [E|[E1 E2]], (C q) as [E'|[E1' E2']]; rewrite ?E in *; auto; right; split; congruence. Qed.
Lemma grows_passable : forall f g p, grows f g -> passable f p -> passable g p.
Proof.
  intros f g p G P r c a E. destruct (P r c a E) as [w W]. destruct (G a) as [Q|[Q _]]; [exists w|]; congruence.
Qed.
Lemma mkdir_fails : forall f p g, mkdir f p = (g, false) -> g = f.
Proof.
  intros f p g H. unfold mkdir in H. destruct p as [|n d]; [now injection H as <-|].
  destruct (look f d) as [[|w x]| |]; try (now injection H as <-).
  destruct (w && x); [|now injection H as <-]. destruct (f (n :: d)); [now injection H as <-|discriminate].
Qed.
Lemma mkdir_shape : forall f p g ok, mkdir f p = (g, ok) -> grows f g /\ (forall q, q <> p -> g q = f q) /\ (ok = true -> room g p) /\
  (ok = true <-> exists n d, p = n :: d /\ room f d /\ f p = None).
Proof.
  intros f p g ok H. unfold mkdir in H. destruct p as [|n d].
  - injection H as <- <-. split; [apply grows_refl|]. split; [auto|]. split; [discriminate|]. split; [discriminate|]. intros (n & d & E & _). discriminate.
  - destruct (look f d) as [[|w x]| |] eqn:L; try (injection H as <- <-; split; [apply grows_refl|]; split; [auto|]; split; [discriminate|]; split; [discriminate|];
      intros (n' & d' & E & [P R] & _); injection E as <- <-; rewrite (proj2 (look_found f d _) (conj P R)) in L; discriminate).
    apply look_found in L as [P E]. destruct (w && x) eqn:WX.
    + apply andb_true_iff in WX as [-> ->]. destruct (f (n :: d)) as [nd|] eqn:X; injection H as <- <-.
      * split; [apply grows_refl|]. split; [auto|]. split; [discriminate|]. split; [discriminate|]. intros (n' & d' & _ & _ & N). congruence.
      * assert (G : grows f (set_node f (n :: d) (NDir true true))).
        { intro q. destruct (list_eq_dec (list_eq_dec ascii_dec) (n :: d) q) as [<-|Q]; [right; split; [exact X|apply set_same]|].
          left. symmetry. now apply set_other. }
        split; [exact G|]. split; [intros q Q; apply set_other; congruence|]. split.
        -- intros _. split; [|apply set_same]. eapply grows_passable; [exact G|]. apply passable_cons. split; [exact P|now exists true].
        -- split; [|reflexivity]. intros _. exists n, d. split; [reflexivity|]. split; [split; assumption|first [exact X|reflexivity]].
    + injection H as <- <-. split; [apply grows_refl|]. split; [auto|]. split; [discriminate|]. split; [discriminate|].
      intros (n' & d' & Q & [_ R] & _). injection Q as <- <-. rewrite R in E. injection E as <- <-. discriminate.
Qed.

Lemma made_here : forall f base n d, tree f -> f (n :: d ++ base) = None ->
  can_be_made f base (n :: d ++ base) <-> room f (d ++ base) \/ can_be_made f base (d ++ base).
Proof.
  intros f base n d T N. split.
  - intros (r & c & k & E & R & X). destruct r as [|y r]; cbn [app] in E; injection E as <- E.
    + apply app_inv_tail in E. subst k. now left.
    + right. exists r, c, k. auto.
  - intros [R|(r & c & k & E & R & X)].
    + exists [], n, d. auto.
    + exists (n :: r), c, k. rewrite E. auto.
Qed.
Lemma no_room_for_self : forall f base, ~ can_be_made f base base.
Proof.
  intros f base (r & c & k & E & _). apply (f_equal (@length bs)) in E. rewrite app_length in E. cbn [length] in E. rewrite app_length in E. lia.
Qed.
(** Something below what is missing is missing. *)
Lemma tree_missing : forall f r q, tree f -> f q = None -> f (r ++ q) = None.
Proof.
  intros f r q T N. induction r as [|x r IH]; [exact N|]. cbn [app]. destruct (f (x :: r ++ q)) eqn:E; [|reflexivity].
  destruct (T x (r ++ q)) as (w & s & W); congruence.
Qed.
Lemma mkdir_all_shape : forall base comps f g ok, tree f -> comps <> [] -> look f (comps ++ base) = NotExist ->
  mkdir_all f base comps = (g, ok) ->
  grows f g /\ (forall q, ~ on_the_way q (comps ++ base) -> g q = f q) /\ (ok = false -> g = f) /\ (ok = true -> room g (comps ++ base)) /\ (ok = true <-> can_be_made f base (comps ++ base)).
Proof.
  intros base comps. induction comps as [|n d IH]; intros f g ok T NE L H; [easy|].
  assert (NP : f (n :: d ++ base) = None).
  { apply look_none in L as (r & q & E & _ & Q). cbn [app] in E. rewrite E. now apply tree_missing. }
  cbn [mkdir_all] in H. rewrite L in H. cbn [app] in *.
  destruct (look f (d ++ base)) as [[|w x]| |] eqn:LD.
  - cbn [look] in L. rewrite LD in L. discriminate.
  - (* the parent is there *)
    assert (E1 : (match d with [] => (f, true) | _ => mkdir_all f base d end) = (f, true)).
    { destruct d as [|y d]; [reflexivity|]. cbn [mkdir_all]. rewrite LD. reflexivity. }
    rewrite E1 in H. destruct (mkdir f (n :: d ++ base)) as [f2 ok2] eqn:M. pose proof (mkdir_shape _ _ _ _ M) as (G & U & R & I).
    assert (U2 : forall q, ~ on_the_way q (n :: d ++ base) -> f2 q = f q) by (intros q Q; apply U; intros ->; apply Q; now exists []).
    assert (CM : can_be_made f base (n :: d ++ base) <-> ok2 = true).
    { rewrite (made_here f base n d T NP), I. split.
      - intros [Q|Q]; [exists n, (d ++ base); auto|]. exfalso. destruct Q as (r & c & k & E & _ & X).
        apply look_found in LD as [P F]. rewrite E in F. rewrite (tree_missing f r _ T X) in F. discriminate.
      - intros (n' & d' & E & Q & _). injection E as <- <-. now left. }
    destruct ok2.
    + injection H as <- <-. split; [exact G|]. split; [exact U2|]. split; [discriminate|]. split; [intros _; now apply R|]. cbn [orb]. rewrite CM. tauto.
    + apply mkdir_fails in M. subst f2. rewrite L in H. injection H as <- <-. split; [exact G|]. split; [auto|]. split; [auto|]. split; [discriminate|]. cbn [orb]. rewrite CM. tauto.
  - (* the parent is missing too *)
    destruct d as [|y d].
    + cbn [app] in *. destruct (mkdir f (n :: base)) as [f2 ok2] eqn:M.
      assert (Q : ok2 = false). { unfold mkdir in M. rewrite LD in M. now injection M as _ <-. }
      subst ok2. apply mkdir_fails in M. subst f2. rewrite L in H. injection H as <- <-. split; [apply grows_refl|]. split; [auto|]. split; [auto|]. split; [discriminate|].
      split; [discriminate|]. intro C. exfalso. apply (made_here f base n [] T NP) in C as [[P R]|C].
      * cbn [app] in *. rewrite (proj2 (look_found f base _) (conj P R)) in LD. discriminate.
      * now apply no_room_for_self in C.
    + destruct (mkdir_all f base (y :: d)) as [f1 ok1] eqn:MA.
      destruct (IH f f1 ok1 T ltac:(discriminate) LD MA) as (G1 & U1 & K1 & R1 & I1).
      assert (ND : f ((y :: d) ++ base) = None).
      { apply look_none in LD as (r & q & E & _ & Q). rewrite E. now apply tree_missing. }
      assert (CM : can_be_made f base (n :: (y :: d) ++ base) <-> ok1 = true).
      { rewrite (made_here f base n (y :: d) T NP), I1. split; [|now right]. intros [[_ Q]|Q]; [congruence|exact Q]. }
      destruct ok1.
      * destruct (mkdir f1 (n :: (y :: d) ++ base)) as [f2 ok2] eqn:M. pose proof (mkdir_shape _ _ _ _ M) as (G & U & R & I).
        assert (Q : ok2 = true).
        { apply I. exists n, ((y :: d) ++ base). split; [reflexivity|]. split; [now apply R1|]. rewrite U1; [exact NP|]. intros [r E]. apply (f_equal (@length bs)) in E. rewrite !app_length in E. cbn [length] in E. rewrite ?app_length in E. cbn [length] in E. lia. }
        subst ok2. injection H as <- <-. split; [eapply grows_trans; eauto|]. split.
        -- intros q Q. rewrite U; [apply U1; intros [r E]; apply Q; exists (n :: r); cbn [app]; now rewrite <- E|]. intros ->. apply Q. now exists [].
        -- split; [discriminate|]. split; [intros _; now apply R|]. cbn [orb]. rewrite CM. tauto.
      * injection H as <- <-. split; [exact G1|]. split; [intros q Q; now rewrite (K1 eq_refl)|]. split; [auto|]. split; [discriminate|]. rewrite CM. tauto.
  - cbn [look] in L. rewrite LD in L. discriminate.
Qed.

Lemma look_stands : forall f p, (exists n, look f p = Found n) <-> stands f p.
Proof.
  intros f p. unfold stands. split.
  - intros [n H]. apply look_found in H as [P E]. split; [exact P|congruence].
  - intros [P N]. destruct (f p) as [n|] eqn:E; [|easy]. exists n. now apply look_found.
Qed.
Lemma other_no : forall f base p, tree f -> look f p = OtherErr -> ~ can_be_made f base p.
Proof.
  intros f base p T L (r & c & k & -> & [P R] & N).
  assert (Q : look f (r ++ c :: k ++ base) = NotExist).
  { apply look_none. exists r, (c :: k ++ base). split; [reflexivity|]. split; [|exact N]. apply passable_cons. split; [exact P|now exists true]. }
  congruence.
Qed.
(** *** Path texts *)
Lemma starts_of : forall cwd dir base, starts cwd dir base <-> base = start_of cwd dir.
Proof.
  intros cwd dir base. split.
  - intros [rest|d N]; [reflexivity|]. unfold start_of. destruct d as [|x d]; [reflexivity|].
    destruct (ascii_dec x "/"%char) as [->|X]; [now elim (N d)|].
    destruct x as [[] [] [] [] [] [] [] []]; try reflexivity. now elim X.
  - intros ->. unfold start_of. destruct dir as [|x d]; [apply st_cwd; discriminate|].
    destruct (ascii_dec x "/"%char) as [->|X]; [apply st_root|].
    replace (match x with "/"%char => [] | _ => cwd end) with cwd by (destruct x as [[] [] [] [] [] [] [] []]; try reflexivity; now elim X).
    apply st_cwd. intros rest E. injection E as E _. now apply X.
Qed.
Definition full (s : bs) : bool := match s with [] => false | _ => true end.
Lemma split_slashes : forall k s, List.filter full (split "/" (repeat "/"%char k ++ s)) = List.filter full (split "/" s).
Proof. induction k as [|k IH]; intro s; [reflexivity|]. cbn [repeat app split]. rewrite Ascii.eqb_refl. cbn [List.filter full]. apply IH. Qed.
Lemma split_name : forall n, ~ In "/"%char n -> split "/" n = [n].
Proof.
  induction n as [|x n IH]; intro N; [reflexivity|]. cbn [split]. destruct (Ascii.eqb_spec x "/"%char) as [->|X]; [elim N; now left|].
  rewrite IH; [reflexivity|]. intro I. apply N. now right.
Qed.
Lemma split_name_more : forall n rest, ~ In "/"%char n -> split "/" (n ++ "/"%char :: rest) = n :: split "/" rest.
Proof.
  induction n as [|x n IH]; intros rest N; [cbn [app split]; now rewrite Ascii.eqb_refl|]. cbn [app split].
  destruct (Ascii.eqb_spec x "/"%char) as [->|X]; [elim N; now left|]. rewrite IH; [reflexivity|]. intro I. apply N. now right.
Qed.
Lemma spelled : forall dir ns, spells dir ns -> names dir = rev ns.
Proof.
  assert (F : forall dir ns, spells dir ns -> List.filter full (split "/" dir) = ns).
  { intros dir ns H. induction H as [k|k n E N|k n rest ns E N H IH].
    - rewrite <- (app_nil_r (repeat _ k)), split_slashes. reflexivity.
    - rewrite split_slashes, split_name by assumption. destruct n; [easy|reflexivity].
    - rewrite split_slashes, split_name_more by assumption. cbn [List.filter]. destruct n as [|x n]; [easy|]. cbn [full]. f_equal.
      cbn [split] in IH. rewrite Ascii.eqb_refl in IH. exact IH. }
  intros dir ns H. unfold names. f_equal. exact (F dir ns H).
Qed.
Lemma spells_some : forall n dir, (length dir <= n)%nat -> exists ns, spells dir ns.
Proof.
  induction n as [|n IH]; intros dir L.
  - destruct dir; [|cbn [length] in L; lia]. exists []. apply (sp_end 0).
  - assert (S : exists k s, dir = repeat "/"%char k ++ s /\ forall r, s <> "/"%char :: r).
    { clear. induction dir as [|x dir (k & s & E & N)]; [exists 0%nat, []; split; [reflexivity|discriminate]|].
      destruct (ascii_dec x "/"%char) as [->|X]; [exists (S k), s; cbn; rewrite E; auto|].
      exists 0%nat, (x :: dir). split; [reflexivity|]. intros r Q. injection Q as Q _. contradiction. }
    destruct S as (k & s & -> & NS). destruct s as [|x s].
    + exists []. rewrite app_nil_r. apply sp_end.
    + assert (C : (~ In "/"%char (x :: s)) \/ exists a r, x :: s = a ++ "/"%char :: r /\ ~ In "/"%char a).
      { generalize (x :: s). clear. intro l. induction l as [|y l [N|(a & r & -> & N)]]; [left; easy| |]; destruct (ascii_dec y "/"%char) as [->|Y].
        - right. exists [], l. easy.
        - left. intros [Q|Q]; contradiction.
        - right. exists [], (a ++ "/"%char :: r). easy.
        - right. exists (y :: a), r. split; [reflexivity|]. intros [Q|Q]; contradiction. }
      destruct C as [N|(a & r & E & N)].
      * exists [x :: s]. apply sp_last; [discriminate|exact N].
      * rewrite E in *. destruct a as [|y a]; [now elim (NS r)|]. destruct (IH ("/"%char :: r)) as [ns H].
        { rewrite app_length in L. cbn [app length] in L. rewrite app_length in L. cbn [length] in *. lia. }
        exists ((y :: a) :: ns). now apply sp_name.
Qed.
(** Every path text means exactly one place. *)
Lemma means_place : forall cwd dir base p, means cwd dir base p <-> base = start_of cwd dir /\ p = place cwd dir.
Proof.
  intros cwd dir base p. split.
  - intros (S & ns & H & ->). apply starts_of in S. subst base. split; [reflexivity|]. unfold place. now rewrite (spelled _ _ H).
  - intros [-> ->]. split; [now apply starts_of|]. destruct (spells_some (length dir) dir (le_n _)) as [ns H]. exists ns. split; [exact H|].
    unfold place. now rewrite (spelled _ _ H).
Qed.

Lemma make_shape : forall f cwd dir g ok base p, tree f -> means cwd dir base p -> make_buffer_dir f cwd dir = (g, ok) ->
  grows f g /\
  (ok = true <-> dir <> [] /\ (stands f p \/ can_be_made f base p)) /\
  (ok = true -> stands f p -> g = f) /\
  (ok = true -> ~ stands f p -> room g p) /\
  (forall q, ~ on_the_way q p -> g q = f q) /\ (ok = false -> g = f).
Proof.
  intros f cwd dir g ok base p T MN H. apply means_place in MN as [-> ->]. unfold make_buffer_dir in H. destruct dir as [|x dir'] eqn:D.
  - injection H as <- <-. split; [apply grows_refl|]. split; [|repeat split; auto; discriminate]. split; [discriminate|]. intros [N _]. now elim N.
  - rewrite <- D in *. assert (DN : dir <> []) by (rewrite D; discriminate). clear D x dir'.
    pose proof (look_stands f (place cwd dir)) as S. destruct (look f (place cwd dir)) as [nd| |] eqn:L.
    + injection H as <- <-. assert (ST : stands f (place cwd dir)) by (apply S; now exists nd).
      split; [apply grows_refl|]. split; [tauto|]. split; [reflexivity|]. split; [intros _ N; contradiction|]. auto.
    + assert (NS : ~ stands f (place cwd dir)) by (intro Q; apply S in Q as [? Q]; discriminate).
      unfold place in *. destruct (names dir) as [|c cs] eqn:NM.
      * cbn [mkdir_all app] in *. rewrite L in H. injection H as <- <-. split; [apply grows_refl|]. split; [|repeat split; auto; discriminate].
        split; [discriminate|]. intros [_ [Q|Q]]; [contradiction|]. now apply no_room_for_self in Q.
      * assert (CN : c :: cs <> []) by discriminate. destruct (mkdir_all_shape _ _ _ _ _ T CN L H) as (G & U & K & R & I). split; [exact G|]. split; [tauto|].
        split; [contradiction|auto].
    + injection H as <- <-. split; [apply grows_refl|]. split; [|repeat split; auto; discriminate]. split; [discriminate|].
      intros [_ [Q|Q]]; [apply S in Q as [? Q]; discriminate|]. now apply other_no in Q.
Qed.

(** ** C68: false of the code in that a path that exists counts as a usable directory,
    whatever is there.  A transaction is made although no buffer file can be, and a body
    within its limits is then refused. *)
Definition file_at_tmp : fsys := fun p =>
  if path_eqb p [] then Some (NDir true true) else if path_eqb p [B "tmp"] then Some NFile else None.
Definition locked_tmp : fsys := fun p =>
  if path_eqb p [] then Some (NDir true true) else if path_eqb p [B "tmp"] then Some (NDir false true) else None.
Lemma tree_file : tree file_at_tmp.
Proof.
  intros n d H. unfold file_at_tmp in H. destruct (path_eqb (n :: d) []) eqn:E; [apply path_eqb_eq in E; discriminate|].
  destruct (path_eqb (n :: d) [B "tmp"]) eqn:E2; [|easy]. apply path_eqb_eq in E2. injection E2 as -> ->. exists true, true. reflexivity.
Qed.
Lemma tree_locked : tree locked_tmp.
Proof.
  intros n d H. unfold locked_tmp in H. destruct (path_eqb (n :: d) []) eqn:E; [apply path_eqb_eq in E; discriminate|].
  destruct (path_eqb (n :: d) [B "tmp"]) eqn:E2; [|easy]. apply path_eqb_eq in E2. injection E2 as -> ->. exists true, true. reflexivity.
Qed.
Theorem C68_unusable_directory_refuted : forall f, In f [file_at_tmp; locked_tmp] -> tree f /\
  exists e g t t', new_transaction_in f [] (B "/tmp") (Some e) (Some new_ruleset) = (g, Some t) /\
    ~ room g (place [] (B "/tmp")) /\ e_reqmem e = 2 /\ e_reqlimit e = 100 /\
    step 5 (demo MpErr) e new_ruleset (OpAppendRequestBody (B "abc") (spill_fault g [] (B "/tmp"))) t = Ret (t', ObsErr (Some ErrOS)).
Proof.
  intros f I. split; [destruct I as [<-|[<-|[]]]; [apply tree_file|apply tree_locked]|].
  exists (Engine true false new_ruleset true true 100 2 5). destruct I as [<-|[<-|[]]]; eexists _, _, _;
  (split; [reflexivity|]; split; [intros [_ R]; vm_compute in R; discriminate|]; split; [reflexivity|]; split; [reflexivity|vm_compute; reflexivity]).
Qed.

(** When NewTransaction fails, exactly; the two checks of the directory count as one.  If it fails nothing has been made. *)
Theorem C68_fails_exactly_partial : forall f cwd dir base p e rs, tree f -> means cwd dir base p ->
  snd (new_transaction_in f cwd dir e rs) = new_transaction (snd (make_buffer_dir f cwd dir)) e rs /\
  (snd (new_transaction_in f cwd dir e rs) = None <->
   e = None \/ rs = None \/ dir = [] \/ (~ stands f p /\ ~ can_be_made f base p)) /\
  (snd (new_transaction_in f cwd dir e rs) = None -> fst (new_transaction_in f cwd dir e rs) = f).
Proof.
  intros f cwd dir base p e rs T MN. destruct e as [e|]; [|split; [reflexivity|]; split; [split; [auto|reflexivity]|reflexivity]].
  destruct rs as [rs|]; [|split; [reflexivity|]; split; [split; [auto|reflexivity]|reflexivity]].
  unfold new_transaction_in, new_transaction. destruct (make_buffer_dir f cwd dir) as [g ok] eqn:M. cbn [snd].
  pose proof (make_shape _ _ _ _ _ _ _ T MN M) as (G & I & F & R & _ & K). apply means_place in MN as [-> ->]. destruct ok.
  - destruct (proj1 I eq_refl) as [DN D].
    assert (L : exists n, look g (place cwd dir) = Found n).
    { apply look_stands. destruct (look f (place cwd dir)) as [n| |] eqn:L.
      - assert (S : stands f (place cwd dir)) by (apply look_stands; eauto). now rewrite (F eq_refl S).
      - assert (S : ~ stands f (place cwd dir)) by (intro Q; apply look_stands in Q as [? Q]; congruence).
        destruct (R eq_refl S) as [P Q]. split; [exact P|congruence].
      - assert (S : ~ stands f (place cwd dir)) by (intro Q; apply look_stands in Q as [? Q]; congruence).
        destruct (R eq_refl S) as [P Q]. split; [exact P|congruence]. }
    assert (M2 : make_buffer_dir g cwd dir = (g, true)).
    { unfold make_buffer_dir. destruct L as [n L]. rewrite L. now destruct dir. }
    rewrite M2. split; [reflexivity|]. cbn [snd]. split; [|discriminate]. split; [discriminate|].
    intros [Q|[Q|[Q|[Q1 Q2]]]]; try discriminate; [contradiction|]. destruct D as [D|D]; contradiction.
  - cbn [snd fst]. split; [reflexivity|]. split; [|intros _; now apply K]. split; [|reflexivity]. intros _. right. right.
    destruct dir as [|x dir]; [now left|]. right. split; intro Q; (assert (X : false = true) by (apply I; split; [discriminate|auto]); discriminate).
Qed.
(** If it succeeds the path stands, nothing that was there has changed, exactly the missing
    directories on the way were made, and these have room for buffer files. *)
Theorem C68_directory_afterwards_partial : forall f cwd dir base p e rs g t, tree f -> means cwd dir base p ->
  new_transaction_in f cwd dir e rs = (g, Some t) ->
  stands g p /\
  (forall q, f q <> None -> g q = f q) /\
  (forall q, f q = None -> on_the_way q p -> g q = Some (NDir true true)) /\
  (forall q, f q = None -> ~ on_the_way q p -> g q = None) /\
  (spill_fault g cwd dir = NoFault <-> room g p).
Proof.
  intros f cwd dir base p e rs g t T MN H. destruct e as [e|], rs as [rs|]; try discriminate.
  unfold new_transaction_in in H. destruct (make_buffer_dir f cwd dir) as [g1 ok] eqn:M.
  pose proof (make_shape _ _ _ _ _ _ _ T MN M) as (G & I & F & R & U & _). apply means_place in MN as [-> ->]. destruct ok; [|discriminate].
  destruct (proj1 I eq_refl) as [DN _].
  assert (SD : stands f (place cwd dir) \/ ~ stands f (place cwd dir)).
  { destruct (look f (place cwd dir)) as [n| |] eqn:L; [left; apply look_stands; eauto| |];
    right; intro Q; apply look_stands in Q as [? Q]; congruence. }
  assert (ST : stands g1 (place cwd dir)).
  { destruct SD as [S|S]; [now rewrite (F eq_refl S)|]. destruct (R eq_refl S) as [P Q]. split; [exact P|congruence]. }
  destruct (proj2 (look_stands _ _) ST) as [n L].
  assert (M2 : make_buffer_dir g1 cwd dir = (g1, true)) by (unfold make_buffer_dir; rewrite L; now destruct dir).
  rewrite M2 in H. injection H as <- <-. split; [exact ST|]. split; [|split; [|split]].
  - intros q N. destruct (G q) as [E|[E _]]; [auto|contradiction].
  - intros q N [r E]. assert (X : g1 q <> None).
    { destruct ST as [P Q]. destruct r as [|c r] using rev_ind; [cbn [app] in E; now rewrite <- E|]. rewrite <- app_assoc in E. cbn [app] in E.
      destruct (P r c q E) as [w W]. congruence. }
    destruct (G q) as [Q|[_ Q]]; [congruence|exact Q].
  - intros q N W. rewrite U; assumption.
  - unfold spill_fault, temp_file. rewrite L. apply look_found in L as [P E]. unfold room. split.
    + destruct n as [|w x]; [discriminate|]. destruct (w && x) eqn:W; [|discriminate]. apply andb_true_iff in W as [-> ->]. auto.
    + intros [_ Q]. rewrite Q in E. injection E as <-. reflexivity.
Qed.
Theorem C68_every_path_means_one_place : forall cwd dir, exists base p, means cwd dir base p /\ forall base' p', means cwd dir base' p' -> base' = base /\ p' = p.
Proof. intros cwd dir. exists (start_of cwd dir), (place cwd dir). split; [now apply means_place|]. intros base' p' H. now apply means_place in H. Qed.
Definition plain_disk : fsys := fun p => if path_eqb p [] then Some (NDir true true) else None.
Example C68_directory_example : tree plain_disk /\
  means [B "www"; B "srv"] (B "/var/tmp//waf") [] [B "waf"; B "tmp"; B "var"] /\
  means [B "www"; B "srv"] (B "tmp/") [B "www"; B "srv"] [B "tmp"; B "www"; B "srv"] /\
  can_be_made plain_disk [] (place [] (B "/var/tmp//waf")) /\ ~ stands plain_disk (place [] (B "/var/tmp//waf")) /\
  exists g t, new_transaction_in plain_disk [] (B "/var/tmp//waf") (Some new_engine) (Some new_ruleset) = (g, Some t) /\
    g [B "tmp"; B "var"] = Some (NDir true true) /\ spill_fault g [] (B "/var/tmp//waf") = NoFault /\
    snd (new_transaction_in locked_tmp [] (B "/tmp/waf") (Some new_engine) (Some new_ruleset)) = None.
Proof.
  split; [|split; [|split; [|split; [|split]]]].
  2: { apply means_place. split; reflexivity. }
  2: { apply means_place. split; reflexivity. }
  - intros n d H. unfold plain_disk in H. destruct (path_eqb (n :: d) []) eqn:E; [apply path_eqb_eq in E; discriminate|easy].
  - exists [B "waf"; B "tmp"], (B "var"), []. split; [reflexivity|]. split; [split; [apply passable_nil|reflexivity]|reflexivity].
  - intros [_ N]. apply N. reflexivity.
  - eexists _, _. split; [vm_compute; reflexivity|]. split; [reflexivity|]. split; reflexivity.
Qed.
Print Assumptions C68_unusable_directory_refuted.
Print Assumptions C68_fails_exactly_partial.
Print Assumptions C68_directory_afterwards_partial.
Print Assumptions C68_every_path_means_one_place.
