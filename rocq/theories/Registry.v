(** Model of the registries: directive names (seclang/parser/seclang_token.go),
    directive types (seclang/rule_set.go), and the two scanner functions nothing
    calls. *)
From Verif Require Import Base GoStrings Buffer Types Scanner Loader.

(** seclang/parser/seclang_token.go:184-188 and 204-206: a [DirectiveDesc], the maps
    [Directives] and [dirIndex].  Tokens are integers; a factory is kept as a value
    of an arbitrary type. *)
Record desc (F : Type) := Desc { d_token : Z; d_val : bs; d_func : F }.
Arguments Desc {F}. Arguments d_token {F}. Arguments d_val {F}. Arguments d_func {F}.
Record registry (F : Type) := Registry { g_dirs : list (Z * desc F); g_index : list (bs * Z) }.
Arguments Registry {F}. Arguments g_dirs {F}. Arguments g_index {F}.
Definition empty_registry {F} : registry F := Registry [] [].

(** A Go map with integer keys: reading and assigning. *)
Fixpoint zmap_get {A} (k : Z) (m : list (Z * A)) : option A :=
  match m with
  | [] => None
  | (k', v) :: m' => if k =? k' then Some v else zmap_get k m'
  end.
Fixpoint zmap_set {A} (k : Z) (v : A) (m : list (Z * A)) : list (Z * A) :=
  match m with
  | [] => [(k, v)]
  | (k', w) :: m' => if k =? k' then (k, v) :: m' else (k', w) :: zmap_set k v m'
  end.
(** The same with string keys. *)
Fixpoint smap_set {A} (k : bs) (v : A) (m : list (bs * A)) : list (bs * A) :=
  match m with
  | [] => [(k, v)]
  | (k', w) :: m' => if bs_eqb k k' then (k, v) :: m' else (k', w) :: smap_set k v m'
  end.

(** seclang/parser/seclang_token.go:216-229 [RegisterDir] *)
Definition register_dir {F} (O : oracles) (g : registry F) (tk : Z) (name : bs) (f : F) : registry F :=
  Registry (zmap_set tk (Desc tk name f) (g_dirs g))
           (smap_set (to_lower (uni_lower O) name) tk (g_index g)).
(** seclang/parser/seclang_token.go:208-214 [DirectiveFromString]; nil is [None].
    [Directives[token]] is nil, too, when the token is missing. *)
Definition directive_from_string {F} (O : oracles) (g : registry F) (str : bs) : option (desc F) :=
  match assoc (to_lower (uni_lower O) str) (g_index g) with
  | None => None
  | Some tk => zmap_get tk (g_dirs g)
  end.

(** seclang/parser/seclang_token.go:9-16: the tokens as numbers, from TkStart = 128. *)
Definition dtok_code (t : dtok) : Z :=
  match t with KDirRule => 128 | KDirRuleEng => 129 | KDirReqBody => 130 | KDirResBody => 131 end.
(** seclang/parser/seclang.go:7-12 [initDirectives], run once at start-up.  The factories
    are named by the token they are called with. *)
Definition init_directives (O : oracles) : registry dtok :=
  let g := register_dir O empty_registry (dtok_code KDirRule) (B "SecRule") KDirRule in
  let g := register_dir O g (dtok_code KDirRuleEng) (B "SecRuleEngine") KDirRuleEng in
  let g := register_dir O g (dtok_code KDirReqBody) (B "SecRequestBodyAccess") KDirReqBody in
  register_dir O g (dtok_code KDirResBody) (B "SecResponseBodyAccess") KDirResBody.

(** seclang/rule_set.go:10-19 [direTypes] and [RegisterDire]: a second
    registration of a token panics. *)
Definition register_dire {D} (m : list (Z * D)) (tk : Z) (d : D) : out (list (Z * D)) :=
  match zmap_get tk m with
  | Some _ => Panic
  | None => Ret (zmap_set tk d m)
  end.
Fixpoint register_dires {D} (m : list (Z * D)) (l : list (Z * D)) : out (list (Z * D)) :=
  match l with
  | [] => Ret m
  | (tk, d) :: l' => m' <- register_dire m tk d ;; register_dires m' l'
  end.
(** seclang/rules.go:10-14 and sec_rule.go:10-12 *)
Definition init_dires : list (Z * dtok) :=
  map (fun t => (dtok_code t, t)) [KDirReqBody; KDirResBody; KDirRuleEng; KDirRule].
(** seclang/rule_set.go:21-27 [direFactory]: the type that makes the directive, or an
    error. *)
Definition dire_type {D} (m : list (Z * D)) (tk : Z) : option D := zmap_get tk m.

(** seclang/parser/scanner.go:447-458 [StringArgDirectiveFactory] *)
Definition read_string_arg (tk : Z) (fuel : nat) (s : scanner) : out (scanner * res (Z * bs)) :=
  '(s1, r) <- read_string fuel s ;;
  match r with
  | RErr e => Ret (s1, RErr e)
  | ROk str => Ret (s1, ROk (tk, str))
  end.

(** The current character as a rune (scanner.go:16-21, 408-414). *)
Definition current (s : scanner) : Z :=
  if s_bos s then -1 else match s_inp s with c :: _ => code c | [] => -2 end.
(** scanner.go:426-429 and 434-436 [saveAndAdvance] *)
Definition save_and_advance (s : scanner) : scanner :=
  advance (Scanner (s_bos s) (s_inp s) (s_buf s ++ [byte_of (current s)]) (s_line s)).
(** scanner.go:389-398 [StartsWith]; the loop runs over the runes of [str]. *)
Fixpoint startswith_loop (O : oracles) (rs : list Z) (s : scanner) : scanner * bool :=
  match rs with
  | [] => (s, true)
  | r :: rs' =>
      if lower_rune (uni_lower O) (current s) =? lower_rune (uni_lower O) r
      then startswith_loop O rs' (save_and_advance s)
      else (s, false)
  end.
Definition StartsWith (O : oracles) (str : bs) (s : scanner) : scanner * bool :=
  startswith_loop O (runes str) s.
