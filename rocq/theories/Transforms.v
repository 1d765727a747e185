(** Model of package [transforms]. *)
From Verif Require Import Base GoStrings Utils Buffer Types.

(** transforms/map_rune.go:35-42 [replaceRune] *)
Definition replace_rune (from to : Z) (_ : unit) (i : Z) : unit * Z :=
  if i =? from then (tt, to) else (tt, i).

(** transforms/compress_whitespace.go:20-31: the closure over [previousIsSpace]. *)
Definition compress_step (previous_is_space : bool) (i : Z) : bool * Z :=
  if i =? 32 then
    if previous_is_space then (previous_is_space, -1) else (true, i)
  else (false, i).

(** The [Trans] methods: lowercase.go:18-20, urldecode.go:17-20,
    urldecode_uni.go:17-20, compress_whitespace.go:19-32, map_rune.go:47-49 with
    the mappings of lines 14-33, none.go:16-18. *)
Definition apply_trans (O : oracles) (t : trans) (s : bs) : bs :=
  match t with
  | TLowercase => to_lower (uni_lower O) s
  | TUrlDecode => fst (UrlDecode s)
  | TUrlDecodeUni => fst (UrlDecodeUni s)
  | TCompressWhitespace => strings_map compress_step false s
  | TRemoveWhitespace => strings_map (replace_rune 32 (-1)) tt s
  | TRemoveNulls => strings_map (replace_rune 0 (-1)) tt s
  | TReplaceNulls => strings_map (replace_rune 0 32) tt s
  | TNone => s
  end.

(** modsecurity/sec_rule.go:53-58 [TransformString] *)
Fixpoint transform_string (O : oracles) (ts : list trans) (s : bs) : bs :=
  match ts with
  | [] => s
  | t :: ts' => transform_string O ts' (apply_trans O t s)
  end.
