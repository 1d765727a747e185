(** Specification vocabulary: the text of a multipart form whose lines end with LF alone. *)
From Verif Require Import Base Buffer BufferFacts Types SpecText SpecVars SpecMedia Multi SpecMulti MultiLf.

(** Such forms of up to 2000 bytes are read as the library does it, where MultiLf.v says how; see [multipart_library]. *)
Definition multipart_lf_library (O : oracles) : Prop :=
  forall b bd m r, b_readed b = false -> 2 * Z.of_nat (length (content b)) <= m -> (length (content b) <= 2000)%nat -> read_lf_form bd (content b ++ content b) = Some r ->
    fst (multipart O b bd m) = r.

(** A part up to the next delimiter; a CR before the last LF belongs to the text. *)
Inductive lf_part (bd : bs) : list (bs * bs) -> bs -> Prop :=
| lp_text : forall ps hs h e raw v, part_header hs h -> either_end e -> part_says hs raw v -> part_fields v hs ps -> (forall r, raw <> B "--" ++ bd ++ r) -> ~ occurs (LF :: B "--" ++ bd) raw ->
    lf_part bd ps (h ++ e ++ raw ++ [LF])
| lp_empty : forall ps hs h e, part_header hs h -> either_end e -> part_says hs [] [] -> part_fields [] hs ps -> lf_part bd ps (h ++ e).
Inductive lf_form (bd : bs) (last : bs) : list (bs * bs) -> bs -> Prop :=
| lf_last : forall p s w, lf_part bd p s -> tabs_and_spaces w -> lf_form bd last p (s ++ B "--" ++ bd ++ B "--" ++ w ++ last)
| lf_more : forall p s w ps r, lf_part bd p s -> tabs_and_spaces w -> lf_form bd last ps r ->
    lf_form bd last (p ++ ps) (s ++ B "--" ++ bd ++ w ++ LF :: r).
(** The fields [ps] as a form; [pre] precedes the first delimiter, [last] follows the final one. *)
Definition lf_text (bd : bs) (pre last : bs) (ps : list (bs * bs)) (body : bs) : Prop :=
  exists w r, body = pre ++ B "--" ++ bd ++ w ++ LF :: r /\ preamble bd pre /\ tabs_and_spaces w /\ lf_form bd last ps r.
(** After the final delimiter and blanks there is something else than LF, so also CR LF. *)
Definition lf_spoilt (last body : bs) : Prop :=
  exists x r, last ++ body = x ++ LF :: r /\ ~ In LF x /\ (match x with [] => False | c :: _ => c <> " "%char /\ c <> TAB end).
(** Parts, and after the last of them a delimiter followed by [tail]. *)
Inductive lf_stops (bd tail : bs) : bs -> Prop :=
| ls_here : forall p s, lf_part bd p s -> lf_stops bd tail (s ++ B "--" ++ bd ++ tail)
| ls_later : forall p s w r, lf_part bd p s -> tabs_and_spaces w -> lf_stops bd tail r -> lf_stops bd tail (s ++ B "--" ++ bd ++ w ++ LF :: r).
Definition lf_stopped (bd pre tail body : bs) : Prop :=
  exists w r, body = pre ++ B "--" ++ bd ++ w ++ LF :: r /\ preamble bd pre /\ tabs_and_spaces w /\ lf_stops bd tail r.
(** The delimiter is no delimiter line and no final one: CR LF or a word behind it. *)
Definition lf_broken (tail body : bs) : Prop :=
  exists x r, tail ++ body = x ++ LF :: r /\ ~ In LF x /\
    ((exists c y, x = c :: y /\ (c = CR \/ c = " "%char \/ c = TAB)) \/ exists y, x = B "--" ++ y) /\
    forall w, tabs_and_spaces w -> x <> w /\ x <> B "--" ++ w.
