(** Specification vocabulary: the text of a Content-Type header. *)
From Verif Require Import Base SpecText Types Media.

(** Content types are read as the library does it, where Media.v says how. *)
Definition media_library (O : oracles) : Prop := forall ct mt b, media ct = Some (mt, b) -> media_type O ct = (mt, b).

Definition specials : bs := B "()<>@,;:\""/[]?=".
Definition plain_char (c : ascii) : Prop := 33 <= code c <= 126 /\ ~ In c specials.
Definition token_word (s : bs) : Prop := s <> [] /\ Forall plain_char s.
Definition white (c : ascii) : Prop := 9 <= code c <= 13 \/ code c = 32.
Definition spaces (s : bs) : Prop := Forall white s.
Definition in_lower (s l : bs) : Prop := Forall2 lowered s l.
(** text, or text/html *)
Definition type_name (s : bs) : Prop := token_word s \/ exists x y, token_word x /\ token_word y /\ s = x ++ "/"%char :: y.
(** The text after the opening quote that means [v]. *)
Inductive quoted_text : bs -> bs -> Prop :=
| qt_end : quoted_text [] [""""%char]
| qt_plain : forall c v q, code c < 128 -> c <> """"%char -> c <> "\"%char -> c <> CR -> c <> LF -> quoted_text v q -> quoted_text (c :: v) (c :: q)
| qt_escaped : forall c v q, In c specials -> quoted_text v q -> quoted_text (c :: v) ("\"%char :: c :: q)
| qt_backslash : forall c v q, ~ In c specials -> quoted_text v (c :: q) -> quoted_text ("\"%char :: v) ("\"%char :: c :: q).
Definition value_written (v s : bs) : Prop := (token_word v /\ s = v) \/ exists q, quoted_text v q /\ s = """"%char :: q.
(** ; key = value *)
Definition parameter (p : bs * bs) (s : bs) : Prop :=
  exists b1 b2 key b3 b4 val, s = b1 ++ ";"%char :: b2 ++ key ++ b3 ++ "="%char :: b4 ++ val /\
    spaces b1 /\ spaces b2 /\ spaces b3 /\ spaces b4 /\ token_word key /\ ~ In "*"%char key /\ in_lower key (fst p) /\ value_written (snd p) val.
Inductive parameters : list (bs * bs) -> bs -> Prop :=
| pm_end : forall s, spaces s -> parameters [] s
| pm_semicolon : forall s r, spaces s -> spaces r -> parameters [] (s ++ ";"%char :: r)
| pm_one : forall p s ps r, parameter p s -> parameters ps r -> parameters (p :: ps) (s ++ r).
(** The header [ct]: the media type, in lower case, and its parameters in order. *)
Definition content_type (mt : bs) (ps : list (bs * bs)) (ct : bs) : Prop :=
  exists b1 name b2 rest, ct = b1 ++ name ++ b2 ++ rest /\ spaces b1 /\ type_name name /\ spaces b2 /\ in_lower name mt /\ parameters ps rest.
(** A parameter given twice, with two values: the first time anything is given twice. *)
Definition at_odds (ps : list (bs * bs)) : Prop :=
  exists ps1 k v ps2 v' ps3, ps = ps1 ++ (k, v) :: ps2 ++ (k, v') :: ps3 /\ NoDup (map fst (ps1 ++ (k, v) :: ps2)) /\ v <> v'.
