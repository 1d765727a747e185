(** Independent specifications for texts: hexadecimal and decimal numerals,
    percent-encoding, UTF-8, white space.  Nothing here refers to the model. *)
From Verif Require Import Base.

(** ** Hexadecimal digits: position in the digit strings *)
Definition hexdigit (c : ascii) (v : Z) : Prop :=
  0 <= v /\ (nth_error (B "0123456789abcdef") (Z.to_nat v) = Some c
             \/ nth_error (B "0123456789ABCDEF") (Z.to_nat v) = Some c).

(** [e] is a percent-encoding of [s] (every byte as %XX). *)
Inductive pct_encodes : bs -> bs -> Prop :=
| pe_nil : pct_encodes [] []
| pe_byte : forall b s h l hi lo e,
    hexdigit h hi -> hexdigit l lo -> code b = 16 * hi + lo ->
    pct_encodes s e -> pct_encodes (b :: s) ("%"%char :: h :: l :: e).

(** ** UTF-8, stated by its decoding equations *)
Definition scalar_value (r : Z) : Prop := 0 <= r <= 55295 \/ 57344 <= r <= 1114111.
Definition trail (c : ascii) : Prop := 128 <= code c <= 191.
Inductive utf8 : Z -> bs -> Prop :=
| utf8_1 : forall a, code a <= 127 -> utf8 (code a) [a]
| utf8_2 : forall r a b,
    192 <= code a <= 223 -> trail b -> 128 <= r ->
    r = (code a - 192) * 64 + (code b - 128) -> utf8 r [a; b]
| utf8_3 : forall r a b c,
    224 <= code a <= 239 -> trail b -> trail c -> 2048 <= r -> scalar_value r ->
    r = (code a - 224) * 4096 + (code b - 128) * 64 + (code c - 128) -> utf8 r [a; b; c]
| utf8_4 : forall r a b c d,
    240 <= code a <= 247 -> trail b -> trail c -> trail d -> 65536 <= r <= 1114111 ->
    r = (code a - 240) * 262144 + (code b - 128) * 4096 + (code c - 128) * 64 + (code d - 128) ->
    utf8 r [a; b; c; d].

(** A byte string that is a sequence of UTF-8 encoded characters. *)
Inductive utf8_text : list Z -> bs -> Prop :=
| ut_nil : utf8_text [] []
| ut_cons : forall r e rs s, utf8 r e -> utf8_text rs s -> utf8_text (r :: rs) (e ++ s).
Definition is_utf8 (s : bs) : Prop := exists rs, utf8_text rs s.

(** ** The urlDecode grammar *)

(** The code point written by %uXXXX, full-width forms FFxx folded by +0x20. *)
Definition folded (cp : Z) : Z := if 65280 <=? cp then cp - 65280 + 32 else cp.
(** What is written for a code point: its UTF-8, or that of U+FFFD for surrogates. *)
Definition utf8_or_fffd (cp : Z) (e : bs) : Prop :=
  (scalar_value cp /\ utf8 cp e) \/ (~ scalar_value cp /\ utf8 65533 e).

Definition hex_escape (s : bs) : Prop :=
  exists h l hi lo r, s = h :: l :: r /\ hexdigit h hi /\ hexdigit l lo.
Definition uni_escape (s : bs) : Prop :=
  exists u h0 h1 h2 h3 v0 v1 v2 v3 r,
    s = u :: h0 :: h1 :: h2 :: h3 :: r /\ (u = "u"%char \/ u = "U"%char)
    /\ hexdigit h0 v0 /\ hexdigit h1 v1 /\ hexdigit h2 v2 /\ hexdigit h3 v3.

(** [decodes uni s o e]: decoding [s] yields [o] with [e] malformed escapes. *)
Inductive decodes (uni : bool) : bs -> bs -> Z -> Prop :=
| dec_nil : decodes uni [] [] 0
| dec_hex : forall h l hi lo b s o e,
    hexdigit h hi -> hexdigit l lo -> code b = 16 * hi + lo ->
    decodes uni s o e -> decodes uni ("%"%char :: h :: l :: s) (b :: o) e
| dec_uni : forall u h0 h1 h2 h3 v0 v1 v2 v3 w s o e,
    uni = true -> (u = "u"%char \/ u = "U"%char) ->
    hexdigit h0 v0 -> hexdigit h1 v1 -> hexdigit h2 v2 -> hexdigit h3 v3 ->
    utf8_or_fffd (folded (4096 * v0 + 256 * v1 + 16 * v2 + v3)) w ->
    decodes uni s o e ->
    decodes uni ("%"%char :: u :: h0 :: h1 :: h2 :: h3 :: s) (w ++ o) e
| dec_bad : forall s o e,
    ~ hex_escape s -> ~ (uni = true /\ uni_escape s) ->
    decodes uni s o e -> decodes uni ("%"%char :: s) ("%"%char :: o) (e + 1)
| dec_plus : forall s o e,
    decodes uni s o e -> decodes uni ("+"%char :: s) (" "%char :: o) e
| dec_other : forall c s o e,
    c <> "%"%char -> c <> "+"%char ->
    decodes uni s o e -> decodes uni (c :: s) (c :: o) e.

(** ** Case *)
Definition upper (c : ascii) : Prop := 65 <= code c <= 90.
Definition lowered (a b : ascii) : Prop :=
  (upper a /\ code b = code a + 32) \/ (~ upper a /\ b = a).
Definition ascii_text (s : bs) : Prop := Forall (fun c => code c <= 127) s.

(** ** Squeezing runs of spaces *)
Definition no_lead (s : bs) : Prop := forall r, s <> " "%char :: r.
Inductive squeezed : bs -> bs -> Prop :=
| sq_nil : squeezed [] []
| sq_other : forall c s o, c <> " "%char -> squeezed s o -> squeezed (c :: s) (c :: o)
| sq_run : forall n s o, no_lead s -> squeezed s o ->
    squeezed (repeat " "%char (S n) ++ s) (" "%char :: o).

(** ** White space (Unicode White_Space as far as Go's unicode.IsSpace) *)
Definition space_points : list Z :=
  [9; 10; 11; 12; 13; 32; 133; 160; 5760] ++
  [8192; 8193; 8194; 8195; 8196; 8197; 8198; 8199; 8200; 8201; 8202] ++
  [8232; 8233; 8239; 8287; 12288].
Inductive white : bs -> Prop :=
| white_nil : white []
| white_cons : forall r e w, In r space_points -> utf8 r e -> white w -> white (e ++ w).

(** ** Decimal integers *)
Definition decdigit (c : ascii) (v : Z) : Prop :=
  0 <= v /\ nth_error (B "0123456789") (Z.to_nat v) = Some c.
Inductive digits : bs -> Z -> Prop :=
| dg_one : forall c d, decdigit c d -> digits [c] d
| dg_snoc : forall s n c d, digits s n -> decdigit c d -> digits (s ++ [c]) (10 * n + d).
Inductive denotes : bs -> Z -> Prop :=
| den_plain : forall s n, digits s n -> denotes s n
| den_plus : forall s n, digits s n -> denotes ("+"%char :: s) n
| den_minus : forall s n, digits s n -> denotes ("-"%char :: s) (- n).
(** The usual decimal notation: no plus sign, no superfluous zero. *)
Definition decimal (s : bs) (z : Z) : Prop :=
  denotes s z /\ (forall r, s <> "+"%char :: r) /\ (forall r, s = "0"%char :: r -> r = []) /\
  (forall r, s <> "-"%char :: "0"%char :: r).
Definition int64 (z : Z) : Prop := - 2 ^ 63 <= z <= 2 ^ 63 - 1.

(** [s] is the decimal int64 [z] possibly surrounded by white space. *)
Definition padded_int (s : bs) (z : Z) : Prop :=
  exists w1 core w2, s = w1 ++ core ++ w2 /\ white w1 /\ white w2 /\ denotes core z /\ int64 z.
