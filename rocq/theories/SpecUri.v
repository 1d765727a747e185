(** Specification vocabulary: request targets, percent-encoded paths. *)
From Verif Require Import Base SpecText Types Uri.

(** URLs are written as the library does it. *)
Definition uri_library (O : oracles) : Prop :=
  forall path query rest, url_string O (Url [] [] None [] path query rest) = uri_string path query rest.

(** [spells_path e p]: [e] with its percent escapes decoded is [p]. *)
Inductive spells_path : bs -> bs -> Prop :=
| sp_nil : spells_path [] []
| sp_hex : forall h l hi lo b e p, hexdigit h hi -> hexdigit l lo -> code b = 16 * hi + lo -> spells_path e p -> spells_path ("%"%char :: h :: l :: e) (b :: p)
| sp_same : forall c e p, c <> "%"%char -> spells_path e p -> spells_path (c :: e) (c :: p).
(** A target: a path, and perhaps a query. *)
Inductive target : bs -> bs -> bs -> Prop :=   (* the target, its path, and the rest with the question mark *)
| tg : forall p q, ~ In "?"%char p -> q = [] \/ (exists r, q = "?"%char :: r) -> target (p ++ q) p q.
Definition query_text (q : bs) : bs := tl q.
Definition alnum (c : ascii) : Prop := 97 <= code c <= 122 \/ 65 <= code c <= 90 \/ 48 <= code c <= 57.
(** Bytes that the path of a URL shows as they are. *)
Definition shown_byte (c : ascii) : Prop := alnum c \/ In c (B "-_.~$&+,/:;=@").
(** Bytes of a path as a client may send it. *)
Definition path_byte (c : ascii) : Prop := shown_byte c \/ In c (B "%!'()*[]").
(** A path written by the library: bytes shown, and %XX in upper case for the others. *)
Inductive rewritten : bs -> bs -> Prop :=
| rw_nil : rewritten [] []
| rw_same : forall c p e, shown_byte c -> rewritten p e -> rewritten (c :: p) (c :: e)
| rw_hex : forall c hi lo h l p e, ~ shown_byte c -> 0 <= hi -> 0 <= lo -> code c = 16 * hi + lo ->
    nth_error (B "0123456789ABCDEF") (Z.to_nat hi) = Some h -> nth_error (B "0123456789ABCDEF") (Z.to_nat lo) = Some l ->
    rewritten p e -> rewritten (c :: p) ("%"%char :: h :: l :: e).
Definition no_control (t : bs) : Prop := forall c, In c t -> 32 <= code c /\ code c <> 127.
