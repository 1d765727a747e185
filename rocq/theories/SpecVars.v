(** Specification vocabulary for variables: selector calls, form encoding of query
    strings, cookie header lines, path segments. *)
From Verif Require Import Base SpecText.

(** ** Selector calls on a collection variable *)
Inductive call := Inc (s : bs) | Exc (s : bs).

(** A selector written between slashes is a pattern. *)
Definition pattern (s p : bs) : Prop := s = "/"%char :: p ++ ["/"%char].
Definition exact (s : bs) : Prop := forall p, ~ pattern s p.

(** Which names are inspected after the calls. *)
Definition selected (rx : bs -> bs -> bool) (calls : list call) (k : bs) : Prop :=
  ((exists s, In (Inc s) calls /\ exact s) -> In (Inc k) calls /\ exact k) /\
  ((exists s p, In (Inc s) calls /\ pattern s p) ->
   exists s p, In (Inc s) calls /\ pattern s p /\ rx p k = true) /\
  ~ (In (Exc k) calls /\ exact k) /\
  ~ (exists s p, In (Exc s) calls /\ pattern s p /\ rx p k = true).

(** The entries whose name is inspected, in order. *)
Inductive keeps {A} (P : A -> Prop) : list A -> list A -> Prop :=
| keeps_nil : keeps P [] []
| keeps_in : forall x l l', P x -> keeps P l l' -> keeps P (x :: l) (x :: l')
| keeps_out : forall x l l', ~ P x -> keeps P l l' -> keeps P (x :: l) l'.

(** ** Form encoding (application/x-www-form-urlencoded) *)
Inductive form_text : bs -> bs -> Prop :=
| ft_nil : form_text [] []
| ft_plain : forall c s e, ~ In c (B "%+&=;") -> form_text s e -> form_text (c :: s) (c :: e)
| ft_plus : forall s e, form_text s e -> form_text (" "%char :: s) ("+"%char :: e)
| ft_hex : forall c h l hi lo s e, hexdigit h hi -> hexdigit l lo -> code c = 16 * hi + lo ->
    form_text s e -> form_text (c :: s) ("%"%char :: h :: l :: e).

(** One pair: "name=value", or just "name" for an empty value. *)
Inductive form_pair : bs * bs -> bs -> Prop :=
| fp_pair : forall k v ek ev, form_text k ek -> form_text v ev ->
    form_pair (k, v) (ek ++ "="%char :: ev)
| fp_name : forall k ek, form_text k ek -> ek <> [] -> form_pair (k, []) ek.

(** Pairs joined by '&' (superfluous '&' allowed). *)
Inductive form_pairs : list (bs * bs) -> bs -> Prop :=
| fps_nil : form_pairs [] []
| fps_one : forall p f, form_pair p f -> form_pairs [p] f
| fps_cons : forall p f ps q, form_pair p f -> form_pairs ps q ->
    form_pairs (p :: ps) (f ++ "&"%char :: q)
| fps_amp : forall ps q, form_pairs ps q -> form_pairs ps ("&"%char :: q).

(** A field that no decoder accepts: its first '%' is not followed by two hex digits. *)
Definition bad_escape (r : bs) : Prop :=
  match r with
  | c :: d :: _ => (forall v, ~ hexdigit c v) \/ (forall v, ~ hexdigit d v)
  | _ => True
  end.
Inductive bad_field : bs -> Prop :=
| bf : forall a r, ~ In "%"%char a -> bad_escape r ->
    ~ In "&"%char (a ++ r) -> ~ In ";"%char (a ++ r) -> bad_field (a ++ "%"%char :: r).

(** Like [form_pairs], with undecodable fields in between; the number of them. *)
Inductive form_mix : list (bs * bs) -> nat -> bs -> Prop :=
| fm_nil : form_mix [] 0 []
| fm_one : forall p f, form_pair p f -> form_mix [p] 0 f
| fm_bad1 : forall f, bad_field f -> form_mix [] 1 f
| fm_cons : forall p f ps n q, form_pair p f -> form_mix ps n q ->
    form_mix (p :: ps) n (f ++ "&"%char :: q)
| fm_bad : forall f ps n q, bad_field f -> form_mix ps n q ->
    form_mix ps (S n) (f ++ "&"%char :: q)
| fm_amp : forall ps n q, form_mix ps n q -> form_mix ps n ("&"%char :: q).

(** The values of one name, in order. *)
Definition values_of (k : bs) (ps : list (bs * bs)) : list bs :=
  map snd (List.filter (fun p => bs_eqb k (fst p)) ps).

(** ** Cookie header lines *)
(** Text that neither starts nor ends with white space. *)
Definition trimmed (s : bs) : Prop :=
  forall w r, white w -> w <> [] -> s <> w ++ r /\ s <> r ++ w.

Inductive cookie_text : bs * bs -> bs -> Prop :=
| ck_pair : forall k v, ~ In "="%char k -> ~ In ";"%char k -> ~ In ";"%char v ->
    trimmed (k ++ "="%char :: v) -> cookie_text (k, v) (k ++ "="%char :: v)
| ck_name : forall k, k <> [] -> ~ In "="%char k -> ~ In ";"%char k -> trimmed k ->
    cookie_text (k, []) k.

(** A header line: cookies separated by ';', each surrounded by any white space;
    parts of only white space are allowed. *)
Inductive cookie_parts : list (bs * bs) -> list bs -> Prop :=
| cps_nil : cookie_parts [] []
| cps_cons : forall p x ps w1 w2 parts, cookie_text p x -> white w1 -> white w2 ->
    cookie_parts ps parts -> cookie_parts (p :: ps) ((w1 ++ x ++ w2) :: parts)
| cps_blank : forall ps w parts, white w -> cookie_parts ps parts ->
    cookie_parts ps (w :: parts).
Fixpoint join (c : ascii) (parts : list bs) : bs :=
  match parts with
  | [] => []
  | [p] => p
  | p :: ps => p ++ c :: join c ps
  end.
Inductive cookie_lines : list (bs * bs) -> list bs -> Prop :=
| cls_nil : cookie_lines [] []
| cls_cons : forall ps qs parts lines, cookie_parts ps parts -> cookie_lines qs lines ->
    cookie_lines (ps ++ qs) (join ";" parts :: lines).

(** ** Path segments *)
Definition separator (c : ascii) : Prop := c = "/"%char \/ c = "\"%char.
Inductive last_segment : bs -> bs -> Prop :=
| ls_none : forall path, Forall separator path -> last_segment path (B "/")
| ls_some : forall before seg after,
    seg <> [] -> Forall (fun c => ~ separator c) seg -> Forall separator after ->
    (before = [] \/ exists b c, before = b ++ [c] /\ separator c) ->
    last_segment (before ++ seg ++ after) seg.
