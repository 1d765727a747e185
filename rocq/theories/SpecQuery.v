(** Specification vocabulary for query texts and urlencoded bodies of any shape, well
    formed or not.  Only [reads_form] refers to the model (to its names of variables). *)
From Verif Require Import Base Types SpecText SpecVars.

(** A field's text decoded: "%hh" is one byte, '+' a space, anything else itself. *)
Inductive decoded : bs -> bs -> Prop :=
| dc_nil : decoded [] []
| dc_plain : forall c s e, c <> "%"%char -> c <> "+"%char -> decoded s e -> decoded (c :: s) (c :: e)
| dc_plus : forall s e, decoded s e -> decoded (" "%char :: s) ("+"%char :: e)
| dc_hex : forall c h l hi lo s e, hexdigit h hi -> hexdigit l lo -> code c = 16 * hi + lo ->
    decoded s e -> decoded (c :: s) ("%"%char :: h :: l :: e).

(** A field's name and value: split at the first '=', without one the value is empty. *)
Inductive field : bs * bs -> bs -> Prop :=
| fi_pair : forall k v ek ev, ~ In "="%char ek -> decoded k ek -> decoded v ev ->
    field (k, v) (ek ++ "="%char :: ev)
| fi_name : forall k ek, ~ In "="%char ek -> decoded k ek -> field (k, []) ek.

(** '&' separates fields.  A ';' separates them too ([semi]), or spoils the field it
    is in, depending on the Go release. *)
Definition separates (semi : bool) (c : ascii) : Prop := c = "&"%char \/ (semi = true /\ c = ";"%char).
Definition spoiled (semi : bool) (f : bs) : Prop := semi = false /\ In ";"%char f.

(** What one field contributes: nothing if empty, its pair, or an error. *)
Inductive piece (semi : bool) : list (bs * bs) -> nat -> bs -> Prop :=
| pc_empty : piece semi [] 0 []
| pc_pair : forall p f, f <> [] -> ~ spoiled semi f -> field p f -> piece semi [p] 0 f
| pc_bad : forall f, f <> [] -> (spoiled semi f \/ forall p, ~ field p f) -> piece semi [] 1 f.

(** A text read as fields: the pairs in order and the number of malformed fields. *)
Inductive query (semi : bool) : list (bs * bs) -> nat -> bs -> Prop :=
| qu_last : forall ps n f, Forall (fun c => ~ separates semi c) f -> piece semi ps n f -> query semi ps n f
| qu_more : forall ps n f c qs m q, Forall (fun c => ~ separates semi c) f -> piece semi ps n f ->
    separates semi c -> query semi qs m q -> query semi (ps ++ qs) (n + m) (f ++ c :: q).

(** Values handed out name by name: the names in any order, the values of one name
    together and in the order of the text. *)
Definition by_name (ps : list (bs * bs)) (out : list bs) : Prop :=
  exists ks, NoDup ks /\ (forall k, In k ks <-> In k (map fst ps)) /\
    out = flat_map (fun k => values_of k ps) ks.
(** The names, each once, in any order. *)
Definition names_once (ps : list (bs * bs)) (out : list bs) : Prop :=
  NoDup out /\ forall k, In k out <-> In k (map fst ps).

(** The variables that read the arguments of the body. *)
Fixpoint reads_form (v : variable) : bool :=
  match v with
  | VColl CArgsPost _ | VColl CArgsPostNames _ | VArgs _ _ | VArgsNames _ _ => true
  | VCount v => reads_form v
  | _ => false
  end.
