(** Specification vocabulary: what a regular expression stands for, in texts of characters; and what the common
    kinds of patterns say in texts of bytes. *)
From Verif Require Import Base GoStrings Types SpecVars Regex.

(** The edge of a word between [b] and [a]. *)
Definition word_char (z : Z) : Prop := 48 <= z <= 57 \/ 65 <= z <= 90 \/ z = 95 \/ 97 <= z <= 122.
Definition word_before (b : list Z) : Prop := exists b' z, b = b' ++ [z] /\ word_char z.
Definition word_after (a : list Z) : Prop := exists z a', a = z :: a' /\ word_char z.
Definition word_edge (b a : list Z) : Prop := (word_before b /\ ~ word_after a) \/ (~ word_before b /\ word_after a).
(** [fits r b w a]: [r] stands for [w] between [b] and [a]. *)
Inductive fits : re -> list Z -> list Z -> list Z -> Prop :=
| fi_set : forall inside l b c a, ((exists lo hi, In (lo, hi) l /\ lo <= c <= hi) <-> inside = true) -> fits (RSet inside l) b [c] a
| fi_empty : forall b a, fits REmpty b [] a
| fi_seq : forall r1 r2 b w1 w2 a, fits r1 b w1 (w2 ++ a) -> fits r2 (b ++ w1) w2 a -> fits (RSeq r1 r2) b (w1 ++ w2) a
| fi_left : forall r1 r2 b w a, fits r1 b w a -> fits (RAlt r1 r2) b w a
| fi_right : forall r1 r2 b w a, fits r2 b w a -> fits (RAlt r1 r2) b w a
| fi_none : forall r b a, fits (RStar r) b [] a
| fi_more : forall r b w1 w2 a, fits r b w1 (w2 ++ a) -> fits (RStar r) (b ++ w1) w2 a -> fits (RStar r) b (w1 ++ w2) a
| fi_begin : forall a, fits RBegin [] [] a
| fi_end : forall b, fits REnd b [] []
| fi_edge : forall yes b a, (word_edge b a <-> yes = true) -> fits (REdge yes) b [] a.
Definition occurs (r : re) (s : list Z) : Prop := exists b w a, s = b ++ w ++ a /\ fits r b w a.

(** The regexp library behind the oracles reads and matches the patterns of Regex.v as said there. *)
Definition library (O : oracles) : Prop :=
  forall p r, compile p = Some r -> rx_ok O p = true /\ forall s, rx_match O p s = match_string r s.

(** ** The patterns, by their text *)
(** A meaning tells which texts stand between what is before and what is after them. *)
Definition meaning := list Z -> list Z -> list Z -> Prop.
Definition single (P : Z -> Prop) : meaning := fun _ w _ => exists z, w = [z] /\ P z.
Definition followed (M N : meaning) : meaning := fun b w a => exists w1 w2, w = w1 ++ w2 /\ M b w1 (w2 ++ a) /\ N (b ++ w1) w2 a.
Fixpoint in_row (n : nat) (M : meaning) : meaning := match n with O => fun _ w _ => w = [] | S n' => followed M (in_row n' M) end.
Definition as_often (K : nat -> Prop) (M : meaning) : meaning := fun b w a => exists n, K n /\ in_row n M b w a.
(** Letters of the other case; the Kelvin sign for k, the long s for s. *)
Definition same_fold (x z : Z) : Prop :=
  (97 <= x <= 122 /\ z = x - 32) \/ (65 <= x <= 90 /\ z = x + 32) \/ ((x = 75 \/ x = 107) /\ z = 8490) \/ ((x = 83 \/ x = 115) /\ z = 383).
Definition whatever_case (fold : bool) (P : Z -> Prop) (z : Z) : Prop := P z \/ (fold = true /\ exists x, P x /\ same_fold x z).
Inductive class_letter : ascii -> (Z -> Prop) -> Prop :=
| cl_digit : class_letter "d" (fun z => 48 <= z <= 57)
| cl_space : class_letter "s" (fun z => z = 9 \/ z = 10 \/ z = 12 \/ z = 13 \/ z = 32)
| cl_word : class_letter "w" word_char.
Inductive not_class_letter : ascii -> ascii -> Prop :=
| nc_digit : not_class_letter "D" "d"
| nc_space : not_class_letter "S" "s"
| nc_word : not_class_letter "W" "w".
Definition alphanumeric (c : ascii) : Prop := 48 <= code c <= 57 \/ 65 <= code c <= 90 \/ 97 <= code c <= 122.
Inductive stands_for : ascii -> ascii -> Prop :=
| sf_n : stands_for "n" LF
| sf_r : stands_for "r" CR
| sf_t : stands_for "t" TAB
| sf_f : stands_for "f" FF
| sf_v : stands_for "v" VT
| sf_other : forall c, code c < 128 -> ~ alphanumeric c -> stands_for c c.
(** Inside brackets. *)
Inductive bracket_char : bs -> ascii -> Prop :=
| bc_plain : forall c, code c < 128 -> ~ In c ["["; "]"; "\"]%char -> bracket_char [c] c
| bc_escaped : forall c d, stands_for c d -> bracket_char ["\"%char; c] d.
Inductive bracket : bs -> (Z -> Prop) -> Prop :=
| bk_none : bracket [] (fun _ => False)
| bk_class : forall c P s Q, class_letter c P -> bracket s Q -> bracket ("\"%char :: c :: s) (fun z => P z \/ Q z)
| bk_char : forall x c s Q, bracket_char x c -> bracket s Q -> (forall r, s = "-"%char :: r -> r = []) -> bracket (x ++ s) (fun z => z = code c \/ Q z)
| bk_range : forall x c y d s Q, bracket_char x c -> bracket_char y d -> code c <= code d -> bracket s Q ->
    bracket (x ++ "-"%char :: y ++ s) (fun z => code c <= z <= code d \/ Q z).
(** A character that stands for itself. *)
Definition literal (c : ascii) : Prop := code c < 128 /\ ~ In c (B "\.+*?()|[{^$").
(** One character. *)
Inductive one (fold : bool) : bs -> (Z -> Prop) -> Prop :=
| on_char : forall c, literal c -> one fold [c] (whatever_case fold (fun z => z = code c))
| on_dot : one fold (B ".") (fun z => z <> 10)
| on_escaped : forall c d, stands_for c d -> one fold ["\"%char; c] (fun z => z = code d)
| on_class : forall c P, class_letter c P -> one fold ["\"%char; c] (whatever_case fold P)
| on_not_class : forall c d P, not_class_letter c d -> class_letter d P -> one fold ["\"%char; c] (fun z => ~ whatever_case fold P z)
| on_in : forall s P, bracket s P -> s <> [] -> (forall r, s <> "^"%char :: r) -> one fold ("["%char :: s ++ B "]") (whatever_case fold P)
| on_out : forall s P, bracket s P -> s <> [] -> one fold (B "[^" ++ s ++ B "]") (fun z => ~ whatever_case fold P z).
(** How often. *)
Inductive mark : bs -> (nat -> Prop) -> Prop :=
| mk_star : mark (B "*") (fun _ => True)
| mk_plus : mark (B "+") (fun n => (1 <= n)%nat)
| mk_may : mark (B "?") (fun n => (n <= 1)%nat).
Inductive numeral : bs -> nat -> Prop :=
| nu_digit : forall c, 48 <= code c <= 57 -> numeral [c] (nat_of_ascii c - 48)
| nu_more : forall d n c, numeral d n -> (0 < n)%nat -> 48 <= code c <= 57 -> numeral (d ++ [c]) (10 * n + (nat_of_ascii c - 48)).
Inductive count : bs -> (nat -> Prop) -> Prop :=
| co_just : forall d n, numeral d n -> (n <= 1000)%nat -> count (B "{" ++ d ++ B "}") (fun k => k = n)
| co_from : forall d n, numeral d n -> (n <= 1000)%nat -> count (B "{" ++ d ++ B ",}") (fun k => (n <= k)%nat)
| co_between : forall d n e m, numeral d n -> numeral e m -> (n <= m <= 1000)%nat -> count (B "{" ++ d ++ B "," ++ e ++ B "}") (fun k => (n <= k <= m)%nat).
Definition preferred (l : bs) : Prop := l = [] \/ l = B "?".
(** Places. *)
Inductive placed : bs -> (list Z -> list Z -> Prop) -> Prop :=
| pl_begin : placed (B "^") (fun b _ => b = [])
| pl_start : placed (B "\A") (fun b _ => b = [])
| pl_end : placed (B "$") (fun _ a => a = [])
| pl_stop : placed (B "\z") (fun _ a => a = [])
| pl_edge : placed (B "\b") word_edge
| pl_no_edge : placed (B "\B") (fun b a => ~ word_edge b a).
(** Items, items with a mark, sequences, alternatives; [fold] is on under (?i). *)
Inductive item : bool -> bs -> meaning -> Prop :=
| im_one : forall fold s P, one fold s P -> item fold s (single P)
| im_group : forall fold s M, choice fold s M -> item fold (B "(" ++ s ++ B ")") M
| im_plain : forall fold s M, choice fold s M -> item fold (B "(?:" ++ s ++ B ")") M
| im_fold : forall fold s M, choice true s M -> item fold (B "(?i:" ++ s ++ B ")") M
with factor : bool -> bs -> meaning -> Prop :=
| fc_item : forall fold s M, item fold s M -> factor fold s M
| fc_mark : forall fold s M q K l, item fold s M -> mark q K -> preferred l -> factor fold (s ++ q ++ l) (as_often K M)
| fc_count : forall fold s P q K l, one fold s P -> count q K -> preferred l -> factor fold (s ++ q ++ l) (as_often K (single P))
| fc_place : forall fold s P, placed s P -> factor fold s (fun b w a => w = [] /\ P b a)
with sequence : bool -> bs -> meaning -> Prop :=
| sq_none : forall fold, sequence fold [] (fun _ w _ => w = [])
| sq_more : forall fold s1 M1 s2 M2, factor fold s1 M1 -> sequence fold s2 M2 -> sequence fold (s1 ++ s2) (followed M1 M2)
with choice : bool -> bs -> meaning -> Prop :=
| ch_last : forall fold s M, sequence fold s M -> choice fold s M
| ch_or : forall fold s1 M1 s2 M2, sequence fold s1 M1 -> choice fold s2 M2 -> choice fold (s1 ++ "|"%char :: s2) (fun b w a => M1 b w a \/ M2 b w a).
(** The pattern [p] asks for a text with the meaning [M] somewhere. *)
Definition reads (p : bs) (M : meaning) : Prop := choice false p M \/ exists q, p = B "(?i)" ++ q /\ choice true q M.
Definition found (M : meaning) (s : bs) : Prop := exists b w a, runes s = b ++ w ++ a /\ M b w a.

(** ** Common patterns, in bytes *)
(** A word without special characters. *)
Definition plain_word (w : bs) : Prop := Forall literal w.
Definition contains (w s : bs) : Prop := exists a b, s = a ++ w ++ b.
Definition begins_with (w s : bs) : Prop := exists b, s = w ++ b.
Definition ends_with (w s : bs) : Prop := exists a, s = a ++ w.
(** Up to the case of ASCII letters. *)
Definition same_letter (c d : ascii) : Prop :=
  c = d \/ (97 <= code c <= 122 /\ code d = code c - 32) \/ (65 <= code c <= 90 /\ code d = code c + 32).
Definition same_word : bs -> bs -> Prop := Forall2 same_letter.
(** Letters that no character outside ASCII folds to. *)
Definition no_odd_letter (w : bs) : Prop := Forall (fun c => ~ In c ["k"; "K"; "s"; "S"]%char) w.
(** w1|w2|... *)
Fixpoint any_of (ws : list bs) : bs :=
  match ws with
  | [] => []
  | [w] => w
  | w :: ws' => w ++ "|"%char :: any_of ws'
  end.
(** What the common patterns say about a text. *)
Inductive says : bs -> (bs -> Prop) -> Prop :=
| say_contains : forall w, plain_word w -> says w (contains w)
| say_starts : forall w, plain_word w -> says (B "^" ++ w) (begins_with w)
| say_ends : forall w, plain_word w -> says (w ++ B "$") (ends_with w)
| say_equals : forall w, plain_word w -> says (B "^" ++ w ++ B "$") (fun s => s = w)
| say_any : forall w, plain_word w -> forall ws, Forall plain_word ws -> says (any_of (w :: ws)) (fun s => exists v, In v (w :: ws) /\ contains v s)
| say_case_contains : forall w, plain_word w -> no_odd_letter w -> says (B "(?i)" ++ w) (fun s => exists v, same_word w v /\ contains v s)
| say_case_starts : forall w, plain_word w -> no_odd_letter w -> says (B "(?i)^" ++ w) (fun s => exists v, same_word w v /\ begins_with v s)
| say_case_ends : forall w, plain_word w -> no_odd_letter w -> says (B "(?i)" ++ w ++ B "$") (fun s => exists v, same_word w v /\ ends_with v s)
| say_case_equals : forall w, plain_word w -> no_odd_letter w -> says (B "(?i)^" ++ w ++ B "$") (fun s => same_word w s)
| say_reads : forall p M, reads p M -> says p (found M).
Definition said (p s : bs) : Prop := exists M, says p M /\ M s.
(** The names selected, as in SpecVars.v, by such patterns. *)
Definition selected_words (calls : list call) (k : bs) : Prop :=
  ((exists s, In (Inc s) calls /\ exact s) -> In (Inc k) calls /\ exact k) /\
  ((exists s p, In (Inc s) calls /\ pattern s p) -> exists s p, In (Inc s) calls /\ pattern s p /\ said p k) /\
  ~ (In (Exc k) calls /\ exact k) /\
  ~ (exists s p, In (Exc s) calls /\ pattern s p /\ said p k).

(** ** Registered flag words *)
(** The last word registered for a token. *)
Definition last_word (l : list (Z * bs)) (tk : Z) (w : bs) : Prop := exists a b, l = a ++ (tk, w) :: b /\ ~ In tk (map fst b).
