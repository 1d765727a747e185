(** Base types shared by the whole model: Go strings / byte slices, Go outcomes,
    association lists for Go maps, decimal printing.  No repository code here;
    these are the Go language notions the model files are written in. *)
From Coq Require Export String Ascii ZArith NArith Bool List Permutation Lia.
From Coq Require Import Decimal DecimalString.
Export ListNotations.
Open Scope Z_scope.
Open Scope list_scope.

(** A Go [string] or [[]byte]: a finite sequence of bytes. *)
Definition bs := list ascii.

(** Byte string of a Coq string literal. *)
Definition B (s : string) : bs := list_ascii_of_string s.

(** [rune(c)] / [int(c)] of a byte, and Go's truncating [byte(x)] conversion. *)
Definition code (a : ascii) : Z := Z.of_N (N_of_ascii a).
Definition byte_of (z : Z) : ascii := ascii_of_N (Z.to_N (z mod 256)).

(** Go string equality. *)
Fixpoint bs_eqb (a b : bs) : bool :=
  match a, b with
  | [], [] => true
  | x :: a', y :: b' => Ascii.eqb x y && bs_eqb a' b'
  | _, _ => false
  end.

Definition bs_mem (x : bs) (l : list bs) : bool := existsb (bs_eqb x) l.

(** Outcome of running Go code that may panic or fail to terminate.
    [Timeout] only means "not finished within this much fuel". *)
Inductive out (A : Type) : Type :=
| Ret (a : A)
| Panic
| Timeout.
Arguments Ret {A} a.
Arguments Panic {A}.
Arguments Timeout {A}.

Definition bind {A C} (m : out A) (k : A -> out C) : out C :=
  match m with
  | Ret a => k a
  | Panic => Panic
  | Timeout => Timeout
  end.
Notation "x <- m ;; k" := (bind m (fun x => k))
  (at level 61, m at next level, right associativity).
Notation "' p <- m ;; k" := (bind m (fun x => match x with p => k end))
  (at level 61, p pattern, m at next level, right associativity).

(** Go map with byte-string keys, as an association list with distinct keys.
    The list order carries no meaning in Go; iteration order is supplied
    separately by the order oracle. *)
Fixpoint assoc {A} (k : bs) (m : list (bs * A)) : option A :=
  match m with
  | [] => None
  | (k', v) :: m' => if bs_eqb k k' then Some v else assoc k m'
  end.

(** A multi-map: [map[string][]string] ([url.Values], [http.Header], ...). *)
Definition vals := list (bs * list bs).

(** [m[k] = append(m[k], v)] *)
Fixpoint vals_add (k v : bs) (m : vals) : vals :=
  match m with
  | [] => [(k, [v])]
  | (k', vs) :: m' =>
      if bs_eqb k k' then (k', vs ++ [v]) :: m' else (k', vs) :: vals_add k v m'
  end.

(** [strconv.Itoa]: decimal rendering of an integer. *)
Fixpoint uint_bs (d : Decimal.uint) : bs :=
  match d with
  | Decimal.Nil => []
  | Decimal.D0 d => "0"%char :: uint_bs d
  | Decimal.D1 d => "1"%char :: uint_bs d
  | Decimal.D2 d => "2"%char :: uint_bs d
  | Decimal.D3 d => "3"%char :: uint_bs d
  | Decimal.D4 d => "4"%char :: uint_bs d
  | Decimal.D5 d => "5"%char :: uint_bs d
  | Decimal.D6 d => "6"%char :: uint_bs d
  | Decimal.D7 d => "7"%char :: uint_bs d
  | Decimal.D8 d => "8"%char :: uint_bs d
  | Decimal.D9 d => "9"%char :: uint_bs d
  end.

Definition itoa (z : Z) : bs :=
  match Z.to_int z with
  | Decimal.Pos d => uint_bs d
  | Decimal.Neg d => "-"%char :: uint_bs d
  end.

(** ASCII character classes used throughout. *)
Definition in_range (lo hi : ascii) (c : ascii) : bool :=
  (code lo <=? code c) && (code c <=? code hi).
Definition is_digit (c : ascii) : bool := in_range "0" "9" c.

Definition NUL : ascii := "000".
Definition TAB : ascii := "009".
Definition LF : ascii := "010".
Definition VT : ascii := "011".
Definition FF : ascii := "012".
Definition CR : ascii := "013".
Definition SP : ascii := " ".
Definition DQ : ascii := """".
Definition SQ : ascii := "'".
Definition BSL : ascii := "\".
