(** The functions of the repository that go through strings and slices by index, written with the indexes, slice
    expressions and shifts of the source; each access out of range panics.  Utils.v, Variables.v, Scanner.v and Buffer.v
    have the same functions by cases on the rest of the string; PropIndex.v relates the two. *)
From Verif Require Import Base GoStrings Utils Buffer Types Transaction Variables Scanner Registry.

(** [s[i]], [s[lo:hi]] and [s[i] = x] *)
Definition size {A} (s : list A) : Z := Z.of_nat (length s).
Definition at_ {A} (s : list A) (i : Z) : out A :=
  if i <? 0 then Panic else match nth_error s (Z.to_nat i) with Some c => Ret c | None => Panic end.
Definition sub_ {A} (s : list A) (lo hi : Z) : out (list A) :=
  if (0 <=? lo) && (lo <=? hi) && (hi <=? size s) then Ret (firstn (Z.to_nat (hi - lo)) (skipn (Z.to_nat lo) s)) else Panic.
Definition store_ {A} (s : list A) (i : Z) (x : A) : out (list A) :=
  if (0 <=? i) && (i <? size s) then Ret (firstn (Z.to_nat i) s ++ x :: skipn (S (Z.to_nat i)) s) else Panic.
(** [a && b] and [a || b]: the second is only looked at if the first does not decide. *)
Definition and_ (a b : out bool) : out bool := x <- a ;; if x then b else Ret false.
Definition or_ (a b : out bool) : out bool := x <- a ;; if x then Ret true else b.
(** [s[i] == c] *)
Definition is_ (s : bs) (i : Z) (c : ascii) : out bool := x <- at_ s i ;; Ret (Ascii.eqb x c).
Definition hex_ (s : bs) (i : Z) : out bool := x <- at_ s i ;; Ret (IsHex x).
(** [strings.IndexAny] as a number, -1 for none. *)
Definition index_ (seps s : bs) : Z := match index_any seps s with Some m => Z.of_nat m | None => -1 end.

(** utils/urlencode.go:15-55 [urldecode], from line 19 on: [i], [res] and [errCount] are the variables of the loop. *)
Fixpoint ix_urldecode (fuel : nat) (uni : bool) (s : bs) (i : Z) (res : bs) (errCount : Z) : out (bs * Z) :=
  match fuel with
  | O => Timeout
  | S n =>
      if negb (i <? size s) then Ret (res, errCount)
      else
        plain <- and_ (is_ s i "%") (and_ (Ret (i + 2 <? size s)) (and_ (hex_ s (i + 1)) (hex_ s (i + 2)))) ;;
        if plain : bool then
          a <- at_ s (i + 1) ;; b <- at_ s (i + 2) ;;
          ix_urldecode n uni s (i + 3) (res ++ [byte_of (Z.lor (Z.shiftl (UnHex a) 4) (UnHex b))]) errCount
        else
          wide <- and_ (Ret uni) (and_ (is_ s i "%") (and_ (Ret (i + 5 <? size s)) (and_ (or_ (is_ s (i + 1) "u") (is_ s (i + 1) "U"))
                    (and_ (hex_ s (i + 2)) (and_ (hex_ s (i + 3)) (and_ (hex_ s (i + 4)) (hex_ s (i + 5)))))))) ;;
          if wide : bool then
            h0 <- at_ s (i + 2) ;; h1 <- at_ s (i + 3) ;; h2 <- at_ s (i + 4) ;; h3 <- at_ s (i + 5) ;;
            let c0 := UnHex h0 in let c1 := UnHex h1 in let c2 := UnHex h2 in let c3 := UnHex h3 in
            let v := Z.lor (Z.shiftl c0 4) c1 in
            let v := if v =? 255 then Z.lor (Z.shiftl c2 4) c3 + 32
                     else let v := Z.lor (Z.shiftl v 4) c2 in Z.lor (Z.shiftl v 4) c3 in
            ix_urldecode n uni s (i + 6) (res ++ encode_rune v) errCount
          else
            c <- at_ s i ;;
            if Ascii.eqb c "%" then ix_urldecode n uni s (i + 1) (res ++ ["%"%char]) (errCount + 1)
            else if Ascii.eqb c "+" then ix_urldecode n uni s (i + 1) (res ++ [SP]) errCount
            else ix_urldecode n uni s (i + 1) (res ++ [c]) errCount
  end.

(** variables/request_basename.go:31-33, the loop *)
Fixpoint ix_strip (fuel : nat) (path : bs) : out bs :=
  match fuel with
  | O => Timeout
  | S n =>
      more <- and_ (Ret (0 <? size path)) (c <- at_ path (size path - 1) ;; Ret (is_path_sep c)) ;;
      if more : bool then p <- sub_ path 0 (size path - 1) ;; ix_strip n p else Ret path
  end.
(** request_basename.go:37-40, the loop *)
Fixpoint ix_back (fuel : nat) (path : bs) (i : Z) : out Z :=
  match fuel with
  | O => Timeout
  | S n =>
      more <- and_ (Ret (0 <=? i)) (c <- at_ path i ;; Ret (negb (is_path_sep c))) ;;
      if more : bool then ix_back n path (i - 1) else Ret i
  end.
(** request_basename.go:26-48 [basename] *)
Definition ix_basename (fuel : nat) (path : bs) : out bs :=
  if bs_eqb path [] then Ret (B "/")
  else
    path <- ix_strip fuel path ;;
    if bs_eqb path [] then Ret (B "/")
    else
      i <- ix_back fuel path (size path - 1) ;;
      path <- (if 0 <=? i then sub_ path (i + 1) (size path) else Ret path) ;;
      Ret (if bs_eqb path [] then B "/" else path).

(** variables/filter.go:16-21 [isRegex] *)
Definition ix_is_regex (s : bs) : out bool :=
  if size s <? 2 then Ret false else and_ (is_ s 0 "/") (is_ s (size s - 1) "/").
(** filter.go:22-31 [compileRegex]: no pattern, a pattern the library refuses, or the pattern. *)
Definition ix_compile (O : oracles) (s : bs) : out (option (option bs)) :=
  r <- ix_is_regex s ;;
  if r : bool then p <- sub_ s 1 (size s - 1) ;; Ret (Some (if rx_ok O p then Some p else None)) else Ret None.
(** filter.go:33-44 [Include] and 45-56 [Exclude] *)
Definition ix_include (O : oracles) (s : bs) (f : filter) : out (option filter) :=
  c <- ix_compile O s ;;
  Ret (match c with
       | Some None => None
       | Some (Some p) => Some (Filter (f_inc f) (f_incre f ++ [p]) (f_exc f) (f_excre f))
       | None => Some (Filter (f_inc f ++ [s]) (f_incre f) (f_exc f) (f_excre f))
       end).
Definition ix_exclude (O : oracles) (s : bs) (f : filter) : out (option filter) :=
  c <- ix_compile O s ;;
  Ret (match c with
       | Some None => None
       | Some (Some p) => Some (Filter (f_inc f) (f_incre f) (f_exc f) (f_excre f ++ [p]))
       | None => Some (Filter (f_inc f) (f_incre f) (f_exc f ++ [s]) (f_excre f))
       end).

(** seclang/parser/utils.go:30-35 [trimQuote]; seclang/actions.go:46-51 is the same. *)
Definition ix_trim_quote (s : bs) : out bs :=
  q <- and_ (Ret (2 <=? size s)) (and_ (c <- at_ s 0 ;; Ret (isQuote c)) (c <- at_ s (size s - 1) ;; Ret (isQuote c))) ;;
  if q : bool then sub_ s 1 (size s - 1) else Ret s.

(** seclang/parser/utils.go:37-59 [splitMulti], for separators within ASCII: [res] is the slice made beforehand. *)
Fixpoint ix_split_loop (fuel : nat) (seps : bs) (res : list bs) (i : Z) (s : bs) : out (list bs) :=
  match fuel with
  | O => Timeout
  | S n =>
      let m := index_ seps s in
      if m <? 0 then res <- store_ res i s ;; sub_ res 0 (i + 1)
      else
        a <- sub_ s 0 m ;; res <- store_ res i a ;;
        s <- sub_ s (m + 1) (size s) ;; ix_split_loop n seps res (i + 1) s
  end.
Definition ix_split_multi (fuel : nat) (s seps : bs) : out (list bs) :=
  if size seps =? 0 then Ret [s]
  else
    let count := fold_left (fun n sep => (n + count_byte sep s)%nat) seps 1%nat in
    ix_split_loop fuel seps (repeat [] count) 0 s.

(** seclang/parser/scanner.go:183-204: one variable *)
Definition ix_variable (a : bs) : out (res pvar) :=
  if size a <? 1 then Ret (RErr EOther)
  else
    excl <- is_ a 0 "!" ;;
    count <- (if excl : bool then Ret false else is_ a 0 "&") ;;
    a <- (if excl || count then sub_ a 1 (size a) else Ret a) ;;
    let i := index_ (B ".:") a in
    index <- (if 0 <? i then sub_ a (i + 1) (size a) else Ret []) ;;
    a <- (if 0 <? i then sub_ a 0 i else Ret a) ;;
    Ret (match assoc a variableMap with
         | None => RErr EOther
         | Some tk => ROk (PVar tk index count excl)
         end).
(** scanner.go:176-206, on the argument: the loop *)
Fixpoint ix_variable_list (args : list bs) : out (res (list pvar)) :=
  match args with
  | [] => Ret (ROk [])
  | a :: args' =>
      v <- ix_variable a ;;
      match v with
      | RErr e => Ret (RErr e)
      | ROk v => vs <- ix_variable_list args' ;; Ret (match vs with RErr e => RErr e | ROk vs => ROk (v :: vs) end)
      end
  end.
Definition ix_variables (fuel : nat) (arg : bs) : out (res (list pvar)) :=
  if size arg =? 0 then Ret (RErr EOther) else args <- ix_split_multi fuel arg (B ",|") ;; ix_variable_list args.
(** [strings.SplitN(s, c, 2)] as the slice it is. *)
Definition split_n (c : ascii) (s : bs) : list bs := match cut c s with (a, Some b) => [a; b] | (a, None) => [a] end.
(** scanner.go:215-241, on the argument *)
Definition ix_operator (op : bs) : out (res poper) :=
  if size op =? 0 then Ret (RErr EOther)
  else
    not <- and_ (Ret (0 <? size op)) (is_ op 0 "!") ;;
    op <- (if not : bool then sub_ op 1 (size op) else Ret op) ;;
    if size op =? 0 then Ret (RErr EOther)
    else
      named <- is_ op 0 "@" ;;
      if negb named then Ret (ROk (POper KRx not op))
      else
        let parts := split_n " " op in
        op <- at_ parts 0 ;;
        arg <- (if 1 <? size parts then at_ parts 1 else Ret []) ;;
        op <- sub_ op 1 (size op) ;;
        Ret (match assoc op operatorMap with
             | None => RErr EOther
             | Some tk => ROk (POper tk not arg)
             end).
(** scanner.go:335-347 [parseAction] *)
Definition ix_action (act : bs) : out (res (atok * bs)) :=
  let s := split_n ":" act in
  name <- at_ s 0 ;;
  match assoc (trim_space name) actionMap with
  | None => Ret (RErr EOther)
  | Some tk => arg <- (if 1 <? size s then at_ s 1 else Ret []) ;; Ret (ROk (tk, arg))
  end.

(** variables/request_cookies.go:43-53, the loop over the parts of a line *)
Fixpoint ix_cookie_parts (fuel : nat) (parts : list bs) (i : Z) (res : vals) : out vals :=
  match fuel with
  | O => Timeout
  | S n =>
      if negb (i <? size parts) then Ret res
      else
        p <- at_ parts i ;; parts <- store_ parts i (trim_space p) ;;
        p <- at_ parts i ;;
        if size p =? 0 then ix_cookie_parts n parts (i + 1) res
        else
          name <- at_ parts i ;;
          let j := index_ (B "=") name in
          val <- (if 0 <=? j then sub_ name (j + 1) (size name) else Ret []) ;;
          name <- (if 0 <=? j then sub_ name 0 j else Ret name) ;;
          ix_cookie_parts n parts (i + 1) (vals_add name val res)
  end.
(** request_cookies.go:37-42 *)
Definition ix_cookie_line (fuel : nat) (line : bs) (res : vals) : out vals :=
  let parts := split ";" (trim_space line) in
  empty <- and_ (Ret (size parts =? 1)) (p <- at_ parts 0 ;; Ret (bs_eqb p [])) ;;
  if empty : bool then Ret res else ix_cookie_parts fuel parts 0 res.
Fixpoint ix_cookie_lines (fuel : nat) (lines : list bs) (res : vals) : out vals :=
  match lines with
  | [] => Ret res
  | l :: lines' => res <- ix_cookie_line fuel l res ;; ix_cookie_lines fuel lines' res
  end.

(** modsecurity/buffer.go:39-64 [Write], with the slice expression of line 47. *)
Definition ix_write (ft : wfault) (p : bs) (b : buffer) : out (buffer * Z * option berr) :=
  if b_readed b then Ret (b, 0, Some ErrBufferReaded)
  else if b_filelimit b <? b_len b + size p then Ret (b, 0, Some ErrOutOfFileLimit)
  else
    match b_file b with
    | None =>
        if b_memlimit b <? b_len b + size p then
          q <- sub_ p 0 (b_memlimit b - b_len b) ;;
          let b1 := set_mem b (b_mem b ++ q) in
          match ft with
          | TempFileFails => Ret (b1, 0, Some ErrOS)
          | FirstWriteFails n => Ret (set_file b1 (Some (file_write (TFile [] 0) (firstn n (b_mem b1)))), 0, Some ErrOS)
          | _ => Ret (finish_file_write b1 (file_write (TFile [] 0) (b_mem b1)) p ft)
          end
        else Ret (set_len (set_mem b (b_mem b ++ p)) (b_len b + size p), size p, None)
    | Some f => Ret (finish_file_write b f p ft)
    end.

(** modsecurity/transaction.go:114-124 [CurrentSecRule] *)
Definition ix_current_sec_rule (rs : ruleset) (t : txn) : out (option rule) :=
  let cp := current_phase_rules rs t in
  let cur := t_cur t in
  if (size cp <=? cur) || (cur <? 0) then Ret None else r <- at_ cp cur ;; Ret (Some r).
