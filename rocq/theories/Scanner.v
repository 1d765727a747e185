(** Model of package [parser] (seclang/parser): the SecLang scanner and parser. *)
From Verif Require Import Base GoStrings.

(** ** Tokens (seclang/parser/seclang_token.go:11-85) *)

Inductive vtok :=
| KArgs | KArgsGet | KArgsGetNames | KArgsPost | KArgsPostNames | KArgsNames
| KQueryString | KRemoteAddr | KRequestBasename | KRequestBody | KRequestCookies
| KRequestCookiesNames | KRequestFilename | KRequestHeaders | KRequestHeadersNames
| KRequestMethod | KRequestProtocol | KRequestUri | KResponseBody
| KResponseContentLength | KResponseContentType | KResponseHeaders
| KResponseHeadersNames | KResponseProtocol | KResponseStatus | KXML.

Inductive otok := KRx | KEq | KGe | KGt | KLe | KLt.

Inductive atok :=
| KAllow | KMsg | KId | KTag | KRev | KVer | KSeverity | KLog | KDeny | KBlock | KStatus
| KPhase | KT | KSkip | KChain | KLogData | KSetVar | KCapture | KPass.

Inductive ttok :=
| KLowercase | KUrlDecode | KUrlDecodeUni | KNone | KCompressWhitespace
| KRemoveWhitespace | KReplaceNulls | KRemoveNulls.

Inductive dtok := KDirRule | KDirRuleEng | KDirReqBody | KDirResBody.

(** seclang_token.go:87-94 *)
Definition operatorMap : list (bs * otok) :=
  [ (B "rx", KRx); (B "eq", KEq); (B "ge", KGe); (B "gt", KGt); (B "le", KLe); (B "lt", KLt) ].

(** seclang_token.go:96-116 *)
Definition actionMap : list (bs * atok) :=
  [ (B "allow", KAllow); (B "msg", KMsg); (B "id", KId); (B "tag", KTag); (B "rev", KRev);
    (B "ver", KVer); (B "severity", KSeverity); (B "log", KLog); (B "deny", KDeny);
    (B "block", KBlock); (B "status", KStatus); (B "phase", KPhase); (B "t", KT);
    (B "skip", KSkip); (B "chain", KChain); (B "logdata", KLogData); (B "setvar", KSetVar);
    (B "capture", KCapture); (B "pass", KPass) ].

(** seclang_token.go:117-126 *)
Definition transformationMap : list (bs * ttok) :=
  [ (B "lowercase", KLowercase); (B "urlDecode", KUrlDecode); (B "urlDecodeUni", KUrlDecodeUni);
    (B "none", KNone); (B "compressWhitespace", KCompressWhitespace);
    (B "removeWhitespace", KRemoveWhitespace); (B "replaceNulls", KReplaceNulls);
    (B "removeNulls", KRemoveNulls) ].

(** seclang_token.go:128-155 *)
Definition variableMap : list (bs * vtok) :=
  [ (B "ARGS", KArgs); (B "ARGS_NAMES", KArgsNames); (B "ARGS_GET", KArgsGet);
    (B "ARGS_GET_NAMES", KArgsGetNames); (B "ARGS_POST", KArgsPost);
    (B "ARGS_POST_NAMES", KArgsPostNames); (B "QUERY_STRING", KQueryString);
    (B "REMOTE_ADDR", KRemoteAddr); (B "REQUEST_BASENAME", KRequestBasename);
    (B "REQUEST_BODY", KRequestBody); (B "REQUEST_COOKIES", KRequestCookies);
    (B "REQUEST_COOKIES_NAMES", KRequestCookiesNames); (B "REQUEST_FILENAME", KRequestFilename);
    (B "REQUEST_HEADERS", KRequestHeaders); (B "REQUEST_HEADERS_NAMES", KRequestHeadersNames);
    (B "REQUEST_METHOD", KRequestMethod); (B "REQUEST_PROTOCOL", KRequestProtocol);
    (B "REQUEST_URI", KRequestUri); (B "RESPONSE_BODY", KResponseBody);
    (B "RESPONSE_CONTENT_LENGTH", KResponseContentLength);
    (B "RESPONSE_CONTENT_TYPE", KResponseContentType); (B "RESPONSE_HEADERS", KResponseHeaders);
    (B "RESPONSE_HEADERS_NAMES", KResponseHeadersNames);
    (B "RESPONSE_PROTOCOL", KResponseProtocol); (B "RESPONSE_STATUS", KResponseStatus);
    (B "XML", KXML) ].

(** seclang_token.go:157-166 *)
Definition severityMap : list (bs * Z) :=
  [ (B "EMERGENCY", 0); (B "ALERT", 1); (B "CRITICAL", 2); (B "ERROR", 3); (B "WARNING", 4);
    (B "NOTICE", 5); (B "INFO", 6); (B "DEBUG", 7) ].

(** seclang_token.go:168-180 *)
Definition PPhaseRequestHeaders := 1.
Definition PPhaseRequestBody := 2.
Definition PPhaseResponseHeaders := 3.
Definition PPhaseResponseBody := 4.
Definition PPhaseLogging := 5.
Definition phaseAlias : list (bs * Z) :=
  [ (B "request", PPhaseRequestBody); (B "response", PPhaseResponseBody);
    (B "logging", PPhaseLogging) ].

(** ** Parsed directives (scanner.go:460-463, 488-491, 515-548).
    StringArgDirective is not registered for any directive. *)
Record pvar := PVar { pv_tok : vtok; pv_index : bs; pv_count : bool; pv_excl : bool }.
Record poper := POper { po_tok : otok; po_not : bool; po_arg : bs }.
Record paction := PAction { pa_tok : atok; pa_arg : bs }.
Record pactions := PActions {
  pas_id : Z; pas_phase : Z; pas_chain : bool; pas_trans : list ttok; pas_acts : list paction
}.
Inductive directive :=
| DRule (vs : list pvar) (o : poper) (a : pactions)
| DRuleEng (v : Z)
| DReqBody (v : bool)
| DResBody (v : bool).

(** scanner.go:482-486 *)
Definition TriBoolTrue := 1.
Definition TriBoolElse := 2.
Definition TriBoolFalse := 0.

(** Errors: [EEOS] is ErrEOS (scanner.go:27), compared by identity; every other
    error is only ever returned. *)
Inductive perr := EEOS | EOther.
Inductive res (A : Type) := ROk (a : A) | RErr (e : perr).
Arguments ROk {A} a.
Arguments RErr {A} e.

(** ** Character classes (seclang/parser/utils.go:7-11) *)
Definition isBlank (c : ascii) : bool :=
  Ascii.eqb c SP || Ascii.eqb c FF || Ascii.eqb c TAB || Ascii.eqb c VT.
Definition isNewLine (c : ascii) : bool := Ascii.eqb c LF || Ascii.eqb c CR.
Definition isAlphabet (c : ascii) : bool := in_range "a" "z" c || in_range "A" "Z" c.
Definition isQuote (c : ascii) : bool := Ascii.eqb SQ c || Ascii.eqb DQ c.

(** seclang/parser/utils.go:30-35 [trimQuote] *)
Definition trimQuote (s : bs) : bs :=
  match s with
  | a :: (_ :: _) as r => if isQuote a && isQuote (last r " "%char) then removelast r else s
  | _ => s
  end.

(** seclang/parser/utils.go:37-59 [splitMulti] with seps = ",|": the slice is
    sized by counting separators, the loop stores into it by index. *)
Definition count_byte (c : ascii) (s : bs) : nat := length (List.filter (Ascii.eqb c) s).
Fixpoint split_multi_loop (fuel : nat) (count i : nat) (s : bs) : out (list bs) :=
  match fuel with
  | O => Timeout
  | S fuel' =>
      if Nat.leb count i then Panic
      else match index_any (B ",|") s with
           | None => Ret [s]
           | Some m =>
               r <- split_multi_loop fuel' count (S i) (skipn (S m) s) ;;
               Ret (firstn m s :: r)
           end
  end.
Definition split_multi (s : bs) : out (list bs) :=
  let count := (1 + count_byte "," s + count_byte "|" s)%nat in
  split_multi_loop (S (length s)) count 0 s.

(** ** The scanner (scanner.go:33-48).  [s_inp] is the current character followed
    by the unread input; the empty list is [current == EOS].  While [s_bos] is
    set [current == BOS] and all of [s_inp] is unread.  LastLine is never
    changed and not kept. *)
Record scanner := Scanner { s_bos : bool; s_inp : bs; s_buf : bs; s_line : Z }.

Definition new_scanner (text : bs) : scanner := Scanner true text [] 1.

(** scanner.go:408-414 [advance]; reading at the end keeps EOS. *)
Definition advance (s : scanner) : scanner :=
  if s_bos s then Scanner false (s_inp s) (s_buf s) (s_line s)
  else Scanner false (tl (s_inp s)) (s_buf s) (s_line s).

(** scanner.go:400-406 [incrementLineNumber] on the input: the characters behind
    the current one, skipping the other half of a two-character line end. *)
Definition after_newline (inp : bs) : bs :=
  match inp with
  | old :: r =>
      match r with
      | d :: r' => if isNewLine d && negb (Ascii.eqb d old) then r' else r
      | [] => []
      end
  | [] => []
  end.
Definition incr_line (s : scanner) : scanner :=
  Scanner false (after_newline (s_inp s)) (s_buf s) (s_line s + 1).

(** scanner.go:349-367 [SkipBlank]; the loop does not advance on a backslash that
    is not followed by LF, hence the fuel. *)
Fixpoint skip_blank (fuel : nat) (s : scanner) : out scanner :=
  match fuel with
  | O => Timeout
  | S fuel' =>
      if s_bos s then skip_blank fuel' (advance s)
      else match s_inp s with
           | c :: r =>
               if isBlank c then skip_blank fuel' (advance s)
               else if Ascii.eqb c BSL then
                 match r with
                 | n :: _ => if Ascii.eqb n LF
                             then skip_blank fuel' (incr_line (advance s))
                             else skip_blank fuel' s
                 | [] => skip_blank fuel' s
                 end
               else Ret s
           | [] => Ret s
           end
  end.

(** scanner.go:54-64 [ReadWord]; at BOS nothing is read.  The loop is structural
    on the input. *)
Fixpoint word_loop (inp buf : bs) : bs * bs :=
  match inp with
  | c :: r => if isAlphabet c then word_loop r (buf ++ [c]) else (inp, buf)
  | [] => ([], buf)
  end.
Definition read_word (s : scanner) : scanner * bs :=
  if s_bos s then (Scanner true (s_inp s) [] (s_line s), s_buf s)
  else let '(inp, w) := word_loop (s_inp s) (s_buf s) in
       (Scanner false inp [] (s_line s), w).

(** scanner.go:23-25 [escapes] *)
Definition escape (c : ascii) : option ascii :=
  if Ascii.eqb c "a" then Some "007"%char
  else if Ascii.eqb c "b" then Some "008"%char
  else if Ascii.eqb c "f" then Some FF
  else if Ascii.eqb c "n" then Some LF
  else if Ascii.eqb c "r" then Some CR
  else if Ascii.eqb c "t" then Some TAB
  else if Ascii.eqb c "v" then Some VT
  else if Ascii.eqb c BSL then Some BSL
  else if Ascii.eqb c DQ then Some DQ
  else if Ascii.eqb c SQ then Some SQ
  else None.

Definition mem_byte (c : ascii) (l : bs) : bool := existsb (Ascii.eqb c) l.

(** scanner.go:88-119: the loop of [readString] and its exit; [eos] tells whether
    EOS is one of the delimiters.  Structural on the input. *)
Fixpoint string_loop (delims : bs) (eos : bool) (inp buf : bs) (line : Z) : scanner * res bs :=
  match inp with
  | [] =>
      if eos then (Scanner false [] [] line, ROk buf)
      else match buf with
           | [] => (Scanner false [] [] line, ROk [])
           | _ => (Scanner false [] buf line, RErr EOther)
           end
  | c :: r =>
      if mem_byte c delims then (Scanner false r [] line, ROk buf)
      else if isNewLine c then (Scanner false inp buf line, RErr EOther)
      else if Ascii.eqb c BSL then
        match r with
        | [] => (Scanner false [] buf line, RErr EOther)
        | d :: r1 =>
            match escape d with
            | Some x => string_loop delims eos r1 (buf ++ [x]) line
            | None =>
                if isNewLine d then
                  match r1 with
                  | d2 :: r2 =>
                      if isNewLine d2 && negb (Ascii.eqb d2 d)
                      then string_loop delims eos r2 (buf ++ [LF]) (line + 1)
                      else string_loop delims eos r1 (buf ++ [LF]) (line + 1)
                  | [] => string_loop delims eos r1 (buf ++ [LF]) (line + 1)
                  end
                else string_loop delims eos r1 (buf ++ [d]) line
            end
        end
      else string_loop delims eos r (buf ++ [c]) line
  end.

(** scanner.go:84-120 [readString]; BOS cannot be current here (SkipBlank). *)
Definition read_delim (delims : bs) (eos : bool) (s : scanner) : scanner * res bs :=
  let inp := match s_inp s with
             | c :: r => if mem_byte c delims then r else c :: r
             | [] => []
             end in
  string_loop delims eos inp (s_buf s) (s_line s).

(** scanner.go:66-82 [ReadString] *)
Definition read_string (fuel : nat) (s : scanner) : out (scanner * res bs) :=
  s1 <- skip_blank fuel s ;;
  match s_inp s1 with
  | [] => Ret (s1, RErr EEOS)
  | c :: _ =>
      if isNewLine c then Ret (incr_line s1, ROk [])
      else if Ascii.eqb c DQ then Ret (read_delim [DQ] false s1)
      else if Ascii.eqb c SQ then Ret (read_delim [SQ] false s1)
      else Ret (read_delim [SP; FF; TAB; VT; LF; CR] true s1)
  end.

(** ** Variables (scanner.go:180-206), on the argument string *)
Definition parse_variable (a : bs) : res pvar :=
  match a with
  | [] => RErr EOther
  | c :: a' =>
      let excl := Ascii.eqb c "!" in
      let count := negb excl && Ascii.eqb c "&" in
      let a := if excl || count then a' else a in
      let '(name, index) :=
        match index_any (B ".:") a with
        | Some (S i) => (firstn (S i) a, skipn (S (S i)) a)
        | _ => (a, [])
        end in
      match assoc name variableMap with
      | None => RErr EOther
      | Some tk => ROk (PVar tk index count excl)
      end
  end.
Fixpoint parse_variable_list (l : list bs) : res (list pvar) :=
  match l with
  | [] => ROk []
  | a :: l' =>
      match parse_variable a with
      | RErr e => RErr e
      | ROk v => match parse_variable_list l' with
                 | RErr e => RErr e
                 | ROk vs => ROk (v :: vs)
                 end
      end
  end.
Definition parse_variables (arg : bs) : out (res (list pvar)) :=
  match arg with
  | [] => Ret (RErr EOther)
  | _ => l <- split_multi arg ;; Ret (parse_variable_list l)
  end.
(** scanner.go:170-207 [ReadVariables] *)
Definition read_variables (fuel : nat) (s : scanner) : out (scanner * res (list pvar)) :=
  '(s1, r) <- read_string fuel s ;;
  match r with
  | RErr e => Ret (s1, RErr e)
  | ROk arg => v <- parse_variables arg ;; Ret (s1, v)
  end.

(** ** Operators (scanner.go:215-241), on the argument string *)
Definition parse_operator (op : bs) : res poper :=
  match op with
  | [] => RErr EOther
  | c :: op' =>
      let not := Ascii.eqb c "!" in
      let op := if not then op' else op in
      match op with
      | [] => RErr EOther
      | c :: _ =>
          if negb (Ascii.eqb c "@") then ROk (POper KRx not op)
          else
            let '(name, arg) := cut " " op in
            let arg := match arg with Some a => a | None => [] end in
            match assoc (tl name) operatorMap with
            | None => RErr EOther
            | Some tk => ROk (POper tk not arg)
            end
      end
  end.
(** scanner.go:209-242 [ReadOperator] *)
Definition read_operator (fuel : nat) (s : scanner) : out (scanner * res poper) :=
  '(s1, r) <- read_string fuel s ;;
  match r with
  | RErr e => Ret (s1, RErr e)
  | ROk arg => Ret (s1, parse_operator arg)
  end.

(** ** Actions *)

(** scanner.go:335-347 [parseAction] *)
Definition parse_action (act : bs) : res (atok * bs) :=
  let '(name, arg) := cut ":" act in
  match assoc (trim_space name) actionMap with
  | None => RErr EOther
  | Some tk => ROk (tk, match arg with Some a => a | None => [] end)
  end.

(** scanner.go:244-312 [actionProcessors] and [processAction] *)
Definition add_act (a : pactions) (x : paction) : pactions :=
  PActions (pas_id a) (pas_phase a) (pas_chain a) (pas_trans a) (pas_acts a ++ [x]).
Definition process_action (a : pactions) (str : bs) : res pactions :=
  match parse_action str with
  | RErr e => RErr e
  | ROk (tk, arg) =>
      match tk with
      | KId =>
          match atoi (trimQuote arg) with
          | Some n => ROk (PActions n (pas_phase a) (pas_chain a) (pas_trans a) (pas_acts a))
          | None => RErr EOther
          end
      | KSeverity =>
          let arg := trimQuote arg in
          match assoc arg severityMap with
          | Some n => ROk (add_act a (PAction KSeverity (itoa n)))
          | None =>
              match atoi arg with
              | Some n => if (0 <=? n) && (n <=? 7)
                          then ROk (add_act a (PAction KSeverity (itoa n)))
                          else RErr EOther
              | None => RErr EOther
              end
          end
      | KT =>
          match assoc (trimQuote arg) transformationMap with
          | Some tf => ROk (PActions (pas_id a) (pas_phase a) (pas_chain a) (pas_trans a ++ [tf]) (pas_acts a))
          | None => RErr EOther
          end
      | KPhase =>
          let arg := trimQuote arg in
          match assoc arg phaseAlias with
          | Some p => ROk (PActions (pas_id a) p (pas_chain a) (pas_trans a) (pas_acts a))
          | None =>
              match atoi arg with
              | None => RErr EOther
              | Some p =>
                  if (p <? PPhaseRequestHeaders) || (PPhaseLogging <? p) then RErr EOther
                  else ROk (PActions (pas_id a) p (pas_chain a) (pas_trans a) (pas_acts a))
              end
          end
      | KChain => ROk (PActions (pas_id a) (pas_phase a) true (pas_trans a) (pas_acts a))
      | _ => ROk (add_act a (PAction tk arg))
      end
  end.
Fixpoint process_actions (l : list bs) (a : pactions) : res pactions :=
  match l with
  | [] => ROk a
  | x :: l' => match process_action a x with
               | RErr e => RErr e
               | ROk a' => process_actions l' a'
               end
  end.
(** scanner.go:320-332 *)
Definition no_actions : pactions := PActions 0 0 false [] [].
Definition parse_actions (str : bs) : res pactions :=
  match trim_space str with
  | [] => RErr EOther
  | s => process_actions (split "," s) no_actions
  end.
(** scanner.go:314-333 [ReadActions] *)
Definition read_actions (fuel : nat) (s : scanner) : out (scanner * res pactions) :=
  '(s1, r) <- read_string fuel s ;;
  match r with
  | RErr e => Ret (s1, RErr e)
  | ROk arg => Ret (s1, parse_actions arg)
  end.

(** ** Values: scanner.go:369-387 [ReadValue] and seclang_token.go:196-202,
    231-237.  The patterns "(?i)^On$", "(?i)^Off$", "(?i)^DetectionOnly$" contain
    no letter with a non-ASCII case variant, so they match exactly the ASCII
    case variants. *)
Inductive vktok := KOn | KOff | KElse.
Definition value_text (v : vktok) : bs :=
  match v with KOn => B "On" | KOff => B "Off" | KElse => B "DetectionOnly" end.
Definition fold_eqb (a b : bs) : bool := bs_eqb (map lower_ascii a) (map lower_ascii b).
Definition parse_value (tks : list vktok) (str : bs) : res vktok :=
  match find (fun tk => fold_eqb str (value_text tk)) tks with
  | Some tk => ROk tk
  | None => RErr EOther
  end.
Definition read_value (fuel : nat) (tks : list vktok) (s : scanner) : out (scanner * res vktok) :=
  '(s1, r) <- read_string fuel s ;;
  match r with
  | RErr e => Ret (s1, RErr e)
  | ROk str => Ret (s1, parse_value tks str)
  end.

(** ** Directives *)

(** seclang.go:7-12 and seclang_token.go:208-229: the registered names, looked up
    after lower-casing (the word consists of ASCII letters). *)
Definition dir_names : list (bs * dtok) :=
  [ (B "SecRule", KDirRule); (B "SecRuleEngine", KDirRuleEng);
    (B "SecRequestBodyAccess", KDirReqBody); (B "SecResponseBodyAccess", KDirResBody) ].
Definition dir_from_string (w : bs) : option dtok :=
  assoc (map lower_ascii w) (map (fun p => (map lower_ascii (fst p), snd p)) dir_names).

(** scanner.go:554-572 [RuleDirectiveScaner] *)
Definition read_rule (fuel : nat) (s : scanner) : out (scanner * res directive) :=
  '(s1, vs) <- read_variables fuel s ;;
  match vs with
  | RErr e => Ret (s1, RErr e)
  | ROk vs =>
      '(s2, o) <- read_operator fuel s1 ;;
      match o with
      | RErr e => Ret (s2, RErr e)
      | ROk o =>
          '(s3, a) <- read_actions fuel s2 ;;
          match a with
          | RErr e => Ret (s3, RErr e)
          | ROk a => Ret (s3, ROk (DRule vs o a))
          end
      end
  end.

(** scanner.go:469-480 and 497-513: the flag directives. *)
Definition read_bool (fuel : nat) (k : bool -> directive) (s : scanner) : out (scanner * res directive) :=
  '(s1, v) <- read_value fuel [KOn; KOff] s ;;
  match v with
  | RErr e => Ret (s1, RErr e)
  | ROk v => Ret (s1, ROk (k (match v with KOn => true | _ => false end)))
  end.
Definition read_tribool (fuel : nat) (s : scanner) : out (scanner * res directive) :=
  '(s1, v) <- read_value fuel [KOn; KOff; KElse] s ;;
  match v with
  | RErr e => Ret (s1, RErr e)
  | ROk v => Ret (s1, ROk (DRuleEng (match v with
                                     | KOn => TriBoolTrue
                                     | KElse => TriBoolElse
                                     | KOff => TriBoolFalse
                                     end)))
  end.

(** scanner.go:161-168 [readDirective] *)
Definition read_directive_body (fuel : nat) (s : scanner) : out (scanner * res directive) :=
  let '(s1, w) := read_word s in
  match dir_from_string w with
  | None => Ret (s1, RErr EOther)
  | Some KDirRule => read_rule fuel s1
  | Some KDirRuleEng => read_tribool fuel s1
  | Some KDirReqBody => read_bool fuel DReqBody s1
  | Some KDirResBody => read_bool fuel DResBody s1
  end.

(** scanner.go:126-135: skipping line ends, blanks and NUL between directives,
    structural on the input; [incrementLineNumber] may take two characters. *)
Fixpoint skip_between (inp : bs) (line : Z) : bs * Z :=
  match inp with
  | [] => ([], line)
  | c :: r =>
      if isNewLine c then
        match r with
        | d :: r' => if isNewLine d && negb (Ascii.eqb d c)
                     then skip_between r' (line + 1)
                     else skip_between r (line + 1)
        | [] => ([], line + 1)
        end
      else if isBlank c || Ascii.eqb c NUL then skip_between r line
      else (inp, line)
  end.

(** scanner.go:122-144 [ReadDirective] *)
Definition read_directive (fuel : nat) (s : scanner) : out (scanner * res directive) :=
  let s := if s_bos s then advance s else s in
  let '(inp, line) := skip_between (s_inp s) (s_line s) in
  let s := Scanner false inp (s_buf s) line in
  match inp with
  | [] => Ret (s, RErr EEOS)
  | _ =>
      '(s1, r) <- read_directive_body fuel s ;;
      match r with
      | RErr EEOS => Ret (s1, RErr EOther)
      | _ => Ret (s1, r)
      end
  end.

(** scanner.go:146-159 [AllDirective] *)
Fixpoint all_directive (fuel : nat) (s : scanner) : out (res (list directive)) :=
  match fuel with
  | O => Timeout
  | S fuel' =>
      '(s1, r) <- read_directive fuel s ;;
      match r with
      | RErr EEOS => Ret (ROk [])
      | RErr e => Ret (RErr e)
      | ROk d =>
          l <- all_directive fuel' s1 ;;
          match l with
          | RErr e => Ret (RErr e)
          | ROk ds => Ret (ROk (d :: ds))
          end
      end
  end.

(** Parsing a text: NewSecLangScannerFromString(text).AllDirective(). *)
Definition parse_text (fuel : nat) (text : bs) : out (res (list directive)) :=
  all_directive fuel (new_scanner text).
