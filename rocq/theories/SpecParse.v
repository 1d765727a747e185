(** Specification vocabulary for SecLang texts: the grammar of arguments, variable
    lists, operators, action lists, directives and files.  Stated on texts; of the
    model only the types of parsed directives are used. *)
From Verif Require Import Base GoStrings Buffer Types Variables SpecText SpecVars Scanner.

(** ** Characters *)
Definition blank (c : ascii) : Prop := In c [" "; "009"; "011"; "012"]%char.
Definition newline (c : ascii) : Prop := c = "010"%char \/ c = "013"%char.
Definition quote_char (c : ascii) : Prop := c = "'"%char \/ c = """"%char.
Definition letter (c : ascii) : Prop := 65 <= code c <= 90 \/ 97 <= code c <= 122.
Definition starts_with (P : ascii -> Prop) (s : bs) : Prop := exists c r, s = c :: r /\ P c.

(** [e] is one line end when [k] follows: one newline character, or the two
    different ones. *)
Inductive line_end (k : bs) : bs -> Prop :=
| le_one : forall c, newline c -> (forall d r, k = d :: r -> newline d -> d = c) -> line_end k [c]
| le_two : forall c d, newline c -> newline d -> c <> d -> line_end k [c; d].

(** ** Escapes *)
Definition escapes : list (ascii * ascii) :=
  [("a", "007"); ("b", "008"); ("f", "012"); ("n", "010"); ("r", "013"); ("t", "009"); ("v", "011");
   ("\", "\"); ("""", """"); ("'", "'")]%char.
(** [e] writes the value [s] up to a delimiter out of [D], where [k] follows. *)
Inductive escaped (D : bs) (k : bs) : bs -> bs -> Prop :=
| es_nil : escaped D k [] []
| es_plain : forall c s e, ~ In c D -> c <> "\"%char -> ~ newline c -> escaped D k s e -> escaped D k (c :: s) (c :: e)
| es_named : forall l c s e, In (l, c) escapes -> escaped D k s e -> escaped D k (c :: s) ("\"%char :: l :: e)
| es_other : forall d s e, ~ In d (map fst escapes) -> ~ newline d -> escaped D k s e -> escaped D k (d :: s) ("\"%char :: d :: e)
| es_line : forall n s e, line_end (e ++ k) n -> escaped D k s e -> escaped D k ("010"%char :: s) ("\"%char :: n ++ e).

(** ** Arguments *)
(** Blanks and continued lines between arguments. *)
Inductive gap (k : bs) : bs -> Prop :=
| gap_nil : gap k []
| gap_blank : forall c g, blank c -> gap k g -> gap k (c :: g)
| gap_line : forall n g, starts_with (eq "010"%char) n -> line_end (g ++ k) n -> gap k g -> gap k ("\"%char :: n ++ g).
Definition ends : bs := [" "; "012"; "009"; "011"; "010"; "013"]%char.
(** [e] is an argument with value [s] when [k] follows.  The last two forms are an
    empty rest of line and a quote at the end of the text. *)
Inductive argument (k : bs) : bs -> bs -> Prop :=
| ar_quoted : forall g q s e, quote_char q -> gap (q :: e ++ q :: k) g -> escaped [q] (q :: k) s e ->
    argument k s (g ++ q :: e ++ [q])
| ar_bare : forall g d s e, In d ends -> starts_with (fun c => ~ quote_char c /\ ~ In c ends /\ c <> "\"%char) e ->
    gap (e ++ d :: k) g -> escaped ends (d :: k) s e -> argument k s (g ++ e ++ [d])
| ar_last : forall g s e, k = [] -> starts_with (fun c => ~ quote_char c /\ ~ In c ends /\ c <> "\"%char) e ->
    gap e g -> escaped ends [] s e -> argument k s (g ++ e)
| ar_line : forall g n, gap (n ++ k) g -> line_end k n -> argument k [] (g ++ n)
| ar_open : forall g q, k = [] -> quote_char q -> gap [q] g -> argument k [] (g ++ [q]).

(** ** Lists of variables *)
Definition var_name (v : vtok) : bs :=
  match v with
  | KArgs => B "ARGS" | KArgsGet => B "ARGS_GET" | KArgsGetNames => B "ARGS_GET_NAMES"
  | KArgsPost => B "ARGS_POST" | KArgsPostNames => B "ARGS_POST_NAMES" | KArgsNames => B "ARGS_NAMES"
  | KQueryString => B "QUERY_STRING" | KRemoteAddr => B "REMOTE_ADDR" | KRequestBasename => B "REQUEST_BASENAME"
  | KRequestBody => B "REQUEST_BODY" | KRequestCookies => B "REQUEST_COOKIES"
  | KRequestCookiesNames => B "REQUEST_COOKIES_NAMES" | KRequestFilename => B "REQUEST_FILENAME"
  | KRequestHeaders => B "REQUEST_HEADERS" | KRequestHeadersNames => B "REQUEST_HEADERS_NAMES"
  | KRequestMethod => B "REQUEST_METHOD" | KRequestProtocol => B "REQUEST_PROTOCOL" | KRequestUri => B "REQUEST_URI"
  | KResponseBody => B "RESPONSE_BODY" | KResponseContentLength => B "RESPONSE_CONTENT_LENGTH"
  | KResponseContentType => B "RESPONSE_CONTENT_TYPE" | KResponseHeaders => B "RESPONSE_HEADERS"
  | KResponseHeadersNames => B "RESPONSE_HEADERS_NAMES" | KResponseProtocol => B "RESPONSE_PROTOCOL"
  | KResponseStatus => B "RESPONSE_STATUS" | KXML => B "XML"
  end.
(** Joining with any of the separators. *)
Inductive joined (seps : bs) : list bs -> bs -> Prop :=
| jn_one : forall p, joined seps [p] p
| jn_cons : forall p c ps s, In c seps -> joined seps ps s -> joined seps (p :: ps) (p ++ c :: s).
Definition free_of (seps : bs) (p : bs) : Prop := forall c, In c seps -> ~ In c p.
(** [!NAME], [&NAME] or [NAME], possibly with a selector behind ':' or '.'. *)
Inductive variable_text : pvar -> bs -> Prop :=
| vt_text : forall t i count excl mark sel,
    (mark = [] /\ count = false /\ excl = false \/ mark = B "!" /\ count = false /\ excl = true \/
     mark = B "&" /\ count = true /\ excl = false) ->
    (sel = [] /\ i = [] \/ exists c, In c (B ":.") /\ sel = c :: i) ->
    variable_text (PVar t i count excl) (mark ++ var_name t ++ sel).
Definition variables_text (vs : list pvar) (s : bs) : Prop :=
  exists parts, joined (B ",|") parts s /\ Forall (free_of (B ",|")) parts /\ Forall2 variable_text vs parts.

(** ** Operators *)
Definition op_name (o : otok) : bs :=
  match o with KRx => B "rx" | KEq => B "eq" | KGe => B "ge" | KGt => B "gt" | KLe => B "le" | KLt => B "lt" end.
Inductive operator_text : poper -> bs -> Prop :=
| ot_named : forall t a sel, (sel = [] /\ a = [] \/ sel = " "%char :: a) ->
    operator_text (POper t false a) ("@"%char :: op_name t ++ sel)
| ot_pattern : forall s, starts_with (fun c => c <> "@"%char /\ c <> "!"%char) s -> operator_text (POper KRx false s) s
| ot_not : forall t a s, operator_text (POper t false a) s -> operator_text (POper t true a) ("!"%char :: s)
| ot_not_bang : forall s, starts_with (eq "!"%char) s -> operator_text (POper KRx true s) ("!"%char :: s).

(** ** Action lists *)
Definition act_name (a : atok) : bs :=
  match a with
  | KAllow => B "allow" | KMsg => B "msg" | KId => B "id" | KTag => B "tag" | KRev => B "rev" | KVer => B "ver"
  | KSeverity => B "severity" | KLog => B "log" | KDeny => B "deny" | KBlock => B "block" | KStatus => B "status"
  | KPhase => B "phase" | KT => B "t" | KSkip => B "skip" | KChain => B "chain" | KLogData => B "logdata"
  | KSetVar => B "setvar" | KCapture => B "capture" | KPass => B "pass"
  end.
Definition trans_name (t : ttok) : bs :=
  match t with
  | KLowercase => B "lowercase" | KUrlDecode => B "urlDecode" | KUrlDecodeUni => B "urlDecodeUni" | KNone => B "none"
  | KCompressWhitespace => B "compressWhitespace" | KRemoveWhitespace => B "removeWhitespace"
  | KReplaceNulls => B "replaceNulls" | KRemoveNulls => B "removeNulls"
  end.
Definition severity_names : list bs :=
  map B ["EMERGENCY"; "ALERT"; "CRITICAL"; "ERROR"; "WARNING"; "NOTICE"; "INFO"; "DEBUG"]%string.
(** A value in quotes or not: nothing is left to strip from [s]. *)
Inductive unquoted : bs -> bs -> Prop :=
| uq_plain : forall s, (forall a m b, s = a :: m ++ [b] -> ~ (quote_char a /\ quote_char b)) -> unquoted s s
| uq_quoted : forall a m b, quote_char a -> quote_char b -> unquoted (a :: m ++ [b]) m.
(** What one item of the list says. *)
Inductive item :=
| ItId (n : Z) | ItPhase (p : Z) | ItChain | ItTrans (t : ttok) | ItAct (t : atok) (arg : bs).
Inductive item_value : atok -> bs -> item -> Prop :=
| iv_id : forall s x n, unquoted s x -> denotes x n -> int64 n -> item_value KId s (ItId n)
| iv_phase_alias : forall s x n, unquoted s x -> In (x, n) [(B "request", 2); (B "response", 4); (B "logging", 5)] ->
    item_value KPhase s (ItPhase n)
| iv_phase : forall s x n, unquoted s x -> denotes x n -> 1 <= n <= 5 -> item_value KPhase s (ItPhase n)
| iv_chain : forall s, item_value KChain s ItChain
| iv_trans : forall s t, unquoted s (trans_name t) -> item_value KT s (ItTrans t)
| iv_severity_name : forall s x n, unquoted s x -> nth_error severity_names (Z.to_nat n) = Some x -> 0 <= n ->
    item_value KSeverity s (ItAct KSeverity (itoa n))
| iv_severity : forall s x n, unquoted s x -> denotes x n -> 0 <= n <= 7 -> item_value KSeverity s (ItAct KSeverity (itoa n))
| iv_other : forall t s, ~ In t [KId; KPhase; KChain; KT; KSeverity] -> item_value t s (ItAct t s).
(** [name] or [name:value], blanks around the name. *)
Inductive item_text : item -> bs -> Prop :=
| it_text : forall t w1 w2 sel v i, white w1 -> white w2 -> (sel = [] /\ v = [] \/ sel = ":"%char :: v) ->
    item_value t v i -> item_text i (w1 ++ act_name t ++ w2 ++ sel).
(** The list of items as one record: the last id and phase, whether chain occurs,
    transformations and other actions in order. *)
Definition id_of (l : list item) : list Z := flat_map (fun i => match i with ItId n => [n] | _ => [] end) l.
Definition phase_of (l : list item) : list Z := flat_map (fun i => match i with ItPhase n => [n] | _ => [] end) l.
Definition trans_of (l : list item) : list ttok := flat_map (fun i => match i with ItTrans t => [t] | _ => [] end) l.
Definition acts_of (l : list item) : list paction := flat_map (fun i => match i with ItAct t a => [PAction t a] | _ => [] end) l.
Definition collects (l : list item) (a : pactions) : Prop :=
  pas_id a = last (id_of l) 0 /\ pas_phase a = last (phase_of l) 0 /\ (pas_chain a = true <-> In ItChain l) /\
  pas_trans a = trans_of l /\ pas_acts a = acts_of l.
(** White space around a text is left out. *)
Definition trimmed_of (s core : bs) : Prop :=
  exists w1 w2, s = w1 ++ core ++ w2 /\ white w1 /\ white w2 /\ trimmed core.
Definition actions_text (a : pactions) (s : bs) : Prop :=
  exists core parts items, trimmed_of s core /\ core <> [] /\ joined (B ",") parts core /\ Forall (free_of (B ",")) parts /\
    Forall2 item_text items parts /\ collects items a.

(** ** Directives *)
Definition dir_name (d : dtok) : bs :=
  match d with
  | KDirRule => B "SecRule" | KDirRuleEng => B "SecRuleEngine"
  | KDirReqBody => B "SecRequestBodyAccess" | KDirResBody => B "SecResponseBodyAccess"
  end.
(** Equal up to the case of ASCII letters. *)
Definition same_letters (a b : bs) : Prop := Forall2 (fun x y => exists z, lowered x z /\ lowered y z) a b.
Definition flag_value (s : bs) (b : bool) : Prop := same_letters s (if b then B "On" else B "Off").
Definition mode_value (s : bs) (v : Z) : Prop :=
  v = 1 /\ same_letters s (B "On") \/ v = 0 /\ same_letters s (B "Off") \/ v = 2 /\ same_letters s (B "DetectionOnly").
(** The name of a directive, not followed by a letter. *)
Definition keyword (d : dtok) (k w : bs) : Prop := same_letters w (dir_name d) /\ ~ starts_with letter k.
Inductive directive_text (k : bs) : directive -> bs -> Prop :=
| dt_rule : forall w vs o a s1 s2 s3 e1 e2 e3, keyword KDirRule (e1 ++ e2 ++ e3 ++ k) w ->
    argument (e2 ++ e3 ++ k) s1 e1 -> argument (e3 ++ k) s2 e2 -> argument k s3 e3 ->
    variables_text vs s1 -> operator_text o s2 -> actions_text a s3 ->
    directive_text k (DRule vs o a) (w ++ e1 ++ e2 ++ e3)
| dt_engine : forall w v s e, keyword KDirRuleEng (e ++ k) w -> argument k s e -> mode_value s v ->
    directive_text k (DRuleEng v) (w ++ e)
| dt_reqbody : forall w b s e, keyword KDirReqBody (e ++ k) w -> argument k s e -> flag_value s b ->
    directive_text k (DReqBody b) (w ++ e)
| dt_resbody : forall w b s e, keyword KDirResBody (e ++ k) w -> argument k s e -> flag_value s b ->
    directive_text k (DResBody b) (w ++ e).
(** A file: directives, with blanks, line ends and NULs before, between and behind. *)
Definition separators (g : bs) : Prop := Forall (fun c => blank c \/ newline c \/ c = "000"%char) g.
Inductive file_text : list directive -> bs -> Prop :=
| ft_nil : forall g, separators g -> file_text [] g
| ft_cons : forall g d e ds k, separators g -> directive_text k d e -> file_text ds k -> file_text (d :: ds) (g ++ e ++ k).

(** ** Texts on which the scanner does not come to an end *)
(** A backslash that does not continue a line, where an argument should start. *)
Definition stray (k : bs) : Prop := exists r, k = "\"%char :: r /\ ~ starts_with (eq "010"%char) r.
Inductive stuck : bs -> Prop :=
| sk_first : forall d w g k, keyword d (g ++ k) w -> gap k g -> stray k -> stuck (w ++ g ++ k)
| sk_second : forall w e1 s1 vs g k, keyword KDirRule (e1 ++ g ++ k) w -> argument (g ++ k) s1 e1 -> variables_text vs s1 ->
    gap k g -> stray k -> stuck (w ++ e1 ++ g ++ k)
| sk_third : forall w e1 s1 vs e2 s2 o g k, keyword KDirRule (e1 ++ e2 ++ g ++ k) w -> argument (e2 ++ g ++ k) s1 e1 -> variables_text vs s1 ->
    argument (g ++ k) s2 e2 -> operator_text o s2 -> gap k g -> stray k -> stuck (w ++ e1 ++ e2 ++ g ++ k).
Inductive stuck_file : bs -> Prop :=
| sf_here : forall g t, separators g -> stuck t -> stuck_file (g ++ t)
| sf_later : forall g d e k, separators g -> directive_text k d e -> stuck_file k -> stuck_file (g ++ e ++ k).

(** ** Writing directives *)
(** A value in quotes. *)
Definition written (c : ascii) : bs :=
  if Ascii.eqb c "\" then B "\\" else if Ascii.eqb c "'" then B "\'" else if Ascii.eqb c """" then B "\"""
  else if Ascii.eqb c "010" then B "\n" else if Ascii.eqb c "013" then B "\r" else [c].
Definition quoted (q : ascii) (s : bs) : bs := q :: flat_map written s ++ [q].
Fixpoint listed (sep : ascii) (l : list bs) : bs :=
  match l with [] => [] | [x] => x | x :: r => x ++ sep :: listed sep r end.
Definition show_var (v : pvar) : bs :=
  (if pv_excl v then B "!" else if pv_count v then B "&" else []) ++ var_name (pv_tok v) ++
  match pv_index v with [] => [] | i => ":"%char :: i end.
Definition show_op (o : poper) : bs :=
  (if po_not o then B "!" else []) ++ B "@" ++ op_name (po_tok o) ++ B " " ++ po_arg o.
Definition show_actions (a : pactions) : bs :=
  listed "," (map (fun x => act_name (pa_tok x) ++ B ":" ++ pa_arg x) (pas_acts a) ++
              map (fun t => B "t:" ++ trans_name t) (pas_trans a) ++
              (if pas_phase a =? 0 then [] else [B "phase:" ++ itoa (pas_phase a)]) ++
              (if pas_chain a then [B "chain"] else []) ++ [B "id:" ++ itoa (pas_id a)]).
Definition show_flag (b : bool) : bs := if b then B "On" else B "Off".
Definition show_directive (d : directive) : bs :=
  match d with
  | DRule vs o a => B "SecRule " ++ quoted """" (listed "|" (map show_var vs)) ++ B " " ++
                    quoted """" (show_op o) ++ B " " ++ quoted """" (show_actions a)
  | DRuleEng v => B "SecRuleEngine " ++ (if v =? 0 then B "Off" else if v =? 1 then B "On" else B "DetectionOnly")
  | DReqBody b => B "SecRequestBodyAccess " ++ show_flag b
  | DResBody b => B "SecResponseBodyAccess " ++ show_flag b
  end.
Definition show_file (ds : list directive) : bs := flat_map (fun d => show_directive d ++ ["010"%char]) ds.
(** What the language can express. *)
Definition wf_var (v : pvar) : Prop := free_of (B ",|") (pv_index v) /\ ~ (pv_count v = true /\ pv_excl v = true).
Definition wf_act (x : paction) : Prop :=
  ~ In ","%char (pa_arg x) /\ ~ In (pa_tok x) [KId; KPhase; KChain; KT] /\
  (pa_tok x = KSeverity -> exists n, 0 <= n <= 7 /\ pa_arg x = itoa n).
Definition wf_actions (a : pactions) : Prop := int64 (pas_id a) /\ 0 <= pas_phase a <= 5 /\ Forall wf_act (pas_acts a).
Definition wf_directive (d : directive) : Prop :=
  match d with
  | DRule vs o a => vs <> [] /\ Forall wf_var vs /\ wf_actions a
  | DRuleEng v => 0 <= v <= 2
  | DReqBody _ | DResBody _ => True
  end.
