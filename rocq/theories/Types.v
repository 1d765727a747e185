(** Data types of packages [modsecurity], [operators], [transforms], [actions]
    and [variables]; and the record of everything outside the repository. *)
From Verif Require Import Base GoStrings Buffer.

(** [url.URL] (net/url).  [u_rest] stands for every field that only affects
    [String()] and is not touched by the repository (RawPath, ForceQuery,
    Fragment, RawFragment, OmitHost). *)
Record url := Url {
  u_scheme : bs; u_opaque : bs; u_user : option bs; u_host : bs;
  u_path : bs; u_rawquery : bs; u_rest : bs
}.

(** Result of [multipart.Reader.ReadForm]. *)
Inductive mpres :=
| MpOk (values : vals)     (* form.Value *)
| MpTooLarge               (* multipart.ErrMessageTooLarge *)
| MpErr                    (* any other error *)
| MpHang.                  (* never returns *)

(** Everything the repository calls whose behaviour it does not fix. *)
Record oracles := Oracles {
  rx_ok : bs -> bool;              (* regexp.Compile succeeds *)
  rx_match : bs -> bs -> bool;     (* compiled pattern matches the text *)
  media_type : bs -> bs * bs;      (* mime.ParseMediaType: media type, params["boundary"] *)
  multipart : buffer -> bs -> Z -> mpres * nat; (* NewReader(body, boundary).ReadForm(max);
                                      also where the file offset is left *)
  url_string : url -> bs;          (* url.URL.String *)
  uni_lower : Z -> Z;              (* unicode.ToLower on runes >= 128 *)
  semi_sep : bool;                 (* ';' separates query pairs (Go < 1.17) *)
  ord : nat -> forall A : Type, list A -> list A  (* order of the n-th map iteration *)
}.

(** A Go map is iterated in some order: each entry exactly once. *)
Definition ord_valid (O : oracles) : Prop :=
  forall n A (m : list A), Permutation (ord O n A m) m.

(** modsecurity/transforms: one constructor per New... function.  *)
Inductive trans :=
| TLowercase            (* transforms/lowercase.go:11 *)
| TUrlDecode            (* transforms/urldecode.go:10 *)
| TUrlDecodeUni         (* transforms/urldecode_uni.go:10 *)
| TCompressWhitespace   (* transforms/compress_whitespace.go:12 *)
| TRemoveWhitespace     (* transforms/map_rune.go:14 *)
| TRemoveNulls          (* transforms/map_rune.go:21 *)
| TReplaceNulls         (* transforms/map_rune.go:28 *)
| TNone.                (* transforms/none.go:9 *)

(** modsecurity/operators: compiled operators. *)
Inductive cmpop := CEq | CGe | CGt | CLe | CLt.
Inductive operator :=
| OpRx (re : bs)                  (* operators/rx.go:20-23 *)
| OpCmp (c : cmpop) (arg : Z).    (* operators/compare.go:50-55 *)

(** modsecurity/actions: one constructor per action type. *)
Inductive action :=
| ADeny               (* actions/deny.go *)
| AAllow (arg : bs)   (* actions/allow.go *)
| ABlock              (* actions/block.go *)
| ALog                (* actions/log.go *)
| APass               (* actions/pass.go *)
| ASkip               (* actions/skip.go *)
| AStatus (s : Z).    (* actions/status.go *)

(** modsecurity/variables/filter.go:9-14; a compiled regexp is its source. *)
Record filter := Filter {
  f_inc : list bs; f_incre : list bs; f_exc : list bs; f_excre : list bs
}.
Definition empty_filter : filter := Filter [] [] [] [].

(** The collection variables: they embed a [*filter]. *)
Inductive coll :=
| CArgsGet | CArgsGetNames | CArgsPost | CArgsPostNames
| CRequestCookies | CRequestCookiesNames
| CRequestHeaders | CRequestHeadersNames
| CResponseHeaders | CResponseHeadersNames.

(** The variables whose Include/Exclude are no-ops. *)
Inductive scalar :=
| SQueryString | SRemoteAddr | SRequestBasename | SRequestBody | SRequestFilename
| SRequestMethod | SRequestProtocol | SRequestUri | SResponseBody
| SResponseContentLength | SResponseContentType | SResponseProtocol | SResponseStatus.

(** modsecurity/sec_rule.go:158-163: values of interface [Variable]. *)
Inductive variable :=
| VColl (c : coll) (f : filter)
| VScalar (s : scalar)
| VArgs (get : filter) (post : filter)        (* variables/args.go:7-16 *)
| VArgsNames (get : filter) (post : filter)   (* variables/args_names.go:7-16 *)
| VCount (v : variable).                      (* variables/count.go:9-15 *)

(** modsecurity/sec_rule.go:18-28 [SecRule]; a nil Operator is [None]. *)
Inductive rule := Rule {
  r_id : Z;
  r_phase : Z;
  r_vars : list variable;
  r_trans : list trans;
  r_op : option operator;
  r_acts : list action;
  r_not : bool;
  r_meta : vals;
  r_subs : list rule
}.

(** modsecurity/sec_rule.go:122-125 [SecRuleSet]. *)
Record ruleset := RuleSet {
  rs_phases : list (Z * list rule);
  rs_default : list action
}.

(** modsecurity/engine.go:3-20 [Engine], [Limits]; [TmpPath] only reaches the
    file system and is not kept. *)
Record engine := Engine {
  e_enabled : bool;
  e_detection : bool;
  e_ruleset : ruleset;
  e_reqaccess : bool;
  e_resaccess : bool;
  e_reqlimit : Z;       (* RequestBody *)
  e_reqmem : Z;         (* RequestBodyInMem *)
  e_reslimit : Z        (* ResponseBody *)
}.

(** modsecurity/transaction.go:273-279 [Intervention]. *)
Record intervention := Intervention {
  i_status : Z;
  i_pause : Z;
  i_url : option url;
  i_log : list bs;
  i_disruptive : bool
}.

(** modsecurity/variables/request_body_parser.go:14-18 *)
Inductive btype := BUrlencoded | BMultipart.

(** The [interface{}] values stored in [VariableCache]: nil, a [url.Values], or a
    [*multipart.Form] which may itself be a nil pointer. *)
Inductive iface := INil | IValues (m : vals) | IForm (f : option vals).

(** modsecurity/transaction.go:14-56 [Transaction] with its embedded structs. [t_status] is
    [Data["status"]], the only key the repository uses; [t_cache_*] are the two
    keys of [VariableCache] the repository uses; [t_tick] numbers map
    iterations for the order oracle and has no counterpart in the source. *)
Record txn := Txn {
  t_abort : bool;
  t_srcip : bs; t_srcport : bs; t_dstip : bs; t_dstport : bs;
  t_url : option url; t_method : bs; t_reqproto : bs; t_reqheader : vals; t_reqbody : buffer;
  t_code : Z; t_resproto : bs; t_resheader : vals; t_resbody : buffer;
  t_bodyerr : bool;                  (* RequestBodyError != nil *)
  t_cache_url : option iface;
  t_cache_mp : option iface;
  t_iv : option intervention;
  t_phase : Z; t_cur : Z; t_next : Z;
  t_status : option Z;
  t_tick : nat
}.

Definition with_abort (t : txn) (x : bool) : txn :=
  Txn x (t_srcip t) (t_srcport t) (t_dstip t) (t_dstport t) (t_url t) (t_method t) (t_reqproto t) (t_reqheader t) (t_reqbody t) (t_code t) (t_resproto t) (t_resheader t) (t_resbody t) (t_bodyerr t) (t_cache_url t) (t_cache_mp t) (t_iv t) (t_phase t) (t_cur t) (t_next t) (t_status t) (t_tick t).
Definition with_net (t : txn) (a b c d : bs) : txn :=
  Txn (t_abort t) a b c d (t_url t) (t_method t) (t_reqproto t) (t_reqheader t) (t_reqbody t) (t_code t) (t_resproto t) (t_resheader t) (t_resbody t) (t_bodyerr t) (t_cache_url t) (t_cache_mp t) (t_iv t) (t_phase t) (t_cur t) (t_next t) (t_status t) (t_tick t).
Definition with_request (t : txn) (u : option url) (m p : bs) : txn :=
  Txn (t_abort t) (t_srcip t) (t_srcport t) (t_dstip t) (t_dstport t) u m p (t_reqheader t) (t_reqbody t) (t_code t) (t_resproto t) (t_resheader t) (t_resbody t) (t_bodyerr t) (t_cache_url t) (t_cache_mp t) (t_iv t) (t_phase t) (t_cur t) (t_next t) (t_status t) (t_tick t).
Definition with_reqheader (t : txn) (h : vals) : txn :=
  Txn (t_abort t) (t_srcip t) (t_srcport t) (t_dstip t) (t_dstport t) (t_url t) (t_method t) (t_reqproto t) h (t_reqbody t) (t_code t) (t_resproto t) (t_resheader t) (t_resbody t) (t_bodyerr t) (t_cache_url t) (t_cache_mp t) (t_iv t) (t_phase t) (t_cur t) (t_next t) (t_status t) (t_tick t).
Definition with_reqbody (t : txn) (b : buffer) : txn :=
  Txn (t_abort t) (t_srcip t) (t_srcport t) (t_dstip t) (t_dstport t) (t_url t) (t_method t) (t_reqproto t) (t_reqheader t) b (t_code t) (t_resproto t) (t_resheader t) (t_resbody t) (t_bodyerr t) (t_cache_url t) (t_cache_mp t) (t_iv t) (t_phase t) (t_cur t) (t_next t) (t_status t) (t_tick t).
Definition with_response (t : txn) (c : Z) (p : bs) (h : vals) : txn :=
  Txn (t_abort t) (t_srcip t) (t_srcport t) (t_dstip t) (t_dstport t) (t_url t) (t_method t) (t_reqproto t) (t_reqheader t) (t_reqbody t) c p h (t_resbody t) (t_bodyerr t) (t_cache_url t) (t_cache_mp t) (t_iv t) (t_phase t) (t_cur t) (t_next t) (t_status t) (t_tick t).
Definition with_resbody (t : txn) (b : buffer) : txn :=
  Txn (t_abort t) (t_srcip t) (t_srcport t) (t_dstip t) (t_dstport t) (t_url t) (t_method t) (t_reqproto t) (t_reqheader t) (t_reqbody t) (t_code t) (t_resproto t) (t_resheader t) b (t_bodyerr t) (t_cache_url t) (t_cache_mp t) (t_iv t) (t_phase t) (t_cur t) (t_next t) (t_status t) (t_tick t).
Definition with_bodyerr (t : txn) (e : bool) : txn :=
  Txn (t_abort t) (t_srcip t) (t_srcport t) (t_dstip t) (t_dstport t) (t_url t) (t_method t) (t_reqproto t) (t_reqheader t) (t_reqbody t) (t_code t) (t_resproto t) (t_resheader t) (t_resbody t) e (t_cache_url t) (t_cache_mp t) (t_iv t) (t_phase t) (t_cur t) (t_next t) (t_status t) (t_tick t).
Definition with_cache_url (t : txn) (x : option iface) : txn :=
  Txn (t_abort t) (t_srcip t) (t_srcport t) (t_dstip t) (t_dstport t) (t_url t) (t_method t) (t_reqproto t) (t_reqheader t) (t_reqbody t) (t_code t) (t_resproto t) (t_resheader t) (t_resbody t) (t_bodyerr t) x (t_cache_mp t) (t_iv t) (t_phase t) (t_cur t) (t_next t) (t_status t) (t_tick t).
Definition with_cache_mp (t : txn) (x : option iface) : txn :=
  Txn (t_abort t) (t_srcip t) (t_srcport t) (t_dstip t) (t_dstport t) (t_url t) (t_method t) (t_reqproto t) (t_reqheader t) (t_reqbody t) (t_code t) (t_resproto t) (t_resheader t) (t_resbody t) (t_bodyerr t) (t_cache_url t) x (t_iv t) (t_phase t) (t_cur t) (t_next t) (t_status t) (t_tick t).
Definition with_iv (t : txn) (i : intervention) : txn :=
  Txn (t_abort t) (t_srcip t) (t_srcport t) (t_dstip t) (t_dstport t) (t_url t) (t_method t) (t_reqproto t) (t_reqheader t) (t_reqbody t) (t_code t) (t_resproto t) (t_resheader t) (t_resbody t) (t_bodyerr t) (t_cache_url t) (t_cache_mp t) (Some i) (t_phase t) (t_cur t) (t_next t) (t_status t) (t_tick t).
Definition with_pos (t : txn) (phase cur next : Z) : txn :=
  Txn (t_abort t) (t_srcip t) (t_srcport t) (t_dstip t) (t_dstport t) (t_url t) (t_method t) (t_reqproto t) (t_reqheader t) (t_reqbody t) (t_code t) (t_resproto t) (t_resheader t) (t_resbody t) (t_bodyerr t) (t_cache_url t) (t_cache_mp t) (t_iv t) phase cur next (t_status t) (t_tick t).
Definition with_status (t : txn) (s : option Z) : txn :=
  Txn (t_abort t) (t_srcip t) (t_srcport t) (t_dstip t) (t_dstport t) (t_url t) (t_method t) (t_reqproto t) (t_reqheader t) (t_reqbody t) (t_code t) (t_resproto t) (t_resheader t) (t_resbody t) (t_bodyerr t) (t_cache_url t) (t_cache_mp t) (t_iv t) (t_phase t) (t_cur t) (t_next t) s (t_tick t).
Definition tick (t : txn) : txn :=
  Txn (t_abort t) (t_srcip t) (t_srcport t) (t_dstip t) (t_dstport t) (t_url t) (t_method t) (t_reqproto t) (t_reqheader t) (t_reqbody t) (t_code t) (t_resproto t) (t_resheader t) (t_resbody t) (t_bodyerr t) (t_cache_url t) (t_cache_mp t) (t_iv t) (t_phase t) (t_cur t) (t_next t) (t_status t) (S (t_tick t)).
