(** Model of the descriptive methods: [Name], [Value] and [Args] of
    transformations, operators, actions and variables. *)
From Verif Require Import Base GoStrings Buffer Types Operators Scanner Loader.

(** [Name] of transforms/lowercase.go:15-17, urldecode.go:14-16,
    urldecode_uni.go:14-16, compress_whitespace.go:16-18, none.go:13-15; and the
    names given by map_rune.go:14-33, returned at 44-46. *)
Definition trans_Name (t : trans) : bs :=
  match t with
  | TLowercase => B "lowercase"
  | TUrlDecode => B "urlDecode"
  | TUrlDecodeUni => B "urlDecodeUni"
  | TCompressWhitespace => B "compressWhitespace"
  | TRemoveWhitespace => B "removeWhitespace"
  | TRemoveNulls => B "removeNulls"
  | TReplaceNulls => B "replaceNulls"
  | TNone => B "none"
  end.

(** [Name] of actions/deny.go:16-18, allow.go:20-22, block.go:17-19,
    log.go:16-18, pass.go:16-18, skip.go:17-19, status.go:21-23. *)
Definition action_Name (a : action) : bs :=
  match a with
  | ADeny => B "deny"
  | AAllow _ => B "allow"
  | ABlock => B "block"
  | ALog => B "log"
  | APass => B "pass"
  | ASkip => B "skip"
  | AStatus _ => B "status"
  end.
(** [Value] of actions/deny.go:19-22, allow.go:23-26, block.go:20-23,
    log.go:19-22, pass.go:19-22, skip.go:20-23, status.go:24-27. *)
Definition action_Value (a : action) : bs :=
  match a with
  | AAllow arg => arg
  | AStatus n => itoa n
  | ADeny | ABlock | ALog | APass | ASkip => []
  end.

(** operators/compare.go:50-55 [OperatorCompare] and rx.go:20-23 [OperatorRx] as
    objects, with the texts that [op_match] does not need. *)
Inductive opobj :=
| ObjRx (re : bs)
| ObjCompare (fn : cmpop) (arg : Z) (argString : bs) (name : bs).
(** operators/compare.go:36-48 [newOperatorCompare] *)
Definition newOperatorCompare (name arg : bs) (fn : cmpop) : option opobj :=
  let arg := trim_space arg in
  match parse_int64 arg with
  | None => None
  | Some v => Some (ObjCompare fn v arg name)
  end.
(** operators/compare.go:10-34 and rx.go:9-18, chosen by
    seclang/operators.go:11-18. *)
Definition opobj_factory (O : oracles) (o : poper) : option opobj :=
  match po_tok o with
  | KRx => if rx_ok O (po_arg o) then Some (ObjRx (po_arg o)) else None
  | KEq => newOperatorCompare (B "eq") (po_arg o) CEq
  | KGe => newOperatorCompare (B "ge") (po_arg o) CGe
  | KGt => newOperatorCompare (B "gt") (po_arg o) CGt
  | KLe => newOperatorCompare (B "le") (po_arg o) CLe
  | KLt => newOperatorCompare (B "lt") (po_arg o) CLt
  end.
(** operators/compare.go:57-59, rx.go:25-27 *)
Definition op_Name (o : opobj) : bs :=
  match o with ObjRx _ => B "rx" | ObjCompare _ _ _ name => name end.
(** operators/compare.go:60-62, rx.go:28-30 *)
Definition op_Args (o : opobj) : bs :=
  match o with ObjRx re => re | ObjCompare _ _ s _ => s end.
(** The part of the object that decides matches: what the rest of the model calls
    the operator. *)
Definition op_core (o : opobj) : operator :=
  match o with ObjRx re => OpRx re | ObjCompare fn arg _ _ => OpCmp fn arg end.

(** [Name] of the collection variables: variables/args_gets.go:15-17,
    args_get_names.go:15-17, args_posts.go:20-22, args_post_names.go:20-22,
    request_cookies.go:20-22, request_cookies_names.go:17-19,
    request_headers.go:15-17, request_headers_names.go:15-17,
    response_headers.go:17-19, response_headers_names.go:15-17. *)
Definition coll_Name (c : coll) : bs :=
  match c with
  | CArgsGet => B "ARGS_GET"
  | CArgsGetNames => B "ARGS_GET_NAMES"
  | CArgsPost => B "ARGS_POST"
  | CArgsPostNames => B "ARGS_POST_NAMES"
  | CRequestCookies => B "REQUEST_COOKIES"
  | CRequestCookiesNames => B "REQUEST_COOKIES_NAMES"
  | CRequestHeaders => B "REQUEST_HEADERS"
  | CRequestHeadersNames => B "REQUEST_HEADERS_NAMES"
  | CResponseHeaders => B "RESPONSE_HEADERS"
  | CResponseHeadersNames => B "RESPONSE_HEADERS_NAMES"
  end.
(** [Name] of the scalar variables: variables/query_string.go:14-16,
    remote_addr.go:14-16, request_basename.go:14-16, request_body.go:20-22,
    request_filename.go:14-16, request_method.go:14-16, request_protocol.go:14-16,
    request_uri.go:16-18, response_body.go:19-21, response_content_length.go:14-16,
    response_content_type.go:16-18, response_protocol.go:14-16,
    response_status.go:16-18. *)
Definition scalar_Name (s : scalar) : bs :=
  match s with
  | SQueryString => B "QUERY_STRING"
  | SRemoteAddr => B "REMOTE_ADDR"
  | SRequestBasename => B "REQUEST_BASENAME"
  | SRequestBody => B "REQUEST_BODY"
  | SRequestFilename => B "REQUEST_FILENAME"
  | SRequestMethod => B "REQUEST_METHOD"
  | SRequestProtocol => B "REQUEST_PROTOCOL"
  | SRequestUri => B "REQUEST_URI"
  | SResponseBody => B "RESPONSE_BODY"
  | SResponseContentLength => B "RESPONSE_CONTENT_LENGTH"
  | SResponseContentType => B "RESPONSE_CONTENT_TYPE"
  | SResponseProtocol => B "RESPONSE_PROTOCOL"
  | SResponseStatus => B "RESPONSE_STATUS"
  end.
(** variables/args.go:22-24, args_names.go:22-24; count.go:13-15 embeds the
    counted variable and with it its [Name]. *)
Fixpoint variable_Name (v : variable) : bs :=
  match v with
  | VColl c _ => coll_Name c
  | VScalar s => scalar_Name s
  | VArgs _ _ => B "ARGS"
  | VArgsNames _ _ => B "ARGS_NAMES"
  | VCount v => variable_Name v
  end.
