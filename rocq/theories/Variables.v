(** Model of package [variables]: what each variable fetches. *)
From Verif Require Import Base GoStrings Utils Buffer Types Transaction.

(** ** Filters *)

(** variables/filter.go:16-21 [isRegex]: first and last byte are '/'. *)
Definition is_regex (s : bs) : bool :=
  match s with
  | a :: (_ :: _) as r => Ascii.eqb a "/" && Ascii.eqb (last r " "%char) "/"
  | _ => false
  end.

(** [str[1 : len(str)-1]] *)
Definition inner (s : bs) : bs := removelast (tl s).

(** variables/filter.go:33-44 [Include]; [None] = the regex does not compile
    (compileRegex, lines 22-31). *)
Definition filter_include (O : oracles) (s : bs) (f : filter) : option filter :=
  if is_regex s then
    if rx_ok O (inner s)
    then Some (Filter (f_inc f) (f_incre f ++ [inner s]) (f_exc f) (f_excre f))
    else None
  else Some (Filter (f_inc f ++ [s]) (f_incre f) (f_exc f) (f_excre f)).

(** variables/filter.go:45-56 [Exclude] *)
Definition filter_exclude (O : oracles) (s : bs) (f : filter) : option filter :=
  if is_regex s then
    if rx_ok O (inner s)
    then Some (Filter (f_inc f) (f_incre f) (f_exc f) (f_excre f ++ [inner s]))
    else None
  else Some (Filter (f_inc f) (f_incre f) (f_exc f ++ [s]) (f_excre f)).

Definition nonempty {A} (l : list A) : bool := match l with [] => false | _ => true end.

(** variables/filter.go:79-86: the two [continue] conditions. *)
Definition filter_drops (O : oracles) (f : filter) (k : bs) : bool :=
  ((nonempty (f_inc f) && negb (StringInSlice k (f_inc f)))
   || (nonempty (f_incre f) && negb (StringInRegexSlice (rx_match O) k (f_incre f))))
  || ((nonempty (f_exc f) && StringInSlice k (f_exc f))
      || (nonempty (f_excre f) && StringInRegexSlice (rx_match O) k (f_excre f))).

(** variables/filter.go:76-90 [FetchWithNames].  The source map has distinct
    keys, so [res[k] = append(res[k], v...)] stores a copy of each kept entry;
    the order in which it is built is irrelevant. *)
Definition fetch_with_names (O : oracles) (f : filter) (m : vals) : vals :=
  List.filter (fun kv => negb (filter_drops O f (fst kv))) m.

(** variables/filter.go:58-65 [Fetch] and 67-74 [Names]; the iteration at line
    61/70 takes the order oracle's next value. *)
Definition filter_fetch (O : oracles) (f : filter) (m : vals) (t : txn) : txn * list bs :=
  (tick t, flat_map snd (ord O (t_tick t) _ (fetch_with_names O f m))).
Definition filter_names (O : oracles) (f : filter) (m : vals) (t : txn) : txn * list bs :=
  (tick t, map fst (ord O (t_tick t) _ (fetch_with_names O f m))).

(** ** Helpers *)

(** [http.Header.Get] with an already canonical key. *)
Definition header_get (k : bs) (h : vals) : bs :=
  match assoc k h with
  | Some (v :: _) => v
  | _ => []
  end.

(** [url.URL.Query]: ParseQuery with the error dropped. *)
Definition url_query (O : oracles) (u : url) : vals := fst (parse_query (semi_sep O) (u_rawquery u)).

(** variables/request_cookies.go:43-53: one ';'-separated part. *)
Definition cookie_part (p : bs) (m : vals) : vals :=
  match trim_space p with
  | [] => m
  | q => let '(name, v) := cut "=" q in
         vals_add name (match v with Some v => v | None => [] end) m
  end.
(** variables/request_cookies.go:37-54: one header line. *)
Definition cookie_line (line : bs) (m : vals) : vals :=
  let parts := split ";" (trim_space line) in
  match parts with
  | [[]] => m
  | _ => fold_left (fun m p => cookie_part p m) parts m
  end.
(** variables/request_cookies.go:30-56 [readCookie]; a nil map is []. *)
Definition read_cookie (h : vals) : vals :=
  match assoc (B "Cookie") h with
  | None => []
  | Some lines => fold_left (fun m l => cookie_line l m) lines []
  end.

(** variables/request_basename.go:50-52 *)
Definition is_path_sep (c : ascii) : bool := Ascii.eqb c BSL || Ascii.eqb c "/".
Fixpoint drop_while (p : ascii -> bool) (s : bs) : bs :=
  match s with
  | [] => []
  | c :: s' => if p c then drop_while p s' else s
  end.
Fixpoint take_while (p : ascii -> bool) (s : bs) : bs :=
  match s with
  | [] => []
  | c :: s' => if p c then c :: take_while p s' else []
  end.
(** variables/request_basename.go:26-48 [basename]; the loops walk from the end,
    i.e. along the reversed path. *)
Definition basename (path : bs) : bs :=
  match path with
  | [] => B "/"
  | _ =>
      let r := drop_while is_path_sep (rev path) in
      match r with
      | [] => B "/"
      | _ => match rev (take_while (fun c => negb (is_path_sep c)) r) with
             | [] => B "/"
             | p => p
             end
      end
  end.

(** variables/request_uri.go:25-31 *)
Definition request_uri (O : oracles) (u : url) : bs :=
  url_string O (Url [] [] None [] (u_path u) (u_rawquery u) (u_rest u)).

(** ** The request body parser *)

(** variables/request_body.go:24 and request_body_parser.go:53 *)
Definition has_body_method (t : txn) : bool :=
  bs_eqb (t_method t) (B "POST") || bs_eqb (t_method t) (B "PUT") || bs_eqb (t_method t) (B "PATCH").

(** Text of the buffer errors (modsecurity/buffer.go:35-37), used by AbortWithError. *)
Definition berr_msg (e : berr) : bs :=
  match e with
  | ErrOutOfFileLimit => B "out of file limit"
  | ErrOutOfMemLimit => B "out of memory limit"
  | ErrBufferReaded => B "buffer can't write after read"
  | ErrOS => B "os error"
  end.

(** variables/request_body_parser.go:25-49: content types of the parsers. *)
Definition bt_ctype (tp : btype) : bs :=
  match tp with
  | BUrlencoded => B "application/x-www-form-urlencoded"
  | BMultipart => B "multipart/"
  end.

Definition cache_get (tp : btype) (t : txn) : option iface :=
  match tp with BUrlencoded => t_cache_url t | BMultipart => t_cache_mp t end.
Definition cache_set (tp : btype) (v : iface) (t : txn) : txn :=
  match tp with
  | BUrlencoded => with_cache_url t (Some v)
  | BMultipart => with_cache_mp t (Some v)
  end.

(** Reading a spilled body leaves the file offset somewhere ([off]). *)
Definition set_off (off : nat) (b : buffer) : buffer :=
  match b_file b with
  | Some f => set_file b (Some (TFile (f_data f) off))
  | None => b
  end.

(** variables/request_body_parser.go:28-35 and 39-47: the two parser functions;
    result value and whether err != nil. *)
Definition run_parser (O : oracles) (e : engine) (tp : btype) (boundary : bs) (t : txn)
  : out (txn * iface * bool) :=
  match tp with
  | BUrlencoded =>
      let '(b, body, err) := buf_string (t_reqbody t) in
      let t := with_reqbody t b in
      match err with
      | Some er => Ret (abort_with_error 413 (berr_msg er) t, INil, true)
      | None => let '(m, bad) := parse_query (semi_sep O) body in Ret (t, IValues m, bad)
      end
  | BMultipart =>
      let '(r, off) := multipart O (t_reqbody t) boundary (e_reqmem e) in
      let t := with_reqbody t (set_off off (t_reqbody t)) in
      match r with
      | MpOk m => Ret (t, IForm (Some m), false)
      | MpTooLarge => Ret (abort_with_error 413 (B "multipart: message too large") t, INil, true)
      | MpErr => Ret (t, IForm None, true)
      | MpHang => Timeout
      end
  end.

(** variables/request_body_parser.go:64-85: the loop over body types; [None] is
    (bodyTypeNone, nil). *)
Fixpoint parse_types (O : oracles) (e : engine) (ct boundary : bs) (tps : list btype) (t : txn)
  : out (txn * option (btype * iface)) :=
  match tps with
  | [] => Ret (t, None)
  | tp :: tps' =>
      if negb (has_prefix (bt_ctype tp) ct) then parse_types O e ct boundary tps' t
      else
        match cache_get tp t with
        | Some res =>
            match res with
            | INil => parse_types O e ct boundary tps' t
            | _ => Ret (t, Some (tp, res))
            end
        | None =>
            '(t1, res, err) <- run_parser O e tp boundary t ;;
            let t2 := cache_set tp res t1 in
            if err : bool then Ret (with_bodyerr t2 true, None)
            else match res with
                 | INil => parse_types O e ct boundary tps' t2
                 | _ => Ret (t2, Some (tp, res))
                 end
        end
  end.

(** variables/request_body_parser.go:51-88 [requestBodyParse], called with
    (bodyTypeUrlencoded, bodyTypeMultipart) everywhere. *)
Definition request_body_parse (O : oracles) (e : engine) (t : txn)
  : out (txn * option (btype * iface)) :=
  if negb (has_body_method t) then Ret (t, None)
  else if negb (e_reqaccess e) || (buf_len (t_reqbody t) =? 0) then Ret (t, None)
  else
    let ct := header_get (B "Content-Type") (t_reqheader t) in
    let ct := match ct with [] => B "application/octet-stream" | _ => ct end in
    let '(mt, boundary) := media_type O ct in
    parse_types O e mt boundary [BUrlencoded; BMultipart] t.

(** ** Fetch *)

(** variables/args_posts.go:23-39 and args_post_names.go:23-39.  [Names] has no
    nil check on the form, so a nil [*multipart.Form] is dereferenced. *)
Definition fetch_post (O : oracles) (e : engine) (f : filter) (t : txn) : out (txn * list bs) :=
  '(t1, r) <- request_body_parse O e t ;;
  match r with
  | Some (BUrlencoded, IValues m) => Ret (filter_fetch O f m t1)
  | Some (BMultipart, IForm (Some m)) => Ret (filter_fetch O f m t1)
  | _ => Ret (t1, [])
  end.
Definition fetch_post_names (O : oracles) (e : engine) (f : filter) (t : txn) : out (txn * list bs) :=
  '(t1, r) <- request_body_parse O e t ;;
  match r with
  | Some (BUrlencoded, IValues m) => Ret (filter_names O f m t1)
  | Some (BMultipart, IForm (Some m)) => Ret (filter_names O f m t1)
  | Some (BMultipart, IForm None) => Panic
  | _ => Ret (t1, [])
  end.

(** The [Fetch] methods of the collection variables: args_gets.go:18-23,
    args_get_names.go:18-23, args_posts.go, args_post_names.go,
    request_cookies.go:23-28, request_cookies_names.go:20-25,
    request_headers.go:18-20, request_headers_names.go:18-23,
    response_headers.go:20-22, response_headers_names.go:18-20. *)
Definition fetch_coll (O : oracles) (e : engine) (c : coll) (f : filter) (t : txn)
  : out (txn * list bs) :=
  match c with
  | CArgsGet => match t_url t with
                | None => Ret (t, [])
                | Some u => Ret (filter_fetch O f (url_query O u) t)
                end
  | CArgsGetNames => match t_url t with
                     | None => Ret (t, [])
                     | Some u => Ret (filter_names O f (url_query O u) t)
                     end
  | CArgsPost => fetch_post O e f t
  | CArgsPostNames => fetch_post_names O e f t
  | CRequestCookies => Ret (filter_fetch O f (read_cookie (t_reqheader t)) t)
  | CRequestCookiesNames => Ret (filter_names O f (read_cookie (t_reqheader t)) t)
  | CRequestHeaders => Ret (filter_fetch O f (t_reqheader t) t)
  | CRequestHeadersNames => match t_url t with
                            | None => Ret (t, [])
                            | Some _ => Ret (filter_names O f (t_reqheader t) t)
                            end
  | CResponseHeaders => Ret (filter_fetch O f (t_resheader t) t)
  | CResponseHeadersNames => Ret (filter_names O f (t_resheader t) t)
  end.

(** variables/request_body.go:23-44 *)
Definition fetch_request_body (O : oracles) (e : engine) (t : txn) : txn * list bs :=
  if negb (has_body_method t) then (t, [])
  else if negb (e_reqaccess e) || (buf_len (t_reqbody t) =? 0) then (t, [])
  else
    let ct := header_get (B "Content-Type") (t_reqheader t) in
    match ct with
    | [] => (t, [])
    | _ =>
        if negb (bs_eqb (fst (media_type O ct)) (B "application/x-www-form-urlencoded")) then (t, [])
        else
          let '(b, body, err) := buf_string (t_reqbody t) in
          let t := with_reqbody t b in
          match err with
          | Some er => (abort_with_error 413 (berr_msg er) t, [])
          | None => (t, [body])
          end
    end.

(** variables/response_body.go:22-32 *)
Definition fetch_response_body (e : engine) (t : txn) : txn * list bs :=
  if negb (e_resaccess e) || (buf_len (t_resbody t) =? 0) then (t, [])
  else
    let '(b, body, err) := buf_string (t_resbody t) in
    let t := with_resbody t b in
    match err with
    | Some er => (abort_with_error 500 (berr_msg er) t, [])
    | None => (t, [body])
    end.

(** The [Fetch] methods of the scalar variables: query_string.go:19-24,
    remote_addr.go:19-21, request_basename.go:19-25, request_body.go,
    request_filename.go:19-24, request_method.go:19-21, request_protocol.go:19-21,
    request_uri.go:21-32, response_body.go, response_content_length.go:19-24,
    response_content_type.go:21-28, response_protocol.go:19-21,
    response_status.go:21-23. *)
Definition fetch_scalar (O : oracles) (e : engine) (s : scalar) (t : txn) : txn * list bs :=
  let with_url (k : url -> bs) :=
    match t_url t with None => (t, []) | Some u => (t, [k u]) end in
  match s with
  | SQueryString => with_url u_rawquery
  | SRemoteAddr => (t, [t_srcip t])
  | SRequestBasename => with_url (fun u => basename (u_path u))
  | SRequestBody => fetch_request_body O e t
  | SRequestFilename => with_url u_path
  | SRequestMethod => (t, [t_method t])
  | SRequestProtocol => (t, [t_reqproto t])
  | SRequestUri => with_url (request_uri O)
  | SResponseBody => fetch_response_body e t
  | SResponseContentLength =>
      match header_get (B "Content-Length") (t_resheader t) with
      | [] => (t, [B "0"])
      | l => (t, [l])
      end
  | SResponseContentType =>
      let ct := header_get (B "Content-Type") (t_resheader t) in
      let ct := match ct with [] => B "application/octet-stream" | _ => ct end in
      (t, [fst (media_type O ct)])
  | SResponseProtocol => (t, [t_resproto t])
  | SResponseStatus => (t, [itoa (t_code t)])
  end.

(** [Variable.Fetch]: variables/merge.go:29-35 for ARGS and ARGS_NAMES,
    count.go:17-19 for &V. *)
Fixpoint fetch (O : oracles) (e : engine) (v : variable) (t : txn) : out (txn * list bs) :=
  match v with
  | VColl c f => fetch_coll O e c f t
  | VScalar s => Ret (fetch_scalar O e s t)
  | VArgs g p =>
      '(t1, a) <- fetch_coll O e CArgsGet g t ;;
      '(t2, b) <- fetch_coll O e CArgsPost p t1 ;;
      Ret (t2, a ++ b)
  | VArgsNames g p =>
      '(t1, a) <- fetch_coll O e CArgsGetNames g t ;;
      '(t2, b) <- fetch_coll O e CArgsPostNames p t1 ;;
      Ret (t2, a ++ b)
  | VCount v' =>
      '(t1, a) <- fetch O e v' t ;;
      Ret (t1, [itoa (Z.of_nat (length a))])
  end.

(** [Variable.Include] / [Exclude]: filter.go:33-56, merge.go:11-27, no-ops on
    scalars, promoted through CountVariable (count.go:13-15).  [None] = error
    (after a failing merge the first part may already be extended; a failing
    load discards the variable). *)
Fixpoint var_include (O : oracles) (s : bs) (v : variable) : option variable :=
  match v with
  | VColl c f => option_map (VColl c) (filter_include O s f)
  | VScalar k => Some (VScalar k)
  | VArgs g p => match filter_include O s g, filter_include O s p with
                 | Some g', Some p' => Some (VArgs g' p') | _, _ => None end
  | VArgsNames g p => match filter_include O s g, filter_include O s p with
                      | Some g', Some p' => Some (VArgsNames g' p') | _, _ => None end
  | VCount v' => option_map VCount (var_include O s v')
  end.
Fixpoint var_exclude (O : oracles) (s : bs) (v : variable) : option variable :=
  match v with
  | VColl c f => option_map (VColl c) (filter_exclude O s f)
  | VScalar k => Some (VScalar k)
  | VArgs g p => match filter_exclude O s g, filter_exclude O s p with
                 | Some g', Some p' => Some (VArgs g' p') | _, _ => None end
  | VArgsNames g p => match filter_exclude O s g, filter_exclude O s p with
                      | Some g', Some p' => Some (VArgsNames g' p') | _, _ => None end
  | VCount v' => option_map VCount (var_exclude O s v')
  end.
