(** Specification vocabulary: a request as its texts, what the words of a rule stand for in it, and which of the rules of a
    text ask for its denial. *)
From Verif Require Import Base Buffer Types Transforms Engine SpecText SpecVars SpecRules SpecTxn SpecData SpecGate SpecBody Scanner Loader SpecParse SpecLoad SpecVerdict
  SpecQuery SpecUri SpecMedia SpecMulti.

(** A request: the client's address, the request line, the header and the body. *)
Record request := Request { q_ip : bs; q_method : bs; q_target : bs; q_proto : bs; q_header : vals; q_body : bs }.

(** The lines of a header, none if it is missing. *)
Inductive header_lines (k : bs) (h : vals) : list bs -> Prop :=
| hl_given : forall vs h1 h2, h = h1 ++ (k, vs) :: h2 -> ~ In k (map fst h1) -> header_lines k h vs
| hl_missing : ~ In k (map fst h) -> header_lines k h [].
(** The fields of the query, and the cookies. *)
Definition query_pairs (O : oracles) (rq : request) (ps : list (bs * bs)) : Prop :=
  exists raw q n, target (q_target rq) raw q /\ query (semi_sep O) ps n (query_text q).
Definition cookie_pairs (rq : request) (ps : list (bs * bs)) : Prop :=
  exists lines, header_lines (B "Cookie") (q_header rq) lines /\ cookie_lines ps lines.
(** The fields of the body, and the body as REQUEST_BODY shows it.  The body is not looked at unless rules may see it ([on]), nor
    for other methods; a form and a multipart form have fields, other types none, and only a form is shown as text. *)
Inductive body_fields (on : bool) (rq : request) : list (bs * bs) -> list bs -> Prop :=
| bf_unseen : on = false \/ ~ In (q_method rq) body_methods \/ q_body rq = [] -> body_fields on rq [] []
| bf_form : forall ct qs ps, on = true -> In (q_method rq) body_methods -> q_body rq <> [] ->
    first_value (B "Content-Type") (q_header rq) ct -> content_type (B "application/x-www-form-urlencoded") qs ct -> NoDup (map fst qs) ->
    form_pairs ps (q_body rq) -> body_fields on rq ps [q_body rq]
| bf_multipart : forall ct mt qs bd pre rest ps, on = true -> In (q_method rq) body_methods ->
    first_value (B "Content-Type") (q_header rq) ct -> content_type (B "multipart/" ++ mt) qs ct -> NoDup (map fst qs) -> In (B "boundary", bd) qs ->
    good_boundary bd -> (length (q_body rq) <= 2000)%nat -> multipart_text bd pre (line_end ++ rest) ps (q_body rq) -> body_fields on rq ps []
| bf_other : forall ct mt qs, first_value (B "Content-Type") (q_header rq) ct -> content_type mt qs ct -> NoDup (map fst qs) ->
    (forall s, mt <> B "application/x-www-form-urlencoded" ++ s) -> (forall s, mt <> B "multipart/" ++ s) -> body_fields on rq [] []
| bf_untyped : first_value (B "Content-Type") (q_header rq) [] -> body_fields on rq [] [].

(** The pairs, or header lines, whose names the selectors of a rule admit. *)
Definition picked {A} (O : oracles) (cs : list call) (ps kept : list (bs * A)) : Prop := keeps (fun p => selected (rx_match O) cs (fst p)) ps kept.
Section Shown.
Variables (O : oracles) (rq : request) (fields : list (bs * bs)) (body : list bs) (cs : list call).
(** The values a word with the selectors [cs] stands for. *)
Inductive shown : vtok -> list bs -> Prop :=
| sh_addr : shown KRemoteAddr [q_ip rq]
| sh_method : shown KRequestMethod [q_method rq]
| sh_protocol : shown KRequestProtocol [q_proto rq]
| sh_query : forall raw q, target (q_target rq) raw q -> shown KQueryString [query_text q]
| sh_filename : forall raw q path, target (q_target rq) raw q -> spells_path raw path -> shown KRequestFilename [path]
| sh_basename : forall raw q path x, target (q_target rq) raw q -> spells_path raw path -> last_segment path x -> shown KRequestBasename [x]
| sh_uri : forall raw q, target (q_target rq) raw q -> Forall path_byte raw -> shown KRequestUri [q_target rq]
| sh_uri_rewritten : forall raw q path r, target (q_target rq) raw q -> ~ Forall path_byte raw -> spells_path raw path -> rewritten path r ->
    shown KRequestUri [r ++ q]
| sh_body : shown KRequestBody body
| sh_get : forall ps kept, query_pairs O rq ps -> picked O cs ps kept -> shown KArgsGet (map snd kept)
| sh_get_names : forall ps kept ns, query_pairs O rq ps -> picked O cs ps kept -> names_once kept ns -> shown KArgsGetNames ns
| sh_post : forall kept, picked O cs fields kept -> shown KArgsPost (map snd kept)
| sh_post_names : forall kept ns, picked O cs fields kept -> names_once kept ns -> shown KArgsPostNames ns
| sh_args : forall ps kept kept', query_pairs O rq ps -> picked O cs ps kept -> picked O cs fields kept' -> shown KArgs (map snd kept ++ map snd kept')
| sh_args_names : forall ps kept kept' ns ns', query_pairs O rq ps -> picked O cs ps kept -> picked O cs fields kept' ->
    names_once kept ns -> names_once kept' ns' -> shown KArgsNames (ns ++ ns')
| sh_cookies : forall ps kept, cookie_pairs rq ps -> picked O cs ps kept -> shown KRequestCookies (map snd kept)
| sh_cookies_names : forall ps kept ns, cookie_pairs rq ps -> picked O cs ps kept -> names_once kept ns -> shown KRequestCookiesNames ns
| sh_headers : forall kept, picked O cs (q_header rq) kept -> shown KRequestHeaders (flat_map snd kept)
| sh_headers_names : forall kept, picked O cs (q_header rq) kept -> shown KRequestHeadersNames (map fst kept).
End Shown.
Definition request_words : list vtok :=
  [KRemoteAddr; KRequestMethod; KRequestProtocol; KQueryString; KRequestFilename; KRequestBasename; KRequestUri; KRequestBody;
   KArgsGet; KArgsGetNames; KArgsPost; KArgsPostNames; KArgs; KArgsNames; KRequestCookies; KRequestCookiesNames; KRequestHeaders; KRequestHeadersNames].

(** A rule as written holds of a request: one of the values its words stand for, or their number, satisfies the operator once
    transformed. *)
Definition holds_of (O : oracles) (rq : request) (fields : list (bs * bs)) (body : list bs) (w : written) : Prop :=
  exists tk c l v o, mentions tk c (w_vars w) /\ shown O rq fields body (calls_of tk c (w_vars w)) tk l /\
    (if c then decimal v (Z.of_nat (length l)) else In v l) /\ op_means O (w_op w) o /\
    (if po_not (w_op w) then ~ satisfies O o (changed O (pas_trans (w_acts w)) v) else satisfies O o (changed O (pas_trans (w_acts w)) v)).
(** The rules look at requests, at bodies not before phase 3, and at nothing in phase 1, when only the address is known. *)
Definition request_rules (ds : list directive) : Prop :=
  forall w c, chain_in ds (w :: c) -> pas_phase (w_acts w) <> 1 /\
    forall w' v, In w' (w :: c) -> In v (w_vars w') -> In (pv_tok v) request_words /\ (In (pv_tok v) body_words -> pas_phase (w_acts w) <> 2).
(** Phase [p] is gone through: phase 2 by the header, the others by the calls that follow the body. *)
Definition reached (later : list op) (p : Z) : Prop :=
  p = 2 \/ exists a o b, later = a ++ o :: b /\ op_phase o = Some p /\ ahead a p.
(** Some chain that asks for denial, of a phase gone through, holds of the request. *)
Definition request_denied (O : oracles) (ds : list directive) (rq : request) (fields : list (bs * bs)) (body : list bs) (later : list op) : Prop :=
  exists w c, chain_in ds (w :: c) /\ reached later (pas_phase (w_acts w)) /\ Exists asks_denial (w :: c) /\ Forall (holds_of O rq fields body) (w :: c).
(** The calls that bring a request, its body in pieces. *)
Definition request_calls (rq : request) (port ip2 port2 : bs) (u : url) (pieces : list bs) : list op :=
  [OpConnection (q_ip rq) port ip2 port2; OpRequestURL (Some u) (q_method rq) (q_proto rq); OpRequestHeader (q_header rq)] ++
  map (fun x => OpAppendRequestBody x NoFault) pieces.
