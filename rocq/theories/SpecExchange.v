(** Specification vocabulary: a whole exchange, request and response, as its texts, and what the rules of a text answer to it. *)
From Verif Require Import Base Buffer Types Transforms Transaction Engine SpecText SpecVars SpecRules RuleFacts SpecTxn SpecData SpecGate SpecBody Scanner Loader SpecParse SpecLoad SpecVerdict
  SpecQuery SpecUri SpecMedia SpecMulti SpecAnswer SpecReply SpecFilter.

Record response := Response { r_code : Z; r_proto : bs; r_header : vals; r_body : bs }.
(** What the words about a response stand for; its body only if rules may see it ([on]) and it is not empty. *)
Section Told.
Variables (O : oracles) (on : bool) (rp : response) (cs : list call).
Inductive told : vtok -> list bs -> Prop :=
| to_status : forall x, decimal x (r_code rp) -> told KResponseStatus [x]
| to_protocol : told KResponseProtocol [r_proto rp]
| to_length : forall x, first_value (B "Content-Length") (r_header rp) x -> x <> [] -> told KResponseContentLength [x]
| to_no_length : first_value (B "Content-Length") (r_header rp) [] -> told KResponseContentLength [B "0"]
| to_type : forall ct mt qs, first_value (B "Content-Type") (r_header rp) ct -> content_type mt qs ct -> NoDup (map fst qs) ->
    told KResponseContentType [mt]
| to_no_type : first_value (B "Content-Type") (r_header rp) [] -> told KResponseContentType [B "application/octet-stream"]
| to_headers : forall kept, picked O cs (r_header rp) kept -> told KResponseHeaders (flat_map snd kept)
| to_headers_names : forall kept, picked O cs (r_header rp) kept -> told KResponseHeadersNames (map fst kept)
| to_body : on = true -> r_body rp <> [] -> told KResponseBody [r_body rp]
| to_no_body : on = false \/ r_body rp = [] -> told KResponseBody [].
End Told.
(** The response has no content type or a well-formed one. *)
Definition typed (rp : response) : Prop :=
  exists ct, first_value (B "Content-Type") (r_header rp) ct /\ (ct = [] \/ exists mt qs, content_type mt qs ct /\ NoDup (map fst qs)).
Definition response_switches (ds : list directive) : list bool := flat_map (fun d => match d with DResBody b => [b] | _ => [] end) ds.

(** The phase from which on a word is known. *)
Definition known_from (tk : vtok) : Z :=
  match tk with
  | KRemoteAddr => 1
  | KArgs | KArgsNames | KArgsPost | KArgsPostNames | KRequestBody => 3
  | KResponseStatus | KResponseProtocol | KResponseContentLength | KResponseContentType | KResponseHeaders | KResponseHeadersNames => 4
  | KResponseBody => 5
  | _ => 2
  end.
(** No rule looks at what is not known yet. *)
Definition timely (ds : list directive) : Prop :=
  forall w c w' v, chain_in ds (w :: c) -> In w' (w :: c) -> In v (w_vars w') -> known_from (pv_tok v) <= pas_phase (w_acts w).

Section Answered.
Variables (O : oracles) (ds : list directive) (rq : request) (fields : list (bs * bs)) (body : list bs) (rp : response) (port : bs).
Definition stands_in (cs : list call) (tk : vtok) (l : list bs) : Prop :=
  shown O rq fields body cs tk l \/ told O (last (response_switches ds) false) rp cs tk l.
(** A rule as written holds of the exchange. *)
Definition holds_in (w : written) : Prop :=
  exists tk c l v o, mentions tk c (w_vars w) /\ stands_in (calls_of tk c (w_vars w)) tk l /\
    (if c then decimal v (Z.of_nat (length l)) else In v l) /\ op_means O (w_op w) o /\
    (if po_not (w_op w) then ~ satisfies O o (changed O (pas_trans (w_acts w)) v) else satisfies O o (changed O (pas_trans (w_acts w)) v)).
(** The chains of a phase in order, those that hold act; and phase after phase. *)
Definition phase_answers (p : Z) (y y' : reply) : Prop :=
  exists cs, chains ds cs /\ reacts (Forall holds_in) chain_takes (q_ip rq) port p 0 (List.filter (in_phase p) cs) y y'.
Inductive phases_answer : list Z -> reply -> reply -> Prop :=
| ph_none : forall y, phases_answer [] y y
| ph_next : forall p ps y y1 y2, phases_answer ps y y1 -> phase_answers p y1 y2 -> phases_answer (ps ++ [p]) y y2.
End Answered.

(** The calls that report an exchange, both bodies in pieces. *)
Definition exchange_calls (rq : request) (port ip2 port2 : bs) (u : url) (pieces : list bs) (rp : response) (pieces' : list bs) : list op :=
  request_calls rq port ip2 port2 u pieces ++
  [OpRequestBody; OpResponseHeaders (r_code rp) (r_proto rp) (r_header rp)] ++ map (fun x => OpAppendResponseBody x NoFault) pieces' ++ [OpResponseBody; OpLogging].
(** The phases the calls have gone through. *)
Definition phases_of (os : list op) : list Z := flat_map (fun o => match op_phase o with Some p => [p] | None => [] end) os.
