(** Specification vocabulary: requests whose bodies can be read. *)
From Verif Require Import Base Buffer SpecBuffer Types Transaction Variables Rules Engine SpecText SpecVars SpecRules RuleFacts SpecTxn TxnFacts SpecData SpecGate.

(** The rules of phase [p] neither skip nor pass nor allow, not by way of block either. *)
Definition plain_actions (rs : ruleset) (p : Z) : Prop :=
  forall a, usable rs p a -> a <> ASkip /\ a <> APass /\ ~ leads_away a.

(** Every way the variables read the bodies succeeds in state [t]: the request body
    parses without an error (or is not parsed), and neither body has spilled
    when it is read as a string. *)
Definition readable (O : oracles) (e : engine) (t : txn) : Prop :=
  (exists t1 r, request_body_parse O e t = Ret (t1, r) /\ t_bodyerr t1 = false /\ t_abort t1 = false /\ r <> Some (BMultipart, IForm None)) /\
  t_abort (fst (fetch_request_body O e t)) = false /\
  t_abort (fst (fetch_response_body e t)) = false.

(** The calls [os] brought a body of a multipart type with boundary [bd]. *)
Definition multipart_body (O : oracles) (e : engine) (os : list op) (bd body : bs) : Prop :=
  e_reqaccess e = true /\ body <> [] /\
  (exists u m p, current request_line no_request os (u, m, p) /\ In m body_methods) /\
  (exists h ct mt, current request_header [] os h /\ first_value (B "Content-Type") h ct /\ ct <> [] /\
     media_type O ct = (B "multipart/" ++ mt, bd)).
(** The library reads the fields [m] in it when it is held in memory. *)
Definition multipart_fields (O : oracles) (e : engine) (bd body : bs) (m : vals) : Prop :=
  forall b, b_readed b = false -> b_file b = None -> b_mem b = body -> fst (multipart O b bd (e_reqmem e)) = MpOk m.
(** The calls [os] brought a request body that can be read: none is looked at; or it
    is a form held in memory without a malformed field; or a multipart form held in memory and readable; or it is
    of a type that is not parsed. *)
Inductive orderly (O : oracles) (e : engine) (os : list op) : Prop :=
| or_none : (forall u m p, current request_line no_request os (u, m, p) -> e_reqaccess e = true -> In m body_methods ->
      stream (e_reqlimit e) (request_writes os) = []) -> orderly O e os
| or_form : forall ps body, body = stream (e_reqlimit e) (request_writes os) -> form_body O e os body ->
    Z.of_nat (length body) <= e_reqmem e -> form_pairs ps body -> orderly O e os
| or_multipart : forall bd body m, body = stream (e_reqlimit e) (request_writes os) -> multipart_body O e os bd body ->
    Z.of_nat (length body) <= e_reqmem e -> multipart_fields O e bd body m -> orderly O e os
| or_other : forall h ct mt, current request_header [] os h -> first_value (B "Content-Type") h ct ->
    mt = fst (media_type O (match ct with [] => B "application/octet-stream" | _ => ct end)) ->
    (forall s, mt <> B "application/x-www-form-urlencoded" ++ s) -> (forall s, mt <> B "multipart/" ++ s) -> orderly O e os.

(** Calls that change neither the request nor its body. *)
Definition after_request (o : op) : Prop :=
  match o with OpRequestBody | OpResponseHeaders _ _ _ | OpAppendResponseBody _ _ | OpResponseBody | OpLogging => True | _ => False end.
