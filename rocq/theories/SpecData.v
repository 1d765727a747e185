(** Specification vocabulary: the data the calls on a transaction have brought so far. *)
From Verif Require Import Base Buffer Types Engine SpecText SpecVars.

(** The last call of a kind. *)
Definition latest {A} (kind : op -> option A) (os : list op) (x : A) : Prop :=
  exists os1 o os2, os = os1 ++ o :: os2 /\ kind o = Some x /\ forall o', In o' os2 -> kind o' = None.
Definition never {A} (kind : op -> option A) (os : list op) : Prop := forall o, In o os -> kind o = None.
(** The last value of a kind, or a default if there was no such call. *)
Definition current {A} (kind : op -> option A) (default : A) (os : list op) (x : A) : Prop :=
  latest kind os x \/ (never kind os /\ x = default).

Definition connection (o : op) : option (bs * bs * bs * bs) :=
  match o with OpConnection a b c d => Some (a, b, c, d) | _ => None end.
Definition request_line (o : op) : option (option url * bs * bs) :=
  match o with OpRequestURL u m p => Some (u, m, p) | _ => None end.
Definition request_header (o : op) : option vals :=
  match o with OpRequestHeader h => Some h | _ => None end.
Definition response_line (o : op) : option (Z * bs * vals) :=
  match o with OpResponseHeaders c p h => Some (c, p, h) | _ => None end.

(** The first value of a header, empty if there is none. *)
Inductive first_value (k : bs) (h : vals) : bs -> Prop :=
| fv_some : forall v vs h1 h2, h = h1 ++ (k, v :: vs) :: h2 -> ~ In k (map fst h1) -> first_value k h v
| fv_empty : forall h1 h2, h = h1 ++ (k, []) :: h2 -> ~ In k (map fst h1) -> first_value k h []
| fv_none : ~ In k (map fst h) -> first_value k h [].

Definition no_connection : bs * bs * bs * bs := ([], [], [], []).
Definition no_request : option url * bs * bs := (None, [], []).
Definition no_response : Z * bs * vals := (0, [], []).

(** The part of a URL a client sends in the request line. *)
Definition relative (u : url) : url := Url [] [] None [] (u_path u) (u_rawquery u) (u_rest u).

(** What each variable other than the bodies yields after the calls [os]. *)
Inductive scalar_value (O : oracles) (os : list op) : scalar -> list bs -> Prop :=
| sv_addr : forall a b c d, current connection no_connection os (a, b, c, d) -> scalar_value O os SRemoteAddr [a]
| sv_method : forall u m p, current request_line no_request os (u, m, p) -> scalar_value O os SRequestMethod [m]
| sv_protocol : forall u m p, current request_line no_request os (u, m, p) -> scalar_value O os SRequestProtocol [p]
| sv_query : forall u m p, current request_line no_request os (Some u, m, p) -> scalar_value O os SQueryString [u_rawquery u]
| sv_filename : forall u m p, current request_line no_request os (Some u, m, p) -> scalar_value O os SRequestFilename [u_path u]
| sv_basename : forall u m p x, current request_line no_request os (Some u, m, p) -> last_segment (u_path u) x ->
    scalar_value O os SRequestBasename [x]
| sv_uri : forall u m p, current request_line no_request os (Some u, m, p) -> scalar_value O os SRequestUri [url_string O (relative u)]
| sv_no_url : forall m p s, current request_line no_request os (None, m, p) ->
    In s [SQueryString; SRequestFilename; SRequestBasename; SRequestUri] -> scalar_value O os s []
| sv_status : forall c p h n, current response_line no_response os (c, p, h) -> decimal n c -> scalar_value O os SResponseStatus [n]
| sv_rprotocol : forall c p h, current response_line no_response os (c, p, h) -> scalar_value O os SResponseProtocol [p]
| sv_length : forall c p h l, current response_line no_response os (c, p, h) -> first_value (B "Content-Length") h l -> l <> [] ->
    scalar_value O os SResponseContentLength [l]
| sv_no_length : forall c p h, current response_line no_response os (c, p, h) -> first_value (B "Content-Length") h [] ->
    scalar_value O os SResponseContentLength [B "0"]
| sv_type : forall c p h l, current response_line no_response os (c, p, h) -> first_value (B "Content-Type") h l -> l <> [] ->
    scalar_value O os SResponseContentType [fst (media_type O l)]
| sv_no_type : forall c p h, current response_line no_response os (c, p, h) -> first_value (B "Content-Type") h [] ->
    scalar_value O os SResponseContentType [fst (media_type O (B "application/octet-stream"))].

(** What a collection holds after the calls [os]; the arguments of a query and the
    cookies of a header are C17 and C18. *)
Inductive header_entries (os : list op) : coll -> vals -> Prop :=
| he_req : forall h, current request_header [] os h -> header_entries os CRequestHeaders h
| he_reqn : forall h u m p, current request_header [] os h -> current request_line no_request os (Some u, m, p) ->
    header_entries os CRequestHeadersNames h
| he_reqn0 : forall m p, current request_line no_request os (None, m, p) -> header_entries os CRequestHeadersNames []
| he_res : forall c p h, current response_line no_response os (c, p, h) -> header_entries os CResponseHeaders h
| he_resn : forall c p h, current response_line no_response os (c, p, h) -> header_entries os CResponseHeadersNames h.

(** The pieces of request body given by the calls. *)
Fixpoint request_writes (os : list op) : list bop :=
  match os with
  | [] => []
  | OpAppendRequestBody p ft :: os' => BWrite p ft :: request_writes os'
  | _ :: os' => request_writes os'
  end.
(** The request's form body may be inspected: a body was accepted for a method that
    has one, and the latest headers say it is a form. *)
Definition body_methods : list bs := [B "POST"; B "PUT"; B "PATCH"].
Definition form_body (O : oracles) (e : engine) (os : list op) (body : bs) : Prop :=
  e_reqaccess e = true /\ body <> [] /\
  (exists u m p, current request_line no_request os (u, m, p) /\ In m body_methods) /\
  (exists h ct, current request_header [] os h /\ first_value (B "Content-Type") h ct /\ ct <> [] /\
     fst (media_type O ct) = B "application/x-www-form-urlencoded").
