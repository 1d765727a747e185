(** Specification vocabulary: everything a transaction answers, whatever its rules, its
    bodies and the calls on it; also when it breaks down.  Uses the types of the
    model, and of its functions only [buf_write], whose account is C48 (SpecTape.v). *)
From Verif Require Import Base Buffer Types SpecText SpecVars SpecQuery SpecRules RuleFacts SpecTxn Transaction Engine SpecData SpecAnswer SpecAccount.

(** ** What the calls have brought, bodies aside *)
Record facts := Facts {
  x_ip : bs; x_port : bs; x_url : option url; x_method : bs; x_proto : bs; x_head : vals;
  x_code : Z; x_rproto : bs; x_rhead : vals
}.
Definition no_facts : facts := Facts [] [] None [] [] [] 0 [] [].
Definition learns (o : op) (x : facts) : facts :=
  match o with
  | OpConnection a b _ _ => Facts a b (x_url x) (x_method x) (x_proto x) (x_head x) (x_code x) (x_rproto x) (x_rhead x)
  | OpRequestURL u m p => Facts (x_ip x) (x_port x) u m p (x_head x) (x_code x) (x_rproto x) (x_rhead x)
  | OpRequestHeader h => Facts (x_ip x) (x_port x) (x_url x) (x_method x) (x_proto x) h (x_code x) (x_rproto x) (x_rhead x)
  | OpResponseHeaders c p h => Facts (x_ip x) (x_port x) (x_url x) (x_method x) (x_proto x) (x_head x) c p h
  | _ => x
  end.

(** ** The bodies, and what was found in the request's when it was read as a form *)
(** Pairs in the order of the text; or names with their values. *)
Inductive source := Pairs (ps : list (bs * bs)) | Entries (m : vals).
(** Something, nothing, or a form that is not there. *)
Inductive found := Some_of (s : source) | Nothing | Missing.
(** A form is read once: afterwards it is what was found then, for each of the two
    types of body. *)
Record bodies := Bodies { n_form : option found; n_multi : option found; n_req : buffer; n_res : buffer }.
Definition new_bodies (e : engine) : bodies :=
  Bodies None None (new_buffer (e_reqmem e) (e_reqlimit e)) (new_buffer (e_reslimit e) (e_reslimit e)).
Definition form_found (x : found) (n : bodies) : bodies := Bodies (Some x) (n_multi n) (n_req n) (n_res n).
Definition multi_found (x : found) (n : bodies) : bodies := Bodies (n_form n) (Some x) (n_req n) (n_res n).
Definition req_body (b : buffer) (n : bodies) : bodies := Bodies (n_form n) (n_multi n) b (n_res n).
Definition res_body (b : buffer) (n : bodies) : bodies := Bodies (n_form n) (n_multi n) (n_req n) b.
(** Reading leaves the file of a spilled body at a position. *)
Definition left_at (q : nat) (b : buffer) : buffer :=
  Buffer (b_len b) (b_memlimit b) (b_filelimit b) (b_mem b) (option_map (fun f => TFile (f_data f) q) (b_file b)) (b_readed b).

Definition begins (p s : bs) : Prop := exists r, s = p ++ r.
Definition urlencoded : bs := B "application/x-www-form-urlencoded".
(** Media type and boundary of a request. *)
Inductive typed (O : oracles) (x : facts) : bs -> bs -> Prop :=
| ty_given : forall ct a b, first_value (B "Content-Type") (x_head x) ct -> ct <> [] -> media_type O ct = (a, b) -> typed O x a b
| ty_none : forall a b, first_value (B "Content-Type") (x_head x) [] -> media_type O (B "application/octet-stream") = (a, b) -> typed O x a b.
(** The body of a request is looked at. *)
Definition inspected (e : engine) (x : facts) (n : bodies) : Prop :=
  In (x_method x) body_methods /\ e_reqaccess e = true /\ b_len (n_req n) <> 0.
(** Why an evaluation ends the transaction: the status and the words of the log. *)
Definition ending : Type := Z * bs.
Definition out_of_memory (code : Z) : ending := (code, B "out of memory limit").

Section Looking.
Variables (O : oracles) (e : engine) (x : facts).
(** [opens n y n' l]: looking for a form one finds [y], and the transaction ends as [l] says. *)
Inductive opens (n : bodies) : found -> bodies -> list ending -> Prop :=
| op_not : ~ inspected e x n -> opens n Nothing n []
| op_other : forall a b, inspected e x n -> typed O x a b -> ~ begins urlencoded a -> ~ begins (B "multipart/") a -> opens n Nothing n []
| op_form_again : forall a b y, inspected e x n -> typed O x a b -> begins urlencoded a -> n_form n = Some y -> opens n y n []
| op_form_large : forall a b, inspected e x n -> typed O x a b -> begins urlencoded a -> n_form n = None -> b_file (n_req n) <> None ->
    opens n Nothing (form_found Nothing (req_body (left_at 0 (n_req n)) n)) [out_of_memory 413]
| op_form : forall a b ps, inspected e x n -> typed O x a b -> begins urlencoded a -> n_form n = None -> b_file (n_req n) = None ->
    query (semi_sep O) ps 0 (b_mem (n_req n)) -> opens n (Some_of (Pairs ps)) (form_found (Some_of (Pairs ps)) n) []
| op_form_bad : forall a b ps k, inspected e x n -> typed O x a b -> begins urlencoded a -> n_form n = None -> b_file (n_req n) = None ->
    query (semi_sep O) ps (S k) (b_mem (n_req n)) -> opens n Nothing (form_found (Some_of (Pairs ps)) n) []
| op_multi_again : forall a b y, inspected e x n -> typed O x a b -> begins (B "multipart/") a -> n_multi n = Some y -> opens n y n []
| op_multi : forall a b m q, inspected e x n -> typed O x a b -> begins (B "multipart/") a -> n_multi n = None ->
    multipart O (n_req n) b (e_reqmem e) = (MpOk m, q) ->
    opens n (Some_of (Entries m)) (multi_found (Some_of (Entries m)) (req_body (left_at q (n_req n)) n)) []
| op_multi_large : forall a b q, inspected e x n -> typed O x a b -> begins (B "multipart/") a -> n_multi n = None ->
    multipart O (n_req n) b (e_reqmem e) = (MpTooLarge, q) ->
    opens n Nothing (multi_found Nothing (req_body (left_at q (n_req n)) n)) [(413, B "multipart: message too large")]
| op_multi_bad : forall a b q, inspected e x n -> typed O x a b -> begins (B "multipart/") a -> n_multi n = None ->
    multipart O (n_req n) b (e_reqmem e) = (MpErr, q) ->
    opens n Nothing (multi_found Missing (req_body (left_at q (n_req n)) n)) [].

(** ** What each variable shows *)
Definition picked (f : filter) (k : bs) : Prop :=
  (f_inc f = [] \/ In k (f_inc f)) /\ (f_incre f = [] \/ exists r, In r (f_incre f) /\ rx_match O r k = true) /\
  ~ In k (f_exc f) /\ ~ exists r, In r (f_excre f) /\ rx_match O r k = true.
(** The values, or the names ([nm]), of what is picked from a source. *)
Inductive picks (f : filter) : source -> bool -> list bs -> Prop :=
| pk_values : forall ps kept l, keeps (fun p => picked f (fst p)) ps kept -> by_name kept l -> picks f (Pairs ps) false l
| pk_names : forall ps kept l, keeps (fun p => picked f (fst p)) ps kept -> names_once kept l -> picks f (Pairs ps) true l
| pk_entries : forall m kept kept' (nm : bool), keeps (fun p => picked f (fst p)) m kept -> Permutation kept kept' ->
    picks f (Entries m) nm (if nm then map fst kept' else flat_map snd kept').
Definition lines_of (k : bs) (h : vals) (l : list bs) : Prop :=
  (exists h1 h2, h = h1 ++ (k, l) :: h2 /\ ~ In k (map fst h1)) \/ (~ In k (map fst h) /\ l = []).
Inductive holds : coll -> source -> bool -> Prop :=
| ho_args : forall u ps k, x_url x = Some u -> query (semi_sep O) ps k (u_rawquery u) -> holds CArgsGet (Pairs ps) false
| ho_args_names : forall u ps k, x_url x = Some u -> query (semi_sep O) ps k (u_rawquery u) -> holds CArgsGetNames (Pairs ps) true
| ho_no_args : x_url x = None -> holds CArgsGet (Entries []) false
| ho_no_args_names : x_url x = None -> holds CArgsGetNames (Entries []) true
| ho_cookies : forall ps l, lines_of (B "Cookie") (x_head x) l -> cookie_lines ps l -> holds CRequestCookies (Pairs ps) false
| ho_cookies_names : forall ps l, lines_of (B "Cookie") (x_head x) l -> cookie_lines ps l -> holds CRequestCookiesNames (Pairs ps) true
| ho_headers : holds CRequestHeaders (Entries (x_head x)) false
| ho_headers_names : x_url x <> None -> holds CRequestHeadersNames (Entries (x_head x)) true
| ho_no_headers_names : x_url x = None -> holds CRequestHeadersNames (Entries []) true
| ho_answers : holds CResponseHeaders (Entries (x_rhead x)) false
| ho_answers_names : holds CResponseHeadersNames (Entries (x_rhead x)) true.
Inductive tells_scalar : scalar -> list bs -> Prop :=
| ts_addr : tells_scalar SRemoteAddr [x_ip x]
| ts_method : tells_scalar SRequestMethod [x_method x]
| ts_proto : tells_scalar SRequestProtocol [x_proto x]
| ts_query : forall u, x_url x = Some u -> tells_scalar SQueryString [u_rawquery u]
| ts_filename : forall u, x_url x = Some u -> tells_scalar SRequestFilename [u_path u]
| ts_basename : forall u y, x_url x = Some u -> last_segment (u_path u) y -> tells_scalar SRequestBasename [y]
| ts_uri : forall u, x_url x = Some u -> tells_scalar SRequestUri [url_string O (relative u)]
| ts_no_url : forall s, x_url x = None -> In s [SQueryString; SRequestFilename; SRequestBasename; SRequestUri] -> tells_scalar s []
| ts_status : forall y, decimal y (x_code x) -> tells_scalar SResponseStatus [y]
| ts_rproto : tells_scalar SResponseProtocol [x_rproto x]
| ts_length : forall y, first_value (B "Content-Length") (x_rhead x) y -> y <> [] -> tells_scalar SResponseContentLength [y]
| ts_no_length : first_value (B "Content-Length") (x_rhead x) [] -> tells_scalar SResponseContentLength [B "0"]
| ts_type : forall y, first_value (B "Content-Type") (x_rhead x) y -> y <> [] -> tells_scalar SResponseContentType [fst (media_type O y)]
| ts_no_type : first_value (B "Content-Type") (x_rhead x) [] -> tells_scalar SResponseContentType [fst (media_type O (B "application/octet-stream"))].
(** The text of the request's body is only shown for forms. *)
Definition shows_text (n : bodies) : Prop :=
  inspected e x n /\ exists ct, first_value (B "Content-Type") (x_head x) ct /\ ct <> [] /\ fst (media_type O ct) = urlencoded.
Definition shows_answer (n : bodies) : Prop := e_resaccess e = true /\ b_len (n_res n) <> 0.

(** [looks v n l n' en]: the variable [v] shows the values [l]. *)
Inductive looks : variable -> bodies -> list bs -> bodies -> list ending -> Prop :=
| lk_held : forall c f s nm n l, holds c s nm -> picks f s nm l -> looks (VColl c f) n l n []
| lk_post : forall f n s l n' en, opens n (Some_of s) n' en -> picks f s false l -> looks (VColl CArgsPost f) n l n' en
| lk_no_post : forall f n y n' en, opens n y n' en -> y = Nothing \/ y = Missing -> looks (VColl CArgsPost f) n [] n' en
| lk_post_names : forall f n s l n' en, opens n (Some_of s) n' en -> picks f s true l -> looks (VColl CArgsPostNames f) n l n' en
| lk_no_post_names : forall f n n' en, opens n Nothing n' en -> looks (VColl CArgsPostNames f) n [] n' en
| lk_args : forall g f n l1 n1 en1 l2 n2 en2, looks (VColl CArgsGet g) n l1 n1 en1 -> looks (VColl CArgsPost f) n1 l2 n2 en2 ->
    looks (VArgs g f) n (l1 ++ l2) n2 (en1 ++ en2)
| lk_args_names : forall g f n l1 n1 en1 l2 n2 en2, looks (VColl CArgsGetNames g) n l1 n1 en1 -> looks (VColl CArgsPostNames f) n1 l2 n2 en2 ->
    looks (VArgsNames g f) n (l1 ++ l2) n2 (en1 ++ en2)
| lk_count : forall v n l n' en y, looks v n l n' en -> decimal y (Z.of_nat (length l)) -> looks (VCount v) n [y] n' en
| lk_scalar : forall s n l, tells_scalar s l -> looks (VScalar s) n l n []
| lk_no_body : forall n, ~ shows_text n -> looks (VScalar SRequestBody) n [] n []
| lk_body : forall n, shows_text n -> b_file (n_req n) = None -> looks (VScalar SRequestBody) n [b_mem (n_req n)] n []
| lk_body_large : forall n, shows_text n -> b_file (n_req n) <> None ->
    looks (VScalar SRequestBody) n [] (req_body (left_at 0 (n_req n)) n) [out_of_memory 413]
| lk_no_answer : forall n, ~ shows_answer n -> looks (VScalar SResponseBody) n [] n []
| lk_answer : forall n, shows_answer n -> b_file (n_res n) = None -> looks (VScalar SResponseBody) n [b_mem (n_res n)] n []
| lk_answer_large : forall n, shows_answer n -> b_file (n_res n) <> None ->
    looks (VScalar SResponseBody) n [] (res_body (left_at 0 (n_res n)) n) [out_of_memory 500].
(** Asking for the names of a form that is not there breaks the transaction. *)
Inductive look_breaks : variable -> bodies -> Prop :=
| lb_names : forall f n n' en, opens n Missing n' en -> look_breaks (VColl CArgsPostNames f) n
| lb_args_names : forall g f n n' en, opens n Missing n' en -> look_breaks (VArgsNames g f) n
| lb_count : forall v n, look_breaks v n -> look_breaks (VCount v) n.
(** Variables one after the other. *)
Inductive looks_all : list variable -> bodies -> list bs -> bodies -> list ending -> Prop :=
| la_nil : forall n, looks_all [] n [] n []
| la_cons : forall v vs n l1 n1 en1 l2 n2 en2, looks v n l1 n1 en1 -> looks_all vs n1 l2 n2 en2 ->
    looks_all (v :: vs) n (l1 ++ l2) n2 (en1 ++ en2).
Inductive all_breaks : list variable -> bodies -> Prop :=
| ab_here : forall v vs n, look_breaks v n -> all_breaks (v :: vs) n
| ab_later : forall v vs n l n1 en, looks v n l n1 en -> all_breaks vs n1 -> all_breaks (v :: vs) n.

(** ** What a rule makes of it *)
Inductive verdict := Hit | Miss.
(** A rule hits if some value of its variables does; it misses whenever looking at them ended the transaction. *)
Inductive judges (r : rule) (n : bodies) : verdict -> bodies -> list ending -> Prop :=
| jg_hit : forall l n' v, looks_all (r_vars r) n l n' [] -> In v l -> hit O r (transformed O r v) -> judges r n Hit n' []
| jg_miss : forall l n', looks_all (r_vars r) n l n' [] -> (forall v, In v l -> r_op r <> None /\ ~ hit O r (transformed O r v)) -> judges r n Miss n' []
| jg_end : forall l n' en, looks_all (r_vars r) n l n' en -> en <> [] -> judges r n Miss n' en.
(** A rule without an operator breaks the transaction if there is a value to ask about. *)
Inductive judge_breaks (r : rule) (n : bodies) : Prop :=
| jb_look : all_breaks (r_vars r) n -> judge_breaks r n
| jb_operator : forall l n', looks_all (r_vars r) n l n' [] -> l <> [] -> r_op r = None -> judge_breaks r n.
(** The rules of a chain, up to the first that misses. *)
Inductive judges_chain : list rule -> bodies -> verdict -> bodies -> list ending -> Prop :=
| jc_nil : forall n, judges_chain [] n Hit n []
| jc_miss : forall r l n n' en, judges r n Miss n' en -> judges_chain (r :: l) n Miss n' en
| jc_hit : forall r l n n1 v n2 en, judges r n Hit n1 [] -> judges_chain l n1 v n2 en -> judges_chain (r :: l) n v n2 en.
Inductive chain_breaks : list rule -> bodies -> Prop :=
| cb_here : forall r l n, judge_breaks r n -> chain_breaks (r :: l) n
| cb_later : forall r l n n1, judges r n Hit n1 [] -> chain_breaks l n1 -> chain_breaks (r :: l) n.

(** ** A phase *)
(** Where a transaction stands, whether it has ended, and its bodies. *)
Record standing := Standing { s_acc : account; s_over : bool; s_bodies : bodies }.
Definition ends (k : account) (en : ending) : account :=
  Account (k_phase k) (k_rule k) (k_next k)
    (Reply (y_next (k_reply k)) (fst en) true
       (y_lines (k_reply k) ++ [B "[client " ++ x_ip x ++ B ":" ++ x_port x ++ B "] (phase " ++ itoa (k_phase k) ++ B ") abort process with error " ++ snd en])).
Variables (rs : ruleset) (p : Z).
(** The turn of a rule: if its chain hits, the actions; if looking ended the transaction, that. *)
Inductive turn (r : rule) : standing -> standing -> Prop :=
| tu_hit : forall k n n' acts, judges_chain (r :: r_subs r) n Hit n' [] -> chain_actions (rs_default rs) (r :: r_subs r) acts ->
    turn r (Standing k false n) (Standing (fold_left (tells (x_ip x) (x_port x) (length (phase_rules rs p))) acts k) false n')
| tu_miss : forall k n n' en, judges_chain (r :: r_subs r) n Miss n' en ->
    turn r (Standing k false n) (Standing (fold_left ends en k) (match en with [] => false | _ => true end) n').
Definition arrives_at (i : nat) (s : standing) : standing := Standing (arrive p (phase_rules rs p) i (s_acc s)) (s_over s) (s_bodies s).
Definition moves (s : standing) (i : nat) (r : rule) : Prop :=
  k_phase (s_acc s) = p /\ k_next (s_acc s) = Some i /\ nth_error (phase_rules rs p) i = Some r.
Inductive runs : standing -> standing -> Prop :=
| ru_away : forall s, k_phase (s_acc s) <> p -> runs s s
| ru_end : forall s, k_next (s_acc s) = None -> runs s s
| ru_none : forall s i, k_next (s_acc s) = Some i -> nth_error (phase_rules rs p) i = None -> runs s s
| ru_stop : forall s i r s1, moves s i r -> turn r (arrives_at i s) s1 -> y_denied (k_reply (s_acc s1)) = true -> runs s s1
| ru_on : forall s i r s1 s', moves s i r -> turn r (arrives_at i s) s1 -> y_denied (k_reply (s_acc s1)) = false -> runs s1 s' -> runs s s'.
Inductive run_breaks : standing -> Prop :=
| rb_here : forall s i r, moves s i r -> chain_breaks (r :: r_subs r) (s_bodies s) -> run_breaks s
| rb_later : forall s i r s1, moves s i r -> turn r (arrives_at i s) s1 -> y_denied (k_reply (s_acc s1)) = false -> run_breaks s1 -> run_breaks s.
End Looking.

(** ** A history of calls *)
Definition enters (p : Z) (s : standing) : standing := Standing (at_phase p (s_acc s)) (s_over s) (s_bodies s).
Definition with_bodies (s : standing) (n : bodies) : standing := Standing (s_acc s) (s_over s) n.
Section History.
Variables (O : oracles) (e : engine) (rs : ruleset).
(** One call: what it leaves and what it answers; [x] are the facts, those it brings included. *)
Inductive goes (x : facts) : op -> standing -> standing -> obs -> Prop :=
| go_phase : forall o p s s', op_phase o = Some p -> k_phase (s_acc s) < p -> s_over s = false ->
    runs O e x rs p (enters p s) s' -> goes x o s s' ObsNone
| go_over : forall o p s, op_phase o = Some p -> k_phase (s_acc s) < p -> s_over s = true -> goes x o s (enters p s) ObsNone
| go_late : forall o p s, op_phase o = Some p -> p <= k_phase (s_acc s) -> goes x o s s ObsNone
| go_url : forall u m pr s, goes x (OpRequestURL u m pr) s s ObsNone
| go_request : forall d ft s b k er, buf_write ft d (n_req (s_bodies s)) = Ret (b, k, er) ->
    goes x (OpAppendRequestBody d ft) s (with_bodies s (req_body b (s_bodies s))) (ObsErr er)
| go_response : forall d ft s b k er, buf_write ft d (n_res (s_bodies s)) = Ret (b, k, er) ->
    goes x (OpAppendResponseBody d ft) s (with_bodies s (res_body b (s_bodies s))) (ObsErr er)
| go_abort : forall c s, goes x (OpAbortWithStatus c) s (Standing (ended (s_acc s) c) true (s_bodies s)) ObsNone
| go_result : forall s, goes x OpResult s
    (Standing (if s_over s then s_acc s else fetched (s_acc s)) (s_over s) (s_bodies s)) (ObsResult (answer (k_reply (s_acc s)))).
(** A call in which the transaction breaks down. *)
Inductive goes_wrong (x : facts) : op -> standing -> Prop :=
| gw_phase : forall o p s, op_phase o = Some p -> k_phase (s_acc s) < p -> s_over s = false ->
    run_breaks O e x rs p (enters p s) -> goes_wrong x o s
| gw_request : forall d ft s, buf_write ft d (n_req (s_bodies s)) = Panic -> goes_wrong x (OpAppendRequestBody d ft) s
| gw_response : forall d ft s, buf_write ft d (n_res (s_bodies s)) = Panic -> goes_wrong x (OpAppendResponseBody d ft) s.
(** Calls from a standing on: all answers; or a call that goes wrong. *)
Inductive chronicle : facts -> standing -> list op -> list obs -> Prop :=
| ch_nil : forall x s, chronicle x s [] []
| ch_cons : forall x s o s1 b os l, goes (learns o x) o s s1 b -> chronicle (learns o x) s1 os l -> chronicle x s (o :: os) (b :: l).
Inductive breakdown : facts -> standing -> list op -> Prop :=
| bd_here : forall x s o os, goes_wrong (learns o x) o s -> breakdown x s (o :: os)
| bd_later : forall x s o s1 b os, goes (learns o x) o s s1 b -> breakdown (learns o x) s1 os -> breakdown x s (o :: os).
End History.
Definition start (e : engine) : standing := Standing (Account 0 (-1) (Some 0%nat) silent) false (new_bodies e).
