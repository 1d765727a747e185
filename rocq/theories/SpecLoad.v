(** Specification vocabulary for loading: which directives can be loaded, how rules
    are grouped into chains, what an engine is configured to, and what a list of
    parsed variables stands for. *)
From Verif Require Import Base GoStrings Buffer Types Variables SpecText SpecVars Scanner Loader SpecParse.

(** ** What can be loaded *)
(** Variables made of named values; selectors on the others mean nothing. *)
Definition named_values (t : vtok) : Prop :=
  In t [KArgs; KArgsGet; KArgsGetNames; KArgsPost; KArgsPostNames; KArgsNames; KRequestCookies; KRequestCookiesNames;
        KRequestHeaders; KRequestHeadersNames; KResponseHeaders; KResponseHeadersNames].
Definition loads_var (O : oracles) (v : pvar) : Prop :=
  pv_tok v <> KXML /\ (named_values (pv_tok v) -> forall p, pattern (pv_index v) p -> rx_ok O p = true).
Definition loads_op (O : oracles) (o : poper) : Prop :=
  match po_tok o with KRx => rx_ok O (po_arg o) = true | _ => exists z, padded_int (po_arg o) z end.
Definition loads_act (a : paction) : Prop :=
  In (pa_tok a) [KDeny; KSkip; KLog; KBlock; KAllow; KTag; KMsg; KRev; KVer] \/
  (pa_tok a = KStatus /\ exists x n, unquoted (pa_arg a) x /\ denotes x n /\ int64 n).
Definition loadable (O : oracles) (d : directive) : Prop :=
  match d with
  | DRule vs o a => Forall (loads_var O) vs /\ loads_op O o /\ Forall loads_act (pas_acts a)
  | _ => True
  end.

(** ** Chains *)
Definition no_rule (d : dire) : Prop := match d with IRule _ => False | _ => True end.
(** What follows a rule flagged chain: the rules up to the first unflagged one (or
    the end), the other directives met on the way, and the rest. *)
Inductive followers : list (dire * bool) -> list rule -> list dire -> list (dire * bool) -> Prop :=
| fo_end : followers [] [] [] []
| fo_last : forall r l, followers ((IRule r, false) :: l) [r] [] l
| fo_more : forall r l subs oth rest, followers l subs oth rest -> followers ((IRule r, true) :: l) (r :: subs) oth rest
| fo_other : forall d c l subs oth rest, no_rule d -> followers l subs oth rest -> followers ((d, c) :: l) subs (d :: oth) rest.
Definition with_followers (r : rule) (subs : list rule) : rule :=
  Rule (r_id r) (r_phase r) (r_vars r) (r_trans r) (r_op r) (r_acts r) (r_not r) (r_meta r) (r_subs r ++ subs).
(** A rule without its followers. *)
Definition alone (r : rule) : rule :=
  Rule (r_id r) (r_phase r) (r_vars r) (r_trans r) (r_op r) (r_acts r) (r_not r) (r_meta r) [].
Inductive assembled : list (dire * bool) -> list dire -> Prop :=
| as_nil : assembled [] []
| as_other : forall d c l l', no_rule d -> assembled l l' -> assembled ((d, c) :: l) (d :: l')
| as_rule : forall r l l', assembled l l' -> assembled ((IRule r, false) :: l) (IRule r :: l')
| as_chain : forall r l subs oth rest l', followers l subs oth rest -> assembled rest l' ->
    assembled ((IRule r, true) :: l) (IRule (with_followers r subs) :: oth ++ l').
(** The directives as loaded one by one; each takes two map iterations. *)
Inductive loaded (O : oracles) : nat -> list directive -> list (dire * bool) -> Prop :=
| ld_nil : forall n, loaded O n [] []
| ld_cons : forall n d ds x xs, dire_factory O n d = Some x -> loaded O (S (S n)) ds xs -> loaded O n (d :: ds) (x :: xs).

(** ** Configuration *)
Definition rules_of (ds : list dire) : list rule := flat_map (fun d => match d with IRule r => [r] | _ => [] end) ds.
Definition req_flags (ds : list dire) : list bool := flat_map (fun d => match d with IReqBody b => [b] | _ => [] end) ds.
Definition res_flags (ds : list dire) : list bool := flat_map (fun d => match d with IResBody b => [b] | _ => [] end) ds.
(** On, Off, DetectionOnly as (enabled, detection only). *)
Definition mode_bits (v : Z) : list (bool * bool) :=
  if v =? 1 then [(true, false)] else if v =? 0 then [(false, false)] else if v =? 2 then [(false, true)] else [].
Definition modes (ds : list dire) : list (bool * bool) := flat_map (fun d => match d with IRuleEng v => mode_bits v | _ => [] end) ds.

(** ** Lists of variables *)
(** The selector calls the items with one token and count mark make, in order. *)
Definition calls_of (t : vtok) (count : bool) (vs : list pvar) : list call :=
  flat_map (fun v => if vtok_eq_dec (pv_tok v) t then if Bool.eqb (pv_count v) count then
     match pv_index v with [] => [] | i => [if pv_excl v then Exc i else Inc i] end else [] else []) vs.
Definition mentions (t : vtok) (count : bool) (vs : list pvar) : Prop :=
  exists v, In v vs /\ pv_tok v = t /\ pv_count v = count.

(** ** Rules *)
Inductive op_means (O : oracles) : poper -> operator -> Prop :=
| om_rx : forall o, po_tok o = KRx -> rx_ok O (po_arg o) = true -> op_means O o (OpRx (po_arg o))
| om_cmp : forall o c z, In (po_tok o, c) [(KEq, CEq); (KGe, CGe); (KGt, CGt); (KLe, CLe); (KLt, CLt)] ->
    padded_int (po_arg o) z -> op_means O o (OpCmp c z).
(** What an action of the text does; metadata does nothing. *)
Inductive act_means : paction -> list action -> Prop :=
| am_deny : forall s, act_means (PAction KDeny s) [ADeny]
| am_skip : forall s, act_means (PAction KSkip s) [ASkip]
| am_log : forall s, act_means (PAction KLog s) [ALog]
| am_block : forall s, act_means (PAction KBlock s) [ABlock]
| am_allow : forall s x, unquoted s x -> act_means (PAction KAllow s) [AAllow x]
| am_status : forall s x n, unquoted s x -> denotes x n -> int64 n -> act_means (PAction KStatus s) [AStatus n]
| am_meta : forall t s, In t [KTag; KMsg; KRev; KVer] -> act_means (PAction t s) [].
Inductive acts_mean : list paction -> list action -> Prop :=
| acm_nil : acts_mean [] []
| acm_cons : forall a l x y, act_means a x -> acts_mean l y -> acts_mean (a :: l) (x ++ y).
(** The values a metadata name is given, in order. *)
Inductive meta_values (t : atok) : list paction -> list bs -> Prop :=
| mv_nil : meta_values t [] []
| mv_this : forall s x l vs, unquoted s x -> meta_values t l vs -> meta_values t (PAction t s :: l) (x :: vs)
| mv_other : forall a l vs, pa_tok a <> t -> meta_values t l vs -> meta_values t (a :: l) vs.
Definition trans_means (t : ttok) : trans :=
  match t with
  | KLowercase => TLowercase | KUrlDecode => TUrlDecode | KUrlDecodeUni => TUrlDecodeUni | KNone => TNone
  | KCompressWhitespace => TCompressWhitespace | KRemoveWhitespace => TRemoveWhitespace
  | KReplaceNulls => TReplaceNulls | KRemoveNulls => TRemoveNulls
  end.
Definition meta_names : list (atok * bs) := [(KTag, B "tag"); (KMsg, B "msg"); (KRev, B "rev"); (KVer, B "ver")].

(** The variable a name stands for before any selector: all of a named collection,
    or a single value. *)
Definition whole : filter := Filter [] [] [] [].
Definition var_means : list (vtok * variable) :=
  [(KArgsGet, VColl CArgsGet whole); (KArgsGetNames, VColl CArgsGetNames whole);
   (KArgsPost, VColl CArgsPost whole); (KArgsPostNames, VColl CArgsPostNames whole);
   (KArgs, VArgs whole whole); (KArgsNames, VArgsNames whole whole);
   (KRequestCookies, VColl CRequestCookies whole); (KRequestCookiesNames, VColl CRequestCookiesNames whole);
   (KRequestHeaders, VColl CRequestHeaders whole); (KRequestHeadersNames, VColl CRequestHeadersNames whole);
   (KResponseHeaders, VColl CResponseHeaders whole); (KResponseHeadersNames, VColl CResponseHeadersNames whole);
   (KQueryString, VScalar SQueryString); (KRemoteAddr, VScalar SRemoteAddr); (KRequestBasename, VScalar SRequestBasename);
   (KRequestBody, VScalar SRequestBody); (KRequestFilename, VScalar SRequestFilename); (KRequestMethod, VScalar SRequestMethod);
   (KRequestProtocol, VScalar SRequestProtocol); (KRequestUri, VScalar SRequestUri); (KResponseBody, VScalar SResponseBody);
   (KResponseContentLength, VScalar SResponseContentLength); (KResponseContentType, VScalar SResponseContentType);
   (KResponseProtocol, VScalar SResponseProtocol); (KResponseStatus, VScalar SResponseStatus)].
