(** Model of package [seclang]: from parsed directives to rules and engine. *)
From Verif Require Import Base GoStrings Buffer Types Variables Operators Rules Engine Scanner.

(** seclang/variable.go:11-37 [variableFactorys]; XML has no factory. *)
Definition var_factory (tk : vtok) : option variable :=
  match tk with
  | KArgs => Some (VArgs empty_filter empty_filter)
  | KArgsNames => Some (VArgsNames empty_filter empty_filter)
  | KArgsGet => Some (VColl CArgsGet empty_filter)
  | KArgsGetNames => Some (VColl CArgsGetNames empty_filter)
  | KArgsPost => Some (VColl CArgsPost empty_filter)
  | KArgsPostNames => Some (VColl CArgsPostNames empty_filter)
  | KQueryString => Some (VScalar SQueryString)
  | KRemoteAddr => Some (VScalar SRemoteAddr)
  | KRequestBasename => Some (VScalar SRequestBasename)
  | KRequestBody => Some (VScalar SRequestBody)
  | KRequestCookies => Some (VColl CRequestCookies empty_filter)
  | KRequestCookiesNames => Some (VColl CRequestCookiesNames empty_filter)
  | KRequestFilename => Some (VScalar SRequestFilename)
  | KRequestHeaders => Some (VColl CRequestHeaders empty_filter)
  | KRequestHeadersNames => Some (VColl CRequestHeadersNames empty_filter)
  | KRequestMethod => Some (VScalar SRequestMethod)
  | KRequestProtocol => Some (VScalar SRequestProtocol)
  | KRequestUri => Some (VScalar SRequestUri)
  | KResponseBody => Some (VScalar SResponseBody)
  | KResponseContentLength => Some (VScalar SResponseContentLength)
  | KResponseContentType => Some (VScalar SResponseContentType)
  | KResponseHeaders => Some (VColl CResponseHeaders empty_filter)
  | KResponseHeadersNames => Some (VColl CResponseHeadersNames empty_filter)
  | KResponseProtocol => Some (VScalar SResponseProtocol)
  | KResponseStatus => Some (VScalar SResponseStatus)
  | KXML => None
  end.

Definition vtok_eq_dec (a b : vtok) : {a = b} + {a <> b}.
Proof. decide equality. Defined.

(** The Go maps varMap and countVarMap (variable.go:54-55), keyed by token. *)
Fixpoint vmap_get (tk : vtok) (m : list (vtok * variable)) : option variable :=
  match m with
  | [] => None
  | (k, v) :: m' => if vtok_eq_dec tk k then Some v else vmap_get tk m'
  end.
Fixpoint vmap_set (tk : vtok) (v : variable) (m : list (vtok * variable)) : list (vtok * variable) :=
  match m with
  | [] => [(tk, v)]
  | (k, w) :: m' => if vtok_eq_dec tk k then (k, v) :: m' else (k, w) :: vmap_set tk v m'
  end.

(** seclang/variable.go:76-88: select on the variable. *)
Definition var_select (O : oracles) (v : pvar) (x : variable) : option variable :=
  match pv_index v with
  | [] => Some x
  | i => if pv_excl v then var_exclude O i x else var_include O i x
  end.

(** seclang/variable.go:56-89: one parsed variable.  The Go maps hold pointers;
    selecting on the pointer is storing the new value under the same token.  On
    the first occurrence of a counted variable the selection is applied to the
    wrapped variable, later ones go through the wrapper: the same thing. *)
Definition apply_variable (O : oracles) (v : pvar) (ms : list (vtok * variable) * list (vtok * variable))
  : option (list (vtok * variable) * list (vtok * variable)) :=
  let '(vm, cm) := ms in
  match var_factory (pv_tok v) with
  | None => None
  | Some fresh =>
      if negb (pv_count v) then
        let x := match vmap_get (pv_tok v) vm with Some x => x | None => fresh end in
        option_map (fun x' => (vmap_set (pv_tok v) x' vm, cm)) (var_select O v x)
      else
        let x := match vmap_get (pv_tok v) cm with Some x => x | None => VCount fresh end in
        option_map (fun x' => (vm, vmap_set (pv_tok v) x' cm)) (var_select O v x)
  end.
Fixpoint apply_variable_list (O : oracles) (vs : list pvar) ms :=
  match vs with
  | [] => Some ms
  | v :: vs' => match apply_variable O v ms with
                | None => None
                | Some ms' => apply_variable_list O vs' ms'
                end
  end.
(** seclang/variable.go:47-97 [applyVariables]; the two map iterations at the end
    take iteration numbers [n] and [n+1] of the order oracle. *)
Definition apply_variables (O : oracles) (n : nat) (vs : list pvar) : option (list variable) :=
  match apply_variable_list O vs ([], []) with
  | None => None
  | Some (vm, cm) => Some (map snd (ord O n _ vm) ++ map snd (ord O (S n) _ cm))
  end.

(** seclang/trans.go:11-20 and 30-43 [applyTrans] *)
Definition trans_factory (t : ttok) : trans :=
  match t with
  | KLowercase => TLowercase
  | KUrlDecode => TUrlDecode
  | KUrlDecodeUni => TUrlDecodeUni
  | KNone => TNone
  | KRemoveWhitespace => TRemoveWhitespace
  | KRemoveNulls => TRemoveNulls
  | KReplaceNulls => TReplaceNulls
  | KCompressWhitespace => TCompressWhitespace
  end.
Definition apply_transes (ts : list ttok) : list trans := map trans_factory ts.

(** seclang/operators.go:11-18 and 28-40 [applyOperator] *)
Definition operator_factory (O : oracles) (o : poper) : option operator :=
  match po_tok o with
  | KRx => new_rx O (po_arg o)
  | KEq => new_compare CEq (po_arg o)
  | KGt => new_compare CGt (po_arg o)
  | KGe => new_compare CGe (po_arg o)
  | KLt => new_compare CLt (po_arg o)
  | KLe => new_compare CLe (po_arg o)
  end.

(** seclang/actions.go:12-43 [actionFactorys]: metadata, an action, or
    [None] when nothing is registered or the factory fails. *)
Inductive processed := PMeta (name : bs) (v : bs) | PAct (a : action).
Definition action_factory (a : paction) : option processed :=
  match pa_tok a with
  | KDeny => Some (PAct ADeny)
  | KSkip => Some (PAct ASkip)
  | KLog => Some (PAct ALog)
  | KBlock => Some (PAct ABlock)
  | KStatus => match atoi (trimQuote (pa_arg a)) with
               | Some n => Some (PAct (AStatus n))
               | None => None
               end
  | KAllow => Some (PAct (AAllow (trimQuote (pa_arg a))))
  | KTag => Some (PMeta (B "tag") (trimQuote (pa_arg a)))
  | KMsg => Some (PMeta (B "msg") (trimQuote (pa_arg a)))
  | KRev => Some (PMeta (B "rev") (trimQuote (pa_arg a)))
  | KVer => Some (PMeta (B "ver") (trimQuote (pa_arg a)))
  | _ => None
  end.
(** seclang/actions.go:96-117 *)
Fixpoint apply_action_list (l : list paction) (meta : vals) (acts : list action)
  : option (vals * list action) :=
  match l with
  | [] => Some (meta, acts)
  | a :: l' =>
      match action_factory a with
      | None => None
      | Some (PMeta k v) => apply_action_list l' (vals_add k v meta) acts
      | Some (PAct x) => apply_action_list l' meta (acts ++ [x])
      end
  end.

(** seclang/sec_rule.go:30-59 [FromSecLang]: the rule and its chain flag. *)
Definition rule_from_seclang (O : oracles) (n : nat) (vs : list pvar) (o : poper) (a : pactions)
  : option (rule * bool) :=
  match apply_variables O n vs with
  | None => None
  | Some vars =>
      match operator_factory O o with
      | None => None
      | Some op =>
          match apply_action_list (pas_acts a) [] [] with
          | None => None
          | Some (meta, acts) =>
              Some (Rule (pas_id a) (pas_phase a) vars (apply_transes (pas_trans a)) (Some op)
                         acts (po_not o) meta [], pas_chain a)
          end
      end
  end.

(** Values of interface [Dire]: sec_rule.go:15-18, rules.go:17-19, 42-44, 67-69. *)
Inductive dire :=
| IRule (r : rule)
| IReqBody (b : bool)
| IResBody (b : bool)
| IRuleEng (v : Z).

(** seclang/rule_set.go:21-27 [direFactory]; the second component is the chain
    flag of a rule. *)
Definition dire_factory (O : oracles) (n : nat) (d : directive) : option (dire * bool) :=
  match d with
  | DRule vs o a => option_map (fun p => (IRule (fst p), snd p)) (rule_from_seclang O n vs o a)
  | DReqBody b => Some (IReqBody b, false)
  | DResBody b => Some (IResBody b, false)
  | DRuleEng v => Some (IRuleEng v, false)
  end.

Definition append_sub (sub : rule) (r : rule) : rule :=
  Rule (r_id r) (r_phase r) (r_vars r) (r_trans r) (r_op r) (r_acts r) (r_not r) (r_meta r)
       (r_subs r ++ [sub]).
(** [parent.rule.AppendSubRules(dr.rule)] for the parent stored at index [i]. *)
Fixpoint add_sub_at (i : nat) (sub : rule) (ds : list dire) : list dire :=
  match ds, i with
  | [], _ => []
  | IRule r :: ds', O => IRule (append_sub sub r) :: ds'
  | d :: ds', O => d :: ds'
  | d :: ds', S i' => d :: add_sub_at i' sub ds'
  end.

(** seclang/rule_set.go:52-71: the loop over parsed directives.  chainParent is a
    pointer to a rule already appended to [dires]; it is represented by its
    index.  Result: the directive set (also kept on error) and whether a factory
    failed.  Each rule uses two iteration numbers. *)
Fixpoint add_dires (O : oracles) (n : nat) (ds : list directive) (parent : option nat)
  (dires : list dire) : list dire * bool :=
  match ds with
  | [] => (dires, true)
  | d :: ds' =>
      match dire_factory O n d with
      | None => (dires, false)
      | Some (IRule r, chain) =>
          match parent with
          | Some i =>
              add_dires O (S (S n)) ds' (if chain : bool then parent else None) (add_sub_at i r dires)
          | None =>
              add_dires O (S (S n)) ds' (if chain : bool then Some (length dires) else None)
                        (dires ++ [IRule r])
          end
      | Some (i, _) => add_dires O (S (S n)) ds' parent (dires ++ [i])
      end
  end.

(** seclang/rule_set.go:45-73 [AddSecLangString]: new set, and success. *)
Definition add_seclang (fuel : nat) (O : oracles) (n : nat) (text : bs) (dires : list dire)
  : out (list dire * bool) :=
  r <- parse_text fuel text ;;
  match r with
  | RErr _ => Ret (dires, false)
  | ROk ds => Ret (add_dires O n ds None dires)
  end.

(** seclang/rule_set.go:32-39 [NewDireSetFromSecLangString] *)
Definition new_direset (fuel : nat) (O : oracles) (n : nat) (text : bs) : out (option (list dire)) :=
  '(ds, ok) <- add_seclang fuel O n text [] ;;
  Ret (if ok : bool then Some ds else None).

(** The [Execute] methods: rules.go:36-39, 61-64, 86-96, sec_rule.go:61-64. *)
Definition execute_dire (d : dire) (e : engine) : engine :=
  match d with
  | IRule r => add_sec_rule [r] e
  | IReqBody b => set_reqaccess e b
  | IResBody b => set_resaccess e b
  | IRuleEng v =>
      if v =? TriBoolTrue then enable StatusOn e
      else if v =? TriBoolFalse then enable StatusOff e
      else if v =? TriBoolElse then enable StatusDect e
      else e
  end.
(** seclang/rule_set.go:75-82 [Execute]; no directive's Execute returns an error. *)
Definition execute (ds : list dire) (e : engine) : engine :=
  fold_left (fun e d => execute_dire d e) ds e.
