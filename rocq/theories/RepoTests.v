(** Unit tests of the repository, replayed on the model.  The inputs and expected
    results were copied by reading the *_test.go files named below; the Go tests
    themselves were not run.  Differences from the Go tests:
    - regular expressions and media types are the small stand-ins defined here, so
      the match table of operators/rx_test.go is not replayed;
    - the variable, transformation, operator and action types engine_test.go defines for
      itself are those of [const_var] and the like below;
    - some examples state more than the Go test asserts (the number of log lines,
      for instance), and the Go tests compare slices without regard to order. *)
From Verif Require Import Base GoStrings Utils Buffer Types Transforms Operators Transaction Variables Rules Engine Scanner Loader Custom.

(** Enough of [regexp] for the patterns of the tests: an optional leading '^' and
    literal text. *)
Fixpoint contains (p s : bs) : bool :=
  has_prefix p s || match s with [] => false | _ :: s' => contains p s' end.
Definition simple_rx (p s : bs) : bool :=
  match p with
  | "^"%char :: p' => has_prefix p' s
  | _ => contains p s
  end.
(** [mime.ParseMediaType] on the content types of the tests. *)
Definition test_media (ct : bs) : bs * bs :=
  if bs_eqb ct (B "MultIpart/mixed; boundary=foo") then (B "multipart/mixed", B "foo") else (ct, []).
Definition test_form : vals := [(B "text", [B "A section"]); (B "test2", [B "Another section"])].
Definition W : oracles :=
  Oracles (fun p => negb (bs_eqb p (B "[") || bs_eqb p (B "(") || bs_eqb p (B "((("))) simple_rx test_media
          (fun _ _ _ => (MpOk test_form, 0%nat))
          (fun u => u_path u ++ match u_rawquery u with [] => [] | q => "?"%char :: q end)
          (fun r => r) true (fun _ _ m => m).

(** ** utils/urlencode_test.go *)
Definition nihao : bs := map byte_of [228; 189; 160; 229; 165; 189].
Definition decode_tests : list (bs * (bs * Z)) :=
  [ (B "abcde123456", (B "abcde123456", 0)); (B "abcde+123456", (B "abcde 123456", 0));
    (B "abcde%20123456", (B "abcde 123456", 0)); (B "%3c123%3e*aab", (B "<123>*aab", 0));
    (B "!%40%23%24%25%5e%26*()_%2b%7c", (B "!@#$%^&*()_+|", 0)); (B "%e4%bd%a0%e5%a5%bd", (nihao, 0));
    (B "%%3e*aab", (B "%>*aab", 1)) ].
Example test_urldecode : map (fun p => UrlDecode (fst p)) decode_tests = map snd decode_tests
  /\ UrlDecode (B "%u4F60%u597D") = (B "%u4F60%u597D", 2) /\ UrlDecode (B "%uFF10%uFF11") = (B "%uFF10%uFF11", 2).
Proof. repeat split; vm_compute; reflexivity. Qed.
Example test_urldecode_uni : map (fun p => UrlDecodeUni (fst p)) decode_tests = map snd decode_tests
  /\ UrlDecodeUni (B "%u4F60%u597D") = (nihao, 0) /\ UrlDecodeUni (B "%uFF10%uFF11") = (B "01", 0).
Proof. repeat split; vm_compute; reflexivity. Qed.

(** ** modsecurity/transforms/*_test.go *)
Definition nulls : bs := map (fun c => if Ascii.eqb c "_" then NUL else c) (B "_a_bcd__ef__").
Example test_transforms :
  map (apply_trans W TCompressWhitespace) [B " a  b   c "; B "   abc   "; B "   a b c   "]
    = [B " a b c "; B " abc "; B " a b c "] /\
  map (apply_trans W TLowercase) [B "abc"; B "Abc"; B "ABC"] = [B "abc"; B "abc"; B "abc"] /\
  map (apply_trans W TRemoveWhitespace) [B " a b c de f"; B " a    b c de f   "] = [B "abcdef"; B "abcdef"] /\
  apply_trans W TRemoveNulls nulls = B "abcdef" /\
  apply_trans W TReplaceNulls nulls = B " a bcd  ef  " /\
  map (apply_trans W TNone) [B "abc"; B "Abc"; B "ABC"] = [B "abc"; B "Abc"; B "ABC"] /\
  apply_trans W TUrlDecode (B "abcde+123456%e4%bd%a0%e5%a5%bd%u4F60%u597D")
    = B "abcde 123456" ++ nihao ++ B "%u4F60%u597D" /\
  apply_trans W TUrlDecodeUni (B "abcde+123456%e4%bd%a0%e5%a5%bd%u4F60%u597D") = B "abcde 123456" ++ nihao ++ nihao.
Proof. repeat split; vm_compute; reflexivity. Qed.

(** ** modsecurity/operators/compare_test.go, rx_test.go (constructor errors) *)
Definition run_cmp (c : cmpop) (t : bs * bs * bool) : bool :=
  let '(arg, s, r) := t in
  match new_compare c arg with
  | Some o => Bool.eqb (op_match W o s) r
  | None => false
  end.
Example test_compare_errors : forall c, new_compare c (B "xx") = None /\ new_compare c [] = None.
Proof. intros []; split; reflexivity. Qed.
Example test_rx_errors : new_rx W (B "[") = None /\ new_rx W (B "(") = None /\ new_rx W (B "ab?c[0-9]") = Some (OpRx (B "ab?c[0-9]")).
Proof. repeat split; reflexivity. Qed.
Example test_eq : forallb (run_cmp CEq)
  [ (B "5", B "-10", false); (B "5", B "-5", false); (B "5", B "-1", false); (B "5", B "0", false);
    (B "5", B "1", false); (B "5", B "3", false); (B "5", B "5", true); (B "5", B "8", false);
    (B "5", B "20", false); (B "5", B "", false); (B "5", B "xxx", false); (B "0", B "-10", false);
    (B "0", B "-5", false); (B "0", B "-1", false); (B "0", B "0", true); (B "0", B "1", false);
    (B "0", B "3", false); (B "0", B "5", false); (B "0", B "8", false); (B "0", B "20", false);
    (B "0", B "", true); (B "0", B "xxx", true); (B "-5", B "-10", false); (B "-5", B "-5", true);
    (B "-5", B "-1", false); (B "-5", B "0", false); (B "-5", B "1", false); (B "-5", B "3", false);
    (B "-5", B "5", false); (B "-5", B "8", false); (B "-5", B "20", false); (B "-5", B "", false);
    (B "-5", B "xxx", false) ] = true.
Proof. vm_compute. reflexivity. Qed.
Example test_ge : forallb (run_cmp CGe)
  [ (B "5", B "-10", false); (B "5", B "-5", false); (B "5", B "-1", false); (B "5", B "0", false);
    (B "5", B "1", false); (B "5", B "3", false); (B "5", B "5", true); (B "5", B "8", true);
    (B "5", B "20", true); (B "5", B "", false); (B "5", B "xxx", false); (B "0", B "-10", false);
    (B "0", B "-5", false); (B "0", B "-1", false); (B "0", B "0", true); (B "0", B "1", true);
    (B "0", B "3", true); (B "0", B "5", true); (B "0", B "8", true); (B "0", B "20", true);
    (B "0", B "", true); (B "0", B "xxx", true); (B "-5", B "-10", false); (B "-5", B "-5", true);
    (B "-5", B "-1", true); (B "-5", B "0", true); (B "-5", B "1", true); (B "-5", B "3", true);
    (B "-5", B "5", true); (B "-5", B "8", true); (B "-5", B "20", true); (B "-5", B "", true);
    (B "-5", B "xxx", true) ] = true.
Proof. vm_compute. reflexivity. Qed.
Example test_gt : forallb (run_cmp CGt)
  [ (B "5", B "-10", false); (B "5", B "-5", false); (B "5", B "-1", false); (B "5", B "0", false);
    (B "5", B "1", false); (B "5", B "3", false); (B "5", B "5", false); (B "5", B "8", true);
    (B "5", B "20", true); (B "5", B "", false); (B "5", B "xxx", false); (B "0", B "-10", false);
    (B "0", B "-5", false); (B "0", B "-1", false); (B "0", B "0", false); (B "0", B "1", true);
    (B "0", B "3", true); (B "0", B "5", true); (B "0", B "8", true); (B "0", B "20", true);
    (B "0", B "", false); (B "0", B "xxx", false); (B "-5", B "-10", false); (B "-5", B "-5", false);
    (B "-5", B "-1", true); (B "-5", B "0", true); (B "-5", B "1", true); (B "-5", B "3", true);
    (B "-5", B "5", true); (B "-5", B "8", true); (B "-5", B "20", true); (B "-5", B "", true);
    (B "-5", B "xxx", true) ] = true.
Proof. vm_compute. reflexivity. Qed.
Example test_lt : forallb (run_cmp CLt)
  [ (B "5", B "-10", true); (B "5", B "-5", true); (B "5", B "-1", true); (B "5", B "0", true);
    (B "5", B "1", true); (B "5", B "3", true); (B "5", B "5", false); (B "5", B "8", false);
    (B "5", B "20", false); (B "5", B "", true); (B "5", B "xxx", true); (B "0", B "-10", true);
    (B "0", B "-5", true); (B "0", B "-1", true); (B "0", B "0", false); (B "0", B "1", false);
    (B "0", B "3", false); (B "0", B "5", false); (B "0", B "8", false); (B "0", B "20", false);
    (B "0", B "", false); (B "0", B "xxx", false); (B "-5", B "-10", true); (B "-5", B "-5", false);
    (B "-5", B "-1", false); (B "-5", B "0", false); (B "-5", B "1", false); (B "-5", B "3", false);
    (B "-5", B "5", false); (B "-5", B "8", false); (B "-5", B "20", false); (B "-5", B "", false);
    (B "-5", B "xxx", false) ] = true.
Proof. vm_compute. reflexivity. Qed.
Example test_le : forallb (run_cmp CLe)
  [ (B "5", B "-10", true); (B "5", B "-5", true); (B "5", B "-1", true); (B "5", B "0", true);
    (B "5", B "1", true); (B "5", B "3", true); (B "5", B "5", true); (B "5", B "8", false);
    (B "5", B "20", false); (B "5", B "", true); (B "5", B "xxx", true); (B "0", B "-10", true);
    (B "0", B "-5", true); (B "0", B "-1", true); (B "0", B "0", true); (B "0", B "1", false);
    (B "0", B "3", false); (B "0", B "5", false); (B "0", B "8", false); (B "0", B "20", false);
    (B "0", B "", true); (B "0", B "xxx", true); (B "-5", B "-10", true); (B "-5", B "-5", true);
    (B "-5", B "-1", false); (B "-5", B "0", false); (B "-5", B "1", false); (B "-5", B "3", false);
    (B "-5", B "5", false); (B "-5", B "8", false); (B "-5", B "20", false); (B "-5", B "", false);
    (B "-5", B "xxx", false) ] = true.
Proof. vm_compute. reflexivity. Qed.

(** ** modsecurity/buffer_test.go *)
Definition ones (n : nat) : bs := repeat "1"%char n.
Definition twos (n : nat) : bs := repeat "2"%char n.
Example test_buffer_memory : exists b, bruns [BWrite (ones 16) NoFault; BWrite (twos 16) NoFault; BRead 128] (new_buffer 32 64)
  = Ret (b, [OWrite 16 None; OWrite 16 None; ORead (ones 16 ++ twos 16) false]) /\ buf_len b = 32 /\ b_file b = None.
Proof.
  exists (Buffer 32 32 64 (ones 16 ++ twos 16) None false). repeat split.
Qed.
Example test_buffer_file : exists b,
  bruns [BWrite (ones 32) NoFault; BWrite (twos 32) NoFault; BRead 128; BString; BString] (new_buffer 32 64)
  = Ret (b, [OWrite 32 None; OWrite 32 None; ORead (ones 32 ++ twos 32) false;
             OString (ones 32) (Some ErrOutOfMemLimit); OString (ones 32) (Some ErrOutOfMemLimit)])
  /\ buf_len b = 64 /\ b_file b <> None /\ buf_close false false b = Ret (None, true).
Proof.
  exists (Buffer 64 32 64 (ones 32) (Some (TFile (ones 32 ++ twos 32) 0)) false). repeat split; discriminate.
Qed.

(** ** modsecurity/actions/*_test.go *)
Definition t0 : txn := new_txn new_engine.
Definition acts (rs : ruleset) (l : list action) : out txn :=
  fold_left (fun acc a => t <- acc ;; actions_execute 3 rs [a] t) l (Ret t0).
Definition view (r : out txn) : option (Z * bool * nat) :=
  match r with Ret t => Some (i_status (get_iv t), i_disruptive (get_iv t), length (i_log (get_iv t))) | _ => None end.
Definition phase_of (r : out txn) : option Z := match r with Ret t => Some (t_phase t) | _ => None end.
Example test_allow :
  phase_of (acts new_ruleset [AAllow []]) = Some PhaseLogging /\
  phase_of (acts new_ruleset [AAllow (B "request")]) = Some PhaseResponseHeaders /\
  map (fun n => phase_of (acts new_ruleset (repeat (AAllow (B "phase")) n))) [1; 2; 3; 4; 5; 6; 7; 8]%nat
  = map Some [PhaseConnection; PhaseRequestHeaders; PhaseRequestBody; PhaseResponseHeaders; PhaseResponseBody;
              PhaseLogging; PhaseEnd; PhaseEnd].
Proof. repeat split; vm_compute; reflexivity. Qed.
Example test_block_deny_log_pass_status :
  view (acts (add_default_actions [ADeny; ALog] new_ruleset) [ABlock]) = Some (403, true, 2%nat) /\
  view (acts new_ruleset [ADeny]) = Some (403, true, 1%nat) /\
  view (acts new_ruleset [ALog]) = Some (200, false, 1%nat) /\
  view (acts new_ruleset [ADeny; APass]) = Some (200, false, 0%nat) /\
  view (acts new_ruleset [AStatus 444; ADeny]) = Some (444, true, 1%nat).
Proof. repeat split; vm_compute; reflexivity. Qed.
Example test_skip : match acts new_ruleset [ASkip] with Ret t => fst (next_rule new_ruleset t) | _ => 0 end = StatusEndOfRules.
Proof. vm_compute. reflexivity. Qed.

(** ** modsecurity/engine_test.go: [TestEngine_Enable] and [TestEngine] *)
Example test_enable : forall m, let e := enable m new_engine in
  (e_enabled e, e_detection e) = match m with StatusOn => (true, false) | StatusOff => (false, false) | StatusDect => (false, true) end.
Proof. intros []; reflexivity. Qed.
(** engine_test.go:9-63 *)
Definition variableConst (l : list bs) (s : st unit) : out (st unit * list bs) := Ret (s, l).
Definition transAppendString (a : bs) (s : st unit) (v : bs) : out (st unit * bs) := Ret (s, v ++ a).
Definition operatorEq (a : bs) (s : st unit) (v : bs) : out (st unit * bool) := Ret (s, bs_eqb a v).
Definition actionLog (m : bs) : caction unit := CAction 2 (fun s => Ret (logf m (fst s), snd s)).
(** engine_test.go:66-72 *)
Definition own_sec_rule : crule unit :=
  CRule [variableConst [B "abc"]] [transAppendString (B "def")] (Some (operatorEq (B "abcdef"))) [actionLog (B "ok")] false [].
Definition logs_of (p : Z) (o : op) : option (list bs) :=
  match c_steps 9 [(p, [own_sec_rule])] [o] (new_txn new_engine, tt) with
  | Ret ((t, _), _) => Some (i_log (get_iv t))
  | _ => None
  end.
Example test_engine :
  logs_of PhaseConnection (OpConnection (B "192.168.1.1") (B "1234") [] []) = Some [B "[client 192.168.1.1:1234] (phase 1) ok"] /\
  logs_of PhaseRequestHeaders (OpRequestHeader []) = Some [B "[client :] (phase 2) ok"] /\
  logs_of PhaseRequestBody OpRequestBody = Some [B "[client :] (phase 3) ok"] /\
  logs_of PhaseResponseHeaders (OpResponseHeaders 200 (B "HTTP/1.1") []) = Some [B "[client :] (phase 4) ok"] /\
  logs_of PhaseResponseBody OpResponseBody = Some [B "[client :] (phase 5) ok"] /\
  logs_of PhaseLogging OpLogging = Some [B "[client :] (phase 6) ok"].
Proof. repeat split; vm_compute; reflexivity. Qed.

(** ** modsecurity/variables/*_test.go *)
Example test_is_regex : map is_regex [B "abc"; B "/abc"; B "abc/"; B "/abc/"; B "/"; B "//"]
  = [false; false; false; true; false; true] /\ filter_include W (B "/(((/") empty_filter = None.
Proof. split; vm_compute; reflexivity. Qed.
Definition test_entries : vals := [(B "a1", [B "1"]); (B "a2", [B "2"]); (B "b1", [B "3"]); (B "b2", [B "4"])].
Definition sel (l : list (bool * bs)) : option filter :=
  fold_left (fun acc c => match acc with
                          | Some f => if fst c : bool then filter_include W (snd c) f else filter_exclude W (snd c) f
                          | None => None
                          end) l (Some empty_filter).
Definition sel_fetch (l : list (bool * bs)) : option (list bs) :=
  option_map (fun f => snd (filter_fetch W f test_entries t0)) (sel l).
Example test_filter :
  sel_fetch [] = Some [B "1"; B "2"; B "3"; B "4"] /\ sel_fetch [(true, B "a1")] = Some [B "1"] /\
  sel_fetch [(true, B "/^a/")] = Some [B "1"; B "2"] /\ sel_fetch [(false, B "b1")] = Some [B "1"; B "2"; B "4"] /\
  sel_fetch [(false, B "/b/")] = Some [B "1"; B "2"] /\ sel_fetch [(true, B "/^a/"); (false, B "a2")] = Some [B "1"].
Proof. repeat split; vm_compute; reflexivity. Qed.
Definition eng (mem : Z) : engine := Engine false false new_ruleset true true 134217728 mem 524228.
Definition u0 (path query : string) : option url := Some (Url (B "http") [] None (B "localhost") (B path) (B query) []).
Definition fetched (mem : Z) (os : list op) (v : option variable) : option (list bs * bool * bool) :=
  match v with
  | None => None
  | Some v =>
      match steps 9 W (eng mem) new_ruleset os (new_txn (eng mem)) with
      | Ret (t, _) => match fetch W (eng mem) v t with
                      | Ret (t', l) => Some (l, t_bodyerr t', t_abort t')
                      | _ => None
                      end
      | _ => None
      end
  end.
Definition get (u : option url) : list op := [OpRequestURL u (B "GET") (B "HTTP/1.1")].
Definition post (ct body : string) : list op :=
  [OpRequestURL (u0 "/query" "") (B "POST") (B "HTTP/1.1"); OpRequestHeader [(B "Content-Type", [B ct])];
   OpAppendRequestBody (B body) NoFault].
Definition vals_of (l : list bs) : option (list bs * bool * bool) := Some (l, false, false).
Definition q4 := "a1=1&a2=2&b1=3&b2=4"%string.
Definition form := "application/x-www-form-urlencoded"%string.
Example test_args_get :
  fetched 131072 (get (u0 "/query" q4)) (var_include W (B "/a/") (VColl CArgsGet empty_filter)) = vals_of [B "1"; B "2"] /\
  fetched 131072 (get (u0 "/query" q4)) (var_include W (B "/a/") (VColl CArgsGetNames empty_filter)) = vals_of [B "a1"; B "a2"] /\
  fetched 131072 (get (u0 "/query" q4)) (var_exclude W (B "b1") (VColl CArgsGetNames empty_filter)) = vals_of [B "a1"; B "a2"; B "b2"] /\
  fetched 131072 (get (u0 "/query" q4)) (var_exclude W (B "/^a/") (VColl CArgsGetNames empty_filter)) = vals_of [B "b1"; B "b2"] /\
  fetched 131072 (get (u0 "/query" q4)) (var_include W (B "/a/") (VCount (VColl CArgsGet empty_filter))) = vals_of [B "2"] /\
  fetched 131072 [] (var_include W (B "/a/") (VCount (VColl CArgsGet empty_filter))) = vals_of [B "0"].
Proof. repeat split; vm_compute; reflexivity. Qed.
Definition long_body : bs := concat (repeat (B q4 ++ B "&") 20).
Example test_args_post :
  fetched 131072 (post form q4) (Some (VColl CArgsPost empty_filter)) = vals_of [B "1"; B "2"; B "3"; B "4"] /\
  fetched 131072 (post form q4) (Some (VColl CArgsPostNames empty_filter)) = vals_of [B "a1"; B "a2"; B "b1"; B "b2"] /\
  fetched 131072 (post "MultIpart/mixed; boundary=foo" "--foo") (Some (VColl CArgsPost empty_filter))
    = vals_of [B "A section"; B "Another section"] /\
  fetched 131072 (post "MultIpart/mixed; boundary=foo" "--foo") (Some (VColl CArgsPostNames empty_filter))
    = vals_of [B "text"; B "test2"] /\
  fetched 64 (firstn 2 (post form "") ++ [OpAppendRequestBody long_body NoFault]) (Some (VColl CArgsPost empty_filter))
    = Some ([], true, true) /\
  fetched 64 (firstn 2 (post form "") ++ [OpAppendRequestBody long_body NoFault]) (Some (VColl CArgsPostNames empty_filter))
    = Some ([], true, true).
Proof. repeat split; vm_compute; reflexivity. Qed.
Definition post_query : list op :=
  [OpRequestURL (u0 "/query" q4) (B "POST") (B "HTTP/1.1"); OpRequestHeader [(B "Content-Type", [B form])];
   OpAppendRequestBody (B "a3=5&a4=6&b3=7&b4=8") NoFault].
Example test_args :
  fetched 131072 post_query (var_include W (B "/a/") (VArgs empty_filter empty_filter)) = vals_of [B "1"; B "2"; B "5"; B "6"] /\
  fetched 131072 post_query (var_include W (B "/a/") (VArgsNames empty_filter empty_filter))
    = vals_of [B "a1"; B "a2"; B "a3"; B "a4"].
Proof. split; vm_compute; reflexivity. Qed.
Example test_request_body :
  fetched 131072 (firstn 2 (post form "")) (Some (VScalar SRequestBody)) = vals_of [] /\
  fetched 131072 (post form q4) (Some (VScalar SRequestBody)) = vals_of [B q4].
Proof. split; vm_compute; reflexivity. Qed.
Example test_cookies :
  let h l := [OpRequestURL (u0 "/query" "") (B "POST") (B "HTTP/1.1"); OpRequestHeader l] in
  fetched 131072 (h [(B "Content-Type", [B form])]) (Some (VColl CRequestCookies empty_filter)) = vals_of [] /\
  fetched 131072 (h [(B "Cookie", [B "abc=def"; B "ghi=jkl"])]) (Some (VColl CRequestCookies empty_filter)) = vals_of [B "def"; B "jkl"] /\
  fetched 131072 (h [(B "Content-Type", [B form])]) (Some (VColl CRequestCookiesNames empty_filter)) = vals_of [] /\
  fetched 131072 (h [(B "Cookie", [B "abc=def"; B "ghi=jkl"])]) (Some (VColl CRequestCookiesNames empty_filter)) = vals_of [B "abc"; B "ghi"] /\
  fetched 131072 (h [(B "Content-Type", [B form]); (B "Content-Length", [B "0"])]) (Some (VColl CRequestHeaders empty_filter))
    = vals_of [B form; B "0"] /\
  fetched 131072 (h [(B "Content-Type", [B form]); (B "Content-Length", [B "0"])]) (Some (VColl CRequestHeadersNames empty_filter))
    = vals_of [B "Content-Type"; B "Content-Length"].
Proof. repeat split; vm_compute; reflexivity. Qed.
Example test_request_scalars :
  map basename [B "/query"; B "/query/"; B "/query///////"; B "////////"; B "/\query"; B "/\query\"; B "/\query\\\\\\\"; B "/\\\\\\\\"]
    = [B "query"; B "query"; B "query"; B "/"; B "query"; B "query"; B "query"; B "/"] /\
  fetched 131072 (get (u0 "/query" q4)) (Some (VScalar SRequestUri)) = vals_of [B "/query?a1=1&a2=2&b1=3&b2=4"] /\
  fetched 131072 (get (u0 "/query" q4)) (Some (VScalar SRequestFilename)) = vals_of [B "/query"] /\
  fetched 131072 (get (u0 "/query" q4)) (Some (VScalar SQueryString)) = vals_of [B q4] /\
  fetched 131072 (get (u0 "/query" q4)) (Some (VScalar SRequestMethod)) = vals_of [B "GET"] /\
  fetched 131072 (get (u0 "/query" q4)) (Some (VScalar SRequestProtocol)) = vals_of [B "HTTP/1.1"] /\
  fetched 131072 [OpConnection (B "192.168.0.1") (B "12345") (B "127.0.0.1") (B "80")] (Some (VScalar SRemoteAddr)) = vals_of [B "192.168.0.1"].
Proof. repeat split; vm_compute; reflexivity. Qed.
Example test_response :
  let h l := [OpResponseHeaders 200 (B "HTTP/1.1") l] in
  fetched 131072 (h [(B "Content-Type", [B form])]) (Some (VScalar SResponseContentLength)) = vals_of [B "0"] /\
  fetched 131072 (h [(B "Content-Type", [B form]); (B "Content-Length", [B "123"])]) (Some (VScalar SResponseContentLength)) = vals_of [B "123"] /\
  fetched 131072 (h []) (Some (VScalar SResponseContentType)) = vals_of [B "application/octet-stream"] /\
  fetched 131072 (h [(B "Content-Type", [B form])]) (Some (VScalar SResponseContentType)) = vals_of [B form] /\
  fetched 131072 (h []) (Some (VScalar SResponseStatus)) = vals_of [B "200"] /\
  fetched 131072 (h []) (Some (VScalar SResponseProtocol)) = vals_of [B "HTTP/1.1"] /\
  fetched 131072 [] (Some (VScalar SResponseBody)) = vals_of [] /\
  fetched 131072 [OpAppendResponseBody (B "123456890-") NoFault] (Some (VScalar SResponseBody)) = vals_of [B "123456890-"].
Proof. repeat split; vm_compute; reflexivity. Qed.

(** ** seclang/parser/scanner_test.go, rule_test.go *)
Definition got {A} (r : out (scanner * res A)) : option A :=
  match r with Ret (_, ROk a) => Some a | _ => None end.
Definition scan {A} (f : nat -> scanner -> out (scanner * res A)) (s : bs) : option A := got (f 2000%nat (new_scanner s)).
Example test_read_string :
  map (scan read_string)
    [B "abc"; B "abc\" ++ [LF] ++ B "def"; B "\" ++ [LF] ++ B "def"; TAB :: B " def"; TAB :: B " 'def'"; B """def""";
     B """abc\" ++ [LF] ++ B "def"""]
  = map Some [B "abc"; B "abc" ++ [LF] ++ B "def"; B "def"; B "def"; B "def"; B "def"; B "abc" ++ [LF] ++ B "def"].
Proof. vm_compute. reflexivity. Qed.
Example test_rule_engine :
  map (scan read_directive)
    [B "SecRuleEngine On"; B "SecRuleEngine on"; B "SecRuleEngine Off"; B "secruleengine OFF"; B "SecRuleEngine DetectionOnly";
     B "SECRULEENGINE detectiononly"]
  = map (fun v => Some (DRuleEng v)) [TriBoolTrue; TriBoolTrue; TriBoolFalse; TriBoolFalse; TriBoolElse; TriBoolElse].
Proof. vm_compute. reflexivity. Qed.
Definition pv (k : vtok) : pvar := PVar k [] false false.
Example test_variables :
  scan read_variables (B "ARGS") = Some [pv KArgs] /\
  scan read_variables (B "ARGS|ARGS_NAMES") = Some [pv KArgs; pv KArgsNames] /\
  scan read_variables (B "!ARGS|&ARGS_NAMES") = Some [PVar KArgs [] false true; PVar KArgsNames [] true false] /\
  scan read_variables (B "ARGS|ARGS_NAMES|REQUEST_COOKIES|!REQUEST_COOKIES:/__utm/|REQUEST_COOKIES_NAMES|REQUEST_BODY|REQUEST_HEADERS")
  = Some [pv KArgs; pv KArgsNames; pv KRequestCookies; PVar KRequestCookies (B "/__utm/") false true;
          pv KRequestCookiesNames; pv KRequestBody; pv KRequestHeaders].
Proof. repeat split; vm_compute; reflexivity. Qed.
Example test_operators :
  map (scan read_operator)
    [B """some regex"""; B "withoutQuote"; B """@rx nikto"""; B """!some regex"""; B "!withoutQuote"; B """!@rx nikto""";
     B """@eq 15"""; B """@ge 16"""; B """@gt 17"""; B """@le 18"""; B """@lt 19"""]
  = map Some [POper KRx false (B "some regex"); POper KRx false (B "withoutQuote"); POper KRx false (B "nikto");
              POper KRx true (B "some regex"); POper KRx true (B "withoutQuote"); POper KRx true (B "nikto");
              POper KEq false (B "15"); POper KGe false (B "16"); POper KGt false (B "17"); POper KLe false (B "18");
              POper KLt false (B "19")].
Proof. vm_compute. reflexivity. Qed.
Example test_actions :
  map (scan read_actions) [B """phase:1,id:5"""; B """phase:1,\n\tid:5"""] = [Some (PActions 5 1 false [] []); Some (PActions 5 1 false [] [])].
Proof. vm_compute. reflexivity. Qed.
Definition rule_944100 : bs := B " 
SecRule ARGS|ARGS_NAMES|REQUEST_COOKIES|!REQUEST_COOKIES:/__utm/|REQUEST_COOKIES_NAMES|REQUEST_BODY|REQUEST_HEADERS|XML:/*|XML://@* \
    ""@rx java\.lang\.(?:runtime|processbuilder)"" \
    ""id:944100,\
    phase:2,\
    block,\
    log,\
    msg:'Remote Command Execution: Suspicious Java class detected',\
    logdata:'Matched Data: %{MATCHED_VAR} found within %{MATCHED_VAR_NAME}',\
    t:none,t:lowercase,\
    tag:'application-multi',\
    tag:'language-java',\
    tag:'platform-multi',\
    tag:'attack-rce',\
    tag:'OWASP_CRS/WEB_ATTACK/COMMAND_INJECTION',\
    tag:'WASCTC/WASC-31',\
    tag:'OWASP_TOP_10/A1',\
    tag:'PCI/6.5.2',\
    tag:'paranoia-level/1',\
    ver:'OWASP_CRS/3.1.0',\
    severity:'CRITICAL',\
    setvar:'tx.rce_score=+%{tx.critical_anomaly_score}',\
    setvar:'tx.anomaly_score_pl1=+%{tx.critical_anomaly_score}'""
".
Example test_rule_944100 : scan read_directive rule_944100 = Some (DRule [PVar KArgs (B "") false false;
           PVar KArgsNames (B "") false false;
           PVar KRequestCookies (B "") false false;
           PVar KRequestCookies (B "/__utm/") false true;
           PVar KRequestCookiesNames (B "") false false;
           PVar KRequestBody (B "") false false;
           PVar KRequestHeaders (B "") false false;
           PVar KXML (B "/*") false false;
           PVar KXML (B "//@*") false false]
    (POper KRx false (B "java.lang.(?:runtime|processbuilder)"))
    (PActions 944100 2 false [KNone; KLowercase]
       [PAction KBlock (B "");
        PAction KLog (B "");
        PAction KMsg (B "'Remote Command Execution: Suspicious Java class detected'");
        PAction KLogData (B "'Matched Data: %{MATCHED_VAR} found within %{MATCHED_VAR_NAME}'");
        PAction KTag (B "'application-multi'");
        PAction KTag (B "'language-java'");
        PAction KTag (B "'platform-multi'");
        PAction KTag (B "'attack-rce'");
        PAction KTag (B "'OWASP_CRS/WEB_ATTACK/COMMAND_INJECTION'");
        PAction KTag (B "'WASCTC/WASC-31'");
        PAction KTag (B "'OWASP_TOP_10/A1'");
        PAction KTag (B "'PCI/6.5.2'");
        PAction KTag (B "'paranoia-level/1'");
        PAction KVer (B "'OWASP_CRS/3.1.0'");
        PAction KSeverity (B "2");
        PAction KSetVar (B "'tx.rce_score=+%{tx.critical_anomaly_score}'");
        PAction KSetVar (B "'tx.anomaly_score_pl1=+%{tx.critical_anomaly_score}'")])).
Proof. vm_compute. reflexivity. Qed.
Example test_simple_rule : scan read_directive (B "SecRule ARGS ""abc"" ""id:123,phase:1,deny""")
  = Some (DRule [pv KArgs] (POper KRx false (B "abc")) (PActions 123 1 false [] [PAction KDeny []])).
Proof. vm_compute. reflexivity. Qed.
Definition test_rules_1 : bs := B "
SecRuleEngine DetectionOnly
SecRequestBodyAccess On
SecResponseBodyAccess Off
SecRule REQUEST_COOKIES|!REQUEST_COOKIES:/__utm/|REQUEST_COOKIES_NAMES|ARGS_NAMES|ARGS|XML:/* ""@rx (?i:sleep\(\s*?\d*?\s*?\)|benchmark\(.*?\,.*?\))"" \
    ""id:942160,\
    phase:2,\
    block,\
    capture,\
    t:none,t:urlDecodeUni,\
    msg:'Detects blind sqli tests using sleep() or benchmark().',\
    logdata:'Matched Data: %{TX.0} found within %{MATCHED_VAR_NAME}: %{MATCHED_VAR}',\
    tag:'application-multi',\
    tag:'language-multi',\
    tag:'platform-multi',\
    tag:'attack-sqli',\
    tag:'OWASP_CRS/WEB_ATTACK/SQL_INJECTION',\
    ver:'OWASP_CRS/3.1.0',\
    severity:'CRITICAL',\
    setvar:'tx.sql_injection_score=+%{tx.critical_anomaly_score}',\
    setvar:'tx.anomaly_score_pl1=+%{tx.critical_anomaly_score}'""

SecRule REQUEST_HEADERS:User-Agent ""@rx ^$"" \
    ""id:920330,\
    phase:2,\
    pass,\
    t:none,\
    msg:'Empty User Agent Header',\
    tag:'application-multi',\
    tag:'language-multi',\
    tag:'platform-multi',\
    tag:'attack-protocol',\
    tag:'OWASP_CRS/PROTOCOL_VIOLATION/EMPTY_HEADER_UA',\
    ver:'OWASP_CRS/3.1.0',\
    severity:'NOTICE',\
    setvar:'tx.anomaly_score_pl1=+%{tx.notice_anomaly_score}'""
".
Example test_all_directives : parse_text 2000 test_rules_1 = Ret (ROk [DRuleEng TriBoolElse; DReqBody true; DResBody false;
  DRule [PVar KRequestCookies (B "") false false;
           PVar KRequestCookies (B "/__utm/") false true;
           PVar KRequestCookiesNames (B "") false false;
           PVar KArgsNames (B "") false false;
           PVar KArgs (B "") false false;
           PVar KXML (B "/*") false false]
    (POper KRx false (B "(?i:sleep(s*?d*?s*?)|benchmark(.*?,.*?))"))
    (PActions 942160 2 false [KNone; KUrlDecodeUni]
       [PAction KBlock (B "");
        PAction KCapture (B "");
        PAction KMsg (B "'Detects blind sqli tests using sleep() or benchmark().'");
        PAction KLogData (B "'Matched Data: %{TX.0} found within %{MATCHED_VAR_NAME}: %{MATCHED_VAR}'");
        PAction KTag (B "'application-multi'");
        PAction KTag (B "'language-multi'");
        PAction KTag (B "'platform-multi'");
        PAction KTag (B "'attack-sqli'");
        PAction KTag (B "'OWASP_CRS/WEB_ATTACK/SQL_INJECTION'");
        PAction KVer (B "'OWASP_CRS/3.1.0'");
        PAction KSeverity (B "2");
        PAction KSetVar (B "'tx.sql_injection_score=+%{tx.critical_anomaly_score}'");
        PAction KSetVar (B "'tx.anomaly_score_pl1=+%{tx.critical_anomaly_score}'")]);
  DRule [PVar KRequestHeaders (B "User-Agent") false false]
    (POper KRx false (B "^$"))
    (PActions 920330 2 false [KNone]
       [PAction KPass (B "");
        PAction KMsg (B "'Empty User Agent Header'");
        PAction KTag (B "'application-multi'");
        PAction KTag (B "'language-multi'");
        PAction KTag (B "'platform-multi'");
        PAction KTag (B "'attack-protocol'");
        PAction KTag (B "'OWASP_CRS/PROTOCOL_VIOLATION/EMPTY_HEADER_UA'");
        PAction KVer (B "'OWASP_CRS/3.1.0'");
        PAction KSeverity (B "5");
        PAction KSetVar (B "'tx.anomaly_score_pl1=+%{tx.notice_anomaly_score}'")])]).
Proof. vm_compute. reflexivity. Qed.

(** ** seclang/*_test.go and examples/rule_from_seclang_test.go *)
Definition loaded (text : bs) : option engine :=
  match new_direset 2000 W 0 text with Ret (Some ds) => Some (execute ds new_engine) | _ => None end.
Definition url_of (query : string) : option url := Some (Url [] [] None [] (B "/search") (B query) []).
Definition verdict (text : bs) (u : option url) : option intervention :=
  match loaded text with
  | None => None
  | Some e =>
      match steps 99 W e (e_ruleset e)
              [OpConnection (B "127.0.0.1") (B "12345") (B "127.0.0.1") (B "80");
               OpRequestURL u (B "GET") (B "HTTP/1.1"); OpRequestHeader []; OpResult] (new_txn e) with
      | Ret (_, os) => match last os ObsNone with ObsResult i => Some i | _ => None end
      | _ => None
      end
  end.
Definition cmd_text : bs := B "SecRuleEngine On
                 SecRule REQUEST_URI '@rx cmd' \
                            ""id:123,\
                             phase:2,\
                             t:lowercase,\
                             deny""
".
Example test_rule_set :
  verdict cmd_text (url_of "=""a';CMD echo '1""")
    = Some (Intervention 403 0 None [B "[client 127.0.0.1:12345] (phase 2) ModSecurity: Access denied with code 403"] true) /\
  verdict cmd_text (url_of "=""a1""") = Some (Intervention 200 0 None [] false).
Proof. split; vm_compute; reflexivity. Qed.
Definition chain_rules : bs := B "
SecRule REQUEST_URI '@rx cmd' \
    ""id:123,\
    phase:2,\
    t:lowercase,\
    chain,\
    deny""
    SecRule ARGS_POST '@rx abc' log,chain
        SecRule ARGS_GET '@rx xyz' status:403
".
Example test_rule_set_chain : match new_direset 2000 W 0 chain_rules with
  | Ret (Some [IRule r]) => length (r_subs r) | _ => O end = 2%nat.
Proof. vm_compute. reflexivity. Qed.
Definition args_rules : bs := B "
SecRuleEngine On
SecRule ARGS_GET \
        '@rx v1' \
        ""id:123,\
        phase:2,\
        t:lowercase,\
        deny""
SecRule ARGS_GET:a2 \
        '@rx v2' \
        ""id:123,\
        phase:2,\
        t:lowercase,\
        deny""
SecRule ARGS_GET:/^b/ \
        '@rx v3' \
        ""id:123,\
        phase:2,\
        t:lowercase,\
        deny""
".
Example test_make_variables :
  map (fun x => option_map i_status (verdict args_rules (Some (Url [] [] None [] (B "/") x []))))
    [B "query=v1"; B "query=v3"; B "a2=v2"; B "a2=ok"; B "a1=v2"; B "b1=v3"; B "b2=ok"; B "a1=v3"]
  = map Some [403; 200; 403; 200; 200; 403; 200; 200].
Proof. vm_compute. reflexivity. Qed.
Definition abc_text : bs := B "SecRule REQUEST_URI '@rx abc' \
                            ""id:123,\
                             phase:2,\
                             t:lowercase,\
                             deny"" ".
Example test_sec_rule : option_map (fun e => phase_rules (e_ruleset e) 2) (loaded abc_text)
  = Some [Rule 123 2 [VScalar SRequestUri] [TLowercase] (Some (OpRx (B "abc"))) [ADeny] false [] []].
Proof. vm_compute. reflexivity. Qed.
Example test_rules :
  option_map e_reqaccess (loaded (B "SecRequestBodyAccess On")) = Some true /\
  option_map e_resaccess (loaded (B "SecResponseBodyAccess On")) = Some true /\
  option_map (fun e => (e_enabled e, e_detection e)) (loaded (B "SecRuleEngine On")) = Some (true, false).
Proof. repeat split; vm_compute; reflexivity. Qed.
Example test_apply_actions :
  match scan read_actions (B "id:333,phase:1,tag:'tag123',msg:'msg321',rev:'1.1',ver:'my-rule/123'") with
  | Some a => (pas_id a, pas_phase a, apply_action_list (pas_acts a) [] [])
  | None => (0, 0, None)
  end = (333, 1, Some ([(B "tag", [B "tag123"]); (B "msg", [B "msg321"]); (B "rev", [B "1.1"]); (B "ver", [B "my-rule/123"])], [])) /\
  match scan read_actions (B "id:123,phase:2,deny") with
  | Some a => (pas_id a, pas_phase a, apply_action_list (pas_acts a) [] [])
  | None => (0, 0, None)
  end = (123, 2, Some ([], [ADeny])).
Proof. split; vm_compute; reflexivity. Qed.
Example test_make_operator_trans_variable :
  option_map (operator_factory W) (scan read_operator (B """some regex""")) = Some (Some (OpRx (B "some regex"))) /\
  option_map (operator_factory W) (scan read_operator (B """@rx nikto""")) = Some (Some (OpRx (B "nikto"))) /\
  option_map (fun a => apply_transes (pas_trans a)) (scan read_actions (B "t:lowercase")) = Some [TLowercase] /\
  option_map (apply_variables W 0) (scan read_variables (B "REQUEST_URI")) = Some (Some [VScalar SRequestUri]) /\
  option_map (apply_variables W 0) (scan read_variables (B "&REQUEST_URI")) = Some (Some [VCount (VScalar SRequestUri)]).
Proof. repeat split; vm_compute; reflexivity. Qed.

(** ** examples/rule_from_go_test.go *)
Example test_rule_from_go :
  let rs := add_rules [Rule 0 PhaseRequestHeaders [VScalar SRequestUri] [] (Some (OpRx (B "select"))) [ADeny] false [] []] new_ruleset in
  let e := enable StatusOn new_engine in
  match steps 99 W e rs
          [OpConnection (B "127.0.0.1") (B "12345") (B "127.0.0.1") (B "80");
           OpRequestURL (url_of "=""a';select '1""") (B "GET") (B "HTTP/1.1"); OpRequestHeader []; OpResult] (new_txn e) with
  | Ret (_, os) => last os ObsNone
  | _ => ObsNone
  end = ObsResult (Intervention 403 0 None [B "[client 127.0.0.1:12345] (phase 2) ModSecurity: Access denied with code 403"] true).
Proof. vm_compute. reflexivity. Qed.
