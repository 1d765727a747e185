(** Model of URLs and header maps that a program hands to a transaction and keeps: the
    transaction stores the pointer or the map itself, not a copy
    (modsecurity/transaction.go:185-214), and the variables read through it when a rule
    is evaluated (for example variables/query_string.go:20-23), so what the program
    writes into the object later is seen by the rules evaluated after that, and an object
    handed to two transactions is seen by both.  Nothing in the repository writes into
    such an object.
    Simplifications: as in World.v; an object is written as a whole; which entry of a map
    is met first is the oracle's choice as before. *)
From Verif Require Import Base GoStrings Buffer Types Transaction Variables Rules Engine Scanner Loader World.

(** What [t.URL], [t.Request.Header] and [t.Response.Header] (transaction.go:37-51) point
    to: an object the program holds as well, or ([None]) one it does not. *)
Record hold := Hold { h_url : option nat; h_req : option nat; h_res : option nat }.
Definition holds_nothing : hold := Hold None None None.
(** The world with the URLs and header maps of the program, and for each transaction what
    it holds. *)
Record hworld := HWorld { hw_world : world; hw_urls : list url; hw_heads : list vals; hw_holds : list hold }.
Definition no_hworld : hworld := HWorld no_world [] [] [].

(** What a program does: everything of World.v, where the data of a call is private to the
    transaction; make an object; write into one; hand one over. *)
Inductive hop :=
| HDo (o : wop)
| HNewURL (u : url)                                       (* new(url.URL) and the like *)
| HNewHead (h : vals)                                     (* make(http.Header) and the like *)
| HPutURL (i : nat) (u : url)                             (* *u = ... *)
| HPutHead (i : nat) (h : vals)                           (* h[k] = v, delete(h, k), ... *)
| HGiveURL (k i : nat) (method proto : bs)                (* transaction.go:185-189 *)
| HGiveRequest (k i : nat)                                (* transaction.go:190-196 *)
| HGiveResponse (k : nat) (code : Z) (proto : bs) (i : nat). (* transaction.go:206-214 *)

(** A field as it reads at this moment. *)
Definition read_url (i : option nat) (urls : list url) (u : option url) : option url :=
  match i with
  | Some i => match nth_error urls i with Some v => Some v | None => u end
  | None => u
  end.
Definition read_head (i : option nat) (heads : list vals) (h : vals) : vals :=
  match i with
  | Some i => match nth_error heads i with Some v => v | None => h end
  | None => h
  end.
Definition refresh (h : hold) (urls : list url) (heads : list vals) (t : txn) : txn :=
  let t := with_request t (read_url (h_url h) urls (t_url t)) (t_method t) (t_reqproto t) in
  let t := with_reqheader t (read_head (h_req h) heads (t_reqheader t)) in
  with_response t (t_code t) (t_resproto t) (read_head (h_res h) heads (t_resheader t)).

(** A call with private data lets go of the object held before. *)
Definition lets_go (o : op) (h : hold) : hold :=
  match o with
  | OpRequestURL _ _ _ => Hold None (h_req h) (h_res h)
  | OpRequestHeader _ => Hold (h_url h) None (h_res h)
  | OpResponseHeaders _ _ _ => Hold (h_url h) (h_req h) None
  | _ => h
  end.
(** A call of [o] on transaction [k], which from then on holds [g] of what it held. *)
Definition hcall (fuel : nat) (O : oracles) (k : nat) (g : hold -> hold) (o : op) (w : hworld) : out (hworld * wobs) :=
  h <- deref k (hw_holds w) ;;
  x <- deref k (w_txns (hw_world w)) ;;
  let t := refresh (g h) (hw_urls w) (hw_heads w) (ht_txn x) in
  '(w', b) <- wstep fuel O (WCall k o) (put_txn k (HTxn (ht_eng x) (ht_set x) t) (hw_world w)) ;;
  Ret (HWorld w' (hw_urls w) (hw_heads w) (put k (g h) (hw_holds w)), b).
(** A transaction just made holds nothing (transaction.go:58-86). *)
Definition pad (n : nat) (l : list hold) : list hold := l ++ repeat holds_nothing (n - length l).

Definition hstep (fuel : nat) (O : oracles) (o : hop) (w : hworld) : out (hworld * wobs) :=
  match o with
  | HDo (WCall k o) => hcall fuel O k (lets_go o) o w
  | HDo o =>
      '(w', b) <- wstep fuel O o (hw_world w) ;;
      Ret (HWorld w' (hw_urls w) (hw_heads w) (pad (length (w_txns w')) (hw_holds w)), b)
  | HNewURL u => Ret (HWorld (hw_world w) (hw_urls w ++ [u]) (hw_heads w) (hw_holds w), WNew (length (hw_urls w)))
  | HNewHead h => Ret (HWorld (hw_world w) (hw_urls w) (hw_heads w ++ [h]) (hw_holds w), WNew (length (hw_heads w)))
  | HPutURL i u =>
      _ <- deref i (hw_urls w) ;;
      Ret (HWorld (hw_world w) (put i u (hw_urls w)) (hw_heads w) (hw_holds w), WNone)
  | HPutHead i h =>
      _ <- deref i (hw_heads w) ;;
      Ret (HWorld (hw_world w) (hw_urls w) (put i h (hw_heads w)) (hw_holds w), WNone)
  | HGiveURL k i m p =>
      u <- deref i (hw_urls w) ;;
      hcall fuel O k (fun h => Hold (Some i) (h_req h) (h_res h)) (OpRequestURL (Some u) m p) w
  | HGiveRequest k i =>
      v <- deref i (hw_heads w) ;;
      hcall fuel O k (fun h => Hold (h_url h) (Some i) (h_res h)) (OpRequestHeader v) w
  | HGiveResponse k c p i =>
      v <- deref i (hw_heads w) ;;
      hcall fuel O k (fun h => Hold (h_url h) (h_req h) (Some i)) (OpResponseHeaders c p v) w
  end.
Fixpoint hrun (fuel : nat) (O : oracles) (os : list hop) (w : hworld) : out (hworld * list wobs) :=
  match os with
  | [] => Ret (w, [])
  | o :: os' =>
      '(w1, b) <- hstep fuel O o w ;;
      '(w2, bl) <- hrun fuel O os' w1 ;;
      Ret (w2, b :: bl)
  end.
