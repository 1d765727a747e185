(** Concrete worlds used to show that hypotheses can be met and that false claims
    fail.  Nothing here models repository code. *)
From Verif Require Import Base GoStrings Buffer Types Transaction Variables Rules Engine.

(** Regular expressions that only match the literal text; the header value is the
    media type; multipart parsing gives [mp]; maps are iterated in list order. *)
Definition demo (mp : mpres) : oracles :=
  Oracles (fun _ => true) bs_eqb (fun ct => (ct, B "boundary")) (fun _ _ _ => (mp, 0%nat))
          (fun u => u_path u ++ match u_rawquery u with [] => [] | q => "?"%char :: q end)
          (fun r => r) false (fun _ _ m => m).
Lemma demo_ord : forall mp, ord_valid (demo mp).
Proof. intros mp n A m. apply Permutation_refl. Qed.

Definition demo_url (path query : string) : url := Url [] [] None [] (B path) (B query) [].

(** An engine that looks at bodies, with the default limits. *)
Definition demo_engine (rs : ruleset) : engine :=
  Engine true false rs true true 134217728 131072 524228.

(** A POST request with the given content type and body, before any evaluation. *)
Definition demo_post (ct : string) (body : string) : txn :=
  let t := new_txn (demo_engine new_ruleset) in
  let t := with_request t (Some (demo_url "/p" "")) (B "POST") (B "HTTP/1.1") in
  let t := with_reqheader t [(B "Content-Type", [B ct])] in
  match buf_write NoFault (B body) (t_reqbody t) with
  | Ret (b, _, _) => with_reqbody t b
  | _ => t
  end.
