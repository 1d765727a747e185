(** Specification vocabulary for programs that keep the URLs and header maps they hand over. *)
From Verif Require Import Base Buffer Types Transaction Variables Engine Loader World Held.

(** The transaction an operation is a call on. *)
Definition on (o : hop) : option nat :=
  match o with
  | HDo (WCall k _) => Some k
  | HGiveURL k _ _ _ => Some k
  | HGiveRequest k _ => Some k
  | HGiveResponse k _ _ _ => Some k
  | _ => None
  end.
Definition on_other (k : nat) (o : hop) : bool := match on o with Some k' => negb (Nat.eqb k' k) | None => false end.
(** The program with the calls on all transactions but [k] left out; what it writes into
    its objects stays. *)
Definition halone (k : nat) (os : list hop) : list hop := List.filter (fun o => negb (on_other k o)) os.
(** What the calls on [k] answered. *)
Fixpoint hheard (k : nat) (os : list hop) (bl : list wobs) : list wobs :=
  match os, bl with
  | o :: os', b :: bl' =>
      match on o with
      | Some k' => if Nat.eqb k' k then b :: hheard k os' bl' else hheard k os' bl'
      | None => hheard k os' bl'
      end
  | _, _ => []
  end.

(** Data of a call: given by value, or an object the program keeps. *)
Inductive datum (A : Type) := ByValue (a : A) | Object (i : nat).
Arguments ByValue {A}. Arguments Object {A}.
(** What it reads as, given the present contents of the objects. *)
Inductive reads_as {A B} (cells : list B) (wrap : B -> A) : datum A -> A -> Prop :=
| ra_value : forall a, reads_as cells wrap (ByValue a) a
| ra_object : forall i b, nth_error cells i = Some b -> reads_as cells wrap (Object i) (wrap b).
(** The data given to transaction [k], with what comes along by value. *)
Definition connection_given (k : nat) (o : hop) : option (bs * bs * bs * bs) :=
  match o with
  | HDo (WCall k' (OpConnection a b c d)) => if Nat.eqb k' k then Some (a, b, c, d) else None
  | _ => None
  end.
Definition url_given (k : nat) (o : hop) : option (datum (option url) * bs * bs) :=
  match o with
  | HDo (WCall k' (OpRequestURL u m p)) => if Nat.eqb k' k then Some (ByValue u, m, p) else None
  | HGiveURL k' i m p => if Nat.eqb k' k then Some (Object i, m, p) else None
  | _ => None
  end.
Definition request_given (k : nat) (o : hop) : option (datum vals) :=
  match o with
  | HDo (WCall k' (OpRequestHeader h)) => if Nat.eqb k' k then Some (ByValue h) else None
  | HGiveRequest k' i => if Nat.eqb k' k then Some (Object i) else None
  | _ => None
  end.
Definition response_given (k : nat) (o : hop) : option (Z * bs * datum vals) :=
  match o with
  | HDo (WCall k' (OpResponseHeaders c p h)) => if Nat.eqb k' k then Some (c, p, ByValue h) else None
  | HGiveResponse k' c p i => if Nat.eqb k' k then Some (c, p, Object i) else None
  | _ => None
  end.
(** The last datum of a kind, or a default if there was none. *)
Definition last_given {A} (kind : hop -> option A) (default : A) (os : list hop) (x : A) : Prop :=
  (exists os1 o os2, os = os1 ++ o :: os2 /\ kind o = Some x /\ forall o', In o' os2 -> kind o' = None) \/
  ((forall o, In o os -> kind o = None) /\ x = default).

(** A transaction as the rules of its next call find it. *)
Inductive looks (k : nat) (w : hworld) : nat -> nat -> txn -> Prop :=
| lk : forall h x, nth_error (hw_holds w) k = Some h -> nth_error (w_txns (hw_world w)) k = Some x ->
    looks k w (ht_eng x) (ht_set x) (refresh h (hw_urls w) (hw_heads w) (ht_txn x)).
(** Its data are the present contents of the objects last given to it. *)
Definition up_to_date (k : nat) (os : list hop) (w : hworld) (s : txn) : Prop :=
  last_given (connection_given k) ([], [], [], []) os (t_srcip s, t_srcport s, t_dstip s, t_dstport s) /\
  (exists d m p, last_given (url_given k) (ByValue None, [], []) os (d, m, p) /\
     reads_as (hw_urls w) Some d (t_url s) /\ t_method s = m /\ t_reqproto s = p) /\
  (exists d, last_given (request_given k) (ByValue []) os d /\ reads_as (hw_heads w) (fun h => h) d (t_reqheader s)) /\
  (exists c p d, last_given (response_given k) (0, [], ByValue []) os (c, p, d) /\
     t_code s = c /\ t_resproto s = p /\ reads_as (hw_heads w) (fun h => h) d (t_resheader s)).

(** A program that writes into none of its objects. *)
Definition writes (o : hop) : bool := match o with HPutURL _ _ | HPutHead _ _ => true | _ => false end.
Definition never_writes (os : list hop) : Prop := forall o, In o os -> writes o = false.
(** The same program with every object handed over by value. *)
Fixpoint by_value (urls : list url) (heads : list vals) (os : list hop) : list wop :=
  match os with
  | [] => []
  | HDo o :: os' => o :: by_value urls heads os'
  | HNewURL u :: os' => by_value (urls ++ [u]) heads os'
  | HNewHead h :: os' => by_value urls (heads ++ [h]) os'
  | HPutURL _ _ :: os' | HPutHead _ _ :: os' => by_value urls heads os'
  | HGiveURL k i m p :: os' => WCall k (OpRequestURL (nth_error urls i) m p) :: by_value urls heads os'
  | HGiveRequest k i :: os' => WCall k (OpRequestHeader (nth i heads [])) :: by_value urls heads os'
  | HGiveResponse k c p i :: os' => WCall k (OpResponseHeaders c p (nth i heads [])) :: by_value urls heads os'
  end.
(** What that program answers: everything but the numbers of the objects made. *)
Fixpoint but_objects (os : list hop) (bl : list wobs) : list wobs :=
  match os, bl with
  | (HNewURL _ | HNewHead _ | HPutURL _ _ | HPutHead _ _) :: os', _ :: bl' => but_objects os' bl'
  | _ :: os', b :: bl' => b :: but_objects os' bl'
  | _, _ => []
  end.
(** Every object handed over exists, of [nu] URLs and [nh] header maps at first. *)
Fixpoint objects_exist (nu nh : nat) (os : list hop) : Prop :=
  match os with
  | [] => True
  | HNewURL _ :: os' => objects_exist (S nu) nh os'
  | HNewHead _ :: os' => objects_exist nu (S nh) os'
  | HGiveURL _ i _ _ :: os' => (i < nu)%nat /\ objects_exist nu nh os'
  | HGiveRequest _ i :: os' | HGiveResponse _ _ _ i :: os' => (i < nh)%nat /\ objects_exist nu nh os'
  | _ :: os' => objects_exist nu nh os'
  end.
(** The call an operation amounts to at this moment. *)
Inductive amounts_to (w : hworld) : hop -> nat -> op -> Prop :=
| am_do : forall k o, amounts_to w (HDo (WCall k o)) k o
| am_url : forall k i m p u, nth_error (hw_urls w) i = Some u -> amounts_to w (HGiveURL k i m p) k (OpRequestURL (Some u) m p)
| am_req : forall k i h, nth_error (hw_heads w) i = Some h -> amounts_to w (HGiveRequest k i) k (OpRequestHeader h)
| am_res : forall k c p i h, nth_error (hw_heads w) i = Some h ->
    amounts_to w (HGiveResponse k c p i) k (OpResponseHeaders c p h).
(** The calls on [k] as if made with what the objects contain now. *)
Definition as_now (k : nat) (w : hworld) (o : hop) : list op :=
  match on o with
  | Some k' =>
      if Nat.eqb k' k then
        match o with
        | HDo (WCall _ c) => [c]
        | HGiveURL _ i m p => [OpRequestURL (nth_error (hw_urls w) i) m p]
        | HGiveRequest _ i => [OpRequestHeader (nth i (hw_heads w) [])]
        | HGiveResponse _ c p i => [OpResponseHeaders c p (nth i (hw_heads w) [])]
        | _ => []
        end
      else []
  | None => []
  end.
Definition calls_now (k : nat) (w : hworld) (os : list hop) : list op := flat_map (as_now k w) os.
