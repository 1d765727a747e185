(** Specification vocabulary for the body buffer: the stream of bytes accepted by
    a history of operations under a size limit.  Independent of how the buffer
    stores anything. *)
From Verif Require Import Base Buffer.

(** The accepted stream: a write is accepted iff the total stays within [l]. *)
Fixpoint stream_from (l : Z) (acc : bs) (os : list bop) : bs :=
  match os with
  | [] => acc
  | BWrite p _ :: os' =>
      if Z.of_nat (length (acc ++ p)) <=? l then stream_from l (acc ++ p) os'
      else stream_from l acc os'
  | _ :: os' => stream_from l acc os'
  end.
Definition stream (l : Z) (os : list bop) : bs := stream_from l [] os.

(** No file-system failure in the history. *)
Definition fault_free (os : list bop) : Prop :=
  forall p ft, In (BWrite p ft) os -> ft = NoFault.

(** The history without its reading operations. *)
Definition is_write (o : bop) : bool := match o with BWrite _ _ => true | _ => false end.
Definition writes_only (os : list bop) : list bop := List.filter is_write os.

(** Bytes reported as accepted. *)
Fixpoint reported (obs : list bobs) : Z :=
  match obs with
  | [] => 0
  | OWrite n _ :: obs' => n + reported obs'
  | _ :: obs' => reported obs'
  end.
