(** Specification vocabulary for rules: when a value satisfies an operator, what a
    stable grouping of actions is, which elementary actions a list stands for. *)
From Verif Require Import Base Buffer Types SpecText.
From Coq Require Import Sorting.Sorted.

(** The number an operand stands for: itself, or 0 if it is not a decimal int64. *)
Definition number (s : bs) (z : Z) : Prop :=
  padded_int s z \/ ((~ exists z', padded_int s z') /\ z = 0).
Definition satisfies (O : oracles) (o : operator) (s : bs) : Prop :=
  match o with
  | OpRx re => rx_match O re s = true
  | OpCmp CEq a => exists z, number s z /\ z = a
  | OpCmp CGe a => exists z, number s z /\ z >= a
  | OpCmp CGt a => exists z, number s z /\ z > a
  | OpCmp CLe a => exists z, number s z /\ z <= a
  | OpCmp CLt a => exists z, number s z /\ z < a
  end.
(** A rule is satisfied by a value if its operator is, or is not when negated. *)
Definition hit (O : oracles) (r : rule) (s : bs) : Prop :=
  exists o, r_op r = Some o /\ (if r_not r then ~ satisfies O o s else satisfies O o s).

(** Metadata, data, non-disruptive, disruptive, flow. *)
Definition group_of (a : action) : Z :=
  match a with
  | AStatus _ => 1
  | ALog => 2
  | ADeny | AAllow _ | ABlock | APass => 3
  | ASkip => 4
  end.
Definition stable_grouping (as_ g : list action) : Prop :=
  Permutation as_ g /\ Sorted Z.le (map group_of g) /\
  forall n, List.filter (fun a => group_of a =? n) g = List.filter (fun a => group_of a =? n) as_.

(** The elementary actions an ordered list stands for: block stands for the default
    actions, grouped. *)
Inductive unfolds (dflt : list action) : list action -> list action -> Prop :=
| uf_nil : unfolds dflt [] []
| uf_cons : forall a l l', a <> ABlock -> unfolds dflt l l' -> unfolds dflt (a :: l) (a :: l')
| uf_block : forall g l l1 l2, stable_grouping dflt g -> unfolds dflt g l1 -> unfolds dflt l l2 ->
    unfolds dflt (ABlock :: l) (l1 ++ l2).
(** The actions of one rule, in execution order. *)
Definition rule_actions (dflt as_ l : list action) : Prop :=
  exists g, stable_grouping as_ g /\ unfolds dflt g l.
(** Those of a rule and its sub-rules. *)
Inductive chain_actions (dflt : list action) : list rule -> list action -> Prop :=
| ca_nil : chain_actions dflt [] []
| ca_cons : forall r rs l1 l2, rule_actions dflt (r_acts r) l1 -> chain_actions dflt rs l2 ->
    chain_actions dflt (r :: rs) (l1 ++ l2).

(** The last status in a list of actions, or the one before. *)
Fixpoint last_status (l : list action) (d : option Z) : option Z :=
  match l with
  | [] => d
  | AStatus s :: l' => last_status l' (Some s)
  | _ :: l' => last_status l' d
  end.
(** The status of a denial. *)
Definition denial_status (d : option Z) (s : Z) : Prop :=
  (exists x, d = Some x /\ 100 <= x <= 599 /\ s = x) \/
  ((forall x, d = Some x -> ~ 100 <= x <= 599) /\ s = 403).
