(** Model of package [operators]. *)
From Verif Require Import Base GoStrings Buffer Types.

(** operators/compare.go:10-34: the comparison functions. *)
Definition cmp_fn (c : cmpop) (v arg : Z) : bool :=
  match c with
  | CEq => v =? arg
  | CGe => arg <=? v
  | CGt => arg <? v
  | CLe => v <=? arg
  | CLt => v <? arg
  end.

(** operators/compare.go:36-48 [newOperatorCompare]; [None] = error. *)
Definition new_compare (c : cmpop) (arg : bs) : option operator :=
  match parse_int64 (trim_space arg) with
  | None => None
  | Some v => Some (OpCmp c v)
  end.

(** operators/rx.go:9-18 [NewOperatorRx]; [None] = error. *)
Definition new_rx (O : oracles) (re : bs) : option operator :=
  if rx_ok O re then Some (OpRx re) else None.

(** operators/compare.go:64-71 and rx.go:32-34 [Match] *)
Definition op_match (O : oracles) (o : operator) (s : bs) : bool :=
  match o with
  | OpRx re => rx_match O re s
  | OpCmp c arg =>
      let v := match parse_int64 (trim_space s) with Some v => v | None => 0 end in
      cmp_fn c v arg
  end.
