(** * SpecFlat: the meaning of the basic tests on a flattened record. *)
From Verif Require Import GoBase Predicates SpecStrings FlatRecord FalcoModel SpecFalco.
Section S.
Variable X : sfgo_fns.
Variable M : gomap fieldmap.
(** The value is not the zero value of its kind. *)
Definition present (v : gval) : Prop :=
  match v with
  | VStr s => s <> ""
  | VInt z | VInt32 z => z <> 0%Z
  | VBool b => b = true
  | VIntArr o => o <> None
  | VSvcArr o => o <> None
  end.
(** Some comma-separated component of [s] is related to some component of [t]. *)
Definition related (op : operator) (s t : string) : Prop :=
  exists a b, component s a /\ component t b /\ str_rel op a b.
Definition flat_atomic (fr : flatrec) : atomic := mkAtomic
  (fun a => match mget a M with None => a <> "" | Some k => present (run_fmap X k fr) end)
  (fun l op r =>
     if is_str_op op
     then exists ml mr, map_str X M l = Ok ml /\ map_str X M r = Ok mr /\ related op (ml fr) (mr fr)
     else int_rel op (map_int X M l fr) (map_int X M r fr))
  (fun l op ys => exists m, map_str X M l = Ok m /\ exists v, In v ys /\ related op (m fr) v).
End S.
(** Operands the grammar can produce never end in an opening bracket. *)
Definition operand_ok (a : string) : Prop := forall s, a <> (s ++ "[")%string.
