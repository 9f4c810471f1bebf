(** * SpecContext: histories of annotation operations on a record. *)
From Verif Require Import GoBase Predicates FlatRecord.
Section S.
Context {Rule : Type}.
(** The annotation operations of a record context. *)
Inductive ctx_op :=
| OAddRules (l : list Rule) | OAddTags (l : list string) | OSetHash (t : hashtype) (h : hashset)
| OSetAlert (b : bool) | OSetTags (l : list string).
Definition ctx_step (c : context Rule) (o : ctx_op) : context Rule :=
  match o with
  | OAddRules l => ctx_addrules l c
  | OAddTags l => ctx_addtags l c
  | OSetHash t h => ctx_sethashes t h c
  | OSetAlert b => ctx_setalert b c
  | OSetTags l => ctx_settags l c
  end.
Definition ctx_run (ops : list ctx_op) : context Rule := fold_left ctx_step ops ctx_new.

(** What a history should have stored. *)
Fixpoint rules_of (ops : list ctx_op) : list Rule :=
  match ops with
  | [] => []
  | OAddRules l :: ops' => l ++ rules_of ops'
  | _ :: ops' => rules_of ops'
  end.
(** Tags: those of the last [OSetTags] (or [base]) and the ones added since. *)
Fixpoint tags_after (base : list string) (ops : list ctx_op) : list string :=
  match ops with
  | [] => base
  | OAddTags l :: ops' => tags_after (base ++ l) ops'
  | OSetTags l :: ops' => tags_after l ops'
  | _ :: ops' => tags_after base ops'
  end.
Definition tags_of (ops : list ctx_op) : list string := tags_after [] ops.
(** The alert flag: the last one set, false if none. *)
Fixpoint alert_after (b : bool) (ops : list ctx_op) : bool :=
  match ops with
  | [] => b
  | OSetAlert b' :: ops' => alert_after b' ops'
  | _ :: ops' => alert_after b ops'
  end.
Definition hashtype_eqb (a b : hashtype) : bool :=
  match a, b with HProc, HProc | HFile, HFile => true | _, _ => false end.
Fixpoint first_hash (t : hashtype) (ops : list ctx_op) : option hashset :=
  match ops with
  | [] => None
  | OSetHash t' h :: ops' => if hashtype_eqb t t' then Some h else first_hash t ops'
  | _ :: ops' => first_hash t ops'
  end.
End S.
Arguments ctx_op Rule : clear implicits.
