(** * Predicates: core/policyengine/policy/predicates.go, types.go and source/operators.go. *)
From Verif Require Import GoBase.

(** policy/predicates.go:25-31: [Predicate] / [Criterion].  A criterion is a
    total Boolean function of the record.  Simplification: evaluation of a
    criterion is assumed not to panic; operations whose criteria would panic on
    every evaluation are modelled by [Panic] when they are built ([EvalModel] and C120 give
    the panics at evaluation). *)
Definition criterion (R : Type) := R -> bool.

Section Predicates.
Context {R : Type}.

(** predicates.go:33-36 *)
Definition c_eval (c : criterion R) (r : R) : bool := c r.
(** predicates.go:39-42 *)
Definition c_and (c cr : criterion R) : criterion R := fun r => c_eval c r && c_eval cr r.
(** predicates.go:45-48 *)
Definition c_or (c cr : criterion R) : criterion R := fun r => c_eval c r || c_eval cr r.
(** predicates.go:51-54 *)
Definition c_not (c : criterion R) : criterion R := fun r => negb (c_eval c r).
(** predicates.go:57 *)
Definition c_true : criterion R := fun _ => true.
(** predicates.go:60 *)
Definition c_false : criterion R := fun _ => false.
(** predicates.go:63-69: [all := True; for c in criteria { all = all.And(c) }] *)
Definition c_all (cs : list (criterion R)) : criterion R := fold_left c_and cs c_true.
(** predicates.go:72-78 *)
Definition c_any (cs : list (criterion R)) : criterion R := fold_left c_or cs c_false.
(** predicates.go:81-86: [First] exits the process on an error. *)
Definition c_first (x : criterion R * bool) : res (criterion R) :=
  let (c, failed) := x in if failed then Fatal else Ok c.
End Predicates.

(** policy/types.go:27-41 *)
Inductive priority := PInformational | PLow | PMedium | PHigh | PCritical.
Definition prio_val (p : priority) : nat :=
  match p with PInformational => 0 | PLow => 1 | PMedium => 2 | PHigh => 3 | PCritical => 4 end.
Definition prio_string (p : priority) : string :=
  match p with
  | PInformational => "informational" | PLow => "low" | PMedium => "medium"
  | PHigh => "high" | PCritical => "critical"
  end.

(** policy/types.go:24: tags are [interface{}]; the compilers store strings
    (sigma) or a whole slice of strings as one tag (falco/compiler.go:190). *)
Inductive tag := TagStr (s : string) | TagList (l : list string).

(** policy/types.go:44-54 *)
Record rule (R : Type) := mkRule {
  r_name : string; r_desc : string; r_cond : criterion R; r_actions : list string;
  r_tags : list tag; r_prio : priority; r_prefilter : list string; r_enabled : bool
}.
Arguments mkRule {R}. Arguments r_name {R}. Arguments r_desc {R}. Arguments r_cond {R}.
Arguments r_actions {R}. Arguments r_tags {R}. Arguments r_prio {R}.
Arguments r_prefilter {R}. Arguments r_enabled {R}.

(** policy/types.go:57-61 *)
Record filter (R : Type) := mkFilter { f_name : string; f_cond : criterion R; f_enabled : bool }.
Arguments mkFilter {R}. Arguments f_name {R}. Arguments f_cond {R}. Arguments f_enabled {R}.

(** source/operators.go:29-46 *)
Inductive operator :=
| OpEq | OpIEq | OpContains | OpIContains | OpStartswith | OpIStartswith
| OpEndswith | OpIEndswith | OpLt | OpLEq | OpGt | OpGEq.

(** source/operators.go:57-78 [StrOps.OpFunc]; [None] is the (nil, error) result. *)
Definition str_op (op : operator) : option (string -> string -> bool) :=
  match op with
  | OpEq => Some (fun l r => seqb l r)
  | OpIEq => Some (fun l r => equal_fold l r)
  | OpContains => Some (fun l r => contains l r)
  | OpIContains => Some (fun l r => contains (to_lower l) (to_lower r))
  | OpStartswith => Some (fun l r => has_prefix l r)
  | OpIStartswith => Some (fun l r => has_prefix (to_lower l) (to_lower r))
  | OpEndswith => Some (fun l r => has_suffix l r)
  | OpIEndswith => Some (fun l r => has_suffix (to_lower l) (to_lower r))
  | _ => None
  end.

(** source/operators.go:88-102 [IntOps.OpFunc] *)
Definition int_op (op : operator) : option (Z -> Z -> bool) :=
  match op with
  | OpEq => Some (fun l r => Z.eqb l r)
  | OpLt => Some (fun l r => Z.ltb l r)
  | OpLEq => Some (fun l r => Z.leb l r)
  | OpGt => Some (fun l r => Z.ltb r l)
  | OpGEq => Some (fun l r => Z.leb r l)
  | _ => None
  end.

(** source/operators.go:110-126 [SliceOps.OpFunc]: only Eq; [r[i]] is read by index
    after the length test. *)
Fixpoint slice_eq_loop {T} (eqb : T -> T -> bool) (i : nat) (l r : list T) : bool :=
  match l with
  | [] => true
  | a :: l' => match nth_error r i with
               | Some b => if eqb a b then slice_eq_loop eqb (S i) l' r else false
               | None => false (* index out of range: excluded by the length test *)
               end
  end.
Definition slice_op {T} (eqb : T -> T -> bool) (op : operator) : option (list T -> list T -> bool) :=
  match op with
  | OpEq => Some (fun l r => if Nat.eqb (length l) (length r) then slice_eq_loop eqb 0 l r else false)
  | _ => None
  end.

(** source/operations.go:26-37: the interface a data source offers the policy
    compilers.  Every method returns a criterion or an error; [Panic] stands for
    a criterion that panics whenever it is evaluated. *)
Record operations (R : Type) := mkOps {
  op_exists : string -> res (criterion R * bool);
  op_compare : string -> string -> operator -> res (criterion R * bool);
  op_foldany : string -> list string -> operator -> res (criterion R * bool);
  op_foldall : string -> list string -> operator -> res (criterion R * bool);
  op_regexp : string -> string -> res (criterion R * bool)
}.
Arguments mkOps {R}. Arguments op_exists {R}. Arguments op_compare {R}.
Arguments op_foldany {R}. Arguments op_foldall {R}. Arguments op_regexp {R}.
