(** * SpecStrings: what the string relations mean, independently of the model. *)
From Verif Require Import GoBase Predicates.

(** Two bytes agree up to ASCII case. *)
Definition ci_byte (a b : ascii) : Prop :=
  a = b \/
  (exists n, 65 <= n <= 90 /\ a = ascii_of_nat n /\ b = ascii_of_nat (n + 32)) \/
  (exists n, 65 <= n <= 90 /\ b = ascii_of_nat n /\ a = ascii_of_nat (n + 32)).

(** Two strings agree up to ASCII case. *)
Inductive ci : string -> string -> Prop :=
| ci_nil : ci "" ""
| ci_cons a b s t : ci_byte a b -> ci s t -> ci (String a s) (String b t).

(** The relation named by each string operator; numeric operators name none. *)
Definition str_rel (op : operator) (l r : string) : Prop :=
  match op with
  | OpEq => l = r
  | OpIEq => ci l r
  | OpContains => exists a b, l = (a ++ r ++ b)%string
  | OpIContains => exists a m b, l = (a ++ m ++ b)%string /\ ci m r
  | OpStartswith => exists b, l = (r ++ b)%string
  | OpIStartswith => exists m b, l = (m ++ b)%string /\ ci m r
  | OpEndswith => exists a, l = (a ++ r)%string
  | OpIEndswith => exists a m, l = (a ++ m)%string /\ ci m r
  | _ => False
  end.

Definition is_str_op (op : operator) : bool :=
  match op with OpLt | OpLEq | OpGt | OpGEq => false | _ => true end.

(** The relation named by each numeric operator. *)
Definition int_rel (op : operator) (l r : Z) : Prop :=
  match op with
  | OpEq => l = r
  | OpLt => (l < r)%Z
  | OpLEq => (l <= r)%Z
  | OpGt => (l > r)%Z
  | OpGEq => (l >= r)%Z
  | _ => False
  end.

Definition is_int_op (op : operator) : bool :=
  match op with OpEq | OpLt | OpLEq | OpGt | OpGEq => true | _ => false end.

(** [x] is one of the comma-separated components of [s]. *)
Fixpoint comma_free (s : string) : Prop :=
  match s with EmptyString => True | String a s' => a <> ","%char /\ comma_free s' end.

Definition component (s x : string) : Prop :=
  exists l, l <> [] /\ Forall comma_free l /\ s = join "," l /\ In x l.

(** [file_name path n]: [n] is the last component of [path], without trailing slashes; "." for
    the empty path and "/" for slashes only. *)
Fixpoint slashes (s : string) : Prop :=
  match s with EmptyString => True | String a s' => a = "/"%char /\ slashes s' end.
Fixpoint slash_free (s : string) : Prop :=
  match s with EmptyString => True | String a s' => a <> "/"%char /\ slash_free s' end.
Definition file_name (path n : string) : Prop :=
  (path = "" /\ n = ".") \/ (path <> "" /\ slashes path /\ n = "/") \/
  (exists d sl, path = (d ++ n ++ sl)%string /\ slashes sl /\ n <> "" /\ slash_free n /\
     (d = "" \/ exists d', d = (d' ++ "/")%string)).
(** The command line of a program with arguments. *)
Definition command_line (exe args line : string) : Prop :=
  (args = "" /\ line = exe) \/ (args <> "" /\ line = (exe ++ " " ++ args)%string).
