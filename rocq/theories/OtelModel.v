(** * OtelModel: core/policyengine/source/otel/{operations,operator,contextualizer,prefilter}.go *)
From Verif Require Import GoBase Predicates.

Section Otel.
(** Doubles are abstract: their parser and comparisons are parameters. *)
Variable D : Type.
Variable parse_float : string -> option D.          (* strconv.ParseFloat(_, 64) *)
Variables deq dlt dle : D -> D -> bool.

(** An element of an array: only strings are inspected (operator.go:79-97). *)
Inductive elem := EStr (s : string) | EOther (n : nat).
(** AnyValue (otlp common/v1).  [ANil]: the KeyValue has no value (nil pointer, which is what
    protobuf decoding yields for an absent field); [AUnset]: a value with no alternative set. *)
Inductive any :=
| AStr (s : string) | AArr (l : option (list elem)) | ABool (b : bool) | ABytes (s : string)
| ADouble (d : D) | AInt (z : Z) | AKv (l : option (list (string * any))) | AUnset | ANil.
Definition kvs := list (string * any).

(** < on strings: byte-wise lexicographic. *)
Fixpoint str_ltb (a b : string) : bool :=
  match a, b with
  | _, EmptyString => false
  | EmptyString, String _ _ => true
  | String x a', String y b' =>
      if Nat.ltb (nat_of_ascii x) (nat_of_ascii y) then true
      else if Ascii.eqb x y then str_ltb a' b' else false
  end.
(** operator.go:28-64 *)
Definition do_string (s r : string) (op : operator) : bool :=
  match op with
  | OpEq => seqb s r
  | OpIEq => equal_fold s r
  | OpContains => contains s r
  | OpIContains => contains (to_lower s) (to_lower r)
  | OpStartswith => has_prefix s r
  | OpIStartswith => has_prefix (to_lower s) (to_lower r)
  | OpEndswith => has_suffix s r
  | OpIEndswith => has_suffix (to_lower s) (to_lower r)
  | OpLt => str_ltb s r
  | OpLEq => negb (str_ltb r s)
  | OpGt => str_ltb r s
  | OpGEq => negb (str_ltb s r)
  end.
(** operator.go:79-88, 90-98 *)
Fixpoint any_elem (r : string) (op : operator) (l : list elem) : bool :=
  match l with
  | [] => false
  | EStr s :: l' => if do_string s r op then true else any_elem r op l'
  | EOther _ :: l' => any_elem r op l'
  end.
Definition elem_is (eq : string -> string -> bool) (r : string) (e : elem) : bool :=
  match e with EStr s => eq s r | EOther _ => false end.
Definition last_elem (l : list elem) : option elem := nth_error l (length l - 1).
(** operator.go:66-142.  A nil array panics except under Contains; an empty one panics under the
    prefix and suffix operators (index out of range). *)
Definition do_array (a : option (list elem)) (r : string) (op : operator) : res bool :=
  match op with
  | OpContains => match a with None => Ok false | Some l => Ok (any_elem r op l) end
  | OpIContains => match a with None => Panic | Some l => Ok (any_elem r op l) end
  | OpStartswith => match a with Some (e :: _) => Ok (elem_is seqb r e) | _ => Panic end
  | OpIStartswith => match a with Some (e :: _) => Ok (elem_is equal_fold r e) | _ => Panic end
  | OpEndswith => match a with Some l => match l with [] => Panic | _ => match last_elem l with Some e => Ok (elem_is seqb r e) | None => Panic end end | None => Panic end
  | OpIEndswith => match a with Some l => match l with [] => Panic | _ => match last_elem l with Some e => Ok (elem_is equal_fold r e) | None => Panic end end | None => Panic end
  | _ => Ok false
  end.
(** operator.go:144-178 *)
Definition do_bool (b : bool) (r : string) (op : operator) : bool :=
  let rv := negb (seqb r "False") in
  match op with OpEq | OpIEq => Bool.eqb b rv | _ => false end.
(** operator.go:180-211 *)
Definition do_bytes (s r : string) (op : operator) : bool :=
  match op with
  | OpEq => seqb s r | OpIEq => equal_fold s r | OpContains => contains s r
  | OpStartswith => has_prefix s r | OpEndswith => has_suffix s r | _ => false
  end.
(** operator.go:213-247 *)
Definition do_double (d : D) (r : string) (op : operator) : bool :=
  match parse_float (trim_space r) with
  | None => false
  | Some x => match op with
              | OpEq => deq d x | OpLt => dlt d x | OpLEq => dle d x | OpGt => dlt x d | OpGEq => dle x d | _ => false
              end
  end.
(** operator.go:249-283 *)
Definition do_int (z : Z) (r : string) (op : operator) : bool :=
  match parse_int64 (trim_space r) with
  | None => false
  | Some x => match op with
              | OpEq => Z.eqb z x | OpLt => Z.ltb z x | OpLEq => Z.leb z x | OpGt => Z.ltb x z | OpGEq => Z.leb x z | _ => false
              end
  end.

(** operations.go:65-95 [compareHelper]; [cmp_value] is its switch, [None] when no case applies. *)
Fixpoint cmp_value (k r : string) (op : operator) (v : any) : option (res bool) :=
  match v with
  | AStr s => Some (Ok (do_string s r op))
  | AArr a => Some (do_array a r op)
  | ABool b => Some (Ok (do_bool b r op))
  | ABytes s => Some (Ok (do_bytes s r op))
  | ADouble d => Some (Ok (do_double d r op))
  | AInt z => Some (Ok (do_int z r op))
  | AKv None => Some Panic
  | AKv (Some l) =>
      Some ((fix loop (l : kvs) : res bool :=
               match l with
               | [] => Ok false
               | (k', v') :: l' => if seqb k' k then match cmp_value k r op v' with Some b => b | None => loop l' end else loop l'
               end) l)
  | AUnset => None
  | ANil => Some Panic
  end.
Fixpoint compare_helper (k r : string) (op : operator) (l : kvs) : res bool :=
  match l with
  | [] => Ok false
  | (k', v) :: l' => if seqb k' k then match cmp_value k r op v with Some b => b | None => compare_helper k r op l' end else compare_helper k r op l'
  end.

(** ScopeLogs and ResourceLogs: the parts that are read or written. *)
Record scope := mkScope { sc_name : string; sc_attrs : kvs }.
Record scopelog := mkSL { sl_scope : option scope; sl_records : list kvs }.
Record logs := mkLogs { l_resource : option kvs; l_scopes : list scopelog }.
(** operations.go:33-49 [getAllAttributes]; an absent resource panics. *)
Definition sl_attrs (sl : scopelog) : kvs :=
  match sl_scope sl with Some s => sc_attrs s | None => [] end ++ concat (sl_records sl).
Definition all_attrs (r : logs) : res kvs :=
  match l_resource r with None => Panic | Some a => Ok (fold_left (fun acc sl => acc ++ sl_attrs sl) (l_scopes r) a) end.
(** operations.go:51-63 *)
Definition o_exists (attr : string) (r : logs) : res bool :=
  let* a := all_attrs r in Ok (existsb (fun kv => seqb (fst kv) attr) a).
(** operations.go:97-105 *)
Definition o_compare (lattr rattr : string) (op : operator) (r : logs) : res bool :=
  let* a := all_attrs r in compare_helper lattr rattr op a.
(** operations.go:107-119 *)
Fixpoint fold_any (attr : string) (l : list string) (op : operator) (a : kvs) : res bool :=
  match l with
  | [] => Ok false
  | x :: l' => let* b := compare_helper attr x op a in if b then Ok true else fold_any attr l' op a
  end.
Definition o_foldany (attr : string) (l : list string) (op : operator) (r : logs) : res bool :=
  let* a := all_attrs r in fold_any attr l op a.
(** operations.go:121-133 *)
Fixpoint fold_all (attr : string) (l : list string) (op : operator) (a : kvs) : res bool :=
  match l with
  | [] => Ok true
  | x :: l' => let* b := compare_helper attr x op a in if b then fold_all attr l' op a else Ok false
  end.
Definition o_foldall (attr : string) (l : list string) (op : operator) (r : logs) : res bool :=
  let* a := all_attrs r in fold_all attr l op a.
(** operations.go:135-155; [find] is the compiled expression's FindString. *)
Fixpoint regexp_loop (find : string -> string) (attr : string) (l : kvs) : res bool :=
  match l with
  | [] => Ok false
  | (k, v) :: l' =>
      if seqb k attr then match v with ANil => Panic | AStr s => Ok (negb (seqb (find s) "")) | _ => Ok false end
      else regexp_loop find attr l'
  end.
Definition o_regexp (find : string -> string) (attr : string) (r : logs) : res bool :=
  let* a := all_attrs r in regexp_loop find attr a.

(** ** Annotation: contextualizer.go *)
Definition SCOPE : string := "sf-processor".
Definition RULES : string := "sf.processor.rules".
Definition TAGS : string := "sf.processor.tags".
(** contextualizer.go:97-115 [getOrCreateAttribute]: the attributes and the index of the one returned. *)
Definition get_attr (attrs : kvs) (key : string) : kvs * nat :=
  let n := length attrs in
  let at_ (i : nat) := match nth_error attrs i with Some (k, _) => seqb k key | None => false end in
  if (1 <? n) && at_ (n - 2) then (attrs, n - 2)
  else if (0 <? n) && at_ (n - 1) then (attrs, n - 1)
  else (attrs ++ [(key, AArr (Some []))], n).
(** contextualizer.go:46-50, 66-70: append a string to the array of the i-th attribute. *)
Definition push_str (attrs : kvs) (i : nat) (s : string) : res kvs :=
  match nth_error attrs i with
  | Some (k, AArr (Some l)) => Ok (upd attrs i (k, AArr (Some (l ++ [EStr s]))))
  | _ => Panic                                     (* failed type assertion, or a nil array *)
  end.
Fixpoint push_all (attrs : kvs) (i : nat) (l : list string) : res kvs :=
  match l with [] => Ok attrs | s :: l' => let* a := push_str attrs i s in push_all a i l' end.
(** A rule, as far as AddRules reads it. *)
Definition orule := (string * list tag)%type.
Definition tag_strings (t : tag) : list string := match t with TagStr s => [s] | TagList l => l end.
(** contextualizer.go:44: the keys of [tags], a set. *)
Definition tag_set (rules : list orule) : list string :=
  nodup string_dec (flat_map (fun r => flat_map tag_strings (snd r)) rules).
(** contextualizer.go:34-72.  [enum] is the iteration order of the map of tags. *)
Definition annotate (enum : list string -> list string) (rules : list orule) (attrs : kvs) : res kvs :=
  let '(a1, ir) := get_attr attrs RULES in
  let '(a2, it) := get_attr a1 TAGS in
  let* a3 := push_all a2 ir (map fst rules) in
  push_all a3 it (enum (tag_set rules)).
(** contextualizer.go:84-95: the first scope of that name, or a new one at the end. *)
Fixpoint in_scope (f : kvs -> res kvs) (l : list scopelog) : res (list scopelog) :=
  match l with
  | [] => let* a := f [] in Ok [mkSL (Some (mkScope SCOPE a)) []]
  | sl :: l' =>
      match sl_scope sl with
      | Some s => if seqb (sc_name s) SCOPE then let* a := f (sc_attrs s) in Ok (mkSL (Some (mkScope (sc_name s) a)) (sl_records sl) :: l')
                  else let* l1 := in_scope f l' in Ok (sl :: l1)
      | None => let* l1 := in_scope f l' in Ok (sl :: l1)
      end
  end.
Definition o_addrules (enum : list string -> list string) (rules : list orule) (r : logs) : res logs :=
  let* s := in_scope (annotate enum rules) (l_scopes r) in Ok (mkLogs (l_resource r) s).
End Otel.
