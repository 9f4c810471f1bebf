(** * SpecOtel: which attribute decides, what a comparison means, what annotation leaves. *)
From Coq Require Export Permutation.
From Verif Require Import GoBase Predicates SpecStrings OtelModel.

Section S.
Variable D : Type.
Variable parse_float : string -> option D.
Variables deq dlt dle : D -> D -> bool.
Notation any := (any D).
Notation kvs := (kvs D).

(** The attributes of a log in the documented order: resource, then for each scope its own and
    those of its records. *)
Definition attributes (a : kvs) (scopes : list (scopelog D)) : kvs :=
  a ++ flat_map (fun sl => match sl_scope _ sl with Some s => sc_attrs _ s | None => [] end ++ concat (sl_records _ sl)) scopes.
(** A value with an alternative set that is not a key-value list. *)
Definition leaf (v : any) : Prop :=
  match v with AUnset _ | AKv _ (Some _) => False | _ => True end.
(** [decides k l v]: v is the value found first under key k; key-value lists under the key are
    searched for the key again. *)
Inductive decides (k : string) : kvs -> any -> Prop :=
| D_other : forall k' v l w, k' <> k -> decides k l w -> decides k ((k', v) :: l) w
| D_unset : forall l w, decides k l w -> decides k ((k, AUnset D) :: l) w
| D_leaf : forall v l, leaf v -> decides k ((k, v) :: l) v
| D_nested : forall l' l w, decides k l' w -> decides k ((k, AKv D (Some l')) :: l) w.

(** [v] is the value of the first attribute of key [k]. *)
Definition first_value (k : string) (l : kvs) (v : any) : Prop :=
  exists pre post, l = pre ++ (k, v) :: post /\ forall w, ~ In (k, w) pre.

(** Lexicographic order on byte strings. *)
Inductive slt : string -> string -> Prop :=
| slt_nil : forall b s, slt "" (String b s)
| slt_byte : forall a b s t, nat_of_ascii a < nat_of_ascii b -> slt (String a s) (String b t)
| slt_cons : forall a s t, slt s t -> slt (String a s) (String a t).
Definition string_rel (op : operator) (l r : string) : Prop :=
  match op with
  | OpLt => slt l r
  | OpLEq => slt l r \/ l = r
  | OpGt => slt r l
  | OpGEq => slt r l \/ l = r
  | _ => str_rel op l r
  end.
(** What a comparison of a value with an operand text means. *)
Definition any_rel (op : operator) (v : any) (r : string) : Prop :=
  match v with
  | AStr _ s => string_rel op s r
  | AInt _ z => exists n, parse_int64 (trim_space r) = Some n /\ int_rel op z n
  | ADouble _ d => exists x, parse_float (trim_space r) = Some x /\
      match op with OpEq => deq d x | OpLt => dlt d x | OpLEq => dle d x | OpGt => dlt x d | OpGEq => dle x d | _ => false end = true
  | ABool _ b => (op = OpEq \/ op = OpIEq) /\ (b = false <-> r = "False")
  | ABytes _ s => match op with OpEq | OpIEq | OpContains | OpStartswith | OpEndswith => str_rel op s r | _ => False end
  | AArr _ (Some l) =>
      match op with
      | OpContains | OpIContains => exists s, In (EStr s) l /\ str_rel op s r
      | OpStartswith => exists l', l = EStr r :: l'
      | OpIStartswith => exists s l', l = EStr s :: l' /\ ci s r
      | OpEndswith => exists l', l = l' ++ [EStr r]
      | OpIEndswith => exists s l', l = l' ++ [EStr s] /\ ci s r
      | _ => False
      end
  | _ => False
  end.
(** Values on which a comparison crashes. *)
Definition crashes (op : operator) (v : any) : Prop :=
  match v with
  | ANil _ | AKv _ None => True
  | AArr _ None => match op with OpIContains | OpStartswith | OpIStartswith | OpEndswith | OpIEndswith => True | _ => False end
  | AArr _ (Some []) => match op with OpStartswith | OpIStartswith | OpEndswith | OpIEndswith => True | _ => False end
  | _ => False
  end.

(** The words a user may write for a Boolean. *)
Definition says (r : string) (b : bool) : Prop := parse_bool r = Some b.

(** A scope that is not the processor's own. *)
Definition foreign (sl : scopelog D) : Prop := forall s, sl_scope _ sl = Some s -> sc_name _ s <> "sf-processor".
(** The attributes a scope has besides the two the processor maintains. *)
Definition others (a : kvs) : kvs := List.filter (fun kv => negb (seqb (fst kv) "sf.processor.rules") && negb (seqb (fst kv) "sf.processor.tags")) a.
(** An array of strings; the processor's scope with these rule names and tags. *)
Definition arr (l : list string) : any := AArr D (Some (map EStr l)).
Definition own (rs ts : list string) : scopelog D := mkSL D (Some (mkScope D "sf-processor" [("sf.processor.rules", arr rs); ("sf.processor.tags", arr ts)])) [].
(** A history of annotations: each with its own map iteration order. *)
Fixpoint annotations (h : list ((list string -> list string) * list orule)) (r : logs D) : res (logs D) :=
  match h with [] => Ok r | (e, rules) :: h' => let* r1 := o_addrules D e rules r in annotations h' r1 end.
Definition names (h : list ((list string -> list string) * list orule)) : list string := flat_map (fun c => map fst (snd c)) h.
Definition tags (h : list ((list string -> list string) * list orule)) : list string := flat_map (fun c => fst c (tag_set (snd c))) h.
End S.
