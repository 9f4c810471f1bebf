(** * GrammarParser: a recursive-descent parser for the grammar of GrammarModel.

    It is not the parser of the program (that one is generated by ANTLR): it is the
    decision procedure used in the proofs, shown sound and complete for the grammar. *)
From Verif Require Import GoBase FalcoModel GrammarModel.

(** The atoms of a bracketed list after '['; [Some (atoms, trailing comma, rest)]. *)
Fixpoint p_list (ts : list tok) : option (items * list tok) :=
  match ts with
  | a :: ts1 =>
      if is_atom (tk a) then
        match ts1 with
        | c :: ts2 =>
            match tk c with
            | KRbrack => Some (mkItems [tx a] false, ts2)
            | KListsep =>
                match ts2 with
                | r :: ts3 => if kind_beq (tk r) KRbrack then Some (mkItems [tx a] true, ts3)
                              else match p_list ts2 with
                                   | Some (it, rest) => Some (mkItems (tx a :: it_atoms it) (it_trail it), rest)
                                   | None => None
                                   end
                | [] => None
                end
            | _ => None
            end
        | [] => None
        end
      else None
  | [] => None
  end.
Definition p_items (ts : list tok) : option (items * list tok) :=
  match ts with
  | l :: ts1 =>
      if kind_beq (tk l) KLbrack then
        match ts1 with
        | r :: ts2 =>
            match tk r with
            | KRbrack => Some (mkItems [] false, ts2)
            | KListsep => match ts2 with
                          | r' :: ts3 => if kind_beq (tk r') KRbrack then Some (mkItems [] true, ts3) else None
                          | [] => None
                          end
            | _ => p_list ts1
            end
        | [] => None
        end
      else None
  | [] => None
  end.
Definition p_arg (ts : list tok) : option (listarg * list tok) :=
  match ts with
  | a :: ts1 =>
      if is_atom (tk a) then Some (LAtom (tx a), ts1)
      else match p_items ts with Some (it, rest) => Some (LItems it, rest) | None => None end
  | [] => None
  end.
Fixpoint p_args (n : nat) (ts : list tok) : option (list listarg * list tok) :=
  match n with
  | O => None
  | S n' =>
      match p_arg ts with
      | Some (a, c :: rest) =>
          if kind_beq (tk c) KListsep then
            match p_args n' rest with Some (l, rest') => Some (a :: l, rest') | None => None end
          else Some ([a], c :: rest)
      | Some (a, []) => Some ([a], [])
      | None => None
      end
  end.
(** Tokens that can follow the first atom of a basic test. *)
Definition is_op (k : kind) : bool :=
  match k with KExists | KIn | KPmatch => true | _ => match binop_of k with Some _ => true | None => false end end.

Definition p_test (a o : tok) (ts : list tok) : option (term * list tok) :=
  match tk o with
  | KExists => Some (TExists (tx a), ts)
  | KIn | KPmatch =>
      match ts with
      | l :: ts1 =>
          if kind_beq (tk l) KLparen then
            match p_args (length ts1) ts1 with
            | Some (args, r :: rest) =>
                if kind_beq (tk r) KRparen
                then Some ((if kind_beq (tk o) KIn then TIn else TPmatch) (tx a) args, rest) else None
            | _ => None
            end
          else None
      | [] => None
      end
  | k => match binop_of k, ts with
         | Some op, b :: rest => if is_atom (tk b) then Some (TBin (tx a) op (tx b), rest) else None
         | _, _ => None
         end
  end.

Fixpoint p_term (n : nat) (ts : list tok) : option (term * list tok) :=
  match n with
  | O => None
  | S n' =>
      match ts with
      | [] => None
      | t :: ts1 =>
          match tk t with
          | KNot => match p_term n' ts1 with Some (u, rest) => Some (TNot u, rest) | None => None end
          | KLparen => match p_expr n' ts1 with
                       | Some (e, r :: rest) => if kind_beq (tk r) KRparen then Some (TParen e, rest) else None
                       | _ => None
                       end
          | k =>
              let var := if kind_beq k KId then Some (TVar (tx t), ts1) else None in
              match ts1 with
              | o :: ts2 => if is_op (tk o) then (if is_atom k then p_test t o ts2 else None) else var
              | [] => var
              end
          end
      end
  end
with p_and (n : nat) (ts : list tok) : option (list term * list tok) :=
  match n with
  | O => None
  | S n' =>
      match p_term n' ts with
      | Some (t, a :: rest) =>
          if kind_beq (tk a) KAnd then
            match p_and n' rest with Some (l, rest') => Some (t :: l, rest') | None => None end
          else Some ([t], a :: rest)
      | Some (t, []) => Some ([t], [])
      | None => None
      end
  end
with p_expr (n : nat) (ts : list tok) : option (expr * list tok) :=
  match n with
  | O => None
  | S n' =>
      match p_and n' ts with
      | Some (c, o :: rest) =>
          if kind_beq (tk o) KOr then
            match p_expr n' rest with Some (e, rest') => Some (c :: e, rest') | None => None end
          else Some ([c], o :: rest)
      | Some (c, []) => Some ([c], [])
      | None => None
      end
  end.
Definition fuel_of (ts : list tok) : nat := 3 * length ts + 3.
Definition parse_expr (ts : list tok) : option expr :=
  match p_expr (fuel_of ts) ts with Some (e, []) => Some e | _ => None end.

(** The longest prefix of tokens allowed in a text and satisfying [ok]. *)
Fixpoint p_run (ok : kind -> bool) (ts : list tok) : list tok * list tok :=
  match ts with
  | t :: ts' => if negb (reserved_text (tx t)) && ok (tk t)
                then let (a, b) := p_run ok ts' in (t :: a, b) else ([], ts)
  | [] => ([], [])
  end.
Definition p_text (ok : kind -> bool) (ts : list tok) : option (string * list tok) :=
  match p_run ok ts with
  | ([], _) => None
  | (a, b) => Some (source_text a, b)
  end.
Definition not_decl (k : kind) : bool := negb (kind_beq k KDecl).

Definition p_atom (ts : list tok) : option (string * list tok) :=
  match ts with t :: rest => if is_atom (tk t) then Some (tx t, rest) else None | [] => None end.
Definition p_sev (ts : list tok) : option (string * list tok) :=
  match ts with t :: rest => if kind_beq (tk t) KSeverity then Some (tx t, rest) else None | [] => None end.
Definition omap {A B} (f : A -> B) (x : option (A * list tok)) : option (B * list tok) :=
  match x with Some (a, rest) => Some (f a, rest) | None => None end.
Definition is_opt (k : kind) : bool :=
  match k with
  | KOutput | KActions | KPriority | KTags | KPrefilter | KEnabled | KWarn | KSkip => true
  | _ => false
  end.
Definition p_opt (k : kind) (ts : list tok) : option (ropt * list tok) :=
  match k with
  | KOutput => omap OOutput (p_text not_decl ts)
  | KActions => omap OActions (p_items ts)
  | KPriority => omap OPriority (p_sev ts)
  | KTags => omap OTags (p_items ts)
  | KPrefilter => omap OPrefilter (p_items ts)
  | KEnabled => omap OEnabled (p_atom ts)
  | KWarn => omap OWarn (p_atom ts)
  | KSkip => omap OSkip (p_atom ts)
  | _ => None
  end.
Fixpoint p_opts (n : nat) (ts : list tok) : option (list ropt * list tok) :=
  match n with
  | O => None
  | S n' =>
      match ts with
      | o :: ts1 =>
          if is_opt (tk o) then
            match ts1 with
            | d :: ts2 =>
                if kind_beq (tk d) KDef then
                  match p_opt (tk o) ts2 with
                  | Some (x, rest) =>
                      match p_opts n' rest with Some (l, rest') => Some (x :: l, rest') | None => None end
                  | None => None
                  end
                else None
            | [] => None
            end
          else Some ([], ts)
      | [] => Some ([], [])
      end
  end.

Definition expect (k : kind) (ts : list tok) : option (list tok) :=
  match ts with t :: rest => if kind_beq (tk t) k then Some rest else None | [] => None end.
Definition expect_def (k : kind) (ts : list tok) : option (list tok) :=
  match expect k ts with Some r => expect KDef r | None => None end.
Definition p_cond (ts : list tok) : option (expr * list tok) :=
  match expect_def KCond ts with
  | Some r => p_expr (fuel_of r) r
  | None => None
  end.
(** The optional last field of a filter or a macro. *)
Definition p_last (k : kind) (ts : list tok) : option (option string * list tok) :=
  match ts with
  | t :: _ => if kind_beq (tk t) k
              then match expect_def k ts with Some r => omap Some (p_atom r) | None => None end
              else Some (None, ts)
  | [] => Some (None, [])
  end.
Definition all_kinds (_ : kind) : bool := true.
(** A declaration after its '-'. *)
Definition p_decl (ts : list tok) : option (decl * list tok) :=
  match ts with
  | k :: t :: r0 =>
      if negb (kind_beq (tk k) KDecl) then None else
      match r0 with
      | d :: r =>
      if negb (kind_beq (tk d) KDef) then None else
      match tk t with
      | KRule =>
          match p_text all_kinds r with
          | Some (name, r1) =>
              match expect_def KDesc r1 with
              | Some r2 =>
                  match p_text all_kinds r2 with
                  | Some (desc, r3) =>
                      match p_cond r3 with
                      | Some (e, r4) =>
                          match p_opts (S (length r4)) r4 with
                          | Some (os, r5) => Some (DRule (mkRuleDecl name desc e os), r5)
                          | None => None
                          end
                      | None => None
                      end
                  | None => None
                  end
              | None => None
              end
          | None => None
          end
      | KDrop | KFilter | KMacro =>
          match r with
          | x :: r1 =>
              if negb (kind_beq (tk x) KId) then None else
              match p_cond r1 with
              | Some (e, r2) =>
                  if kind_beq (tk t) KMacro
                  then omap (DMacro (tx x) e) (p_last KAppend r2)
                  else omap (fun en => DFilter (mkFilterDecl (tx x) e en)) (p_last KEnabled r2)
              | None => None
              end
          | [] => None
          end
      | KList =>
          match r with
          | x :: r1 =>
              if negb (kind_beq (tk x) KId) then None else
              match expect_def KItems r1 with
              | Some r2 => omap (DList (tx x)) (p_items r2)
              | None => None
              end
          | [] => None
          end
      | KReq => omap DReq (p_atom r)
      | _ => None
      end
      | [] => None
      end
  | _ => None
  end.
Fixpoint p_defs (n : nat) (ts : list tok) : option (list decl) :=
  match n with
  | O => None
  | S n' =>
      match ts with
      | [] => Some []
      | _ => match p_decl ts with
             | Some (d, rest) => match p_defs n' rest with Some l => Some (d :: l) | None => None end
             | None => None
             end
      end
  end.
Definition parse_policy (ts : list tok) : option (list decl) :=
  match p_defs (S (length ts)) ts with
  | Some [] => None
  | x => x
  end.
