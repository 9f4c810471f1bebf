(** * SpecSigma: meaning of Sigma conditions, field matchers and value transformations. *)
From Verif Require Import GoBase Predicates FlatRecord SpecFlat FalcoModel SpecFalco SigmaModel.

(** What the data source says about a record. *)
Record satomic := mkSAtomic { sa_cmp : string -> operator -> string -> Prop; sa_re : string -> string -> Prop }.

Section S.
Variable mappings : gomap (list string).
Variable pmatch : string -> string -> bool.
Variable A : satomic.

(** The comparison a modifier names. *)
Inductive mod_op : string -> operator -> Prop :=
| mo_contains : mod_op "contains" OpIContains
| mo_starts : mod_op "startswith" OpIStartswith
| mo_ends : mod_op "endswith" OpIEndswith
| mo_lt : mod_op "lt" OpLt | mo_lte : mod_op "lte" OpLEq
| mo_gt : mod_op "gt" OpGt | mo_gte : mod_op "gte" OpGEq.

(** The field after the configured mapping. *)
Definition target (f t : string) : Prop :=
  (exists l, mget f mappings = Some (t :: l)) \/ (mget f mappings = None /\ t = f).

(** [v] in the field satisfies all comparison modifiers; equality up to case if none. *)
Definition value_holds (mods : list string) (f v : string) : Prop :=
  exists t, target f t /\
  ((exists m op, In m mods /\ mod_op m op) \/ sa_cmp A t OpIEq v) /\
  (forall m op, In m mods -> mod_op m op -> sa_cmp A t op v).

(** The forms of a value under one transforming modifier. *)
Inductive form_of : string -> string -> string -> Prop :=
| fo_b64 v : form_of "base64" v (b64 v)
| fo_dash v : form_of "windash" v v
| fo_dash' v : form_of "windash" v (windash v)
| fo_utf16 v : form_of "utf16" v v | fo_utf16le v : form_of "utf16le" v v
| fo_utf16be v : form_of "utf16be" v v | fo_wide v : form_of "wide" v v.
Definition transforming (m : string) : Prop :=
  In m ["base64"; "base64Offset"; "utf16"; "utf16le"; "utf16be"; "wide"; "windash"; "cidr"].

Definition form (mods : list string) (v w : string) : Prop :=
  (exists m, In m mods /\ form_of m v w) \/ ((forall m, In m mods -> ~ transforming m) /\ w = v).

Definition fm_value_holds (fm : fieldmatcher) (v : string) : Prop :=
  exists w, form (fm_mods fm) v w /\ value_holds (fm_mods fm) (fm_field fm) w.
Definition fm_holds (fm : fieldmatcher) : Prop :=
  (In "all" (fm_mods fm) -> forall v, In v (fm_values fm) -> fm_value_holds fm v) /\
  (~ In "all" (fm_mods fm) -> exists v, In v (fm_values fm) /\ fm_value_holds fm v).
Definition search_holds (s : search) : Prop :=
  se_keywords s = [] /\ forall em fm, In em (se_matchers s) -> In fm em -> fm_holds fm.

(** Truth of a condition. *)
Variable searches : gomap search.
Fixpoint cond_holds (e : sexpr) : Prop :=
  match e with
  | SId n => exists s, mget n searches = Some s /\ search_holds s
  | SAnd l => fold_right (fun e P => cond_holds e /\ P) True l
  | SOr l => fold_right (fun e P => cond_holds e \/ P) False l
  | SNot e => ~ cond_holds e
  | SOneOfThem => exists n s, In (n, s) searches /\ search_holds s
  | SOneOfPattern p => exists n s, In (n, s) searches /\ pmatch p n = true /\ search_holds s
  | SAllOfThem => forall n s, In (n, s) searches -> search_holds s
  | SAllOfPattern p => forall n s, In (n, s) searches -> pmatch p n = true -> search_holds s
  | SOther => False
  end.
End S.

Definition smodels {R} (ops : operations R) (r : R) (A : satomic) : Prop :=
  (forall l rr op c, op_compare ops l rr op = Ok (c, false) -> (c r = true <-> sa_cmp A l op rr)) /\
  (forall l re c, op_regexp ops l re = Ok (c, false) -> (c r = true <-> sa_re A l re)).

(** ** A base64 decoder, written independently of the encoder. *)
Definition b64_alphabet : string := "ABCDEFGHIJKLMNOPQRSTUVWXYZabcdefghijklmnopqrstuvwxyz0123456789+/".
Fixpoint index_of (a : ascii) (s : string) : option nat :=
  match s with
  | EmptyString => None
  | String b s' => if Ascii.eqb a b then Some 0 else option_map S (index_of a s')
  end.
Definition sextet (a : ascii) : option nat := index_of a b64_alphabet.
Fixpoint unbase64 (s : string) : option string :=
  match s with
  | EmptyString => Some EmptyString
  | String a (String b (String c (String d s'))) =>
      match sextet a, sextet b with
      | Some p, Some q =>
          let x := ascii_of_nat (p * 4 + q / 16) in
          match sextet c with
          | None => if Ascii.eqb c "=" && Ascii.eqb d "=" && seqb s' "" then Some (String x "") else None
          | Some r =>
              let y := ascii_of_nat (q mod 16 * 16 + r / 4) in
              match sextet d with
              | None => if Ascii.eqb d "=" && seqb s' "" then Some (String x (String y "")) else None
              | Some t =>
                  match unbase64 s' with
                  | Some rest => Some (String x (String y (String (ascii_of_nat (r mod 4 * 64 + t)) rest)))
                  | None => None
                  end
              end
          end
      | _, _ => None
      end
  | _ => None
  end.

(** ** Whole rule files *)
(** A search the compiler accepts without panicking: no `base64Offset` or `cidr` modifier, no
    empty mapping, and target fields and value forms that the data source accepts. *)
Definition search_usable (mappings : gomap (list string)) (P : string -> Prop) (s : search) : Prop :=
  forall em fm, In em (se_matchers s) -> In fm em ->
  (forall m, In m (fm_mods fm) -> m <> "base64Offset" /\ m <> "cidr") /\
  mget (fm_field fm) mappings <> Some [] /\
  (forall t, target mappings (fm_field fm) t -> P t) /\
  (forall v w, In v (fm_values fm) -> form (fm_mods fm) v w -> P w).

(** The level word of a rule (any case); informational if missing or unknown. *)
Definition level_words : list (string * priority) :=
  [("informational", PInformational); ("low", PLow); ("medium", PMedium); ("high", PHigh); ("critical", PCritical)].
Definition level_is (s : string) (p : priority) : Prop :=
  In (to_lower s, p) level_words \/ ((forall q, ~ In (to_lower s, q) level_words) /\ p = PInformational).

(** [ru] is the rule produced for condition [snd x] of Sigma rule [fst x]. *)
Definition srule_of {R} (ops : operations R) mappings pmatch (x : srule * sexpr) (ru : rule R) : Prop :=
  let (r, e) := x in
  r_name ru = sr_id r /\ r_desc ru = sr_desc r /\ r_actions ru = [] /\ r_tags ru = map TagStr (sr_tags r) /\
  level_is (sr_level r) (r_prio ru) /\ r_prefilter ru = [] /\ r_enabled ru = true /\
  forall rec A, smodels ops rec A -> (r_cond ru rec = true <-> cond_holds mappings pmatch A (sr_searches r) e).

(** The rules of the files that parse, in file order; every file could be read. *)
Inductive readable : list (option (option srule)) -> list srule -> Prop :=
| rd_nil : readable [] []
| rd_rule r fs rs : readable fs rs -> readable (Some (Some r) :: fs) (r :: rs)
| rd_skip fs rs : readable fs rs -> readable (Some None :: fs) rs.

(** What a flattened record says about the basic tests. *)
Definition flat_satomic (X : sfgo_fns) (M : gomap fieldmap) (fr : flatrec) : satomic := mkSAtomic
  (a_cmp (flat_atomic X M fr))
  (fun l re => exists find m, x_regfind X re = Some find /\ map_str X M l = Ok m /\ find (m fr) <> "").
