(** * SigmaModel: core/policyengine/policy/sigma/{compiler,modifiers,transformer}.go.

    Parsing of YAML rule files (sigma-go) is not modelled: the model starts from the parsed
    rules and configuration. *)
From Coq Require Import NArith.
From Verif Require Import GoBase Predicates FalcoModel.

(** ** transformer.go *)
(** transformer.go:29-40 *)
Definition flags := N.
Definition NoFlags : flags := 0%N.
Definition Base64Flag : flags := 1%N.
Definition Base64OffsetFlag : flags := 2%N.
Definition WinDashFlag : flags := 4%N.
Definition CIDRFlag : flags := 8%N.
(** transformer.go:43-49 *)
Definition fl_set (s f : flags) : flags := N.lor s f.
Definition fl_clear (s f : flags) : flags := N.ldiff s f.
Definition fl_has (s f : flags) : bool := negb (N.eqb (N.land s f) NoFlags).

(** transformer.go:96-98: strings.ReplaceAll(src, "-", "/") *)
Definition windash (s : string) : string :=
  smap (fun a => if Ascii.eqb a "-"%char then "/"%char else a) s.

(** encoding/base64 StdEncoding.EncodeToString (transformer.go:93): groups of three bytes
    become four characters of the standard alphabet, padded with '='. *)
Definition b64_char (n : nat) : ascii :=
  if Nat.ltb n 26 then ascii_of_nat (65 + n)
  else if Nat.ltb n 52 then ascii_of_nat (97 + (n - 26))
  else if Nat.ltb n 62 then ascii_of_nat (48 + (n - 52))
  else if Nat.eqb n 62 then "+"%char else "/"%char.
Fixpoint b64 (s : string) : string :=
  match s with
  | EmptyString => EmptyString
  | String a EmptyString =>
      let x := nat_of_ascii a in
      String (b64_char (x / 4)) (String (b64_char (x mod 4 * 16)) "==")
  | String a (String b EmptyString) =>
      let x := nat_of_ascii a in let y := nat_of_ascii b in
      String (b64_char (x / 4)) (String (b64_char (x mod 4 * 16 + y / 16)) (String (b64_char (y mod 16 * 4)) "="))
  | String a (String b (String c s')) =>
      let x := nat_of_ascii a in let y := nat_of_ascii b in let z := nat_of_ascii c in
      String (b64_char (x / 4)) (String (b64_char (x mod 4 * 16 + y / 16))
        (String (b64_char (y mod 16 * 4 + z / 64)) (String (b64_char (z mod 64)) (b64 s'))))
  end.

(** transformer.go:89-94 *)
Definition base64_off (src : string) (offset : nat) : res string :=
  if Nat.ltb 0 offset then Panic else Ok (b64 src).

(** transformer.go:58-87 [Transform].  The recursion clears one bit each time; [n] bounds it. *)
Fixpoint transform_aux (n : nat) (src : string) (fl : flags) : res (list string) :=
  match n with
  | O => NoFuel
  | S n' =>
      if N.eqb fl NoFlags then Ok [src]
      else if fl_has fl WinDashFlag then transform_aux n' (windash src) (fl_clear fl WinDashFlag)
      else if fl_has fl CIDRFlag then Panic (* cidr panics, 100-102 *)
      else if fl_has fl Base64Flag then let* d := base64_off src 0 in Ok [d]
      else if fl_has fl Base64OffsetFlag then
        let* d0 := base64_off src 0 in let* d1 := base64_off src 1 in let* d2 := base64_off src 2 in
        Ok [d0; d1; d2]
      else Ok [src]
  end.
Definition transform (src : string) (fl : flags) : res (list string) := transform_aux 3 src fl.

(** ** modifiers.go:54-83 *)
Definition comparators_map : list string := ["contains"; "endswith"; "startswith"; "lt"; "lte"; "gt"; "gte"].
Definition transformers_map : gomap (list flags) :=
  [("base64", [Base64Flag]); ("base64Offset", [Base64OffsetFlag]); ("utf16", [NoFlags]); ("utf16le", [NoFlags]);
   ("utf16be", [NoFlags]); ("wide", [NoFlags]); ("windash", [NoFlags; WinDashFlag]); ("cidr", [CIDRFlag])].
Definition is_comparator (m : string) : bool := existsb (seqb m) comparators_map.
Definition is_transformer (m : string) : bool := mhas m transformers_map.

(** ** sigma-go's parsed rules (fields used by compiler.go) *)
Record fieldmatcher := mkFM { fm_field : string; fm_mods : list string; fm_values : list string }.
Record search := mkSearch { se_keywords : list string; se_matchers : list (list fieldmatcher) }.
Inductive sexpr :=
| SId (name : string) | SAnd (l : list sexpr) | SOr (l : list sexpr) | SNot (e : sexpr)
| SOneOfThem | SOneOfPattern (p : string) | SAllOfThem | SAllOfPattern (p : string)
| SOther. (* any other dynamic type, including nil *)
Record srule := mkSRule { sr_id : string; sr_desc : string; sr_level : string; sr_tags : list string;
                          sr_conds : list sexpr; sr_searches : gomap search }.

Section Compiler.
Context {R : Type}.
Variable ops : operations R.
(** The field mappings of the configuration: target names per field. *)
Variable mappings : gomap (list string).
(** path.Match(pattern, name) with errors read as no match. *)
Variable pmatch : string -> string -> bool.

(** compiler.go:259-298 [visitTerm] *)
Definition mapped_field (attr : string) : res string :=
  match mget attr mappings with
  | Some [] => Panic (* TargetNames[0] *)
  | Some (t :: _) => Ok t
  | None => Ok attr
  end.
Definition comparator_crit (op attr value : string) : option (res (criterion R)) :=
  if seqb op "contains" then Some (first_of (op_compare ops attr value OpIContains))
  else if seqb op "startswith" then Some (first_of (op_compare ops attr value OpIStartswith))
  else if seqb op "endswith" then Some (first_of (op_compare ops attr value OpIEndswith))
  else if seqb op "re" then Some (first_of (op_regexp ops attr value))
  else if seqb op "lt" then Some (first_of (op_compare ops attr value OpLt))
  else if seqb op "lte" then Some (first_of (op_compare ops attr value OpLEq))
  else if seqb op "gt" then Some (first_of (op_compare ops attr value OpGt))
  else if seqb op "gte" then Some (first_of (op_compare ops attr value OpGEq))
  else None. (* logged and skipped *)
Fixpoint comparator_preds (cmps : list string) (attr value : string) : res (list (criterion R)) :=
  match cmps with
  | [] => Ok []
  | op :: cmps' =>
      match comparator_crit op attr value with
      | None => comparator_preds cmps' attr value
      | Some rc => let* c := rc in let* cs := comparator_preds cmps' attr value in Ok (c :: cs)
      end
  end.
Definition s_visit_term (cmps : list string) (attr value : string) : res (criterion R) :=
  let* a := mapped_field attr in
  let* preds := match cmps with
                | [] => let* c := first_of (op_compare ops a value OpIEq) in Ok [c]
                | _ => comparator_preds cmps a value
                end in
  Ok (c_all preds).

(** compiler.go:221-232 *)
Definition fm_all (mods : list string) : bool := existsb (seqb "all") mods.
Definition fm_transformers (mods : list string) : list flags :=
  concat (map (fun m => match mget m transformers_map with Some l => l | None => [] end) mods).
Definition fm_comparators (mods : list string) : list string := List.filter is_comparator mods.

(** compiler.go:233-247 *)
Definition visit_value (trs : list flags) (cmps : list string) (attr value : string) : res (criterion R) :=
  match trs with
  | [] => s_visit_term cmps attr value
  | _ => let* css := rmap (fun t => let* vs := transform value t in rmap (s_visit_term cmps attr) vs) trs in
         Ok (c_any (concat css))
  end.
Definition visit_fm (fm : fieldmatcher) : res (criterion R) :=
  let trs := fm_transformers (fm_mods fm) in
  let cmps := fm_comparators (fm_mods fm) in
  let* preds := rmap (visit_value trs cmps (fm_field fm)) (fm_values fm) in
  Ok (if fm_all (fm_mods fm) then c_all preds else c_any preds).

(** compiler.go:207-257 [visitSearch] *)
Definition visit_search (s : search) : res (criterion R) :=
  match se_keywords s with
  | _ :: _ => Ok c_false
  | [] => let* preds := rmap visit_fm (concat (se_matchers s)) in Ok (c_all preds)
  end.

(** compiler.go:143-205 [visitSearchExpression].  Go iterates over the searches map in an
    unspecified order that may differ at each loop; [enum p] is the order met by the loop run for
    the subexpression at position [p] of the condition. *)
Section Visit.
Variable searches : gomap search.
Variable enum : list nat -> list (string * search).
Fixpoint visit_sexpr (p : list nat) (e : sexpr) : res (criterion R) :=
  match e with
  | SId name => match mget name searches with Some s => visit_search s | None => Ok c_false end
  | SAnd l => let* cs := (fix go i l := match l with
                                      | [] => Ok []
                                      | e :: l' => let* c := visit_sexpr (i :: p) e in let* cs := go (S i) l' in Ok (c :: cs)
                                      end) 0 l in Ok (c_all cs)
  | SOr l => let* cs := (fix go i l := match l with
                                     | [] => Ok []
                                     | e :: l' => let* c := visit_sexpr (i :: p) e in let* cs := go (S i) l' in Ok (c :: cs)
                                     end) 0 l in Ok (c_any cs)
  | SNot e => let* c := visit_sexpr (0 :: p) e in Ok (c_not c)
  | SOneOfThem => let* cs := rmap (fun ns => visit_search (snd ns)) (enum p) in Ok (c_any cs)
  | SOneOfPattern pt => let* cs := rmap (fun ns => visit_search (snd ns)) (List.filter (fun ns => pmatch pt (fst ns)) (enum p)) in Ok (c_any cs)
  | SAllOfThem => let* cs := rmap (fun ns => visit_search (snd ns)) (enum p) in Ok (c_all cs)
  | SAllOfPattern pt => let* cs := rmap (fun ns => visit_search (snd ns)) (List.filter (fun ns => pmatch pt (fst ns)) (enum p)) in Ok (c_all cs)
  | SOther => Ok c_false
  end.
End Visit.

(** compiler.go:127-141 *)
Definition level_priority (l : string) : priority :=
  let w := to_lower l in
  if seqb w (prio_string PInformational) then PInformational else if seqb w (prio_string PLow) then PLow
  else if seqb w (prio_string PMedium) then PMedium else if seqb w (prio_string PHigh) then PHigh
  else if seqb w (prio_string PCritical) then PCritical else PInformational.

(** compiler.go:90-106.  [ord r p] is the order in which the loop at position [p] (condition
    number, then position in the condition) meets the searches of [r]. *)
Variable ord : srule -> list nat -> list (string * search).
Fixpoint imap {A B} (f : nat -> A -> res B) (i : nat) (l : list A) : res (list B) :=
  match l with
  | [] => Ok []
  | a :: l' => let* b := f i a in let* bs := imap f (S i) l' in Ok (b :: bs)
  end.
Definition compile_srule (r : srule) : res (list (rule R)) :=
  imap (fun i e => let* c := visit_sexpr (sr_searches r) (ord r) [i] e in
                 Ok (mkRule (sr_id r) (sr_desc r) c [] (map TagStr (sr_tags r)) (level_priority (sr_level r)) [] true))
       0 (sr_conds r).

(** compiler.go:63-109: a file that cannot be read is an error, one that cannot be parsed
    is skipped.  [None] is a read error, [Some None] a parse error. *)
Fixpoint read_rules (fs : list (option (option srule))) : option (list srule) :=
  match fs with
  | [] => Some []
  | None :: _ => None
  | Some None :: fs' => read_rules fs'
  | Some (Some r) :: fs' => option_map (cons r) (read_rules fs')
  end.
Definition s_compile (fs : list (option (option srule))) : res (option (list (rule R))) :=
  match read_rules fs with
  | None => Ok None
  | Some rs => let* rss := rmap compile_srule rs in Ok (Some (concat rss))
  end.
End Compiler.
