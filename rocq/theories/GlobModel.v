(** * GlobModel: Go's path.Match as used by core/policyengine/policy/sigma/compiler.go:180,197
    (patterns in [1 of sel*] and [all of sel*]).

    Follows the Go 1.19 standard library (path/match.go: Match, scanChunk, matchChunk, getEsc).
    Simplification: one byte is one character.  Go decodes UTF-8 in [?] and in classes only, so the model
    is exact for every pattern made of letters, digits, [_] and [*], and for ASCII names in general. *)
From Verif Require Import GoBase.
Local Open Scope string_scope.

Notation star_char := "*"%char (only parsing).
Notation slash_char := "/"%char (only parsing).
Notation back_char := "\"%char (only parsing).
Notation open_char := "["%char (only parsing).
Notation close_char := "]"%char (only parsing).
Notation dash_char := "-"%char (only parsing).
Notation caret_char := "^"%char (only parsing).
Notation any_char := "?"%char (only parsing).

(** match.go scanChunk, first loop: leading stars. *)
Definition leading_star (p : string) : bool := match p with String c _ => Ascii.eqb c star_char | EmptyString => false end.
Fixpoint drop_stars (p : string) : string :=
  match p with
  | String c p' => if Ascii.eqb c star_char then drop_stars p' else p
  | EmptyString => EmptyString
  end.
(** scanChunk, second loop: up to the next star outside of a class. *)
Fixpoint scan (inrange : bool) (p : string) : string * string :=
  match p with
  | EmptyString => (EmptyString, EmptyString)
  | String c p' =>
      if Ascii.eqb c back_char then
        match p' with
        | EmptyString => (String c EmptyString, EmptyString)
        | String d p'' => let '(a, b) := scan inrange p'' in (String c (String d a), b)
        end
      else if Ascii.eqb c star_char && negb inrange then (EmptyString, p)
      else
        let inrange' := if Ascii.eqb c open_char then true else if Ascii.eqb c close_char then false else inrange in
        let '(a, b) := scan inrange' p' in (String c a, b)
  end.

(** match.go getEsc; [None] is ErrBadPattern. *)
Definition get_esc (chunk : string) : option (ascii * string) :=
  match chunk with
  | EmptyString => None
  | String c r =>
      if Ascii.eqb c dash_char || Ascii.eqb c close_char then None
      else
        let x := if Ascii.eqb c back_char then match r with EmptyString => None | String d r' => Some (d, r') end else Some (c, r) in
        match x with
        | Some (d, String e r') => Some (d, String e r')
        | _ => None
        end
  end.

Definition byte_le (a b : ascii) : bool := Nat.leb (nat_of_ascii a) (nat_of_ascii b).
(** matchChunk, the loop over the ranges of a class.  [some] is nrange > 0; [n] bounds the loop. *)
Fixpoint class_loop (n : nat) (chunk : string) (some : bool) (r : ascii) (matched : bool) : option (bool * string) :=
  match n with
  | O => None
  | S n' =>
      match chunk with
      | String c rest =>
          if Ascii.eqb c close_char && some then Some (matched, rest)
          else
            match get_esc chunk with
            | None => None
            | Some (lo, chunk1) =>
                match (match chunk1 with
                       | String d chunk2 => if Ascii.eqb d dash_char then get_esc chunk2 else Some (lo, chunk1)
                       | EmptyString => None
                       end) with
                | None => None
                | Some (hi, chunk3) => class_loop n' chunk3 true r (matched || (byte_le lo r && byte_le r hi))
                end
            end
      | EmptyString => None
      end
  end.

(** match.go matchChunk.  The text is [None] once the match has failed; the result is [None] for
    ErrBadPattern, [Some None] for no match, [Some (Some rest)] for a match.  [n] bounds the loop. *)
Fixpoint match_chunk (n : nat) (chunk : string) (s : option string) : option (option string) :=
  match chunk with
  | EmptyString => Some s
  | String c chunk' =>
      match n with
      | O => None
      | S n' =>
          let s := match s with Some EmptyString => None | _ => s end in
          if Ascii.eqb c open_char then
            let r := match s with Some (String a _) => a | _ => Ascii.zero end in
            let s1 := match s with Some (String _ s') => Some s' | _ => None end in
            let '(neg, chunk1) := match chunk' with
                                  | String d chunk2 => if Ascii.eqb d caret_char then (true, chunk2) else (false, chunk')
                                  | EmptyString => (false, chunk')
                                  end in
            match class_loop (S (slen chunk1)) chunk1 false r false with
            | None => None
            | Some (matched, chunk2) => match_chunk n' chunk2 (if Bool.eqb matched neg then None else s1)
            end
          else if Ascii.eqb c any_char then
            match_chunk n' chunk' (match s with Some (String a s') => if Ascii.eqb a slash_char then None else Some s' | _ => None end)
          else
            let lit := if Ascii.eqb c back_char then match chunk' with EmptyString => None | String d chunk2 => Some (d, chunk2) end else Some (c, chunk') in
            match lit with
            | None => None
            | Some (d, chunk2) => match_chunk n' chunk2 (match s with Some (String a s') => if Ascii.eqb d a then Some s' else None | _ => None end)
            end
      end
  end.
Definition chunk_at (chunk s : string) : option (option string) := match_chunk (slen chunk) chunk (Some s).

(** match.go Match, the loop after a star: skip i+1 bytes, but no slash. *)
Fixpoint skip_loop (chunk : string) (last : bool) (name : string) : option (option string) :=
  match name with
  | EmptyString => Some None
  | String c name' =>
      if Ascii.eqb c slash_char then Some None
      else match chunk_at chunk name' with
           | None => None
           | Some (Some t) => if last && negb (seqb t "") then skip_loop chunk last name' else Some (Some t)
           | Some None => skip_loop chunk last name'
           end
  end.
(** Match, the loop that checks the remainder of the pattern after a failure. *)
Fixpoint rest_valid (n : nat) (p : string) : bool :=
  match p with
  | EmptyString => true
  | _ => match n with
         | O => false
         | S n' => let '(chunk, p') := scan false (drop_stars p) in
                   match chunk_at chunk "" with None => false | Some _ => rest_valid n' p' end
         end
  end.
(** match.go Match; [None] is ErrBadPattern.  [n] bounds the loop. *)
Fixpoint match_loop (n : nat) (p name : string) : option bool :=
  match p with
  | EmptyString => Some (seqb name "")
  | _ => match n with
         | O => None
         | S n' =>
             let star := leading_star p in
             let '(chunk, p') := scan false (drop_stars p) in
             if star && seqb chunk "" then Some (match cut_at slash_char name with None => true | Some _ => false end)
             else
               let last := seqb p' "" in
               let skip := if star then skip_loop chunk last name else Some None in
               let tried := match chunk_at chunk name with
                            | None => None
                            | Some (Some t) => if seqb t "" || negb last then Some (Some t) else skip
                            | Some None => skip
                            end in
               match tried with
               | None => None
               | Some (Some t) => match_loop n' p' t
               | Some None => if rest_valid n' p' then Some false else None
               end
         end
  end.
Definition path_match (pattern name : string) : option bool := match_loop (slen pattern) pattern name.

(** compiler.go:180,197: matchesPattern, _ := path.Match(c.Pattern, name) *)
Definition name_matches (pattern name : string) : bool := match path_match pattern name with Some b => b | None => false end.
