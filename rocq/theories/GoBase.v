(** * GoBase: the fragment of Go's runtime and standard library the code relies on.

    Go strings are byte strings; they are modelled by Coq's [string] (lists of
    8-bit [ascii]).  Every definition cites the library function it stands for
    (Go standard library semantics) and the places in /repo that use it.
    This file contains definitions only. *)
From Coq Require Export String Ascii.
From Coq Require Export List Bool Arith ZArith.
From Coq Require Import Decimal DecimalString.
Export ListNotations.
Open Scope string_scope.
Open Scope list_scope.
Open Scope nat_scope.

(** Outcome of a Go computation that may abort: [Panic] is a run-time panic
    (nil dereference, index out of range, nil function call), [Fatal] is
    [logger.Error.Fatalln] (process exit), [NoFuel] marks a recursion that did
    not finish within the model's fuel (in Go: a stack overflow or a loop). *)
Inductive res (A : Type) : Type :=
| Ok (a : A)
| Panic
| Fatal
| NoFuel.
Arguments Ok {A} a.
Arguments Panic {A}.
Arguments Fatal {A}.
Arguments NoFuel {A}.

Definition rbind {A B} (x : res A) (f : A -> res B) : res B :=
  match x with Ok a => f a | Panic => Panic | Fatal => Fatal | NoFuel => NoFuel end.

Definition rmap {A B} (f : A -> B) (x : res A) : res B := rbind x (fun a => Ok (f a)).

Notation "'let*' x ':=' e 'in' f" := (rbind e (fun x => f))
  (at level 200, x pattern, e at level 100, f at level 200).

(** [s == t] on strings. *)
Definition seqb (s t : string) : bool := String.eqb s t.

(** len(s). *)
Definition slen (s : string) : nat := String.length s.

(** strings.HasPrefix(s, p)  (source/operators.go:66-69). *)
Fixpoint has_prefix (s p : string) : bool :=
  match p, s with
  | EmptyString, _ => true
  | String a p', String b s' => Ascii.eqb a b && has_prefix s' p'
  | String _ _, EmptyString => false
  end.

(** s[n:] (only used with n <= len(s)). *)
Fixpoint sdrop (n : nat) (s : string) : string :=
  match n, s with
  | O, _ => s
  | S n', String _ s' => sdrop n' s'
  | S _, EmptyString => EmptyString
  end.

(** s[:n] (only used with n <= len(s)). *)
Fixpoint stake (n : nat) (s : string) : string :=
  match n, s with
  | O, _ => EmptyString
  | S n', String a s' => String a (stake n' s')
  | S _, EmptyString => EmptyString
  end.

(** strings.HasSuffix(s, p): len(s) >= len(p) && s[len(s)-len(p):] == p
    (source/operators.go:70-73). *)
Definition has_suffix (s p : string) : bool :=
  Nat.leb (slen p) (slen s) && seqb (sdrop (slen s - slen p) s) p.

(** strings.Contains(s, sub) (source/operators.go:62-65). *)
Fixpoint contains (s sub : string) : bool :=
  has_prefix s sub ||
  match s with
  | EmptyString => false
  | String _ s' => contains s' sub
  end.

(** strings.Split(s, sep) for a one-byte separator: always non-empty, "" gives [""]
    (flatrecord/operations.go:118-119, falco/compiler.go:250, fieldmapper.go:208). *)
Fixpoint split_on (sep : ascii) (s : string) : list string :=
  match s with
  | EmptyString => [""]
  | String a s' =>
      if Ascii.eqb a sep then "" :: split_on sep s'
      else match split_on sep s' with
           | [] => [String a ""]
           | h :: t => String a h :: t
           end
  end.

(** strings.Join(l, sep) (record.go:167, fieldmapper.go:557,675,685). *)
Fixpoint join (sep : string) (l : list string) : string :=
  match l with
  | [] => ""
  | [s] => s
  | s :: l' => s ++ sep ++ join sep l'
  end.

(** strings.Index(s, sep) for a one-byte separator, as a pair (before, after)
    of the first occurrence (fieldmapper.go:151-158, [cut]). *)
Fixpoint cut_at (sep : ascii) (s : string) : option (string * string) :=
  match s with
  | EmptyString => None
  | String a s' =>
      if Ascii.eqb a sep then Some (EmptyString, s')
      else match cut_at sep s' with
           | Some (b, c) => Some (String a b, c)
           | None => None
           end
  end.

(** One byte to lower case.  Simplification: ASCII letters only; Go's
    strings.ToLower / EqualFold also fold non-ASCII code points. *)
Definition lower_byte (a : ascii) : ascii :=
  let n := nat_of_ascii a in
  if Nat.leb 65 n && Nat.leb n 90 then ascii_of_nat (n + 32) else a.

Definition upper_byte (a : ascii) : ascii :=
  let n := nat_of_ascii a in
  if Nat.leb 97 n && Nat.leb n 122 then ascii_of_nat (n - 32) else a.

Fixpoint smap (f : ascii -> ascii) (s : string) : string :=
  match s with
  | EmptyString => EmptyString
  | String a s' => String (f a) (smap f s')
  end.

(** strings.ToLower(s) (ASCII, see [lower_byte]). *)
Definition to_lower (s : string) : string := smap lower_byte s.

(** strings.EqualFold(l, r) (ASCII) (source/operators.go:61). *)
Definition equal_fold (l r : string) : bool := seqb (to_lower l) (to_lower r).

(** unicode.IsSpace on ASCII. *)
Definition is_space (a : ascii) : bool :=
  let n := nat_of_ascii a in
  Nat.eqb n 32 || (Nat.leb 9 n && Nat.leb n 13).

Fixpoint srev_app (s acc : string) : string :=
  match s with
  | EmptyString => acc
  | String a s' => srev_app s' (String a acc)
  end.
Definition srev (s : string) : string := srev_app s "".

(** unicode.IsSpace beyond ASCII, on the UTF-8 encodings: U+0085, U+00A0; U+1680, U+2000 to U+200A, U+2028, U+2029, U+202F,
    U+205F, U+3000. *)
Definition is_space2 (a b : ascii) : bool :=
  let n := nat_of_ascii in Nat.eqb (n a) 194 && (Nat.eqb (n b) 133 || Nat.eqb (n b) 160).
Definition is_space3 (a b c : ascii) : bool :=
  let n := nat_of_ascii in
  (Nat.eqb (n a) 225 && Nat.eqb (n b) 154 && Nat.eqb (n c) 128)
  || (Nat.eqb (n a) 226 && Nat.eqb (n b) 128 &&
      ((Nat.leb 128 (n c) && Nat.leb (n c) 138) || Nat.eqb (n c) 168 || Nat.eqb (n c) 169 || Nat.eqb (n c) 175))
  || (Nat.eqb (n a) 226 && Nat.eqb (n b) 129 && Nat.eqb (n c) 159)
  || (Nat.eqb (n a) 227 && Nat.eqb (n b) 128 && Nat.eqb (n c) 128).

(** strings.TrimLeftFunc(s, unicode.IsSpace). *)
Fixpoint trim_left (s : string) : string :=
  match s with
  | EmptyString => s
  | String a s1 =>
      if is_space a then trim_left s1 else
      match s1 with
      | EmptyString => s
      | String b s2 =>
          if is_space2 a b then trim_left s2 else
          match s2 with
          | EmptyString => s
          | String c s3 => if is_space3 a b c then trim_left s3 else s
          end
      end
  end.
(** strings.TrimRightFunc(s, unicode.IsSpace), on the text read backwards (utf8.DecodeLastRune goes back to the nearest byte
    that begins a rune). *)
Fixpoint trim_back (s : string) : string :=
  match s with
  | EmptyString => s
  | String c s1 =>
      if is_space c then trim_back s1 else
      match s1 with
      | EmptyString => s
      | String b s2 =>
          if is_space2 b c then trim_back s2 else
          match s2 with
          | EmptyString => s
          | String a s3 => if is_space3 a b c then trim_back s3 else s
          end
      end
  end.

(** strings.TrimSpace(s) (reader.go:123-124, flattener.go:271 and following). *)
Definition trim_space (s : string) : string := srev (trim_back (srev (trim_left s))).

Definition quote_char : ascii := """"%char.
Definition squote_char : ascii := "'"%char.
Definition is_quote (a : ascii) : bool := Ascii.eqb a quote_char || Ascii.eqb a squote_char.

Definition slast (s : string) : option ascii :=
  match srev s with EmptyString => None | String a _ => Some a end.

(** common.TrimBoundingQuotes (core/policyengine/common/utils.go:3-11):
    drops one leading and then one trailing quote character, of either kind. *)
Definition trim_bounding_quotes (s : string) : string :=
  let s1 := match s with
            | String a s' => if is_quote a then s' else s
            | EmptyString => s
            end in
  match slast s1 with
  | Some a => if is_quote a then stake (slen s1 - 1) s1 else s1
  | None => s1
  end.

(** ** Decimal numbers *)

Definition digit_val (a : ascii) : option Z :=
  let n := nat_of_ascii a in
  if Nat.leb 48 n && Nat.leb n 57 then Some (Z.of_nat (n - 48)) else None.

Fixpoint parse_digits (acc : Z) (s : string) : option Z :=
  match s with
  | EmptyString => Some acc
  | String a s' => match digit_val a with
                   | Some d => parse_digits (acc * 10 + d)%Z s'
                   | None => None
                   end
  end.

Definition int64_min : Z := (-9223372036854775808)%Z.
Definition int64_max : Z := 9223372036854775807%Z.
Definition in_int64 (z : Z) : bool := (Z.leb int64_min z && Z.leb z int64_max)%Z.

(** Two's complement reduction to int64 / int32 (conversion and overflow). *)
Definition wrap64 (z : Z) : Z := ((z + 9223372036854775808) mod 18446744073709551616 - 9223372036854775808)%Z.
Definition wrap32 (z : Z) : Z := ((z + 2147483648) mod 4294967296 - 2147483648)%Z.

Definition parse_nonempty (s : string) : option Z :=
  match s with EmptyString => None | _ => parse_digits 0 s end.

(** strconv.ParseInt(s, 10, 64) / strconv.Atoi on a 64-bit platform; [None] is err != nil
    (fieldmapper.go:124, engine/config.go, flattener/config.go:49). *)
Definition parse_int64 (s : string) : option Z :=
  let z := match s with
           | String "-"%char s' => option_map Z.opp (parse_nonempty s')
           | String "+"%char s' => parse_nonempty s'
           | _ => parse_nonempty s
           end in
  match z with
  | Some v => if in_int64 v then Some v else None
  | None => None
  end.

(** strconv.FormatInt(z, 10). *)
Definition format_int (z : Z) : string := NilZero.string_of_int (Z.to_int z).

(** strconv.FormatBool. *)
Definition format_bool (b : bool) : string := if b then "true" else "false".

(** strconv.ParseBool; [None] is err != nil (falco/compiler.go:172). *)
Definition parse_bool (s : string) : option bool :=
  if existsb (seqb s) ["1"; "t"; "T"; "TRUE"; "true"; "True"] then Some true
  else if existsb (seqb s) ["0"; "f"; "F"; "FALSE"; "false"; "False"] then Some false
  else None.

(** ** Go maps: an association list where the first binding of a key counts. *)
Definition gomap (V : Type) := list (string * V).

Fixpoint mget {V} (k : string) (m : gomap V) : option V :=
  match m with
  | [] => None
  | (k', v) :: m' => if seqb k k' then Some v else mget k m'
  end.

Definition mset {V} (k : string) (v : V) (m : gomap V) : gomap V := (k, v) :: m.

Fixpoint mdel {V} (k : string) (m : gomap V) : gomap V :=
  match m with
  | [] => []
  | (k', v) :: m' => if seqb k k' then mdel k m' else (k', v) :: mdel k m'
  end.

Definition mhas {V} (k : string) (m : gomap V) : bool :=
  match mget k m with Some _ => true | None => false end.

(** s[i] = x on a slice (no effect when out of range). *)
Fixpoint upd {A} (l : list A) (i : nat) (x : A) : list A :=
  match l, i with
  | [], _ => []
  | _ :: l', 0 => x :: l'
  | y :: l', S i' => y :: upd l' i' x
  end.
