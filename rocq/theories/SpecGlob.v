(** * SpecGlob: the shell-like patterns for search names, as a grammar and a matching relation.  Uses no function of the model. *)
From Coq Require Import String Ascii List.
Import ListNotations.
From Verif Require Import SpecWords.
Local Open Scope string_scope.

Inductive item := Star | Any | Lit (c : ascii) | Class (neg : bool) (rs : list (ascii * ascii)).

(** A character in a class: itself, except for the three special ones, or anything after a backslash. *)
Inductive class_char : string -> ascii -> Prop :=
| cc_plain c : c <> "-"%char -> c <> "]"%char -> c <> "\"%char -> class_char (String c "") c
| cc_escaped c : class_char (String "\" (String c "")) c.
Inductive range : string -> ascii * ascii -> Prop :=
| rg_one t c : class_char t c -> range t (c, c)
| rg_two t c u d : class_char t c -> class_char u d -> range (t ++ "-" ++ u) (c, d).
Inductive ranges : string -> list (ascii * ascii) -> Prop :=
| rs_last t r : range t r -> ranges t [r]
| rs_more t r u l : range t r -> ranges u l -> ranges (t ++ u) (r :: l).

(** How a pattern is read. *)
Inductive reads : string -> list item -> Prop :=
| rd_end : reads "" []
| rd_star p l : reads p l -> reads (String "*" p) (Star :: l)
| rd_any p l : reads p l -> reads (String "?" p) (Any :: l)
| rd_lit c p l : c <> "*"%char -> c <> "?"%char -> c <> "["%char -> c <> "\"%char -> reads p l -> reads (String c p) (Lit c :: l)
| rd_escaped c p l : reads p l -> reads (String "\" (String c p)) (Lit c :: l)
| rd_class t rs p l : ranges t rs -> (forall u, t <> String "^" u) -> reads p l -> reads (String "[" (t ++ String "]" p)) (Class false rs :: l)
| rd_negated t rs p l : ranges t rs -> reads p l -> reads (String "[" (String "^" (t ++ String "]" p))) (Class true rs :: l).

Definition in_ranges (rs : list (ascii * ascii)) (c : ascii) : Prop :=
  exists lo hi, In (lo, hi) rs /\ nat_of_ascii lo <= nat_of_ascii c <= nat_of_ascii hi.

(** The texts an item stands for: a star for any text, a question mark for any character (neither with a slash), ... *)
Inductive stands : item -> string -> Prop :=
| st_star t : free_of "/" t -> stands Star t
| st_any c : c <> "/"%char -> stands Any (String c "")
| st_lit c : stands (Lit c) (String c "")
| st_class rs c : in_ranges rs c -> stands (Class false rs) (String c "")
| st_neg rs c : ~ in_ranges rs c -> stands (Class true rs) (String c "").
(** ... and the texts a pattern fits. *)
Inductive fits : list item -> string -> Prop :=
| ft_end : fits [] ""
| ft_item i l s t : stands i s -> fits l t -> fits (i :: l) (s ++ t).

(** [p] is a pattern that [n] fits. *)
Definition glob (p n : string) : Prop := exists l, reads p l /\ fits l n.
(** Patterns without classes. *)
Definition classless (p : string) : Prop := free_of "[" p.
(** Words without special characters. *)
Definition plain (s : string) : Prop := forall c, In c ["*"; "?"; "["; "\"]%char -> free_of c s.
