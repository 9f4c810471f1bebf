(** * SpecWhite: the characters that count as white space: those of Unicode, in UTF-8. *)
From Coq Require Import NArith.
From Verif Require Import GoBase.

(** The encoding of a code point below 2^16. *)
Definition utf8 (n : N) : string :=
  if N.ltb n 128 then String (ascii_of_N n) ""
  else if N.ltb n 2048 then String (ascii_of_N (192 + n / 64)) (String (ascii_of_N (128 + n mod 64)) "")
  else String (ascii_of_N (224 + n / 4096)) (String (ascii_of_N (128 + (n / 64) mod 64)) (String (ascii_of_N (128 + n mod 64)) "")).
(** Unicode's property White_Space: tab to carriage return, space, next line, no-break space, Ogham space mark, en quad to hair
    space, line and paragraph separator, narrow no-break space, medium mathematical space, ideographic space. *)
Definition white_space : list N :=
  [9; 10; 11; 12; 13; 32; 133; 160; 5760; 8192; 8193; 8194; 8195; 8196; 8197; 8198; 8199; 8200; 8201; 8202; 8232; 8233; 8239; 8287; 12288]%N.
Definition white (w : string) : Prop := exists n, In n white_space /\ w = utf8 n.
