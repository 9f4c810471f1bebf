(** * SpecWords: what the texts in policies, records and configurations stand for (C115). *)
From Verif Require Import GoBase SpecWhite.

(** ** Numbers *)
Definition digit (d : nat) (a : ascii) : Prop := String.get d "0123456789" = Some a.
Inductive numeral : string -> Z -> Prop :=
| nu_one : forall d a, digit d a -> numeral (String a "") (Z.of_nat d)
| nu_more : forall s n d a, numeral s n -> digit d a -> numeral (s ++ String a "") (10 * n + Z.of_nat d).
(** A text for an integer of 64 bits: digits, with or without a sign before them. *)
Definition for_integer (s : string) (z : Z) : Prop :=
  (- 2 ^ 63 <= z < 2 ^ 63)%Z /\ exists u n, numeral u n /\ (s = u /\ z = n \/ s = String "+" u /\ z = n \/ s = String "-" u /\ z = - n)%Z.
(** The usual way to write an integer: no leading zeros, no plus. *)
Definition usual (z : Z) (s : string) : Prop :=
  exists u, numeral u (Z.abs z) /\ (forall t, u = String "0" t -> t = "") /\ s = if Z.ltb z 0 then String "-" u else u.

(** ** White space *)
Definition starts_with (s : string) (a : ascii) : Prop := exists t, s = String a t.
Definition ends_with (s : string) (a : ascii) : Prop := exists t, s = (t ++ String a "")%string.
Inductive blank : string -> Prop :=
| bl_nil : blank ""
| bl_cons : forall w s, white w -> blank s -> blank (w ++ s).
Definition trimmed (s t : string) : Prop :=
  exists before after, s = (before ++ t ++ after)%string /\ blank before /\ blank after /\
    (forall w u, t = (w ++ u)%string -> ~ white w) /\ (forall w u, t = (u ++ w)%string -> ~ white w).

(** ** Quotes: at most one, of either kind, is taken away at the beginning, then one at the end. *)
Definition quote (a : ascii) : Prop := In a [""""; "'"]%char.
Definition unquoted (s t : string) : Prop :=
  exists before after, s = (before ++ t ++ after)%string /\
    (before = "" /\ (forall a, starts_with s a -> ~ quote a) \/ exists q, quote q /\ before = String q "") /\
    (after = "" /\ (forall a, ends_with t a -> ~ quote a) \/ exists q, quote q /\ after = String q "").

(** ** Letters *)
Definition small_letter (a b : ascii) : Prop :=
  (exists i, String.get i "ABCDEFGHIJKLMNOPQRSTUVWXYZ" = Some a /\ String.get i "abcdefghijklmnopqrstuvwxyz" = Some b) \/
  (forall i, String.get i "ABCDEFGHIJKLMNOPQRSTUVWXYZ" <> Some a) /\ b = a.
Inductive in_small : string -> string -> Prop :=
| sm_nil : in_small "" ""
| sm_cons : forall a b s t, small_letter a b -> in_small s t -> in_small (String a s) (String b t).

(** ** Lists of texts *)
Inductive glued (sep : string) : list string -> string -> Prop :=
| gl_one : forall x, glued sep [x] x
| gl_more : forall x l s, glued sep l s -> glued sep (x :: l) (x ++ sep ++ s).
Fixpoint free_of (c : ascii) (s : string) : Prop := match s with EmptyString => True | String a s' => a <> c /\ free_of c s' end.
