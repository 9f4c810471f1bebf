(** * SpecRace: what hashing a record is to compute, and what it may compute when goroutines share the buffer. *)
From Verif Require Import GoBase FlattenModel RaceModel.

(** The bytes a sequence of calls feeds to the hash. *)
Fixpoint fed (l : list hop) : string :=
  match l with [] => "" | HStr s :: l' => (s ++ fed l')%string | HInt z :: l' => (le64 z ++ fed l')%string end.
(** The same calls with other numbers: texts in place, every number one of [zs]. *)
Inductive blurred (zs : list Z) : list hop -> list hop -> Prop :=
| bl_nil : blurred zs [] []
| bl_str s l l' : blurred zs l l' -> blurred zs (HStr s :: l) (HStr s :: l')
| bl_int z z' l l' : In z' zs -> blurred zs l l' -> blurred zs (HInt z :: l) (HInt z' :: l').
(** The numbers of a sequence of calls. *)
Fixpoint numbers (l : list hop) : list Z := match l with [] => [] | HStr _ :: l' => numbers l' | HInt z :: l' => z :: numbers l' end.
(** A goroutine that has hashed everything. *)
Definition finished (h : hasher) : Prop := h_todo h = [] /\ h_cur h = None.
(** In every state a schedule goes through, at most one goroutine is in the middle of a record. *)
Definition busy (h : hasher) : Prop := h_cur h <> None.
Definition one_busy (hs : list hasher) : Prop :=
  forall i j h h', nth_error hs i = Some h -> nth_error hs j = Some h' -> busy h -> busy h' -> i = j.
Definition by_turns (sched : list nat) (st : string * list hasher) : Prop :=
  forall a b, sched = (a ++ b)%list -> one_busy (snd (h_run a st)).
