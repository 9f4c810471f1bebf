(** * SpecShare: what the receivers of a shared record should get. *)
From Verif Require Import GoBase ShareModel.

(** The slice lies in the heap. *)
Definition valid (h : heap) (s : slice) : Prop := s_arr s < length h /\ s_len s <= length (nth (s_arr s) h []).
(** The array behind the slice has room. *)
Definition roomy (h : heap) (s : slice) : Prop := s_len s < length (nth (s_arr s) h []).
(** [n] ECS exporters that got the record, none having started; [R]: the tags of the record's rules. *)
Definition exporters (n : nat) (R : list (list string)) : list agent := repeat (Enc None R) n.
(** Exporter [i] has its document, with these tags. *)
Definition exported (st : state) (i : nat) (tags : list string) : Prop :=
  exists s, nth_error (st_agents st) i = Some (Enc (Some s) []) /\ contents (st_heap st) s = tags.
(** Everybody is done. *)
Definition all_done (st : state) : Prop :=
  forall a, In a (st_agents st) -> (exists s, a = Enc (Some s) []) \/ a = Eng [].
