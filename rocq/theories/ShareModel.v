(** * ShareModel: a record that is passed to several outputs.

    A stage with several output channels sends the same *Record to each (core/policyengine/policyengine.go:208-210),
    so the receivers share its context, whose tags are a Go slice.  An ECS exporter appends the tags of the
    rules to that slice (core/exporter/encoders/ecs.go:141-149), which writes into the shared array if it has
    room; an action of a second policy engine appends to it as well
    (core/policyengine/source/flatrecord/record.go:248-255, plugins/actions/example/now.go:40); a JSON exporter
    reads it twice (core/exporter/encoders/json.go:321-340).

    Simplifications: an append is one step; the rules an encoder sees are those it read, fixed beforehand. *)
From Verif Require Import GoBase JsonModel.

(** Go slices: an array of the heap (its length is the capacity) and a length. *)
Record slice := mkSlice { s_arr : nat; s_len : nat }.
Definition heap := list (list string).
Definition put (a : list string) (p : nat) (xs : list string) : list string := (firstn p a ++ xs ++ skipn (p + length xs) a)%list.
Fixpoint set_nth {A} (l : list A) (i : nat) (a : A) : list A :=
  match l, i with
  | [], _ => []
  | _ :: l', 0 => a :: l'
  | b :: l', S i' => b :: set_nth l' i' a
  end.
Definition contents (h : heap) (s : slice) : list string := firstn (s_len s) (nth (s_arr s) h []).
Section Run.
(** The room that append leaves in a new array. *)
Variable spare : nat -> nat.
(** append(s, xs...) *)
Definition append (h : heap) (s : slice) (xs : list string) : heap * slice :=
  let a := nth (s_arr s) h [] in
  let n := (s_len s + length xs)%nat in
  if Nat.leb n (length a) then (set_nth h (s_arr s) (put a (s_len s) xs), mkSlice (s_arr s) n)
  else ((h ++ [firstn (s_len s) a ++ xs ++ repeat "" (spare n)])%list, mkSlice (length h) n).

(** A receiver of the record: an ECS encoder, with the slice it works on once it has called GetTags (ecs.go:141)
    and the tags of the rules it has not come to (ecs.go:146-150); or an engine, with the tags its actions
    still have to add (record.go:252-254). *)
Inductive agent := Enc (s : option slice) (todo : list (list string)) | Eng (todo : list string).
Record state := mkState { st_heap : heap; st_ctx : slice; st_agents : list agent }.
Definition step (i : nat) (st : state) : option state :=
  let go h c a := Some (mkState h c (set_nth (st_agents st) i a)) in
  match nth_error (st_agents st) i with
  | Some (Enc None R) => go (st_heap st) (st_ctx st) (Enc (Some (st_ctx st)) R)
  | Some (Enc (Some s) (r :: R)) => let (h, s') := append (st_heap st) s r in go h (st_ctx st) (Enc (Some s') R)
  | Some (Eng (x :: xs)) => let (h, c) := append (st_heap st) (st_ctx st) [x] in go h c (Eng xs)
  | _ => None
  end.
(** The receivers take turns as [sch] says. *)
Fixpoint run (sch : list nat) (st : state) : option state :=
  match sch with
  | [] => Some st
  | i :: sch' => match step i st with Some st' => run sch' st' | None => None end
  end.
End Run.

(** json.go:321-340: [n] tags were counted; a comma is written after a tag if that was not the last by the count. *)
Fixpoint counted (n i : nat) (l : list string) : string :=
  match l with
  | [] => ""
  | t :: l' => w_string t ++ (if Nat.ltb i (n - 1) then "," else "") ++ counted n (S i) l'
  end%string.
(** [before]: the record's tags when they were counted, [now]: when they were written; [rtags]: those of the rules. *)
Definition tags_text (before now rtags : list string) : string :=
  let n := (length rtags + length before)%nat in
  if Nat.ltb 0 n then (",""tags"":[" ++ counted n 0 now ++ counted n (length now) rtags ++ "]")%string else "".
