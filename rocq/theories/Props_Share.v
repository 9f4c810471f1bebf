(** * Property C123: a record that is passed to several outputs. *)
From Coq Require Import Lia.
From Verif Require Import GoBase GoFacts JsonModel ShareModel SpecShare ShareFacts.
Local Open Scope nat_scope.

(** C123.  If all receivers are ECS exporters, then however they take turns, the record keeps its tags
    and each document has the record's tags followed by those of the rules, though the exporters may append to the
    same array.  Partial: the receivers are exporters only. *)
Theorem C123_exporters_partial :
  forall spare h c R, valid h c -> forall n sch st, run spare sch (mkState h c (exporters n R)) = Some st ->
  contents (st_heap st) (st_ctx st) = contents h c /\
  forall i s, nth_error (st_agents st) i = Some (Enc (Some s) []) -> exported st i (contents h c ++ concat R).
Proof. exact exporters_safe. Qed.
Print Assumptions C123_exporters_partial.
(** Refuted when another receiver adds a tag to the record: if the array behind the tags has room, there
    is a schedule after which the record has a tag of a rule in place of the one added, and one after which the
    exported document has the tag added in place of the one of the rule. *)
Theorem C123_shared_refuted :
  forall spare h c r x, valid h c -> roomy h c ->
  (exists sch st, run spare sch (mkState h c [Enc None [[r]]; Eng [x]]) = Some st /\ all_done st /\
     contents (st_heap st) (st_ctx st) = (contents h c ++ [r])%list) /\
  (exists sch st, run spare sch (mkState h c [Enc None [[r]]; Eng [x]]) = Some st /\ all_done st /\
     exported st 0 (contents h c ++ [x])).
Proof.
  intros spare h c r x V Hr. destruct (lost spare h c r x V Hr) as [(st & H) (st2 & H2)]. split; [exists [0; 1; 0], st; exact H|exists [0; 0; 1], st2; exact H2].
Qed.
Print Assumptions C123_shared_refuted.
(** If however the array has no room when the exporters have got the tags, nothing is lost: once everybody is done, the
    record has its tags followed by all those added, and each document its own. *)
Theorem C123_full_partial :
  forall spare h c R n xs, valid h c -> ~ roomy h c -> forall sch st,
  run spare sch (mkState h c (repeat (Enc (Some c) R) n ++ [Eng xs])) = Some st -> all_done st ->
  contents (st_heap st) (st_ctx st) = (contents h c ++ xs)%list /\
  forall i, i < n -> exported st i (contents h c ++ concat R).
Proof. exact full_safe. Qed.
Print Assumptions C123_full_partial.
(** The JSON exporter writes the tags as the other theorems say if they do not change between counting and writing. *)
Theorem C123_json_partial : forall ctags rtags, tags_text ctags ctags rtags = tags_json ctags rtags.
Proof. exact tags_same. Qed.
Print Assumptions C123_json_partial.
(** Refuted otherwise: a tag added in between is written without a comma before it. *)
Theorem C123_json_refuted :
  forall ctags x, ctags <> [] ->
  tags_text ctags (ctags ++ [x]) [] = (",""tags"":[" ++ comma_list w_string ctags ++ w_string x ++ "]")%string.
Proof. exact tags_grown. Qed.
Print Assumptions C123_json_refuted.

(** ** Cases *)
(** Arrays double, as Go's do while small: three tags added to a record without tags leave room for one more. *)
Definition double (n : nat) : nat := if Nat.eqb n 3 then 1 else 0.
Definition start := mkState [[]] (mkSlice 0 0) [Eng ["a"; "b"; "c"]].
Definition after (sch : list nat) (st : state) (l : list agent) : option state :=
  option_map (fun s => mkState (st_heap s) (st_ctx s) l) (run double sch st).
Definition seen (o : option state) : option (list string * list (list string)) :=
  option_map (fun s => (contents (st_heap s) (st_ctx s), map (fun a => match a with Enc (Some t) _ => contents (st_heap s) t | _ => [] end) (st_agents s))) o.
Definition follow (sch : list nat) (o : option state) : option state := match o with Some s => run double sch s | None => None end.
Example C123_case :
  let st l := after [0; 0; 0] start l in
  match st [] with Some s => valid (st_heap s) (st_ctx s) /\ roomy (st_heap s) (st_ctx s) | None => False end /\
  seen (follow [0; 1; 1; 0; 1; 0] (st (exporters 2 [["r"]; ["s"; "t"]]))) = Some (["a"; "b"; "c"], [["a"; "b"; "c"; "r"; "s"; "t"]; ["a"; "b"; "c"; "r"; "s"; "t"]]) /\
  seen (follow [0; 1; 0] (st [Enc None [["r"]]; Eng ["x"]])) = Some (["a"; "b"; "c"; "r"], [["a"; "b"; "c"; "r"]; []]) /\
  seen (follow [0; 0; 1] (st [Enc None [["r"]]; Eng ["x"]])) = Some (["a"; "b"; "c"; "x"], [["a"; "b"; "c"; "x"]; []]) /\
  seen (follow [0; 1; 0] (st [Enc None [["r"; "s"]]; Eng ["x"]])) = Some (["a"; "b"; "c"; "x"], [["a"; "b"; "c"; "r"; "s"]; []]) /\
  (let f := mkState [["a"; "b"]] (mkSlice 0 2) [Enc (Some (mkSlice 0 2)) [["r"]; ["s"]]; Eng ["x"; "y"]] in
   valid (st_heap f) (st_ctx f) /\ ~ roomy (st_heap f) (st_ctx f) /\
   seen (run double [0; 1; 1; 0] f) = Some (["a"; "b"; "x"; "y"], [["a"; "b"; "r"; "s"]; []])) /\
  tags_text ["a"; "b"] ["a"; "b"; "x"] ["r"] = ",""tags"":[""a"",""b"",""x""""r""]"%string /\
  tags_text ["a"] ["a"; "x"] [] = ",""tags"":[""a""""x""]"%string.
Proof. vm_compute. repeat split; try (repeat constructor). lia. Qed.
