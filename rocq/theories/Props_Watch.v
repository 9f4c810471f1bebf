(** * C103: the policies in force converge to the policy files. *)
From Coq Require Import Lia.
From Verif Require Import GoBase GoFacts PoolModel MonitorModel SpecMonitor WatchModel SpecWatch MonitorFacts WatchFacts.

(** However the directory changes and whenever: once the monitor has nothing left to do, what it compiled last is the directory
    as it is now -- unless a directory came back to an earlier content, a change fell into a check, or the directory is empty. *)
Theorem C103_converges :
  forall (P : Type) (compile : dir -> option P) d0 acts s tr,
  plain d0 -> Forall plain (changes acts) -> never_back (d0 :: changes acts) -> reported acts ->
  w_run compile (w_start d0) (WWatch :: acts) = Some (s, tr) -> undisturbed tr -> at_rest s -> w_dir s <> [] ->
  last_tried d0 tr = Some (w_dir s).
Proof. exact @converges. Qed.
Print Assumptions C103_converges.
(** And, if these compile and no result was dropped for want of room, they are the newest policies: waiting for the engine as
    the last of the queue, or, when it has taken all, the ones it works with. *)
Theorem C103_in_force :
  forall (P : Type) (compile : dir -> option P) d0 acts s tr p0 p,
  plain d0 -> Forall plain (changes acts) -> never_back (d0 :: changes acts) -> reported acts ->
  w_run compile (w_start d0) (WWatch :: acts) = Some (s, tr) -> undisturbed tr -> at_rest s -> w_dir s <> [] ->
  compile d0 = Some p0 -> room compile tr -> compile (w_dir s) = Some p ->
  last (m_queue (w_mon s)) (in_force p0 tr) = p /\ (m_queue (w_mon s) = [] -> in_force p0 tr = p).
Proof.
  intros P compile d0 acts s tr p0 p P0 Pa Hn Hre Hr Hu Ha Hne C0 Hro Cp.
  pose proof (converges_in_force compile d0 acts s tr p0 p P0 Pa Hn Hre Hr Hu Ha Hne C0 Hro Cp) as H. split; [exact H|]. intros E. rewrite E in H. exact H.
Qed.
Print Assumptions C103_in_force.
(** The monitor and the engine do come to rest: left alone, they can only take so many steps, and while they are not at rest
    with the queue empty, they can take one. *)
Theorem C103_settles :
  forall (P : Type) (compile : dir -> option P) (s : wstate P),
  (exists bound, forall acts s' tr, Forall own acts -> w_run compile s acts = Some (s', tr) -> length acts <= bound) /\
  (at_rest s /\ m_queue (w_mon s) = [] \/ exists a s' tr, own a /\ w_step compile s a = Some (s', tr)).
Proof.
  intros P compile s. split.
  - exists (work_left s). intros acts s' tr Ho Hr. pose proof (run_less compile acts s s' tr Ho Hr). lia.
  - exact (settles compile s).
Qed.
Print Assumptions C103_settles.
(** What the monitor and the engine do in this world is what [MonitorModel] says (so C26, C27, C52 and C53 speak about it). *)
Theorem C103_is_the_monitor :
  forall (P : Type) (compile : dir -> option P) d0 p0 acts s tr,
  w_run compile (w_start d0) acts = Some (s, tr) -> w_phase s = PhIdle ->
  exists es, mon_run (mkM [] [p0]) es = (w_mon s, p0 :: takes tr).
Proof. exact @refines_start. Qed.
Print Assumptions C103_is_the_monitor.

(** What is compiled: the policy files of one state the directory had meanwhile, each as it was in one of these states; if one of them
    was gone, nothing is compiled and nothing is queued. *)
Theorem C103_compiled_from :
  forall (P : Type) (compile : dir -> option P) (s : wstate P) k pick s' tr,
  w_step compile s (WCompile k pick) = Some (s', tr) ->
  exists d, In d (meanwhile s) /\
  ((exists found q, tr = [LTried (Some found) q] /\ map fst found = policy_files d /\
      forall f c, In (f, c) found -> exists d', In d' (meanwhile s) /\ mget f d' = Some c) \/
   (tr = [LTried None false] /\ m_queue (w_mon s') = m_queue (w_mon s) /\ exists f d', In f (policy_files d) /\ In d' (meanwhile s) /\ mget f d' = None)).
Proof.
  intros P compile s k pick s' tr H. unfold w_step in H. unfold meanwhile. destruct (w_phase s) as [|seen| |paths seen] eqn:Ph; try discriminate H.
  assert (At : forall j, In (at_ seen (w_dir s) j) (w_dir s :: seen)).
  { intros j. unfold at_. destruct (Nat.lt_ge_cases j (length seen)) as [L|L]; [right; now apply nth_In|left; symmetry; now apply nth_overflow]. }
  exists (at_ seen (w_dir s) k). split; [apply At|].
  assert (Lr : list_recursive (at_ seen (w_dir s) k) [".yaml"; ".yml"] = policy_files (at_ seen (w_dir s) k)).
  { unfold list_recursive, policy_files. f_equal. apply filter_ext. intros a. cbn [existsb]. now rewrite orb_false_r. }
  rewrite Lr in H. set (fs := policy_files _) in *.
  assert (Op : match opened seen (w_dir s) pick fs with
    | Some found => map fst found = fs /\ forall f c, In (f, c) found -> exists d', In d' (w_dir s :: seen) /\ mget f d' = Some c
    | None => exists f d', In f fs /\ In d' (w_dir s :: seen) /\ mget f d' = None end).
  { clear H Lr. induction fs as [|f fs IH]; cbn [opened]; [split; [reflexivity|intros f c []]|].
    destruct (mget f (at_ seen (w_dir s) (pick f))) as [c|] eqn:G.
    - destruct (opened seen (w_dir s) pick fs) as [l|].
      + destruct IH as [A B]. split; [cbn [map fst]; now rewrite A|]. intros f' c' [E|E]; [injection E as <- <-; eauto|eauto].
      + destruct IH as (f' & d' & A & B & C). exists f', d'. split; [now right|auto].
    - exists f, (at_ seen (w_dir s) (pick f)). split; [now left|auto]. }
  destruct (opened seen (w_dir s) pick fs) as [found|] eqn:O; injection H as <- <-.
  - left. exists found. eexists. split; [reflexivity|exact Op].
  - right. cbn [w_mon m_queue]. destruct paths; cbn [check_for_update fst]; rewrite Nat.ltb_irrefl; auto.
Qed.
Print Assumptions C103_compiled_from.

(** A change between Init's compilation and the moment the watch is set up goes unnoticed until the files change again. *)
Theorem C103_startup_refuted :
  forall (P : Type) (compile : dir -> option P) d0 d1 evs acts s tr, no_change acts ->
  w_run compile (w_start d0) (WChange d1 evs :: acts) = Some (s, tr) ->
  w_dir s = d1 /\ at_rest s /\ last_tried d0 tr = Some d0.
Proof. exact @startup_window. Qed.
Print Assumptions C103_startup_refuted.
(** So does coming back to an earlier content: the check compares with the files as of the last check, not as of the last
    compilation.  For any two directories A and B: the files are A when checked and B when compiled; then they are A again. *)
Theorem C103_back_again_refuted :
  forall (P : Type) (compile : dir -> option P) d0 A B evs, plain A -> plain B -> A <> [] -> B <> [] -> existsb has_modified_yaml evs = true ->
  exists acts s tr, changes acts = [A; B; A] /\ reported acts /\
    w_run compile (w_start d0) (WWatch :: acts) = Some (s, tr) /\ undisturbed tr /\ at_rest s /\ w_dir s = A /\ last_tried d0 tr = Some B.
Proof.
  intros P compile d0 A B evs PA PB NA NB He. destruct (aba compile d0 A B evs PA PB NA NB He) as (s & tr & H1 & H2 & H3 & H4 & H5).
  eexists. exists s, tr. split; [|split; [|split; [exact H1|auto]]]; [reflexivity|].
  intros d ev Hi. cbn in Hi. repeat (destruct Hi as [Hi|Hi]; [first [discriminate | now injection Hi as <- <-]|]). destruct Hi.
Qed.
Print Assumptions C103_back_again_refuted.
(** And so can a change during a check: the files are recorded as they never were together, and become just that. *)
Definition wx (a b : string) : dir := [("a.yaml", a); ("b.yaml", b)].
Definition wev : list fsevent := [mkEv op_write "a.yaml"].
Definition mixed : list wact :=
  [WChange (wx "1" "1") wev; WBatch 1; WChange (wx "2" "2") wev; WLook 0 (fun f => if seqb f "a.yaml" then 0 else 1);
   WList; WCompile 0 (fun _ => 0); WChange (wx "1" "2") wev; WBatch 2; WLook 0 (fun _ => 0)].
Theorem C103_mixed_check_refuted :
  forall (P : Type) (compile : dir -> option P),
  exists d0 acts s tr, plain d0 /\ Forall plain (changes acts) /\ never_back (d0 :: changes acts) /\ reported acts /\
    w_run compile (w_start d0) (WWatch :: acts) = Some (s, tr) /\ at_rest s /\ w_dir s <> [] /\ last_tried d0 tr <> Some (w_dir s).
Proof.
  intros P compile. exists (wx "0" "0"), mixed.
  assert (Pl : forall a b, plain (wx a b)).
  { intros a b. split; [|intros f [<-|[<-|[]]]; split; reflexivity]. apply NoDup_cons; [cbn; intuition discriminate|]. apply NoDup_cons; [cbn; tauto|apply NoDup_nil]. }
  assert (D : forall a b a' b', seqb a a' && seqb b b' = false -> differ (wx a b) (wx a' b')).
  { intros a b a' b' N. apply andb_false_iff in N as [N|N]; [exists "a.yaml"|exists "b.yaml"]; cbn; intros E; injection E as ->; now rewrite seqb_refl in N. }
  assert (R : exists s tr, w_run compile (w_start (wx "0" "0")) (WWatch :: mixed) = Some (s, tr) /\ at_rest s /\ w_dir s = wx "1" "2" /\ last_tried (wx "0" "0") tr = Some (wx "2" "2")).
  { destruct (compile (wx "2" "2")) as [p|] eqn:E; unfold wx in E.
    - eexists. eexists. split; [vm_compute; rewrite E; vm_compute; reflexivity|]. repeat split; reflexivity.
    - eexists. eexists. split; [vm_compute; rewrite E; vm_compute; reflexivity|]. repeat split; reflexivity. }
  destruct R as (s & tr & R1 & R2 & R3 & R4). exists s, tr.
  split; [apply Pl|]. split; [repeat apply Forall_cons; try apply Forall_nil; apply Pl|].
  split; [cbn [changes flat_map mixed app never_back]; split; [|repeat (split; [repeat (apply Forall_cons; [apply D; reflexivity|]); apply Forall_nil|]); exact I]; repeat (apply Forall_cons; [apply D; reflexivity|]); apply Forall_nil|].
  split; [apply reported_b; reflexivity|].
  split; [exact R1|]. split; [exact R2|]. rewrite R3, R4. split; [discriminate|]. intros E. apply (f_equal (fun o => match o with Some d => mget "a.yaml" d | None => None end)) in E. vm_compute in E. discriminate.
Qed.
Print Assumptions C103_mixed_check_refuted.

(** *** The hypotheses can be met: two changes, the second while the monitor is busy. *)
Definition wc (d : dir) : option string := match mget "a.yaml" d with Some "bad" => None | Some c => Some c | None => None end.
Definition wacts : list wact :=
  [WChange (wx "1" "0") wev; WBatch 1; WLook 0 (fun _ => 0); WList; WChange (wx "2" "0") wev; WCompile 1 (fun _ => 0); WTake; WBatch 5; WLook 0 (fun _ => 0); WList; WCompile 0 (fun _ => 0)].
Definition wres := w_run wc (w_start (wx "0" "0")) (WWatch :: wacts).
Example C103_converges_case : exists s tr, wres = Some (s, tr) /\
  plain (wx "0" "0") /\ Forall plain (changes wacts) /\ never_back (wx "0" "0" :: changes wacts) /\ reported wacts /\ undisturbed tr /\ at_rest s /\ w_dir s = wx "2" "0" /\
  wc (wx "0" "0") = Some "0" /\ room wc tr /\ wc (w_dir s) = Some "2" /\ m_queue (w_mon s) = ["2"] /\ in_force "0" tr = "1".
Proof.
  assert (Pl : forall a b, plain (wx a b)).
  { intros a b. split; [|intros f [<-|[<-|[]]]; split; reflexivity]. apply NoDup_cons; [cbn; intuition discriminate|]. apply NoDup_cons; [cbn; tauto|apply NoDup_nil]. }
  assert (D : forall a b a' b', seqb a a' && seqb b b' = false -> differ (wx a b) (wx a' b')).
  { intros a b a' b' N. apply andb_false_iff in N as [N|N]; [exists "a.yaml"|exists "b.yaml"]; cbn; intros E; injection E as ->; now rewrite seqb_refl in N. }
  eexists. eexists. split; [vm_compute; reflexivity|]. split; [apply Pl|]. split; [repeat apply Forall_cons; try apply Forall_nil; apply Pl|].
  split; [cbn [changes flat_map wacts app never_back]; split; [|repeat (split; [repeat (apply Forall_cons; [apply D; reflexivity|]); apply Forall_nil|]); exact I]; repeat (apply Forall_cons; [apply D; reflexivity|]); apply Forall_nil|].
  split; [apply reported_b; reflexivity|].
  split; [apply undisturbed_b; reflexivity|]. split; [split; reflexivity|]. split; [reflexivity|]. split; [reflexivity|].
  split; [apply room_b; reflexivity|]. repeat split; reflexivity.
Qed.
Example C103_settles_case : exists a s' tr, own a /\ w_step wc (mkW (wx "1" "0") true wev PhIdle (mkM [] [])) a = Some (s', tr).
Proof. exists (WBatch 1). eexists. eexists. split; [exact I|]. reflexivity. Qed.
Example C103_startup_case : exists s tr, no_change [WWatch] /\ w_run wc (w_start (wx "0" "0")) [WChange (wx "1" "0") wev; WWatch] = Some (s, tr) /\ w_dir s <> wx "0" "0".
Proof. eexists. eexists. split; [reflexivity|]. split; [reflexivity|]. discriminate. Qed.
Example C103_back_again_case : plain (wx "1" "0") /\ wx "1" "0" <> [] /\ existsb has_modified_yaml wev = true.
Proof.
  split; [|split; [discriminate|reflexivity]].
  split; [|intros f [<-|[<-|[]]]; split; reflexivity]. apply NoDup_cons; [cbn; intuition discriminate|]. apply NoDup_cons; [cbn; tauto|apply NoDup_nil].
Qed.
Example C103_compiled_case : exists s', w_step wc (mkW (wx "1" "0") true [] (PhCompile ["a.yaml"] [wx "1" "0"; [("a.yaml", "1")]]) (mkM [] [])) (WCompile 0 (fun f => if seqb f "b.yaml" then 1 else 0)) = Some (s', [LTried None false]).
Proof. eexists. reflexivity. Qed.
