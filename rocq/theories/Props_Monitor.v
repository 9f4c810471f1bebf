(** * Properties C26, C27, C52, C53: the local policy monitor. *)
From Verif Require Import GoBase PoolModel MonitorModel SpecMonitor MonitorFacts.

(** C27.  After any history of checks, a check of a readable directory reports a change iff the
    content differs from the remembered one in some file; otherwise it reports an error and no
    change. *)
Theorem C27_change_exact :
  forall h c v c', remembers h c -> shows v c' ->
  let o := snd (calculate_checksum (fold_left look h []) v) in
  o_err o = false /\ (o_changes o = true <-> exists f, c f <> c' f) /\ (o_changes o = false <-> same c c').
Proof. exact change_exact. Qed.
Print Assumptions C27_change_exact.
Theorem C27_otherwise_error :
  forall h v, (forall c, ~ shows v c) ->
  let o := snd (calculate_checksum (fold_left look h []) v) in o_err o = true /\ o_changes o = false.
Proof. exact change_error. Qed.
Print Assumptions C27_otherwise_error.
(** The remembered content is always defined. *)
Theorem C27_remembers_total : forall h, exists c, remembers h c.
Proof. exact remembers_total. Qed.
Print Assumptions C27_remembers_total.

Definition ex_view (l : list (string * string)) : view := mkView (Some (map fst l)) (fun f => mget f l).
Example ex_change_removed :
  o_changes (snd (calculate_checksum (fold_left look [ex_view [("a", "1"); ("b", "2")]] []) (ex_view [("b", "2")]))) = true.
Proof. vm_compute. reflexivity. Qed.
Example ex_change_none :
  o_changes (snd (calculate_checksum (fold_left look [ex_view [("a", "1"); ("b", "2")]] []) (ex_view [("b", "2"); ("a", "1")]))) = false.
Proof. vm_compute. reflexivity. Qed.
Example ex_shows : shows (ex_view [("a", "1"); ("b", "2")]) (fun f => if seqb f "a" then Some "1" else if seqb f "b" then Some "2" else None).
Proof.
  exists ["a"; "b"]. split; [reflexivity|]. split; [discriminate|]. split.
  - intros f [<-|[<-|[]]]; cbn; split; auto; discriminate.
  - intros f H. destruct (seqb f "a") eqn:E1; [apply String.eqb_eq in E1; subst; cbn in H; tauto|].
    destruct (seqb f "b") eqn:E2; [apply String.eqb_eq in E2; subst; cbn in H; tauto|auto].
Qed.

(** C26.  The queue never holds more than its capacity; what was taken and what is queued,
    together, is the initial interpreter and then interpreters that compiled, in the order of the
    events that produced them, each at most once. *)
Theorem C26_queue :
  forall (P : Type) (p0 : P) es s t, mon_run (mkM [] [p0]) es = (s, t) ->
  length (m_queue s) <= 10 /\
  exists ps, t ++ m_queue s = p0 :: ps /\
    subseq ps (flat_map (fun e => match e with EFiles _ _ _ (Some p) => [p] | _ => [] end) es).
Proof. intros P p0 es s t H. split; [exact (mon_capacity_ok p0 es s t H)|exact (mon_order p0 es s t H)]. Qed.
Print Assumptions C26_queue.
(** A batch of file events publishes an interpreter iff it touches a YAML file, the directory is
    not empty, its content is not known to be unchanged, compilation succeeded and the queue has
    room; then exactly the compiled one is appended.  In all other cases the queue is unchanged. *)
Theorem C26_publishes :
  forall (P : Type) (p0 : P) es s t c evs v paths compiled,
  mon_run (mkM [] [p0]) es = (s, t) -> remembers (looks es) c ->
  forall s' o, mon_step s (EFiles evs v paths compiled) = (s', o) ->
  o = None /\
  (m_queue s' = m_queue s \/ exists p, m_queue s' = m_queue s ++ [p]) /\
  forall p, m_queue s' = m_queue s ++ [p] <->
    (existsb has_modified_yaml evs = true /\ v_paths v <> Some [] /\ (forall c', shows v c' -> ~ same c c') /\
     paths <> None /\ paths <> Some [] /\ compiled = Some p /\ length (m_queue s) < 10).
Proof. exact @mon_publishes. Qed.
Print Assumptions C26_publishes.
(** A monitor is made exactly if the policy directory can be listed, has a policy file and compiles; it then
    offers those policies, and remembers nothing yet. *)
Theorem C26_starts :
  forall (P : Type) paths (compiled : option P) m,
  new_monitor paths compiled = Some m <-> exists f fs p, paths = Some (f :: fs) /\ compiled = Some p /\ m_queue m = [p] /\ m_policies m = [].
Proof.
  intros P paths compiled [pol q]. unfold new_monitor, check_for_update. cbn [m_queue m_policies length]. change (0 <? mon_capacity) with true. cbv iota.
  destruct paths as [[|f fs]|]; [| |]; [split; [discriminate|intros (f & fs & p & H & _); discriminate]| |split; [discriminate|intros (f & fs & p & H & _); discriminate]].
  destruct compiled as [p|]; [|split; [discriminate|intros (f0 & fs0 & p & _ & H & _); discriminate]]. cbn [List.app].
  split; [intros [= <- <-]; exists f, fs, p; auto|]. intros (f0 & fs0 & p0 & [= <- <-] & [= <-] & -> & ->). reflexivity.
Qed.
Print Assumptions C26_starts.
Definition ex_ev : list fsevent := [mkEv op_chmod "p.yaml"; mkEv op_write "dir/p.yaml"].
Definition ex_files (l : list (string * string)) (p : option nat) : mevent nat := EFiles ex_ev (ex_view l) (Some (map fst l)) p.
Example ex_monitor : mon_run (mkM [] [0])
    [ex_files [("a", "1")] (Some 1); ex_files [("a", "1")] (Some 2); ETake; ex_files [("a", "2")] None; ex_files [("a", "3")] (Some 4); ETake]
  = (mkM [("a", "3")] [4], [0; 1]).
Proof. vm_compute. reflexivity. Qed.

(** C52.  A change of a file that the engine compiles but that is not a .yaml file of the top
    directory is never reported. *)
Theorem C52_unmonitored_files_refuted :
  forall h d1 d2 f a b, a <> b -> (has_suffix f ".yaml" = true \/ has_suffix f ".yml" = true) ->
  ((exists sub name, f = (sub ++ "/" ++ name)%string) \/ has_suffix f ".yaml" = false) ->
  list_file_paths (d1 ++ (f, a) :: d2) ".yaml" <> [] ->
  loaded (d1 ++ (f, a) :: d2) <> loaded (d1 ++ (f, b) :: d2) /\
  let o := snd (calculate_checksum (fold_left look (h ++ [dir_view (d1 ++ (f, a) :: d2)]) []) (dir_view (d1 ++ (f, b) :: d2))) in
  o_changes o = false /\ o_err o = false.
Proof.
  assert (N : forall sub name, nested (sub ++ "/" ++ name)%string = true).
  { intros sub name. induction sub as [|c sub IH]; [reflexivity|]. change ((Ascii.eqb c "/" || nested (sub ++ "/" ++ name)%string)%bool = true). rewrite IH. apply orb_true_r. }
  intros h d1 d2 f a b Hab Hext Hun. refine (unmonitored h d1 d2 f a b Hab Hext _). destruct Hun as [(sub & name & ->)|Hun]; [left; apply N|right; exact Hun].
Qed.
Print Assumptions C52_unmonitored_files_refuted.
Example ex_unmonitored : (has_suffix "x.yml" ".yml" = true) /\ has_suffix "x.yml" ".yaml" = false /\
  "sub/y.yaml" = ("sub" ++ "/" ++ "y.yaml")%string /\ has_suffix "sub/y.yaml" ".yaml" = true /\ list_file_paths ([("p.yaml", "0")] ++ ("x.yml", "1") :: []) ".yaml" = ["p.yaml"].
Proof. vm_compute. auto. Qed.
(** The events that trigger a check: exactly one operation bit among create, remove, write and
    rename, on a name with a YAML extension. *)
Theorem C52_trigger :
  forall e, has_modified_yaml e = true <->
  In (e_op e) [1; 4; 2; 8]%N /\ (has_suffix (e_name e) ".yaml" = true \/ has_suffix (e_name e) ".yml" = true).
Proof. exact modified_yaml. Qed.
Print Assumptions C52_trigger.

(** C53.  Policies compiled while the queue is full are lost for good: as long as the files keep
    that content, nothing is ever published again, however much the queue is emptied. *)
Theorem C53_latest_policies_lost_refuted :
  forall (P : Type) (p0 : P) es s t evs v paths c, mon_run (mkM [] [p0]) es = (s, t) ->
  shows v c -> existsb has_modified_yaml evs = true -> length (m_queue s) = 10 ->
  forall later, Forall (fun e => match e with ETake => True | EFiles _ v' _ _ => v' = v end) later ->
  forall p s' t', mon_run (fst (mon_step s (EFiles evs v paths (Some p)))) later = (s', t') -> t' ++ m_queue s' = m_queue s.
Proof. exact @mon_lost. Qed.
Print Assumptions C53_latest_policies_lost_refuted.
Example ex_full : length (m_queue (fst (mon_run (mkM [] [0])
  (map (fun n => ex_files [("a", "1"); (String (Ascii.ascii_of_nat n) "", "x")] (Some n)) [1;2;3;4;5;6;7;8;9;10;11])))) = 10.
Proof. vm_compute. reflexivity. Qed.
