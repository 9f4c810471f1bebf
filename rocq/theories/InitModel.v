(** * InitModel: start-up of the policy engine plugin
    (core/policyengine/policyengine.go:76-117, 173-203; engine/interpreter.go:71-133;
    monitor/policymonitor.go:38-44, monitor/localpolicymonitor.go:52-66).

    Simplifications: the directory does not change while Init runs; a panic of a compiler is
    [Panic] for the whole of Init, and so is a Sigma test that panics whenever it is evaluated (an operand
    like "sf.proc.exe["): the code accepts such a policy and panics at a record (EvalModel, C120); [perf] is whether performance logging is on. *)
From Verif Require Import GoBase Predicates FalcoModel SigmaModel EngineModel PoolModel MonitorModel.

Section Init.
Context {R : Type}.
(** What an interpreter is made of: its filters and its rules. *)
Definition policies : Type := (list (filter R) * list (rule R))%type.

(** What start-up finds outside the program. *)
Record host := mkHost {
  h_recursive : string -> option (list string);      (* ioutils.ListRecursiveFilePaths(dir, ".yaml", ".yml"); None: error *)
  h_flat : string -> option (list string);           (* ioutils.ListFilePaths(dir, ".yaml") *)
  h_text : string -> option string;                  (* the contents of a file; None: cannot be read *)
  h_falco : string -> file;                          (* the file as the Falco front end sees it *)
  h_sigma : string -> option (option srule);         (* the file as the Sigma front end sees it *)
  h_sigconf : string -> option (gomap (list string));(* field mappings of a Sigma configuration; None: cannot be read or parsed *)
  h_watcher : bool;                                  (* fsnotify.NewWatcher succeeds *)
  h_perf : bool }.                                   (* logger.IsEnabled(logger.Perf) *)

Variable ops : operations R.                         (* common.NewOperations() *)
Variable pmatch : string -> string -> bool.          (* path.Match, used by the Sigma compiler *)
Variable ord : srule -> list nat -> list (string * search).   (* iteration order of the search maps *)
Variable fuel : nat.

(** interpreter.go:117-119 with the two compilers (falco/compiler.go:121-129,
    sigma/compiler.go:63-117): rules and filters, [None] if an error is returned. *)
Definition compile_policies (h : host) (c : config) (paths : list string) : res (option (list (rule R) * list (filter R))) :=
  match c_language c with
  | Falco => compile ops fuel (map (h_falco h) paths)
  | Sigma =>
      match read_rules (map (h_sigma h) paths) with
      | None => Ok None
      | Some _ =>
          match h_sigconf h (c_config c) with
          | None => Ok None
          | Some mappings =>
              let* o := s_compile ops mappings pmatch ord (map (h_sigma h) paths) in
              Ok (option_map (fun rs => (rs, [])) o)
          end
      end
  end.
(** policyengine.go:173-203 with interpreter.go:115-133 *)
Definition create_interpreter (h : host) (c : config) : res (option policies) :=
  match h_recursive h (c_policies c) with
  | None => Ok None
  | Some [] => Ok None
  | Some paths =>
      let* o := compile_policies h c paths in
      Ok (option_map (fun rf => (snd rf, bench_rules (h_perf h) (c_benchindex c) (c_benchsize c) (fst rf))) o)
  end.

(** The plugin after a successful Init. *)
Record ready := mkReady { rd_conf : config; rd_pi : option policies; rd_mon : option (mstate policies) }.
(** interpreter.go:96-105: make(chan R, n) and wg.Add(n) panic for a negative n, and wg.Add(n), whose
    counter is a signed number of 32 bits, for n = 2^31 to 2^32 - 1.  Simplification: larger n, for
    which make panics, wg.Add panics or memory runs out on 2^32 goroutines, are [Panic] too; memory
    is taken to suffice for fewer than 2^31 workers. *)
Definition max_workers : Z := 2147483647.
Definition start_ok {A} (c : config) (a : A) : res A :=
  if Z.ltb (c_concurrency c) 0 || Z.ltb max_workers (c_concurrency c) then Panic else Ok a.

(** policyengine.go:76-117; [None]: an error is returned. *)
Definition init (h : host) (conf : gomap cval) : res (option ready) :=
  let c := fst (create_config conf) in
  if seqb (c_policies c) "" then
    match c_mode c with
    | EnrichMode => Ok (Some (mkReady c None None))
    | AlertMode => Ok None
    end
  else
    match c_monitor c with
    | NoneType =>
        let* o := create_interpreter h c in
        match o with
        | None => Ok None
        | Some p => start_ok c (Some (mkReady c (Some p) None))
        end
    | LocalType =>
        if h_watcher h then
          match h_flat h (c_policies c) with
          | None | Some [] => Ok None
          | paths =>
              let* o := create_interpreter h c in
              match new_monitor paths o with
              | None => Ok None
              | Some m =>
                  match mon_step m ETake with
                  | (m', Some p) => start_ok c (Some (mkReady c (Some p) (Some m')))
                  | (_, None) => Ok None
                  end
              end
          end
        else Ok None
    end.

(** The state of the plugin's goroutines when Init has returned (PoolModel). *)
Definition pool_start (rd : ready) : st policies R :=
  match rd_pi rd, rd_mon rd with
  | None, _ => init_bypass
  | Some p, None => init_static (Z.to_nat (c_concurrency (rd_conf rd))) p
  | Some p, Some m => init_monitor (Z.to_nat (c_concurrency (rd_conf rd))) p (m_queue m)
  end.

(** ** The plugin with a policy monitor
    The goroutines of PoolModel and the monitor's goroutine (MonitorModel), which shares its
    queue with them.  [LFiles]: a batch of file events, with what the directory shows to the
    check, to the update and to the compiler.  A panic of the compiler ends the process; such
    choices are not taken. *)
Variable proc : policies -> R -> option R.
Variable conc : nat.
Variable outCh : list nat.
Inductive lchoice :=
| LCh (ch : choice policies R)
| LFiles (evs : list fsevent) (v : view) (paths : option (list string)) (h : host).
Definition lstate : Type := (st policies R * gomap string)%type.
Definition live_step (c : config) (s : lstate) (ch : lchoice) : option (lstate * list (label policies R)) :=
  match ch with
  | LCh (CPublish _) => None
  | LCh ch' => match fire proc conc outCh (fst s) ch' with
               | Some (s', l) => Some ((s', snd s), [l])
               | None => None
               end
  | LFiles evs v paths h =>                          (* localpolicymonitor.go:165-190, 209-231 *)
      if s_panic (fst s) then None else
      match s_monq (fst s), create_interpreter h c with
      | Some q, Ok o =>
          let m' := fst (mon_step (mkM (snd s) q) (EFiles evs v paths o)) in
          let s' := mkSt (s_main (fst s)) (s_pi (fst s)) (s_pools (fst s)) (Some (m_queue m')) (s_closed (fst s)) (s_panic (fst s)) in
          Some ((s', m_policies m'), map LPublish (skipn (length q) (m_queue m')))
      | _, _ => None
      end
  end.
Fixpoint live_run (c : config) (s : lstate) (chs : list lchoice) : lstate * list (label policies R) :=
  match chs with
  | [] => (s, [])
  | ch :: chs' => match live_step c s ch with
                  | None => live_run c s chs'
                  | Some (s1, ls) => let (s2, ls') := live_run c s1 chs' in (s2, ls ++ ls')
                  end
  end.
(** The state after a successful Init: workers and, with a monitor, its record of checksums. *)
Definition live_start (rd : ready) : lstate :=
  (pool_start rd, match rd_mon rd with Some m => m_policies m | None => [] end).
End Init.
Arguments lchoice R : clear implicits.
Arguments policies R : clear implicits.
Arguments ready R : clear implicits.
