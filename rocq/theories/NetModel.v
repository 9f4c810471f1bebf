(** * NetModel: a loaded pipeline as a network of stages over channels.
    driver/pipeline/pipeline.go:119-204 (start of the stages), 286-294 (Wait, process), and the
    Process/Cleanup pairs of the processors: core/processor/reader.go:80-174,
    core/processor/processor.go:91-156, core/policyengine/policyengine.go:118-169, 221-234,
    core/exporter/exporter.go:113-186, core/flattener/flattener.go:99-105.

    What is abstracted: the handling of one record is a function of the stage's state that yields
    the effects the stage will perform (sends on its output channels, and external effects: an
    export, an action).  The policy engine, whose pool is modelled in detail in PoolModel, is here
    a stage with up to [g_width] records in flight whose Process may return early. *)
From Verif Require Import GoBase.

Section Net.
Context {M St : Type}.
(** [Some c]: a send on channel c; [None]: an effect outside the pipeline. *)
Definition eff : Type := (option nat * M)%type.

Record stage := mkG {
  g_driver : bool;             (* a driver: feeds [g_feed], then closes its channels; not in the wait group *)
  g_feed : list eff;
  g_ins : list nat;            (* the channels of the in tag *)
  g_outs : list nat;           (* the channels of the out tag *)
  g_width : nat;               (* records in flight: 1 for reader, processor and exporter; the pool size for the engine *)
  g_early : bool;              (* Process returns when the input is closed, with records still in flight (policyengine.go:163-166) *)
  g_init : St;
  g_step : St -> M -> St * list eff;
  g_fin : St -> list eff }.    (* effects at the end of input (exporter.go:142-146) *)

Inductive ctl := Running | Ending | Closing (todo : list nat) | Exited.
(** [r_recv], [r_sent] record what the stage did and do not influence it. *)
Record rt := mkR { r_st : St; r_infl : list (list eff); r_ctl : ctl; r_done : bool; r_recv : list M; r_sent : list eff }.
Record cst := mkC { c_q : list M; c_closed : bool; c_hist : list M }.
Record state := mkS { s_ch : nat -> cst; s_rt : nat -> rt; s_crash : bool }.

Definition fset {A} (f : nat -> A) (i : nat) (x : A) : nat -> A := fun j => if Nat.eqb j i then x else f j.
Definition infl1 (es : list eff) : list (list eff) := match es with [] => [] | _ => [es] end.

(** A driver starts with its records to send and then closes (driver/sysflow/filedriver.go); a
    stage with exactly one input channel starts reading; any other stage returns from Process at
    once, without wg.Done, and is cleaned up (exporter.go:114-117 and alike, pipeline.go:291-294). *)
Definition start (g : stage) : rt :=
  if g_driver g then mkR (g_init g) (infl1 (g_feed g)) (Closing (g_outs g)) true [] []
  else match g_ins g with
       | [_] => mkR (g_init g) [] Running false [] []
       | _ => mkR (g_init g) [] (Closing (g_outs g)) false [] []
       end.
Section WithNet.
Variable net : list stage.
Variable cap : nat.                    (* pipeline/config.go:56 ChanSize *)
Definition init (r0 : rt) : state :=
  mkS (fun _ => mkC [] false []) (fun i => match nth_error net i with Some g => start g | None => r0 end) false.

Inductive label := LRecv (i : nat) | LEff (i k : nat) | LEnd (i : nat) | LReturn (i : nat) | LClose (i : nat).
Definition input (g : stage) : option nat := if g_driver g then None else match g_ins g with [c] => Some c | _ => None end.

Definition set_rt (s : state) (i : nat) (r : rt) : state := mkS (s_ch s) (fset (s_rt s) i r) (s_crash s).
Definition set_ch (s : state) (c : nat) (x : cst) : state := mkS (fset (s_ch s) c x) (s_rt s) (s_crash s).
Definition crashed (s : state) : state := mkS (s_ch s) (s_rt s) true.

(** The k-th record in flight performs its next effect. *)
Definition pop (l : list (list eff)) (k : nat) : option (eff * list (list eff)) :=
  match nth_error l k with
  | Some (e :: es) => Some (e, firstn k l ++ infl1 es ++ skipn (S k) l)
  | _ => None
  end.
Definition fire (s : state) (l : label) : option state :=
  if s_crash s then None else
  match l with
  | LRecv i =>
      match nth_error net i with None => None | Some g =>
      let r := s_rt s i in
      match r_ctl r, input g with
      | Running, Some c =>
          match c_q (s_ch s c) with
          | m :: q =>
              if length (r_infl r) <? g_width g then
                let '(st, es) := g_step g (r_st r) m in
                Some (set_rt (set_ch s c (mkC q (c_closed (s_ch s c)) (c_hist (s_ch s c)))) i
                             (mkR st (r_infl r ++ infl1 es) Running (r_done r) (r_recv r ++ [m]) (r_sent r)))
              else None
          | [] => None
          end
      | _, _ => None
      end end
  | LEff i k =>
      match nth_error net i with None => None | Some g =>
      let r := s_rt s i in
      match pop (r_infl r) k with
      | Some ((oc, m), infl) =>
          let r' := mkR (r_st r) infl (r_ctl r) (r_done r) (r_recv r) (r_sent r ++ [(oc, m)]) in
          match oc with
          | None => Some (set_rt s i r')
          | Some c =>
              let x := s_ch s c in
              if c_closed x then Some (crashed s)            (* send on closed channel *)
              else if length (c_q x) <? cap then
                Some (set_rt (set_ch s c (mkC (c_q x ++ [m]) false (c_hist x ++ [m]))) i r')
              else None
          end
      | None => None
      end end
  | LEnd i =>                                              (* the input is closed and empty *)
      match nth_error net i with None => None | Some g =>
      let r := s_rt s i in
      match r_ctl r, input g with
      | Running, Some c =>
          if c_closed (s_ch s c) then
            match c_q (s_ch s c) with
            | [] =>
                if g_early g || (length (r_infl r) =? 0) then
                  Some (set_rt s i (mkR (r_st r) (r_infl r ++ infl1 (g_fin g (r_st r))) Ending (r_done r) (r_recv r) (r_sent r)))
                else None
            | _ => None
            end
          else None
      | _, _ => None
      end end
  | LReturn i =>                                           (* Process returns: the deferred wg.Done *)
      match nth_error net i with None => None | Some g =>
      let r := s_rt s i in
      match r_ctl r with
      | Ending =>
          if g_early g || (length (r_infl r) =? 0) then
            Some (set_rt s i (mkR (r_st r) (r_infl r) (Closing (g_outs g)) true (r_recv r) (r_sent r)))
          else None
      | _ => None
      end end
  | LClose i =>                                            (* Cleanup: after the workers, the outputs *)
      match nth_error net i with None => None | Some g =>
      let r := s_rt s i in
      match r_ctl r, r_infl r with
      | Closing [], [] => Some (set_rt s i (mkR (r_st r) [] Exited (r_done r) (r_recv r) (r_sent r)))
      | Closing (c :: cs), [] =>
          let x := s_ch s c in
          if c_closed x then Some (crashed s)                (* close of closed channel *)
          else Some (set_rt (set_ch s c (mkC (c_q x) true (c_hist x))) i (mkR (r_st r) [] (Closing cs) (r_done r) (r_recv r) (r_sent r)))
      | _, _ => None
      end end
  end.
(** An execution: any sequence of enabled steps. *)
Inductive steps : state -> list label -> state -> Prop :=
| St0 : forall s, steps s [] s
| St1 : forall s l s1 ls s2, fire s l = Some s1 -> steps s1 ls s2 -> steps s (l :: ls) s2.
(** The pipeline's Wait returns when every stage of the wait group called Done. *)
Definition wait_returns (s : state) : Prop :=
  forall i g, nth_error net i = Some g -> g_driver g = false -> r_done (s_rt s i) = true.
End WithNet.
End Net.
