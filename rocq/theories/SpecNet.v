(** * SpecNet: what a stage should have produced, and which networks are well formed. *)
From Coq Require Export Permutation.
From Verif Require Import GoBase NetModel.

Section S.
Context {M St : Type}.
Notation stage := (@stage M St).
Notation eff := (@eff M).

(** State and effects after handling [ms] one by one. *)
Fixpoint handle (g : stage) (st : St) (ms : list M) : St * list eff :=
  match ms with
  | [] => (st, [])
  | m :: ms' => let '(st1, es) := g_step g st m in let '(st2, es') := handle g st1 ms' in (st2, es ++ es')
  end.
(** All effects of a stage that received [ms] and then the end of input. *)
Definition all_effects (g : stage) (ms : list M) : list eff :=
  if g_driver g then g_feed g
  else let '(st, es) := handle g (g_init g) ms in es ++ g_fin g st.
(** What was sent on channel [c]. *)
Definition on (c : nat) (es : list eff) : list M :=
  flat_map (fun e => match fst e with Some c' => if Nat.eqb c' c then [snd e] else [] | None => [] end) es.
Definition targets_in (outs : list nat) (es : list eff) : Prop := forall c m, In (Some c, m) es -> In c outs.

(** Well-formed network: every stage that is not a driver has one input channel and room for a
    record in flight; stages send on their own output channels only; every channel has one writer
    and one reader, both present, and the reader comes after the writer. *)
Record well_formed (net : list stage) : Prop := {
  wf_input : forall i g, nth_error net i = Some g -> g_driver g = false -> exists c, g_ins g = [c];
  wf_width : forall i g, nth_error net i = Some g -> g_driver g = false -> 0 < g_width g;
  wf_feed : forall i g, nth_error net i = Some g -> targets_in (g_outs g) (g_feed g);
  wf_step : forall i g st m, nth_error net i = Some g -> targets_in (g_outs g) (snd (g_step g st m));
  wf_fin : forall i g st, nth_error net i = Some g -> targets_in (g_outs g) (g_fin g st);
  wf_nodup : forall i g, nth_error net i = Some g -> NoDup (g_outs g);
  wf_writer : forall i j g h c, nth_error net i = Some g -> nth_error net j = Some h -> In c (g_outs g) -> In c (g_outs h) -> i = j;
  wf_reader : forall i j g h c, nth_error net i = Some g -> nth_error net j = Some h -> input g = Some c -> input h = Some c -> i = j;
  wf_written : forall i g c, nth_error net i = Some g -> input g = Some c -> exists j h, nth_error net j = Some h /\ In c (g_outs h);
  wf_read : forall i g c, nth_error net i = Some g -> In c (g_outs g) -> exists j h, nth_error net j = Some h /\ input h = Some c;
  wf_order : forall i j g h c, nth_error net i = Some g -> nth_error net j = Some h -> In c (g_outs g) -> input h = Some c -> i < j }.
(** A stage that handles one record at a time. *)
Definition sequential (g : stage) : Prop := g_driver g = true \/ (g_width g = 1 /\ g_early g = false).

(** Stage [i] has received all that was or ever will be sent on its input (the channel is closed
    and empty), and has performed exactly the effects for it (in order if sequential). *)
Definition complete (net : list stage) (s : @state M St) (i : nat) (g : stage) : Prop :=
  (forall c, input g = Some c -> c_closed (s_ch s c) = true /\ c_q (s_ch s c) = [] /\ r_recv (s_rt s i) = c_hist (s_ch s c)) /\
  r_infl (s_rt s i) = [] /\
  Permutation (r_sent (s_rt s i)) (all_effects g (r_recv (s_rt s i))) /\
  (sequential g -> r_sent (s_rt s i) = all_effects g (r_recv (s_rt s i))).
(** Channel histories are what the writers sent. *)
Definition channels_faithful (net : list stage) (s : @state M St) : Prop :=
  forall i g c, nth_error net i = Some g -> In c (g_outs g) -> c_hist (s_ch s c) = on c (r_sent (s_rt s i)).
End S.
