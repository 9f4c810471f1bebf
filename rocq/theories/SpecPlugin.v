(** * SpecPlugin: environment overrides, channel names, loading. *)
From Verif Require Import GoBase GoFacts PluginModel SpecWhite.

(** The environment variable [name] addresses attribute [attr] of processor [proc]. *)
Definition addresses (name proc attr : string) : Prop :=
  exists suffix, to_lower name = (proc ++ "_" ++ suffix)%string /\ has_byte "_"%char proc = false /\ attr = dots suffix.
(** The environment sets [attr] of [proc] to [v]: the last entry addressing it says so. *)
Definition env_sets (env : list string) (proc attr v : string) : Prop :=
  exists e1 name e2, env = e1 ++ (name ++ "=" ++ v)%string :: e2 /\ has_byte "="%char name = false /\
    addresses name proc attr /\
    forall e name' v', In e e2 -> e = (name' ++ "=" ++ v')%string -> has_byte "="%char name' = false -> ~ addresses name' proc attr.
(** Every entry of the environment has the form NAME=VALUE. *)
Definition env_ok (env : list string) : Prop := forall e, In e env -> has_byte "="%char e = true.

(** The string [s] consists of the words [l], separated and surrounded by white space. *)
Definition word (w : string) : Prop := w <> "" /\ forall u x v, w = (u ++ x ++ v)%string -> ~ white x.
Inductive Words : string -> list string -> Prop :=
| W_end : Words "" []
| W_blank : forall b s l, white b -> Words s l -> Words (b ++ s) l
| W_word : forall w s l, word w -> (s = "" \/ exists b s', s = (b ++ s')%string /\ white b) -> Words s l -> Words (w ++ s) (w :: l).
(** A request "<identifier> <type>". *)
Definition asks (req id ty : string) : Prop := Words req [id; ty].
(** The channel requests an in or out tag makes. *)
Definition requests (v : pval) : list pval := match v with VStr n => [VStr n] | VList l => l | VOther => [] end.
(** The channels [cs] are those the requests [v] name, according to the association [m]. *)
Definition named (m : gomap chan) (v : pval) (cs : list chan) : Prop :=
  Forall2 (fun r c => exists req id ty, r = VStr req /\ asks req id ty /\ mget id m = Some c) (requests v) cs.
(** The running stage [sg] implements the configuration entry [c]: its processor is the one named
    and is initialized, its input and output channels are those the tags name (no out tag: none). *)
Definition stage_of (procs : string -> bool) (init_ok : string -> conf -> bool) (m : gomap chan) (c : conf) (sg : stage) : Prop :=
  mget "processor" c = Some (VStr (sg_proc sg)) /\ procs (sg_proc sg) = true /\ init_ok (sg_proc sg) c = true /\
  (exists v, mget "in" c = Some v /\ named m v (sg_in sg)) /\
  match mget "out" c with Some w => named m w (sg_out sg) | None => sg_out sg = [] end.
