(** * SpecManifest: where the configuration of a plugin comes from. *)
From Verif Require Import GoBase GoFacts PluginModel SpecPlugin ExportModel SpecExport ManifestModel.

(** The decimal text of a number, a text itself. *)
Definition text_of (v : mval) (s : string) : Prop := match v with MStr t => s = t | MInt z => s = format_int z end.
(** The value of the environment variable [k]: what its first entry says; empty if there is none. *)
Definition variable (k : string) (env : list string) (v : string) : Prop :=
  (exists e1 e2, env = e1 ++ (k ++ "=" ++ v)%string :: e2 /\ forall e w, In e e1 -> e <> (k ++ "=" ++ w)%string) \/
  (v = ""%string /\ forall e w, In e env -> e <> (k ++ "=" ++ w)%string).
(** The attributes the build and the cluster identifier occupy. *)
Definition reserved : list string := ["version"; "jsonschemaversion"; "ecsversion"; "buildnumber"; "cluster.id"].
(** Attribute [a] of a stage has the value the build or the environment says. *)
Definition as_built (mf : manifest) (env : list string) (c : conf) : Prop :=
  (exists s, mget "version" c = Some (VStr s) /\ text_of (mf_version mf) s) /\
  (exists s, mget "jsonschemaversion" c = Some (VStr s) /\ text_of (mf_schema mf) s) /\
  (exists s, mget "ecsversion" c = Some (VStr s) /\ text_of (mf_ecs mf) s) /\
  (exists s, mget "buildnumber" c = Some (VStr s) /\ text_of (mf_build mf) s) /\
  (exists s, mget "cluster.id" c = Some (VStr s) /\ variable "CLUSTER_ID" env s).
(** The exporter's view [x] of a stage's configuration: the same texts. *)
Definition same_texts (c : conf) (x : xconf) : Prop := forall k v, mget k c = Some (VStr v) <-> option_of x k v.
(** An upper case letter, or an underscore. *)
Definition unreachable_byte (a : ascii) : bool := (Nat.leb 65 (nat_of_ascii a) && Nat.leb (nat_of_ascii a) 90) || Ascii.eqb a "_"%char.
