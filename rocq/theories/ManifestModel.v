(** * ManifestModel: the manifest in the plugins' configuration (driver/pipeline/config.go:69-103,
    driver/manifest/manifest.go.in). *)
From Verif Require Import GoBase PluginModel.

(** What the build puts into the manifest (Makefile:46-48): texts, and numbers where make strips the quotes. *)
Inductive mval := MStr (s : string) | MInt (z : Z).
Record manifest := mkManifest { mf_version : mval; mf_schema : mval; mf_ecs : mval; mf_build : mval }.

(** config.go:81-92.  The entry is looked at, not its type. *)
Definition mtext (v : mval) : string := match v with MStr s => s | MInt z => format_int z end.
Definition add_item (k : string) (v : mval) (c : conf) : conf :=
  match mget ProcConfig c with Some _ => mset k (VStr (mtext v)) c | None => c end.
Definition add_global (k : string) (v : mval) (p : list conf) : list conf := map (add_item k v) p.
(** config.go:95-103: the first entry of the environment with this name. *)
Fixpoint env_value (k : string) (env : list string) : string :=
  match env with
  | [] => ""
  | e :: env' => match cut_at "="%char e with
                 | Some (n, v) => if seqb n k then v else env_value k env'
                 | None => env_value k env'            (* len(pair) = 1 *)
                 end
  end.
(** config.go:73-79 *)
Definition set_manifest (mf : manifest) (env : list string) (p : list conf) : list conf :=
  add_global "cluster.id" (MStr (env_value "CLUSTER_ID" env))
    (add_global "buildnumber" (mf_build mf) (add_global "ecsversion" (mf_ecs mf)
      (add_global "jsonschemaversion" (mf_schema mf) (add_global "version" (mf_version mf) p)))).
(** plugincache.go:139-165 and pipeline.go:84-90: what Load hands to the plugins, from what the file says. *)
Definition prepare (mf : manifest) (env : list string) (p : list conf) : res (list conf) :=
  let* p1 := update_config env p in Ok (set_manifest mf env p1).
