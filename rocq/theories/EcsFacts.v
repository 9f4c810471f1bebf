(** * EcsFacts: attributes of flattened events as the ECS encoder reads them. *)
From Coq Require Import Lia.
From Verif Require Import GoBase GoFacts Predicates FlatRecord FieldTables EngineModel EngineFlat FlattenModel SpecFlatten FlattenFacts2 EcsModel SpecEcs.

Section Read.
Variables (X : sfgo_fns) (ipstr : Z -> string) (jsonsvcs : list service -> string) (x : fctx) (e : fevent).
Notation fr := (flatten ipstr jsonsvcs x e).
Lemma sget_eq name s : cut_at "["%char name = None -> map_attr X mappers name fr = VStr s -> sget X name fr = trim_bounding_quotes s.
Proof. intros C H. unfold sget, map_str, split_path. rewrite C. cbn [rbind]. rewrite H. reflexivity. Qed.
Lemma iget_eq name z : map_attr X mappers name fr = VInt z -> iget X name fr = z.
Proof. intros H. unfold iget, map_int. rewrite H. reflexivity. Qed.
Ltac mean k := apply (fields X ipstr jsonsvcs x e); apply (nth_error_In _ k); reflexivity.
Lemma s_type : sget X "sf.type" fr = trim_bounding_quotes (x_rectype X (ev_type e)).
Proof. apply sget_eq; [reflexivity|]. mean 0. Qed.
Lemma s_nodeid : sget X "sf.node.id" fr = trim_bounding_quotes (hs x fh_exporter).
Proof. apply sget_eq; [reflexivity|]. mean 83. Qed.
Lemma s_nodeip : sget X "sf.node.ip" fr = trim_bounding_quotes (hs x fh_ip).
Proof. apply sget_eq; [reflexivity|]. mean 84. Qed.
Lemma s_cid : sget X "sf.container.id" fr = trim_bounding_quotes (cs x e fc_id).
Proof. apply sget_eq; [reflexivity|]. mean 62. Qed.
Lemma s_ctype : sget X "sf.container.type" fr = trim_bounding_quotes (x_conttype X (cz x e fc_type)).
Proof. apply sget_eq; [reflexivity|]. mean 66. Qed.
Lemma s_cname : sget X "sf.container.name" fr = trim_bounding_quotes (cs x e (fun c => trim_space (fc_name c))).
Proof. apply sget_eq; [reflexivity|]. mean 63. Qed.
Lemma s_cimid : sget X "sf.container.imageid" fr = trim_bounding_quotes (cs x e fc_imageid).
Proof. apply sget_eq; [reflexivity|]. mean 64. Qed.
Lemma s_cim : sget X "sf.container.image" fr = trim_bounding_quotes (cs x e (fun c => trim_space (fc_image c))).
Proof. apply sget_eq; [reflexivity|]. mean 65. Qed.
Lemma s_podid : sget X "sf.pod.id" fr = trim_bounding_quotes (ps x e fp_id).
Proof. apply sget_eq; [reflexivity|]. mean 69. Qed.
Lemma s_podname : sget X "sf.pod.name" fr = trim_bounding_quotes (ps x e (fun p => trim_space (fp_name p))).
Proof. apply sget_eq; [reflexivity|]. mean 70. Qed.
Lemma s_podnode : sget X "sf.pod.nodename" fr = trim_bounding_quotes (ps x e (fun p => trim_space (fp_node p))).
Proof. apply sget_eq; [reflexivity|]. mean 71. Qed.
Lemma s_podns : sget X "sf.pod.namespace" fr = trim_bounding_quotes (ps x e (fun p => trim_space (fp_ns p))).
Proof. apply sget_eq; [reflexivity|]. mean 72. Qed.
Lemma s_exe : sget X "sf.proc.exe" fr = trim_bounding_quotes (prs x e exe).
Proof. apply sget_eq; [reflexivity|]. mean 8. Qed.
Lemma s_args : sget X "sf.proc.args" fr = trim_bounding_quotes (prs x e args).
Proof. apply sget_eq; [reflexivity|]. mean 9. Qed.
Lemma s_cmd : sget X "sf.proc.cmdline" fr = trim_bounding_quotes (prs x e exe ++ " " ++ prs x e args).
Proof. apply sget_eq; [reflexivity|]. mean 18. Qed.
Lemma s_user : sget X "sf.proc.user" fr = trim_bounding_quotes (prs x e p_username).
Proof. apply sget_eq; [reflexivity|]. mean 11. Qed.
Lemma s_group : sget X "sf.proc.group" fr = trim_bounding_quotes (prs x e p_groupname).
Proof. apply sget_eq; [reflexivity|]. mean 14. Qed.
Lemma s_pexe : sget X "sf.pproc.exe" fr = trim_bounding_quotes (pps x e p_exe).
Proof. apply sget_eq; [reflexivity|]. mean 26. Qed.
Lemma s_pargs : sget X "sf.pproc.args" fr = trim_bounding_quotes (pps x e p_exeargs).
Proof. apply sget_eq; [reflexivity|]. mean 27. Qed.
Lemma s_pcmd : sget X "sf.pproc.cmdline" fr = trim_bounding_quotes (pps x e cmdline).
Proof. apply sget_eq; [reflexivity|]. mean 35. Qed.
Lemma s_ftype : sget X "sf.file.type" fr = trim_bounding_quotes (x_filetype X (fz (thefile x e) ff_restype)).
Proof. apply sget_eq; [reflexivity|]. mean 46. Qed.
Lemma s_fpath : sget X "sf.file.path" fr = trim_bounding_quotes (path_of X (fs (thefile x e) (fun f => trim_space (ff_path f)))).
Proof. apply sget_eq; [reflexivity|]. mean 37. Qed.
Lemma s_fnew : sget X "sf.file.newpath" fr = trim_bounding_quotes (path_of X (fs (thenewfile x e) (fun f => trim_space (ff_path f)))).
Proof. apply sget_eq; [reflexivity|]. mean 42. Qed.
Lemma s_foid : sget X "sf.file.oid" fr = trim_bounding_quotes (fs (thefile x e) (fun f => hextext (ff_oid f))).
Proof. apply sget_eq; [reflexivity|]. mean 39. Qed.
Lemma s_sip : sget X "sf.net.sip" fr = trim_bounding_quotes (ip X (net e nf_sip)).
Proof. apply sget_eq; [reflexivity|]. mean 55. Qed.
Lemma s_dip : sget X "sf.net.dip" fr = trim_bounding_quotes (ip X (net e nf_dip)).
Proof. apply sget_eq; [reflexivity|]. mean 56. Qed.
Lemma s_kact : sget X "sf.ke.action" fr = trim_bounding_quotes (x_k8saction X (match e with EvK8s k => ke_action k | _ => 0%Z end)).
Proof. apply sget_eq; [reflexivity|]. mean 80. Qed.
Lemma s_kmsg : sget X "sf.ke.message" fr = trim_bounding_quotes (match e with EvK8s k => ke_message k | _ => "" end).
Proof. apply sget_eq; [reflexivity|]. mean 82. Qed.
Lemma i_ts : iget X "sf.ts" fr = ev_ts e.
Proof. apply iget_eq. mean 3. Qed.
Lemma i_endts : iget X "sf.endts" fr = ev_endts e.
Proof. apply iget_eq. mean 4. Qed.
Lemma i_ret : iget X "sf.ret" fr = ev_ret e.
Proof. apply iget_eq. mean 2. Qed.
Lemma i_pid : iget X "sf.proc.pid" fr = prz x e (fun p => hpid (p_oid p)).
Proof. apply iget_eq. mean 6. Qed.
Lemma i_tid : iget X "sf.proc.tid" fr = ev_tid e.
Proof. apply iget_eq. mean 12. Qed.
Lemma i_uid : iget X "sf.proc.uid" fr = prz x e p_uid.
Proof. apply iget_eq. mean 10. Qed.
Lemma i_gid : iget X "sf.proc.gid" fr = prz x e p_gid.
Proof. apply iget_eq. mean 13. Qed.
Lemma i_cts : iget X "sf.proc.createts" fr = prz x e (fun p => createts (p_oid p)).
Proof. apply iget_eq. mean 15. Qed.
Lemma i_ppid : iget X "sf.pproc.pid" fr = prz x e (fun p => match p_poid p with Some q => hpid q | None => 0%Z end).
Proof. apply iget_eq. mean 24. Qed.
Lemma i_pcts : iget X "sf.pproc.createts" fr = prz x e (fun p => match p_poid p with Some q => createts q | None => 0%Z end).
Proof. apply iget_eq. mean 32. Qed.
Lemma i_fd : iget X "sf.file.fd" fr = ffl e fl_fd.
Proof. apply iget_eq. mean 49. Qed.
Lemma i_priv : iget X "sf.container.privileged" fr = cz x e (fun c => b2z (fc_priv c)).
Proof. apply iget_eq. mean 67. Qed.
Lemma i_pts : iget X "sf.pod.ts" fr = pz x e fp_ts.
Proof. apply iget_eq. mean 68. Qed.
Lemma i_rst : iget X "sf.pod.restartcnt" fr = pz x e fp_restart.
Proof. apply iget_eq. mean 73. Qed.
Lemma i_sport : iget X "sf.net.sport" fr = net e nf_sport.
Proof. apply iget_eq. mean 52. Qed.
Lemma i_dport : iget X "sf.net.dport" fr = net e nf_dport.
Proof. apply iget_eq. mean 53. Qed.
Lemma i_proto : iget X "sf.net.proto" fr = net e nf_proto.
Proof. apply iget_eq. mean 51. Qed.
Lemma i_rb : iget X "sf.flow.rbytes" fr = cnt e nf_rbytes fl_rbytes.
Proof. apply iget_eq. mean 58. Qed.
Lemma i_ro : iget X "sf.flow.rops" fr = cnt e nf_rops fl_rops.
Proof. apply iget_eq. mean 59. Qed.
Lemma i_wb : iget X "sf.flow.wbytes" fr = cnt e nf_wbytes fl_wbytes.
Proof. apply iget_eq. mean 60. Qed.
Lemma i_wo : iget X "sf.flow.wops" fr = cnt e nf_wops fl_wops.
Proof. apply iget_eq. mean 61. Qed.
Lemma a_host : iaget X "sf.pod.hostip+" fr = match joined e (x_pod x) with Some p => Some (fp_hostip p) | None => None end.
Proof. unfold iaget. match goal with |- context [map_attr X mappers ?n fr] => erewrite (fields X ipstr jsonsvcs x e n) end; [|apply (nth_error_In _ 75); reflexivity]. reflexivity. Qed.
Lemma a_int : iaget X "sf.pod.internalip+" fr = match joined e (x_pod x) with Some p => Some (fp_internalip p) | None => None end.
Proof. unfold iaget. match goal with |- context [map_attr X mappers ?n fr] => erewrite (fields X ipstr jsonsvcs x e n) end; [|apply (nth_error_In _ 77); reflexivity]. reflexivity. Qed.
Lemma a_svc : svget X "sf.pod.services+" fr = match joined e (x_pod x) with Some p => Some (fp_services p) | None => None end.
Proof. unfold svget. match goal with |- context [map_attr X mappers ?n fr] => erewrite (fields X ipstr jsonsvcs x e n) end; [|apply (nth_error_In _ 79); reflexivity]. reflexivity. Qed.
Definition flags_are : Z := ev_opflags e.
End Read.
