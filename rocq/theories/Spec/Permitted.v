(* When a command on the catalog succeeds. IF EXISTS and IF NOT EXISTS make a missing or an existing
   name no error. *)
From Coq Require Import NArith ZArith Arith String List Bool.
Import ListNotations.
From Verif Require Import Model.Base Model.Lex Model.Source Model.Catalog Spec.Catalog.

Definition attaches (w : world) (c : catalog) (cloud : list byte) : Prop :=
  cloud = [] \/ In cloud (map cc_name (vw_clouds (view_of c))) /\ wo_attach w = true.
Definition unlimited (t : tierc) : Prop :=
  tc_partitions t = (-1)%Z /\ tc_size t = (-1)%Z /\ tc_events t = (-1)%Z /\ tc_duration t = (-1)%Z.
Definition permitted (w : world) (c : catalog) (cmd : command) : Prop :=
  let clouds := map cc_name (vw_clouds (view_of c)) in
  let storages := map so_name (vw_storages (view_of c)) in
  match cmd with
  | CloudCreate k e =>
      In (cc_name k) clouds /\ e = true \/
      ~ In (cc_name k) clouds /\ (cc_type k = chars "mock" \/ cc_type k = chars "s3")
  | CloudDrop n e =>
      ~ In n clouds /\ e = true \/
      In n clouds /\ forall s k, In s (ca_storages c) -> In k (ca_clouds c) -> cl_name k = n -> st_cloud s <> Some (cl_id k)
  | CloudAlter n _ e => In n clouds \/ e = true
  | CloudRename n m e => ~ In n clouds /\ e = true \/ In n clouds /\ ~ In m clouds
  | StorageCreate s e =>
      In (so_name s) storages /\ e = true \/
      ~ In (so_name s) storages /\ wo_mkdir w = true /\ attaches w c (so_cloud s)
  | StorageDrop n e =>
      n <> chars "main" /\
      (~ In n storages /\ e = true \/
       exists s, In s (ca_storages c) /\ st_name s = n /\ st_parts s = [] /\
         (forall t, In t (ca_tiers c) -> ti_storage t <> st_id s) /\ (st_cloud s <> None -> wo_detach w = true))
  | StorageAlter n a e =>
      ~ In n storages /\ e = true \/
      exists s, In s (ca_storages c) /\ st_name s = n /\
        (al_crc a <> None \/ al_path a <> None \/ al_encryption a <> None \/ al_key a <> None -> st_parts s = []) /\
        (al_path a <> None -> wo_mkdir w = true) /\
        (forall k, al_cloud a = Some k ->
           (forall p, In p (st_parts s) -> pt_cloud p = false) /\ (st_cloud s <> None -> wo_detach w = true) /\ attaches w c k)
  | StorageRename n m e => n <> chars "main" /\ (~ In n storages /\ e = true \/ In n storages /\ ~ In m storages)
  | PipelineAlter l =>
      (forall t, In t l -> In (tc_name t) storages) /\
      (forall l1 t u l2, l = l1 ++ t :: u :: l2 -> tc_name t <> tc_name u /\ ~ unlimited t)
  | Parts n _ => In n storages
  end.
