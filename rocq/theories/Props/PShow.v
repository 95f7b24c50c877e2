(* SHOW: C55, C70. *)
From Coq Require Import NArith ZArith Arith String List Bool.
Import ListNotations.
From Verif Require Import Model.Base Model.Json Model.Lex Model.Source Model.Config Model.Catalog Model.Startup Model.Show.
From Verif Require Import Spec.Value Spec.JsonText Spec.Settings Spec.Catalog Spec.Shown Proof.ShowL Proof.ShowT Proof.ShowX.

(* The text of a list of SHOWs is the JSON of what they mean. *)
Theorem C55_shown : forall strtod fmt_real e l values, shown_ok e -> l <> [] ->
  map (meaning e) l = map Some values -> json_ok (answer values) ->
  exists text, execute_show fmt_real e l = Ok text /\ json_parse strtod text = Ok (encode_wide (answer values)).
Proof. exact show_text. Qed.
Print Assumptions C55_shown.
Example C55_shown_example : shown_ok (a_db key key) /\
  map (meaning (a_db key key)) every_show = map Some every_value /\ json_ok (answer every_value) /\ length every_value = 12.
Proof. exact every_meets. Qed.

(* What does not exist is refused. *)
Theorem C55_refused : forall fmt_real e l o, shown_ok e -> In o l -> meaning e o = None -> execute_show fmt_real e l = Err.
Proof. exact (show_refuses (fun _ => None)). Qed.
Print Assumptions C55_refused.
Example C55_refused_example : meaning (a_db key key) (ShowPartition 6000000 false) = None.
Proof. vm_compute. reflexivity. Qed.

(* min and max are bounds that are met; numbers below 2^63 are shown as they are. *)
Theorem C55_bounds : forall l p, In p l -> (least l <= sp_min p /\ sp_max p <= greatest l)%N /\
  (exists q, In q l /\ sp_min q = least l) /\ (exists q, In q l /\ sp_max q = greatest l).
Proof. exact bounds. Qed.
Print Assumptions C55_bounds.
Theorem C55_exact : forall n, (n < 2 ^ 63)%N -> num n = VInt (Z.of_N n).
Proof. exact exact_num. Qed.
Print Assumptions C55_exact.
Example C55_stats_example :
  field "events" (stats_value (sh_parts (a_db key key))) = Some (VInt 171) /\
  field "partitions_cloud" (stats_value (sh_parts (a_db key key))) = Some (VInt 1).
Proof. split; vm_compute; reflexivity. Qed.

(* Ids from 2^63 on are shown as negative numbers. *)
Theorem C55_refuted : exists e p, shown_ok e /\ In p (sh_parts e) /\ sp_max p = 9223372036859999999%N /\
  forall strtod fmt_real, exists text v, execute_show fmt_real e [ShowPartition (sp_max p) false] = Ok text /\
    json_parse strtod text = Ok (encode_wide v) /\ field "max" v = Some (VInt (-9223372036849551617)).
Proof. exact negative. Qed.
Print Assumptions C55_refuted.

(* The answers of SHOW, except for a variable by its name, do not depend on keys, passwords, hidden
   and secret variables. *)
Theorem C70_public : forall fmt_real e1 e2 l, public e1 = public e2 -> Forall (fun o => by_name o = false) l ->
  execute_show fmt_real e1 l = execute_show fmt_real e2 l.
Proof. exact show_public. Qed.
Print Assumptions C70_public.
Example C70_public_example : public (a_db key key) = public (a_db [] []) /\
  map so_key (map ss_source (sh_storages (a_db key key))) <> map so_key (map ss_source (sh_storages (a_db [] []))).
Proof. split; [vm_compute; reflexivity|vm_compute; discriminate]. Qed.
(* A secret variable is not shown by its name either. *)
Theorem C70_secret : forall fmt_real e n v, named v_name n (sh_config e) = Some v -> secret v = true ->
  execute_show fmt_real e [ShowName n] = Err.
Proof. exact named_secret. Qed.
Print Assumptions C70_secret.
Example C70_secret_example :
  named v_name (chars "token") [mk_var (chars "token") VAR_STRING VAR_S 0 (chars "hidden")] =
    Some (mk_var (chars "token") VAR_STRING VAR_S 0 (chars "hidden")) /\
  secret (mk_var (chars "token") VAR_STRING VAR_S 0 (chars "hidden")) = true.
Proof. split; vm_compute; reflexivity. Qed.

(* But the variables that keep the catalog are not secret: by name they are shown with all keys and
   passwords, in every database. *)
Theorem C70_revealed : forall c cfg e, sound c -> settings_json (view_of c) -> same_shape cfg defaults -> saves cfg ->
  sh_config e = catalog_store cfg c ->
  meaning e (ShowName (chars "storages")) = Some (VArr (map source_value (vw_storages (view_of c)))) /\
  (vw_clouds (view_of c) <> [] -> meaning e (ShowName (chars "clouds")) = Some (VArr (map cloud_value (vw_clouds (view_of c))))).
Proof. exact revealed. Qed.
Print Assumptions C70_revealed.
Theorem C70_refuted : exists k c cfg e1 e2, reachable c /\ same_shape cfg defaults /\ sh_config e1 = catalog_store cfg c /\
  In k (map so_key (vw_storages (view_of c))) /\ In k (map cc_password (vw_clouds (view_of c))) /\
  length k = 32 /\ public e1 = public e2 /\
  forall fmt_real, (exists a b, execute_show fmt_real e1 [ShowName (chars "storages")] = Ok (a ++ k ++ b)) /\
    (exists a b, execute_show fmt_real e1 [ShowName (chars "clouds")] = Ok (a ++ k ++ b)) /\
    execute_show fmt_real e1 [ShowName (chars "storages")] <> execute_show fmt_real e2 [ShowName (chars "storages")].
Proof. exact leaks. Qed.
Print Assumptions C70_refuted.
