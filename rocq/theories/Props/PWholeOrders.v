(* C98: statements about partitions given as texts, in a database whose log and partition files are bytes. *)
From Coq Require Import NArith ZArith String List Bool Sorted.
Import ListNotations.
From Verif Require Import Model.Base Model.Data Model.Json Model.Show Model.Lex Model.Parse Spec.Units Spec.Command Proof.ParseX.
From Verif Require Import Model.Event Model.Memtable Model.Mapping Model.Merge
  Model.PartIter Model.Scan Model.Codec Model.File Model.Wal Model.Engine
  Spec.Order Spec.Codecs Spec.Layout Spec.Merged Spec.Files Spec.Regions Spec.View Spec.Engine Spec.FileLimits Spec.Log
  Proof.FileP Proof.EngineX Proof.WholeX Proof.WholeDropsX Proof.OrdersX Proof.WholeOrdersT Proof.WholeOrdersG Proof.WholeOrdersX.
From Verif Require Import Model.Crash Model.Orders Spec.Crash Spec.Drops Spec.Orders Model.Whole Spec.Whole Model.WholeDrops Spec.WholeDrops
  Model.WholeOrders Spec.WholeOrders.

(* after any history of texts, stops inside of them, batches, refreshes on their way, rotations of the log and
   starts the database opens and shows the acknowledged events of the partitions that are not dropped *)
Theorem C98_history : forall compress decompress encrypt decrypt, codecs_ok compress decompress encrypt decrypt ->
  forall src, settings_ok src -> forall wal_crc names strtod e lo storages iv serial page ops,
  limits lo iv -> storages_ok storages ->
  thist_fine compress decompress encrypt decrypt src wal_crc names strtod e lo [] (whole_new src storages iv serial page) ops ->
  exists w, trun compress decompress encrypt decrypt src wal_crc names strtod e (whole_new src storages iv serial page) ops = Ok w /\
    (forall x, wsees w x <->
       current (tacked compress decompress encrypt decrypt src wal_crc names strtod e (whole_new src storages iv serial page) ops []) x) /\
    forall key, start_fine lo key ->
    exists out n, (forall fuel, n < fuel -> monotone_scan fuel (en_map (wh_en w)) key = Ok (Some out)) /\
      ascending out /\
      forall x, In x out <->
        current (tacked compress decompress encrypt decrypt src wal_crc names strtod e (whole_new src storages iv serial page) ops []) x /\
        from key x.
Proof. exact btexts_history. Qed.
Print Assumptions C98_history.
Example C98_history_example : (limits 0 10 /\ storages_ok [0; 1]%N /\ codecs_ok tagged un1 tagged un2 /\ settings_ok src0) /\
  thist_fine tagged un1 tagged un2 src0 true called no_reals an_env 0 [] w0 season /\
  tscan season = Ok (Some [mk_event 36 0 [] [4%N]; mk_event 61 0 [] [6%N]]) /\
  all_missed tagged un1 tagged un2 src0 true called no_reals an_env [] w0 season = [(10, 19); (20, 29); (0, 9)]%N /\
  where_at (tstate season) = [(30, 39); (60, 69)]%N.
Proof. exact season_fine. Qed.

(* what one text does, to the database as it reads back from its bytes; it ends, and waits only for a refresh;
   a text that is no statement changes no byte *)
Theorem C98_says : forall compress decompress encrypt decrypt, codecs_ok compress decompress encrypt decrypt ->
  forall src, settings_ok src -> forall wal_crc names strtod e lo R w h x text ts,
  breachable compress decompress encrypt decrypt src wal_crc names strtod e lo R w h ->
  btext_fine compress decompress encrypt decrypt src wal_crc names strtod e lo R w x text -> tokens strtod text ts ->
  exists p b, btell compress decompress encrypt decrypt src wal_crc names strtod e x w text = Ok p /\
    shows decompress decrypt (bp_whole p) b /\ bp_end p <> Endless /\
    (bp_end p = Waits -> exists j s, In j (wh_jobs w) /\ In s (mapping_list (en_map (wh_en w))) /\ jb_ref j = s_min s) /\
    (forall c, sentence (env_at e (eread decompress decrypt wal_crc w)) (with_units ts) (Some c) -> wh_jobs w = [] ->
       does names (eread decompress decrypt wal_crc w) c b (bp_end p)) /\
    (sentence (env_at e (eread decompress decrypt wal_crc w)) (with_units ts) None -> bp_whole p = w /\ bp_end p = Done) /\
    ((forall c, ~ sentence (env_at e (eread decompress decrypt wal_crc w)) (with_units ts) c) -> bp_whole p = w /\ bp_end p = Failed).
Proof. exact btexts_says. Qed.
Print Assumptions C98_says.
Example C98_says_example :
  breachable tagged un1 tagged un2 src0 true called no_reals an_env 0 spring_lost (tstate spring)
    (tacked tagged un1 tagged un2 src0 true called no_reals an_env w0 spring []) /\
  wh_jobs (tstate spring) = [] /\
  btext_fine tagged un1 tagged un2 src0 true called no_reals an_env 0 spring_lost (tstate spring) xs drop_text /\
  btext_fine tagged un1 tagged un2 src0 true called no_reals an_env 0 spring_lost (tstate spring) xs move_text /\
  parse no_reals (env_at an_env (eread un1 un2 true (tstate spring))) drop_text = Ok (Some (CmdDropRange 10 29 9)) /\
  parse no_reals (env_at an_env (eread un1 un2 true (tstate spring))) move_text = Ok (Some (CmdMove 25 false (chars "cold"))) /\
  where_at (tstate spring) = [(10, 19); (20, 29); (30, 39); (60, 69)]%N /\
  map (wh_home (tstate spring)) [10; 20; 30]%N = [1; 0; 0]%N.
Proof. exact (conj spring_reach spring_texts). Qed.
Example C98_waits_example :
  breachable tagged un1 tagged un2 src0 true called no_reals an_env 0
    (all_missed tagged un1 tagged un2 src0 true called no_reals an_env [] w0 rush) (tstate rush)
    (tacked tagged un1 tagged un2 src0 true called no_reals an_env w0 rush []) /\
  btext_fine tagged un1 tagged un2 src0 true called no_reals an_env 0
    (all_missed tagged un1 tagged un2 src0 true called no_reals an_env [] w0 rush) (tstate rush) xs drop_text /\
  match btell tagged un1 tagged un2 src0 true called no_reals an_env xs (tstate rush) drop_text with
  | Ok p => bp_end p = Waits /\ where_at (bp_whole p) = [(20, 29); (30, 39); (60, 69)]%N
  | _ => False
  end.
Proof. exact rush_waits. Qed.

(* a stop inside of a text: whole partitions are gone with their events, and the start changes nothing *)
Theorem C98_stop : forall compress decompress encrypt decrypt, codecs_ok compress decompress encrypt decrypt ->
  forall src, settings_ok src -> forall wal_crc names strtod e lo R w h x text n cuts ids,
  breachable compress decompress encrypt decrypt src wal_crc names strtod e lo R w h ->
  top_fine compress decompress encrypt decrypt src wal_crc names strtod e lo R w (TStop x text n cuts ids) ->
  exists w1 w2, bstopped compress decompress encrypt decrypt src wal_crc names strtod e w x text n = Ok w1 /\
    tstep compress decompress encrypt decrypt src wal_crc names strtod e w (TStop x text n cuts ids) = Ok w2 /\
    tidy (dir_content decompress decrypt (wh_dir w2)) /\
    (forall y, wsees w1 y <-> wsees w y /\ gone (missed w w1) (ev_id y) = false) /\
    (forall y, wsees w2 y <-> wsees w1 y).
Proof. exact btexts_stop. Qed.
Print Assumptions C98_stop.
Example C98_stop_example :
  top_fine tagged un1 tagged un2 src0 true called no_reals an_env 0 spring_lost (tstate spring) (TStop xs drop_text 1 [] [3; 1]%N) /\
  top_fine tagged un1 tagged un2 src0 true called no_reals an_env 0 spring_lost (tstate spring) (TStop xs move_text 4 [1%nat] [1; 3]%N).
Proof. exact spring_stop. Qed.

(* what a text adds to the log: one record for each partition that it drops, and nothing else *)
Theorem C98_log : forall compress decompress encrypt decrypt, codecs_ok compress decompress encrypt decrypt ->
  forall src, settings_ok src -> forall wal_crc names strtod e lo R w h x text,
  breachable compress decompress encrypt decrypt src wal_crc names strtod e lo R w h ->
  btext_fine compress decompress encrypt decrypt src wal_crc names strtod e lo R w x text ->
  exists p, btell compress decompress encrypt decrypt src wal_crc names strtod e x w text = Ok p /\
    (files_short (wh_wal (bp_whole p)) ->
     exists l, map record_of (log_read wal_crc (bp_whole p)) = map record_of (log_read wal_crc w) ++ l /\
       Forall (fun r => exists n id, r = Crash.LDrop n id /\ gone (missed w (bp_whole p)) id = true) l /\
       List.length l = List.length (missed w (bp_whole p))).
Proof. exact btexts_log. Qed.
Print Assumptions C98_log.
Example C98_log_example : shortly drop_text = true /\ shortly move_text = true /\
  added drop_text = Some ([Crash.LDrop 5 10; Crash.LDrop 6 20]%N, 2) /\ added move_text = Some ([], 0).
Proof. exact spring_log. Qed.

(* nothing of a dropped partition is seen again, and no partition covers any of it *)
Theorem C98_gone : forall compress decompress encrypt decrypt, codecs_ok compress decompress encrypt decrypt ->
  forall src, settings_ok src -> forall wal_crc names strtod e lo R w h,
  breachable compress decompress encrypt decrypt src wal_crc names strtod e lo R w h ->
  (forall x, wsees w x -> gone R (ev_id x) = false) /\
  (forall s r, In s (mapping_list (en_map (wh_en w))) -> In r R -> forall x, in_range x r -> ~ in_range x (range_of s)).
Proof. exact btexts_gone. Qed.
Print Assumptions C98_gone.
Example C98_gone_example : breachable tagged un1 tagged un2 src0 true called no_reals an_env 0 spring_lost (tstate spring)
  (tacked tagged un1 tagged un2 src0 true called no_reals an_env w0 spring []) /\ spring_lost = [(0, 9)]%N.
Proof. exact spring_lost_ex. Qed.

(* DROP PARTITION ON STORAGE without a cloud succeeds; acknowledged events whose log is collected are lost for good *)
Theorem C98_storage_refuted : exists before,
  thist_fine tagged un1 tagged un2 src0 true called no_reals an_env 0 [] w0 before /\
  tscan before = Ok (Some [mk_event 14 0 [] [1%N]; mk_event 15 0 [] [2%N]]) /\
  match btell tagged un1 tagged un2 src0 true called no_reals an_env xs (tstate before) (chars "DROP PARTITION 14 ON STORAGE") with
  | Ok p => bp_end p = Done | _ => False end /\
  tscan (before ++ [tsay "DROP PARTITION 14 ON STORAGE"]) = Ok (Some [mk_event 15 0 [] [2%N]]) /\
  tscan (before ++ [tsay "DROP PARTITION 14 ON STORAGE"] ++ [TElse (EStop [] [2%N])]) = Ok (Some [mk_event 15 0 [] [2%N]]).
Proof. exact (ex_intro _ kept_once offloads_lost). Qed.
Print Assumptions C98_storage_refuted.
