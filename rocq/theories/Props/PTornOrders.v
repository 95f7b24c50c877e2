(* C100: statements about partitions as texts that are stopped inside of a record of the log or of a new file. *)
From Coq Require Import NArith ZArith String List Bool Sorted.
Import ListNotations.
From Verif Require Import Model.Base Model.Lex Model.Parse Spec.Units Spec.Command Proof.ParseX.
From Verif Require Import Model.Event Model.Memtable Model.Mapping Model.Merge
  Model.PartIter Model.Scan Model.Codec Model.File Model.Wal Model.Engine
  Spec.Order Spec.Codecs Spec.Layout Spec.Merged Spec.Files Spec.Regions Spec.View Spec.Engine Spec.FileLimits
  Proof.FileP Proof.EngineX Proof.OrdersX Proof.WholeX Proof.WholeDropsX Proof.WholeOrdersX Proof.TornDropsX Proof.TornOrdersT Proof.TornOrdersX.
From Verif Require Import Model.Crash Model.Orders Spec.Crash Spec.Drops Spec.Orders Model.Whole Spec.Whole Model.WholeDrops Spec.WholeDrops
  Model.WholeOrders Spec.WholeOrders Model.TornDrops Spec.TornDrops Model.TornOrders Spec.TornOrders.

(* n things of a text are done and k bytes of the next: the database opens; of what was there after the n things
   only events of the partition that is being dropped are missing, all of them when its record is whole *)
Theorem C100_text : forall compress decompress encrypt decrypt, codecs_ok compress decompress encrypt decrypt ->
  forall src, settings_ok src -> forall wal_crc names strtod e lo R w h x text n k cuts ids w1,
  breachable compress decompress encrypt decrypt src wal_crc names strtod e lo R w h ->
  btext_fine compress decompress encrypt decrypt src wal_crc names strtod e lo R w x text ->
  bstopped compress decompress encrypt decrypt src wal_crc names strtod e w x text n = Ok w1 ->
  inside_fine compress decompress encrypt decrypt src wal_crc lo (missed w w1 ++ R) w1
    (next_act compress decompress encrypt decrypt src wal_crc names strtod e w x text n) k cuts ids ->
  exists w2, stop_text compress decompress encrypt decrypt src wal_crc names strtod e x w text n k cuts ids = Ok w2 /\
    (forall y, wsees w1 y <-> wsees w y /\ gone (missed w w1) (ev_id y) = false) /\
    (forall y, wsees w2 y -> wsees w1 y) /\
    (forall y, wsees w1 y ->
       gone (inside_lost w1 (next_act compress decompress encrypt decrypt src wal_crc names strtod e w x text n)) (ev_id y) = false ->
       wsees w2 y) /\
    (match next_act compress decompress encrypt decrypt src wal_crc names strtod e w x text n with
     | Some (BDo (EDrop _)) => 29 <= k
     | _ => True
     end ->
     forall y, wsees w2 y <-> wsees w1 y /\
       gone (inside_lost w1 (next_act compress decompress encrypt decrypt src wal_crc names strtod e w x text n)) (ev_id y) = false).
Proof. exact text_inside. Qed.
Print Assumptions C100_text.
Example C100_text_example :
  bstopped tagged un1 tagged un2 src0 true called no_reals an_env (tstate spring) xs drop_text 1 = Ok (middle drop_text 1) /\
  inside_fine tagged un1 tagged un2 src0 true 0 (missed (tstate spring) (middle drop_text 1) ++ spring_lost) (middle drop_text 1)
    (next_act tagged un1 tagged un2 src0 true called no_reals an_env (tstate spring) xs drop_text 1) 10 [] [3; 1]%N /\
  inside_fine tagged un1 tagged un2 src0 true 0 (missed (tstate spring) (middle drop_text 1) ++ spring_lost) (middle drop_text 1)
    (next_act tagged un1 tagged un2 src0 true called no_reals an_env (tstate spring) xs drop_text 1) 29 [] [3; 1]%N /\
  what_next drop_text 1 = Some (true, 20%N) /\
  bstopped tagged un1 tagged un2 src0 true called no_reals an_env (tstate spring) xs move_text 2 = Ok (middle move_text 2) /\
  inside_fine tagged un1 tagged un2 src0 true 0 (missed (tstate spring) (middle move_text 2) ++ spring_lost) (middle move_text 2)
    (next_act tagged un1 tagged un2 src0 true called no_reals an_env (tstate spring) xs move_text 2) 50 [1] [1; 3]%N /\
  what_next move_text 2 = Some (true, 20%N).
Proof. exact spring_inside. Qed.
Example C100_shown_example :
  tscan spring = Ok (Some [mk_event 14 0 [] [2]; mk_event 15 0 [] [5]; mk_event 25 0 [] [3]; mk_event 36 0 [] [4]; mk_event 61 0 [] [6]]%N) /\
  seen (text0 spring drop_text 1 10 [] [3; 1]%N) = Ok (Some [mk_event 25 0 [] [3]; mk_event 36 0 [] [4]; mk_event 61 0 [] [6]]%N) /\
  seen (text0 spring drop_text 1 29 [] [3; 1]%N) = Ok (Some [mk_event 36 0 [] [4]; mk_event 61 0 [] [6]]%N) /\
  seen (text0 spring move_text 2 50 [1] [1; 3]%N) = tscan spring.
Proof. exact spring_shown. Qed.

(* a part of the record of a batch, in a database with texts *)
Theorem C100_batch : forall compress decompress encrypt decrypt, codecs_ok compress decompress encrypt decrypt ->
  forall src, settings_ok src -> forall wal_crc names strtod e lo R w h l m n ids,
  breachable compress decompress encrypt decrypt src wal_crc names strtod e lo R w h ->
  eop_fine compress decompress encrypt decrypt src wal_crc lo R w (EDo (WWrite l m None)) ->
  eop_fine compress decompress encrypt decrypt src wal_crc lo R w (EStop [] ids) ->
  log_room w (List.length (the_record wal_crc w l m)) ->
  n < List.length (the_record wal_crc w l m) -> n = 0 \/ drops_last wal_crc w ->
  exists w', stop_batch decompress decrypt wal_crc w l m n ids = Ok w' /\ forall y, wsees w' y <-> wsees w y.
Proof. exact text_batch. Qed.
Print Assumptions C100_batch.
Example C100_batch_example :
  breachable tagged un1 tagged un2 src0 true called no_reals an_env 0 spring_lost (tstate spring)
    (tacked tagged un1 tagged un2 src0 true called no_reals an_env w0 spring []) /\
  eop_fine tagged un1 tagged un2 src0 true 0 spring_lost (tstate spring) (EDo (WWrite [put_ev 16 7] [] None)) /\
  eop_fine tagged un1 tagged un2 src0 true 0 spring_lost (tstate spring) (EStop [] [3; 1]%N) /\
  log_room (tstate spring) (List.length (the_record true (tstate spring) [put_ev 16 7] [])) /\
  30 < List.length (the_record true (tstate spring) [put_ev 16 7] []) /\ drops_last true (tstate spring).
Proof. exact spring_batch. Qed.

(* DROP PARTITIONS stopped inside of its second record: the database opens once, but not a second time *)
Theorem C100_once_refuted : exists n k,
  seen (text0 spring drop_text n k [] [3; 1]%N) = Ok (Some [mk_event 25 0 [] [3]; mk_event 36 0 [] [4]; mk_event 61 0 [] [6]]%N) /\
  after (text0 spring drop_text n k [] [3; 1]%N) [EStop [] [3; 1]%N] = Err /\
  seen (after (text0 spring drop_text n 29 [] [3; 1]%N) [EStop [] [3; 1]%N]) = Ok (Some [mk_event 36 0 [] [4]; mk_event 61 0 [] [6]]%N).
Proof. exact (ex_intro _ 1 (ex_intro _ 10 spring_once)). Qed.
Print Assumptions C100_once_refuted.
