(* C10, C12, C13: partition files. *)
From Coq Require Import NArith ZArith List Bool.
Import ListNotations.
From Verif Require Import Model.Base Model.Event Model.Codec Model.File
  Spec.Order Spec.Checksum Spec.Files Spec.Regions Spec.Codecs
  Proof.FileL Proof.FileR Proof.FileC Proof.FileP Proof.FileX.

(* C10: what is written is read back, whatever bytes follow the events in memory *)
Theorem C10_round_trip : forall c d e k s st l, codecs_ok c d e k -> settings_ok s -> stamp_fit st ->
  Forall mev_ok l -> small (write_file c e s st l) (map fst l) ->
  exists ix regions, read_file d k (write_file c e s st l) = Ok (ix, regions) /\
    concat regions = map fst l /\
    ix_min ix = st_min st /\ ix_max ix = st_max st /\ ix_refreshes ix = st_refreshes st /\
    ix_time_create ix = st_time_create st /\ ix_time_refresh ix = st_time_refresh st /\
    ix_lsn ix = st_lsn st.
Proof. exact round_trip. Qed.
Print Assumptions C10_round_trip.
Example C10_codecs : codecs_ok tagged (fun _ b _ => untag b)
  tagged (fun _ b => untag b).
Proof. exact tagged_ok. Qed.
Example C10_example :
  settings_ok sample_source /\ stamp_fit sample_stamp /\ Forall mev_ok sample_events /\
  small (write_file tagged tagged sample_source sample_stamp sample_events)
        (map fst sample_events) /\ ascending (map fst sample_events).
Proof. exact sample_file_ok. Qed.
Example C10_computed :
  match read_file (fun _ b _ => untag b) (fun _ b => untag b)
    (write_file tagged tagged sample_source sample_stamp sample_events) with
  | Ok (ix, rs) => ix_lsn ix = 42%N /\ map (map ev_id) rs = [[5; 5]; [6; 9]; [11]]%N
  | _ => False
  end.
Proof. exact sample_file_regions. Qed.

(* without the bound on the file size, other events come back *)
Theorem C10_over_4gib_refuted : forall c d e k, codecs_ok c d e k ->
  exists s st l, Forall mev_ok l /\ ascending (map fst l) /\ stamp_fit st /\ settings_ok s /\
    (forall m, In m l -> (region_weight [fst m] < 2^32)%N) /\
    exists ix regions, read_file d k (write_file c e s st l) = Ok (ix, regions) /\
      concat regions <> map fst l.
Proof. exact over_4gib_refuted. Qed.
Print Assumptions C10_over_4gib_refuted.

(* C12: the regions of the file and their index entries *)
Theorem C12_regions : forall c d e k s st l, codecs_ok c d e k -> settings_ok s -> stamp_fit st ->
  Forall mev_ok l -> small (write_file c e s st l) (map fst l) -> ascending (map fst l) ->
  exists ix data regions, read_file d k (write_file c e s st l) = Ok (ix, regions) /\
    index_open (write_file c e s st l) = Ok ix /\
    index_read d k (write_file c e s st l) ix = Ok data /\
    cut (Z.to_N (so_region_size s mod 2 ^ 32)) (map fst l) regions /\ ids_apart regions /\
    ix_regions ix = N.of_nat (length regions) /\
    forall i r, nth_error regions i = Some r ->
      exists t, index_get data i = Some t /\ ir_events t = N.of_nat (length r) /\
        (exists x, In x r /\ ev_id x = ir_min t) /\ (exists x, In x r /\ ev_id x = ir_max t) /\
        forall x, In x r -> (ir_min t <= ev_id x <= ir_max t)%N.
Proof. exact regions_of_file. Qed.
Print Assumptions C12_regions.
Example C12_example :
  settings_ok sample_source /\ stamp_fit sample_stamp /\ Forall mev_ok sample_events /\
  small (write_file tagged tagged sample_source sample_stamp sample_events)
        (map fst sample_events) /\ ascending (map fst sample_events).
Proof. exact sample_file_ok. Qed.

(* C13: what an accepted footer says *)
Theorem C13_checks : forall file ix, index_open file = Ok ix ->
  exists pre f, file = pre ++ f /\ length f = 130 /\ index_load f = Some ix /\
    ix_crc ix = crc 0 (skipn 4 f) /\ ix_magic ix = INDEX_MAGIC /\
    ix_size_total ix = N.of_nat (length file) /\ (ix_version ix <= INDEX_VERSION)%N.
Proof. exact footer_checks. Qed.
Print Assumptions C13_checks.

Theorem C13_writer_passes : forall c d e k s st l, codecs_ok c d e k -> settings_ok s -> stamp_fit st ->
  Forall mev_ok l -> small (write_file c e s st l) (map fst l) ->
  exists ix, index_open (write_file c e s st l) = Ok ix.
Proof. exact writer_passes. Qed.
Print Assumptions C13_writer_passes.

(* a change within four consecutive bytes anywhere in the footer, its checksum included *)
Theorem C13_detects : forall pre x y post ix,
  bytes (pre ++ x ++ post) -> bytes y -> length x = length y ->
  length x <= 4 -> x <> y -> length (x ++ post) <= 130 ->
  index_open (pre ++ x ++ post) = Ok ix -> index_open (pre ++ y ++ post) = Err.
Proof. exact footer_detects. Qed.
Print Assumptions C13_detects.
Example C13_example : exists pre x post ix, bytes (pre ++ x ++ post) /\ length x = 4 /\
  length (x ++ post) <= 130 /\ index_open (pre ++ x ++ post) = Ok ix.
Proof. exact sample_footer. Qed.
