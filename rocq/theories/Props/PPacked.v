(* C82: partition files that are compressed and encrypted. *)
From Coq Require Import NArith ZArith List Bool.
Import ListNotations.
From Verif Require Import Model.Base Model.Event Model.Buf Model.Pack Model.File Model.Packed
  Spec.Order Spec.Checksum Spec.Files Spec.Buffers Spec.Packing Spec.Packed Spec.Sealed
  Proof.FileL Proof.FileR Proof.FileC Proof.FileP Proof.PackX Proof.PackedL Proof.PackedX.
Local Open Scope Z_scope.

(* any codecs: a file is read back when each of its contents is, and is an error when one of them is *)
Theorem C82_exact : forall c d e k s, stays_bytes c e s -> (so_compression s < 256)%N -> (so_encryption s < 256)%N ->
  forall l st gs, Forall mev_ok l -> stamp_fit st -> small (write_file c e s st l) (map fst l) -> grouped s l gs ->
  ((forall n b, nth_error (contents c e s l gs) n = Some b -> back c d e k s n b) ->
   exists ix, read_file d k (write_file c e s st l) = Ok (ix, map (map fst) gs) /\
     ix_min ix = st_min st /\ ix_max ix = st_max st /\ ix_refreshes ix = st_refreshes st /\
     ix_time_create ix = st_time_create st /\ ix_time_refresh ix = st_time_refresh st /\ ix_lsn ix = st_lsn st) /\
  ((forall n b, nth_error (contents c e s l gs) n = Some b -> back c d e k s n b \/ lost c d e k s n b) ->
   (exists n b, nth_error (contents c e s l gs) n = Some b /\ lost c d e k s n b) ->
   read_file d k (write_file c e s st l) = Err).
Proof. exact read_exact. Qed.
Print Assumptions C82_exact.
(* the events are in groups in exactly one way *)
Theorem C82_groups : forall s l, exists gs, grouped s l gs /\ forall gs', grouped s l gs' -> gs' = gs.
Proof. exact grouped_one. Qed.
Print Assumptions C82_groups.

(* the code over the libraries: none, zstd or lz4, then none or aes; whatever the buffers were used for
   before. With zstd the file is read back exactly when every frame fits; otherwise always. *)
Theorem C82_packed : forall frame content magic bound start update finish step aes unaes,
  zstd_ok frame content magic -> lz4_ok bound start update finish step -> aes_ok aes unaes -> bytes_ok start update finish aes ->
  forall rc re dc de pieces level rnd key, rooms_ok rc -> rooms_ok re -> 0 <= dc < 2 ^ 29 -> 0 <= de < 2 ^ 29 -> pieces_ok pieces -> length key = 32%nat ->
  forall s, (so_compression s <= 2)%N -> (so_encryption s <= 1)%N ->
  let c := file_compress frame bound start update finish rc pieces level in
  let d := file_decompress content step dc in
  let e := file_encrypt aes re rnd key in
  let k := file_decrypt unaes de key in
  forall st l gs, stamp_fit st -> Forall mev_ok l -> l <> [] -> small (write_file c e s st l) (map fst l) -> grouped s l gs ->
  (forall n b, nth_error (contents c e s l gs) n = Some b -> size_ok bound level (pieces n b)) ->
  let all_fit := forall n b, nth_error (contents c e s l gs) n = Some b -> fits frame rc level n b in
  (so_compression s <> 1%N \/ all_fit ->
   exists ix, read_file d k (write_file c e s st l) = Ok (ix, map (map fst) gs) /\
     ix_min ix = st_min st /\ ix_max ix = st_max st /\ ix_refreshes ix = st_refreshes st /\
     ix_time_create ix = st_time_create st /\ ix_time_refresh ix = st_time_refresh st /\ ix_lsn ix = st_lsn st) /\
  (so_compression s = 1%N /\ ~ all_fit -> read_file d k (write_file c e s st l) = Err).
Proof. exact packed_file. Qed.
Print Assumptions C82_packed.
Example C82_libraries : zstd_ok toy_frame toy_content 40 /\
  lz4_ok (fun _ n => n + 1) (fun _ => [1%N]) (fun _ _ l => l) (fun _ _ => [0%N]) toy_step /\
  aes_ok toy_aes_seal toy_aes_open /\ bytes_ok (fun _ => [1%N]) (fun _ _ l => l) (fun _ _ => [0%N]) toy_aes_seal /\ pieces_ok toy_pieces.
Proof. exact (conj toy_zstd (conj toy_lz4 (conj toy_aes (conj toy_bytes toy_pieces_ok)))). Qed.
Example C82_example : stamp_fit sample_stamp /\ Forall mev_ok sample_events /\
  (forall c, grouped (toy_source c) sample_events toy_groups) /\
  forall c room, In (c, room) [(1%N, 1000); (1%N, 0); (2%N, 0)] ->
    small (write_file (toy_compress room) toy_encrypt (toy_source c) sample_stamp sample_events) (map fst sample_events) /\
    (forall n b, nth_error (contents (toy_compress room) toy_encrypt (toy_source c) sample_events toy_groups) n = Some b ->
       size_ok (fun _ n => n + 1) 0 (toy_pieces n b)).
Proof. exact toy_hypotheses. Qed.
Example C82_both :
  (forall n b, nth_error (contents (toy_compress 1000) toy_encrypt (toy_source 1) sample_events toy_groups) n = Some b -> fits toy_frame (fun _ => 1000) 0 n b) /\
  ~ (forall n b, nth_error (contents (toy_compress 0) toy_encrypt (toy_source 1) sample_events toy_groups) n = Some b -> fits toy_frame (fun _ => 0) 0 n b).
Proof. exact (conj toy_fit toy_unfit). Qed.
(* the context of lz4 that the code gives for zstd after one was put back (C53): no file of zstd is read *)
Theorem C82_context_refuted : forall frame content magic bound start update finish step aes unaes,
  zstd_ok frame content magic -> aes_ok aes unaes -> bytes_ok start update finish aes ->
  forall rc re dc de pieces level rnd key, rooms_ok rc -> rooms_ok re -> 0 <= dc < 2 ^ 29 -> 0 <= de < 2 ^ 29 -> pieces_ok pieces -> length key = 32%nat ->
  forall s, (so_compression s <= 2)%N -> (so_encryption s <= 1)%N ->
  let c := file_compress frame bound start update finish rc pieces level in
  let e := file_encrypt aes re rnd key in
  forall st l gs, (forall z room, step [] (magic :: z) room = None) ->
  stamp_fit st -> Forall mev_ok l -> l <> [] -> small (write_file c e s st l) (map fst l) -> grouped s l gs ->
  (forall n b, nth_error (contents c e s l gs) n = Some b -> size_ok bound level (pieces n b)) -> so_compression s = 1%N ->
  read_file (other_context content step dc) (file_decrypt unaes de key) (write_file c e s st l) = Err.
Proof. exact context_file. Qed.
Print Assumptions C82_context_refuted.
Example C82_context_example : lz4_ok (fun _ n => n + 1) (fun _ => [1%N]) (fun _ _ l => l) (fun _ _ => [0%N]) wary_step /\
  forall z room, wary_step [] (40%N :: z) room = None.
Proof. exact (conj wary_lz4 wary_none). Qed.
