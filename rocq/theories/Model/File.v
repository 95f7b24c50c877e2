(* Bytes of partition files.

   Sources: /repo/monotone/engine/io/region.h, region_writer.h, index.h, index_writer.h,
   writer.c, index_op.c, reader.h; /repo/monotone/cloud/cloud/id.h:29-33.
   Simplifications: file_writev appends its buffers (Vfs.v); compression and encryption
   are functions by their id and of the number of the call (the capacity of the buffer that is
   used again, the random input); crc32 is the hardware path of Crc.v, equal to the other by C14. *)
From Coq Require Import NArith ZArith Arith List Bool.
Import ListNotations.
From Verif Require Import Model.Base Model.Event Model.Crc Model.Codec.
Local Open Scope res_scope.

Definition crc (start : N) (l : list byte) : N := crc32 true 0 start l.

Section File.
(* compression by id (lz4, zstd): compress, decompress to a known size *)
Variable compress : N -> nat -> list byte -> list byte.
Variable decompress : N -> list byte -> N -> res (list byte).
(* encryption by id (aes): encrypt, decrypt *)
Variable encrypt : N -> nat -> list byte -> list byte.
Variable decrypt : N -> list byte -> res (list byte).

(* source.h:36-57, what the writer uses; id 0 is COMPRESSION_NONE, ENCRYPTION_NONE *)
Record source : Type := mk_source {
  so_region_size : Z;
  so_compression : N;
  so_encryption  : N;
  so_crc         : bool
}.

(* index.h:22-32 *)
Record index_region : Type := mk_iregion {
  ir_offset : N; ir_crc : N; ir_min : N; ir_max : N; ir_size : N; ir_size_origin : N; ir_events : N
}.
Definition iregion_fields : list nat := [4;4;8;8;4;4;4;4;4;4;4].
Definition iregion_bytes (r : index_region) : list byte :=
  pack [(4, ir_offset r); (4, ir_crc r); (8, ir_min r); (8, ir_max r); (4, ir_size r);
        (4, ir_size_origin r); (4, ir_events r); (4,0%N); (4,0%N); (4,0%N); (4,0%N)].
Definition iregion_load (l : list byte) : option index_region :=
  match unpack iregion_fields l with
  | o :: c :: mn :: mx :: s :: so :: ev :: _ => Some (mk_iregion o c mn mx s so ev)
  | _ => None
  end.
Definition IREGION : nat := 52.

(* index.h:19-56 *)
Definition INDEX_MAGIC : N := 545560085%N.                  (* 0x20849615 *)
Definition INDEX_VERSION : N := 0%N.
Record index : Type := mk_index {
  ix_crc : N; ix_crc_data : N; ix_magic : N; ix_version : N; ix_min : N; ix_max : N;
  ix_size : N; ix_size_origin : N; ix_size_regions : N; ix_size_regions_origin : N;
  ix_size_total : N; ix_size_total_origin : N; ix_regions : N; ix_events : N;
  ix_time_create : N; ix_time_refresh : N; ix_refreshes : N; ix_lsn : N;
  ix_compression : N; ix_encryption : N
}.
Definition index_fields : list nat := [4;4;4;4;8;8;4;4;8;8;8;8;4;8;8;8;4;8;1;1;4;4;4;4].
Definition INDEX : nat := 130.
Definition index_bytes (i : index) : list byte :=
  pack [(4, ix_crc i); (4, ix_crc_data i); (4, ix_magic i); (4, ix_version i); (8, ix_min i);
        (8, ix_max i); (4, ix_size i); (4, ix_size_origin i); (8, ix_size_regions i);
        (8, ix_size_regions_origin i); (8, ix_size_total i); (8, ix_size_total_origin i);
        (4, ix_regions i); (8, ix_events i); (8, ix_time_create i); (8, ix_time_refresh i);
        (4, ix_refreshes i); (8, ix_lsn i); (1, ix_compression i); (1, ix_encryption i);
        (4,0%N); (4,0%N); (4,0%N); (4,0%N)].
Definition index_load (l : list byte) : option index :=
  match unpack index_fields l with
  | [a;b;c;d;e;f;g;h;i;j;k;m;n;o;p;q;r;s;t;u;_;_;_;_] =>
      Some (mk_index a b c d e f g h i j k m n o p q r s t u)
  | _ => None
  end.

(* ------------------------------------------------------------------ *)
(* region writer: the events added so far *)

Definition data_size (l : list mevent) : N := fold_right (fun m n => event_size (fst m) + n)%N 0%N l.

(* region_writer.h:77-81, with sizeof(Region) = 24 (86-101) and 142-158; uint32_t *)
Definition region_writer_size (l : list mevent) : N :=
  w32 (24 + 4 * N.of_nat (length l) + data_size l).

(* region_writer.h:145-147: the offset of each event in the data *)
Fixpoint region_offsets (off : N) (l : list mevent) : list N :=
  match l with
  | [] => []
  | m :: t => w32 off :: region_offsets (off + event_size (fst m)) t
  end.

(* region_writer.h:103-140 before compression: header, offsets, data *)
Definition region_encode (l : list mevent) : list byte :=
  pack [(4, region_writer_size l); (4, N.of_nat (length l)); (4,0%N); (4,0%N); (4,0%N); (4,0%N)]
  ++ pack (map (fun o => (4, o)) (region_offsets 0 l))
  ++ flat_map event_image l.

(* region_writer.h:103-140: compressed, then encrypted *)
Definition seal (s : source) (n : nat) (raw : list byte) : list byte :=
  let c := if (so_compression s =? 0)%N then raw else compress (so_compression s) n raw in
  if (so_encryption s =? 0)%N then c else encrypt (so_encryption s) n c.

(* ------------------------------------------------------------------ *)
(* writer.c:19-33 Writer: file so far, events of the region in the region writer
   (None: not started), index entries and sums, number of encryptions *)
Record writer : Type := mk_writer {
  w_file   : list byte;
  w_region : option (list mevent);
  w_refs   : list index_region;
  w_size   : N;                (* index.size *)
  w_size_regions : N;
  w_size_regions_origin : N;
  w_events : N;
  w_calls  : nat
}.
Definition writer_start : writer := mk_writer [] None [] 0 0 0 0 0.

Definition first_id (l : list mevent) : N := match l with m :: _ => ev_id (fst m) | [] => 0%N end.
Definition last_id (l : list mevent) : N := match rev l with m :: _ => ev_id (fst m) | [] => 0%N end.

(* writer.c:79-96 and index_writer.h:175-213 *)
Definition writer_stop_region (s : source) (w : writer) : writer :=
  match w_region w with
  | None => w
  | Some l =>
      let stored := seal s (w_calls w) (region_encode l) in
      let origin := region_writer_size l in
      let size := if ((so_encryption s =? 0) && (so_compression s =? 0))%N then origin
                  else w32 (N.of_nat (length stored)) in
      let crc := if so_crc s then crc 0 stored else 0%N in
      let ref := mk_iregion (w32 (N.of_nat (length (w_file w)))) crc (first_id l) (last_id l)
                            size origin (N.of_nat (length l)) in
      mk_writer (w_file w ++ stored) (w_region w) (w_refs w ++ [ref])
                (w32 (w_size w + 52)) (w_size_regions w + size) (w_size_regions_origin w + origin)
                (w_events w + N.of_nat (length l)) (S (w_calls w))
  end.

(* writer.c:61-67; (uint32_t)region_size *)
Definition writer_is_region_limit (s : source) (w : writer) : bool :=
  match w_region w with
  | None => true
  | Some l => (Z.to_N (so_region_size s mod 2 ^ 32) <=? region_writer_size l)%N
  end.

Definition region_writer_add (w : writer) (m : mevent) : writer :=
  mk_writer (w_file w) (Some (match w_region w with Some l => l ++ [m] | None => [m] end))
            (w_refs w) (w_size w) (w_size_regions w) (w_size_regions_origin w) (w_events w) (w_calls w).

(* writer.c:166-189 *)
Definition writer_add (s : source) (w : writer) (m : mevent) : writer :=
  if writer_is_region_limit s w then
    let same := match w_region w with
                | Some l => (last_id l =? ev_id (fst m))%N
                | None => false
                end in
    if same then region_writer_add w m
    else
      let w1 := writer_stop_region s w in
      region_writer_add (mk_writer (w_file w1) None (w_refs w1) (w_size w1) (w_size_regions w1)
                           (w_size_regions_origin w1) (w_events w1) (w_calls w1)) m
  else region_writer_add w m.

(* what the refresh knows about the partition: merger.c:78-91 *)
Record stamp : Type := mk_stamp {
  st_min : N; st_max : N; st_refreshes : N; st_time_create : N; st_time_refresh : N; st_lsn : N
}.

(* writer.c:125-147 and index_writer.h:92-170 *)
Definition writer_stop (s : source) (w : writer) (st : stamp) : list byte :=
  let w := writer_stop_region s w in
  let data := flat_map iregion_bytes (w_refs w) in
  let stored := seal s (w_calls w) data in
  let size_origin := w_size w in
  let size := if ((so_encryption s =? 0) && (so_compression s =? 0))%N then size_origin
              else w32 (N.of_nat (length stored)) in
  let total := (w_size_regions w + size + 130)%N in
  let total_origin := (w_size_regions_origin w + size_origin + 130)%N in
  let ix c cd := mk_index c cd INDEX_MAGIC INDEX_VERSION (st_min st) (st_max st) size size_origin
    (w_size_regions w) (w_size_regions_origin w) total total_origin
    (N.of_nat (length (w_refs w))) (w_events w) (st_time_create st) (st_time_refresh st)
    (st_refreshes st) (st_lsn st) (so_compression s) (so_encryption s) in
  let cd := crc 0 stored in
  w_file w ++ stored ++ index_bytes (ix (crc 0 (index_bytes (ix 0%N cd))) cd).

(* merger.c:63-91: the file of a list of events *)
Definition write_file (s : source) (st : stamp) (l : list mevent) : list byte :=
  writer_stop s (fold_left (writer_add s) l writer_start) st.

(* ------------------------------------------------------------------ *)
(* reading *)

Definition pread (off n : N) (file : list byte) : res (list byte) :=
  match slice_of (N.to_nat off) (N.to_nat n) file with
  | Some l => Ok l
  | None => Err                                       (* file_pread: short read *)
  end.

(* index_op.c:21-70, for an ID file *)
Definition index_open (file : list byte) : res index :=
  let size := N.of_nat (length file) in
  if (size <? 130)%N then Err
  else
    do f <- pread (size - 130) 130 file;
    do ix <- of_opt (index_load f);
    if negb (ix_magic ix =? INDEX_MAGIC)%N then Err
    else if negb (crc 0 (skipn 4 f) =? ix_crc ix)%N then Err
    else if negb (size =? ix_size_total ix)%N then Err
    else if (INDEX_VERSION <? ix_version ix)%N then Err
    else Ok ix.

(* index_op.c:85-136 and reader.h:110-130: decrypt, then decompress *)
Definition unseal (ix : index) (l : list byte) (origin : N) : res (list byte) :=
  do c <- (if (ix_encryption ix =? 0)%N then Ok l else decrypt (ix_encryption ix) l);
  if (ix_compression ix =? 0)%N then Ok c else decompress (ix_compression ix) c origin.

(* index.h:65-70: entry [pos] of the index data; None: outside of the buffer *)
Definition index_get (data : list byte) (pos : nat) : option index_region :=
  match slice_of (pos * IREGION) IREGION data with
  | Some l => iregion_load l
  | None => None
  end.

(* index_op.c:141-184; the offset is computed in uint64_t *)
Definition index_read (file : list byte) (ix : index) : res (list byte) :=
  if (ix_size ix =? 0)%N then Ok []
  else
    do l <- pread (sub64 (N.of_nat (length file)) (130 + ix_size ix)) (ix_size ix) file;
    if negb (crc 0 l =? ix_crc_data ix)%N then Err
    else unseal ix l (ix_size_origin ix).

(* reader.h:83-139 *)
Definition reader_execute (file : list byte) (ix : index) (r : index_region) : res (list byte) :=
  do l <- pread (ir_offset r) (ir_size r) file;
  do raw <- unseal ix l (ir_size_origin r);
  match slice_of 0 8 raw with
  | None => UB
  | Some h =>
      match unpack [4;4] h with
      | [size; events] =>
          if ((size =? ir_size_origin r) && (events =? ir_events r))%N then Ok raw else Err
      | _ => UB
      end
  end.

(* region.h:26-35; [n] is the number of events of the region *)
Definition region_get (raw : list byte) (n pos : nat) : res event :=
  match slice_of (24 + 4 * pos) 4 raw with
  | None => UB
  | Some o =>
      let off := N.to_nat (le_value o) in
      of_opt (event_load (skipn (24 + 4 * n + off) raw))
  end.

Fixpoint map_res {A B} (f : A -> res B) (l : list A) : res (list B) :=
  match l with
  | [] => Ok []
  | a :: t => do b <- f a; do r <- map_res f t; Ok (b :: r)
  end.

Definition region_events (raw : list byte) : res (list event) :=
  match slice_of 4 4 raw with
  | None => UB
  | Some h => let n := N.to_nat (le_value h) in map_res (region_get raw n) (seq 0 n)
  end.

(* part.c open and part_iterator.h over all regions: the events of each region *)
Definition read_file (file : list byte) : res (index * list (list event)) :=
  do ix <- index_open file;
  do data <- index_read file ix;
  do rs <- map_res (fun i =>
     do r <- of_opt (index_get data i);
     do raw <- reader_execute file ix r;
     region_events raw) (seq 0 (N.to_nat (ix_regions ix)));
  Ok (ix, rs).
End File.
