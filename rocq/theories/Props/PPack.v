(* C77, C78: buffers, compression and encryption. *)
From Coq Require Import NArith ZArith List Bool.
Import ListNotations.
From Verif Require Import Model.Base Model.Event Model.Buf Model.Pack Model.File
  Spec.Order Spec.Checksum Spec.Files Spec.Buffers Spec.Packing
  Proof.FileL Proof.FileR Proof.FileC Proof.FileP Proof.BufL Proof.PackL Proof.PackX.
Local Open Scope Z_scope.

(* C77: whatever is written in pieces is there, in order, and the memory is moved a number of times
   that is logarithmic in the size *)
Theorem C77_written : forall ls, size_all ls <= 2 ^ 30 ->
  exists c n, buf_writes buf_init ls = Ok (mk_buf (concat ls) c, n) /\ held (mk_buf (concat ls) c) /\ ((2 <= n)%nat -> 2 ^ (Z.of_nat n - 2) < size_all ls).
Proof. exact written. Qed.
Print Assumptions C77_written.
Example C77_example : size_all [[1; 2; 3]; []; [4]; [5; 6; 7; 8; 9]]%N <= 2 ^ 30 /\
  buf_writes buf_init [[1; 2; 3]; []; [4]; [5; 6; 7; 8; 9]]%N = Ok (mk_buf [1; 2; 3; 4; 5; 6; 7; 8; 9]%N 12, 3%nat).
Proof. exact written_example. Qed.
Theorem C77_printed : forall b l, len l < 1024 -> buf_vprintf b l = buf_write b l.
Proof. exact vprintf_ok. Qed.
Print Assumptions C77_printed.
(* a gigabyte and a byte *)
Theorem C77_over_1gib_refuted : exists l1 l2, size_all [l1; l2] = 2 ^ 30 + 1 /\ buf_writes buf_init [l1; l2] = UB.
Proof. exact overrun. Qed.
Print Assumptions C77_over_1gib_refuted.
(* a longer text *)
Theorem C77_printed_refuted : exists b l, len l = 1024 /\ buf_vprintf b l <> buf_write b l.
Proof. exact vprintf_cut. Qed.
Print Assumptions C77_printed_refuted.

(* C78: zstd, with a library that works: the content is back exactly when its frame is no longer
   than the room there is, which is that of the content or of the buffer used before *)
Theorem C78_zstd : forall frame content magic, zstd_ok frame content magic ->
  forall checked cap cap' level argv, bytes (concat argv) -> 0 <= cap < 2 ^ 30 -> 0 <= cap' < 2 ^ 30 -> len (concat argv) < 2 ^ 31 ->
  let x := concat argv in let c := grown cap (len x) in
  (len (frame level x) <= c ->
    exists z c', compression_zstd_compress frame checked (mk_buf [] cap) level argv = Ok (mk_buf z c) /\
      compression_zstd_decompress content (mk_buf [] cap') z (len x) = Ok (mk_buf x c')) /\
  (c < len (frame level x) ->
    compression_zstd_compress frame true (mk_buf [] cap) level argv = UB /\
    exists z, compression_zstd_compress frame false (mk_buf [] cap) level argv = Ok (mk_buf z c) /\
      compression_zstd_decompress content (mk_buf [] cap') z (len x) = Err).
Proof. exact zstd_pair. Qed.
Print Assumptions C78_zstd.
Example C78_zstd_example : zstd_ok toy_frame toy_content 40.
Proof. exact toy_zstd. Qed.
Example C78_zstd_both : len (toy_frame 0 [7; 8; 9]%N) <= grown 100 (len [7; 8; 9]%N) /\ grown 0 (len [7; 8; 9]%N) < len (toy_frame 0 [7; 8; 9]%N).
Proof. exact toy_fits. Qed.
(* whatever the library: of every size there is content that is lost *)
Theorem C78_zstd_refuted : forall frame content magic, zstd_ok frame content magic ->
  forall level n, 0 < n < 2 ^ 30 -> exists x, bytes x /\ len x = n /\
  compression_zstd_compress frame true buf_init level [x] = UB /\
  exists z, compression_zstd_compress frame false buf_init level [x] = Ok z /\
    compression_zstd_decompress content buf_init (b_bytes z) n = Err.
Proof. exact zstd_lost. Qed.
Print Assumptions C78_zstd_refuted.
(* a partition file written in a release and not read back *)
Theorem C78_zstd_file_refuted : exists frame content magic st l, zstd_ok frame content magic /\
  settings_ok zstd_source /\ stamp_fit st /\ Forall mev_ok l /\ ascending (map fst l) /\
  small (write_file (zstd_bytes frame) (fun _ _ b => b) zstd_source st l) (map fst l) /\
  read_file (zstd_back_bytes content) (fun _ b => Ok b) (write_file (zstd_bytes frame) (fun _ _ b => b) zstd_source st l) = Err.
Proof. exact zstd_file. Qed.
Print Assumptions C78_zstd_file_refuted.

(* lz4 reserves what the library asks for *)
Theorem C78_lz4 : forall bound start update finish step, lz4_ok bound start update finish step ->
  forall cap cap' level argv fuel, 0 <= cap < 2 ^ 30 -> 0 <= cap' < 2 ^ 30 -> len (concat argv) < 2 ^ 31 ->
  19 + bound (lz4_level level) 0 + bounds bound (lz4_level level) argv < 2 ^ 31 ->
  exists z c c', compression_lz4_compress bound start update finish (mk_buf [] cap) level argv = Ok (mk_buf z c) /\
    ((length z <= fuel)%nat -> compression_lz4_decompress step fuel (mk_buf [] cap') z (len (concat argv)) = Ok (mk_buf (concat argv) c')).
Proof. exact lz4_pair. Qed.
Print Assumptions C78_lz4.
Example C78_lz4_example : lz4_ok (fun _ n => n + 1) (fun _ => [1%N]) (fun _ _ l => l) (fun _ _ => [0%N]) toy_step.
Proof. exact toy_lz4. Qed.
Theorem C78_aes : forall seal unseal, aes_ok seal unseal ->
  forall r1 r2 key cap cap' argv, length key = 32%nat -> 0 <= cap < 2 ^ 30 -> 0 <= cap' < 2 ^ 30 -> len (concat argv) < 2 ^ 31 - 64 ->
  exists z c c', encryption_aes_encrypt seal r1 r2 key (mk_buf [] cap) argv = Ok (mk_buf z c) /\ len z = 32 + len (concat argv) /\
    encryption_aes_decrypt unseal key (mk_buf [] cap') z = Ok (mk_buf (concat argv) c').
Proof. exact aes_pair. Qed.
Print Assumptions C78_aes.
Example C78_aes_example : aes_ok (fun _ _ x => (x, repeat 7%N 16)) (fun _ _ _ c => Some c).
Proof. exact toy_aes. Qed.
(* a tag that does not fit is an error *)
Theorem C78_aes_refused : forall unseal key data, 32 <= len data < 2 ^ 31 ->
  unseal key (firstn 12 data) (firstn 16 (skipn 16 data)) (skipn 32 data) = None -> encryption_aes_decrypt unseal key buf_init data = Err.
Proof. exact aes_refused. Qed.
Print Assumptions C78_aes_refused.
Example C78_aes_refused_example : exists unseal (key data : list N), 32 <= len data < 2 ^ 31 /\ length key = 32%nat /\
  unseal key (firstn 12 data) (firstn 16 (skipn 16 data)) (skipn 32 data) = @None (list N).
Proof. exact aes_refused_example. Qed.
(* fewer bytes than the nonce and the tag *)
Theorem C78_aes_short_refuted : forall unseal key data, length key = 32%nat -> len data < 32 -> encryption_aes_decrypt unseal key buf_init data = UB.
Proof. exact aes_short. Qed.
Print Assumptions C78_aes_short_refuted.
