(* C37, C54: bytes that reach a file. *)
From Coq Require Import NArith ZArith List Bool.
Import ListNotations.
From Verif Require Import Model.Base Model.File Model.Vfs Spec.Written Proof.VfsL Proof.VfsX.

(* C54: writes in pieces *)
Theorem C54_write : forall s n f l,
  match vfs_write_at n s f l with
  | WDone f' m _ => f' = os_write f l /\ m = n + length l
  | WFail f' _ | WBusy f' => exists j, f' = os_write f (firstn j l)
  end.
Proof. exact vfs_write_all. Qed.
Print Assumptions C54_write.
Theorem C54_writev : forall s n f v,
  match vfs_writev_at n s f v with
  | WDone f' m _ => f' = os_write f (concat v) /\ m = n + length (concat v)
  | WFail f' _ | WBusy f' => exists j, f' = os_write f (firstn j (concat v))
  end.
Proof. exact vfs_writev_all. Qed.
Print Assumptions C54_writev.
Theorem C54_file_write : forall s f l,
  match file_write s f l with
  | FDone f' _ => fl_fd f' = os_write (fl_fd f) l /\ fl_size f' = fl_size f + length l
  | FFail f' _ | FBusy f' => exists j, fl_fd f' = os_write (fl_fd f) (firstn j l) /\ fl_size f' = fl_size f /\ j <= length l
  end.
Proof. exact file_write_all. Qed.
Print Assumptions C54_file_write.
Theorem C54_file_writev : forall fuel iov_max s f v, 0 < iov_max -> length v <= fuel ->
  match file_writev fuel iov_max s f v with
  | FDone f' _ => fl_fd f' = os_write (fl_fd f) (concat v) /\ fl_size f' = fl_size f + length (concat v)
  | FFail f' _ | FBusy f' => exists j, fl_fd f' = os_write (fl_fd f) (firstn j (concat v)) /\ fl_size f <= fl_size f' <= fl_size f + j /\ j <= length (concat v)
  end.
Proof. exact file_writev_all. Qed.
Print Assumptions C54_file_writev.
Theorem C54_written : forall f l, fd_pos f <= length (fd_data f) -> written (fd_data f) (fd_pos f) l (fd_data (os_write f l)).
Proof. exact os_write_written. Qed.
Print Assumptions C54_written.
Theorem C54_appended : forall d l, os_write (mk_fd d (length d)) l = mk_fd (d ++ l) (length (d ++ l)).
Proof. exact os_write_end. Qed.
Print Assumptions C54_appended.
Theorem C54_write_ends : forall s n f l, fine s -> l <> [] -> length l <= rounds s -> exists m t, vfs_write_at n s f l = WDone (os_write f l) m t.
Proof. exact vfs_write_ends. Qed.
Print Assumptions C54_write_ends.
Theorem C54_writev_ends : forall s n f v, fine s -> Nat.max 1 (length (concat v)) <= rounds s -> exists m t, vfs_writev_at n s f v = WDone (os_write f (concat v)) m t.
Proof. exact vfs_writev_ends. Qed.
Print Assumptions C54_writev_ends.
Example C54_example : vfs_writev [ADone 1; AIntr; ADone 0; ADone 4; ADone 7] (mk_fd [9; 9; 9]%N 3) [[1; 2]; []; [3; 4; 5]; [6]]%N
  = WDone (mk_fd [9; 9; 9; 1; 2; 3; 4; 5; 6]%N 9) 6 [].
Proof. exact sched_example. Qed.
Example C54_chunks_example : exists f, file_writev 5 2 [ADone 2; ADone 1; ADone 9; ADone 9] (mk_file (mk_fd [] 0) 0) [[1; 2]; [3]; [4]; [5; 6]; []]%N = FDone f [] /\
  fd_data (fl_fd f) = [1; 2; 3; 4; 5; 6]%N /\ fl_size f = 6.
Proof. exact chunk_example. Qed.
Example C54_fine_example : fine [ADone 3; AIntr; ADone 1] /\ rounds [ADone 3; AIntr; ADone 1] = 2.
Proof. split; [repeat constructor; (left; reflexivity) || (right; reflexivity)|reflexivity]. Qed.
Theorem C54_read : forall s got d pos size,
  match vfs_read_at got s d pos size with
  | RDone l _ => l = got ++ firstn size (skipn pos d) /\ pos + size <= length d /\ 0 < size
  | _ => True
  end.
Proof. exact vfs_read_all. Qed.
Print Assumptions C54_read.
Theorem C54_read_ends : forall s got d pos size, fine s -> 0 < size -> pos + size <= length d -> size <= rounds s ->
  exists t, vfs_read_at got s d pos size = RDone (got ++ firstn size (skipn pos d)) t.
Proof. exact vfs_read_ends. Qed.
Print Assumptions C54_read_ends.
Theorem C54_empty_write_refuted : forall s f k, vfs_write (ADone k :: s) f [] = WFail f s.
Proof. exact write_nothing. Qed.
Print Assumptions C54_empty_write_refuted.
Theorem C54_zero_refuted : forall k n f v, concat v <> [] -> vfs_writev_at n (repeat (ADone 0) k) f v = WBusy f.
Proof. exact writev_zero. Qed.
Print Assumptions C54_zero_refuted.
Theorem C54_seek : forall f, (N.of_nat (fl_size f) < 2 ^ 32 - 1)%N ->
  file_seek_to_end f = Some (mk_file (mk_fd (fd_data (fl_fd f)) (fl_size f)) (fl_size f)).
Proof. exact seek_works. Qed.
Print Assumptions C54_seek.
Theorem C54_seek_refuted : exists d, file_seek_to_end (file_open d) = None.
Proof. exact seek_example. Qed.
Print Assumptions C54_seek_refuted.

(* C37: a file created over a leftover *)
Theorem C37_exact : forall old new, fd_data (os_write (fl_fd (file_create old)) new) = new <->
  match old with Some l => length l <= length new | None => True end.
Proof. exact create_exact. Qed.
Print Assumptions C37_exact.
Theorem C37_tail : forall old new, over old new = new ++ skipn (length new) old.
Proof. exact over_eq. Qed.
Print Assumptions C37_tail.
Theorem C37_judged : forall old new, length new + 130 <= length old -> index_open (over old new) = index_open old.
Proof. exact over_open. Qed.
Print Assumptions C37_judged.
Example C37_example : length new_file + 130 <= length old_file.
Proof. exact over_example. Qed.
Theorem C37_meanwhile : forall decompress decrypt old new ix r, N.to_nat (ir_offset r) + N.to_nat (ir_size r) <= length new ->
  reader_execute decompress decrypt (over old new) ix r = reader_execute decompress decrypt new ix r.
Proof. exact over_region. Qed.
Print Assumptions C37_meanwhile.
Theorem C37_stale_refuted : exists ix,
  index_open (over old_file new_file) = Ok ix /\ ix_events ix = 4%N /\
  read_file plain_d plain_k (over old_file new_file) = Err /\
  (exists ix2 l, read_file plain_d plain_k new_file = Ok (ix2, l) /\ ix_events ix2 = 1%N).
Proof. exact over_stale. Qed.
Print Assumptions C37_stale_refuted.
Theorem C37_rejected_refuted : exists old, length new_file + 130 <= length old /\ index_open (over old new_file) = Err.
Proof. exact over_cut. Qed.
Print Assumptions C37_rejected_refuted.
