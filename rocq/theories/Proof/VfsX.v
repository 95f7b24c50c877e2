(* Files created over a leftover; examples for Vfs.v. *)
From Coq Require Import NArith ZArith Arith List Bool Lia.
Import ListNotations.
From Verif Require Import Model.Base Model.Event Model.Codec Model.File Model.Vfs Spec.Written Proof.VfsL.

(* what is in the file after a refresh wrote [new] over [old] *)
Definition over (old new : list N) : list N := fd_data (os_write (fl_fd (file_create (Some old))) new).

Lemma over_eq old new : over old new = new ++ skipn (length new) old.
Proof. apply os_write_start. Qed.
Lemma over_len old new : length (over old new) = Nat.max (length old) (length new).
Proof. rewrite over_eq, app_length, skipn_length. lia. Qed.
Lemma over_slice_tail old new off n : length new <= off -> length new <= length old ->
  slice_of off n (over old new) = slice_of off n old.
Proof.
  intros H L. unfold slice_of. rewrite over_len, Nat.max_l by lia. destruct (_ <=? _); [|reflexivity].
  f_equal. f_equal. rewrite over_eq, skipn_app, skipn_all2 by lia. cbn. rewrite skipn_skipn. f_equal. lia.
Qed.
Lemma over_slice_head old new off n : off + n <= length new -> slice_of off n (over old new) = slice_of off n new.
Proof.
  intros H. unfold slice_of. rewrite over_len.
  destruct (off + n <=? Nat.max (length old) (length new)) eqn:E1; [|apply Nat.leb_gt in E1; lia].
  destruct (off + n <=? length new) eqn:E2; [|apply Nat.leb_gt in E2; lia].
  f_equal. rewrite over_eq, skipn_app, firstn_app, skipn_length. replace (n - (length new - off)) with 0 by lia.
  rewrite firstn_O, app_nil_r. reflexivity.
Qed.

(* the next start judges the file by the end of the leftover *)
Lemma over_open old new : length new + 130 <= length old -> index_open (over old new) = index_open old.
Proof.
  intro H. unfold index_open. rewrite over_len, Nat.max_l by lia.
  destruct (_ <? _)%N eqn:E; [reflexivity|].
  unfold pread. rewrite over_slice_tail by lia. reflexivity.
Qed.
(* until then the regions are read where they were written *)
Lemma over_region decompress decrypt old new ix r : N.to_nat (ir_offset r) + N.to_nat (ir_size r) <= length new ->
  reader_execute decompress decrypt (over old new) ix r = reader_execute decompress decrypt new ix r.
Proof. intro H. unfold reader_execute, pread. rewrite over_slice_head by exact H. reflexivity. Qed.

(* ---- examples ---- *)
Definition plain_c : N -> nat -> list N -> list N := fun _ _ l => l.
Definition plain_d : N -> list N -> N -> res (list N) := fun _ l _ => Ok l.
Definition plain_e : N -> nat -> list N -> list N := fun _ _ l => l.
Definition plain_k : N -> list N -> res (list N) := fun _ l => Ok l.
Definition ev1 (id v : N) : mevent := (mk_event id 0 [] [v], []).
Definition one_source : source := mk_source 1 0 0 true.
Definition old_file : list N := write_file plain_c plain_e one_source (mk_stamp 0 10 1 0 0 0) [ev1 1 11; ev1 2 12; ev1 3 13; ev1 4 14].
Definition new_file : list N := write_file plain_c plain_e one_source (mk_stamp 0 10 1 0 0 0) [ev1 1 21].

Lemma over_example : length new_file + 130 <= length old_file.
Proof. apply Nat.leb_le. vm_compute. reflexivity. Qed.
(* opened without complaint as the leftover, with regions that are partly overwritten *)
Lemma over_stale : exists ix,
  index_open (over old_file new_file) = Ok ix /\ ix_events ix = 4%N /\
  read_file plain_d plain_k (over old_file new_file) = Err /\
  (exists ix2 l, read_file plain_d plain_k new_file = Ok (ix2, l) /\ ix_events ix2 = 1%N).
Proof.
  exists (match index_open old_file with Ok ix => ix | _ => mk_index 0 0 0 0 0 0 0 0 0 0 0 0 0 0 0 0 0 0 0 0 end).
  rewrite (over_open _ _ over_example).
  split; [vm_compute; reflexivity|]. split; [vm_compute; reflexivity|]. split; [vm_compute; reflexivity|].
  exists (match read_file plain_d plain_k new_file with Ok (ix, _) => ix | _ => mk_index 0 0 0 0 0 0 0 0 0 0 0 0 0 0 0 0 0 0 0 0 end),
         (match read_file plain_d plain_k new_file with Ok (_, l) => l | _ => [] end).
  split; vm_compute; reflexivity.
Qed.
(* an incomplete leftover makes the start fail *)
Lemma over_cut : exists old, length new_file + 130 <= length old /\ index_open (over old new_file) = Err.
Proof.
  exists (firstn (length old_file - 5) old_file ). split; [apply Nat.leb_le; vm_compute; reflexivity|]. vm_compute. reflexivity.
Qed.

Lemma sched_example : vfs_writev [ADone 1; AIntr; ADone 0; ADone 4; ADone 7] (mk_fd [9; 9; 9]%N 3) [[1; 2]; []; [3; 4; 5]; [6]]%N
  = WDone (mk_fd [9; 9; 9; 1; 2; 3; 4; 5; 6]%N 9) 6 [].
Proof. vm_compute. reflexivity. Qed.
Lemma chunk_example : exists f, file_writev 5 2 [ADone 2; ADone 1; ADone 9; ADone 9] (mk_file (mk_fd [] 0) 0) [[1; 2]; [3]; [4]; [5; 6]; []]%N = FDone f [] /\
  fd_data (fl_fd f) = [1; 2; 3; 4; 5; 6]%N /\ fl_size f = 6.
Proof. eexists. split; [cbn; reflexivity|split; reflexivity]. Qed.

(* the answer of lseek is narrowed *)
Lemma seek_fails f : N.of_nat (fl_size f) = (2 ^ 32 - 1)%N -> file_seek_to_end f = None.
Proof. intro H. unfold file_seek_to_end. rewrite H. reflexivity. Qed.
Lemma seek_works f : (N.of_nat (fl_size f) < 2 ^ 32 - 1)%N -> file_seek_to_end f = Some (mk_file (mk_fd (fd_data (fl_fd f)) (fl_size f)) (fl_size f)).
Proof.
  intro H. unfold file_seek_to_end, two32. change (2 ^ 32)%N with 4294967296%N in *. rewrite N.mod_small by lia.
  destruct (_ =? _)%N eqn:E; [apply N.eqb_eq in E; lia|reflexivity].
Qed.
Lemma seek_example : exists d, file_seek_to_end (file_open d) = None.
Proof.
  exists (repeat 0%N (N.to_nat (2 ^ 32 - 1))). apply seek_fails. unfold file_open. cbn [fl_size]. rewrite repeat_length. apply N2Nat.id.
Qed.
