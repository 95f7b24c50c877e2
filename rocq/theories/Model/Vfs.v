(* Files as the system sees them: /repo/monotone/runtime/runtime/{vfs.c,file.h}.
   An open file is its bytes and a position. The system answers a call for bytes with a
   schedule: so many bytes (at most those asked for; the system never does more than INT_MAX in one
   call), interrupted, or failed. The bytes a failed call may have written are part of the schedule
   before it. *)
From Coq Require Import NArith Arith List Bool.
Import ListNotations.
From Verif Require Import Model.Base.

Inductive answer := ADone (k : nat) | AIntr | AFail.

Record fdesc := mk_fd { fd_data : list N; fd_pos : nat }.

(* write(2) of all of [l]: bytes are replaced, the file grows, a hole is zeros *)
Definition os_write (f : fdesc) (l : list N) : fdesc :=
  match l with
  | [] => f
  | _ => let d := fd_data f ++ repeat 0%N (fd_pos f - length (fd_data f)) in
         mk_fd (firstn (fd_pos f) d ++ l ++ skipn (fd_pos f + length l) d) (fd_pos f + length l)
  end.

(* a call ends, fails, or the schedule ends before it *)
Inductive wrote := WDone (f : fdesc) (n : nat) (s : list answer) | WFail (f : fdesc) (s : list answer) | WBusy (f : fdesc).

(* vfs.c:139-155; [n] bytes are written already *)
Fixpoint vfs_write_at (n : nat) (s : list answer) (f : fdesc) (l : list N) : wrote :=
  match s with
  | [] => WBusy f
  | AIntr :: s => vfs_write_at n s f l
  | AFail :: s => WFail f s
  | ADone k :: s =>
    let r := Nat.min k (length l) in
    if r =? 0 then WFail f s
    else let f := os_write f (firstn r l) in
         if length l =? r then WDone f (n + r) s else vfs_write_at (n + r) s f (skipn r l)
  end.
Definition vfs_write := vfs_write_at 0.

(* vfs.c:185-196: the buffers that are left after [r] bytes *)
Fixpoint iov_skip (r : nat) (v : list (list N)) : list (list N) :=
  match v with
  | [] => []
  | b :: t => if r <? length b then skipn r b :: t else iov_skip (r - length b) t
  end.
(* vfs.c:174-200 *)
Fixpoint vfs_writev_at (n : nat) (s : list answer) (f : fdesc) (v : list (list N)) : wrote :=
  match s with
  | [] => WBusy f
  | AIntr :: s => vfs_writev_at n s f v
  | AFail :: s => WFail f s
  | ADone k :: s =>
    let r := Nat.min k (length (concat v)) in
    let f := os_write f (firstn r (concat v)) in
    match iov_skip r v with
    | [] => WDone f (n + r) s
    | v => vfs_writev_at (n + r) s f v
    end
  end.
Definition vfs_writev := vfs_writev_at 0.

(* file.h:19-25; [fl_size] is what the program believes *)
Record file := mk_file { fl_fd : fdesc; fl_size : nat }.
Inductive filed := FDone (f : file) (s : list answer) | FFail (f : file) (s : list answer) | FBusy (f : file).

(* file.h:185-192 *)
Definition file_write (s : list answer) (f : file) (l : list N) : filed :=
  match vfs_write s (fl_fd f) l with
  | WDone d n s => FDone (mk_file d (fl_size f + n)) s
  | WFail d s => FFail (mk_file d (fl_size f)) s
  | WBusy d => FBusy (mk_file d (fl_size f))
  end.
(* file.h:200-218; [iov_max] is IOV_MAX; [fuel] at least the number of buffers *)
Fixpoint file_writev (fuel iov_max : nat) (s : list answer) (f : file) (v : list (list N)) : filed :=
  match v, fuel with
  | [], _ => FDone f s
  | _, O => FBusy f
  | _, S fuel =>
    let n := if iov_max <? length v then iov_max else length v in
    match vfs_writev s (fl_fd f) (firstn n v) with
    | WDone d w s => file_writev fuel iov_max s (mk_file d (fl_size f + w)) (skipn n v)
    | WFail d s => FFail (mk_file d (fl_size f)) s
    | WBusy d => FBusy (mk_file d (fl_size f))
    end
  end.

Inductive readed := RDone (l : list N) (s : list answer) | RFail (s : list answer) | RBusy.
(* vfs.c:103-119 vfs_read and 121-137 vfs_pread at [pos]; read(2) gives nothing at the end *)
Fixpoint vfs_read_at (got : list N) (s : list answer) (d : list N) (pos size : nat) : readed :=
  match s with
  | [] => RBusy
  | AIntr :: s => vfs_read_at got s d pos size
  | AFail :: s => RFail s
  | ADone k :: s =>
    let l := firstn (Nat.min k size) (skipn pos d) in
    if length l =? 0 then RFail s
    else if size =? length l then RDone (got ++ l) s
         else vfs_read_at (got ++ l) s d (pos + length l) (size - length l)
  end.
Definition vfs_pread (s : list answer) (d : list N) (pos size : nat) : readed := vfs_read_at [] s d pos size.

(* file.h:42-90: O_CREAT without O_TRUNC, the size is not looked at *)
Definition file_create (old : option (list N)) : file :=
  mk_file (mk_fd (match old with Some l => l | None => [] end) 0) 0.
(* file.h:68-73 file_open *)
Definition file_open (old : list N) : file := mk_file (mk_fd old 0) (length old).
(* file.h:120-127: lseek, the result is narrowed to int and compared with -1 *)
Definition file_seek_to_end (f : file) : option file :=
  if (N.of_nat (fl_size f) mod two32 =? two32 - 1)%N then None else Some (mk_file (mk_fd (fd_data (fl_fd f)) (fl_size f)) (fl_size f)).
(* file.h:138-147 *)
Definition file_truncate (f : file) (size : nat) : option file :=
  let d := firstn size (fd_data (fl_fd f) ++ repeat 0%N (size - length (fd_data (fl_fd f)))) in
  file_seek_to_end (mk_file (mk_fd d (fd_pos (fl_fd f))) size).
