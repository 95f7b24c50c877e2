(* The files of one partition that is kept in a storage with a cloud: upload, download, drops and
   refresh as sequences of file operations, and what the next start makes of what is left.

   Sources: /repo/monotone/engine/io/part.c:53-216 (part_open, part_create, part_delete, part_rename,
   part_download, part_upload, part_offload); /repo/monotone/engine/engine/op.c:163-315, 325-487;
   refresh.c:55-237; service.h:110-142; engine_recover.c:57-245;
   /repo/monotone/cloud/cloud/mock.c:75-144; /repo/monotone/cloud/s3/s3.c:115-176;
   /repo/monotone/runtime/runtime/file.h:48-87.
   Simplifications: one storage (several are in Crash.v), so a lone .complete file has no parent
   elsewhere; each function below runs under the service lock of the partition (Locks.v) and is one
   step; what was written before the machine stopped is on disk; an object of S3 is replaced by a
   whole PUT or not at all; the dump of the index of a file is a function of the file (File.v has
   the bytes), and so is the new file of a refresh, given with it. *)
From Coq Require Import NArith List Bool.
Import ListNotations.
From Verif Require Import Model.Base.

Definition bytes : Type := list N.

(* id.h:16-24 and id_path: the files of a partition *)
Inductive slot : Type := SId | SInc | SComp | SCloud | SCinc.
Record disk : Type := mk_disk {
  d_id : option bytes;                       (* <min> *)
  d_inc : option bytes;                      (* <min>.incomplete *)
  d_comp : option bytes;                     (* <min>.complete *)
  d_cloud : option bytes;                    (* <min>.cloud *)
  d_cinc : option bytes;                     (* <min>.cloud.incomplete *)
  d_object : option bytes                    (* the object in the cloud *)
}.
Definition empty_disk : disk := mk_disk None None None None None None.
Definition get (s : slot) (d : disk) : option bytes :=
  match s with
  | SId => d_id d | SInc => d_inc d | SComp => d_comp d | SCloud => d_cloud d | SCinc => d_cinc d
  end.
Definition set (s : slot) (x : option bytes) (d : disk) : disk :=
  match s with
  | SId => mk_disk x (d_inc d) (d_comp d) (d_cloud d) (d_cinc d) (d_object d)
  | SInc => mk_disk (d_id d) x (d_comp d) (d_cloud d) (d_cinc d) (d_object d)
  | SComp => mk_disk (d_id d) (d_inc d) x (d_cloud d) (d_cinc d) (d_object d)
  | SCloud => mk_disk (d_id d) (d_inc d) (d_comp d) x (d_cinc d) (d_object d)
  | SCinc => mk_disk (d_id d) (d_inc d) (d_comp d) (d_cloud d) x (d_object d)
  end.
Definition set_object (x : option bytes) (d : disk) : disk :=
  mk_disk (d_id d) (d_inc d) (d_comp d) (d_cloud d) (d_cinc d) x.

(* the storage and its cloud: cloud is set; cloud_drop_local; PUT replaces (s3) or writes over the
   file that is there (mock: file_create has no O_TRUNC) *)
Record setup : Type := mk_setup { su_cloud : bool; su_drop_local : bool; su_replaces : bool }.

Inductive fop : Type :=
| FDelete (s : slot)                         (* part_delete: if it exists *)
| FCreate (s : slot)                         (* file.h:83-87 O_CREAT|O_RDWR *)
| FWrite (s : slot) (b : bytes)              (* from the start of the file *)
| FRename (s t : slot)                       (* part_rename: if it exists *)
| FPut (b : bytes)                           (* cloud_upload *)
| FRemove.                                   (* cloud_remove *)

Definition given (x : option bytes) : bytes := match x with Some b => b | None => [] end.
Definition over (b old : bytes) : bytes := b ++ skipn (length b) old.
Definition fop_do (su : setup) (o : fop) (d : disk) : disk :=
  match o with
  | FDelete s => set s None d
  | FCreate s => set s (Some (given (get s d))) d
  | FWrite s b => set s (Some (over b (given (get s d)))) d
  | FRename s t => match get s d with Some x => set t (Some x) (set s None d) | None => d end
  | FPut b => set_object (Some (if su_replaces su then b else over b (given (d_object d)))) d
  | FRemove => set_object None d
  end.
(* an operation that was not finished: k bytes were written *)
Definition fop_part (su : setup) (k : nat) (o : fop) (d : disk) : disk :=
  match o with
  | FWrite s b => fop_do su (FWrite s (firstn k b)) d
  | FPut b => if su_replaces su then d else fop_do su (FPut (firstn k b)) d
  | _ => d
  end.
Definition fops_do (su : setup) (l : list fop) (d : disk) : disk := fold_left (fun d o => fop_do su o d) l d.
(* n operations are done, k bytes of the next *)
Definition fops_upto (su : setup) (l : list fop) (n k : nat) (d : disk) : disk :=
  let d := fops_do su (firstn n l) d in
  match nth_error l n with Some o => fop_part su k o d | None => d end.

(* part->state: ID, ID_CLOUD; neither: no file yet *)
Record flags : Type := mk_flags { in_id : bool; in_cloud : bool }.
Definition no_flags : flags := mk_flags false false.

Inductive action : Type :=
| AUpload                                    (* op.c:394-454 engine_upload *)
| ADownload                                  (* op.c:325-384 engine_download *)
| ADropCloud                                 (* engine_drop (.., ID_CLOUD) *)
| ADropLocal                                 (* engine_drop (.., ID), by command *)
| ADropUploaded                              (* engine_drop_file (.., cloud_drop_local, ID) *)
| ADropBoth                                  (* engine_drop_file (.., ID|ID_CLOUD), by command *)
| ARefresh (b : bytes).                      (* refresh_run: b is the new file *)

Inductive plan : Type :=
| PSkip                                      (* nothing to do *)
| PFail (l : list fop)                       (* these operations, then an error *)
| PRun (l : list fop) (m : flags).           (* these operations, then the new state *)

Section Index.
Variable idx : bytes -> bytes.               (* index and index data of a file *)

(* part.c:84-136, 177-194, mock.c:115-144, s3.c:153-176 *)
Definition upload_ops (d : disk) : option (list fop) :=
  match d_id d with
  | Some b => Some [FDelete SCinc; FCreate SCinc; FWrite SCinc (idx b); FPut b; FRename SCinc SCloud]
  | None => None
  end.
(* part.c:164-175, mock.c:75-113, s3.c:115-151 *)
Definition download_ops (d : disk) : option (list fop) :=
  match d_object d with
  | Some b => Some [FDelete SInc; FCreate SInc; FWrite SInc b; FRename SInc SId]
  | None => None
  end.
(* part.c:196-216 part_offload *)
Definition offload_cloud : list fop := [FDelete SCloud; FRemove].
Definition offload_local : list fop := [FDelete SId].
(* merger.c:99-128, refresh.c:168-199; the file that was read is not used by the operations *)
Definition refresh_ops (b : bytes) : list fop :=
  [FCreate SInc; FWrite SInc b; FRename SInc SComp; FDelete SId; FRename SComp SId].

Definition act_plan (su : setup) (a : action) (m : flags) (d : disk) : plan :=
  match a with
  | AUpload =>
      if negb (su_cloud su) then PSkip
      else if in_cloud m then PSkip
      else if negb (in_id m) then PFail []
      else match upload_ops d with
           | Some l => PRun l (mk_flags (in_id m) true)
           | None => PFail [FDelete SCinc]
           end
  | ADownload =>
      if negb (su_cloud su) then PSkip
      else if in_id m then PSkip
      else if negb (in_cloud m) then PSkip
      else match download_ops d with
           | Some l => PRun l (mk_flags true (in_cloud m))
           | None => PFail (if su_replaces su then [FDelete SInc; FCreate SInc] else [])
           end
  | ADropCloud =>
      if in_cloud m then PRun offload_cloud (mk_flags (in_id m) false) else PSkip
  | ADropLocal =>
      if in_id m then PRun offload_local (mk_flags false (in_cloud m)) else PSkip
  | ADropUploaded =>
      if negb (su_drop_local su) || negb (in_cloud m) then PSkip
      else if in_id m then PRun offload_local (mk_flags false (in_cloud m)) else PSkip
  | ADropBoth =>
      PRun ((if in_cloud m then offload_cloud else []) ++ (if in_id m then offload_local else [])) no_flags
  | ARefresh b =>
      if in_cloud m then PFail [] else PRun (refresh_ops b) (mk_flags true false)
  end.
(* op.c:164-237 and refresh.c:134-166: the state when the n-th operation fails; a refresh has its new
   partition in place as soon as the file is written, a drop forgets each copy after it is removed *)
Definition act_failed (a : action) (n : nat) (m : flags) : flags :=
  match a with
  | ARefresh _ => if Nat.leb 2 n then mk_flags true false else m
  | ADropBoth => if (in_cloud m && Nat.leb 2 n)%bool then mk_flags (in_id m) false else m
  | _ => m
  end.

Record pst : Type := mk_pst { p_flags : flags; p_disk : disk }.

(* engine_recover.c:57-191 for one partition: the files that are there decide. Err: the database does
   not open. *)
Definition is_some {A} (o : option A) : bool := match o with Some _ => true | None => false end.
Definition recover (d : disk) : res pst :=
  match is_some (d_id d), is_some (d_inc d), is_some (d_comp d), is_some (d_cloud d), is_some (d_cinc d) with
  | false, false, false, false, false => Ok (mk_pst no_flags d)              (* nothing in the directory *)
  | true, false, false, false, false => Ok (mk_pst (mk_flags true false) d)
  | true, false, false, true, false => Ok (mk_pst (mk_flags true true) d)
  | false, false, false, true, false => Ok (mk_pst (mk_flags false true) d)
  | false, true, false, false, false => Ok (mk_pst no_flags (set SInc None d))
  | true, true, false, false, false => Ok (mk_pst (mk_flags true false) (set SInc None d))
  | true, false, true, false, false => Ok (mk_pst (mk_flags true false) (set SComp None d))
  | false, false, true, false, false => Ok (mk_pst (mk_flags true false) (fop_do (mk_setup false false false) (FRename SComp SId) d))
  | false, true, false, true, false => Ok (mk_pst (mk_flags false true) (set SInc None d))
  | true, false, false, false, true => Ok (mk_pst (mk_flags true false) (set SCinc None d))
  | _, _, _, _, _ => Err
  end.

(* what happens to a partition *)
Inductive happening : Type :=
| Done (a : action)                          (* the action, with its own errors *)
| Failed (a : action) (n k : nat)            (* its n-th operation fails after k bytes *)
| Stopped (a : action) (n k : nat)           (* the machine stops there, and is started again *)
| Restarted.
Definition plan_ops (p : plan) : list fop := match p with PSkip => [] | PFail l => l | PRun l _ => l end.
Definition act (su : setup) (a : action) (s : pst) : pst :=
  match act_plan su a (p_flags s) (p_disk s) with
  | PSkip => s
  | PFail l => mk_pst (p_flags s) (fops_do su l (p_disk s))
  | PRun l m => mk_pst m (fops_do su l (p_disk s))
  end.
(* did it end without an error *)
Definition act_ok (su : setup) (a : action) (s : pst) : bool :=
  match act_plan su a (p_flags s) (p_disk s) with PFail _ => false | _ => true end.
Definition disk_upto (su : setup) (a : action) (n k : nat) (s : pst) : disk :=
  fops_upto su (plan_ops (act_plan su a (p_flags s) (p_disk s))) n k (p_disk s).
Definition happen (su : setup) (s : pst) (h : happening) : res pst :=
  match h with
  | Done a => Ok (act su a s)
  | Failed a n k => Ok (mk_pst (act_failed a n (p_flags s)) (disk_upto su a n k s))
  | Stopped a n k => recover (disk_upto su a n k s)
  | Restarted => recover (p_disk s)
  end.
Fixpoint happenings (su : setup) (s : pst) (l : list happening) : res pst :=
  match l with
  | [] => Ok s
  | h :: t => match happen su s h with Ok s => happenings su s t | Err => Err | UB => UB end
  end.

(* service.h:110-142, op.c:464-483: the requests of the background workers and of REFRESH *)
Inductive request : Type := RRefresh (b : bytes) | RUpload | RDownload.
Definition req_actions (r : request) : list action :=
  match r with
  | RRefresh b => [ADownload; ADropCloud; ARefresh b; AUpload; ADropUploaded]
  | RUpload => [AUpload; ADropUploaded]
  | RDownload => [ADownload]
  end.
(* a request that is not interrupted: an action that fails ends it *)
Fixpoint run_actions (su : setup) (l : list action) (s : pst) : pst :=
  match l with
  | [] => s
  | a :: t => if act_ok su a s then run_actions su t (act su a s) else act su a s
  end.
(* the machine stops in the i-th action *)
Definition run_stopped (su : setup) (r : request) (i n k : nat) (s : pst) : res pst :=
  let s := run_actions su (firstn i (req_actions r)) s in
  match nth_error (req_actions r) i with
  | Some a => recover (disk_upto su a n k s)
  | None => recover (p_disk s)
  end.
Inductive turn : Type := Whole (r : request) | Cut (r : request) (i n k : nat).
Definition turn_do (su : setup) (s : pst) (t : turn) : res pst :=
  match t with
  | Whole r => Ok (run_actions su (req_actions r) s)
  | Cut r i n k => run_stopped su r i n k s
  end.
Fixpoint turns (su : setup) (s : pst) (l : list turn) : res pst :=
  match l with
  | [] => Ok s
  | t :: l => match turn_do su s t with Ok s => turns su s l | Err => Err | UB => UB end
  end.

(* several workers: each does the next action of its request, in any order; an action that fails ends
   the request *)
Fixpoint drop_rest (w : nat) (l : list (list action)) : list (list action) :=
  match l, w with
  | [], _ => []
  | _ :: l, O => [] :: l
  | x :: l, S w => x :: drop_rest w l
  end.
Fixpoint pop (w : nat) (l : list (list action)) : list (list action) :=
  match l, w with
  | [], _ => []
  | x :: l, O => tl x :: l
  | x :: l, S w => x :: pop w l
  end.
Fixpoint weave (su : setup) (s : pst) (ws : list (list action)) (order : list nat) : pst :=
  match order with
  | [] => s
  | w :: t => match nth_error ws w with
              | Some (a :: _) => weave su (act su a s) (if act_ok su a s then pop w ws else drop_rest w ws) t
              | _ => weave su s ws t
              end
  end.

(* reader.h:92-107: what a reader gets *)
Definition part_read (s : pst) : option bytes :=
  if in_id (p_flags s) then d_id (p_disk s) else if in_cloud (p_flags s) then d_object (p_disk s) else None.
(* engine_recover.c:229-236: the file from which the index is read at start *)
Definition part_opened (s : pst) : option bytes :=
  if in_id (p_flags s) then d_id (p_disk s) else if in_cloud (p_flags s) then d_cloud (p_disk s) else None.
End Index.
