(* Environments, the directories they are opened in, and the lock of a directory.

   What is kept: the life cycle of a handle, the variables of the configuration that opening reads and
   writes (directory, online, uuid, clouds, storages, lsn), config.json and the files of the WAL of each
   directory, and the open file descriptions through which directories are locked.

   What is not: partitions and their files, the pipeline, the workers, the logger, all other variables.
   The option wal is on.  A path is the directory it resolves to.  A record of the WAL is its lsn. *)
From Coq Require Import List NArith Bool.
From Verif Require Import Model.Base Model.Wal.
Import ListNotations.
Local Open Scope N_scope.

(* what config.json says (config.c:78-133): uuid, clouds, storages *)
Record conf : Type := mk_conf { c_uuid : N; c_clouds : list N; c_storages : list N }.

(* a directory that exists: config.json, and the files of wal/ when wal/ exists *)
Record folder : Type := mk_folder { f_conf : option conf; f_wal : option (list (N * list N)) }.

(* an open file description of a directory: the process it belongs to and whether flock(2) holds through it *)
Record ofd : Type := mk_ofd { o_id : N; o_proc : N; o_dir : N; o_lock : bool }.

(* struct Main (main.h) of one handle: config()->online, ->directory, lock_directory.fd, config()->uuid,
   config()->clouds, config()->storages, cloud_mgr.list, storage_mgr.list, config()->lsn, wal.list,
   wal.current (directory, id, file.size, which is also its file position) *)
Record env : Type := mk_env {
  e_proc : N;
  e_online : bool;
  e_dir : option N;
  e_lock : option N;
  e_uuid : option N;
  e_vclouds : list N;
  e_vstorages : list N;
  e_clouds : list N;
  e_storages : list N;
  e_lsn : N;
  e_ids : list N;
  e_cur : option (N * N * nat)
}.

Record world : Type := mk_world {
  w_dirs : list (N * folder);
  w_ofds : list ofd;
  w_next : N;
  w_envs : list (N * env)
}.

(* association lists *)
Fixpoint get {A : Type} (k : N) (l : list (N * A)) : option A :=
  match l with [] => None | (i, x) :: r => if (i =? k)%N then Some x else get k r end.
Definition del {A : Type} (k : N) (l : list (N * A)) : list (N * A) := filter (fun p => negb (fst p =? k)%N) l.
Definition put {A : Type} (k : N) (x : A) (l : list (N * A)) : list (N * A) := (k, x) :: del k l.

Definition with_dirs (w : world) d := mk_world d (w_ofds w) (w_next w) (w_envs w).
Definition with_env (w : world) h e := mk_world (w_dirs w) (w_ofds w) (w_next w) (put h e (w_envs w)).

(* main_init, main_prepare (main.c:50-115): nothing is set *)
Definition env_init (p : N) : env := mk_env p false None None None [] [] [] [] 0 [] None.

(* what a call answers: 0; -1 since flock(2) answers EWOULDBLOCK ("in use by another process"); -1 for any
   other reason *)
Inductive ret : Type := Done | Refused | Failed.

(* where an opening meets an error of its own: fs_mkdir of the directory (main.c:140-142), stat of the directory
   (file.h:53-60), open of the directory (file.h:62-65), flock (file.h:103-110), config.json (main.c:149-152),
   recovery of clouds, storages or partitions (main.c:231-235), the WAL (main.c:237-242), what comes
   after (main.c:244-252) *)
Inductive fault : Type := F_mkdir | F_stat | F_open | F_flock | F_conf | F_recover | F_wal | F_late.
Definition fault_eqb (a b : fault) : bool :=
  match a, b with
  | F_mkdir, F_mkdir | F_stat, F_stat | F_open, F_open | F_flock, F_flock
  | F_conf, F_conf | F_recover, F_recover | F_wal, F_wal | F_late, F_late => true
  | _, _ => false
  end.
Definition hits (f : option fault) (s : fault) : bool :=
  match f with Some g => fault_eqb g s | None => false end.

(* what the variables of an environment say: config_list_persistent (config.c:212-224) *)
Definition conf_of (e : env) : conf :=
  mk_conf (match e_uuid e with Some u => u | None => 0 end) (e_vclouds e) (e_vstorages e).

(* main_deploy, main.c:126-137: uuid_generate unless a uuid is set, then the directory *)
Definition set_place (e : env) (d u : N) : env :=
  mk_env (e_proc e) (e_online e) (Some d) (e_lock e)
         (Some (match e_uuid e with Some v => v | None => u end))
         (e_vclouds e) (e_vstorages e) (e_clouds e) (e_storages e) (e_lsn e) (e_ids e) (e_cur e).

Definition set_lock (e : env) (l : option N) : env :=
  mk_env (e_proc e) (e_online e) (e_dir e) l (e_uuid e)
         (e_vclouds e) (e_vstorages e) (e_clouds e) (e_storages e) (e_lsn e) (e_ids e) (e_cur e).

(* config_set_data (config.c:135-199): the values of config.json replace those of the variables *)
Definition set_conf (e : env) (c : conf) : env :=
  mk_env (e_proc e) (e_online e) (e_dir e) (e_lock e) (Some (c_uuid c))
         (c_clouds c) (c_storages c) (e_clouds e) (e_storages e) (e_lsn e) (e_ids e) (e_cur e).

(* storage "main" *)
Definition MAIN : N := 0.

(* cloud_mgr_open (cloud_mgr.c:84-105), storage_mgr_open (storage_mgr.c:62-85): each entry of the variable is
   appended to the list; storage_mgr_create_main (storage_mgr.c:87-114) *)
Definition set_catalog (e : env) : env :=
  let clouds := e_clouds e ++ e_vclouds e in
  let storages := e_storages e ++ e_vstorages e in
  let has := existsb (N.eqb MAIN) storages in
  let storages' := if has then storages else storages ++ [MAIN] in
  mk_env (e_proc e) (e_online e) (e_dir e) (e_lock e) (e_uuid e)
         (e_vclouds e) (if has then e_vstorages e else storages') clouds storages'
         (e_lsn e) (e_ids e) (e_cur e).

Definition set_wal (e : env) (lsn : N) (ids : list N) (cur : option (N * N * nat)) : env :=
  mk_env (e_proc e) (e_online e) (e_dir e) (e_lock e) (e_uuid e)
         (e_vclouds e) (e_vstorages e) (e_clouds e) (e_storages e) lsn ids cur.

Definition set_online (e : env) : env :=
  mk_env (e_proc e) true (e_dir e) (e_lock e) (e_uuid e)
         (e_vclouds e) (e_vstorages e) (e_clouds e) (e_storages e) (e_lsn e) (e_ids e) (e_cur e).

(* wal_rotate_ready with a limit of 0 (wal.c:45-49) *)
Definition rotate_ready (e : env) : bool :=
  match e_cur e with None => true | Some (_, _, size) => negb (Nat.eqb size 0) end.

(* wal_rotate (wal.c:51-97): file_create opens with O_CREAT, without O_EXCL and O_TRUNC (file.h:82-87), so a file
   of the name stays as it is, and is written from its start.  No file is made when wal/ is not there. *)
Definition rotate (w : world) (e : env) : world * env * ret :=
  if rotate_ready e then
    match e_dir e with
    | None => (w, e, Failed)
    | Some d =>
      match get d (w_dirs w) with
      | Some (mk_folder c (Some files)) =>
        let id := e_lsn e + 1 in
        let old := match file_of id files with Some b => b | None => [] end in
        (with_dirs w (put d (mk_folder c (Some (file_put id old files))) (w_dirs w)),
         set_wal e (e_lsn e) (wal_id_add id (e_ids e)) (Some (d, id, 0%nat)), Done)
      | _ => (w, e, Failed)
      end
    end
  else (w, e, Done).

(* wal_open and main_replay (wal.c:169-196, main.c:173-209): wal/ is made when it is not there; its files are added
   to the list; the last of the list is opened in the directory of the configuration, or a first file
   is made; each record read moves the lsn (write.c:192) *)
Definition start_wal (w : world) (e : env) (d : N) : world * env * ret :=
  match get d (w_dirs w) with
  | None => (w, e, Failed)
  | Some (mk_folder c o) =>
    let files := match o with Some l => l | None => [] end in
    let w1 := with_dirs w (put d (mk_folder c (Some files)) (w_dirs w)) in
    let ids := fold_left (fun l x => wal_id_add (fst x) l) files (e_ids e) in
    let e1 := set_wal e (e_lsn e) ids (e_cur e) in
    let '(w2, e2, r) :=
      match ids with
      | [] => rotate w1 e1
      | _ =>
        let id := wal_id_max ids in
        match file_of id files with
        | None => (w1, e1, Failed)
        | Some b => (w1, set_wal e1 (e_lsn e1) ids (Some (d, id, List.length b)), Done)
        end
      end in
    match r with
    | Done => (w2, set_wal e2 (fold_left N.max (flat_map snd files) (e_lsn e2)) (e_ids e2) (e_cur e2), Done)
    | _ => (w2, e2, r)
    end
  end.

(* flock(2) with LOCK_EX | LOCK_NB: refused when another open file description holds *)
Definition locked (w : world) (d : N) : bool :=
  existsb (fun o => o_lock o && (o_dir o =? d)%N) (w_ofds w).

(* monotone_open: main_deploy and main_start (main.c:117-171, 211-256).  A descriptor that lock_directory holds from
   before is overwritten and not closed (file.h:47-66). *)
Definition open_start (w : world) (e : env) (d u : N) (f : option fault) : world * env * ret :=
  let e1 := set_place e d u in
  let there := match get d (w_dirs w) with Some _ => true | None => false end in
  if negb there && hits f F_mkdir then (w, e1, Failed)
  else
    let w1 := if there then w else with_dirs w (put d (mk_folder None None) (w_dirs w)) in
    if hits f F_stat then (w1, e1, Failed)
    else if hits f F_open then (w1, set_lock e1 None, Failed)
    else
      let fd := w_next w1 in
      let e2 := set_lock e1 (Some fd) in
      let opened (b : bool) :=
        mk_world (w_dirs w1) (mk_ofd fd (e_proc e) d b :: w_ofds w1) (fd + 1) (w_envs w1) in
      if locked w1 d then (opened false, e2, Refused)
      else if hits f F_flock then (opened false, e2, Failed)
      else
        let w2 := opened true in
        if hits f F_conf then (w2, e2, Failed)
        else
          let '(w3, e3) :=
            match get d (w_dirs w2) with
            | Some (mk_folder (Some c) _) => (w2, set_conf e2 c)
            | Some (mk_folder None l) =>
              (with_dirs w2 (put d (mk_folder (Some (conf_of e2)) l) (w_dirs w2)), e2)
            | None => (w2, e2)
            end in
          let e4 := set_catalog e3 in
          if hits f F_recover then (w3, e4, Failed)
          else if hits f F_wal then (w3, e4, Failed)
          else
            let '(w5, e5, r) := start_wal w3 e4 d in
            match r with
            | Done => if hits f F_late then (w5, e5, Failed) else (w5, set_online e5, Done)
            | _ => (w5, e5, r)
            end.

(* main_control_save_config, config_save (main.c:26-34, config.c:254-272): config.json must be there to be renamed *)
Definition save_config (w : world) (e : env) : world * ret :=
  match e_dir e with
  | None => (w, Failed)
  | Some d =>
    match get d (w_dirs w) with
    | Some (mk_folder (Some _) l) =>
      (with_dirs w (put d (mk_folder (Some (conf_of e)) l) (w_dirs w)), Done)
    | _ => (w, Failed)
    end
  end.

(* CREATE CLOUD n: execute_cloud_create, cloud_mgr_create (execute.c:251-262, cloud_mgr.c:107-124) *)
Definition create_cloud (w : world) (e : env) (n : N) : world * env * ret :=
  if existsb (N.eqb n) (e_clouds e) then (w, e, Failed)
  else
    let clouds := e_clouds e ++ [n] in
    let e1 := mk_env (e_proc e) (e_online e) (e_dir e) (e_lock e) (e_uuid e)
                     clouds (e_vstorages e) clouds (e_storages e) (e_lsn e) (e_ids e) (e_cur e) in
    let '(w1, r) := save_config w e1 in (w1, e1, r).

(* CREATE STORAGE n: execute_storage_create, storage_mgr_create (execute.c:304-315, storage_mgr.c:186-208): a directory is
   made below that of the configuration first *)
Definition create_storage (w : world) (e : env) (n : N) : world * env * ret :=
  if existsb (N.eqb n) (e_storages e) then (w, e, Failed)
  else
    match e_dir e with
    | None => (w, e, Failed)
    | Some d =>
      match get d (w_dirs w) with
      | None => (w, e, Failed)
      | Some _ =>
        let storages := e_storages e ++ [n] in
        let e1 := mk_env (e_proc e) (e_online e) (e_dir e) (e_lock e) (e_uuid e)
                         (e_vclouds e) storages (e_clouds e) storages (e_lsn e) (e_ids e) (e_cur e) in
        let '(w1, r) := save_config w e1 in (w1, e1, r)
      end
    end.

(* monotone_write: engine_write with the WAL (write.c:74-138, wal.c:198-218).  A first partition needs a storage
   (storage_mgr.h:41-46), the WAL its file.  A file that has been unlinked takes the record with it. *)
Definition write (w : world) (e : env) : res (world * env * ret) :=
  match e_storages e with
  | [] => UB
  | _ =>
    match e_cur e with
    | None => UB
    | Some (d, id, size) =>
      let lsn := e_lsn e + 1 in
      let dirs :=
        match get d (w_dirs w) with
        | Some (mk_folder c (Some files)) =>
          match file_of id files with
          | Some b => put d (mk_folder c (Some (file_put id (overwrite size [lsn] b) files))) (w_dirs w)
          | None => w_dirs w
          end
        | _ => w_dirs w
        end in
      Ok (with_dirs w dirs, set_wal e lsn (e_ids e) (Some (d, id, S size)), Done)
    end
  end.

(* wal_gc (wal.c:99-125): each file leaves the directory of the configuration; the first that is not there ends it *)
Fixpoint unlink (ids : list N) (files : list (N * list N)) : list (N * list N) * ret :=
  match ids with
  | [] => (files, Done)
  | i :: r => match file_of i files with None => (files, Failed) | Some _ => unlink r (file_delete i files) end
  end.
Definition gc (w : world) (e : env) (min : N) : world * env * ret :=
  let '(gone, ids) := wal_id_gc_between min (e_ids e) in
  let e1 := set_wal e (e_lsn e) ids (e_cur e) in
  match gone with
  | [] => (w, e1, Done)
  | _ =>
    match e_dir e with
    | None => (w, e1, Failed)
    | Some d =>
      match get d (w_dirs w) with
      | Some (mk_folder c (Some files)) =>
        let '(files', r) := unlink gone files in
        (with_dirs w (put d (mk_folder c (Some files')) (w_dirs w)), e1, r)
      | _ => (w, e1, Failed)
      end
    end
  end.

(* monotone_free: main_stop and main_free (monotone.c:66-113, main.c:95-108, 258-270): file_close of lock_directory; closing the
   last descriptor of an open file description ends its lock *)
Definition release (w : world) (h : N) (e : env) : world :=
  let ofds :=
    match e_lock e with
    | Some fd => filter (fun o => negb (o_id o =? fd)%N) (w_ofds w)
    | None => w_ofds w
    end in
  mk_world (w_dirs w) ofds (w_next w) (del h (w_envs w)).

(* calls: by handle; monotone_init in process p; a process that ends closes everything it has open *)
Inductive call : Type :=
  | Init (p h : N)
  | Open (h d u : N) (f : option fault)
  | Cloud (h n : N)
  | Storage (h n : N)
  | Write (h : N)
  | Rotate (h : N)
  | Gc (h min : N)
  | Free (h : N)
  | Exit (p : N).

Definition by_handle (w : world) (h : N) (k : env -> res (world * env * ret)) : res (world * ret) :=
  match get h (w_envs w) with
  | None => UB
  | Some e =>
    match k e with
    | Ok (w1, e1, r) => Ok (with_env w1 h e1, r)
    | Err => Err
    | UB => UB
    end
  end.

(* a handle that is freed or was never made is no memory to look at (monotone.c:69) *)
Definition step (w : world) (c : call) : res (world * ret) :=
  match c with
  | Init p h =>
    match get h (w_envs w) with
    | Some _ => UB
    | None => Ok (with_env w h (env_init p), Done)
    end
  | Open h d u f => by_handle w h (fun e => Ok (open_start w e d u f))
  | Cloud h n => by_handle w h (fun e => Ok (create_cloud w e n))
  | Storage h n => by_handle w h (fun e => Ok (create_storage w e n))
  | Write h => by_handle w h (fun e => write w e)
  | Rotate h => by_handle w h (fun e => Ok (rotate w e))
  | Gc h min => by_handle w h (fun e => Ok (gc w e min))
  | Free h => match get h (w_envs w) with None => UB | Some e => Ok (release w h e, Done) end
  | Exit p =>
    Ok (mk_world (w_dirs w) (filter (fun o => negb (o_proc o =? p)%N) (w_ofds w)) (w_next w)
                 (filter (fun x => negb (e_proc (snd x) =? p)%N) (w_envs w)), Done)
  end.

(* calls one after another, with what each answers *)
Fixpoint run (w : world) (l : list call) : res (world * list (call * ret)) :=
  match l with
  | [] => Ok (w, [])
  | c :: r =>
    match step w c with
    | Ok (w1, a) =>
      match run w1 r with
      | Ok (w2, t) => Ok (w2, (c, a) :: t)
      | Err => Err
      | UB => UB
      end
    | Err => Err
    | UB => UB
    end
  end.

(* directories, and nothing open *)
Definition start (dirs : list (N * folder)) : world := mk_world dirs [] 0 [].
