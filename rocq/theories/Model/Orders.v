(* Statements about partitions given as texts, and what they do to partitions, files and the log.

   Sources: /repo/monotone/main/main/execute.c:370-505 (statements about partitions), 535-590 (main_execute);
   /repo/monotone/engine/engine/op.c:145-162 (engine_foreach), 164-237 (engine_drop_file), 290-323,
   325-492 (engine_download, engine_upload, engine_refresh and their ranges); refresh.c:55-118, 201-237.
   Simplifications: no cloud, so no partition has ID_CLOUD and no cloud is set; a partition is locked
   for service while a refresh of it is on its way, a statement that needs it waits; what CHECKPOINT,
   SERVICE and REBALANCE start is given as steps of Crash.v; SET and statements about storages are in
   Session.v. *)
From Coq Require Import NArith ZArith List Bool.
Import ListNotations.
From Verif Require Import Model.Base Model.Show Model.Parse.
From Verif Require Import Model.Event Model.Memtable Model.Mapping Model.PartIter Model.Scan Model.Engine Model.Crash.
Local Open Scope res_scope.

(* what is done to the database, in order: the steps of Crash.v, and the removal of a file alone *)
Inductive act : Type := Do (o : cop) | Offload (id : N).

(* op.c:164-237 with the mask ID: the file is removed and the index is cleared, the partition stays *)
Definition db_offload (b : db) (id : N) : db :=
  match part_slice (en_map (db_en b)) id with
  | None => b
  | Some s =>
      let p := s_data s in
      let k := (db_home b (s_min s), s_min s) in
      let f := dget (db_dir b) k in
      match pt_file p with
      | None => b
      | Some _ =>
          with_dir (with_en b (with_map (db_en b)
              (ref_put (en_map (db_en b)) (s_min s) (mk_part (pt_mem p) (pt_prev p) None 0))))
            (dset (db_dir b) k (mk_slot None (sl_inc f) (sl_comp f)))
      end
  end.
Definition astep (b : db) (a : act) : res db :=
  match a with Do o => cstep b o | Offload id => Ok (db_offload b id) end.
Fixpoint arun (b : db) (l : list act) : res db :=
  match l with
  | [] => Ok b
  | a :: t => do b <- astep b a; arun b t
  end.

(* Endless: a loop over partitions that does not end *)
Inductive outcome : Type := Done | Failed | Waits | Endless.
Record report : Type := mk_report { rp_acts : list act; rp_db : db; rp_end : outcome }.
Definition perform (b : db) (l : list act) : res report := do b' <- arun b l; Ok (mk_report l b' Done).
Definition nothing (b : db) (o : outcome) : res report := Ok (mk_report [] b o).

(* engine_lock with LOCK_SERVICE: the partition of [id], or an error, or a wait *)
Definition with_part (b : db) (id : N) (if_exists : bool) (k : slice part -> res report) : res report :=
  match part_slice (en_map (db_en b)) id with
  | None => nothing b (if if_exists then Done else Failed)
  | Some s => if existsb (fun j => (jb_ref j =? s_min s)%N) (db_jobs b) then nothing b Waits else k s
  end.

(* op.c:290-315 *)
Definition order_drop (mask : N) (b : db) (id : N) (if_exists : bool) : res report :=
  with_part b id if_exists (fun s =>
    if (mask =? N.lor ID ID_CLOUD)%N then perform b [Do (CDrop id)]
    else if has mask ID then perform b [Offload id]
    else nothing b Done).

Section NAMES.
(* storage_mgr_find: the storage of a name *)
Variable names : list byte -> option N.

(* op.c:464-483, refresh.c:55-237: six steps after the beginning, none if the storage is the same *)
Definition order_refresh (to : option (list byte)) (b : db) (id : N) (if_exists : bool) : res report :=
  with_part b id if_exists (fun s =>
    let run st := perform b (Do (CBegin id st) :: repeat (Do (CStep (s_min s))) 6) in
    match to with
    | None => run None
    | Some name =>
        match names name with
        | None => nothing b Failed
        | Some st => if (st =? db_home b (s_min s))%N then nothing b Done else run (Some st)
        end
    end).

(* op.c:325-384, 394-454: no cloud is associated *)
Definition order_copy (if_cloud : bool) (b : db) (id : N) (if_exists : bool) : res report :=
  with_part b id if_exists (fun _ => nothing b (if if_cloud then Done else Failed)).

(* op.c:317-323, 386-392, 456-462, 485-492: a loop over a range goes on while there are partitions; one
   round more than there are partitions comes to some partition again *)
Fixpoint order_loop (fuel : nat) (one : db -> N -> bool -> res report) (b : db) (mn mx : N) : res report :=
  match fuel with
  | O => nothing b Endless
  | S fuel =>
      do r <- engine_foreach part_new (en_map (db_en b)) mn mx;
      match r with
      | None => nothing b Done
      | Some (id, next) =>
          do p <- one b id true;
          match rp_end p with
          | Done =>
              do q <- order_loop fuel one (rp_db p) next mx;
              Ok (mk_report (rp_acts p ++ rp_acts q) (rp_db q) (rp_end q))
          | _ => Ok p
          end
      end
  end.
Definition order_range (one : db -> N -> bool -> res report) (b : db) (mn mx : N) : res report :=
  order_loop (S (length (mapping_list (en_map (db_en b))))) one b mn mx.

(* execute.c:370-505 *)
Definition order (b : db) (c : cmd) : res report :=
  match c with
  | CmdCreate mn mx =>
      match cstep b (CCreate mn mx) with
      | Ok b' => Ok (mk_report [Do (CCreate mn mx)] b' Done)
      | Err => nothing b Failed
      | UB => UB
      end
  | CmdDrop id ie mask => order_drop mask b id ie
  | CmdDropRange mn mx mask => order_range (order_drop mask) b mn mx
  | CmdMove id ie name => order_refresh (Some name) b id ie
  | CmdMoveRange mn mx name => order_range (order_refresh (Some name)) b mn mx
  | CmdRefresh id ie => order_refresh None b id ie
  | CmdRefreshRange mn mx => order_range (order_refresh None) b mn mx
  | CmdDownload id ie ic | CmdUpload id ie ic => order_copy ic b id ie
  | CmdDownloadRange mn mx ic | CmdUploadRange mn mx ic => order_range (order_copy ic) b mn mx
  | _ => nothing b Done
  end.

Section TEXTS.
Variable strtod : list byte -> option (N * nat).
(* what the parser takes from elsewhere; the interval is that of the database *)
Variable e : env.
Definition env_at (b : db) : env :=
  mk_env (en_uuid e) (en_key e) (en_compression e) (en_level e) (en_interval (db_en b)).

(* execute.c:535-590 *)
Definition tell (b : db) (text : list byte) : res report :=
  match parse strtod (env_at b) text with
  | UB => UB
  | Err => nothing b Failed
  | Ok None => nothing b Done
  | Ok (Some c) => order b c
  end.

(* histories: a text, a text in which the process stops when [n] things are done, and all else *)
Inductive hop : Type := Say (text : list byte) | SayStop (text : list byte) (n : nat) (cuts : list nat) | Else (o : cop).
Definition hstep (b : db) (h : hop) : res db :=
  match h with
  | Say text => do r <- tell b text; Ok (rp_db r)
  | SayStop text n cuts =>
      do r <- tell b text;
      do b' <- arun b (firstn n (rp_acts r));
      cstep b' (CCrash cuts)
  | Else o => match cstep b o with Err => if stops o then Err else Ok b | r => r end
  end.
Fixpoint hrun (b : db) (l : list hop) : res db :=
  match l with
  | [] => Ok b
  | h :: t => do b <- hstep b h; hrun b t
  end.
End TEXTS.
End NAMES.
