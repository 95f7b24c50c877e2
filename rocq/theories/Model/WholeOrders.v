(* Statements about partitions given as texts in a database whose log and partition files are bytes.

   Sources: those of Orders.v and WholeDrops.v.
   Simplifications: those of both; what a refresh takes from elsewhere (the clock, the count of
   refreshes, memory behind keys) is given for each partition. *)
From Coq Require Import NArith ZArith List Bool.
Import ListNotations.
From Verif Require Import Model.Base Model.Show Model.Parse.
From Verif Require Import Model.Event Model.Memtable Model.Mapping Model.PartIter Model.Scan Model.File Model.Wal Model.Engine
  Model.Crash Model.Orders Model.Whole Model.WholeDrops.
Local Open Scope res_scope.

Section TEXTS.
Variable compress : N -> nat -> list byte -> list byte.
Variable decompress : N -> list byte -> N -> res (list byte).
Variable encrypt : N -> nat -> list byte -> list byte.
Variable decrypt : N -> list byte -> res (list byte).
Variable src : source.
Variable wal_crc : bool.

(* what is done, in order *)
Inductive bact : Type := BDo (o : eop) | BOffload (id : N).
(* op.c:164-237 with the mask ID: the file is removed and the index is cleared, the partition stays *)
Definition whole_offload (w : whole) (id : N) : whole :=
  match part_slice (en_map (wh_en w)) id with
  | None => w
  | Some s =>
      let p := s_data s in
      let k := (wh_home w (s_min s), s_min s) in
      let f := dget (wh_dir w) k in
      match pt_file p with
      | None => w
      | Some _ =>
          put_dir (put_bare w (with_en (bare w) (with_map (wh_en w)
              (ref_put (en_map (wh_en w)) (s_min s) (mk_part (pt_mem p) (pt_prev p) None 0)))))
            (dset (wh_dir w) k (mk_slot None (sl_inc f) (sl_comp f)))
      end
  end.
Definition bstep (w : whole) (a : bact) : res whole :=
  match a with
  | BDo o => estep compress decompress encrypt decrypt src wal_crc w o
  | BOffload id => Ok (whole_offload w id)
  end.
Fixpoint brun (w : whole) (l : list bact) : res whole :=
  match l with
  | [] => Ok w
  | a :: t => do w <- bstep w a; brun w t
  end.

Record breport : Type := mk_breport { bp_acts : list bact; bp_whole : whole; bp_end : outcome }.
Definition bperform (w : whole) (l : list bact) : res breport := do w' <- brun w l; Ok (mk_breport l w' Done).
Definition bnothing (w : whole) (o : outcome) : res breport := Ok (mk_breport [] w o).

(* engine_lock with LOCK_SERVICE *)
Definition bwith_part (w : whole) (id : N) (if_exists : bool) (k : slice part -> res breport) : res breport :=
  match part_slice (en_map (wh_en w)) id with
  | None => bnothing w (if if_exists then Done else Failed)
  | Some s => if existsb (fun j => (jb_ref j =? s_min s)%N) (wh_jobs w) then bnothing w Waits else k s
  end.

(* op.c:290-315 *)
Definition border_drop (mask : N) (w : whole) (id : N) (if_exists : bool) : res breport :=
  bwith_part w id if_exists (fun s =>
    if (mask =? N.lor ID ID_CLOUD)%N then bperform w [BDo (EDrop id)]
    else if has mask ID then bperform w [BOffload id]
    else bnothing w Done).

Variable names : list byte -> option N.
(* op.c:464-483, refresh.c:55-237 *)
Definition border_refresh (x : N -> extra) (to : option (list byte)) (w : whole) (id : N) (if_exists : bool) : res breport :=
  bwith_part w id if_exists (fun s =>
    let run st := bperform w (BDo (EDo (WBegin id st)) :: repeat (BDo (EDo (WStep (s_min s) (x (s_min s))))) 6) in
    match to with
    | None => run None
    | Some name =>
        match names name with
        | None => bnothing w Failed
        | Some st => if (st =? wh_home w (s_min s))%N then bnothing w Done else run (Some st)
        end
    end).

(* op.c:325-384, 394-454: no cloud is associated *)
Definition border_copy (if_cloud : bool) (w : whole) (id : N) (if_exists : bool) : res breport :=
  bwith_part w id if_exists (fun _ => bnothing w (if if_cloud then Done else Failed)).

(* op.c:317-323, 386-392, 456-462, 485-492 *)
Fixpoint border_loop (fuel : nat) (one : whole -> N -> bool -> res breport) (w : whole) (mn mx : N) : res breport :=
  match fuel with
  | O => bnothing w Endless
  | S fuel =>
      do r <- engine_foreach part_new (en_map (wh_en w)) mn mx;
      match r with
      | None => bnothing w Done
      | Some (id, next) =>
          do p <- one w id true;
          match bp_end p with
          | Done =>
              do q <- border_loop fuel one (bp_whole p) next mx;
              Ok (mk_breport (bp_acts p ++ bp_acts q) (bp_whole q) (bp_end q))
          | _ => Ok p
          end
      end
  end.
Definition border_range (one : whole -> N -> bool -> res breport) (w : whole) (mn mx : N) : res breport :=
  border_loop (S (length (mapping_list (en_map (wh_en w))))) one w mn mx.

(* execute.c:370-505 *)
Definition border (x : N -> extra) (w : whole) (c : cmd) : res breport :=
  match c with
  | CmdCreate mn mx =>
      match bstep w (BDo (EDo (WCreate mn mx))) with
      | Ok w' => Ok (mk_breport [BDo (EDo (WCreate mn mx))] w' Done)
      | Err => bnothing w Failed
      | UB => UB
      end
  | CmdDrop id ie mask => border_drop mask w id ie
  | CmdDropRange mn mx mask => border_range (border_drop mask) w mn mx
  | CmdMove id ie name => border_refresh x (Some name) w id ie
  | CmdMoveRange mn mx name => border_range (border_refresh x (Some name)) w mn mx
  | CmdRefresh id ie => border_refresh x None w id ie
  | CmdRefreshRange mn mx => border_range (border_refresh x None) w mn mx
  | CmdDownload id ie ic | CmdUpload id ie ic => border_copy ic w id ie
  | CmdDownloadRange mn mx ic | CmdUploadRange mn mx ic => border_range (border_copy ic) w mn mx
  | _ => bnothing w Done
  end.

Variable strtod : list byte -> option (N * nat).
Variable e : env.
(* execute.c:535-590 *)
Definition btell (x : N -> extra) (w : whole) (text : list byte) : res breport :=
  match parse strtod (mk_env (en_uuid e) (en_key e) (en_compression e) (en_level e) (en_interval (wh_en w))) text with
  | UB => UB
  | Err => bnothing w Failed
  | Ok None => bnothing w Done
  | Ok (Some c) => border x w c
  end.

(* histories: a text, a text in which the process stops when [n] things are done, and all else *)
Inductive top : Type :=
| TSay (x : N -> extra) (text : list byte)
| TStop (x : N -> extra) (text : list byte) (n : nat) (cuts : list nat) (ids : list N)
| TElse (o : eop).
Definition tstep (w : whole) (h : top) : res whole :=
  match h with
  | TSay x text => do r <- btell x w text; Ok (bp_whole r)
  | TStop x text n cuts ids =>
      do r <- btell x w text;
      do w' <- brun w (firstn n (bp_acts r));
      bstep w' (BDo (EStop cuts ids))
  | TElse o =>
      match bstep w (BDo o) with
      | Err => if estops o then Err else Ok w
      | r => r
      end
  end.
Fixpoint trun (w : whole) (l : list top) : res whole :=
  match l with
  | [] => Ok w
  | h :: t => do w <- tstep w h; trun w t
  end.
End TEXTS.
