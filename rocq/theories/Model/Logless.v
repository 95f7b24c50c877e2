(* Runs with and without the log (the setting "wal", given at each start). *)
From Coq Require Import NArith List Bool.
Import ListNotations.
From Verif Require Import Model.Base Model.Event Model.Memtable Model.Mapping Model.PartIter Model.Engine Model.Crash.
Local Open Scope res_scope.

(* a database and the setting of this run (config.c:99; it is not among the settings that SET may change) *)
Record wdb : Type := mk_wdb { w_db : db; w_wal : bool }.

Inductive wop : Type :=
| WWrite (l : list warg)
| WBegin (id : N) (to : option N)
| WStep (ref : N)
| WFail (ref : N)
| WGc (k : nat)
| WDrop (id : N)
| WCreate (mn mx : N)
| WInterval (n : N)
| WStart (cuts : list nat) (wal : bool).   (* stop, interrupted starts, and a start with this setting *)

(* op.c:239-288 with wal off: nothing is logged and no number is taken (op.c:276) *)
Definition drop_nolog (b : db) (id : N) : res db :=
  match part_slice (en_map (db_en b)) id with
  | None => Ok b
  | Some s =>
      do en <- engine_drop (db_en b) id;
      let k := (db_home b (s_min s), s_min s) in
      let f := dget (db_dir b) k in
      Ok (mk_db en (db_storages b) (db_home b) (dset (db_dir b) k (mk_slot None (sl_inc f) (sl_comp f)))
            (db_log b) (db_jobs b))
  end.

(* main.c:233-248 with wal off: the log is not read, and stays where it is *)
Definition start_nolog (en : engine) (storages : list N) (d : dir) (log : list lrec) : res db :=
  do r <- engine_recover en storages d;
  let '(en, d) := r in
  Ok (mk_db (if en_serial en then engine_set_serial en else en) storages
        (home_of (worklist storages d) (hd 0%N storages)) d log []).

Definition as_cop (o : wop) : cop :=
  match o with
  | WWrite l => CWrite l true
  | WBegin id to => CBegin id to
  | WStep ref => CStep ref
  | WFail ref => CFail ref
  | WGc k => CGc k
  | WDrop id => CDrop id
  | WCreate mn mx => CCreate mn mx
  | WInterval n => CInterval n
  | WStart cuts _ => CCrash cuts
  end.

Definition wstep (w : wdb) (o : wop) : res wdb :=
  let b := w_db w in
  match o with
  | WStart cuts wal =>
      do d <- interrupted (db_storages b) (db_dir b) cuts;
      do b <- (if wal then main_start (db_en b) (db_storages b) d (db_log b)
               else start_nolog (db_en b) (db_storages b) d (db_log b));
      Ok (mk_wdb b wal)
  | _ =>
      if w_wal w then do b <- cstep b (as_cop o); Ok (mk_wdb b true)
      else
        do b <- (match o with
                 (* write.c:122-126 *)
                 | WWrite l => do r <- engine_write (db_en b) l true; Ok (with_en b (fst r))
                 (* op.c:621 *)
                 | WGc _ => Ok b
                 | WDrop id =>
                     if existsb (fun j => match part_slice (en_map (db_en b)) id with
                                          | Some s => (jb_ref j =? s_min s)%N | None => false end) (db_jobs b)
                     then Err else drop_nolog b id
                 | _ => cstep b (as_cop o)
                 end);
        Ok (mk_wdb b false)
  end.
(* refused commands change nothing; a database that does not open ends the history *)
Fixpoint wrun (w : wdb) (l : list wop) : res wdb :=
  match l with
  | [] => Ok w
  | o :: t =>
      match wstep w o with
      | Ok w => wrun w t
      | Err => match o with WStart _ _ => Err | _ => wrun w t end
      | UB => UB
      end
  end.
