(* Histories with restarts whose memory tables outgrow one page. *)
From Coq Require Import NArith ZArith List Bool.
Import ListNotations.
From Verif Require Import Model.Base Model.Event Model.Memtable Model.Mapping Model.PartIter
  Model.Codec Model.Scan Model.Engine Model.Crash Spec.Order Spec.Layout Spec.Regions Spec.View Spec.Engine
  Spec.Grow Spec.Crash.

(* the log can be replayed: each record has room in the page of a partition or comes behind its table *)
Fixpoint refill_fine (lo : N) (en : engine) (l : list lrec) : Prop :=
  match l with
  | [] => True
  | LWrite lsn evs :: t =>
      Forall (loadable lo en) evs /\ fits_pages (en_map en) evs /\
      match engine_write_replay en lsn evs with
      | Ok en' => refill_fine lo en' t
      | _ => True
      end
  | LDrop _ _ :: _ => False
  end.
Definition reopen_fine (lo : N) (b : db) (d : dir) (log : list lrec) : Prop :=
  match engine_recover (db_en b) (db_storages b) d with
  | Ok (en, _) => refill_fine lo en log
  | _ => True
  end.

(* as cop_fine, with batches that fit in tables of any number of pages *)
Definition rop_fine (lo : N) (b : db) (o : cop) : Prop :=
  let en := db_en b in
  match o with
  | CWrite l _ => try_fine lo en l /\ (en_lsn en < u64_max)%N
  | CCrash cuts =>
      match interrupted (db_storages b) (db_dir b) cuts with
      | Ok d => reopen_fine lo b d (db_log b)
      | _ => True
      end
  | CCrashIn l whole =>
      try_fine lo en l /\ (en_lsn en < u64_max)%N /\
      reopen_fine lo b (db_dir b)
        (match engine_write en l true with
         | Ok (_, Some evs) => if whole then db_log b ++ [write_rec b evs] else db_log b
         | _ => db_log b
         end)
  | _ => cop_fine lo b o
  end.
Fixpoint rhist_fine (lo : N) (b : db) (l : list cop) : Prop :=
  match l with
  | [] => True
  | o :: t =>
      rop_fine lo b o /\ match cstep b o with
                         | Ok b' => rhist_fine lo b' t
                         | _ => rhist_fine lo b t
                         end
  end.

(* a state after such a history; h: the acknowledged events *)
Definition refilled (lo : N) (b : db) (h : list event) : Prop :=
  exists storages iv serial page region ops,
    limits lo iv /\ storages_ok storages /\
    rhist_fine lo (db_new storages iv serial page region) ops /\
    crun (db_new storages iv serial page region) ops = Ok b /\
    h = cacked (db_new storages iv serial page region) ops [].

(* ingestion in order: every batch comes behind all that is acknowledged (h), whatever is in the tables; no
   condition on starts; refreshes, moves and collections of the log as in cop_fine *)
Definition next_batch (lo : N) (b : db) (h : list event) (l : list warg) : Prop :=
  let en := db_en b in
  let evs := assigned (en_serial en) (en_ssn en) l in
  Forall (fun a => wa_mem a = MemOk) l /\
  (exists a t, l = a :: t /\ length (ev_key (wa_event a)) <= 255) /\
  Forall (loadable lo en) evs /\ ascending (h ++ evs) /\ (en_lsn en < u64_max)%N.
Definition flow_op (lo : N) (b : db) (h : list event) (o : cop) : Prop :=
  match o with
  | CWrite l _ => next_batch lo b h l
  | CCrashIn l _ => next_batch lo b h l
  | CCrash _ => True
  | CInterval n => cop_fine lo b o /\ Forall (loadable lo (with_interval (db_en b) n)) h
  | _ => cop_fine lo b o
  end.
Fixpoint flow_hist (lo : N) (b : db) (h : list event) (l : list cop) : Prop :=
  match l with
  | [] => True
  | o :: t =>
      flow_op lo b h o /\
      match cstep b o with
      | Ok b' => flow_hist lo b' (cack_step b o h) t
      | _ => flow_hist lo b (cack_step b o h) t
      end
  end.
