(* Histories of a database whose log and partition files are bytes: within the limits of the code,
   and what is acknowledged. *)
From Coq Require Import NArith ZArith List Bool Permutation.
Import ListNotations.
From Verif Require Import Model.Base Model.Event Model.Memtable Model.Mapping Model.PartIter
  Model.Codec Model.Scan Model.File Model.Wal Model.Engine Spec.Order Spec.Layout Spec.Regions
  Spec.View Spec.Engine Spec.FileLimits Spec.Log.
From Verif Require Import Model.Crash Spec.Crash Model.Whole.

Section Whole.
Variable compress : N -> nat -> list byte -> list byte.
Variable decompress : N -> list byte -> N -> res (list byte).
Variable encrypt : N -> nat -> list byte -> list byte.
Variable decrypt : N -> list byte -> res (list byte).
Variable src : source.
Variable wal_crc : bool.
Let step := wstep compress decompress encrypt decrypt src wal_crc.

(* the database with its files and its log as they read back: the limits are those of Spec/Crash.v *)
Definition as_read (w : whole) : db :=
  mk_db (wh_en w) (wh_storages w) (wh_home w) (dir_content decompress decrypt (wh_dir w))
    (match log_writes (fst (wal_read wal_crc (wl_files (wh_wal w)) (wl_list (wh_wal w)))) with
     | Ok l => l
     | _ => []
     end) (wh_jobs w).

Definition lsn_room (w : whole) : Prop := (en_lsn (wh_en w) + 3 < 2 ^ 64)%N.
(* the record of a batch: not empty, less than 2^31 bytes, and with checksums the memory behind the
   events stays as it is while the batch is logged *)
Definition record_fine (w : whole) (l : list warg) (m : list (list byte * list byte)) : Prop :=
  match engine_write (wh_en w) l true with
  | Ok (_, Some evs) => batch_ok (entries evs m) /\ (wal_crc = true -> Forall stable (entries evs m))
  | _ => True
  end.
Definition the_record (w : whole) (l : list warg) (m : list (list byte * list byte)) : list byte :=
  match engine_write (wh_en w) l true with
  | Ok (_, Some evs) => log_record wal_crc (w64 (en_lsn (wh_en w) + 1)) (entries evs m)
  | _ => []
  end.
Definition complete_record (w : whole) (l : list warg) (m : list (list byte * list byte)) (n : nat) : bool :=
  (length (the_record w l m) <=? n)%nat.
(* the new file of a refresh *)
Definition new_fine (w : whole) (ref : N) (x : extra) : Prop :=
  lsn_room w /\ (ex_refreshes x < 2 ^ 32 /\ ex_create x < 2 ^ 64 /\ ex_refresh x < 2 ^ 64)%N /\
  forall s l f, ref_slice (en_map (wh_en w)) ref = Ok s -> merger_events (s_data s) = Ok l ->
    new_bytes compress encrypt src s x = Ok f ->
    Forall mev_ok (behind [] l (ex_memory x)) /\ small f l.
(* the log can be listed and read by a start *)
Definition log_fine (w : whole) (more : list byte) (ids : list N) : Prop :=
  lsn_room w /\ Permutation ids (wl_list (wh_wal w)) /\
  Forall (fun f => N.of_nat (length (snd f) + length more) + 21 < 2 ^ 32)%N (wl_files (wh_wal w)).
(* the directory when the new file of a refresh is empty *)
Definition begun (w : whole) (ref : N) : whole :=
  match find (fun j => (jb_ref j =? ref)%N) (wh_jobs w) with
  | Some j =>
      let t := dget (wh_dir w) (jb_to j, ref) in
      put_dir w (dset (wh_dir w) (jb_to j, ref) (mk_slot (sl_id t) (Some []) (sl_comp t)))
  | None => w
  end.

(* [clean]: the log does not end in a part of a record. Batches after such a part are lost (C23,
   C90_torn_refuted). *)
Definition wop_fine (lo : N) (w : whole) (clean : bool) (o : wop) : Prop :=
  match o with
  | WWrite l m fail =>
      clean = true /\ lsn_room w /\ cop_fine lo (as_read w) (CWrite l true) /\ record_fine w l m /\
      match fail with Some n => n = 0 | None => True end
  | WBegin id to => cop_fine lo (as_read w) (CBegin id to)
  | WStep ref x =>
      cop_fine lo (as_read w) (CStep ref) /\
      forall j, find (fun j => (jb_ref j =? ref)%N) (wh_jobs w) = Some j -> jb_stage j = 1 -> new_fine w ref x
  | WFail ref => cop_fine lo (as_read w) (CFail ref)
  | WRotate _ => clean = true /\ lsn_room w
  | WGc => clean = true /\ cop_fine lo (as_read w) (CGc 0)
  | WCreate mn mx => cop_fine lo (as_read w) (CCreate mn mx)
  | WInterval n => cop_fine lo (as_read w) (CInterval n)
  | WCrash cuts ids => log_fine w [] ids /\ cop_fine lo (as_read w) (CCrash cuts)
  | WCrashIn l m n ids =>
      clean = true /\ record_fine w l m /\ log_fine w (the_record w l m) ids /\
      cop_fine lo (as_read w) (CCrashIn l (complete_record w l m n))
  | WCrashFile ref x n cuts ids =>
      log_fine w [] ids /\
      (forall j, find (fun j => (jb_ref j =? ref)%N) (wh_jobs w) = Some j -> jb_stage j = 1) /\
      cop_fine lo (as_read (begun w ref)) (CCrash cuts)
  end.
Definition clean_after (w : whole) (clean : bool) (o : wop) : bool :=
  match o with
  | WCrashIn l m n _ => clean && ((n =? 0)%nat || complete_record w l m n)
  | _ => clean
  end.
Fixpoint whist_fine (lo : N) (w : whole) (clean : bool) (l : list wop) : Prop :=
  match l with
  | [] => True
  | o :: t =>
      wop_fine lo w clean o /\
      match step w o with
      | Ok w' => whist_fine lo w' (clean_after w clean o) t
      | _ => whist_fine lo w clean t
      end
  end.

(* acknowledged events, and those of a batch whose record is complete in the log *)
Definition wack_step (w : whole) (o : wop) (h : list event) : list event :=
  let en := wh_en w in
  match o with
  | WWrite l _ fail =>
      match engine_write en l true, fail with
      | Ok (_, Some _), None => h ++ assigned (en_serial en) (en_ssn en) l
      | _, _ => h
      end
  | WCrashIn l m n _ =>
      match engine_write en l true with
      | Ok (_, Some _) => if complete_record w l m n then h ++ assigned (en_serial en) (en_ssn en) l else h
      | _ => h
      end
  | _ => h
  end.
Fixpoint wacked (w : whole) (l : list wop) (h : list event) : list event :=
  match l with
  | [] => h
  | o :: t =>
      let h := wack_step w o h in
      match step w o with
      | Ok w' => wacked w' t h
      | _ => wacked w t h
      end
  end.
Fixpoint clean_run (w : whole) (clean : bool) (l : list wop) : bool :=
  match l with
  | [] => clean
  | o :: t => match step w o with
              | Ok w' => clean_run w' (clean_after w clean o) t
              | _ => clean_run w clean t
              end
  end.

(* what readers see *)
Definition wsees (w : whole) (e : event) : Prop := visible (parts (wh_en w)) e.
Definition wreachable (lo : N) (w : whole) (clean : bool) (h : list event) : Prop :=
  exists storages iv serial page ops,
    limits lo iv /\ storages_ok storages /\
    whist_fine lo (whole_new src storages iv serial page) true ops /\
    wrun compress decompress encrypt decrypt src wal_crc (whole_new src storages iv serial page) ops = Ok w /\
    clean = clean_run (whole_new src storages iv serial page) true ops /\
    h = wacked (whole_new src storages iv serial page) ops [].
(* stops and starts only *)
Definition wrestart_op (o : wop) : Prop := match o with WCrash _ _ => True | _ => False end.
End Whole.
