(* Histories with DROP PARTITION and restarts in which dropped intervals are not used again. *)
From Coq Require Import NArith ZArith List Bool.
Import ListNotations.
From Verif Require Import Model.Base Model.Event Model.Memtable Model.Mapping Model.PartIter
  Model.Codec Model.Scan Model.Engine Model.Crash Spec.Order Spec.Layout Spec.Regions Spec.View Spec.Engine Spec.Crash.

Definition inb (r : range) (id : N) : bool := ((fst r <=? id) && (id <=? snd r))%N.
(* R: the ranges of dropped partitions *)
Definition gone (R : list range) (id : N) : bool := existsb (fun r => inb r id) R.

(* the log can be replayed: memory tables of one page, numbers left for the drops *)
Fixpoint dreplay_fine (lo : N) (b : db) (l : list lrec) : Prop :=
  match l with
  | [] => True
  | LWrite lsn evs :: t =>
      Forall (loadable lo (db_en b)) evs /\ room (en_map (db_en b)) (length evs) /\
      match engine_write_replay (db_en b) lsn evs with
      | Ok en => dreplay_fine lo (with_en b en) t
      | _ => True
      end
  | LDrop _ id :: t =>
      (en_lsn (db_en b) < u64_max)%N /\
      match db_drop b id with Ok b => dreplay_fine lo b t | _ => True end
  end.
Definition drestart_fine (lo : N) (b : db) (d : dir) (log : list lrec) : Prop :=
  match engine_recover (db_en b) (db_storages b) d with
  | Ok (en, d) =>
      dreplay_fine lo (mk_db en (db_storages b) (home_of (worklist (db_storages b) d) (hd 0%N (db_storages b))) d log []) log
  | _ => True
  end.

Definition unused (R : list range) (en : engine) (l : list warg) : Prop :=
  Forall (fun e => gone R (ev_id e) = false) (assigned (en_serial en) (en_ssn en) l).

Definition dop_fine (lo : N) (R : list range) (b : db) (o : cop) : Prop :=
  let en := db_en b in
  match o with
  | CWrite l _ => batch_fine lo en l /\ (en_lsn en < u64_max)%N /\ unused R en l
  | CBegin _ _ | CStep _ | CFail _ | CGc _ => cop_fine lo b o
  (* no failed refresh of the partition before *)
  | CDrop id => (lo <= id < lo + 2^31)%N /\ (en_lsn en < u64_max)%N /\
      forall s, In s (mapping_list (en_map en)) -> in_range id (range_of s) -> ~ leftover b (s_min s)
  | CCrashDrop _ => False
  (* one interval *)
  | CCreate mn mx => (mn <= mx)%N ->
      near lo (mn, mx) /\ (mn, mx) = cell (en_interval en) mn /\ gone R mn = false
  | CInterval n => n = en_interval en
  | CCrash cuts =>
      match interrupted (db_storages b) (db_dir b) cuts with
      | Ok d => drestart_fine lo b d (db_log b)
      | _ => True
      end
  | CCrashIn l whole =>
      batch_fine lo en l /\ (en_lsn en < u64_max)%N /\ unused R en l /\
      drestart_fine lo b (db_dir b)
        (match engine_write en l true with
         | Ok (_, Some evs) => if whole then db_log b ++ [write_rec b evs] else db_log b
         | _ => db_log b
         end)
  end.

(* the range that a command drops when it succeeds *)
Definition dropped (b : db) (o : cop) : list range :=
  match o with
  | CDrop id => match part_slice (en_map (db_en b)) id with Some s => [range_of s] | None => [] end
  | _ => []
  end.
Fixpoint dhist_fine (lo : N) (R : list range) (b : db) (l : list cop) : Prop :=
  match l with
  | [] => True
  | o :: t =>
      dop_fine lo R b o /\ match cstep b o with
                           | Ok b' => dhist_fine lo (dropped b o ++ R) b' t
                           | _ => dhist_fine lo R b t
                           end
  end.
(* the ranges dropped in a history *)
Fixpoint all_dropped (R : list range) (b : db) (l : list cop) : list range :=
  match l with
  | [] => R
  | o :: t => match cstep b o with
              | Ok b' => all_dropped (dropped b o ++ R) b' t
              | _ => all_dropped R b t
              end
  end.
(* acknowledged events that are not dropped *)
Fixpoint dacked (b : db) (l : list cop) (h : list event) : list event :=
  match l with
  | [] => h
  | o :: t =>
      let h := cack_step b o h in
      match cstep b o with
      | Ok b' => dacked b' t (filter (fun e => negb (gone (dropped b o) (ev_id e))) h)
      | _ => dacked b t h
      end
  end.

(* a state of the database after such a history *)
Definition dreachable (lo : N) (R : list range) (b : db) (h : list event) : Prop :=
  exists storages iv serial page region ops,
    limits lo iv /\ storages_ok storages /\
    dhist_fine lo [] (db_new storages iv serial page region) ops /\
    crun (db_new storages iv serial page region) ops = Ok b /\
    R = all_dropped [] (db_new storages iv serial page region) ops /\
    h = dacked (db_new storages iv serial page region) ops [].
