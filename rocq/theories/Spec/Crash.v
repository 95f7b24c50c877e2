(* Histories with restarts within the limits of the code, and what is acknowledged. *)
From Coq Require Import NArith ZArith List Bool.
Import ListNotations.
From Verif Require Import Model.Base Model.Event Model.Memtable Model.Mapping Model.PartIter
  Model.Codec Model.Scan Model.Engine Model.Crash Spec.Order Spec.Layout Spec.Regions Spec.View Spec.Engine.

(* an event that recovery can load: its size with the key counted twice fits in a page *)
Definition loadable (lo : N) (en : engine) (e : event) : Prop :=
  ev_ok e /\ win lo e /\ (event_size e <= en_page en)%N /\
  near lo (cell (en_interval en) (ev_id e)).

(* the log can be replayed: memory tables of one page on the way *)
Fixpoint replay_fine (lo : N) (en : engine) (l : list lrec) : Prop :=
  match l with
  | [] => True
  | LWrite lsn evs :: t =>
      Forall (loadable lo en) evs /\ room (en_map en) (length evs) /\
      match engine_write_replay en lsn evs with
      | Ok en' => replay_fine lo en' t
      | _ => True
      end
  | LDrop _ _ :: _ => False
  end.
Definition restart_fine (lo : N) (b : db) (d : dir) (log : list lrec) : Prop :=
  match engine_recover (db_en b) (db_storages b) d with
  | Ok (en, _) => replay_fine lo en log
  | _ => True
  end.

Definition leftover (b : db) (mn : N) : Prop :=
  exists st, sl_inc (dget (db_dir b) (st, mn)) <> None.

Definition cop_fine (lo : N) (b : db) (o : cop) : Prop :=
  let en := db_en b in
  match o with
  | CWrite l _ => batch_fine lo en l /\ (en_lsn en < u64_max)%N
  | CBegin id to => (lo <= id < lo + 2^31)%N /\
      (match to with Some st => In st (db_storages b) | None => True end) /\
      (* no failed refresh before, or one that goes on *)
      forall s, In s (mapping_list (en_map en)) -> in_range id (range_of s) ->
        (exists j, In j (db_jobs b) /\ jb_ref j = s_min s) \/
        (mt_events (pt_prev (s_data s)) = [] /\ ~ leftover b (s_min s))
  | CStep ref => forall s, In s (mapping_list (en_map en)) -> s_min s = ref ->
      (region_weight (concat (contents (s_data s))) < 2^32)%N
  (* an error before the new partition is in use *)
  | CFail ref => forall j, In j (db_jobs b) -> jb_ref j = ref -> jb_stage j <= 2
  (* no refresh between using the new partition and removing the old file *)
  | CGc _ => forall j, In j (db_jobs b) -> jb_stage j <= 2 \/ jb_stage j = 5
  | CDrop _ | CCrashDrop _ => False
  | CCreate mn mx => (mn <= mx)%N -> near lo (mn, mx)
  | CInterval n => (0 < n <= u64_max)%N
  | CCrash cuts =>
      match interrupted (db_storages b) (db_dir b) cuts with
      | Ok d => restart_fine lo b d (db_log b)
      | _ => True
      end
  | CCrashIn l whole =>
      batch_fine lo en l /\ (en_lsn en < u64_max)%N /\
      restart_fine lo b (db_dir b)
        (match engine_write en l true with
         | Ok (_, Some evs) => if whole then db_log b ++ [write_rec b evs] else db_log b
         | _ => db_log b
         end)
  end.
Fixpoint chist_fine (lo : N) (b : db) (l : list cop) : Prop :=
  match l with
  | [] => True
  | o :: t =>
      cop_fine lo b o /\ match cstep b o with
                         | Ok b' => chist_fine lo b' t
                         | _ => chist_fine lo b t
                         end
  end.

(* acknowledged events, and those of a batch whose record is complete in the log *)
Definition cack_step (b : db) (o : cop) (h : list event) : list event :=
  let en := db_en b in
  match o with
  | CWrite l logged =>
      match engine_write en l logged with
      | Ok (_, Some _) => h ++ assigned (en_serial en) (en_ssn en) l
      | _ => h
      end
  | CCrashIn l whole =>
      match engine_write en l true with
      | Ok (_, Some _) => if whole then h ++ assigned (en_serial en) (en_ssn en) l else h
      | _ => h
      end
  | _ => h
  end.
Fixpoint cacked (b : db) (l : list cop) (h : list event) : list event :=
  match l with
  | [] => h
  | o :: t =>
      let h := cack_step b o h in
      match cstep b o with
      | Ok b' => cacked b' t h
      | _ => cacked b t h
      end
  end.

Definition storages_ok (l : list N) : Prop := NoDup l /\ l <> [].

(* no leftovers, one copy of a partition *)
Definition tidy (d : dir) : Prop :=
  (forall k, sl_inc (dget d k) = None /\ sl_comp (dget d k) = None) /\
  forall st st' mn, dget d (st, mn) <> no_files -> dget d (st', mn) <> no_files -> st = st'.

(* a state of the database after a history within the limits; h: the acknowledged events *)
Definition reachable (lo : N) (b : db) (h : list event) : Prop :=
  exists storages iv serial page region ops,
    limits lo iv /\ storages_ok storages /\
    chist_fine lo (db_new storages iv serial page region) ops /\
    crun (db_new storages iv serial page region) ops = Ok b /\
    h = cacked (db_new storages iv serial page region) ops [].

(* what readers see *)
Definition sees (b : db) (e : event) : Prop := visible (parts (db_en b)) e.

(* stops and starts only *)
Definition restart_op (o : cop) : Prop := match o with CCrash _ => True | _ => False end.
