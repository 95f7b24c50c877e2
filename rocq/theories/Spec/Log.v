(* What a log holds, and when its records can be trusted. *)
From Coq Require Import NArith List Bool Sorted Permutation.
Import ListNotations.
From Verif Require Import Model.Base Model.Event Model.Codec Model.Wal Model.Gc Spec.Order Spec.Checksum.
Local Open Scope N_scope.

(* a record as it was asked for: a batch or the drop of a partition *)
Inductive rec : Type :=
| RWrite (lsn : N) (l : list lentry)
| RDrop (lsn id : N).

Definition rec_lsn (r : rec) : N := match r with RWrite n _ | RDrop n _ => n end.
Definition rec_bytes (wal_crc : bool) (r : rec) : list N :=
  match r with
  | RWrite n l => log_record wal_crc n l
  | RDrop n id => drop_record wal_crc n id
  end.
(* what recovery should replay for it *)
Definition rec_logged (r : rec) : logged :=
  match r with
  | RWrite n l => LWrite n (map le_event l)
  | RDrop n id => LDrop n id
  end.

(* the bytes behind an event: there are enough of them to be read; [stable]: they did not change
   between the checksum and the write *)
Definition entry_ok (x : lentry) : Prop :=
  ev_ok (le_event x) /\
  bytes (le_added x) /\ bytes (le_written x) /\
  (length (ev_key (le_event x)) <= length (le_added x))%nat /\
  (length (ev_key (le_event x)) <= length (le_written x))%nat.
Definition stable (x : lentry) : Prop :=
  firstn (length (ev_key (le_event x))) (le_added x) = firstn (length (ev_key (le_event x))) (le_written x).

Definition batch_size (l : list lentry) : N :=
  fold_right (fun x n => event_size (le_event x) + n) 0 l.
Definition batch_ok (l : list lentry) : Prop :=
  l <> [] /\ Forall entry_ok l /\ 21 + batch_size l < 2 ^ 31.
Definition rec_ok (wal_crc : bool) (r : rec) : Prop :=
  match r with
  | RWrite n l => n < 2 ^ 64 /\ batch_ok l /\ (wal_crc = true -> Forall stable l)
  | RDrop n id => n < 2 ^ 64 /\ id < 2 ^ 64
  end.

(* a log: its files by id, each with its records *)
Definition log := list (N * list rec).
Definition log_files (wal_crc : bool) (a : log) : list (N * list N) :=
  map (fun p => (fst p, flat_map (rec_bytes wal_crc) (snd p))) a.
Definition log_ids (a : log) : list N := map fst a.
Definition log_recs (a : log) : list rec := flat_map snd a.

Definition increasing (l : list N) : Prop := StronglySorted N.lt l.

(* [k] bytes of a list of records: those that are complete *)
Fixpoint complete (wal_crc : bool) (k : nat) (l : list rec) : list rec :=
  match l with
  | [] => []
  | r :: t =>
      let n := length (rec_bytes wal_crc r) in
      if Nat.leb n k then r :: complete wal_crc (k - n) t else []
  end.

(* sequence numbers strictly increase, file ids too, and a file holds exactly the records from its
   id up to the next one *)
Definition ordered (a : log) : Prop :=
  increasing (log_ids a) /\ increasing (map rec_lsn (log_recs a)) /\
  forall a1 id rs a2, a = a1 ++ (id, rs) :: a2 ->
    Forall (fun r => rec_lsn r < id) (log_recs a1) /\ Forall (fun r => id <= rec_lsn r) rs.

(* the state of a log without torn writes *)
Record holds (wal_crc : bool) (s : wal) (a : log) : Prop := {
  ho_files   : wl_files s = log_files wal_crc a;
  ho_list    : wl_list s = log_ids a;
  ho_current : exists a1 id rs, a = a1 ++ [(id, rs)] /\
                 wl_current s = Some (id, N.of_nat (length (flat_map (rec_bytes wal_crc) rs)));
  ho_recs    : Forall (rec_ok wal_crc) (log_recs a);
  ho_ordered : ordered a;
  ho_lsn     : Forall (fun r => rec_lsn r <= wl_lsn s) (log_recs a);
  ho_ids     : Forall (fun i => i <= wl_lsn s + 1) (log_ids a)
}.

(* histories of a log: all records ever written *)
Inductive plain_hist (wal_crc : bool) : wal -> list rec -> Prop :=
| ph_open : plain_hist wal_crc (wal_rotate wal_init 0) []
| ph_write s all l s' : plain_hist wal_crc s all -> batch_ok l -> (wal_crc = true -> Forall stable l) ->
    wl_lsn s + 2 < 2 ^ 64 -> wal_write wal_crc s l None = Ok (s', true) ->
    plain_hist wal_crc s' (all ++ [RWrite (wl_lsn s') l])
| ph_rotate s all wm : plain_hist wal_crc s all -> wl_lsn s + 2 < 2 ^ 64 ->
    plain_hist wal_crc (wal_rotate s wm) all
| ph_restart s all dir base s' : plain_hist wal_crc s all -> wl_lsn s + 2 < 2 ^ 64 ->
    Forall (fun f => N.of_nat (length (snd f)) + 21 < 2 ^ 32) (wl_files s) ->
    Permutation dir (wl_list s) -> base <= wl_lsn s ->
    wal_restart wal_crc s dir base = Ok s' -> plain_hist wal_crc s' all.

(* also with drops and collection; a restart finds the last lsn in the partition files or in a
   write of the log *)
Definition known (wal_crc : bool) (s : wal) (base : N) : Prop :=
  base <= wl_lsn s /\
  (base = wl_lsn s \/ exists es, In (LWrite (wl_lsn s) es) (fst (wal_read wal_crc (wl_files s) (wl_list s)))).
Inductive hist (wal_crc : bool) : wal -> list rec -> Prop :=
| hi_open : hist wal_crc (wal_rotate wal_init 0) []
| hi_write s all l s' : hist wal_crc s all -> batch_ok l -> (wal_crc = true -> Forall stable l) ->
    wl_lsn s + 2 < 2 ^ 64 -> wal_write wal_crc s l None = Ok (s', true) ->
    hist wal_crc s' (all ++ [RWrite (wl_lsn s') l])
| hi_drop s all id s' : hist wal_crc s all -> id < 2 ^ 64 ->
    wl_lsn s + 2 < 2 ^ 64 -> wal_write_drop wal_crc s id None = Ok (s', true) ->
    hist wal_crc s' (all ++ [RDrop (wl_lsn s') id])
| hi_rotate s all wm : hist wal_crc s all -> wl_lsn s + 2 < 2 ^ 64 -> hist wal_crc (wal_rotate s wm) all
| hi_gc s all min s' : hist wal_crc s all -> wal_gc s min = Ok s' -> hist wal_crc s' all
| hi_restart s all dir base s' : hist wal_crc s all -> wl_lsn s + 2 < 2 ^ 64 ->
    Forall (fun f => N.of_nat (length (snd f)) + 21 < 2 ^ 32) (wl_files s) ->
    Permutation dir (wl_list s) -> known wal_crc s base ->
    wal_restart wal_crc s dir base = Ok s' -> hist wal_crc s' all.

(* files small enough for 32-bit offsets *)
Definition files_short (s : wal) : Prop :=
  Forall (fun f => N.of_nat (length (snd f)) + 21 < 2 ^ 32) (wl_files s).

Definition logged_lsn (x : logged) : N := match x with LWrite n _ | LDrop n _ => n end.

(* lists of file ids as the engine changes them *)
Inductive id_list : list N -> Prop :=
| il_recover dir : NoDup dir -> id_list (wal_recover dir)
| il_add l x : id_list l -> ~ In x l -> id_list (wal_id_add x l)
| il_delete l x : id_list l -> id_list (wal_id_delete x l)
| il_gc l m : id_list l -> id_list (snd (wal_id_gc_between m l)).

(* the answers of queries on a list of ids *)
Definition least_above (v : N) (l : list N) (r : N) : Prop :=
  In r l /\ v < r /\ (forall y, In y l -> v < y -> r <= y) \/
  r = u64_max /\ (forall y, In y l -> y <= v).
Definition greatest_upto (v : N) (l : list N) (r : N) : Prop :=
  In r l /\ r <= v /\ (forall y, In y l -> y <= v -> y <= r) \/
  r = u64_max /\ (forall y, In y l -> v < y).

(* a writer, rotation and collection side by side, when collection scans and removes in one step
   while no logged write is waiting for its mark; [all]: the records written *)
Inductive quiet (wal_crc : bool) : gstate -> list rec -> Prop :=
| qu_init : quiet wal_crc ginit []
| qu_write s all l s' : quiet wal_crc s all -> batch_ok l -> (wal_crc = true -> Forall stable l) ->
    wl_lsn (g_wal s) + 2 < 2 ^ 64 -> gstep wal_crc s (GWrite l) = Ok s' ->
    quiet wal_crc s' (all ++ [RWrite (wl_lsn (g_wal s')) l])
| qu_mark s all n s' : quiet wal_crc s all -> gstep wal_crc s (GMark n) = Ok s' -> quiet wal_crc s' all
| qu_rotate s all wm s' : quiet wal_crc s all -> wl_lsn (g_wal s) + 2 < 2 ^ 64 ->
    gstep wal_crc s (GRotate wm) = Ok s' -> quiet wal_crc s' all
| qu_refresh s all n s' : quiet wal_crc s all -> gstep wal_crc s (GRefresh n) = Ok s' -> quiet wal_crc s' all
| qu_collect s all s1 s2 : quiet wal_crc s all -> g_pending s = [] ->
    gstep wal_crc s GScan = Ok s1 -> gstep wal_crc s1 GRun = Ok s2 -> quiet wal_crc s2 all.

(* logged and not in a partition file yet *)
Definition outstanding (s : gstate) (n : N) : Prop := In n (g_pending s) \/ In n (g_marks s).

(* bytes of the records of some batches *)
Definition batches_size (ls : list (list lentry)) : N := fold_right (fun l n => 21 + batch_size l + n) 0 ls.
