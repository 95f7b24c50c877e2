(* What a user of the engine is promised, and histories of calls within the limits of the code. *)
From Coq Require Import NArith ZArith List Bool.
Import ListNotations.
From Verif Require Import Model.Base Model.Event Model.Memtable Model.Mapping Model.PartIter
  Model.Scan Model.Engine Spec.Order Spec.Layout Spec.Regions Spec.View.

Definition parts (en : engine) : list part := map s_data (mapping_list (en_map en)).

(* the range of ids of a partition created for an id *)
Definition cell (iv id : N) : range := (interval_of iv id, interval_of iv id + iv - 1)%N.

(* the events a batch stands for: ids of u64_max are numbered in serial mode; a key of more than
   255 bytes ends the batch *)
Fixpoint assigned (serial : bool) (ssn : N) (l : list warg) : list event :=
  match l with
  | [] => []
  | a :: t =>
      let e := wa_event a in
      if (255 <? length (ev_key e))%nat then []
      else if (serial && (ev_id e =? u64_max)%N)%bool
           then mk_event ssn (ev_flags e) (ev_key e) (ev_val e) :: assigned serial (w64 (ssn + 1)) t
           else e :: assigned serial ssn t
  end.

(* limits of the code: ids in a window of 2^31 (with the partition they need), or at the end of
   the id space where no partition can be created; events no larger than a memory page *)
Definition event_fine (lo : N) (en : engine) (e : event) : Prop :=
  ev_ok e /\ win lo e /\
  (N.of_nat (14 + length (ev_key e) + length (ev_val e)) <= en_page en)%N /\
  (near lo (cell (en_interval en) (ev_id e)) \/
   (u64_max + 1 < fst (cell (en_interval en) (ev_id e)) + en_interval en)%N).

(* memory tables of one page *)
Definition room (m : mapping part) (n : nat) : Prop :=
  n <= MEMTABLE_PAGE /\
  forall s, In s (mapping_list m) -> length (mt_events (pt_mem (s_data s))) + n <= MEMTABLE_PAGE.

Definition batch_fine (lo : N) (en : engine) (l : list warg) : Prop :=
  Forall (fun a => wa_mem a = MemOk) l /\
  (exists a t, l = a :: t /\ length (ev_key (wa_event a)) <= 255) /\
  Forall (event_fine lo en) (assigned (en_serial en) (en_ssn en) l) /\
  room (en_map en) (length l).

(* both tables of a partition: no key in both *)
Definition tables_apart (p : part) : Prop :=
  forall k, lookup (mt_events (pt_mem p)) k = None \/ lookup (mt_events (pt_prev p)) k = None.

Definition op_fine (lo : N) (en : engine) (o : eop) : Prop :=
  match o with
  | EWrite l _ => batch_fine lo en l
  | ERefresh id _ => (lo <= id < lo + 2^31)%N /\
      forall s, In s (mapping_list (en_map en)) -> in_range id (range_of s) ->
        tables_apart (s_data s) /\ (region_weight (concat (contents (s_data s))) < 2^32)%N
  | EBegin id => (lo <= id < lo + 2^31)%N /\
      forall s, In s (mapping_list (en_map en)) -> in_range id (range_of s) -> tables_apart (s_data s)
  | EApply ref => exists s, In s (mapping_list (en_map en)) /\ s_min s = ref /\
      (region_weight (concat (contents (s_data s))) < 2^32)%N
  | EDrop id => (lo <= id < lo + 2^31)%N
  | ECreate mn mx => (mn <= mx)%N -> near lo (mn, mx)
  | EInterval n => (0 < n <= u64_max)%N
  end.
Fixpoint hist_fine (lo : N) (en : engine) (l : list eop) : Prop :=
  match l with
  | [] => True
  | o :: t =>
      op_fine lo en o /\ match estep en o with
                         | Ok en' => hist_fine lo en' t
                         | _ => hist_fine lo en t
                         end
  end.

(* the acknowledged events, in time order, without those of dropped partitions *)
Definition ack_step (en : engine) (o : eop) (h : list event) : list event :=
  match o with
  | EWrite l logged =>
      match engine_write en l logged with
      | Ok (_, Some _) => h ++ assigned (en_serial en) (en_ssn en) l
      | _ => h
      end
  | EDrop id =>
      filter (fun e => negb (existsb (fun s => slice_in s id && slice_in s (ev_id e))%bool
                                     (mapping_list (en_map en)))) h
  | _ => h
  end.
Fixpoint acked (en : engine) (l : list eop) (h : list event) : list event :=
  match l with
  | [] => h
  | o :: t =>
      let h := ack_step en o h in
      match estep en o with
      | Ok en' => acked en' t h
      | _ => acked en t h
      end
  end.

(* an event that must be readable after these writes *)
Definition current (h : list event) (e : event) : Prop :=
  last_write h e = Some e /\ event_is_delete e = false.

(* the next serial id after a batch *)
Fixpoint next_ssn (serial : bool) (ssn : N) (l : list warg) : N :=
  match l with
  | [] => ssn
  | a :: t => next_ssn serial (if (serial && (ev_id (wa_event a) =? u64_max)%N)%bool
                               then w64 (ssn + 1) else ssn) t
  end.

Definition limits (lo iv : N) : Prop := (lo + 2^31 <= u64_max)%N /\ (0 < iv <= u64_max)%N.

(* a cursor start: none, or an id of the window without a key part *)
Definition start_fine (lo : N) (key : option event) : Prop :=
  match key with
  | None => (lo + 2^31 < 2^63)%N
  | Some k => ev_ok k /\ win lo k /\ ev_key k = []
  end.
Definition file_events (p : part) : list event :=
  match pt_file p with Some f => concat f | None => [] end.

(* every partition holds the same events; partitions only in the second are empty *)
Definition same_data (en en' : engine) : Prop :=
  (forall s, In s (mapping_list (en_map en)) -> exists s', In s' (mapping_list (en_map en')) /\
     range_of s' = range_of s /\ contents (s_data s') = contents (s_data s)) /\
  (forall s', In s' (mapping_list (en_map en')) ->
     (exists s, In s (mapping_list (en_map en)) /\
        range_of s' = range_of s /\ contents (s_data s') = contents (s_data s)) \/
     concat (contents (s_data s')) = []).

(* ids given to events in serial mode *)
Fixpoint serial_ids (serial : bool) (ssn : N) (l : list warg) : list N :=
  match l with
  | [] => []
  | a :: t => if (serial && (ev_id (wa_event a) =? u64_max)%N)%bool
              then ssn :: serial_ids serial (w64 (ssn + 1)) t else serial_ids serial ssn t
  end.
Fixpoint handed_out (en : engine) (l : list eop) : list N :=
  match l with
  | [] => []
  | o :: t =>
      let ids := match o with
                 | EWrite b logged => match engine_write en b logged with
                                      | Ok (_, Some _) => serial_ids (en_serial en) (en_ssn en) b
                                      | _ => []
                                      end
                 | _ => []
                 end in
      ids ++ handed_out (match estep en o with Ok en' => en' | _ => en end) t
  end.
