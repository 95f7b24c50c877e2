(* Histories whose memory tables outgrow one page. *)
From Coq Require Import NArith ZArith List Bool.
Import ListNotations.
From Verif Require Import Model.Base Model.Event Model.Memtable Model.Mapping Model.PartIter
  Model.Scan Model.Engine Spec.Order Spec.Layout Spec.Regions Spec.View Spec.Engine.

(* an event for which a partition can be found or created *)
Definition event_near (lo : N) (en : engine) (e : event) : Prop :=
  ev_ok e /\ win lo e /\
  (N.of_nat (14 + length (ev_key e) + length (ev_val e)) <= en_page en)%N /\
  near lo (cell (en_interval en) (ev_id e)).

(* every partition takes the events: its active table has room for them in one page, or they come
   in order, behind all that is in the table *)
Definition fits (m : mapping part) (l : list event) : Prop :=
  (length l <= MEMTABLE_PAGE \/ ascending l) /\
  forall s, In s (mapping_list m) ->
    length (mt_events (pt_mem (s_data s))) + length l <= MEMTABLE_PAGE \/
    (ascending l /\ forall e, In e l -> in_range (ev_id e) (range_of s) ->
       Forall (fun x => ev_lt x e) (mt_events (pt_mem (s_data s)))).

Definition load_fine (lo : N) (en : engine) (l : list warg) : Prop :=
  Forall (fun a => wa_mem a = MemOk) l /\
  Forall (fun a => length (ev_key (wa_event a)) <= 255) l /\
  Forall (event_near lo en) (assigned (en_serial en) (en_ssn en) l) /\
  fits (en_map en) (assigned (en_serial en) (en_ssn en) l).

(* no batch is refused; the rest as in histories of one page *)
Definition load_op (lo : N) (en : engine) (o : eop) : Prop :=
  match o with
  | EWrite l logged => logged = true /\ load_fine lo en l
  | _ => op_fine lo en o
  end.
Fixpoint load_hist (lo : N) (en : engine) (l : list eop) : Prop :=
  match l with
  | [] => True
  | o :: t =>
      load_op lo en o /\ match estep en o with
                         | Ok en' => load_hist lo en' t
                         | _ => load_hist lo en t
                         end
  end.

(* the same when batches can be refused: a table has room in its page only while it has no second
   one, which a refused batch can leave behind *)
Definition fits_pages (m : mapping part) (l : list event) : Prop :=
  (length l <= MEMTABLE_PAGE \/ ascending l) /\
  forall s, In s (mapping_list m) ->
    ((mt_count_pages (pt_mem (s_data s)) <= 1)%N /\
     length (mt_events (pt_mem (s_data s))) + length l <= MEMTABLE_PAGE) \/
    (ascending l /\ forall e, In e l -> in_range (ev_id e) (range_of s) ->
       Forall (fun x => ev_lt x e) (mt_events (pt_mem (s_data s)))).
Definition try_fine (lo : N) (en : engine) (l : list warg) : Prop :=
  Forall (fun a => wa_mem a = MemOk) l /\
  (exists a t, l = a :: t /\ length (ev_key (wa_event a)) <= 255) /\
  Forall (event_fine lo en) (assigned (en_serial en) (en_ssn en) l) /\
  fits_pages (en_map en) (assigned (en_serial en) (en_ssn en) l).
Definition try_op (lo : N) (en : engine) (o : eop) : Prop :=
  match o with
  | EWrite l _ => try_fine lo en l
  | _ => op_fine lo en o
  end.
Fixpoint try_hist (lo : N) (en : engine) (l : list eop) : Prop :=
  match l with
  | [] => True
  | o :: t =>
      try_op lo en o /\ match estep en o with
                        | Ok en' => try_hist lo en' t
                        | _ => try_hist lo en t
                        end
  end.

(* both tables of every partition are of one page *)
Definition small_tables (en : engine) : Prop :=
  forall p, In p (parts en) ->
    length (mt_events (pt_mem p)) <= MEMTABLE_PAGE /\ length (mt_events (pt_prev p)) <= MEMTABLE_PAGE.

(* no table has a second page, not even after refused batches *)
Definition one_page (en : engine) : Prop :=
  forall p, In p (parts en) -> (mt_count_pages (pt_mem p) <= 1)%N /\ (mt_count_pages (pt_prev p) <= 1)%N.

(* batches and refreshes of an ingestion in order *)
Inductive load : Type := Batch (l : list event) | Fresh (id : N).
Definition load_op_of (x : load) : eop :=
  match x with
  | Batch l => EWrite (map (fun e => mk_warg e MemOk) l) true
  | Fresh id => ERefresh id false
  end.
Definition loaded (l : list load) : list event :=
  flat_map (fun x => match x with Batch l => l | Fresh _ => [] end) l.
Definition shown (l : list event) : list event := filter (fun e => negb (event_is_delete e)) l.
