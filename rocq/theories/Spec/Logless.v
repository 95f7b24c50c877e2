(* What is kept over a start without the log. *)
From Coq Require Import NArith ZArith List Bool.
Import ListNotations.
From Verif Require Import Model.Base Model.Event Model.Memtable Model.Mapping Model.PartIter
  Model.Codec Model.Scan Model.Engine Model.Crash Model.Logless Spec.Order Spec.Layout Spec.Regions Spec.View Spec.Engine
  Spec.Crash Spec.Drops.

(* an acknowledged event: written after the last refresh of its partition began, before that, or before the beginning
   of one that is complete *)
Inductive mark : Type := Memory | Going | Safe.
Definition marked : Type := list (event * mark).
Definition markb (a b : mark) : bool :=
  match a, b with Memory, Memory | Going, Going | Safe, Safe => true | _, _ => false end.
Definition shift (r : range) (a c : mark) (M : marked) : marked :=
  map (fun x => if (inb r (ev_id (fst x)) && markb (snd x) a)%bool then (fst x, c) else x) M.
Definition shift_at (o : option (slice part)) (a c : mark) (M : marked) : marked :=
  match o with Some s => shift (range_of s) a c M | None => M end.
Definition of_min (b : db) (ref : N) : option (slice part) :=
  find (fun s => (s_min s =? ref)%N) (mapping_list (en_map (db_en b))).
Definition busy (b : db) (ref : N) : bool := existsb (fun j => (jb_ref j =? ref)%N) (db_jobs b).

(* the elements with true *)
Fixpoint pick {A} (l : list A) (k : list bool) : list A :=
  match l, k with
  | x :: l, true :: k => x :: pick l k
  | _ :: l, false :: k => pick l k
  | _, _ => []
  end.
Definition together (b : db) (e e' : event) : Prop :=
  exists s, In s (mapping_list (en_map (db_en b))) /\ in_range (ev_id e) (range_of s) /\ in_range (ev_id e') (range_of s).
(* what is in a complete refresh is kept, and of each partition the first events up to some of them *)
Definition cut_fine (b : db) (M : marked) (k : list bool) : Prop :=
  length k = length M /\
  (forall i e, nth_error M i = Some (e, Safe) -> nth_error k i = Some true) /\
  (forall i j e e' c c', i < j -> nth_error M i = Some (e, c) -> nth_error M j = Some (e', c') -> together b e e' ->
     nth_error k j = Some true -> nth_error k i = Some true).

(* a step from w to w' takes the acknowledged events M to M' *)
Definition wnext (w : wdb) (o : wop) (w' : wdb) (M M' : marked) : Prop :=
  let b := w_db w in
  match o with
  | WWrite l =>
      match engine_write (db_en b) l true with
      | Ok (_, Some _) => M' = M ++ map (fun e => (e, Memory)) (assigned (en_serial (db_en b)) (en_ssn (db_en b)) l)
      | _ => M' = M
      end
  | WBegin id _ => M' = if (length (db_jobs b) =? length (db_jobs (w_db w')))%nat then M
                        else shift_at (part_slice (en_map (db_en b)) id) Memory Going M
  | WStep ref => M' = if busy (w_db w') ref then M else shift_at (of_min b ref) Going Safe M
  | WFail ref => M' = shift_at (of_min b ref) Going Memory M
  | WGc _ | WCreate _ _ | WInterval _ => M' = M
  | WDrop id => M' = match part_slice (en_map (db_en b)) id with
                     | Some s => filter (fun x => negb (inb (range_of s) (ev_id (fst x)))) M
                     | None => M
                     end
  | WStart _ wal =>
      (* with the log nothing is lost *)
      if (w_wal w && wal)%bool then M' = map (fun x => (fst x, if markb (snd x) Going then Memory else snd x)) M
      else exists k, cut_fine b M k /\ M' = map (fun x => (fst x, Safe)) (pick M k)
  end.
Inductive wmoves : wdb -> marked -> list wop -> wdb -> marked -> Prop :=
| wm_end w M : wmoves w M [] w M
| wm_step w M o w1 M1 t w' M' : wstep w o = Ok w1 -> wnext w o w1 M M1 -> wmoves w1 M1 t w' M' -> wmoves w M (o :: t) w' M'
| wm_refused w M o t w' M' : wstep w o = Err -> wmoves w M t w' M' -> wmoves w M (o :: t) w' M'.

Definition wop_fine (lo : N) (w : wdb) (o : wop) : Prop :=
  let b := w_db w in
  match o with
  | WDrop id => w_wal w = false /\ (lo <= id < lo + 2^31)%N /\
      forall s, In s (mapping_list (en_map (db_en b))) -> in_range id (range_of s) -> ~ leftover b (s_min s)
  (* the log is on and was on, or is empty *)
  | WStart cuts true => (w_wal w = true \/ db_log b = []) /\ cop_fine lo b (CCrash cuts)
  | WStart _ false => True
  | _ => cop_fine lo b (as_cop o)
  end.
Fixpoint whist_fine (lo : N) (w : wdb) (l : list wop) : Prop :=
  match l with
  | [] => True
  | o :: t =>
      wop_fine lo w o /\ match wstep w o with
                         | Ok w' => whist_fine lo w' t
                         | _ => whist_fine lo w t
                         end
  end.
Definition wnew (wal : bool) (storages : list N) (iv : N) (serial : bool) (page region : N) : wdb :=
  mk_wdb (db_new storages iv serial page region) wal.
