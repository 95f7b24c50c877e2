(* C01-C06: event order, in-memory tables, cursors on them. *)
From Coq Require Import NArith ZArith List Bool Sorted.
Import ListNotations.
From Verif Require Import Model.Base Model.Event Model.Rbtree Model.Memtable Spec.Order
  Proof.RbtreeL Proof.MemtableX Proof.MemtableM Proof.MemtableP Proof.MemtableE
  Proof.MemtableL Proof.MemtableL2.

(* C01: the comparison is 0 exactly for equal (id, key), negative/positive exactly by
   id and then by key bytes. *)
Theorem C01_order : forall a b,
  (ev_id a < 2^64)%N -> (ev_id b < 2^64)%N ->
  (- 2^63 <= Z.of_N (ev_id a) - Z.of_N (ev_id b) < 2^63)%Z ->
  ((compare a b = 0)%Z <-> ev_id a = ev_id b /\ ev_key a = ev_key b) /\
  ((compare a b < 0)%Z <->
     (ev_id a < ev_id b)%N \/ (ev_id a = ev_id b /\ bytes_cmp (ev_key a) (ev_key b) = Lt)) /\
  ((0 < compare a b)%Z <->
     (ev_id b < ev_id a)%N \/ (ev_id a = ev_id b /\ bytes_cmp (ev_key b) (ev_key a) = Lt)).
Proof. exact order_lemma. Qed.
Print Assumptions C01_order.
Example C01_order_example :
  (- 2^63 <= Z.of_N (ev_id (mk_event (2^63) 0 [1%N] [])) - Z.of_N (ev_id (mk_event 5 0 [1;2]%N [])) < 2^63)%Z.
Proof. split; vm_compute; congruence. Qed.

(* C01: reflexive, antisymmetric, transitive *)
Theorem C01_total : forall lo a b c, span63 lo a -> span63 lo b -> span63 lo c ->
  (compare a a = 0)%Z /\
  ((compare a b < 0)%Z <-> (0 < compare b a)%Z) /\
  ((compare a b <= 0)%Z -> (compare b c <= 0)%Z -> (compare a c <= 0)%Z) /\
  ((compare a b <= 0)%Z -> (compare b a <= 0)%Z -> ev_id a = ev_id b /\ ev_key a = ev_key b).
Proof. exact order_total. Qed.
Print Assumptions C01_total.
Example C01_total_example : span63 7 (mk_event (2^63 + 6) 0 [1%N] []) /\ span63 7 (ev_of 7).
Proof. repeat split; vm_compute; congruence. Qed.

(* C01: the narrowed comparison of the searches agrees within 2^31 *)
Theorem C01_search : forall a b, ev_ok a -> ev_ok b ->
  (- 2^31 <= Z.of_N (ev_id a) - Z.of_N (ev_id b) < 2^31)%Z ->
  Z.sgn (compare_int a b) = Z.sgn (compare a b).
Proof. exact order_search. Qed.
Print Assumptions C01_search.
Example C01_search_example : ev_ok (mk_event (2^40) 0 [1;255]%N [3%N]).
Proof. exact ok_example. Qed.

(* ... and beyond it one event overwrites another with a different id *)
Theorem C01_search_refuted : exists a b m prevs all,
  ev_ok a /\ ev_ok b /\ ev_id a <> ev_id b /\
  memtable_writes memtable_new [a; b] = Ok (m, prevs) /\
  memtable_scan m None = Ok all /\ lookup all a = None.
Proof. exact search_lost. Qed.
Print Assumptions C01_search_refuted.

(* ids 2^63 apart are ordered the wrong way round *)
Theorem C01_wide_refuted : exists a b,
  ev_ok a /\ ev_ok b /\ (ev_id b < ev_id a)%N /\ (compare a b < 0)%Z.
Proof. exact order_wide. Qed.
Print Assumptions C01_wide_refuted.

(* C02: any history of at most 512 distinct keys *)
Theorem C02_last_write_wins : forall lo hist,
  Forall (fun e => ev_ok e /\ win lo e) hist -> distinct hist <= MEMTABLE_PAGE ->
  exists m prevs contents,
    memtable_writes memtable_new hist = Ok (m, prevs) /\
    memtable_scan m None = Ok contents /\
    ascending contents /\
    (forall k, lookup contents k = last_write hist k) /\
    (forall k, ev_ok k -> win lo k ->
       memtable_scan m (Some k) = Ok (filter (geb k) contents)) /\
    mt_count m = N.of_nat (length contents) /\
    (forall i e, nth_error hist i = Some e ->
       nth_error prevs i = Some (last_write (firstn i hist) e)).
Proof. exact memtable_last_write_wins. Qed.
Print Assumptions C02_last_write_wins.
Example C02_example :
  Forall (fun e => ev_ok e /\ win 0 e) sample_hist /\ distinct sample_hist <= MEMTABLE_PAGE.
Proof. exact sample_hist_ok. Qed.

(* C03 *)
Theorem C03_append_complete : forall lo hist,
  ascending hist -> Forall (fun e => ev_ok e /\ win lo e) hist ->
  exists m prevs,
    memtable_writes memtable_new hist = Ok (m, prevs) /\
    Forall (eq None) prevs /\
    memtable_scan m None = Ok hist /\
    mt_count m = N.of_nat (length hist) /\
    Forall (fun pg => pg_ev pg <> [] /\ length (pg_ev pg) <= MEMTABLE_PAGE)
           (elements (mt_tree m)) /\
    depth (mt_tree m) <= 2 * Nat.log2 (S (length hist)).
Proof. exact memtable_append_complete. Qed.
Print Assumptions C03_append_complete.
Example C03_example :
  ascending (ids 7 2000) /\ Forall (fun e => ev_ok e /\ win 0 e) (ids 7 2000).
Proof. exact ids_2000_ok. Qed.

(* C04: a read from k is right when the search lands on the page covering k *)
Theorem C04_seek_covered : forall lo m k z pg,
  ascending (mt_events m) -> Forall (fun e => ev_ok e /\ win lo e) (mt_events m) ->
  ev_ok k /\ win lo k ->
  Forall (fun pg => pg_ev pg <> []) (elements (mt_tree m)) ->
  mt_count_pages m <> 0%N -> mt_count m <> 0%N ->
  memtable_search_page m k = Ok z -> zelem z = Some pg -> zroot z = mt_tree m ->
  Forall (fun e => ev_lt e k) (pages_before z) -> (exists e, In e (pg_ev pg) /\ ev_le k e) ->
  memtable_scan m (Some k) = Ok (filter (geb k) (mt_events m)).
Proof. exact seek_covered. Qed.
Print Assumptions C04_seek_covered.
Example C04_seek_example : seek_hyps multi (ev_of 510).
Proof. exact seek_multi. Qed.

(* C04: a write of e is right when the search lands on the page covering e and a
   split page has no right child *)
Theorem C04_write_covered : forall lo m e z pg,
  ascending (mt_events m) -> Forall (fun x => ev_ok x /\ win lo x) (mt_events m) ->
  ev_ok e -> win lo e ->
  wf (mt_tree m) -> mt_count_pages m <> 0%N -> pg_ev pg <> [] ->
  mt_size_split m <= mt_size_page m ->
  memtable_search_page m e = Ok z -> zelem z = Some pg -> zroot z = mt_tree m ->
  Forall (fun x => ev_lt x e) (pages_before z) -> Forall (fun x => ev_lt e x) (pages_after z) ->
  (length (pg_ev pg) < mt_size_page m \/ lookup (pg_ev pg) e <> None \/
   exists p c l, z = (p, Node c l pg Leaf)) ->
  exists m', memtable_set m e = Ok (m', lookup (mt_events m) e) /\
    updated (mt_events m) (mt_events m') e /\ wf (mt_tree m').
Proof. exact write_covered. Qed.
Print Assumptions C04_write_covered.
Example C04_write_example : write_hyps multi (vev 509 3).
Proof. exact write_multi. Qed.

(* in-order writes, then a cursor at a written id does not find it *)
Theorem C04_seek_refuted :
  exists hist k m prevs rest,
    memtable_writes memtable_new hist = Ok (m, prevs) /\ In k hist /\
    memtable_scan m (Some k) = Ok rest /\ ~ In k rest /\ rest <> filter (geb k) hist.
Proof. exact multipage_seek_refuted. Qed.
Print Assumptions C04_seek_refuted.

(* out-of-order writes lose an event *)
Theorem C04_lost_refuted :
  exists hist m prevs all lost,
    memtable_writes memtable_new hist = Ok (m, prevs) /\
    memtable_scan m None = Ok all /\ In lost hist /\ lookup all lost = None.
Proof. exact multipage_lost_refuted. Qed.
Print Assumptions C04_lost_refuted.

(* a rewrite leaves two versions of one id, out of order *)
Theorem C04_duplicate_refuted :
  exists hist m prevs all,
    memtable_writes memtable_new hist = Ok (m, prevs) /\
    memtable_scan m None = Ok all /\
    length (filter (fun e => N.eqb (ev_id e) 100) all) = 2 /\
    lookup all (ev_of 100) <> last_write hist (ev_of 100) /\
    ~ ascending all.
Proof. exact multipage_duplicate_refuted. Qed.
Print Assumptions C04_duplicate_refuted.

(* C05, one partition: undoing any applied part h2 of a batch after any history h1 *)
Theorem C05_batch_undo : forall lo h1 h2,
  Forall (fun e => ev_ok e /\ win lo e) (h1 ++ h2) -> distinct (h1 ++ h2) <= MEMTABLE_PAGE ->
  exists m0 p0 m1 p1 m2,
    memtable_writes memtable_new h1 = Ok (m0, p0) /\
    memtable_writes m0 h2 = Ok (m1, p1) /\
    memtable_undo m1 (combine h2 p1) = Ok m2 /\
    mt_count m2 = mt_count m0 /\
    memtable_scan m2 None = memtable_scan m0 None /\
    (forall k, ev_ok k -> win lo k -> memtable_scan m2 (Some k) = memtable_scan m0 (Some k)).
Proof. exact batch_undo. Qed.
Print Assumptions C05_batch_undo.
Example C05_batch_example :
  Forall (fun e => ev_ok e /\ win 0 e) (sample_hist ++ sample_hist) /\
  distinct (sample_hist ++ sample_hist) <= MEMTABLE_PAGE.
Proof. exact sample_twice_ok. Qed.

(* C06: an insert above the cursor's event, or below it but not directly below it *)
Theorem C06_insert : forall lo m pg e c x,
  ascending (pg_ev pg) -> Forall (fun a => ev_ok a /\ win lo a) (pg_ev pg) -> ev_ok e -> win lo e ->
  length (pg_ev pg) < mt_size_page m ->
  nth_error (pg_ev pg) c = Some x ->
  lookup (pg_ev pg) e = None ->
  (ev_lt x e \/ exists y, In y (pg_ev pg) /\ ev_lt e y /\ ev_lt y x) ->
  exists pg' it',
    insert_with_iter m pg e (mk_pos (pg_id pg) c (Some x)) = Ok (pg', None, it') /\
    updated (pg_ev pg) (pg_ev pg') e /\ mp_page it' = pg_id pg' /\ mp_cur it' = Some x /\
    nth_error (pg_ev pg') (mp_pos it') = Some x /\
    skipn (S (mp_pos it')) (pg_ev pg') = filter (gtb x) (pg_ev pg').
Proof. exact cursor_insert. Qed.
Print Assumptions C06_insert.
Example C06_insert_example : insert_hyps (ids 10 5) (ev_of 3) 2 (ev_of 12).
Proof. exact insert_ids. Qed.

(* C06: a rewrite of the cursor's event or of one above it *)
Theorem C06_rewrite : forall lo m pg e c x z,
  ascending (pg_ev pg) -> Forall (fun a => ev_ok a /\ win lo a) (pg_ev pg) -> ev_ok e -> win lo e ->
  nth_error (pg_ev pg) c = Some x ->
  lookup (pg_ev pg) e = Some z -> ev_le x e ->
  exists pg' it' y,
    insert_with_iter m pg e (mk_pos (pg_id pg) c (Some x)) = Ok (pg', None, it') /\
    updated (pg_ev pg) (pg_ev pg') e /\ mp_page it' = pg_id pg' /\ mp_cur it' = Some y /\
    lookup (pg_ev pg') x = Some y /\
    nth_error (pg_ev pg') (mp_pos it') = Some y /\
    skipn (S (mp_pos it')) (pg_ev pg') = filter (gtb x) (pg_ev pg').
Proof. exact cursor_rewrite. Qed.
Print Assumptions C06_rewrite.
Example C06_rewrite_example :
  nth_error (ids 10 5) 2 = Some (ev_of 12) /\ lookup (ids 10 5) (vev 13 1) = Some (ev_of 13) /\
  ev_le (ev_of 12) (vev 13 1).
Proof. repeat split; vm_compute; congruence. Qed.

(* an insert directly below moves the cursor back *)
Theorem C06_adjacent_refuted : exists pg e x it',
  let m := memtable_new in
  nth_error (pg_ev pg) 1 = Some x /\ ascending (pg_ev pg) /\ ev_lt e x /\
  (exists pg', insert_with_iter m pg e (mk_pos (pg_id pg) 1 (Some x)) = Ok (pg', None, it')) /\
  mp_cur it' = Some e.
Proof. exact iter_adjacent_refuted. Qed.
Print Assumptions C06_adjacent_refuted.

(* a rewrite of a smaller event makes it skip one *)
Theorem C06_rewrite_refuted : exists pg e x y it',
  let m := memtable_new in
  nth_error (pg_ev pg) 1 = Some x /\ nth_error (pg_ev pg) 2 = Some y /\ ascending (pg_ev pg) /\
  ev_lt e x /\ ev_lt x y /\
  (exists pg', insert_with_iter m pg e (mk_pos (pg_id pg) 1 (Some x)) = Ok (pg', None, it')) /\
  mp_cur it' = Some y.
Proof. exact iter_rewrite_refuted. Qed.
Print Assumptions C06_rewrite_refuted.

(* an append that splits the page makes it skip one *)
Theorem C06_split_refuted : exists pg e x y it',
  let m := memtable_new in
  nth_error (pg_ev pg) 100 = Some x /\ nth_error (pg_ev pg) 101 = Some y /\ ascending (pg_ev pg) /\
  Forall (fun a => ev_lt a e) (pg_ev pg) /\
  (exists pg' sp, insert_with_iter m pg e (mk_pos (pg_id pg) 100 (Some x)) = Ok (pg', sp, it')) /\
  mp_cur it' = Some y.
Proof. exact iter_split_refuted. Qed.
Print Assumptions C06_split_refuted.
