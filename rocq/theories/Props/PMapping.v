(* C16-C20: partitions and their id ranges. *)
From Coq Require Import NArith ZArith List Bool Sorted.
Import ListNotations.
From Verif Require Import Model.Base Model.Event Model.Rbtree Model.Mapping Spec.Layout
  Proof.RbtreeL Proof.MappingL Proof.MappingP Proof.MappingX.

(* C16: after any history whose ranges lie in a window of 2^31 ids, the partitions are
   disjoint and ordered, and a write lands in the partition that contains its id. *)
Theorem C16_partitions : forall {P} (fresh : N -> N -> P) lo iv ops,
  (lo + 2^31 <= u64_max)%N -> (0 < iv)%N -> hist_near lo iv ops ->
  exists m iv', lrun fresh (mapping_init, iv) ops = Ok (m, iv') /\ layout (ranges m) /\
  forall id, near lo (interval_of iv' id, interval_of iv' id + iv' - 1)%N ->
  exists m' z s, engine_lock fresh m iv' id false true = Ok (m', Some z) /\
    layout (ranges m') /\ zelem z = Some s /\ In s (mapping_list m') /\ in_range id (range_of s) /\
    (forall t, In t (mapping_list m) -> In t (mapping_list m')) /\
    (forall t, In t (mapping_list m') -> In t (mapping_list m) \/
       (interval_of iv' id <= s_min t /\ s_max t <= interval_of iv' id + iv' - 1)%N) /\
    (covered (ranges m) id -> m' = m).
Proof. exact @layout_history. Qed.
Print Assumptions C16_partitions.
Example C16_partitions_example :
  hist_near (2^40) 10 [LWrite (2^40 + 13); LCreate (2^40 + 17) (2^40 + 90); LDrop (2^40 + 13);
                       LInterval 7; LWrite (2^40 + 13)]%N.
Proof. vm_compute. intuition congruence. Qed.

(* C16: an id belongs to at most one partition *)
Theorem C16_unique : forall {P} (l : list (slice P)) a b x, layout (map range_of l) -> In a l -> In b l ->
  in_range x (range_of a) -> in_range x (range_of b) -> a = b.
Proof. exact @layout_unique. Qed.
Print Assumptions C16_unique.
Example C16_unique_example : layout (map range_of [mk_slice 0 9 tt; mk_slice 10 12 tt]).
Proof. repeat constructor; vm_compute; congruence. Qed.

(* C16: without the window, two partitions with the same range *)
Theorem C16_far_refuted :
  exists ops m, lrun no_data (mapping_init, 10%N) ops = Ok (m, 10%N) /\
    ~ layout (ranges m) /\
    exists a b t, ranges m = a :: b :: a :: t.
Proof. exact far_refuted. Qed.
Print Assumptions C16_far_refuted.
Theorem C16_assert_refuted :
  exists ops, lrun no_data (mapping_init, 8%N) ops = UB.
Proof. exact far_assert_refuted. Qed.
Print Assumptions C16_assert_refuted.

(* C17: CREATE PARTITION covers the requested range and touches nothing else *)
Theorem C17_fill : forall {P} (fresh : N -> N -> P) lo iv ops mn mx,
  (lo + 2^31 <= u64_max)%N -> (0 < iv)%N -> hist_near lo iv ops -> near lo (mn, mx) ->
  exists m iv', lrun fresh (mapping_init, iv) ops = Ok (m, iv') /\
  ((mx < mn)%N -> engine_fill fresh m mn mx = Err) /\
  ((mn <= mx)%N -> exists m', engine_fill fresh m mn mx = Ok m' /\ layout (ranges m') /\
    (forall x, (mn <= x <= mx)%N -> covered (ranges m') x) /\
    (forall t, In t (mapping_list m) -> In t (mapping_list m')) /\
    (forall t, In t (mapping_list m') -> In t (mapping_list m) \/ (mn <= s_min t /\ s_max t <= mx)%N)).
Proof. exact @fill_statement. Qed.
Print Assumptions C17_fill.
Example C17_fill_example : near 0 (3, 90)%N /\ hist_near 0 10 [LWrite 12; LWrite 55; LCreate 70 75]%N.
Proof. vm_compute. intuition congruence. Qed.

(* C18: the end of the id space *)
Theorem C18_write_error : forall {P} (fresh : N -> N -> P) m iv id, (0 < iv <= u64_max)%N -> (id <= u64_max)%N ->
  (u64_max + 1 < interval_of iv id + iv)%N ->
  match mapping_max m with Some z => match zelem z with Some s => slice_in s id | None => false end | None => false end = false ->
  mapping_match m id = Ok None ->
  engine_lock fresh m iv id false true = Err.
Proof. exact @top_write_error. Qed.
Print Assumptions C18_write_error.
Example C18_write_error_example :
  (u64_max + 1 < interval_of 3000000 u64_max + 3000000)%N /\
  @mapping_match unit mapping_init u64_max = Ok None.
Proof. vm_compute. auto. Qed.
Theorem C18_write_refuted :
  engine_lock no_data mapping_init 3000000 u64_max false true = Err.
Proof. exact top_write_refuted. Qed.
Print Assumptions C18_write_refuted.
Theorem C18_endless_refuted :
  exists ops iv m, lrun no_data (mapping_init, iv) ops = Ok (m, iv) /\ length (mapping_list m) = 1 /\
    forall fuel, engine_range no_data fuel act_keep m 0 u64_max = Ok None.
Proof. exact top_endless_refuted. Qed.
Print Assumptions C18_endless_refuted.
Theorem C18_overlap_refuted :
  exists m m', lrun no_data (mapping_init, 16%N) [LWrite u64_max] = Ok (m, 16%N) /\
    engine_fill no_data m (u64_max - 31) u64_max = Ok m' /\ ~ layout (ranges m').
Proof. exact top_overlap_refuted. Qed.
Print Assumptions C18_overlap_refuted.

(* C19: a range command that keeps the partitions visits exactly those inside the range,
   in order, once each - unless some partition starts before the range and reaches into it,
   then none *)
Theorem C19_keep : forall {P} (fresh : N -> N -> P) lo iv ops mn mx,
  (lo + 2^31 <= u64_max)%N -> (0 < iv)%N -> hist_near lo iv ops -> (lo <= mn < lo + 2^31)%N ->
  exists m iv', lrun fresh (mapping_init, iv) ops = Ok (m, iv') /\
  exists fuel, forall f, fuel <= f ->
  engine_range fresh f act_keep m mn mx =
    Ok (Some (m, if existsb (straddles mn) (mapping_list m) then []
                 else map s_min (filter (inside mn mx) (mapping_list m)))).
Proof. exact @range_keep_statement. Qed.
Print Assumptions C19_keep.
(* dropping: exactly the partitions inside the range disappear *)
Theorem C19_drop : forall {P} (fresh : N -> N -> P) lo iv ops mn mx,
  (lo + 2^31 <= u64_max)%N -> (0 < iv)%N -> hist_near lo iv ops -> (lo <= mn < lo + 2^31)%N ->
  exists m iv', lrun fresh (mapping_init, iv) ops = Ok (m, iv') /\
  (existsb (straddles mn) (mapping_list m) = false ->
   exists m' fuel, engine_range fresh fuel engine_drop_reference m mn mx =
     Ok (Some (m', map s_min (filter (inside mn mx) (mapping_list m)))) /\
     mapping_list m' = filter (fun s => negb (inside mn mx s)) (mapping_list m)).
Proof. exact @range_drop_statement. Qed.
Print Assumptions C19_drop.
Example C19_example : exists m, lrun no_data (mapping_init, 10%N) [LWrite 12; LWrite 33; LWrite 25; LWrite 47]%N = Ok (m, 10%N) /\
  existsb (straddles 15) (mapping_list m) = true /\ existsb (straddles 20) (mapping_list m) = false /\
  map s_min (filter (inside 20 48) (mapping_list m)) = [20; 30]%N.
Proof. eexists. split; [vm_compute; reflexivity|]. vm_compute. auto. Qed.
Theorem C19_refuted :
  exists m mn mx s, lrun no_data (mapping_init, 10%N) [LWrite 3; LWrite 13]%N = Ok (m, 10%N) /\
    In s (mapping_list m) /\ inside mn mx s = true /\
    engine_range no_data 5 act_keep m mn mx = Ok (Some (m, [])).
Proof. exact range_refuted. Qed.
Print Assumptions C19_refuted.

(* C20: lookups find the right partition and inspect at most 2*log2(n+1) of n *)
Theorem C20_lookup : forall {P} (fresh : N -> N -> P) lo iv ops id,
  (lo + 2^31 <= u64_max)%N -> (0 < iv)%N -> hist_near lo iv ops -> (lo <= id < lo + 2^31)%N ->
  exists m iv', lrun fresh (mapping_init, iv) ops = Ok (m, iv') /\
  (exists r, mapping_match m id = Ok r /\
    match r with
    | Some z => exists s, zelem z = Some s /\ In s (mapping_list m) /\ in_range id (range_of s)
    | None => ~ covered (ranges m) id
    end) /\
  (exists r, mapping_gte m id = Ok r /\
    match r with
    | Some z => exists s, zelem z = Some s /\ (id <= s_max s)%N /\
                  mapping_list m = zbefore z ++ s :: zafter z /\
                  Forall (fun t => (s_max t < id)%N) (zbefore z)
    | None => Forall (fun t => (s_max t < id)%N) (mapping_list m)
    end) /\
  (forall z rc, mapping_find m id = (Some z, rc) ->
     length (fst z) < 2 * Nat.log2 (S (length (mapping_list m)))).
Proof. exact @lookup_statement. Qed.
Print Assumptions C20_lookup.
Example C20_example : exists m, lrun no_data (mapping_init, 10%N) [LWrite 12; LWrite 33; LWrite 25; LWrite 47; LDrop 33]%N = Ok (m, 10%N) /\
  length (mapping_list m) = 3 /\ exists z, mapping_match m 41 = Ok (Some z).
Proof. eexists. split; [vm_compute; reflexivity|]. split; [reflexivity|]. vm_compute. eauto. Qed.
