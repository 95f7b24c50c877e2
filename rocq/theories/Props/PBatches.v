(* C91: batches of several threads. *)
From Coq Require Import NArith ZArith Arith List Bool Sorted.
Import ListNotations.
From Verif Require Import Model.Base Model.Event Model.Batches Spec.Batches Proof.BatchesT.

(* a partition is used by one thread at a time *)
Theorem C91_alone : forall refs0 part, refs0 = 0%Z \/ refs0 = 1%Z -> forall y t u p,
  reached refs0 part y -> In p (holds part y t) -> In p (holds part y u) -> t = u.
Proof. exact alone. Qed.
Print Assumptions C91_alone.
(* in a partition there are the batches of the log, one after the other, and those events of one unfinished
   batch whose thread has the partition *)
Theorem C91_seen : forall refs0 part, refs0 = 0%Z \/ refs0 = 1%Z -> forall y p k, reached refs0 part y ->
  ((forall t, ~ In p (holds part y t)) -> view y p k = serial part y p k) /\
  forall t, In p (holds part y t) ->
    view y p k = match newest part p k (pending (y_threads y t)) with Some e => Some e | None => serial part y p k end.
Proof. exact seen. Qed.
Print Assumptions C91_seen.
(* a cursor sees nothing of unfinished or failed batches *)
Theorem C91_cursor : forall refs0 part, refs0 = 0%Z \/ refs0 = 1%Z -> forall y t p k,
  reached refs0 part y -> y_threads y t = Idle -> In p (y_cursors y t) -> view y p k = serial part y p k.
Proof. exact seen_by_cursor. Qed.
Print Assumptions C91_cursor.
(* and nobody else changes its partition *)
Theorem C91_stable : forall refs0 part, refs0 = 0%Z \/ refs0 = 1%Z -> forall y m t p k,
  reached refs0 part y -> In p (holds part y t) -> mover m <> Some t -> view (moved refs0 part y m) p k = view y p k.
Proof. exact stable. Qed.
Print Assumptions C91_stable.
(* a stop at any moment: the files and the log have the batches of the log *)
Theorem C91_stopped : forall refs0 part, refs0 = 0%Z \/ refs0 = 1%Z -> forall y p k,
  reached refs0 part y -> recover part y p k = serial part y p k.
Proof. exact stopped. Qed.
Print Assumptions C91_stopped.
(* when no write is running: what is seen is what would be recovered, and the log has the acknowledged batches *)
Theorem C91_settled : forall refs0 part, refs0 = 0%Z \/ refs0 = 1%Z -> forall y, reached refs0 part y -> quiet y ->
  (forall p k, view y p k = recover part y p k) /\ (forall n, In n (y_acks y) <-> In n (map fst (y_log y))).
Proof. exact settled. Qed.
Print Assumptions C91_settled.
(* records are only added, with growing numbers *)
Theorem C91_numbered : forall refs0 part, refs0 = 0%Z \/ refs0 = 1%Z -> forall y m, reached refs0 part y ->
  StronglySorted N.lt (map fst (y_log y)) /\
  (y_log (moved refs0 part y m) = y_log y \/
   exists t log, m = Go t /\ y_threads y t = Adding log [] /\
     y_log (moved refs0 part y m) = y_log y ++ [((y_lsn y + 1)%N, map en_event log)] /\
     forall n, In n (map fst (y_log y)) -> (n < y_lsn y + 1)%N).
Proof. exact numbered. Qed.
Print Assumptions C91_numbered.
Example C91_example : reached 0 ten (run 0 (sample ++ [Go 3; Go 3])) /\
  let y := run 0 (sample ++ [Go 3; Go 3]) in
  map fst (y_log y) = [1; 2]%N /\ y_acks y = [1; 2]%N /\ pending (y_threads y 1) = [ev 5 9; ev 15 9] /\
  holds ten y 1 = [1; 0]%N /\ holds ten y 5 = [2]%N /\
  view y 0 (5, [])%N = Some (ev 5 9) /\ serial ten y 0 (5, [])%N = Some (ev 5 2) /\ view y 2 (25, [])%N = Some (ev 25 1) /\
  snd (y_disk y 0%N) = 2%N /\ option_map snd (y_side y 1%N) = Some 2%N.
Proof. exact sample_fine. Qed.
Example C91_settled_example : reached 0 ten (run 0 sample_end) /\ quiet (run 0 sample_end) /\
  view (run 0 sample_end) 0 (5, [])%N = Some (ev 5 2) /\ view (run 0 sample_end) 3 (35, [])%N = None.
Proof. exact sample_quiet. Qed.

(* with a count that starts at 1 the histories below are within these theorems *)
Example C91_repaired_example : reached 1 ten (run 1 lost) /\ reached 1 ten (run 1 differ) /\ reached 1 ten (run 1 below) /\
  y_threads (run 1 lost) 3 = Adding [] [ev 5 6].
Proof. exact repaired. Qed.

(* a batch with two events in one partition gives the lock back twice: an acknowledged event of another
   thread is undone by the failure of a third, and a refresh makes that last *)
Theorem C91_lost_refuted : exists l, let y := moves 0 ten l in
  quiet y /\ y_acks y = [1; 2]%N /\ y_log y = [(1, [ev 1 1; ev 2 1]); (2, [ev 5 6])]%N /\
  view y 0 (5, [])%N = None /\ recover ten y 0 (5, [])%N = Some (ev 5 6) /\
  recover ten (moves 0 ten (l ++ [Rotate 0; Apply 0; Finish 0]))%N 0 (5, [])%N = None.
Proof. exact (ex_intro _ lost lost_is). Qed.
Print Assumptions C91_lost_refuted.
(* ... or readers see one of two versions, and after a restart the other *)
Theorem C91_differ_refuted : exists l, let y := moves 0 ten l in
  quiet y /\ y_acks y = [1; 2; 3]%N /\ y_log y = [(1, [ev 1 1; ev 2 1]); (2, [ev 5 6]); (3, [ev 5 5])]%N /\
  view y 0 (5, [])%N = Some (ev 5 6) /\ recover ten y 0 (5, [])%N = Some (ev 5 5).
Proof. exact (ex_intro _ differ differ_is). Qed.
Print Assumptions C91_differ_refuted.
(* a thread that writes below its cursor loses the lock of its cursor, and reads an event that never was *)
Theorem C91_cursor_refuted : exists l, let y := moves 0 ten l in
  y_cursors y 1 = [0]%N /\ y_threads y 1 = Idle /\ y_log y = [(1, [ev 1 1])]%N /\ view y 0 (5, [])%N = Some (ev 5 5) /\
  view (moves 0 ten (l ++ [Fail 2; Go 2; Go 2])) 0 (5, [])%N = None.
Proof. exact (ex_intro _ below below_is). Qed.
Print Assumptions C91_cursor_refuted.
(* a scan over two partitions can see one half of a batch *)
Theorem C91_scan_refuted : exists l1 l2, reached 0 ten (moves 0 ten l1) /\ reached 0 ten (moves 0 ten (l1 ++ l2)) /\
  y_cursors (moves 0 ten l1) 1 = [0]%N /\ view (moves 0 ten l1) 0 (5, [])%N = None /\
  y_cursors (moves 0 ten (l1 ++ l2)) 1 = [1]%N /\ view (moves 0 ten (l1 ++ l2)) 1 (15, [])%N = Some (ev 15 5) /\
  y_log (moves 0 ten (l1 ++ l2)) = [(1, [ev 5 5; ev 15 5])]%N.
Proof. exact (ex_intro _ scan1 (ex_intro _ scan2 torn_scan)). Qed.
Print Assumptions C91_scan_refuted.
