(* C102: refused batches over memory tables of any number of pages. *)
From Coq Require Import NArith ZArith List Bool Sorted.
Import ListNotations.
From Verif Require Import Model.Base Model.Event Model.Memtable Model.Mapping Model.Merge
  Model.PartIter Model.Scan Model.Engine Spec.Order Spec.Layout Spec.Merged Spec.Files Spec.Regions
  Spec.View Spec.Engine Spec.Grow Proof.GrowL Proof.GrowX Proof.GrowU.

(* a refused batch leaves every partition and every scan as it was *)
Theorem C102_refused : forall lo iv serial page region ops l logged, limits lo iv -> (lo + 2^31 < 2^63)%N ->
  try_hist lo (engine_new iv serial page region) (ops ++ [EWrite l logged]) ->
  exists en, erun (engine_new iv serial page region) ops = Ok en /\
    (exists en' r, engine_write en l logged = Ok (en', r)) /\
    forall en', engine_write en l logged = Ok (en', None) ->
      same_data en en' /\
      exists out n, forall fuel, n < fuel ->
        monotone_scan fuel (en_map en) None = Ok (Some out) /\
        monotone_scan fuel (en_map en') None = Ok (Some out).
Proof. exact refused_kept. Qed.
Print Assumptions C102_refused.
Example C102_refused_example : limits 0 5000 /\ (0 + 2^31 < 2^63)%N /\
  try_hist 0 en1 (try_ops ++ [EWrite try_last false]).
Proof. exact try_ops_fine. Qed.

(* histories with refused batches: a scan returns what was acknowledged *)
Theorem C102_history : forall lo iv serial page region ops, limits lo iv -> (lo + 2^31 < 2^63)%N ->
  try_hist lo (engine_new iv serial page region) ops ->
  exists en, erun (engine_new iv serial page region) ops = Ok en /\
    exists out n, (forall fuel, n < fuel -> monotone_scan fuel (en_map en) None = Ok (Some out)) /\
      ascending out /\
      forall e, In e out <-> current (acked (engine_new iv serial page region) ops []) e.
Proof. exact try_scan. Qed.
Print Assumptions C102_history.
Example C102_history_example :
  length (acked en1 (try_ops ++ [EWrite try_last false]) []) = N.to_nat 537.
Proof. exact try_ops_refused. Qed.

(* with a start, when no table has a second page *)
Theorem C102_start : forall lo iv serial page region ops, limits lo iv ->
  try_hist lo (engine_new iv serial page region) ops ->
  exists en, erun (engine_new iv serial page region) ops = Ok en /\
    forall key, start_fine lo key -> one_page en ->
    exists out n, (forall fuel, n < fuel -> monotone_scan fuel (en_map en) key = Ok (Some out)) /\
      ascending out /\
      forall e, In e out <-> current (acked (engine_new iv serial page region) ops []) e /\ from key e.
Proof. exact try_keyed. Qed.
Print Assumptions C102_start.
Example C102_start_example : exists ops en, try_hist 0 en1 ops /\ erun en1 ops = Ok en /\ one_page en.
Proof. exact try_ops_one. Qed.
