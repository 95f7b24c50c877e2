(* C86: cursors when regions of partition files cannot be read. *)
From Coq Require Import NArith ZArith List Bool Sorted.
Import ListNotations.
From Verif Require Import Model.Base Model.Event Model.Memtable Model.Mapping Model.PartIter Model.Scan
  Model.Faulty Model.Engine Spec.Order Spec.View Spec.Engine Spec.Faulty Proof.FaultyP Proof.FaultyX.

(* a program that asks again after every error gets, once each and ascending, what is left without the
   regions that cannot be read; a file whose first region cannot be read when a cursor comes to it is
   left out whole *)
Theorem C86_retry : forall lo iv serial page region ops en bad key, limits lo iv ->
  hist_fine lo (engine_new iv serial page region) ops ->
  erun (engine_new iv serial page region) ops = Ok en -> start_ok lo en key ->
  exists n, forall fuel, n < fuel ->
  fscan bad fuel (en_map en) key = Ok (Some None) \/
  exists tr, fscan bad fuel (en_map en) key = Ok (Some (Some tr)) /\ ascending (saw tr) /\
    forall e, In e (saw tr) <-> visible (map (remains bad key) (mapping_list (en_map en))) e /\ from key e.
Proof. exact retry_history. Qed.
Print Assumptions C86_retry.
Example C86_example : limits 0 10 /\ hist_fine 0 en_f f_ops /\ erun en_f f_ops = Ok f_en.
Proof. exact f_fine. Qed.
Example C86_example_start : start_ok 0 f_en None /\ start_ok 0 f_en (Some (mk_event 7 0 [] [])).
Proof. exact f_start. Qed.
Example C86_example_scan :
  fscan (one 0 1) 60 (en_map f_en) None = Ok (Some (Some
    [Saw (fe 5 50); Failed; Saw (fe 8 8); Saw (fe 9 90); Saw (fe 15 1); Saw (fe 16 1); Saw (fe 17 2); Saw (fe 25 3)])) /\
  fscan (one 10 0) 60 (en_map f_en) None = Ok (Some (Some
    [Saw (fe 5 50); Saw (fe 7 7); Saw (fe 8 8); Saw (fe 9 90); Failed; Saw (fe 17 2); Saw (fe 25 3)])) /\
  fscan (one 0 0) 60 (en_map f_en) None = Ok (Some None) /\
  fscan (one 0 0) 60 (en_map f_en) (Some (mk_event 7 0 [] [])) = Ok (Some (Some
    [Saw (fe 7 7); Saw (fe 8 8); Saw (fe 9 90); Saw (fe 15 1); Saw (fe 16 1); Saw (fe 17 2); Saw (fe 25 3)])).
Proof. exact f_scan. Qed.

(* what is read, before and after errors, is acknowledged, live and the newest version *)
Theorem C86_true : forall lo iv serial page region ops en bad key, limits lo iv ->
  hist_fine lo (engine_new iv serial page region) ops ->
  erun (engine_new iv serial page region) ops = Ok en -> start_ok lo en key ->
  exists n, forall fuel tr e, n < fuel -> fscan bad fuel (en_map en) key = Ok (Some (Some tr)) -> In e (saw tr) ->
    current (acked (engine_new iv serial page region) ops []) e /\ from key e.
Proof. exact seen_history. Qed.
Print Assumptions C86_true.

(* the events before the first error are the first ones of the whole scan; without an error it is whole *)
Theorem C86_prefix : forall lo iv serial page region ops en bad key, limits lo iv ->
  hist_fine lo (engine_new iv serial page region) ops ->
  erun (engine_new iv serial page region) ops = Ok en -> start_ok lo en key ->
  exists n out, forall fuel, n < fuel ->
  monotone_scan fuel (en_map en) key = Ok (Some out) /\
  (fscan bad fuel (en_map en) key = Ok (Some None) \/
   exists tr rest, fscan bad fuel (en_map en) key = Ok (Some (Some tr)) /\ out = before_error tr ++ rest /\
     (~ In Failed tr -> saw tr = out)).
Proof. exact prefix_history. Qed.
Print Assumptions C86_prefix.

(* with every region readable the cursor opens and the scan is whole *)
Theorem C86_calm : forall lo iv serial page region ops en key, limits lo iv ->
  hist_fine lo (engine_new iv serial page region) ops ->
  erun (engine_new iv serial page region) ops = Ok en -> start_ok lo en key ->
  exists n, forall fuel, n < fuel -> exists tr out,
  fscan (fun _ _ => false) fuel (en_map en) key = Ok (Some (Some tr)) /\
  monotone_scan fuel (en_map en) key = Ok (Some out) /\ saw tr = out.
Proof. exact calm_history. Qed.
Print Assumptions C86_calm.

(* asked again after the error, with every region readable again, the cursor leaves out the region and
   ends without another error *)
Theorem C86_lost_refuted : exists c c' tr e,
  fmonotone_cursor (one 0 1) 60 (en_map f_en) None = Ok (Some (Some c)) /\ fmonotone_read c = Some (fe 5 50) /\
  fmonotone_next (one 0 1) 60 (en_map f_en) c = Ok (Some (c', (-1)%Z)) /\
  fread (fun _ _ => false) 60 60 (en_map f_en) c' = Ok (Some tr) /\ ~ In Failed tr /\ length tr = 6 /\
  f_current e /\ ev_lt (fe 5 50) e /\ ~ In e (saw tr).
Proof. exact f_lost. Qed.
Print Assumptions C86_lost_refuted.

(* one region that could not be read hides the whole file, its readable regions too *)
Theorem C86_file_refuted : exists c c' tr e,
  fmonotone_cursor (one 10 0) 60 (en_map f_en) (Some (mk_event 9 0 [] [])) = Ok (Some (Some c)) /\
  fmonotone_read c = Some (fe 9 90) /\
  fmonotone_next (one 10 0) 60 (en_map f_en) c = Ok (Some (c', (-1)%Z)) /\
  fread (fun _ _ => false) 60 60 (en_map f_en) c' = Ok (Some tr) /\ tr = [Saw (fe 17 2); Saw (fe 25 3)] /\
  f_current e /\ ev_lt (fe 9 90) e /\ ~ In e (saw tr) /\
  (exists s f, In s (mapping_list (en_map f_en)) /\ s_min s = 10%N /\ pt_file (s_data s) = Some f /\
     exists r, nth_error f 1 = Some r /\ In e r).
Proof. exact f_file. Qed.
Print Assumptions C86_file_refuted.

(* monotone_read after the error shows an event ahead of the one that comes next *)
Theorem C86_reread_refuted : exists c c' c'',
  fmonotone_cursor (one 0 1) 60 (en_map f_en) None = Ok (Some (Some c)) /\
  fmonotone_next (one 0 1) 60 (en_map f_en) c = Ok (Some (c', (-1)%Z)) /\ fmonotone_read c' = Some (fe 9 90) /\
  fmonotone_next (one 0 1) 60 (en_map f_en) c' = Ok (Some (c'', 1%Z)) /\ fmonotone_read c'' = Some (fe 8 8).
Proof. exact f_reread. Qed.
Print Assumptions C86_reread_refuted.

(* or says that the cursor is at its end though events follow *)
Theorem C86_end_refuted : exists c c' c'',
  fmonotone_cursor (one 10 1) 60 (en_map f_en) (Some (mk_event 15 0 [] [])) = Ok (Some (Some c)) /\
  fmonotone_next (one 10 1) 60 (en_map f_en) c = Ok (Some (c', (-1)%Z)) /\ fmonotone_read c' = None /\
  fmonotone_next (one 10 1) 60 (en_map f_en) c' = Ok (Some (c'', 1%Z)) /\ fmonotone_read c'' = Some (fe 17 2).
Proof. exact f_end. Qed.
Print Assumptions C86_end_refuted.
