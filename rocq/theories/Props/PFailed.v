(* C85: a batch that fails while a cursor is open *)
From Coq Require Import NArith ZArith List Bool.
Import ListNotations.
From Verif Require Import Model.Base Model.Event Model.Memtable Model.Failed Spec.Order Proof.FailedL Proof.FailedX.

(* no event of the batch is below the cursor: it stands where it stood and the same events follow *)
Theorem C85_above : forall lo m pg c x es, ascending (pg_ev pg) -> Forall (fun a => ev_ok a /\ win lo a) (pg_ev pg) -> Forall (fun a => ev_ok a /\ win lo a) es ->
  nth_error (pg_ev pg) c = Some x -> Forall (ev_le x) es -> length (pg_ev pg) + length es <= mt_size_page m ->
  failed_batch m pg (mk_pos (pg_id pg) c (Some x)) es = Ok (pg, mk_pos (pg_id pg) c (Some x)) /\
  cursor_view pg (mk_pos (pg_id pg) c (Some x)) = (Some x, filter (gtb x) (pg_ev pg)).
Proof. exact failed_keeps. Qed.
Print Assumptions C85_above.
Example C85_above_example : ascending (pg_ev fpage) /\ Forall (fun a => ev_ok a /\ win 0 a) (pg_ev fpage) /\
  Forall (fun a => ev_ok a /\ win 0 a) fabove /\ Forall (ev_le (fev 30 0)) fabove /\ nth_error (pg_ev fpage) 2 = Some (fev 30 0).
Proof. exact (conj (proj1 fpage_ok) (conj (proj1 (proj2 fpage_ok)) fabove_ok)). Qed.

(* one event below the cursor: exactly what the cursor shows afterwards and what follows *)
Theorem C85_below : forall lo m pg c x e, ascending (pg_ev pg) -> Forall (fun a => ev_ok a /\ win lo a) (pg_ev pg) -> ev_ok e -> win lo e ->
  nth_error (pg_ev pg) c = Some x -> ev_lt e x -> length (pg_ev pg) < mt_size_page m ->
  let later := filter (gtb x) (pg_ev pg) in
  exists it, failed_batch m pg (mk_pos (pg_id pg) c (Some x)) [e] = Ok (pg, it) /\
  cursor_view pg it =
    match lookup (pg_ev pg) e with
    | Some _ => (nth_error later 1, skipn 2 later)
    | None => if existsb (fun y => match ev_cmp e y, ev_cmp y x with Lt, Lt => true | _, _ => false end) (pg_ev pg)
              then (Some x, tl later) else (Some e, later)
    end.
Proof. exact failed_below. Qed.
Print Assumptions C85_below.
Example C85_below_example : forall e, In e [fev 5 1; fev 20 1; fev 25 1] -> ev_ok e /\ win 0 e /\ ev_lt e (fev 30 0).
Proof. exact fbelow_cases. Qed.
(* so the cursor skips an event, shows an event that was never stored, or skips two *)
Theorem C85_refuted : let m := memtable_new in
  cursor_view fpage (fat 2) = (Some (fev 30 0), [fev 40 0; fev 50 0]) /\
  view_of (failed_batch m fpage (fat 2) [fev 5 1]) = Ok (Some (fev 30 0), [fev 50 0]) /\
  view_of (failed_batch m fpage (fat 2) [fev 25 1]) = Ok (Some (fev 25 1), [fev 40 0; fev 50 0]) /\
  view_of (failed_batch m fpage (fat 2) [fev 20 1]) = Ok (Some (fev 50 0), []).
Proof. exact fviews. Qed.
Print Assumptions C85_refuted.
