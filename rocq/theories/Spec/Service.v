(* Background work: what is expected of the queue and its workers. *)
From Coq Require Import NArith ZArith Arith List Bool.
Import ListNotations.
From Verif Require Import Model.Base Model.Service.

Definition all_ready (ws : list worker) : Prop := Forall (fun k => wk_state k = Ready) ws.
Definition reached (ws : list worker) (y : system) : Prop := exists l, moves (start ws) l = Ok y.
(* requests in the hands of workers; requests that came to an end, well or not *)
Definition in_hands (y : system) : list req :=
  flat_map (fun k => match wk_state k with Busy r => [r] | _ => [] end) (y_workers y).
Definition ended (l : list event) : list nat :=
  flat_map (fun e => match e with Ended n => [n] | Failed n _ => [n] | _ => [] end) l.
(* the actions of request [n] that were done, in order; the log is newest first *)
Definition done (n : nat) (l : list event) : list action :=
  flat_map (fun e => match e with Ran m a => if m =? n then [a] else [] | _ => [] end) (rev l).
Definition uploads (l : list req) : nat := length (List.filter is_upload l).
(* [q] in this queue is the oldest request for [f] *)
Definition oldest_for (f : filter) (q : list req) (r : req) (rest : list req) : Prop :=
  exists a b, q = a ++ r :: b /\ rest = a ++ b /\ service_filter r f = true /\ Forall (fun x => service_filter x f = false) a.
(* there are workers for every kind of request *)
Definition manned (ws : list worker) : Prop :=
  (exists k, In k ws /\ wk_filter k = Any) \/
  (exists k, In k ws /\ wk_filter k = WithoutUpload) /\ (exists k, In k ws /\ wk_filter k = OnlyUpload).
(* nothing left to do *)
Definition idle (y : system) : Prop := sv_list (y_service y) = [] /\ in_hands y = [].
(* requests made for a partition by [Want], and its replacements, newest first *)
Definition about (p : N) (l : list event) : list bool :=
  flat_map (fun e => match e with Asked q => if (q =? p)%N then [true] else [] | Replaced q => if (q =? p)%N then [false] else [] | _ => [] end) l.
Fixpoint no_two (l : list bool) : Prop := match l with true :: (true :: _) => False | _ :: r => no_two r | [] => True end.
(* marked for refresh, with no request that will refresh it *)
Definition forgotten (y : system) (p : N) : Prop :=
  y_marks y p = true /\ Forall (fun r => rq_id r <> p) (sv_list (y_service y) ++ in_hands y).
(* nobody asks for partition [p] by other means *)
Definition leaves (p : N) (m : move) : Prop := match m with Add id _ _ => id <> p | Replace q => q <> p | _ => True end.
Definition fine : outcome := mk_outcome true true [].
