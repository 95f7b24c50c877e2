(* Failed batches under a cursor: cases *)
From Coq Require Import NArith ZArith List Bool Lia Sorted.
Import ListNotations.
From Verif Require Import Model.Base Model.Event Model.Memtable Model.Failed Spec.Order.

Definition fev (i v : N) : event := mk_event i 0 [] [v].
Definition fpage : page := mk_page 0 [fev 10 0; fev 20 0; fev 30 0; fev 40 0; fev 50 0].
Definition fat (i : nat) : mt_pos := mk_pos 0 i (nth_error (pg_ev fpage) i).
Lemma fpage_ok : ascending (pg_ev fpage) /\ Forall (fun a => ev_ok a /\ win 0 a) (pg_ev fpage) /\ length (pg_ev fpage) < 512.
Proof.
  split; [|split].
  - repeat constructor; vm_compute; reflexivity.
  - repeat constructor; vm_compute; congruence.
  - vm_compute. lia.
Qed.
Definition fabove : list event := [fev 30 1; fev 35 1; fev 30 2; fev 60 1].
Lemma fabove_ok : Forall (fun a => ev_ok a /\ win 0 a) fabove /\ Forall (ev_le (fev 30 0)) fabove /\ nth_error (pg_ev fpage) 2 = Some (fev 30 0).
Proof. repeat split; repeat constructor; vm_compute; congruence. Qed.
Lemma fbelow_cases : forall e, In e [fev 5 1; fev 20 1; fev 25 1] -> ev_ok e /\ win 0 e /\ ev_lt e (fev 30 0).
Proof. intros e [<-|[<-|[<-|[]]]]; repeat split; repeat constructor; vm_compute; congruence. Qed.
Definition view_of (r : res (page * mt_pos)) : res (option event * list event) :=
  match r with Ok (pg, it) => Ok (cursor_view pg it) | Err => Err | UB => UB end.
Lemma fviews : let m := memtable_new in
  cursor_view fpage (fat 2) = (Some (fev 30 0), [fev 40 0; fev 50 0]) /\
  view_of (failed_batch m fpage (fat 2) [fev 5 1]) = Ok (Some (fev 30 0), [fev 50 0]) /\
  view_of (failed_batch m fpage (fat 2) [fev 25 1]) = Ok (Some (fev 25 1), [fev 40 0; fev 50 0]) /\
  view_of (failed_batch m fpage (fat 2) [fev 20 1]) = Ok (Some (fev 50 0), []).
Proof. vm_compute. repeat split. Qed.
