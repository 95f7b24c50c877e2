(* Programs for which exclusion or progress fails. *)
From Coq Require Import NArith ZArith Arith List Bool Lia.
Import ListNotations.
From Verif Require Import Model.Locks Spec.Locks Proof.LocksL Proof.LocksE Proof.LocksT.
Local Arguments Nat.eqb : simpl never.

Definition to (l : list nat) : list move := map Go l.
Definition after_moves (progs : list (list act)) (l : list move) : sys := match moves (start progs) l with Some s => s | None => start progs end.
Lemma reached_by progs l : (exists s, moves (start progs) l = Some s) -> reached progs (after_moves progs l).
Proof. intros (s & H). exists l. unfold after_moves. rewrite H. reflexivity. Qed.
Ltac holds_now := eexists; split; [vm_compute; reflexivity|vm_compute; tauto].

(* thread 0 writes two events of partition 1, thread 1 writes one, thread 2 refreshes the partition *)
Definition two_and_one : list (list call) := [[Write [1; 1]]; [Write [1]]; [Refresh 1]].
(* 0: both events locked, one given back; 1 takes the lock; 0 gives back the second time; 2 takes it *)
Definition early : list nat := [0; 0; 0; 0; 0; 1; 1; 0; 0; 2; 2; 2].
Lemma early_both : let s := after_moves (map program two_and_one) (to early) in
  reached (map program two_and_one) s /\ holds s 1 (access 1) /\ holds s 2 (access 1) /\ holds s 2 (service 1).
Proof.
  split; [apply reached_by; eexists; vm_compute; reflexivity|]. split; [holds_now|]. split; holds_now.
Qed.
(* a cursor is open on partition 1 and its thread writes an event there; another thread drops the file *)
Definition under_cursor : list (list act) := [cursor_on 1 (engine_write [1] ++ engine_write [1]); program [DropFile 1]].
Lemma cursor_both : let s := after_moves under_cursor (to [0; 0; 0; 0; 0; 0; 1; 1; 1]) in
  reached under_cursor s /\ holds s 0 (access 1) /\ holds s 1 (access 1).
Proof. split; [apply reached_by; eexists; vm_compute; reflexivity|]. split; holds_now. Qed.

(* two batches over the same partitions in opposite order *)
Definition crossed : list (list call) := [[Write [1; 2]]; [Write [2; 1]]].
Definition embrace (s : sys) : Prop := exists x y r q, s_threads s = [x; y] /\ th_mode x <> Run /\ th_mode y <> Run /\
  th_code x = Lock (access 2) :: r /\ th_code y = Lock (access 1) :: q /\ lk_owner (s_locks s (access 1)) = Some 0 /\ lk_owner (s_locks s (access 2)) = Some 1.
Lemma embrace_move s m s' : embrace s -> moved s m = Some s' -> embrace s'.
Proof.
  intros (x & y & r & q & T & Mx & My & Cx & Cy & O1 & O2) M. destruct m as [t|t]; cbn [moved] in M.
  - unfold step in M. rewrite T in M. destruct t as [|[|t]]; cbn [nth_error] in M; [| |rewrite nth_error_nil in M || (destruct t; cbn [nth_error] in M); discriminate].
    + rewrite Cx in M. destruct (th_mode x); [congruence|discriminate|]. unfold lockage_again, lockage_turn in M. cbn [lk_owner] in M. rewrite O2 in M. injection M as <-. cbn [set_nth].
      eexists _, y, r, q. cbn [s_threads s_locks]. split; [reflexivity|]. cbn [th_mode th_code]. split; [discriminate|]. split; [exact My|]. split; [reflexivity|]. split; [exact Cy|]. rewrite !set_lock_at. split; [exact O1|reflexivity].
    + rewrite Cy in M. destruct (th_mode y); [congruence|discriminate|]. unfold lockage_again, lockage_turn in M. cbn [lk_owner] in M. rewrite O1 in M. injection M as <-. cbn [set_nth].
      eexists x, _, r, q. cbn [s_threads s_locks]. split; [reflexivity|]. cbn [th_mode th_code]. split; [exact Mx|]. split; [discriminate|]. split; [exact Cx|]. split; [reflexivity|]. rewrite !set_lock_at. split; [reflexivity|exact O2].
  - rewrite T in M. assert (W : forall z, th_mode z <> Run -> th_mode (wake z) <> Run) by (intros z H; unfold wake; destruct (th_mode z) eqn:E; [congruence|discriminate|rewrite E; exact H]).
    destruct t as [|[|t]]; cbn [nth_error] in M; [| |destruct t; cbn [nth_error] in M; discriminate].
    + injection M as <-. cbn [set_nth]. exists (wake x), y, r, q. destruct (wake_same x) as (E & _). cbn [s_threads s_locks]. rewrite E. split; [reflexivity|]. split; [apply W, Mx|]. repeat split; assumption.
    + injection M as <-. cbn [set_nth]. exists x, (wake y), r, q. destruct (wake_same y) as (E & _). cbn [s_threads s_locks]. rewrite E. split; [reflexivity|]. split; [exact Mx|]. split; [apply W, My|]. repeat split; assumption.
Qed.
Lemma embrace_stuck s : embrace s -> stuck s.
Proof.
  intros E l s' M F. destruct (moves_inv embrace embrace_move l s s' E M) as (x & y & r & q & T & _ & _ & C & _). unfold finished in F. rewrite T in F. apply Forall_inv in F. congruence.
Qed.
Lemma crossed_stuck : let s := after_moves (map program crossed) (to [0; 0; 1; 1; 0; 0; 1; 1]) in reached (map program crossed) s /\ stuck s.
Proof.
  split; [apply reached_by; eexists; vm_compute; reflexivity|]. apply embrace_stuck. eexists _, _, _, _. split; [vm_compute; reflexivity|]. split; [discriminate|]. split; [discriminate|]. split; [vm_compute; reflexivity|]. split; [vm_compute; reflexivity|]. split; vm_compute; reflexivity.
Qed.

(* a command which needs the control lock, in a thread with an open cursor *)
Definition waits_for_itself (s : sys) : Prop := exists x r, s_threads s = [x] /\ th_mode x = Run /\ th_code x = Exclude :: r /\ 0 < th_shares x.
Lemma self_move s m s' : waits_for_itself s -> moved s m = Some s' -> waits_for_itself s'.
Proof.
  intros (x & r & T & Mx & Cx & P) M. destruct m as [t|t]; cbn [moved] in M.
  - unfold step in M. rewrite T in M. destruct t as [|t]; cbn [nth_error] in M; [|destruct t; discriminate]. rewrite Mx, Cx in M. unfold no_reader in M. cbn [forallb] in M. destruct (Nat.eqb_spec (th_shares x) 0); [lia|]. cbn [andb] in M. rewrite Bool.andb_false_r in M. discriminate.
  - rewrite T in M. destruct t as [|t]; cbn [nth_error] in M; [|destruct t; discriminate]. injection M as <-. exists x, r. cbn [s_threads set_nth]. unfold wake. rewrite Mx. repeat split; assumption.
Qed.
Lemma self_stuck s : waits_for_itself s -> stuck s.
Proof.
  intros E l s' M F. destruct (moves_inv waits_for_itself self_move l s s' E M) as (x & r & T & _ & C & _). unfold finished in F. rewrite T in F. apply Forall_inv in F. congruence.
Qed.
Lemma cursor_stuck p r : exists s, moves (start [cursor_on p (exclusive ++ r)]) (to [0; 0]) = Some s /\ stuck s.
Proof.
  eexists. split; [cbn; reflexivity|]. apply self_stuck. eexists _, _. split; [reflexivity|]. split; [reflexivity|]. split; [reflexivity|]. cbn. lia.
Qed.
