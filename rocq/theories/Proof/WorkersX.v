From Coq Require Import NArith ZArith Arith List Bool Lia.
Import ListNotations.
From Verif Require Import Model.Base Model.Service Model.Workers Spec.Threads Proof.WorkersL Proof.WorkersT.

(* a worker without a thread: monotone_free does not come past it *)
Record broken (w : world) (n : nat) : Prop := {
  br_workers : wd_workers w = Some 0%nat;
  br_count : (Z.of_nat n < wd_count w)%Z;
  br_slot : exists a x, wd_arrays w = [Some a] /\ nth_error a n = Some (Some x) /\ w_thread x = None;
  br_caller : exists j, wd_caller w = Joining j /\ (j <= n)%nat;
  br_handle : wd_handle w = true }.
Lemma broken_step w n l : broken w n -> step w l = UB \/ exists w', step w l = Ok w' /\ broken w' n.
Proof.
  intros B. assert (B' := B). destruct B' as [W C [a [x [A [X T]]]] [j [Q J]] H].
  destruct l as [k u o| | |h|c h|c|t|t]; try (right; exists w; split; [cbn [step]; rewrite Q; reflexivity|exact B]).
  - cbn [step]. unfold go. rewrite Q, (proj2 (Z.ltb_lt _ _)) by lia. rewrite W, A. cbn [nth_error].
    destruct (nth_error a j) as [[y|]|] eqn:E; [|left; reflexivity..].
    destruct (w_thread y) as [t|] eqn:E1; [|left; reflexivity].
    destruct (nth_error (wd_threads w) t) as [th|] eqn:E2; [|left; reflexivity].
    destruct (t_state th); [right; exists w; auto| |left; reflexivity].
    right. eexists. split; [reflexivity|]. assert (NJ : j <> n) by (intros ->; rewrite X in E; injection E as <-; congruence).
    constructor; cbn [wd_workers wd_count wd_arrays wd_caller wd_handle]; auto.
    + eexists _, x. split; [reflexivity|]. split; [|exact T]. rewrite nth_set, (proj2 (Nat.eqb_neq _ _)) by exact NJ. exact X.
    + exists (S j). split; [reflexivity|lia].
  - cbn [step]. destruct (nth_error (wd_threads w) t) as [th|]; [|right; exists w; auto].
    destruct (t_state th); [destruct (sees w th); [right; exists w; auto|left; reflexivity]|right; exists w; auto..].
  - cbn [step]. destruct (nth_error (wd_threads w) t) as [th|]; [|right; exists w; auto].
    destruct (t_state th); [|right; exists w; auto..].
    destruct (sees w th); [|left; reflexivity]. destruct (wd_shutdown w); [|right; exists w; auto]. right. eexists. split; [reflexivity|].
    constructor; auto. exists a, x. auto. exists j. auto.
Qed.
Lemma broken_run n : forall ls w, broken w n -> forall w', run w ls = Ok w' -> wd_handle w' = true.
Proof.
  induction ls as [|l ls IH]; intros w B w' R; cbn [run] in R.
  - injection R as <-. exact (br_handle _ _ B).
  - destruct (broken_step w n l B) as [E|[w1 [E B1]]]; rewrite E in R; cbn [bind] in R; [discriminate|exact (IH w1 B1 w' R)].
Qed.
Lemma refused_stays k u before after ls w : (k + u < 2 ^ 31)%N -> Forall (eq true) before -> (length before < length (asked k u))%nat ->
  run world0 (Open k u (Threads (before ++ false :: after)) :: Free :: ls) = Ok w -> wd_handle w = true.
Proof.
  intros H F L R. cbn [run step wd_caller world0 wd_handle negb] in R. fold world0 in R.
  rewrite (start_refused world0 k u before after H F L) in R. cbn [bind opened_with wd_caller world0 wd_handle negb] in R.
  refine (broken_run (length before) ls _ _ w R).
  destruct (skipn_cons (asked k u) (length before) L) as [f [F1 [F2 F3]]].
  constructor; cbn [wd_workers wd_count wd_arrays wd_caller wd_handle length app]; try reflexivity.
  - apply (proj1 (Nat2Z.inj_lt _ _)). exact L.
  - eexists _, (mk_worker f None). split; [reflexivity|]. split; [|reflexivity]. rewrite F2. cbn [blank map]. apply nth_at.
    rewrite number_length, firstn_length. lia.
  - exists 0%nat. split; [reflexivity|lia].
Qed.

(* witnesses *)
Definition sample_run : list label :=
  [Open 2 1 FailsBefore; Open 2 1 (Threads [true; true]); Cursor true; Works 1; Use 0 true; Works 2; FreeCursor 0;
   Cursor false; Free; Works 0; Go; Ends 1; Go; Ends 0; Go; Go; Ends 2; Go; Go; Go; FreeCursor 1].
Lemma sample_careful : careful plan0 sample_run.
Proof.
  cbn [sample_run careful allowed next plan0 p_freed p_opened p_cursors app].
  repeat match goal with |- _ /\ _ => split end; try exact I; try reflexivity; try (eexists; reflexivity).
  all: repeat constructor; cbn; intros; try discriminate; reflexivity.
Qed.
Lemma sample_freed : exists w, run world0 sample_run = Ok w /\ wd_handle w = false /\ length (wd_threads w) = 3%nat /\ p_freed (known sample_run) = true.
Proof. eexists. split; [vm_compute; reflexivity|]. repeat split. Qed.
Lemma sample_asked : asked 2 1 = [WithoutUpload; WithoutUpload; OnlyUpload] /\ asked 3 0 = [Any; Any; Any].
Proof. split; reflexivity. Qed.

Lemma upload_minus_one : run world0 [Open 3 4294967295 (Threads [])] = UB.
Proof. reflexivity. Qed.
Lemma no_memory : run world0 [Open 3 1 NoMemory; Free; Go] = UB.
Proof. reflexivity. Qed.
Lemma no_thread : run world0 [Open 3 1 (Threads [true; false]); Free; Ends 0; Go; Go] = UB.
Proof. reflexivity. Qed.
Lemma opened_twice : exists ls w, run world0 ([Open 1 0 (Threads []); Open 1 0 (Threads []); Free; Ends 1] ++ ls) = Ok w /\
  Forall free_step ls /\ wd_handle w = false /\ step w (Works 0) = UB.
Proof. exists [Go; Go; Go]. eexists. split; [vm_compute; reflexivity|]. split; [repeat constructor|]. split; reflexivity. Qed.
Lemma cursor_after : exists ls w, run world0 ([Open 1 0 (Threads []); Cursor true; Free; Ends 0] ++ ls) = Ok w /\
  Forall free_step ls /\ wd_handle w = false /\ step w (FreeCursor 0) = UB /\ step w (Use 0 true) = UB /\ step w Free = UB.
Proof. exists [Go; Go; Go]. eexists. split; [vm_compute; reflexivity|]. split; [repeat constructor|]. repeat split. Qed.
Lemma refused_sample : (3 + 1 < 2 ^ 31)%N /\ Forall (eq true) [true] /\ (length [true] < length (asked 3 1))%nat /\
  exists w, run world0 [Open 3 1 (Threads ([true] ++ false :: [])); Free; Ends 0; Go] = Ok w.
Proof. split; [reflexivity|]. split; [repeat constructor|]. split; [apply Nat.ltb_lt; reflexivity|]. eexists. vm_compute. reflexivity. Qed.
