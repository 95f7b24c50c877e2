(* Consequences of AllocL.v, the pool of compression contexts, and witnesses. *)
From Coq Require Import NArith ZArith List Bool Arith Lia.
Import ListNotations.
From Verif Require Import Model.Base Model.Alloc Spec.Alloc Proof.AllocL.

Section Hist.
Variables (n : nat) (psize cache : Z) (limit lerr : bool) (wm : Z) (l : list sop) (s : sys).
Hypothesis Hp : (0 < psize < 2 ^ 31)%Z.
Hypothesis Hw : (0 <= wm)%Z.
Hypothesis Hf : hist_fine (sys_new n (mgr_new psize cache limit lerr wm)) l.
Hypothesis Hr : srun (sys_new n (mgr_new psize cache limit lerr wm)) l = Some s.

Lemma hist_inv : sinv s.
Proof. eapply srun_inv; [apply sys_new_inv; eassumption|exact Hf|exact Hr]. Qed.
Lemma hist_settings : mm_psize (sy_mgr s) = psize /\ mm_limit (sy_mgr s) = limit /\ mm_wm (sy_mgr s) = wm /\ mm_cache (sy_mgr s) = cache.
Proof. destruct (srun_settings _ _ _ Hr) as (H1 & H2 & H3 & H4 & H5). auto. Qed.

Lemma hist_disjoint :
  ForallOrdPairs separate (sy_blocks s) /\
  Forall (fun b => inside psize b /\ (0 <= bk_size b)%Z /\ In (bk_page b) (used_pages s) /\ ~ In (bk_page b) (mm_free (sy_mgr s))) (sy_blocks s).
Proof.
  pose proof hist_inv as I. split; [apply I|]. apply Forall_forall. intros b Hb.
  destruct (iv_blocks s I b Hb) as (h & u & H1 & H2 & H3). pose proof (iv_used s I _ _ _ _ H1 H2) as U.
  destruct hist_settings as (E & _). rewrite E in U.
  assert (Q : In (bk_page b) (used_pages s)) by (apply hp_in; eauto).
  split; [unfold inside; lia|]. split; [lia|]. split; [exact Q|].
  pose proof (iv_nodup s I) as D. apply nodup_app in D. apply D, Q.
Qed.

Lemma hist_counts : exists failed,
  (mm_count (sy_mgr s) = Z.of_nat (length (used_pages s)) + Z.of_nat (length (mm_free (sy_mgr s))) + failed /\ 0 <= failed /\
   mm_fcount (sy_mgr s) = Z.of_nat (length (mm_free (sy_mgr s))))%Z /\ NoDup (all_pages s).
Proof.
  pose proof hist_inv as I. exists (sy_failed s). pose proof (iv_count s I) as C. unfold all_pages in C. rewrite app_length in C.
  pose proof (iv_failed s I). pose proof (iv_fcount s I). pose proof (iv_nodup s I). repeat split; auto; lia.
Qed.

Lemma hist_limit : limit = true -> (Z.of_nat (length (all_pages s)) * psize < wm + psize)%Z.
Proof.
  intro L. pose proof hist_inv as I. destruct hist_settings as (E1 & E2 & E3 & _).
  pose proof (iv_limit s I) as Q. rewrite E1, E2, E3 in Q. specialize (Q L). rewrite (iv_count s I) in Q. pose proof (iv_failed s I) as F.
  assert (0 <= sy_failed s * psize)%Z by (apply Z.mul_nonneg_nonneg; lia). rewrite Z.mul_add_distr_r in Q. lia.
Qed.
End Hist.

(* no page is counted that was not mapped, while mmap works *)
Lemma sstep_mapped s o s' : (forall k z, o <> SAlloc k z None) -> sstep s o = Some s' -> sy_failed s' = sy_failed s.
Proof.
  intros Hm E. destruct o as [k size mmap|j|k|]; cbn [sstep] in E.
  - destruct (nth_error (sy_heaps s) k) as [h|]; [|discriminate]. destruct (waits s k); [discriminate|].
    injection E as <-. destruct mmap as [p|]; [|elim (Hm k size eq_refl)].
    assert (Q : (mm_count (snd (heap_allocate h size (Some p) (sy_mgr s))) <= mm_count (sy_mgr s) + 1)%Z).
    { assert (P : (mm_count (snd (memory_mgr_pop (Some p) (sy_mgr s))) <= mm_count (sy_mgr s) + 1)%Z).
      { unfold memory_mgr_pop, memory_mgr_pop_cache. destruct (mm_free (sy_mgr s)); [|cbn; lia]. destruct (_ && _); cbn; lia. }
      assert (A : forall h r, snd (add_page h size r) = snd r) by (intros h0 [[q| |] m0]; reflexivity).
      unfold heap_allocate. destruct (_ <? _)%Z; [cbn; lia|]. destruct h as [|[q u] t]; [rewrite A; exact P|].
      destruct (_ <? _)%Z; [rewrite A; exact P|cbn; lia]. }
    destruct (heap_allocate h size (Some p) (sy_mgr s)) as [[a h'] m']. cbn [snd alloc_done sy_failed] in *. lia.
  - destruct (nth_error (sy_wait s) j) as [[k size]|]; [|discriminate]. destruct (nth_error (sy_heaps s) k) as [h|]; [|discriminate].
    injection E as <-. destruct (heap_allocate_wake h size (sy_mgr s)) as [[a h'] m']. reflexivity.
  - destruct (nth_error (sy_heaps s) k) as [h|]; [|discriminate]. destruct (waits s k); [discriminate|]. injection E as <-. reflexivity.
  - injection E as <-. reflexivity.
Qed.
Lemma srun_mapped : forall l s s', all_mapped l -> srun s l = Some s' -> sy_failed s' = sy_failed s.
Proof.
  induction l as [|o l IH]; cbn [srun]; intros s s' Hm E; [congruence|].
  destruct (sstep s o) as [s1|] eqn:E1; [|discriminate].
  assert (Q : (forall k z, o <> SAlloc k z None) /\ all_mapped l).
  { destruct o as [k z [p|]|j|k|]; cbn [all_mapped] in Hm; try tauto; split; auto; intros; discriminate. }
  destruct Q as [Q1 Q2]. rewrite (IH _ _ Q2 E). eapply sstep_mapped; eauto.
Qed.
Lemma hist_exact n psize cache limit lerr wm l s :
  (0 < psize < 2 ^ 31)%Z -> (0 <= wm)%Z -> hist_fine (sys_new n (mgr_new psize cache limit lerr wm)) l -> all_mapped l ->
  srun (sys_new n (mgr_new psize cache limit lerr wm)) l = Some s ->
  mm_count (sy_mgr s) = (Z.of_nat (length (used_pages s)) + Z.of_nat (length (mm_free (sy_mgr s))))%Z.
Proof.
  intros Hp Hw Hf Hm Hr. pose proof (hist_inv _ _ _ _ _ _ _ _ Hp Hw Hf Hr) as I.
  pose proof (iv_count s I) as C. unfold all_pages in C. rewrite app_length in C. rewrite (srun_mapped _ _ _ Hm Hr) in C. cbn in C. lia.
Qed.

(* pages that were returned are used first *)
Lemma pop_reuse m mmap : mm_free m <> [] ->
  exists p t, mm_free m = p :: t /\ memory_mgr_pop mmap m = (PPage p, mgr_pages m (mm_count m) t (mm_fcount m - 1)).
Proof. unfold memory_mgr_pop, memory_mgr_pop_cache. destruct (mm_free m) as [|p t]; [congruence|]. intros _. exists p, t. auto. Qed.
Lemma push_keeps pages count m : (mm_fcount m * mm_psize m < mm_cache m)%Z ->
  mm_free (fst (memory_mgr_push pages count m)) = pages ++ mm_free m /\ mm_count (fst (memory_mgr_push pages count m)) = mm_count m.
Proof. intro H. unfold memory_mgr_push. apply Z.ltb_lt in H. rewrite H. auto. Qed.
Lemma push_unmaps pages count m : (mm_cache m <= mm_fcount m * mm_psize m)%Z ->
  memory_mgr_push pages count m = (mgr_pages m (mm_count m - count) (mm_free m) (mm_fcount m), pages).
Proof. intro H. unfold memory_mgr_push. apply Z.ltb_ge in H. rewrite H. auto. Qed.

(* what a heap gives back lets a waiting call go on, when there is room in the cache *)
Lemma wake_after_reset s k h s1 j kw size :
  nth_error (sy_heaps s) k = Some h -> h <> [] -> (mm_fcount (sy_mgr s) * mm_psize (sy_mgr s) < mm_cache (sy_mgr s))%Z ->
  nth_error (sy_wait s) j = Some (kw, size) -> (kw < length (sy_heaps s))%nat ->
  sstep s (SReset k) = Some s1 ->
  exists s2 p, sstep s1 (SWake j) = Some s2 /\ In p (map fst h) /\ sy_blocks s2 = mk_block kw p 0 size :: sy_blocks s1 /\
               sy_wait s2 = firstn j (sy_wait s) ++ skipn (S j) (sy_wait s).
Proof.
  intros Hk Hh Hc Hj Hkw E. cbn [sstep] in E. rewrite Hk in E. destruct (waits s k); [discriminate|]. injection E as <-.
  assert (R : heap_reset h (sy_mgr s) = memory_mgr_push (rev (map fst h)) (Z.of_nat (length h)) (sy_mgr s)) by (destruct h; [congruence|reflexivity]).
  destruct (push_keeps (rev (map fst h)) (Z.of_nat (length h)) _ Hc) as [F _].
  cbn [sstep sy_wait sy_heaps sy_mgr]. rewrite Hj, R.
  unfold heap in *.
  match goal with |- context [nth_error ?x kw] => destruct (nth_error x kw) as [hw|] eqn:Ew end.
  2: { apply nth_error_None in Ew. rewrite set_length in Ew. elim (Nat.lt_irrefl kw). eapply Nat.lt_le_trans; eassumption. }
  destruct (rev (map fst h)) as [|p t] eqn:Er.
  { apply (f_equal (@length N)) in Er. rewrite rev_length, map_length in Er. destruct h; [congruence|discriminate]. }
  eexists _, p. split; [reflexivity|]. split; [apply in_rev; rewrite Er; left; reflexivity|].
  unfold heap_allocate_wake, memory_mgr_wake, memory_mgr_pop_cache. rewrite F. cbn. auto.
Qed.

(* without a cache nobody ever goes on *)
Lemma stuck_step s o s' w : (mm_cache (sy_mgr s) <= 0)%Z -> (0 <= mm_psize (sy_mgr s))%Z -> mm_free (sy_mgr s) = [] -> (0 <= mm_fcount (sy_mgr s))%Z ->
  In w (sy_wait s) -> sstep s o = Some s' ->
  In w (sy_wait s') /\ mm_free (sy_mgr s') = [] /\ (0 <= mm_fcount (sy_mgr s'))%Z.
Proof.
  intros Hc Hp Hf Hn Hw E. destruct o as [k size mmap|j|k|]; cbn [sstep] in E.
  - destruct (nth_error (sy_heaps s) k) as [h|]; [|discriminate]. destruct (waits s k); [discriminate|].
    injection E as <-.
    assert (Q : mm_free (snd (heap_allocate h size mmap (sy_mgr s))) = [] /\ (0 <= mm_fcount (snd (heap_allocate h size mmap (sy_mgr s))))%Z).
    { assert (P : mm_free (snd (memory_mgr_pop mmap (sy_mgr s))) = [] /\ (0 <= mm_fcount (snd (memory_mgr_pop mmap (sy_mgr s))))%Z).
      { unfold memory_mgr_pop, memory_mgr_pop_cache. rewrite Hf. destruct (_ && _); [auto|]. destruct mmap; auto. }
      assert (A : forall h r, snd (add_page h size r) = snd r) by (intros h0 [[q| |] m0]; reflexivity).
      unfold heap_allocate. destruct (_ <? _)%Z; [auto|]. destruct h as [|[q u] t]; [rewrite A; exact P|].
      destruct (_ <? _)%Z; [rewrite A; exact P|auto]. }
    destruct (heap_allocate h size mmap (sy_mgr s)) as [[a h'] m']. cbn [snd alloc_done sy_wait sy_mgr] in *.
    split; [destruct a; auto; right; exact Hw|exact Q].
  - destruct (nth_error (sy_wait s) j) as [[k size]|] eqn:Ej; [|discriminate]. destruct (nth_error (sy_heaps s) k) as [h|]; [|discriminate].
    injection E as <-. unfold heap_allocate_wake, memory_mgr_wake, memory_mgr_pop_cache. rewrite Hf. cbn.
    split; [|auto]. pose proof Hw as Hw2. rewrite <- (firstn_skipn j (sy_wait s)) in Hw2.
    assert (Es : skipn j (sy_wait s) = (k, size) :: skipn (S j) (sy_wait s)).
    { clear -Ej. revert j Ej. induction (sy_wait s) as [|x l IH]; intros [|j] Ej; cbn in *; try discriminate; [congruence|]. apply IH, Ej. }
    rewrite Es, in_app_iff in Hw2. rewrite in_app_iff. destruct Hw2 as [Q|[Q|Q]]; auto.
  - destruct (nth_error (sy_heaps s) k) as [h|]; [|discriminate]. destruct (waits s k); [discriminate|]. injection E as <-. cbn.
    split; [exact Hw|]. destruct h as [|x h]; [auto|]. unfold heap_reset. rewrite push_unmaps; [auto|].
    assert (0 <= mm_fcount (sy_mgr s) * mm_psize (sy_mgr s))%Z by (apply Z.mul_nonneg_nonneg; lia). lia.
  - injection E as <-. cbn. repeat split; auto; lia.
Qed.
Lemma stuck_forever : forall l s s' w, (mm_cache (sy_mgr s) <= 0)%Z -> (0 <= mm_psize (sy_mgr s))%Z -> mm_free (sy_mgr s) = [] -> (0 <= mm_fcount (sy_mgr s))%Z ->
  In w (sy_wait s) -> srun s l = Some s' -> In w (sy_wait s').
Proof.
  induction l as [|o l IH]; cbn [srun]; intros s s' w Hc Hp Hf Hn Hw E; [congruence|].
  destruct (sstep s o) as [s1|] eqn:E1; [|discriminate].
  destruct (stuck_step _ _ _ _ Hc Hp Hf Hn Hw E1) as (H1 & H2 & H3). destruct (sstep_settings _ _ _ E1) as (S1 & S2 & _).
  eapply IH; [| | | |exact H1|exact E]; auto; lia.
Qed.

(* events *)
Lemma event_size_fits key value : (14 + key + value < 2 ^ 31)%N -> event_alloc_size key value = Z.of_N (event_bytes key value).
Proof.
  intro H. unfold event_alloc_size, event_bytes, i32_of_z, w64, two64.
  rewrite N.mod_small by (change (2 ^ 31)%N with 2147483648%N in H; lia). change (2 ^ 31)%N with 2147483648%N in H. unfold two32.
  rewrite Z.mod_small by lia. destruct (_ <? _)%Z eqn:E; [reflexivity|]. exfalso. apply Z.ltb_ge in E. lia.
Qed.
Lemma oversize h size mmap m : (mm_psize m < size)%Z -> heap_allocate h size mmap m = (ANull, h, m).
Proof. intro H. unfold heap_allocate. apply Z.ltb_lt in H. rewrite H. reflexivity. Qed.

(* ---- compression contexts ---- *)


Lemma pstep_lz4 s o s' : pl_lz4 (ps_pool s) = [] -> Forall (fun g => fst g = LZ4 -> snd g = LZ4) (ps_given s) -> pstep s o = Some s' ->
  pl_lz4 (ps_pool s') = [] /\ Forall (fun g => fst g = LZ4 -> snd g = LZ4) (ps_given s').
Proof.
  intros H1 H2 E. destruct o as [[|]|k]; cbn [pstep compression_mgr_pop] in E.
  - destruct (pl_zstd (ps_pool s)); injection E as <-; cbn; (split; [exact H1|]); constructor; auto; discriminate.
  - rewrite H1 in E. injection E as <-. cbn. split; [exact H1|]. constructor; auto.
  - destruct (nth_error (ps_held s) k) as [c|]; [|discriminate]. injection E as <-. cbn. split; [|exact H2]. destruct c; exact H1.
Qed.
Lemma prun_lz4 : forall l s s', pl_lz4 (ps_pool s) = [] -> Forall (fun g => fst g = LZ4 -> snd g = LZ4) (ps_given s) -> prun s l = Some s' ->
  pl_lz4 (ps_pool s') = [] /\ Forall (fun g => fst g = LZ4 -> snd g = LZ4) (ps_given s').
Proof.
  induction l as [|o l IH]; cbn [prun]; intros s s' H1 H2 E; [injection E as <-; auto|].
  destruct (pstep s o) as [s1|] eqn:E1; [|discriminate]. destruct (pstep_lz4 _ _ _ H1 H2 E1). eapply IH; eauto.
Qed.

Record pone (m : method) (s : pools) : Prop := mk_pone {
  po_pool : Forall (eq m) (pl_zstd (ps_pool s)) /\ Forall (eq m) (pl_lz4 (ps_pool s));
  po_held : Forall (eq m) (ps_held s);
  po_given : Forall (fun g => snd g = fst g) (ps_given s) }.
Lemma forall_app {A} (P : A -> Prop) a b : Forall P a -> Forall P b -> Forall P (a ++ b).
Proof. intros. apply Forall_app. auto. Qed.
Lemma pstep_one m s o s' : pone m s -> (forall x, o = Take x -> x = m) -> pstep s o = Some s' -> pone m s'.
Proof.
  intros [[P1 P2] P3 P4] Ho E. destruct o as [x|k].
  - rewrite (Ho x eq_refl) in *. clear Ho x. cbn [pstep] in E. destruct (compression_mgr_pop (ps_pool s) m) as [c p] eqn:Ep. injection E as <-.
    assert (Q : c = m /\ Forall (eq m) (pl_zstd p) /\ Forall (eq m) (pl_lz4 p)).
    { destruct m; cbn [compression_mgr_pop] in Ep.
      - destruct (pl_zstd (ps_pool s)) as [|y t] eqn:Ez; injection Ep as <- <-; [rewrite Ez; auto|]. inversion P1; subst. auto.
      - destruct (pl_lz4 (ps_pool s)) as [|y t] eqn:Ez; injection Ep as <- <-; [rewrite Ez; auto|]. inversion P2; subst. auto. }
    destruct Q as (-> & Q1 & Q2). constructor; cbn; auto.
  - cbn [pstep] in E. destruct (nth_error (ps_held s) k) as [c|] eqn:Ek; [|discriminate]. injection E as <-.
    assert (Ec : m = c) by (apply nth_error_In in Ek; exact (proj1 (Forall_forall _ _) P3 c Ek)). subst c.
    constructor; cbn.
    + destruct m; cbn; (split; [apply forall_app; [exact P1|constructor; auto]|exact P2]).
    + apply Forall_forall. intros x Hx. apply in_remove in Hx. exact (proj1 (Forall_forall _ _) P3 x Hx).
    + exact P4.
Qed.
Lemma prun_one m : forall l s s', pone m s -> (forall x, In (Take x) l -> x = m) -> prun s l = Some s' -> pone m s'.
Proof.
  induction l as [|o l IH]; cbn [prun]; intros s s' P Ho E; [congruence|].
  destruct (pstep s o) as [s1|] eqn:E1; [|discriminate]. eapply IH; [|intros; apply Ho; right; assumption|exact E].
  eapply pstep_one; [exact P| |exact E1]. intros x ->. apply Ho. left. reflexivity.
Qed.
Lemma pools_new_one m : pone m pools_new.
Proof. constructor; cbn; auto. Qed.

(* a context of lz4 that was returned is handed out for zstd sooner or later *)
Lemma prun_wrong : forall s, In LZ4 (pl_zstd (ps_pool s)) ->
  exists n s', prun s (repeat (Take ZSTD) n) = Some s' /\ In (ZSTD, LZ4) (ps_given s').
Proof.
  intros [[z y] held given]. cbn. revert held given. induction z as [|c z IH]; cbn; intros held given H; [tauto|].
  destruct H as [->|H].
  - exists 1%nat. cbn. eexists. split; [reflexivity|]. left. reflexivity.
  - destruct (IH (c :: held) ((ZSTD, c) :: given) H) as (n & s' & E & Hi). exists (S n), s'. cbn. auto.
Qed.

(* ---- examples and witnesses ---- *)
Local Open Scope Z_scope.

(* two heaps, three pages of 100 bytes, one page back and used again *)
Definition alloc_hist : list sop :=
  [SAlloc 0 60 (Some 1%N); SAlloc 0 40 (Some 2%N); SAlloc 1 70 (Some 2%N); SAlloc 0 1 (Some 3%N); SAlloc 0 101 (Some 4%N);
   SReset 1; SAlloc 1 5 (Some 4%N); SAlloc 0 100 (Some 4%N)].
Lemma alloc_hist_ok : hist_fine (sys_new 2 (mgr_new 100 1000 false false 0)) alloc_hist /\ all_mapped alloc_hist /\
  exists s, srun (sys_new 2 (mgr_new 100 1000 false false 0)) alloc_hist = Some s /\ length (sy_blocks s) = 5%nat /\ mm_count (sy_mgr s) = 4.
Proof.
  split; [|split; [exact I|eexists; split; [vm_compute; reflexivity|split; reflexivity]]].
  cbn [alloc_hist hist_fine].
  repeat (match goal with
          | |- sop_fine _ _ /\ _ => split; [try exact I|]
          | |- sop_fine _ (SAlloc _ _ _) => split; [split; [discriminate|reflexivity]|intros p Hp; injection Hp as <-; vm_compute; intuition discriminate]
          | |- match ?x with _ => _ end => let y := eval vm_compute in x in change x with y; cbn [hist_fine]
          end).
  all: exact I.
Qed.

(* a call that waits, and a page that comes back *)
Definition wait_hist : list sop := [SAlloc 0 60 (Some 1%N); SAlloc 1 50 (Some 2%N)].
Definition limited (cache : Z) : sys := sys_new 2 (mgr_new 100 cache true false 100).
Definition waiting (cache : Z) : sys := match srun (limited cache) wait_hist with Some s => s | None => limited cache end.
Lemma waiting_ok : nth_error (sy_heaps (waiting 1)) 0 = Some [(1%N, 60)] /\
  mm_fcount (sy_mgr (waiting 1)) * mm_psize (sy_mgr (waiting 1)) < mm_cache (sy_mgr (waiting 1)) /\
  nth_error (sy_wait (waiting 1)) 0 = Some (1%nat, 50) /\
  exists s2, srun (waiting 1) [SReset 0; SWake 0] = Some s2 /\ sy_wait s2 = [] /\ sy_blocks s2 = [mk_block 1 1%N 0 50].
Proof. repeat split; try (vm_compute; reflexivity). eexists. split; [vm_compute; reflexivity|]. split; reflexivity. Qed.

(* without a cache every page is back at the system and the call still waits, whatever follows *)
Lemma waits_for_nothing : exists l s, srun (limited 0) l = Some s /\ all_pages s = [] /\ mm_count (sy_mgr s) = 0 /\
  In (1%nat, 50) (sy_wait s) /\ forall l2 s2, srun s l2 = Some s2 -> In (1%nat, 50) (sy_wait s2).
Proof.
  exists (wait_hist ++ [SReset 0]). eexists. split; [vm_compute; reflexivity|]. split; [reflexivity|]. split; [reflexivity|].
  split; [left; reflexivity|]. intros l2 s2 E. eapply stuck_forever; [| | | | |exact E]; cbn; try lia; [reflexivity|left; reflexivity].
Qed.
(* a failed mmap stays counted *)
Lemma failed_counted : exists l s, srun (limited 1000) l = Some s /\ all_pages s = [] /\ mm_count (sy_mgr s) = 1 /\
  sy_wait s = [(1%nat, 50)].
Proof. exists [SAlloc 0 60 None; SAlloc 1 50 (Some 2%N)]. eexists. split; [vm_compute; reflexivity|]. repeat split. Qed.

(* a value of 2 GiB - 14 bytes moves the end of the page back *)
Definition odd_hist (value : N) : list sop :=
  [SAlloc 0 (event_alloc_size 0 6) (Some 1%N); SAlloc 0 (event_alloc_size 0 value) (Some 2%N); SAlloc 0 (event_alloc_size 0 6) (Some 2%N)].
Definition odd_end (value : N) : sys :=
  match srun (sys_new 1 (mgr_new 1000 0 false false 0)) (odd_hist value) with Some s => s | None => limited 0 end.
Lemma negative_size : exists value s, srun (sys_new 1 (mgr_new 1000 0 false false 0)) (odd_hist value) = Some s /\
  Exists (fun b => ~ inside 1000 b) (sy_blocks s).
Proof.
  exists (2 ^ 31 - 14)%N, (odd_end (2 ^ 31 - 14)%N). split; [vm_compute; reflexivity|].
  replace (sy_blocks (odd_end (2 ^ 31 - 14))) with [mk_block 0 1%N (20 - 2 ^ 31) 20; mk_block 0 1%N 20 (- 2 ^ 31); mk_block 0 1%N 0 20]
    by (vm_compute; reflexivity).
  left. intros [H _]. apply H. reflexivity.
Qed.
(* a value of 2^32 - 34 bytes: the next event lies on the bytes of the first *)
Lemma negative_overlap : exists value s, srun (sys_new 1 (mgr_new 1000 0 false false 0)) (odd_hist value) = Some s /\
  ~ ForallOrdPairs separate (sy_blocks s).
Proof.
  exists (2 ^ 32 - 34)%N, (odd_end (2 ^ 32 - 34)%N). split; [vm_compute; reflexivity|].
  replace (sy_blocks (odd_end (2 ^ 32 - 34))) with [mk_block 0 1%N 0 20; mk_block 0 1%N 20 (- 20); mk_block 0 1%N 0 20]
    by (vm_compute; reflexivity).
  intro H. inversion H as [|a t H1 H2]; subst. inversion H1 as [|b t H3 H4]; subst. inversion H4 as [|c t H5 H6]; subst.
  destruct H5 as [H5|[H5|H5]]; [apply H5; reflexivity| |]; apply H5; reflexivity.
Qed.
Lemma short_block : exists value, event_alloc_size 0 value = 15 /\ event_bytes 0 value = (2 ^ 32 + 15)%N.
Proof. exists (2 ^ 32 + 1)%N. split; vm_compute; reflexivity. Qed.

Lemma lz4_for_zstd : exists l s, prun pools_new l = Some s /\ In (ZSTD, LZ4) (ps_given s).
Proof. exists [Take LZ4; Give 0; Take ZSTD]. eexists. split; [cbn; reflexivity|]. left. reflexivity. Qed.
Lemma prun_single m l s : (forall x, In (Take x) l -> x = m) -> prun pools_new l = Some s -> Forall (fun g => snd g = fst g) (ps_given s).
Proof. intros H E. eapply po_given, prun_one; [apply pools_new_one|exact H|exact E]. Qed.
Lemma prun_lz4_given l s : prun pools_new l = Some s -> Forall (fun g => fst g = LZ4 -> snd g = LZ4) (ps_given s).
Proof. intro E. eapply prun_lz4; [| |exact E]; [reflexivity|constructor]. Qed.
Lemma give_lz4 s k : nth_error (ps_held s) k = Some LZ4 -> exists s', pstep s (Give k) = Some s' /\ In LZ4 (pl_zstd (ps_pool s')).
Proof. intro E. cbn [pstep]. rewrite E. eexists. split; [reflexivity|]. cbn. apply in_or_app. right. left. reflexivity. Qed.
