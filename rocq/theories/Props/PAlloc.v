(* C51-C53: memory blocks, memory pages, compression contexts. *)
From Coq Require Import NArith ZArith List Bool.
Import ListNotations.
From Verif Require Import Model.Base Model.Alloc Spec.Alloc Proof.AllocL Proof.AllocX.
Local Open Scope Z_scope.

(* C51: blocks *)
Theorem C51_disjoint : forall n psize cache limit lerr wm l s, 0 < psize < 2 ^ 31 -> 0 <= wm ->
  hist_fine (sys_new n (mgr_new psize cache limit lerr wm)) l -> srun (sys_new n (mgr_new psize cache limit lerr wm)) l = Some s ->
  ForallOrdPairs separate (sy_blocks s) /\
  Forall (fun b => inside psize b /\ 0 <= bk_size b /\ In (bk_page b) (used_pages s) /\ ~ In (bk_page b) (mm_free (sy_mgr s))) (sy_blocks s).
Proof. exact hist_disjoint. Qed.
Print Assumptions C51_disjoint.
Example C51_example : hist_fine (sys_new 2 (mgr_new 100 1000 false false 0)) alloc_hist /\ all_mapped alloc_hist /\
  exists s, srun (sys_new 2 (mgr_new 100 1000 false false 0)) alloc_hist = Some s /\ length (sy_blocks s) = 5%nat /\ mm_count (sy_mgr s) = 4.
Proof. exact alloc_hist_ok. Qed.
Theorem C51_event : forall key value, (14 + key + value < 2 ^ 31)%N -> event_alloc_size key value = Z.of_N (event_bytes key value).
Proof. exact event_size_fits. Qed.
Print Assumptions C51_event.
Example C51_event_example : event_alloc_size 3 1000 = 1017.
Proof. vm_compute. reflexivity. Qed.
Theorem C51_oversize : forall h size mmap m, mm_psize m < size -> heap_allocate h size mmap m = (ANull, h, m).
Proof. exact oversize. Qed.
Print Assumptions C51_oversize.
Example C51_oversize_example : heap_allocate [(1%N, 20)] 101 None (mgr_new 100 0 false false 0) = (ANull, [(1%N, 20)], mgr_new 100 0 false false 0).
Proof. vm_compute. reflexivity. Qed.
Theorem C51_outside_refuted : exists value s, srun (sys_new 1 (mgr_new 1000 0 false false 0)) (odd_hist value) = Some s /\
  Exists (fun b => ~ inside 1000 b) (sy_blocks s).
Proof. exact negative_size. Qed.
Print Assumptions C51_outside_refuted.
Theorem C51_overlap_refuted : exists value s, srun (sys_new 1 (mgr_new 1000 0 false false 0)) (odd_hist value) = Some s /\
  ~ ForallOrdPairs separate (sy_blocks s).
Proof. exact negative_overlap. Qed.
Print Assumptions C51_overlap_refuted.
Theorem C51_event_refuted : exists value, event_alloc_size 0 value = 15 /\ event_bytes 0 value = (2 ^ 32 + 15)%N.
Proof. exact short_block. Qed.
Print Assumptions C51_event_refuted.

(* C52: pages *)
Theorem C52_counts : forall n psize cache limit lerr wm l s, 0 < psize < 2 ^ 31 -> 0 <= wm ->
  hist_fine (sys_new n (mgr_new psize cache limit lerr wm)) l -> srun (sys_new n (mgr_new psize cache limit lerr wm)) l = Some s ->
  exists failed,
  (mm_count (sy_mgr s) = Z.of_nat (length (used_pages s)) + Z.of_nat (length (mm_free (sy_mgr s))) + failed /\ 0 <= failed /\
   mm_fcount (sy_mgr s) = Z.of_nat (length (mm_free (sy_mgr s)))) /\ NoDup (all_pages s).
Proof. exact hist_counts. Qed.
Print Assumptions C52_counts.
Theorem C52_exact : forall n psize cache limit lerr wm l s, 0 < psize < 2 ^ 31 -> 0 <= wm ->
  hist_fine (sys_new n (mgr_new psize cache limit lerr wm)) l -> all_mapped l ->
  srun (sys_new n (mgr_new psize cache limit lerr wm)) l = Some s ->
  mm_count (sy_mgr s) = Z.of_nat (length (used_pages s)) + Z.of_nat (length (mm_free (sy_mgr s))).
Proof. exact hist_exact. Qed.
Print Assumptions C52_exact.
Theorem C52_limit : forall n psize cache limit lerr wm l s, 0 < psize < 2 ^ 31 -> 0 <= wm ->
  hist_fine (sys_new n (mgr_new psize cache limit lerr wm)) l -> srun (sys_new n (mgr_new psize cache limit lerr wm)) l = Some s ->
  limit = true -> Z.of_nat (length (all_pages s)) * psize < wm + psize.
Proof. exact hist_limit. Qed.
Print Assumptions C52_limit.
Theorem C52_reuse : forall m mmap, mm_free m <> [] ->
  exists p t, mm_free m = p :: t /\ memory_mgr_pop mmap m = (PPage p, mgr_pages m (mm_count m) t (mm_fcount m - 1)).
Proof. exact pop_reuse. Qed.
Print Assumptions C52_reuse.
Theorem C52_kept : forall pages count m, mm_fcount m * mm_psize m < mm_cache m ->
  mm_free (fst (memory_mgr_push pages count m)) = pages ++ mm_free m /\ mm_count (fst (memory_mgr_push pages count m)) = mm_count m.
Proof. exact push_keeps. Qed.
Print Assumptions C52_kept.
Theorem C52_unmapped : forall pages count m, mm_cache m <= mm_fcount m * mm_psize m ->
  memory_mgr_push pages count m = (mgr_pages m (mm_count m - count) (mm_free m) (mm_fcount m), pages).
Proof. exact push_unmaps. Qed.
Print Assumptions C52_unmapped.
Example C52_example : all_mapped alloc_hist /\ mm_fcount (mgr_new 100 1000 false false 0) * 100 < 1000.
Proof. exact (conj I eq_refl). Qed.
Theorem C52_wake : forall s k h s1 j kw size,
  nth_error (sy_heaps s) k = Some h -> h <> [] -> mm_fcount (sy_mgr s) * mm_psize (sy_mgr s) < mm_cache (sy_mgr s) ->
  nth_error (sy_wait s) j = Some (kw, size) -> (kw < length (sy_heaps s))%nat -> sstep s (SReset k) = Some s1 ->
  exists s2 p, sstep s1 (SWake j) = Some s2 /\ In p (map fst h) /\ sy_blocks s2 = mk_block kw p 0 size :: sy_blocks s1 /\
               sy_wait s2 = firstn j (sy_wait s) ++ skipn (S j) (sy_wait s).
Proof. exact wake_after_reset. Qed.
Print Assumptions C52_wake.
Example C52_wake_example : nth_error (sy_heaps (waiting 1)) 0 = Some [(1%N, 60)] /\
  mm_fcount (sy_mgr (waiting 1)) * mm_psize (sy_mgr (waiting 1)) < mm_cache (sy_mgr (waiting 1)) /\
  nth_error (sy_wait (waiting 1)) 0 = Some (1%nat, 50) /\
  exists s2, srun (waiting 1) [SReset 0; SWake 0] = Some s2 /\ sy_wait s2 = [] /\ sy_blocks s2 = [mk_block 1 1%N 0 50].
Proof. exact waiting_ok. Qed.
Theorem C52_stuck : forall l s s' w, mm_cache (sy_mgr s) <= 0 -> 0 <= mm_psize (sy_mgr s) -> mm_free (sy_mgr s) = [] ->
  0 <= mm_fcount (sy_mgr s) -> In w (sy_wait s) -> srun s l = Some s' -> In w (sy_wait s').
Proof. exact stuck_forever. Qed.
Print Assumptions C52_stuck.
Theorem C52_wake_refuted : exists l s, srun (limited 0) l = Some s /\ all_pages s = [] /\ mm_count (sy_mgr s) = 0 /\
  In (1%nat, 50) (sy_wait s) /\ forall l2 s2, srun s l2 = Some s2 -> In (1%nat, 50) (sy_wait s2).
Proof. exact waits_for_nothing. Qed.
Print Assumptions C52_wake_refuted.
Theorem C52_counts_refuted : exists l s, srun (limited 1000) l = Some s /\ all_pages s = [] /\ mm_count (sy_mgr s) = 1 /\
  sy_wait s = [(1%nat, 50)].
Proof. exact failed_counted. Qed.
Print Assumptions C52_counts_refuted.

(* C53: compression contexts *)
Theorem C53_single : forall m l s, (forall x, In (Take x) l -> x = m) -> prun pools_new l = Some s ->
  Forall (fun g => snd g = fst g) (ps_given s).
Proof. exact prun_single. Qed.
Print Assumptions C53_single.
Example C53_single_example : exists s, prun pools_new [Take ZSTD; Take ZSTD; Give 1; Take ZSTD] = Some s /\ length (ps_given s) = 3%nat.
Proof. eexists. split; [cbn; reflexivity|reflexivity]. Qed.
Theorem C53_lz4 : forall l s, prun pools_new l = Some s -> Forall (fun g => fst g = LZ4 -> snd g = LZ4) (ps_given s).
Proof. exact prun_lz4_given. Qed.
Print Assumptions C53_lz4.
Theorem C53_wrong : forall s, In LZ4 (pl_zstd (ps_pool s)) ->
  exists n s', prun s (repeat (Take ZSTD) n) = Some s' /\ In (ZSTD, LZ4) (ps_given s').
Proof. exact prun_wrong. Qed.
Print Assumptions C53_wrong.
Theorem C53_returned : forall s k, nth_error (ps_held s) k = Some LZ4 ->
  exists s', pstep s (Give k) = Some s' /\ In LZ4 (pl_zstd (ps_pool s')).
Proof. exact give_lz4. Qed.
Print Assumptions C53_returned.
Example C53_wrong_example : exists s, prun pools_new [Take ZSTD; Take LZ4; Give 1; Give 0] = Some s /\ pl_zstd (ps_pool s) = [ZSTD; LZ4].
Proof. eexists. split; [cbn; reflexivity|reflexivity]. Qed.
Theorem C53_refuted : exists l s, prun pools_new l = Some s /\ In (ZSTD, LZ4) (ps_given s).
Proof. exact lz4_for_zstd. Qed.
Print Assumptions C53_refuted.
