From Coq Require Import NArith ZArith Arith List Bool Lia Sorted Permutation.
Import ListNotations.
From Verif Require Import Model.Base Model.Event Model.Crc Model.Codec Model.File Model.Wal Model.Gc
  Spec.Order Spec.Checksum Spec.Log Proof.CrcL Proof.CrcP Proof.CodecL Proof.FileR Proof.FileC Proof.WalL Proof.WalR Proof.WalH Proof.WalP Proof.WalQ.
Local Open Scope N_scope.
Local Open Scope res_scope.
Local Arguments N.add : simpl never.
Local Arguments N.mul : simpl never.

(* ---------------------------------------------------------------- *)
(* C24: a batch whose checksum covers bytes that changed *)
Section Bad.
Local Opaque crc_bits.
Lemma bytes_images_a l : Forall entry_ok l -> Forall bytes (map image_a l).
Proof. induction 1; constructor; auto. destruct H as (? & ? & ? & _). apply image_bytes; auto. Qed.

Lemma crc_inj_start a b l : bytes l -> a < 2^32 -> b < 2^32 -> crc a l = crc b l -> a = b.
Proof. intros Hl Ha Hb. unfold crc. rewrite !crc32_statement by auto. apply crc32c_inj_start; auto. Qed.

Lemma unstable_differs l1 x l2 : Forall entry_ok (l1 ++ x :: l2) -> Forall stable l1 -> Forall stable l2 ->
  ~ stable x -> (length (ev_key (le_event x)) <= 4)%nat ->
  crc 0 (concat (map image_a (l1 ++ x :: l2))) <> crc 0 (concat (map image_w (l1 ++ x :: l2))).
Proof.
  intros Hl H1 H2 Hx Hk E.
  pose proof (bytes_concat _ (images_bytes_w _ Hl)) as Hbw.
  pose proof (bytes_concat _ (bytes_images_a _ Hl)) as Hba.
  apply Forall_app in Hl. destruct Hl as (Hl1 & Hl2). inversion Hl2 as [|? ? Hx2 Hl3]; subst.
  rewrite !map_app in *. cbn [map] in *. rewrite !concat_app in *. cbn [concat] in *.
  assert (Ea : map image_a l1 = map image_w l1).
  { apply map_ext_in. intros y Hy. apply image_stable. rewrite Forall_forall in H1. auto. }
  assert (Eb : map image_a l2 = map image_w l2).
  { apply map_ext_in. intros y Hy. apply image_stable. rewrite Forall_forall in H2. auto. }
  rewrite Ea, Eb in *.
  change (image_a x) with (event_bytes (le_event x) ++ firstn (length (ev_key (le_event x))) (le_added x)) in *.
  change (image_w x) with (event_bytes (le_event x) ++ firstn (length (ev_key (le_event x))) (le_written x)) in *.
  set (k := length (ev_key (le_event x))) in *. rewrite <- !app_assoc in E, Hba, Hbw.
  assert (E' : crc 0 ((concat (map image_w l1) ++ event_bytes (le_event x)) ++ firstn k (le_added x) ++ concat (map image_w l2)) =
               crc 0 ((concat (map image_w l1) ++ event_bytes (le_event x)) ++ firstn k (le_written x) ++ concat (map image_w l2)))
    by (repeat rewrite <- app_assoc in E; repeat rewrite <- app_assoc; exact E).
  clear E. rename E' into E.
  destruct Hx2 as (_ & Hy1 & Hy2 & Hy3 & Hy4). fold k in Hy3, Hy4.
  unfold crc in E. rewrite !crc32_statement in E.
  2: reflexivity. 2: { rewrite <- app_assoc. auto. } 2: reflexivity. 2: { rewrite <- app_assoc. auto. }
  apply detect in E.
  - apply Hx. exact E.
  - reflexivity.
  - rewrite <- app_assoc. auto.
  - apply bytes_firstn; auto.
  - rewrite !firstn_length. lia.
  - rewrite firstn_length. lia.
Qed.

Lemma bad_rejected lsn l1 x l2 : batch_ok (l1 ++ x :: l2) -> lsn < 2^64 -> Forall stable l1 -> Forall stable l2 ->
  ~ stable x -> (length (ev_key (le_event x)) <= 4)%nat ->
  wal_file_pread true (log_record true lsn (l1 ++ x :: l2)) 0 = Err.
Proof.
  intros (Hne & Hl & Hs) Hn H1 H2 Hx Hk. pose proof (unstable_differs l1 x l2 Hl H1 H2 Hx Hk) as Hd.
  set (l := l1 ++ x :: l2) in *. clearbody l.
  pose proof (batch_size_count l) as Hcnt. pose proof (batch_size_len l Hl) as Hbl.
  assert (Hb : bytes (flat_map image_w l)) by (rewrite flat_concat; apply bytes_concat, images_bytes_w; auto).
  assert (Hba : bytes (concat (map image_a l))) by (apply bytes_concat, bytes_images_a; auto).
  set (w := mk_lwrite (crc 0 (concat (map image_a l))) lsn LOG_WRITE (N.of_nat (length l)) (21 + batch_size l)).
  assert (E : log_record true lsn l = lwrite_bytes (log_write_seal true w) ++ flat_map image_w l).
  { unfold log_record. destruct l; [tauto|]. rewrite log_header by auto. unfold w.
    rewrite crc_fold by (auto using bytes_images_a; reflexivity). reflexivity. }
  assert (Hfit : lwrite_fit w).
  { unfold lwrite_fit, w. cbn [lw_crc lw_lsn lw_type lw_count lw_size]. unfold LOG_WRITE.
    repeat split; auto; try lia. apply crc_lt; auto. }
  assert (Hne2 : flat_map image_w l <> []).
  { intros E2. rewrite E2 in Hbl. cbn in Hbl. destruct l; [tauto|]. cbn [length] in Hcnt. lia. }
  rewrite E. set (ws := log_write_seal true w). assert (Hsz : lw_size ws = 21 + batch_size l) by reflexivity.
  unfold wal_file_pread.
  rewrite eof_inside by (rewrite app_length, lwrite_length; lia).
  pose proof (pread_buf_app [] (lwrite_bytes ws) (flat_map image_w l)) as Hp1. cbn [app length] in Hp1.
  rewrite lwrite_length in Hp1. change (N.of_nat 0) with 0 in Hp1. change (N.of_nat 21) with 21 in Hp1.
  rewrite Hp1.
  2: { intros E2. pose proof (lwrite_length ws) as E3. rewrite E2 in E3. discriminate. }
  2: reflexivity.
  cbn [bind]. rewrite lwrite_load_spec by (apply seal_fit; auto). cbn [of_opt bind].
  rewrite eof_inside by (rewrite Hsz, app_length, lwrite_length; lia).
  replace (w32 (lw_size ws + two32 - 21)) with (N.of_nat (length (flat_map image_w l))).
  2: { rewrite Hsz. unfold w32. replace (21 + batch_size l + two32 - 21) with (batch_size l + 1 * two32) by lia.
       rewrite N.mod_add by discriminate. rewrite N.mod_small; auto. unfold two32. lia. }
  replace (0 + 21) with (N.of_nat (length (lwrite_bytes ws))) by (rewrite lwrite_length; auto).
  pose proof (pread_buf_app (lwrite_bytes ws) (flat_map image_w l) []) as Hp2. rewrite app_nil_r in Hp2.
  rewrite Hp2; auto; [|lia]. cbn [bind].
  match goal with |- context [negb ?b] => destruct b eqn:Ec; [|reflexivity] end.
  exfalso. apply N.eqb_eq in Ec. unfold ws in Ec at 1. rewrite seal_skip in Ec. unfold ws, log_write_seal in Ec. cbn [lw_crc] in Ec.
  apply crc_inj_start in Ec.
  - apply Hd. rewrite flat_concat in Ec. symmetry. exact Ec.
  - apply bytes_skipn, lwrite_is_bytes.
  - apply crc_lt; auto.
  - apply crc_lt; auto.
Qed.
End Bad.

(* ---------------------------------------------------------------- *)
(* samples *)
Definition wev (id : N) (k v : list N) : event := mk_event id 0 k v.
Definition went (id : N) (k v : list N) : lentry := mk_lentry (wev id k v) [9;9;9;9] [9;9;9;9].
Definition batch1 : list lentry := [went 5 [] [1;2;3]; went 7 [65] [4]].
Definition batch2 : list lentry := [went 6 [66] [1;2;3]].
Definition batch3 : list lentry := [went 8 [] [7]; went 9 [] []].

Lemma went_ok id k v : id < 2^64 -> (length k <= 4)%nat -> bytes k -> bytes v -> (length k + length v < 100)%nat ->
  entry_ok (went id k v).
Proof.
  intros. unfold entry_ok, went. cbn [le_event le_added le_written]. split; [|split; [|split; [|split]]].
  - unfold wev. split; [cbn; auto|split; [change (length k <= 255)%nat; lia|split; [auto|split; [auto|reflexivity]]]].
  - repeat constructor.
  - repeat constructor.
  - cbn. auto.
  - cbn. auto.
Qed.
Lemma went_stable id k v : stable (went id k v).
Proof. reflexivity. Qed.
Ltac batch := split; [discriminate|split; [repeat (apply Forall_cons || apply Forall_nil); apply went_ok; cbn; try lia; repeat constructor|reflexivity]].
Lemma batch1_ok : batch_ok batch1. Proof. batch. Qed.
Lemma batch2_ok : batch_ok batch2. Proof. batch. Qed.
Lemma batch3_ok : batch_ok batch3. Proof. batch. Qed.
Lemma batches_stable : Forall stable batch1 /\ Forall stable batch2 /\ Forall stable batch3.
Proof. repeat split; repeat constructor. Qed.

Definition run_wal (on : bool) (l : list wal_op) : wal :=
  match wal_run on (wal_rotate wal_init 0) l with Ok s => s | _ => wal_init end.

(* a history with two files and a restart *)
Definition sample_ops : list wal_op :=
  [OpWrite batch1 None; OpWrite batch2 None; OpRotate 10; OpWrite batch3 None; OpRestart [3;1] 2].
Definition sw1 : wal := Eval vm_compute in run_wal true (firstn 1 sample_ops).
Definition sw2 : wal := Eval vm_compute in run_wal true (firstn 2 sample_ops).
Definition sw3 : wal := Eval vm_compute in run_wal true (firstn 3 sample_ops).
Definition sw4 : wal := Eval vm_compute in run_wal true (firstn 4 sample_ops).
Lemma sample_hist4 : plain_hist true sw4 [RWrite 1 batch1; RWrite 2 batch2; RWrite 3 batch3].
Proof.
  destruct batches_stable as (S1 & S2 & S3).
  assert (H1 : plain_hist true sw1 ([] ++ [RWrite (wl_lsn sw1) batch1])).
  { apply ph_write with (s := wal_rotate wal_init 0); auto using batch1_ok; try (vm_compute; reflexivity). apply ph_open. }
  assert (H2 : plain_hist true sw2 (([] ++ [RWrite (wl_lsn sw1) batch1]) ++ [RWrite (wl_lsn sw2) batch2])).
  { apply ph_write with (s := sw1); auto using batch2_ok; vm_compute; reflexivity. }
  assert (H3 : plain_hist true sw3 (([] ++ [RWrite (wl_lsn sw1) batch1]) ++ [RWrite (wl_lsn sw2) batch2])).
  { replace sw3 with (wal_rotate sw2 10) by (vm_compute; reflexivity). apply ph_rotate; auto. vm_compute. reflexivity. }
  assert (H4 : plain_hist true sw4 ((([] ++ [RWrite (wl_lsn sw1) batch1]) ++ [RWrite (wl_lsn sw2) batch2]) ++ [RWrite (wl_lsn sw4) batch3])).
  { apply ph_write with (s := sw3); auto using batch3_ok; vm_compute; reflexivity. }
  exact H4.
Qed.
Lemma sample_hist : plain_hist true (run_wal true sample_ops)
    [RWrite 1 batch1; RWrite 2 batch2; RWrite 3 batch3] /\
  wl_lsn (run_wal true sample_ops) + 2 < 2^64 /\ files_short (run_wal true sample_ops) /\
  wl_list (run_wal true sample_ops) = [1; 3].
Proof.
  replace (run_wal true sample_ops) with sw4 by (vm_compute; reflexivity).
  split; [|split; [vm_compute; reflexivity|split; [repeat constructor|reflexivity]]].
  apply ph_restart with (s := sw4) (dir := [3;1]) (base := 2).
  - apply sample_hist4.
  - vm_compute. reflexivity.
  - repeat constructor.
  - apply perm_swap.
  - vm_compute. discriminate.
  - vm_compute. reflexivity.
Qed.

Definition sread (on : bool) (s : wal) : list logged * res unit := wal_read on (wl_files s) (wl_list s).

(* C21, computed *)
Lemma sample_read : sread true sw4 =
  ([LWrite 1 [wev 5 [] [1;2;3]; wev 7 [65] [4]]; LWrite 2 [wev 6 [66] [1;2;3]]; LWrite 3 [wev 8 [] [7]; wev 9 [] []]], Ok tt).
Proof. vm_compute. reflexivity. Qed.

(* C23: a record is cut after its header; the next writes are shorter than what is missing *)
Definition long_batch : list lentry := [went 6 [66] (repeat 7 90)].
Lemma long_batch_ok : batch_ok long_batch. Proof. batch. Qed.
Definition lw2 : wal := Eval vm_compute in run_wal true [OpWrite batch1 None; OpWrite long_batch None].
Lemma long_hist : plain_hist true lw2 ([RWrite 1 batch1] ++ [RWrite 2 long_batch]).
Proof.
  destruct batches_stable as (S1 & S2 & S3).
  assert (H1 : plain_hist true sw1 ([] ++ [RWrite (wl_lsn sw1) batch1])).
  { apply ph_write with (s := wal_rotate wal_init 0); auto using batch1_ok; try (vm_compute; reflexivity). apply ph_open. }
  assert (H2 : plain_hist true lw2 (([] ++ [RWrite (wl_lsn sw1) batch1]) ++ [RWrite (wl_lsn lw2) long_batch])).
  { apply ph_write with (s := sw1); auto using long_batch_ok; try (vm_compute; reflexivity). intros _. repeat constructor. }
  exact H2.
Qed.
Lemma torn_example :
  plain_hist true lw2 ([] ++ [RWrite 1 batch1] ++ RWrite 2 long_batch :: []) /\
  wl_lsn lw2 + 2 < 2^64 /\ files_short lw2 /\
  wl_files lw2 = [] ++ [(1, flat_map (rec_bytes true) ([RWrite 1 batch1] ++ RWrite 2 long_batch :: []))] /\
  (21 <= 40 < length (rec_bytes true (RWrite 2 long_batch)))%nat /\ Permutation [1] (wl_list lw2) /\
  Forall batch_ok [batch3] /\ batches_size [batch3] < N.of_nat (length (rec_bytes true (RWrite 2 long_batch)) - 40).
Proof.
  split; [exact long_hist|]. split; [vm_compute; reflexivity|]. split; [repeat constructor|].
  split; [vm_compute; reflexivity|].
  replace (length (rec_bytes true (RWrite 2 long_batch))) with 127%nat by (vm_compute; reflexivity).
  split; [lia|]. split; [apply Permutation_refl|]. split; [repeat constructor; apply batch3_ok|]. vm_compute. reflexivity.
Qed.

Definition got {A} (d : A) (r : res A) : A := match r with Ok x => x | _ => d end.
Definition got_wal (r : res (wal * bool)) : wal := fst (got (wal_init, true) r).

(* C23: the whole run; recovery reports success and the acknowledged write is gone *)
Definition torn_wal (on : bool) (second : list lentry) (k : nat) : wal :=
  let s := run_wal on [OpWrite batch1 None; OpWrite second None] in
  mk_wal (map (fun f => (fst f, firstn k (snd f))) (wl_files s)) (wl_list s) (wl_current s) (wl_lsn s).
Definition after_torn (on : bool) (second : list lentry) (k : nat) : res (wal * bool) :=
  do s <- wal_restart on (torn_wal on second k) [1] 0; wal_write on s batch3 None.
Lemma torn_silent : exists s s2, after_torn true long_batch 95 = Ok (s, true) /\ wl_lsn s = 2 /\
  wal_restart true s [1] 0 = Ok s2 /\
  wal_read true (wl_files s) (wl_list s) = ([LWrite 1 (map le_event batch1)], Ok tt).
Proof.
  exists (got_wal (after_torn true long_batch 95)).
  exists (got wal_init (wal_restart true (got_wal (after_torn true long_batch 95)) [1] 0)). vm_compute. repeat split.
Qed.
Lemma torn_error : exists s, after_torn true batch2 85 = Ok (s, true) /\
  wal_restart true s [1] 0 = Err.
Proof. exists (got_wal (after_torn true batch2 85)). vm_compute. repeat split. Qed.
Lemma torn_overrun : exists s, after_torn false batch2 85 = Ok (s, true) /\
  wal_restart false s [1] 0 = UB.
Proof. exists (got_wal (after_torn false batch2 85)). vm_compute. repeat split. Qed.

(* C24 *)
Definition heap_mem : list N := repeat 0 200.
Definition two_keyed : list lentry := heap_batch heap_mem [wev 5 [65] [1]; wev 6 [66] [2]].
Lemma two_keyed_ok : batch_ok two_keyed.
Proof.
  split; [discriminate|split; [|reflexivity]]. unfold two_keyed, heap_mem. 
  repeat constructor.
Qed.
Lemma two_keyed_read :
  wal_file_pread true (log_record true 1 two_keyed) 0 = Err /\
  (exists w body, wal_file_pread false (log_record false 1 two_keyed) 0 = Ok (Some (w, body)) /\
     log_decode w body = Ok (LWrite 1 [wev 5 [65] [1]; wev 6 [66] [2]])) /\
  (exists s, wal_write true (wal_rotate wal_init 0) two_keyed None = Ok (s, true) /\ wal_restart true s [1] 0 = Err).
Proof.
  split; [vm_compute; reflexivity|]. split.
  - exists (fst (got (log_write_init, []) (do r <- wal_file_pread false (log_record false 1 two_keyed) 0; of_opt r))).
    exists (snd (got (log_write_init, []) (do r <- wal_file_pread false (log_record false 1 two_keyed) 0; of_opt r))).
    vm_compute. split; reflexivity.
  - exists (got_wal (wal_write true (wal_rotate wal_init 0) two_keyed None)). vm_compute. split; reflexivity.
Qed.
Lemma keyed_last_ok : batch_ok (heap_batch heap_mem [wev 5 [] [1]; wev 6 [66] [2]]) /\
  Forall keyless (removelast [wev 5 [] [1]; wev 6 [66] [2]]).
Proof.
  split; [|repeat constructor]. split; [discriminate|split; [|reflexivity]]. unfold heap_mem. repeat constructor.
Qed.
Lemma unstable_example : exists l1 x l2, two_keyed = l1 ++ x :: l2 /\ Forall stable l1 /\ Forall stable l2 /\ ~ stable x /\
  (length (ev_key (le_event x)) <= 4)%nat.
Proof.
  unfold two_keyed. cbn [heap_batch].
  match goal with |- context [[?a; ?b]] => exists [], a, [b] end.
  split; [reflexivity|]. split; [constructor|]. split; [repeat constructor|]. split; [|cbn; lia].
  unfold stable. vm_compute. discriminate.
Qed.

(* C25, C26 *)
Definition after_gc : wal := Eval vm_compute in match wal_gc sw4 3 with Ok s => s | _ => wal_init end.
Lemma gc_example : wal_gc sw4 3 = Ok after_gc /\ wl_list after_gc = [3] /\ wal_gc sw4 2 = Ok sw4 /\
  sread true after_gc = ([LWrite 3 (map le_event batch3)], Ok tt).
Proof. vm_compute. repeat split. Qed.

Definition run_g (l : list gop) : res gstate := grun true ginit l.
Lemma gc_between_write_and_mark : exists s,
  run_g [GWrite batch1; GRotate 0; GWrite batch2; GRotate 0; GScan; GRun; GMark 1] = Ok s /\
  outstanding s 1 /\ sread true (g_wal s) = ([], Ok tt).
Proof.
  exists (got ginit (run_g [GWrite batch1; GRotate 0; GWrite batch2; GRotate 0; GScan; GRun; GMark 1])).
  vm_compute. repeat split. auto.
Qed.
Lemma gc_after_old_scan : exists s,
  run_g [GScan; GWrite batch1; GMark 1; GRotate 0; GRun] = Ok s /\
  g_pending s = [] /\ outstanding s 1 /\ sread true (g_wal s) = ([], Ok tt).
Proof.
  exists (got ginit (run_g [GScan; GWrite batch1; GMark 1; GRotate 0; GRun])).
  vm_compute. repeat split. auto.
Qed.
Definition quiet_ops : list gop :=
  [GWrite batch1; GMark 1; GRotate 0; GWrite batch2; GMark 2; GRefresh 1; GScan; GRun].
Definition gq (n : nat) : gstate := match run_g (firstn n quiet_ops) with Ok s => s | _ => ginit end.
Definition gq1 : gstate := Eval vm_compute in gq 1.
Definition gq2 : gstate := Eval vm_compute in gq 2.
Definition gq3 : gstate := Eval vm_compute in gq 3.
Definition gq4 : gstate := Eval vm_compute in gq 4.
Definition gq5 : gstate := Eval vm_compute in gq 5.
Definition gq6 : gstate := Eval vm_compute in gq 6.
Definition gq7 : gstate := Eval vm_compute in gq 7.
Definition gq8 : gstate := Eval vm_compute in gq 8.
Lemma quiet_example : quiet true gq8 [RWrite 1 batch1; RWrite 2 batch2] /\
  wl_lsn (g_wal gq8) + 2 < 2^64 /\ files_short (g_wal gq8) /\ outstanding gq8 2 /\ wl_list (g_wal gq8) = [2].
Proof.
  destruct batches_stable as (S1 & S2 & S3).
  split; [|split; [vm_compute; reflexivity|split; [repeat constructor|split; [right; vm_compute; auto|vm_compute; reflexivity]]]].
  assert (W1 : wl_lsn (g_wal gq1) = 1) by (vm_compute; reflexivity).
  assert (W2 : wl_lsn (g_wal gq4) = 2) by (vm_compute; reflexivity).
  assert (H1 : quiet true gq1 ([] ++ [RWrite (wl_lsn (g_wal gq1)) batch1])).
  { apply qu_write with (s := ginit); auto using batch1_ok; try (vm_compute; reflexivity). constructor. }
  rewrite W1 in H1.
  assert (H2 : quiet true gq2 ([] ++ [RWrite 1 batch1])) by (eapply qu_mark with (n := 1); [exact H1|vm_compute; reflexivity]).
  assert (H3 : quiet true gq3 ([] ++ [RWrite 1 batch1])) by (eapply qu_rotate with (wm := 0); [exact H2|vm_compute; reflexivity|vm_compute; reflexivity]).
  assert (H4 : quiet true gq4 (([] ++ [RWrite 1 batch1]) ++ [RWrite (wl_lsn (g_wal gq4)) batch2])).
  { eapply qu_write with (s := gq3); auto using batch2_ok; vm_compute; reflexivity. }
  rewrite W2 in H4.
  assert (H5 : quiet true gq5 (([] ++ [RWrite 1 batch1]) ++ [RWrite 2 batch2])) by (eapply qu_mark with (n := 2); [exact H4|vm_compute; reflexivity]).
  assert (H6 : quiet true gq6 (([] ++ [RWrite 1 batch1]) ++ [RWrite 2 batch2])) by (eapply qu_refresh with (n := 1); [exact H5|vm_compute; reflexivity]).
  eapply qu_collect with (s := gq6) (s1 := gq7); [exact H6|vm_compute; reflexivity|vm_compute; reflexivity|vm_compute; reflexivity].
Qed.

(* C27: the sequence number of a DROP is used again after a restart *)
Lemma drop_reuses : exists s, wal_run true (wal_rotate wal_init 0) [OpWrite batch1 None; OpDrop 5 None; OpRestart [1] 0; OpWrite batch2 None] = Ok s /\
  sread true s = ([LWrite 1 (map le_event batch1); LDrop 2 5; LWrite 2 (map le_event batch2)], Ok tt).
Proof.
  exists (got wal_init (wal_run true (wal_rotate wal_init 0) [OpWrite batch1 None; OpDrop 5 None; OpRestart [1] 0; OpWrite batch2 None])).
  vm_compute. repeat split.
Qed.
(* C27: all partitions dropped and the older files collected: after a restart the numbers start again below the name of
   the file that is there *)
Definition overwritten_ops : list wal_op :=
  [OpWrite batch1 None; OpRotate 0; OpGc u64_max; OpDrop 5 None; OpRestart [2] 0;
   OpWrite batch2 None; OpRotate 0; OpWrite batch3 None].
Lemma reset_overwrites : exists s, wal_run true (wal_rotate wal_init 0) overwritten_ops = Ok s /\
  sread true s = ([LWrite 2 (map le_event batch3)], Ok tt).
Proof. exists (got wal_init (wal_run true (wal_rotate wal_init 0) overwritten_ops)). vm_compute. repeat split. Qed.
Definition reordered_ops : list wal_op :=
  [OpWrite batch1 None; OpWrite batch1 None; OpRotate 0; OpGc u64_max; OpDrop 5 None; OpRestart [3] 0;
   OpWrite batch2 None; OpRotate 0; OpWrite batch3 None].
Lemma reset_reorders : exists s, wal_run true (wal_rotate wal_init 0) reordered_ops = Ok s /\
  sread true s = ([LWrite 2 (map le_event batch3); LDrop 3 5; LWrite 1 (map le_event batch2)], Ok tt).
Proof. exists (got wal_init (wal_run true (wal_rotate wal_init 0) reordered_ops)). vm_compute. repeat split. Qed.
Definition hist_ops : list wal_op := [OpWrite batch1 None; OpDrop 5 None; OpRotate 0; OpWrite batch2 None; OpGc 3; OpRestart [3] 0].
Definition hw (n : nat) : wal := run_wal true (firstn n hist_ops).
Definition hw1 : wal := Eval vm_compute in hw 1.
Definition hw2 : wal := Eval vm_compute in hw 2.
Definition hw3 : wal := Eval vm_compute in hw 3.
Definition hw4 : wal := Eval vm_compute in hw 4.
Definition hw5 : wal := Eval vm_compute in hw 5.
Definition hw6 : wal := Eval vm_compute in hw 6.
Lemma hist_example : hist true hw6 [RWrite 1 batch1; RDrop 2 5; RWrite 3 batch2] /\
  wl_lsn hw6 + 2 < 2^64 /\ files_short hw6 /\ wl_list hw6 = [3].
Proof.
  destruct batches_stable as (S1 & S2 & S3).
  split; [|split; [vm_compute; reflexivity|split; [repeat constructor|vm_compute; reflexivity]]].
  assert (W1 : wl_lsn hw1 = 1) by (vm_compute; reflexivity).
  assert (W2 : wl_lsn hw2 = 2) by (vm_compute; reflexivity).
  assert (W4 : wl_lsn hw4 = 3) by (vm_compute; reflexivity).
  assert (H1 : hist true hw1 ([] ++ [RWrite (wl_lsn hw1) batch1])).
  { apply hi_write with (s := wal_rotate wal_init 0); auto using batch1_ok; try (vm_compute; reflexivity). constructor. }
  rewrite W1 in H1.
  assert (H2 : hist true hw2 (([] ++ [RWrite 1 batch1]) ++ [RDrop (wl_lsn hw2) 5])).
  { apply hi_drop with (s := hw1); auto; vm_compute; reflexivity. }
  rewrite W2 in H2.
  assert (H3 : hist true hw3 (([] ++ [RWrite 1 batch1]) ++ [RDrop 2 5])).
  { replace hw3 with (wal_rotate hw2 0) by (vm_compute; reflexivity). apply hi_rotate; [exact H2|vm_compute; reflexivity]. }
  assert (H4 : hist true hw4 ((([] ++ [RWrite 1 batch1]) ++ [RDrop 2 5]) ++ [RWrite (wl_lsn hw4) batch2])).
  { apply hi_write with (s := hw3); auto using batch2_ok; vm_compute; reflexivity. }
  rewrite W4 in H4.
  assert (H5 : hist true hw5 ((([] ++ [RWrite 1 batch1]) ++ [RDrop 2 5]) ++ [RWrite 3 batch2])).
  { apply hi_gc with (s := hw4) (min := 3); [exact H4|vm_compute; reflexivity]. }
  apply hi_restart with (s := hw5) (dir := [3]) (base := 0).
  - exact H5.
  - vm_compute. reflexivity.
  - repeat constructor.
  - replace (wl_list hw5) with [3] by (vm_compute; reflexivity). apply Permutation_refl.
  - split; [vm_compute; discriminate|]. right. exists (map le_event batch2). vm_compute. auto.
  - vm_compute. reflexivity.
Qed.

(* C28: a first write that fails half way, then rotation *)
Lemma duplicate_id : exists s, wal_run true (wal_rotate wal_init 0) [OpWrite batch1 (Some 5%nat); OpRotate 0] = Ok s /\
  wl_list s = [1; 1] /\ wl_current s = Some (1, 0) /\ file_of 1 (wl_files s) <> Some [].
Proof.
  exists (got wal_init (wal_run true (wal_rotate wal_init 0) [OpWrite batch1 (Some 5%nat); OpRotate 0])).
  vm_compute. repeat split. discriminate.
Qed.
Lemma id_list_example : id_list [2; 5; 9] /\ wal_recover [9; 2; 5] = [2; 5; 9] /\ wal_id_add 7 [2; 5; 9] = [2; 5; 7; 9] /\
  wal_id_gc_between 6 [2; 5; 7; 9] = ([2], [5; 7; 9]) /\ wal_id_find 6 [2; 5; 9] = 5.
Proof.
  split; [|repeat split]. change [2; 5; 9] with (wal_recover [9; 2; 5]). constructor.
  repeat constructor; cbn; intuition discriminate.
Qed.

(* C59 *)
Lemma repeat_length_bytes on r n : length (flat_map (rec_bytes on) (repeat r n)) = (n * length (rec_bytes on r))%nat.
Proof. induction n; cbn [repeat flat_map]; [auto|]. rewrite app_length, IHn. lia. Qed.
Lemma over_exists on : exists rs, Forall (rec_ok on) rs /\ 2^32 <= N.of_nat (length (flat_map (rec_bytes on) rs)) + 21 /\
  wal_read on [(1, flat_map (rec_bytes on) rs)] [1] = (map rec_logged rs, Err).
Proof.
  assert (Hr : rec_ok on (RWrite 1 batch2)).
  { split; [reflexivity|split; [apply batch2_ok|]]. intros _. apply batches_stable. }
  exists (repeat (RWrite 1 batch2) (N.to_nat (2^32))).
  assert (H1 : Forall (rec_ok on) (repeat (RWrite 1 batch2) (N.to_nat (2^32)))).
  { apply Forall_forall. intros x Hx. apply repeat_spec in Hx. subst. auto. }
  assert (H2 : 2^32 <= N.of_nat (length (flat_map (rec_bytes on) (repeat (RWrite 1 batch2) (N.to_nat (2^32))))) + 21).
  { rewrite repeat_length_bytes. pose proof (rec_bytes_length _ _ Hr) as Hl.
    rewrite Nat2N.inj_mul, N2Nat.id. assert (1 <= N.of_nat (length (rec_bytes on (RWrite 1 batch2)))) by lia. nia. }
  split; [auto|split; [auto|]]. apply over_read; auto. reflexivity.
Qed.
