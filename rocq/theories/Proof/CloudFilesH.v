(* Requests one after another, cut anywhere; failures and second attempts; several workers. *)
From Coq Require Import NArith Arith List Bool Lia.
Import ListNotations.
From Verif Require Import Model.Base Model.CloudFiles Spec.CloudFiles Proof.CloudFilesL.

Lemma over_self b : over b b = b.
Proof. unfold over. rewrite skipn_all. apply app_nil_r. Qed.
Lemma over_part b k : over b (firstn k b) = b.
Proof. unfold over. rewrite skipn_all2; [apply app_nil_r|]. rewrite firstn_length. lia. Qed.

Section Index.
Variable idx : bytes -> bytes.

Lemma act_ok_settled su s c a : settled idx su s c ->
  act_ok idx su a s = false -> (a = AUpload /\ c = None) \/ (exists b, a = ARefresh b) /\ in_cloud (p_flags s) = true.
Proof.
  intros Hs. unfold settled, tidy in Hs. destruct su as [[|] [|] [|]]; destruct s as [[[|] [|]] [di dn dc dl dk dob]]; destruct c as [b0|]; cbn in *;
  repeat match goal with
  | H : _ /\ _ |- _ => destruct H
  | H : _ \/ _ |- _ => destruct H
  | H : true = true -> _ |- _ => specialize (H eq_refl)
  end; subst; try discriminate; destruct a; cbn; try discriminate; eauto.
Qed.

(* the flags after the actions of a request, one by one *)
Lemma read su s c : settled idx su s c -> part_read s = c /\ part_opened s = (if in_id (p_flags s) then c else match c with Some b => Some (idx b) | None => None end).
Proof.
  intros Hs. unfold settled, tidy, part_read, part_opened in *. destruct s as [[[|] [|]] [di dn dc dl dk dob]]; destruct c as [b0|]; cbn in *; intuition; try discriminate; subst; auto.
Qed.

Ltac explode s c :=
  destruct s as [[[|] [|]] [di dn dc dl dk dob]]; destruct c as [b0|]; cbn in *;
  repeat match goal with
  | H : _ /\ _ |- _ => destruct H
  | H : _ \/ _ |- _ => destruct H
  | H : true = true -> _ |- _ => specialize (H eq_refl)
  | H : false = false -> _ |- _ => specialize (H eq_refl)
  end; subst; try discriminate.
Ltac fin := cbn; rewrite ?over_nil, ?over_part, ?over_self; repeat split; intros; auto; try discriminate.

Lemma downloaded su s c : settled idx su s c -> in_id (p_flags (act idx su ADownload s)) = true \/ c = None.
Proof.
  intros Hs. unfold settled, tidy in *. destruct su as [[|] sl sr]; explode s c; cbn; auto.
Qed.
Lemma uncloudy su s : in_cloud (p_flags (act idx su ADropCloud s)) = false.
Proof. unfold act, act_plan. destruct (in_cloud (p_flags s)) eqn:E; cbn; auto. Qed.
(* the first i actions of a refresh *)
Lemma refresh_upto su s c b i : settled idx su s c -> clear su s ->
  let s' := run_actions idx su (firstn i (req_actions (RRefresh b))) s in
  settled idx su s' (if Nat.leb i 2 then c else Some b) /\ clear su s' /\
  (i = 1 -> in_id (p_flags s') = true \/ c = None) /\ (i = 2 -> in_cloud (p_flags s') = false).
Proof.
  intros Hs Hc.
  assert (OK : forall s a, act_ok idx su a s = true \/ act_ok idx su a s = false) by (intros; destruct (act_ok idx su a s0); auto).
  destruct (acted idx su s c ADownload Hs Hc) as [A1 B1]. cbn [contents_after] in A1.
  assert (O1 : act_ok idx su ADownload s = true).
  { destruct (OK s ADownload) as [H|H]; auto. destruct (act_ok_settled su s c _ Hs H) as [[? _]|[[? ?] _]]; discriminate. }
  pose proof (downloaded su s c Hs) as D1.
  set (s1 := act idx su ADownload s) in *.
  destruct (acted idx su s1 c ADropCloud A1 B1) as [A2 B2].
  assert (O2 : act_ok idx su ADropCloud s1 = true).
  { destruct (OK s1 ADropCloud) as [H|H]; auto. destruct (act_ok_settled su s1 c _ A1 H) as [[? _]|[[? ?] _]]; discriminate. }
  assert (A2' : settled idx su (act idx su ADropCloud s1) c).
  { cbn [contents_after] in A2. destruct D1 as [D1|D1]; [rewrite D1 in A2; exact A2|]. subst c. destruct (in_id (p_flags s1)); exact A2. }
  clear A2. pose proof (uncloudy su s1) as D2. set (s2 := act idx su ADropCloud s1) in *.
  destruct (acted idx su s2 c (ARefresh b) A2' B2) as [A3 B3]. cbn [contents_after] in A3. rewrite D2 in A3.
  assert (O3 : act_ok idx su (ARefresh b) s2 = true). { unfold act_ok, act_plan. rewrite D2. reflexivity. }
  set (s3 := act idx su (ARefresh b) s2) in *.
  destruct (acted idx su s3 (Some b) AUpload A3 B3) as [A4 B4]. cbn [contents_after] in A4.
  assert (O4 : act_ok idx su AUpload s3 = true).
  { destruct (OK s3 AUpload) as [H|H]; auto. destruct (act_ok_settled su s3 _ _ A3 H) as [[_ ?]|[[? ?] _]]; discriminate. }
  set (s4 := act idx su AUpload s3) in *.
  destruct (acted idx su s4 (Some b) ADropUploaded A4 B4) as [A5 B5]. cbn [contents_after] in A5.
  assert (O5 : act_ok idx su ADropUploaded s4 = true).
  { destruct (OK s4 ADropUploaded) as [H|H]; auto. destruct (act_ok_settled su s4 _ _ A4 H) as [[? _]|[[? ?] _]]; discriminate. }
  cbn [req_actions]. do 6 (try (destruct i as [|i])); cbn [firstn run_actions Nat.leb]; rewrite ?O1; fold s1; rewrite ?O2; fold s2; rewrite ?O3; fold s3; rewrite ?O4; fold s4; rewrite ?O5, ?firstn_nil;
  cbn [run_actions]; (split; [assumption|split; [assumption|split; intros; solve [auto; discriminate]]]).
Qed.
Lemma other_upto su s c r i : settled idx su s c -> clear su s -> ~ refreshes r ->
  let s' := run_actions idx su (firstn i (req_actions r)) s in settled idx su s' c /\ clear su s'.
Proof.
  intros Hs Hc Hr. destruct r as [b| |]; [exfalso; apply Hr; exact I| |].
  - destruct (acted idx su s c AUpload Hs Hc) as [A1 B1].
    destruct (acted idx su _ c ADropUploaded A1 B1) as [A2 B2].
    destruct i as [|[|i]]; cbn [req_actions firstn run_actions]; rewrite ?firstn_nil; cbn [run_actions]; [auto| |].
    + destruct (act_ok idx su AUpload s); auto.
    + destruct (act_ok idx su AUpload s); [|auto]. destruct (act_ok idx su ADropUploaded _); auto.
  - destruct (acted idx su s c ADownload Hs Hc) as [A1 B1].
    destruct i as [|i]; cbn [req_actions firstn run_actions]; rewrite ?firstn_nil; cbn [run_actions]; [auto|].
    destruct (act_ok idx su ADownload s); auto.
Qed.
Lemma whole_turn su s c r : settled idx su s c -> clear su s ->
  exists c', settled idx su (run_actions idx su (req_actions r) s) c' /\ clear su (run_actions idx su (req_actions r) s) /\ turn_leaves (Whole r) c c'.
Proof.
  intros Hs Hc. destruct r as [b| |].
  - destruct (refresh_upto su s c b 5 Hs Hc) as [A [B _]]. exists (Some b). split; [exact A|split; [exact B|reflexivity]].
  - destruct (other_upto su s c RUpload 2 Hs Hc (fun x => x)) as [A B]. exists c. split; [exact A|split; [exact B|reflexivity]].
  - destruct (other_upto su s c RDownload 2 Hs Hc (fun x => x)) as [A B]. exists c. split; [exact A|split; [exact B|reflexivity]].
Qed.
Lemma idle_start su s c : settled idx su s c -> exists s', recover (p_disk s) = Ok s' /\ settled idx su s' c.
Proof.
  intros Hs. destruct su as [[|] [|] [|]]; unfold settled, tidy in *;
  explode s c; (eexists; split; [reflexivity|]); solve [fin].
Qed.
Lemma cut_turn su s c r i n k : settled idx su s c -> clear su s ->
  exists s' c', run_stopped idx su r i n k s = Ok s' /\ settled idx su s' c' /\ turn_leaves (Cut r i n k) c c'.
Proof.
  intros Hs Hc. unfold run_stopped. destruct r as [b| |].
  - destruct (refresh_upto su s c b i Hs Hc) as [A [B [I1 I2]]].
    set (s1 := run_actions idx su (firstn i (req_actions (RRefresh b))) s) in *.
    destruct (nth_error (req_actions (RRefresh b)) i) as [a|] eqn:Ea.
    + destruct (stopped idx su s1 _ a n k A B) as [s' [E F]]. rewrite E.
      destruct F as [F|F].
      * exists s'. destruct (Nat.leb i 2) eqn:L.
        -- apply Nat.leb_le in L. exists c. split; [auto|split; [exact F|]]. left. auto.
        -- apply Nat.leb_gt in L. exists (Some b). split; [auto|split; [exact F|]]. right. split; [lia|auto].
      * do 5 (try (destruct i as [|i])); cbn in Ea; try discriminate; try (destruct i; discriminate); injection Ea as <-; cbn [contents_after Nat.leb] in F.
        -- exists s', c. split; [auto|split; [exact F|]]. cbn. auto with arith.
        -- destruct (I1 eq_refl) as [E1| ->].
           ++ rewrite E1 in F. exists s', c. split; [auto|split; [exact F|]]. cbn. auto with arith.
           ++ exists s', None. split; [auto|split; [|cbn; auto with arith]]. destruct (in_id (p_flags s1)); exact F.
        -- rewrite (I2 eq_refl) in F. exists s', (Some b). split; [auto|split; [exact F|]]. cbn. auto with arith.
        -- exists s', (Some b). split; [auto|split; [exact F|]]. cbn. auto with arith.
        -- exists s', (Some b). split; [auto|split; [exact F|]]. cbn. auto with arith.
    + destruct (idle_start su s1 _ A) as [s' [E F]]. rewrite E. apply nth_error_None in Ea. cbn in Ea.
      rewrite (proj2 (Nat.leb_gt i 2)) in F by lia. exists s', (Some b). split; [auto|split; [exact F|]]. cbn. right. split; [lia|auto].
  - destruct (other_upto su s c RUpload i Hs Hc (fun x => x)) as [A B].
    set (s1 := run_actions idx su (firstn i (req_actions RUpload)) s) in *.
    destruct (nth_error (req_actions RUpload) i) as [a|] eqn:Ea.
    + destruct (stopped idx su s1 _ a n k A B) as [s' [E F]]. exists s', c. split; [auto|split; [|reflexivity]].
      destruct F as [F|F]; [exact F|]. do 2 (try (destruct i as [|i])); cbn in Ea; try discriminate; try (injection Ea as <-; exact F). destruct i; discriminate.
    + destruct (idle_start su s1 _ A) as [s' [E F]]. exists s', c. split; [auto|split; [exact F|reflexivity]].
  - destruct (other_upto su s c RDownload i Hs Hc (fun x => x)) as [A B].
    set (s1 := run_actions idx su (firstn i (req_actions RDownload)) s) in *.
    destruct (nth_error (req_actions RDownload) i) as [a|] eqn:Ea.
    + destruct (stopped idx su s1 _ a n k A B) as [s' [E F]]. exists s', c. split; [auto|split; [|reflexivity]].
      destruct F as [F|F]; [exact F|]. destruct i as [|i]; cbn in Ea; [injection Ea as <-; exact F|]. destruct i; discriminate.
    + destruct (idle_start su s1 _ A) as [s' [E F]]. exists s', c. split; [auto|split; [exact F|reflexivity]].
Qed.

Lemma turn_step su s c t : settled idx su s c -> clear su s -> su_replaces su = true \/ whole t ->
  exists s' c', turn_do idx su s t = Ok s' /\ settled idx su s' c' /\ clear su s' /\ turn_leaves t c c'.
Proof.
  intros Hs Hc Ht. destruct t as [r|r i n k].
  - destruct (whole_turn su s c r Hs Hc) as [c' [A [B C]]]. exists (run_actions idx su (req_actions r) s), c'. auto.
  - destruct Ht as [Ht|[]]. destruct (cut_turn su s c r i n k Hs Hc) as [s' [c' [A [B C]]]]. exists s', c'. split; [exact A|split; [exact B|split; [now left|exact C]]].
Qed.
Lemma all_turns su l : forall s c, settled idx su s c -> clear su s -> su_replaces su = true \/ Forall whole l ->
  exists s' c', turns idx su s l = Ok s' /\ settled idx su s' c' /\ turns_leave l c c'.
Proof.
  induction l as [|t l IH]; intros s c Hs Hc Hl; cbn.
  - eauto 8.
  - assert (Ht : su_replaces su = true \/ whole t). { destruct Hl as [Hl|Hl]; [now left|right; exact (Forall_inv Hl)]. }
    destruct (turn_step su s c t Hs Hc Ht) as [s1 [c1 [A [B [C D]]]]]. rewrite A.
    destruct (IH s1 c1 B C) as [s' [c' [E [F G]]]]. { destruct Hl as [Hl|Hl]; [now left|right; exact (Forall_inv_tail Hl)]. }
    exists s', c'. eauto.
Qed.

(* an action that failed is done again *)
Lemma again su s c a n k : settled idx su s c -> clear su s -> (forall b, a <> ARefresh b) ->
  exists s', happenings idx su s [Failed a n k; Done a] = Ok s' /\
    settled idx su s' (contents_after a (in_id (p_flags s)) (in_cloud (p_flags s)) c).
Proof.
  intros Hs Hc Ha. destruct su as [[|] [|] [|]]; unfold settled, tidy, clear in *;
  explode s c; destruct a; try (exfalso; eapply Ha; reflexivity); cbn; unfold disk_upto, fops_upto; cbn;
  (do 6 (try (destruct n as [|n]))); cbn; (eexists; split; [reflexivity|]); solve [fin].
Qed.
End Index.
