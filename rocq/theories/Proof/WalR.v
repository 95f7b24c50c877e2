From Coq Require Import NArith ZArith Arith List Bool Lia Sorted.
Import ListNotations.
From Verif Require Import Model.Base Model.Event Model.Crc Model.Codec Model.File Model.Wal
  Spec.Order Spec.Checksum Spec.Log Proof.CrcL Proof.CodecL Proof.FileR Proof.FileC Proof.WalL.
Local Opaque crc_bits.
Local Arguments N.add : simpl never.
Local Arguments N.mul : simpl never.

(* files with a torn tail *)
Definition tfile := (N * (list rec * list byte))%type.
Definition recs_bytes on (rs : list rec) : list byte := flat_map (rec_bytes on) rs.
Definition tbytes on (f : tfile) : list byte := recs_bytes on (fst (snd f)) ++ snd (snd f).
Definition torn on (pre : nat) (tail : list byte) : Prop :=
  forall p : list byte, length p = pre -> wal_file_pread on (p ++ tail) (N.of_nat (length p)) = Ok None.
Definition tfile_ok on (f : tfile) : Prop :=
  Forall (rec_ok on) (fst (snd f)) /\ torn on (length (recs_bytes on (fst (snd f)))) (snd (snd f)) /\
  (N.of_nat (length (tbytes on f)) + 21 < 2^32)%N.
Definition tfiles on (a : list tfile) : list (N * list byte) := map (fun f => (fst f, tbytes on f)) a.
Definition trecs (a : list tfile) : list rec := flat_map (fun f => fst (snd f)) a.
Definition tids (a : list tfile) : list N := map fst a.

Definition tlog_ok on (a : list tfile) : Prop :=
  Forall (tfile_ok on) a /\ increasing (tids a) /\ Forall (fun i => (i < u64_max)%N) (tids a).

Lemma rec_bytes_length on r : rec_ok on r -> 21 < length (rec_bytes on r).
Proof.
  intros H. destruct (rec_framed on r H) as (w & body & (Hr & _ & _ & Hb & _) & _). rewrite Hr.
  rewrite app_length, lwrite_length. destruct body; [tauto|]. simpl. lia.
Qed.

Lemma file_at on id r1 r r2 tail : tfile_ok on (id, (r1 ++ r :: r2, tail)) ->
  exists w body, wal_file_pread on (tbytes on (id, (r1 ++ r :: r2, tail))) (N.of_nat (length (recs_bytes on r1))) = Ok (Some (w, body))
    /\ log_decode w body = Ok (rec_logged r) /\ lw_lsn w = rec_lsn r
    /\ lw_size w = N.of_nat (length (rec_bytes on r)).
Proof.
  intros (Hr & Ht & Hl). cbn [fst snd] in *. assert (Hok : rec_ok on r).
  { rewrite Forall_forall in Hr. apply Hr. apply in_or_app. right. left. auto. }
  destruct (rec_framed on r Hok) as (w & body & Hf & Hd & Hn). exists w, body.
  unfold tbytes in *. cbn [fst snd] in *. unfold recs_bytes in *.
  rewrite flat_map_app in *. cbn [flat_map] in *. rewrite <- !app_assoc in *.
  split; [|split; [auto|split; [auto|]]].
  - eapply read_record; eauto.
  - destruct Hf as (-> & _ & _ & _ & Hs & _). rewrite app_length, lwrite_length. lia.
Qed.

Lemma file_done on id r1 tail : tfile_ok on (id, (r1, tail)) ->
  wal_file_pread on (tbytes on (id, (r1, tail))) (N.of_nat (length (recs_bytes on r1))) = Ok None.
Proof.
  intros (Hr & Ht & Hl). cbn [fst snd] in *. unfold tbytes in *. cbn [fst snd] in *. apply Ht. auto.
Qed.
Lemma torn_nil on n : (N.of_nat n + 21 < 2^32)%N -> torn on n [].
Proof. intros H p <-. rewrite app_nil_r. apply read_end. auto. Qed.
Lemma torn_cut on n r tail rest : rec_ok on r -> rec_bytes on r = tail ++ rest -> rest <> [] ->
  (N.of_nat (n + length (rec_bytes on r)) < 2^32)%N -> torn on n tail.
Proof.
  intros Hok Hb Hn Hl p <-. destruct (rec_framed on r Hok) as (w & body & Hf & Hd & _).
  eapply read_cut; eauto. rewrite app_length. auto.
Qed.
(* what was written behind a cut record does not reach its end *)
Lemma torn_behind on n r tail rest more : rec_ok on r -> rec_bytes on r = tail ++ rest ->
  21 <= length tail -> length more < length rest ->
  (N.of_nat (n + length (rec_bytes on r)) < 2^32)%N -> torn on n (tail ++ more).
Proof.
  intros Hok Hb Ht Hm Hl p <-. destruct (rec_framed on r Hok) as (w & body & Hf & Hd & _).
  destruct Hf as (Hr & Hfit & _ & _ & Hsz & Hlt & _). rewrite Hr in Hb.
  assert (Hh : exists t2, tail = lwrite_bytes w ++ t2).
  { exists (skipn 21 tail). rewrite <- (firstn_skipn 21 tail) at 1. f_equal.
    apply (f_equal (firstn 21)) in Hb. rewrite firstn_app_exact in Hb by (rewrite lwrite_length; auto).
    rewrite Hb. rewrite firstn_app. replace (21 - length tail) with 0 by lia. rewrite firstn_O, app_nil_r. auto. }
  destruct Hh as (t2 & ->). rewrite Hr in Hl. pose proof (f_equal (@length _) Hb) as Hlen.
  repeat rewrite app_length in Hlen. rewrite app_length in Hl. rewrite lwrite_length in Hlen, Hl.
  unfold wal_file_pread. rewrite eof_inside by (rewrite !app_length, lwrite_length; lia).
  rewrite <- !app_assoc. replace 21%N with (N.of_nat (length (lwrite_bytes w))) at 1 by (rewrite lwrite_length; auto).
  rewrite pread_buf_app.
  2: { intros E2. pose proof (lwrite_length w) as E3. rewrite E2 in E3. discriminate. }
  2: { rewrite lwrite_length. reflexivity. }
  cbn [bind]. rewrite lwrite_load_spec by auto. cbn [of_opt bind]. rewrite eof_small by lia.
  rewrite !app_length, lwrite_length.
  match goal with |- context [(?a <? ?b)%N] => destruct (a <? b)%N eqn:E2; [auto|apply N.ltb_ge in E2; lia] end.
Qed.

Lemma file_of_at on a1 f a2 : increasing (tids (a1 ++ f :: a2)) ->
  file_of (fst f) (tfiles on (a1 ++ f :: a2)) = Some (tbytes on f).
Proof.
  induction a1 as [|g a1 IH]; simpl; intros H.
  - rewrite N.eqb_refl. auto.
  - inversion H; subst. destruct (fst g =? fst f)%N eqn:E; [|auto].
    apply N.eqb_eq in E. rewrite Forall_forall in H3. specialize (H3 (fst f)).
    exfalso. assert (fst g < fst f)%N; [|lia]. apply H3. unfold tids. rewrite map_app. apply in_or_app. right. left. auto.
Qed.

Lemma next_id a1 f a2 : increasing (tids (a1 ++ f :: a2)) ->
  wal_id_next (fst f) (tids (a1 ++ f :: a2)) = match a2 with [] => u64_max | g :: _ => fst g end.
Proof.
  induction a1 as [|g a1 IH]; simpl; intros H.
  - rewrite N.ltb_irrefl. inversion H; subst. destruct a2 as [|g a2]; auto. simpl.
    inversion H3; subst. replace (fst f <? fst g)%N with true; auto. symmetry. apply N.ltb_lt. auto.
  - inversion H; subst. rewrite Forall_forall in H3. specialize (H3 (fst f)).
    assert (fst g < fst f)%N.
    { apply H3. unfold tids. rewrite map_app. apply in_or_app. right. left. auto. }
    replace (fst f <? fst g)%N with false; auto. symmetry. apply N.ltb_ge. lia.
Qed.

(* a cursor on a log, with what is left to read *)
Definition at_pos on (a : list tfile) (c : wcursor) (rem : list rec) : Prop :=
  exists a1 id r1 r2 tail a2, a = a1 ++ (id, (r1 ++ r2, tail)) :: a2 /\
    c = mk_wcursor (Some (id, tbytes on (id, (r1 ++ r2, tail)))) (N.of_nat (length (recs_bytes on r1))) /\
    rem = r2 ++ trecs a2.

Lemma next_at on a (Ha : tlog_ok on a) : forall a2 fuel a1 id r1 r2 tail,
  a = a1 ++ (id, (r1 ++ r2, tail)) :: a2 -> length a2 < fuel ->
  let c := mk_wcursor (Some (id, tbytes on (id, (r1 ++ r2, tail)))) (N.of_nat (length (recs_bytes on r1))) in
  let step := wal_cursor_next fuel on (tfiles on a) (tids a) c in
  match r2 ++ trecs a2 with
  | [] => exists c', step = Ok (None, c')
  | r :: rem => exists w body c', step = Ok (Some (w, body), c') /\ log_decode w body = Ok (rec_logged r) /\
      lw_lsn w = rec_lsn r /\ at_pos on a c' rem /\
      at_pos on a (mk_wcursor (wc_file c') (sub64 (wc_off c') (lw_size w))) (r :: rem)
  end.
Proof.
  destruct Ha as (Hfs & Hs & Hm).
  induction a2 as [|g a2 IH]; intros fuel a1 id r1 r2 tail Ea Hf; destruct fuel as [|fuel]; try (simpl in Hf; lia);
    intros c step.
  - destruct r2 as [|r r2].
    + simpl. unfold step. cbn [wal_cursor_next wc_file c wc_off]. rewrite app_nil_r.
      rewrite file_done.
      2: { rewrite Forall_forall in Hfs. apply Hfs. rewrite Ea, app_nil_r. apply in_or_app. right. left. auto. }
      cbn [bind].
      assert (Hn : wal_id_next id (tids a) = u64_max).
      { rewrite Ea in Hs |- *. exact (next_id a1 (id, (r1 ++ [], tail)) [] Hs). }
      rewrite Hn, N.eqb_refl. eauto.
    + cbn [app]. rewrite Forall_forall in Hfs.
      assert (Hfo : tfile_ok on (id, (r1 ++ r :: r2, tail))).
      { apply Hfs. rewrite Ea. apply in_or_app. right. left. auto. }
      destruct (file_at _ _ _ _ _ _ Hfo) as (w & body & Hp & Hd & Hn & Hz).
      exists w, body, (mk_wcursor (wc_file c) (wc_off c + lw_size w)).
      split; [|split; [auto|split; [auto|split]]].
      * unfold step. cbn [wal_cursor_next wc_file c wc_off]. rewrite Hp. reflexivity.
      * exists a1, id, (r1 ++ [r]), r2, tail, []. rewrite <- app_assoc. cbn [app]. split; [auto|split].
        -- unfold c. cbn [wc_file wc_off]. f_equal. rewrite Hz. unfold recs_bytes. rewrite flat_map_app, app_length.
           cbn [flat_map]. rewrite app_nil_r. lia.
        -- auto.
      * exists a1, id, r1, (r :: r2), tail, []. split; [auto|split; [|auto]].
        cbn [wc_file wc_off c]. f_equal.
        destruct Hfo as (_ & _ & Hlen). unfold tbytes in Hlen. cbn [fst snd] in Hlen.
        unfold recs_bytes in *. rewrite flat_map_app, !app_length in Hlen. 
        assert (H64 : (2^32 < two64)%N) by reflexivity.
        unfold sub64. replace (N.of_nat (length (flat_map (rec_bytes on) r1)) + lw_size w + two64 - lw_size w)%N with (N.of_nat (length (flat_map (rec_bytes on) r1)) + 1 * two64)%N by lia.
        rewrite N.mod_add by discriminate. rewrite N.mod_small; lia.
  - destruct r2 as [|r r2].
    + cbn [app]. unfold step. cbn [wal_cursor_next wc_file c wc_off]. rewrite app_nil_r.
      rewrite file_done.
      2: { rewrite Forall_forall in Hfs. apply Hfs. rewrite Ea, app_nil_r. apply in_or_app. right. left. auto. }
      cbn [bind]. destruct g as [gid [grs gtail]].
      assert (Hn : wal_id_next id (tids a) = gid).
      { rewrite Ea in Hs |- *. exact (next_id a1 (id, (r1 ++ [], tail)) _ Hs). }
      rewrite Hn. destruct (gid =? u64_max)%N eqn:E.
      { apply N.eqb_eq in E. rewrite Forall_forall in Hm. specialize (Hm gid).
        assert (gid < u64_max)%N; [|lia]. apply Hm. rewrite Ea. unfold tids. rewrite map_app. apply in_or_app.
        right. right. left. auto. }
      assert (Hfo : file_of gid (tfiles on a) = Some (tbytes on (gid, (grs, gtail)))).
      { rewrite Ea in Hs |- *. pose proof (file_of_at on (a1 ++ [(id, (r1 ++ [], tail))]) (gid, (grs, gtail)) a2) as Hx.
        rewrite <- app_assoc in Hx. exact (Hx Hs). }
      rewrite Hfo.
      specialize (IH fuel (a1 ++ [(id, (r1 ++ [], tail))]) gid [] grs gtail).
      cbn [app recs_bytes flat_map length] in IH.
      apply IH; [rewrite <- app_assoc; auto|simpl in Hf; lia].
    + cbn [app]. rewrite Forall_forall in Hfs.
      assert (Hfo : tfile_ok on (id, (r1 ++ r :: r2, tail))).
      { apply Hfs. rewrite Ea. apply in_or_app. right. left. auto. }
      destruct (file_at _ _ _ _ _ _ Hfo) as (w & body & Hp & Hd & Hn & Hz).
      exists w, body, (mk_wcursor (wc_file c) (wc_off c + lw_size w)).
      split; [|split; [auto|split; [auto|split]]].
      * unfold step. cbn [wal_cursor_next wc_file c wc_off]. rewrite Hp. reflexivity.
      * exists a1, id, (r1 ++ [r]), r2, tail, (g :: a2). rewrite <- app_assoc. cbn [app]. split; [auto|split].
        -- unfold c. cbn [wc_file wc_off]. f_equal. rewrite Hz. unfold recs_bytes. rewrite flat_map_app, app_length.
           cbn [flat_map]. rewrite app_nil_r. lia.
        -- auto.
      * exists a1, id, r1, (r :: r2), tail, (g :: a2). split; [auto|split; [|auto]].
        cbn [wc_file wc_off c]. f_equal.
        destruct Hfo as (_ & _ & Hlen). unfold tbytes in Hlen. cbn [fst snd] in Hlen.
        unfold recs_bytes in *. rewrite flat_map_app, !app_length in Hlen. 
        assert (H64 : (2^32 < two64)%N) by reflexivity.
        unfold sub64. replace (N.of_nat (length (flat_map (rec_bytes on) r1)) + lw_size w + two64 - lw_size w)%N with (N.of_nat (length (flat_map (rec_bytes on) r1)) + 1 * two64)%N by lia.
        rewrite N.mod_add by discriminate. rewrite N.mod_small; lia.
Qed.

Lemma next_any on a c rem : tlog_ok on a -> at_pos on a c rem ->
  let step := wal_cursor_next (S (length (tids a))) on (tfiles on a) (tids a) c in
  match rem with
  | [] => exists c', step = Ok (None, c')
  | r :: rem => exists w body c', step = Ok (Some (w, body), c') /\ log_decode w body = Ok (rec_logged r) /\
      lw_lsn w = rec_lsn r /\ at_pos on a c' rem /\
      at_pos on a (mk_wcursor (wc_file c') (sub64 (wc_off c') (lw_size w))) (r :: rem)
  end.
Proof.
  intros Ha (a1 & id & r1 & r2 & tail & a2 & Ea & -> & ->). apply next_at with (a1 := a1); auto.
  unfold tids. rewrite Ea, map_length, app_length. simpl. lia.
Qed.

Lemma replay_at on a (Ha : tlog_ok on a) : forall rem fuel c, at_pos on a c rem -> length rem < fuel ->
  wal_replay fuel on (tfiles on a) (tids a) c = (map rec_logged rem, Ok tt).
Proof.
  induction rem as [|r rem IH]; intros fuel c Hc Hf; destruct fuel as [|fuel]; try lia; cbn [wal_replay].
  - destruct (next_any _ _ _ _ Ha Hc) as (c' & E). rewrite E. auto.
  - destruct (next_any _ _ _ _ Ha Hc) as (w & body & c' & E & Hd & _ & Hc' & _). rewrite E, Hd.
    rewrite (IH fuel c') by (auto; simpl in Hf; lia). reflexivity.
Qed.

Lemma recs_count on a : Forall (tfile_ok on) a -> length (trecs a) <= length (flat_map snd (tfiles on a)).
Proof.
  induction 1 as [|f a Hf _ IH]; simpl; auto. rewrite !app_length. destruct Hf as (Hr & _).
  assert (length (fst (snd f)) <= length (tbytes on f)).
  { unfold tbytes. rewrite app_length. enough (length (fst (snd f)) <= length (recs_bytes on (fst (snd f)))) by lia.
    clear - Hr. unfold recs_bytes. induction Hr; auto. cbn [flat_map length]. rewrite app_length.
    pose proof (rec_bytes_length _ _ H). lia. }
  lia.
Qed.

Lemma read_tlog on a : tlog_ok on a ->
  wal_read on (tfiles on a) (tids a) = (map rec_logged (trecs a), Ok tt).
Proof.
  intros Ha. unfold wal_read, wal_cursor_open. change (0 =? 0)%N with true. cbn iota.
  set (fuel := S (length (flat_map snd (tfiles on a)))).
  assert (Hfuel : length (trecs a) < fuel).
  { unfold fuel. pose proof (recs_count on a (proj1 Ha)). lia. }
  destruct a as [|[id [rs tail]] a2].
  - reflexivity.
  - set (files := tfiles on (@cons tfile (id, (rs, tail)) a2)) in *.
    change (wal_id_min (tids (@cons tfile (id, (rs, tail)) a2))) with id.
    destruct (id =? u64_max)%N eqn:E.
    { apply N.eqb_eq in E. destruct Ha as (_ & _ & Hm). inversion Hm; subst. cbn [fst] in *. lia. }
    assert (Hfo : file_of id files = Some (tbytes on (id, (rs, tail))))
      by (simpl; rewrite N.eqb_refl; auto).
    rewrite Hfo.
    assert (Hc : at_pos on (@cons tfile (id, (rs, tail)) a2) (mk_wcursor (Some (id, tbytes on (id, (rs, tail)))) 0) (rs ++ trecs a2)).
    { exists [], id, [], rs, tail, a2. repeat split. }
    destruct fuel as [|fuel'] eqn:Ef; [discriminate|]. cbn [wal_cursor_seek].
    pose proof (next_any _ _ _ _ Ha Hc) as Hnx. cbn zeta in Hnx.
    change (trecs (@cons tfile (id, (rs, tail)) a2)) with (rs ++ trecs a2) in *.
    destruct (rs ++ trecs a2) as [|r rem].
    + destruct Hnx as (c' & Hnx). fold files in Hnx. rewrite Hnx. cbn [bind].
      assert (Hstop : wal_cursor_next (S (length (tids (@cons tfile (id, (rs, tail)) a2)))) on files (tids (@cons tfile (id, (rs, tail)) a2)) c' = Ok (None, c')).
      { clear - Hnx. revert Hnx. generalize (S (length (tids (@cons tfile (id, (rs, tail)) a2)))) at 1 as n.
        generalize (mk_wcursor (Some (id, tbytes on (id, (rs, tail)))) 0) as c.
        generalize (tids (@cons tfile (id, (rs, tail)) a2)) as ids. intros ids c n. revert c.
        induction n; intros c H; [discriminate|]. cbn [wal_cursor_next] in H |- *.
        destruct (wc_file c) as [[i b]|] eqn:Ec.
        - destruct (wal_file_pread on b (wc_off c)) as [[[w body]|]| |] eqn:Ep; cbn [bind] in H; try discriminate.
          destruct (wal_id_next i ids =? u64_max)%N eqn:En.
          + inversion H; subst. rewrite Ec, Ep. cbn [bind]. rewrite En. auto.
          + destruct (file_of (wal_id_next i ids) files); [|discriminate]. apply IHn in H. auto.
        - inversion H; subst. rewrite Ec. auto. }
      cbn [wal_replay]. rewrite Hstop. reflexivity.
    + destruct Hnx as (w & body & c' & Hnx & _ & _ & _ & Hc'). fold files in Hnx. rewrite Hnx. cbn [bind].
      change (0 <=? lw_lsn w)%N with true || (replace (0 <=? lw_lsn w)%N with true by (symmetry; apply N.leb_le; lia)).
      cbn iota. apply replay_at; auto.
Qed.
