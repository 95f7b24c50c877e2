(* Until the first error a cursor is what it is when every region can be read. *)
From Coq Require Import NArith ZArith List Bool Sorted Lia Arith.
Import ListNotations.
From Verif Require Import Model.Base Model.Event Model.Rbtree Model.Memtable Model.Mapping Model.Merge
  Model.PartIter Model.Scan Model.Faulty Spec.Faulty.

Definition none (_ : N) (_ : nat) : bool := false.

Section Same.
Variable bad : N -> nat -> bool.

Lemma skip_same mn f : forall fuel p it it', fiter_skip bad fuel mn f p it = (it', true) ->
  fiter_skip none fuel mn f p it = (it', true).
Proof.
  induction fuel; intros p it it'; cbn [fiter_skip]; destruct (region_iterator_at it); auto.
  destruct (length f <=? S p); auto. destruct (bad mn (S p)); [discriminate|]. apply IHfuel.
Qed.
Lemma iter_same mn f it it' : fiter_next bad mn f it = (it', true) -> fiter_next none mn f it = (it', true).
Proof. unfold fiter_next. destruct (pi_index it); auto. apply skip_same. Qed.
Lemma src_same mn s s' : fsrc_next bad mn s = (s', true) -> fsrc_next none mn s = (s', true).
Proof.
  destruct s as [l|f it]; cbn [fsrc_next]; auto. destruct (fiter_next bad mn f it) as [it' ok] eqn:E.
  intros H. injection H as <- ->. rewrite (iter_same _ _ _ _ E). auto.
Qed.
Lemma advance_same mn : forall l l', fmerge_advance bad mn l = (l', true) -> fmerge_advance none mn l = (l', true).
Proof.
  induction l as [|[s [|]] l IH]; intros l'; cbn [fmerge_advance]; auto.
  - destruct (fsrc_next bad mn s) as [s' [|]] eqn:E; [|discriminate]. rewrite (src_same _ _ _ E).
    destruct (fmerge_advance bad mn l) as [t ok]. intros H. injection H as <- ->. rewrite (IH t); auto.
  - destruct (fmerge_advance bad mn l) as [t ok]. intros H. injection H as <- ->. rewrite (IH t); auto.
Qed.
Lemma merge_same mn m m' : fmerge_next bad mn m = (m', true) -> fmerge_next none mn m = (m', true).
Proof.
  unfold fmerge_next. destruct (fmerge_advance bad mn (fm_list m)) as [l [|]] eqn:E; [|discriminate].
  rewrite (advance_same _ _ _ E). auto.
Qed.
Lemma part_same s key fm : fpart_open bad s key = Ok (fm, true) -> fpart_open none s key = Ok (fm, true).
Proof.
  unfold fpart_open. destruct (memtable_source (pt_mem (s_data s)) key) as [a| |]; cbn [bind]; auto.
  destruct (memtable_source (pt_prev (s_data s)) key) as [b| |]; cbn [bind]; auto.
  assert (X : forall mg, Ok (fmerge_next bad (s_min s) mg) = Ok (fm, true) -> Ok (fmerge_next none (s_min s) mg) = Ok (fm, true)).
  { intros mg H. injection H as H. rewrite (merge_same _ _ _ H). auto. }
  destruct (pt_file (s_data s)) as [f|]; [|apply X].
  unfold fiter_open. destruct (index_iterator_open f key) as [p|]; [|apply X].
  destruct (bad (s_min s) p); [discriminate|]. unfold none at 1. apply X.
Qed.
Variable m : mapping part.
Lemma open_same mn key c : fcursor_open_part bad m mn key = Ok (c, true) -> fcursor_open_part none m mn key = Ok (c, true).
Proof.
  unfold fcursor_open_part. destruct (engine_lock part_new m 1 mn true false) as [r| |]; cbn [bind]; auto.
  destruct (snd r) as [z|]; auto. destruct (zelem z) as [s|]; auto.
  destruct (fpart_open bad s key) as [[fm ok]| |] eqn:E; cbn [bind]; try discriminate.
  intros H. injection H as <- ->. rewrite (part_same _ _ _ E). auto.
Qed.
Lemma next_same c c' : fcursor_next bad m c = Ok (c', true) -> fcursor_next none m c = Ok (c', true).
Proof.
  destruct c as [[s fm]|]; cbn [fcursor_next]; auto.
  destruct (fmerge_next bad (s_min s) fm) as [fm' [|]] eqn:E; cbn [negb]; [|discriminate].
  rewrite (merge_same _ _ _ E). cbn [negb]. destruct (fmerge_at fm'); auto. apply open_same.
Qed.
Lemma cursor_same key c : fcursor_open bad m key = Ok (c, true) -> fcursor_open none m key = Ok (c, true).
Proof.
  unfold fcursor_open. destruct (fcursor_open_part bad m _ key) as [[c1 [|]]| |] eqn:E; cbn [bind negb]; try discriminate.
  rewrite (open_same _ _ _ E). cbn [bind negb]. destruct c1 as [[s fm]|]; auto. destruct (fmerge_at fm); auto.
  apply next_same.
Qed.
Lemma skips_same : forall fuel c c', fcursor_skip bad fuel m c = Ok (Some (c', true)) ->
  fcursor_skip none fuel m c = Ok (Some (c', true)).
Proof.
  induction fuel; intros c c'; cbn [fcursor_skip]; auto. destruct c as [sm|]; auto.
  destruct (match fcursor_at (Some sm) with Some e => negb (event_is_delete e) | None => false end); auto.
  destruct (fcursor_next bad m (Some sm)) as [[c1 [|]]| |] eqn:E; cbn [bind]; try discriminate.
  rewrite (next_same _ _ E). cbn [bind]. apply IHfuel.
Qed.
Lemma mnext_same fuel c c' rc : rc <> (-1)%Z -> fmonotone_next bad fuel m c = Ok (Some (c', rc)) ->
  fmonotone_next none fuel m c = Ok (Some (c', rc)).
Proof.
  intros R. unfold fmonotone_next.
  destruct (fcursor_next bad m c) as [[c1 [|]]| |] eqn:E; cbn [bind negb]; try discriminate.
  2:{ intros H. injection H as _ H. congruence. }
  rewrite (next_same _ _ E). cbn [bind negb].
  destruct (fcursor_skip bad fuel m c1) as [[[c2 [|]]|]| |] eqn:E2; cbn [bind]; try discriminate.
  - rewrite (skips_same _ _ _ E2). auto.
  - intros H. injection H as _ H. congruence.
Qed.

Lemma mnext_rc fuel c c' rc : fmonotone_next bad fuel m c = Ok (Some (c', rc)) -> (rc = 1 \/ rc = 0 \/ rc = -1)%Z.
Proof.
  unfold fmonotone_next. destruct (fcursor_next bad m c) as [[c1 ok]| |]; cbn [bind]; try discriminate.
  destruct ok; cbn [negb]; [|intros H; injection H as _ <-; auto].
  destruct (fcursor_skip bad fuel m c1) as [[[c2 ok]|]| |]; cbn [bind]; try discriminate.
  intros H. injection H as _ <-. destruct ok, c2; auto.
Qed.

Lemma fread_same fuel : forall n c tr n' tr', fread bad n fuel m c = Ok (Some tr) -> fread none n' fuel m c = Ok (Some tr') ->
  (exists rest, saw tr' = before_error tr ++ rest) /\ (~ In Failed tr -> saw tr' = saw tr).
Proof.
  induction n; intros c tr n' tr'; cbn [fread]; [discriminate|].
  destruct (fmonotone_next bad fuel m c) as [[[c1 rc]|]| |] eqn:E; cbn [bind]; try discriminate.
  destruct n'; cbn [fread]; [discriminate|].
  destruct (mnext_rc _ _ _ _ E) as [->|[->| ->]].
  - rewrite (mnext_same fuel c c1 1%Z ltac:(discriminate) E). cbn [bind].
    change (1 =? 0)%Z with false. change (1 =? 1)%Z with true. cbv iota zeta.
    destruct (fread bad n fuel m c1) as [[l|]| |] eqn:E1; cbn [bind]; try discriminate.
    destruct (fread none n' fuel m c1) as [[l'|]| |] eqn:E2; cbn [bind]; try discriminate.
    intros H1 H2. injection H1 as <-. injection H2 as <-.
    destruct (IHn _ _ _ _ E1 E2) as [(rest & I1) I2].
    destruct (fmonotone_read c1) as [e|]; cbn [saw before_error].
    + split; [exists rest; rewrite I1; auto|]. intros X. f_equal. apply I2. intros Y. apply X. right; auto.
    + split; [exists rest; auto|]. intros X. apply I2. intros Y. apply X. right; auto.
  - rewrite (mnext_same fuel c c1 0%Z ltac:(discriminate) E). cbn.
    intros H1 H2. injection H1 as <-. injection H2 as <-. cbn. split; [exists []; auto|auto].
  - change (-1 =? 0)%Z with false. change (-1 =? 1)%Z with false. cbv iota zeta.
    destruct (fread bad n fuel m c1) as [[l|]| |]; cbn [bind]; try discriminate.
    intros H1 _. injection H1 as <-. cbn [before_error]. split; [exists (saw tr'); auto|].
    intros X. exfalso. apply X. left; auto.
Qed.

Lemma fscan_same fuel key tr tr' : fscan bad fuel m key = Ok (Some (Some tr)) -> fscan none fuel m key = Ok (Some (Some tr')) ->
  (exists rest, saw tr' = before_error tr ++ rest) /\ (~ In Failed tr -> saw tr' = saw tr).
Proof.
  unfold fscan, fmonotone_cursor.
  destruct (fcursor_open bad m key) as [[c [|]]| |] eqn:E; cbn [bind negb]; try discriminate.
  rewrite (cursor_same _ _ E). cbn [bind negb].
  destruct (fcursor_skip bad fuel m c) as [[[c1 [|]]|]| |] eqn:E1; cbn [bind]; try discriminate.
  rewrite (skips_same _ _ _ E1). cbn [bind]. destruct (fmonotone_read c1) as [e|].
  - destruct (fread bad fuel fuel m c1) as [[l|]| |] eqn:E2; cbn [bind]; try discriminate.
    destruct (fread none fuel fuel m c1) as [[l'|]| |] eqn:E3; cbn [bind]; try discriminate.
    intros H1 H2. injection H1 as <-. injection H2 as <-.
    destruct (fread_same _ _ _ _ _ _ E2 E3) as [(rest & I1) I2]. cbn [saw before_error].
    split; [exists rest; rewrite I1; auto|]. intros X. f_equal. apply I2. intros Y. apply X. right; auto.
  - intros H1 H2. injection H1 as <-. injection H2 as <-. split; [exists []; auto|auto].
Qed.
End Same.

(* without unreadable regions nothing fails *)
Lemma skip_none mn f : forall fuel p it, snd (fiter_skip none fuel mn f p it) = true.
Proof.
  induction fuel; intros p it; cbn [fiter_skip]; destruct (region_iterator_at it); auto.
  destruct (length f <=? S p); auto. unfold none at 1. apply IHfuel.
Qed.
Lemma advance_ok mn : forall l, snd (fmerge_advance none mn l) = true.
Proof.
  induction l as [|[s [|]] l IH]; cbn [fmerge_advance]; auto.
  - destruct s as [x|f it]; cbn [fsrc_next].
    + destruct (fmerge_advance none mn l); auto.
    + unfold fiter_next. destruct (pi_index it) as [p|].
      * pose proof (skip_none mn f (length f) p (region_iterator_next (pi_region it))) as H.
        destruct (fiter_skip none (length f) mn f p (region_iterator_next (pi_region it))) as [it' ok].
        cbn [snd] in H. subst ok. destruct (fmerge_advance none mn l); auto.
      * destruct (fmerge_advance none mn l); auto.
  - destruct (fmerge_advance none mn l); auto.
Qed.
Lemma merge_ok mn m : snd (fmerge_next none mn m) = true.
Proof.
  unfold fmerge_next. pose proof (advance_ok mn (fm_list m)). destruct (fmerge_advance none mn (fm_list m)) as [l ok].
  cbn [snd] in H. subst ok. destruct (fmerge_scan [] l false None). auto.
Qed.
Lemma part_ok_none s key fm ok : fpart_open none s key = Ok (fm, ok) -> ok = true.
Proof.
  unfold fpart_open. destruct (memtable_source (pt_mem (s_data s)) key) as [a| |]; cbn [bind]; try discriminate.
  destruct (memtable_source (pt_prev (s_data s)) key) as [b| |]; cbn [bind]; try discriminate.
  assert (X : forall mg, Ok (fmerge_next none (s_min s) mg) = Ok (fm, ok) -> ok = true).
  { intros mg H. injection H as H. pose proof (merge_ok (s_min s) mg) as Y. rewrite H in Y. auto. }
  destruct (pt_file (s_data s)) as [f|]; [|apply X].
  unfold fiter_open. destruct (index_iterator_open f key) as [p|]; [|apply X]. unfold none at 1. apply X.
Qed.
Lemma open_ok_none m mn key c ok : fcursor_open_part none m mn key = Ok (c, ok) -> ok = true.
Proof.
  unfold fcursor_open_part. destruct (engine_lock part_new m 1 mn true false) as [r| |]; cbn [bind]; try discriminate.
  destruct (snd r) as [z|]; [|intros H; injection H as _ <-; auto]. destruct (zelem z) as [s|]; [|discriminate].
  destruct (fpart_open none s key) as [[fm o]| |] eqn:E; cbn [bind]; try discriminate.
  intros H. injection H as _ <-. eapply part_ok_none; eauto.
Qed.
Lemma next_ok_none m c c' ok : fcursor_next none m c = Ok (c', ok) -> ok = true.
Proof.
  destruct c as [[s fm]|]; cbn [fcursor_next]; [|intros H; injection H as _ <-; auto].
  pose proof (merge_ok (s_min s) fm) as X. destruct (fmerge_next none (s_min s) fm) as [fm' o]. cbn [snd] in X. subst o. cbn [negb].
  destruct (fmerge_at fm'); [intros H; injection H as _ <-; auto|]. apply open_ok_none.
Qed.
Lemma cursor_ok_none m key c ok : fcursor_open none m key = Ok (c, ok) -> ok = true.
Proof.
  unfold fcursor_open. destruct (fcursor_open_part none m _ key) as [[c1 o]| |] eqn:E; cbn [bind]; try discriminate.
  pose proof (open_ok_none _ _ _ _ _ E). subst o. cbn [negb].
  destruct c1 as [[s fm]|]; [|intros H; injection H as _ <-; auto].
  destruct (fmerge_at fm); [intros H; injection H as _ <-; auto|]. apply next_ok_none.
Qed.
Lemma skip_ok_none m : forall fuel c c' ok, fcursor_skip none fuel m c = Ok (Some (c', ok)) -> ok = true.
Proof.
  induction fuel; intros c c' ok; cbn [fcursor_skip]; [discriminate|]. destruct c as [sm|]; [|intros H; injection H as _ <-; auto].
  destruct (match fcursor_at (Some sm) with Some e => negb (event_is_delete e) | None => false end); [intros H; injection H as _ <-; auto|].
  destruct (fcursor_next none m (Some sm)) as [[c1 o]| |] eqn:E; cbn [bind]; try discriminate.
  pose proof (next_ok_none _ _ _ _ E). subst o. apply IHfuel.
Qed.
Lemma fscan_none_opens fuel m key : fscan none fuel m key <> Ok (Some None).
Proof.
  unfold fscan, fmonotone_cursor.
  destruct (fcursor_open none m key) as [[c o]| |] eqn:E; cbn [bind]; try discriminate.
  pose proof (cursor_ok_none _ _ _ _ E). subst o. cbn [negb].
  destruct (fcursor_skip none fuel m c) as [[[c1 o]|]| |] eqn:E1; cbn [bind]; try discriminate.
  pose proof (skip_ok_none _ _ _ _ _ E1). subst o. destruct (fmonotone_read c1); try discriminate.
  destruct (fread none fuel fuel m c1) as [[l|]| |]; cbn [bind]; discriminate.
Qed.
