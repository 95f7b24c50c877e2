From Coq Require Import NArith ZArith List Bool Sorted Lia Arith.
Import ListNotations.
From Verif Require Import Model.Base Model.Event Model.Rbtree Model.Memtable Model.Mapping Model.Merge
  Model.PartIter Model.Scan Model.Faulty Spec.Order Spec.Merged Spec.Files Spec.View Spec.Faulty
  Proof.OrderL Proof.MergeL Proof.PartIterL Proof.ScanL.

Definition full (f : pfile) : Prop := Forall (fun r => r <> []) f.

Section Faulty.
Variable bad : N -> nat -> bool.

(* what an iterator of a file has after its region *)
Definition later (mn : N) (f : pfile) (p : nat) : list event := concat (readable (bad mn) (S p) (skipn (S p) f)).

(* what a source shows, and what it shows after a step if it is flagged *)
Definition shows (mn : N) (s : fsrc) : list event :=
  match s with
  | FMem l => l
  | FFile f it => match pi_index it with
      | None => []
      | Some p => match part_iterator_at it with None => [] | Some _ => region_rest (pi_region it) ++ later mn f p end
      end
  end.
Definition pends (mn : N) (s : fsrc * bool) : list event :=
  if snd s then
    match fst s with
    | FMem l => tl l
    | FFile f it => match pi_index it with
        | None => []
        | Some p => region_rest (region_iterator_next (pi_region it)) ++ later mn f p
        end
    end
  else shows mn (fst s).

Definition src_ok (s : fsrc) : Prop :=
  match s with
  | FMem _ => True
  | FFile f it => region_ok (pi_region it) /\
      match pi_index it with None => part_iterator_at it = None | Some p => p < length f end
  end.
(* regions still to come *)
Definition ahead (s : fsrc) : nat :=
  match s with
  | FMem _ => 0
  | FFile f it => match pi_index it with None => 0 | Some p => length f - p end
  end.

Lemma shows_at mn s : src_ok s -> hd_error (shows mn s) = fsrc_at s.
Proof.
  destruct s as [l|f it]; auto. cbn [src_ok shows fsrc_at]. intros (R & I).
  destruct (pi_index it) as [p|]; [|rewrite I; auto].
  unfold part_iterator_at in *. pose proof (region_at_rest _ R) as H.
  destruct (region_iterator_at (pi_region it)); auto. destruct H as [-> _]. auto.
Qed.

Lemma skipn_cons {A} (l : list A) p d : p < length l -> skipn p l = nth p l d :: skipn (S p) l.
Proof. revert p; induction l as [|a l IH]; intros [|p] H; simpl in *; auto; try lia. apply IH. lia. Qed.

Lemma later_end mn f p : length f <= S p -> later mn f p = [].
Proof. intros H. unfold later. rewrite skipn_all2 by lia. auto. Qed.
Lemma later_step mn f p : S p < length f ->
  later mn f p = (if bad mn (S p) then [] else nth (S p) f []) ++ later mn f (S p).
Proof.
  intros H. unfold later at 1. rewrite (skipn_cons f (S p) [] H). cbn [readable].
  destruct (bad mn (S p)); auto.
Qed.

(* the step of a file: what it shows is what was to come, or it failed and nothing is lost but the region *)
Lemma skip_f mn f : forall fuel p it, p < length f -> length f <= p + fuel -> region_ok it ->
  let '(it', ok) := fiter_skip bad fuel mn f p it in
  src_ok (FFile f it') /\
  (ok = true -> shows mn (FFile f it') = region_rest it ++ later mn f p /\
     ahead (FFile f it') <= length f - p) /\
  (ok = false -> pends mn (FFile f it', true) = region_rest it ++ later mn f p /\
     ahead (FFile f it') < length f - p).
Proof.
  induction fuel; intros p it Hp Hf R; [lia|].
  cbn [fiter_skip]. pose proof (region_at_rest it R) as H.
  destruct (region_iterator_at it) as [e|] eqn:E.
  - split; [cbn; auto|]. split; [|discriminate]. intros _. cbn [shows pi_index pi_region ahead].
    unfold part_iterator_at. cbn [pi_region]. rewrite E. auto.
  - rewrite H. cbn [app].
    destruct (Nat.leb_spec (length f) (S p)).
    + split; [cbn; auto|]. split; [|discriminate]. intros _. rewrite later_end by auto. cbn. split; auto. lia.
    + rewrite later_step by auto.
      destruct (bad mn (S p)) eqn:B.
      * split; [cbn; auto|]. split; [discriminate|]. intros _. cbn [pends fst snd pi_index pi_region ahead].
        replace (region_rest (region_iterator_next it)) with (@nil event).
        2:{ destruct it as [r [q|]]; unfold region_iterator_next; cbn [snd fst]; auto.
            unfold region_ok in R. cbn in R. unfold region_iterator_at in E. cbn in E.
            apply nth_error_None in E. lia. }
        split; auto. lia.
      * destruct (region_open_none (nth (S p) f [])) as [O1 O2].
        specialize (IHfuel (S p) (region_iterator_open (nth (S p) f []) None) ltac:(lia) ltac:(lia) O2).
        destruct (fiter_skip bad fuel mn f (S p) (region_iterator_open (nth (S p) f []) None)) as [it' ok].
        rewrite O1 in IHfuel. destruct IHfuel as (A & B1 & B2). split; auto.
        split; intros X; [destruct (B1 X)|destruct (B2 X)]; split; auto; lia.
Qed.

Lemma next_ok it : region_ok it -> region_ok (region_iterator_next it).
Proof.
  intros R. pose proof (region_at_rest it R) as H. destruct (region_iterator_at it) eqn:E; [tauto|].
  destruct it as [r [q|]]; auto. unfold region_iterator_at in E. cbn in E. apply nth_error_None in E.
  unfold region_ok in R. cbn in R. lia.
Qed.

Lemma src_step mn s : src_ok s ->
  let '(s', ok) := fsrc_next bad mn s in
  src_ok s' /\ ahead s' <= ahead s /\
  (ok = true -> shows mn s' = pends mn (s, true)) /\
  (ok = false -> pends mn (s', true) = pends mn (s, true) /\ ahead s' < ahead s).
Proof.
  destruct s as [l|f it]; cbn [fsrc_next]; [intros _; split; [exact I|]; split; [auto|]; split; [auto|intros X; discriminate X]|].
  intros (R & I). unfold fiter_next. destruct (pi_index it) as [p|] eqn:E.
  - pose proof (skip_f mn f (length f) p (region_iterator_next (pi_region it)) I ltac:(lia) (next_ok _ R)) as H.
    destruct (fiter_skip bad (length f) mn f p (region_iterator_next (pi_region it))) as [it' ok].
    destruct H as (A & B & C). split; auto.
    assert (P : pends mn (FFile f it, true) = region_rest (region_iterator_next (pi_region it)) ++ later mn f p)
      by (cbn [pends snd fst]; rewrite E; auto).
    assert (Q : ahead (FFile f it) = length f - p) by (cbn [ahead]; rewrite E; auto).
    rewrite P, Q. destruct ok; [destruct (B eq_refl)|destruct (C eq_refl)]; repeat split; auto; try discriminate; lia.
  - split; [cbn; rewrite E; auto|]. split; auto. split; [|discriminate]. intros _. cbn [shows pends snd fst]. rewrite E. auto.
Qed.

(* --- merges --- *)
Definition fpending (mn : N) (m : fmerge) : list (list event) := map (pends mn) (fm_list m).
Definition fahead (m : fmerge) : nat := list_sum (map (fun s => ahead (fst s)) (fm_list m)).
Definition fm_ok (m : fmerge) : Prop := Forall (fun s => src_ok (fst s)) (fm_list m).

Lemma advance_f mn : forall l, Forall (fun s => src_ok (fst s)) l ->
  let '(l', ok) := fmerge_advance bad mn l in
  Forall (fun s => src_ok (fst s)) l' /\
  map (pends mn) l' = map (pends mn) l /\
  list_sum (map (fun s => ahead (fst s)) l') <= list_sum (map (fun s => ahead (fst s)) l) /\
  (ok = true -> map snd l' = map (fun _ => false) l') /\
  (ok = false -> list_sum (map (fun s => ahead (fst s)) l') < list_sum (map (fun s => ahead (fst s)) l)).
Proof.
  induction l as [|[s b] l IH]; intros F; cbn [fmerge_advance].
  { split; [constructor|]. split; [auto|]. split; [auto|]. split; [auto|intros X; discriminate X]. }
  inversion F as [|? ? F1 F2]; subst. cbn [fst] in F1. specialize (IH F2). destruct b.
  - pose proof (src_step mn s F1) as H. destruct (fsrc_next bad mn s) as [s' ok].
    destruct H as (A & B & C & D). destruct ok.
    + destruct (fmerge_advance bad mn l) as [l' ok]. destruct IH as (I1 & I2 & I3 & I4 & I5).
      split; [constructor; auto|]. cbn [map fst]. unfold list_sum in *. cbn [fold_right].
      split; [f_equal; auto; unfold pends at 1; cbn [snd fst]; apply C; auto|].
      split; [lia|]. split; intros X; [cbn [snd map]; f_equal; auto|specialize (I5 X); lia].
    + destruct (D eq_refl) as [D1 D2]. split; [constructor; auto|]. cbn [map fst]. unfold list_sum in *. cbn [fold_right].
      split; [f_equal; auto|]. split; [lia|]. split; [discriminate|]. lia.
  - destruct (fmerge_advance bad mn l) as [l' ok]. destruct IH as (I1 & I2 & I3 & I4 & I5).
    split; [constructor; auto|]. cbn [map fst]. unfold list_sum in *. cbn [fold_right].
    split; [f_equal; auto|]. split; [lia|]. split; intros X; [cbn [snd map]; f_equal; auto|specialize (I5 X); lia].
Qed.

Definition see (mn : N) (s : fsrc * bool) : msrc := (shows mn (fst s), snd s).

Lemma scan_f mn : forall todo done cl r,
  Forall (fun s => src_ok (fst s)) todo ->
  map (see mn) (fst (fmerge_scan done todo cl r)) = fst (merge_scan (map (see mn) done) (map (see mn) todo) cl r) /\
  snd (fmerge_scan done todo cl r) = snd (merge_scan (map (see mn) done) (map (see mn) todo) cl r) /\
  map fst (fst (fmerge_scan done todo cl r)) = map fst done ++ map fst todo.
Proof.
  induction todo as [|[s b] todo IH]; intros done cl r F; cbn [fmerge_scan].
  { cbn. rewrite app_nil_r. auto. }
  inversion F as [|? ? F1 F2]; subst. cbn [fst] in F1.
  cbn [map]. change (see mn (s, b)) with (shows mn s, b). cbn [merge_scan].
  assert (SP : forall x, map (see mn) [(s, x)] = [(shows mn s, x)]) by reflexivity.
  pose proof (shows_at mn s F1) as H.
  assert (X : forall d cl r x, map fst d = map fst done ->
    map fst (fst (fmerge_scan (d ++ [(s, x)]) todo cl r)) = map fst done ++ s :: map fst todo).
  { intros d cl' r' x E. destruct (IH (d ++ [(s, x)]) cl' r' F2) as (_ & _ & ->).
    rewrite map_app, E, <- app_assoc. auto. }
  destruct (shows mn s) as [|row t] eqn:Es; cbn [hd_error] in H; rewrite <- H.
  - destruct (IH (done ++ [(s, if cl then false else b)]) cl r F2) as (I1 & I2 & _).
    rewrite I1, I2. rewrite map_app, SP. split; [auto|split; [auto|apply X; auto]].
  - destruct r as [[i m]|].
    + destruct (compare m row =? 0)%Z; [|destruct (0 <? compare m row)%Z].
      * destruct (IH (done ++ [(s, true)]) cl (Some (i, m)) F2) as (I1 & I2 & _).
        rewrite I1, I2. rewrite map_app, SP. split; [auto|split; [auto|apply X; auto]].
      * assert (L : length (map (see mn) done) = length done) by apply map_length. rewrite L.
        destruct (IH (map (fun s : fsrc * bool => (fst s, false)) done ++ [(s, true)]) true (Some (length done, row)) F2) as (I1 & I2 & _).
        rewrite I1, I2. rewrite map_app, SP.
        unfold merge_clear. rewrite !map_map. cbn [see fst snd]. split; auto. split; auto.
        apply X. rewrite map_map. auto.
      * destruct (IH (done ++ [(s, if cl then false else b)]) cl (Some (i, m)) F2) as (I1 & I2 & _).
        rewrite I1, I2. rewrite map_app, SP. split; [auto|split; [auto|apply X; auto]].
    + assert (L : length (map (see mn) done) = length done) by apply map_length. rewrite L.
      destruct (IH (done ++ [(s, true)]) cl (Some (length done, row)) F2) as (I1 & I2 & _).
      rewrite I1, I2. rewrite map_app, SP. split; [auto|split; [auto|apply X; auto]].
Qed.

(* a source that is flagged by the scan shows something *)
Definition flagged_at (l : list (fsrc * bool)) : Prop := Forall (fun s => snd s = true -> fsrc_at (fst s) <> None) l.

Lemma scan_flags : forall todo done cl r, flagged_at done -> flagged_at todo ->
  flagged_at (fst (fmerge_scan done todo cl r)).
Proof.
  induction todo as [|[s b] todo IH]; intros done cl r D T; cbn [fmerge_scan]; auto.
  inversion T as [|? ? T1 T2]; subst. cbn [fst snd] in T1.
  assert (A : forall x d, flagged_at d -> (x = true -> fsrc_at s <> None) -> flagged_at (d ++ [(s, x)])).
  { intros x d Hd Hx. unfold flagged_at. rewrite Forall_app. split; [exact Hd|repeat constructor; exact Hx]. }
  assert (C : flagged_at (map (fun s : fsrc * bool => (fst s, false)) done)).
  { apply Forall_forall. intros y Hy. apply in_map_iff in Hy as (z & <- & _). discriminate. }
  destruct (fsrc_at s) as [row|] eqn:E.
  - destruct r as [[i m]|]; [destruct (compare m row =? 0)%Z; [|destruct (0 <? compare m row)%Z]|];
      apply IH; auto; apply A; auto; try (intros _; discriminate). 
  - apply IH; auto. apply A; auto. destruct cl; auto; discriminate.
Qed.

Lemma pends_see mn s : src_ok (fst s) -> (snd s = true -> fsrc_at (fst s) <> None) ->
  pends mn s = if snd s then tl (shows mn (fst s)) else shows mn (fst s).
Proof.
  destruct s as [s b]. cbn [fst snd]. intros O H. unfold pends. cbn [fst snd]. destruct b; auto.
  destruct s as [l|f it]; auto. specialize (H eq_refl). cbn [fsrc_at] in H. cbn [shows].
  destruct O as (R & I). destruct (pi_index it) as [p|]; auto.
  unfold part_iterator_at in *. pose proof (region_at_rest _ R) as Q.
  destruct (region_iterator_at (pi_region it)); [|congruence]. destruct Q as [-> _]. auto.
Qed.

Lemma fnext_spec mn m mg : fm_ok m -> fpending mn m = pending mg ->
  let '(m', ok) := fmerge_next bad mn m in
  fm_ok m' /\
  (ok = true -> fmerge_at m' = merge_at (merge_next mg) /\ fpending mn m' = pending (merge_next mg) /\ fahead m' <= fahead m) /\
  (ok = false -> fpending mn m' = pending mg /\ fahead m' < fahead m).
Proof.
  intros O P. unfold fmerge_next. pose proof (advance_f mn (fm_list m) O) as H.
  destruct (fmerge_advance bad mn (fm_list m)) as [l ok].
  destruct H as (A & B & C & D & E). destruct ok.
  2:{ split; [exact A|]. split; [discriminate|]. intros _. split; [unfold fpending; cbn [fm_list]; rewrite B; exact P|]. apply E; auto. }
  assert (L : map (see mn) l = map (fun s => (s, false)) (pending mg)).
  { rewrite <- P. unfold fpending. rewrite <- B. specialize (D eq_refl). clear -D.
    induction l as [|[s b] l IH]; cbn [map] in *; auto. cbn [snd] in D. injection D as D1 D2. subst b.
    rewrite (IH D2). reflexivity. }
  pose proof (scan_f mn l [] false None A) as (S1 & S2 & S3).
  pose proof (scan_flags l [] false None ltac:(constructor)) as S4.
  assert (FA : flagged_at l).
  { specialize (D eq_refl). apply Forall_forall. intros s Hs. assert (Q : In (snd s) (map snd l)) by (apply in_map; auto).
    rewrite D in Q. apply in_map_iff in Q as (? & Q & _). rewrite <- Q. discriminate. }
  specialize (S4 FA). rewrite L in S1, S2. cbn [map] in S1, S2.
  destruct (fmerge_scan [] l false None) as [l2 r] eqn:El. cbn [fst snd] in *.
  assert (O2 : Forall (fun s => src_ok (fst s)) l2).
  { apply Forall_forall. intros s Hs. assert (Q : In (fst s) (map fst l2)) by (apply in_map; auto). rewrite S3 in Q. cbn in Q.
    apply in_map_iff in Q as (y & <- & Q). rewrite Forall_forall in A. apply A; auto. }
  split; [exact O2|]. split; [|discriminate]. intros _.
  unfold merge_next. rewrite advance_pending.
  destruct (merge_scan [] (map (fun s : list event => (s, false)) (pending mg)) false None) as [l3 r3] eqn:E3.
  cbn [fst snd] in S1, S2. subst r3 l3.
  split; [|split].
  - unfold fmerge_at, merge_at. cbn [fm_current fm_list mg_current mg_list].
    destruct r as [[i e]|]; auto. rewrite nth_error_map.
    destruct (nth_error l2 i) as [[s b]|] eqn:En; cbn [option_map]; auto.
    unfold see. cbn [fst snd]. rewrite Forall_forall in O2. specialize (O2 _ (nth_error_In _ _ En)). cbn [fst] in O2.
    rewrite <- (shows_at mn s O2). destruct (shows mn s); auto.
  - unfold fpending, pending. cbn [fm_list mg_list]. rewrite map_map. apply map_ext_in. intros s Hs.
    unfold flagged_at in S4. rewrite Forall_forall in O2, S4. rewrite pends_see; auto.
  - unfold fahead. cbn [fm_list]. rewrite <- (map_map fst ahead l2), S3. cbn [app map]. rewrite map_map. exact C.
Qed.
End Faulty.
