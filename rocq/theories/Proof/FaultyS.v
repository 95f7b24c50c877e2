From Coq Require Import NArith ZArith List Bool Sorted Lia Arith.
Import ListNotations.
From Verif Require Import Model.Base Model.Event Model.Rbtree Model.Memtable Model.Mapping Model.Merge
  Model.PartIter Model.Scan Model.Faulty Spec.Order Spec.Merged Spec.Files Spec.View Spec.Faulty
  Proof.OrderL Proof.MergeL Proof.PartIterL Proof.ScanL Proof.FaultyL.

(* --- opening --- *)
Lemma set_pos_ok r z : region_ok (region_set_pos r z).
Proof.
  unfold region_set_pos, region_ok. destruct (Z.ltb_spec z 0); [exact I|].
  destruct (Z.leb_spec (Z.of_nat (length r)) z); cbn [orb snd fst]; [exact I|]. lia.
Qed.
Lemma region_open_ok r key : region_ok (region_iterator_open r key).
Proof. unfold region_iterator_open. destruct r; [exact I|]. destruct key; apply set_pos_ok. Qed.
Lemma index_open_in f key p : index_iterator_open f key = Some p -> p < length f.
Proof.
  unfold index_iterator_open. destruct f as [|r f]; [discriminate|].
  destruct key as [k|]; [|intros H; injection H as <-; simpl; lia].
  destruct (index_search (r :: f) (ev_id k)) as [q|]; [|discriminate].
  match goal with |- (if (_ <=? ?x)%nat then _ else _) = _ -> _ => destruct (Nat.leb_spec (length (r :: f)) x) end; [discriminate|].
  intros H'. injection H' as <-. auto.
Qed.

Section Opening.
Variable bad : N -> nat -> bool.

Lemma iter_open_ok mn f key it : fiter_open bad mn f key = Some it -> src_ok (FFile f it) /\ ahead (FFile f it) <= length f.
Proof.
  unfold fiter_open. destruct (index_iterator_open f key) as [p|] eqn:E.
  - destruct (bad mn p); [discriminate|]. intros H; injection H as <-. cbn [src_ok pi_region pi_index ahead].
    split; [split; [apply region_open_ok|eapply index_open_in; eauto]|lia].
  - intros H; injection H as <-. cbn. split; [split; [exact I|auto]|lia].
Qed.

Lemma advance_none mn l : Forall (fun s : fsrc * bool => snd s = false) l -> fmerge_advance bad mn l = (l, true).
Proof.
  induction l as [|[s b] l IH]; intros F; auto. apply Forall_cons_iff in F as [F1 F2]. cbn [snd] in F1. subst b.
  cbn [fmerge_advance]. rewrite (IH F2). auto.
Qed.

(* a merge over sources that were not moved yet *)
Lemma open_merge mn (l : list fsrc) : Forall src_ok l ->
  let '(m', ok) := fmerge_next bad mn (mk_fmerge (map (fun s => (s, false)) l) None) in
  ok = true /\ fm_ok m' /\ fmerge_at m' = merge_at (merge_open (map (shows bad mn) l)) /\
  fpending bad mn m' = pending (merge_open (map (shows bad mn) l)) /\ fahead m' <= list_sum (map ahead l).
Proof.
  intros O. set (m := mk_fmerge (map (fun s => (s, false)) l) None).
  assert (Om : fm_ok m). { unfold fm_ok, m. cbn [fm_list]. apply Forall_map. exact O. }
  assert (P : fpending bad mn m = pending (merge_init (map (shows bad mn) l))).
  { rewrite pending_init. unfold fpending, m. cbn [fm_list]. rewrite map_map. auto. }
  assert (A : fahead m = list_sum (map ahead l)). { unfold fahead, m. cbn [fm_list]. rewrite map_map. auto. }
  assert (K : snd (fmerge_next bad mn m) = true).
  { unfold fmerge_next, m. cbn [fm_list]. rewrite advance_none; [|apply Forall_map, Forall_forall; auto].
    destruct (fmerge_scan [] (map (fun s => (s, false)) l) false None). auto. }
  pose proof (fnext_spec bad mn m _ Om P) as H. rewrite A in H.
  destruct (fmerge_next bad mn m) as [m' ok]. cbn [snd] in K. subst ok.
  destruct H as (H1 & H2 & _). destruct (H2 eq_refl) as (H3 & H4 & H5). auto.
Qed.

Definition file_src (mn : N) (f : option pfile) (key : option event) : option (list fsrc) :=
  match f with
  | None => Some []
  | Some f => match fiter_open bad mn f key with None => None | Some it => Some [FFile f it] end
  end.
Definition regions_of (p : part) : nat := match pt_file p with Some f => length f | None => 0 end.

Lemma part_open_f s key a b :
  memtable_source (pt_mem (s_data s)) key = Ok a -> memtable_source (pt_prev (s_data s)) key = Ok b ->
  exists fm ok, fpart_open bad s key = Ok (fm, ok) /\ fm_ok fm /\ fahead fm <= regions_of (s_data s) /\
  match file_src (s_min s) (pt_file (s_data s)) key with
  | None => ok = false /\ fpending bad (s_min s) fm = a ++ b /\ fmerge_at fm = None
  | Some c => ok = true /\
      let mg := merge_open (a ++ b ++ map (shows bad (s_min s)) c) in
      fmerge_at fm = merge_at mg /\ fpending bad (s_min s) fm = pending mg
  end.
Proof.
  intros Ha Hb. unfold fpart_open, file_src, regions_of. rewrite Ha, Hb. cbn [bind].
  assert (M : forall l, Forall src_ok (map FMem l)) by (intros; apply Forall_map, Forall_forall; intros; exact I).
  assert (Z : forall l : list (list event), list_sum (map ahead (map FMem l)) = 0) by (induction l; simpl; auto).
  assert (W : forall l, map (shows bad (s_min s)) (map FMem l) = l) by (intros; rewrite map_map; apply map_id).
  assert (L : forall l : list (list event), map (fun l => (FMem l, false)) l = map (fun s => (s, false)) (map FMem l)) by (intros; rewrite map_map; auto).
  destruct (pt_file (s_data s)) as [f|].
  - destruct (fiter_open bad (s_min s) f key) as [it|] eqn:E.
    + destruct (iter_open_ok _ _ _ _ E) as [O1 O2].
      assert (O : Forall src_ok (map FMem (a ++ b) ++ [FFile f it])) by (apply Forall_app; auto).
      pose proof (open_merge (s_min s) (map FMem (a ++ b) ++ [FFile f it]) O) as H.
      rewrite map_app in H. cbn [map] in H. rewrite L.
      destruct (fmerge_next bad (s_min s) (mk_fmerge (map (fun s => (s, false)) (map FMem (a ++ b)) ++ [(FFile f it, false)]) None)) as [fm ok].
      destruct H as (H1 & H2 & H3 & H4 & H5).
      exists fm, ok. split; auto. split; auto. rewrite map_app, W in H3, H4. rewrite <- app_assoc in H3, H4. 
      split; [|split; auto]. rewrite map_app, list_sum_app, Z in H5. cbn [map list_sum fold_right] in H5. unfold list_sum in H5. simpl in H5. simpl in O2. lia.
    + exists (mk_fmerge (map (fun l => (FMem l, false)) (a ++ b)) None), false. split; auto.
      split; [unfold fm_ok; cbn [fm_list]; apply Forall_map, Forall_forall; intros; exact I|].
      split; [unfold fahead; cbn [fm_list]; rewrite map_map; rewrite <- (map_map FMem ahead), Z; lia|].
      split; auto. split; auto. unfold fpending. cbn [fm_list]. rewrite map_map. apply map_id.
  - pose proof (open_merge (s_min s) (map FMem (a ++ b)) (M _)) as H. rewrite L.
    destruct (fmerge_next bad (s_min s) (mk_fmerge (map (fun s => (s, false)) (map FMem (a ++ b))) None)) as [fm ok].
    destruct H as (H1 & H2 & H3 & H4 & H5). exists fm, ok. split; auto. split; auto.
    rewrite W in H3, H4. rewrite Z in H5. cbn [map]. rewrite app_nil_r. auto.
Qed.
End Opening.

(* --- what comes after the present position --- *)
Lemma next_pending a b : pending a = pending b -> merge_next a = merge_next b.
Proof. intros H. unfold merge_next. rewrite !advance_pending, H. auto. Qed.

Inductive comes : list (list event) -> list event -> Prop :=
| c_nil P : Forall (fun s => s = []) P -> comes P []
| c_cons mg e l : merge_at (merge_next mg) = Some e -> comes (pending (merge_next mg)) l -> comes (pending mg) (e :: l).

Lemma nil_next mg : Forall (fun s => s = []) (pending mg) ->
  merge_at (merge_next mg) = None /\ pending (merge_next mg) = pending mg.
Proof.
  intros F. assert (C : cmp_ok (concat (pending mg))).
  { rewrite concat_nil by auto. intros a b []. }
  destruct (next_spec mg C) as [[A _]|(e & d1 & t & d2 & _ & E & _)].
  - split; auto. apply (next_none mg C A).
  - exfalso. rewrite E in F. apply Forall_app in F as [_ F]. inversion F. discriminate.
Qed.

Lemma comes_step mg l : comes (pending mg) l ->
  match l with
  | [] => merge_at (merge_next mg) = None
  | e :: _ => merge_at (merge_next mg) = Some e
  end /\ comes (pending (merge_next mg)) (tl l).
Proof.
  intros C. remember (pending mg) as P eqn:E. destruct C as [P F|mg' e l A C].
  - subst P. destruct (nil_next mg F) as [A B]. split; auto. rewrite B. constructor; auto.
  - rewrite (next_pending mg mg') by auto. auto.
Qed.

Lemma drain_comes : forall fuel m, cmp_ok (concat (pending m)) -> length (concat (pending m)) < fuel ->
  comes (pending m) (merge_drain fuel (merge_next m)).
Proof.
  induction fuel; intros m Hc Hf; [lia|]. cbn [merge_drain].
  destruct (next_spec m Hc) as [[Hat Hn]|(e & d1 & t & d2 & Hat & Ep & H1 & H2 & Hp)]; rewrite Hat.
  - constructor; auto.
  - econstructor; eauto. apply IHfuel.
    + intros a b Ia Ib. rewrite Hp in Ia, Ib. apply in_drop in Ia, Ib. auto.
    + rewrite Hp, Ep. rewrite Ep in Hf.
      rewrite concat_app, app_length in Hf. cbn [concat] in Hf. rewrite app_length in Hf. simpl in Hf.
      rewrite map_app, concat_app, app_length. cbn [map concat]. rewrite app_length. unfold drop_key at 2.
      assert (X : same_keyb e e = true) by (apply same_keyb_true; apply same_key_refl). rewrite X.
      pose proof (length_drop e d1). pose proof (length_drop e d2). lia.
Qed.
Lemma all_comes srcs : cmp_ok (concat srcs) -> comes srcs (merge_all srcs).
Proof.
  intros C. rewrite <- (pending_init srcs) at 1. unfold merge_all, merge_open.
  apply drain_comes; rewrite pending_init; auto.
Qed.
