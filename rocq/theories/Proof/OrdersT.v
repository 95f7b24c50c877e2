(* The effect of statements, and histories of them. *)
From Coq Require Import NArith ZArith List Bool Sorted Lia Arith Permutation.
Import ListNotations.
From Verif Require Import Model.Base Model.Show Model.Lex Model.Parse Spec.Units Spec.Command Proof.ParseL.
From Verif Require Import Model.Event Model.Rbtree Model.Memtable Model.Mapping Model.Merge
  Model.PartIter Model.Scan Model.Writer Model.Codec Model.Engine Spec.Order Spec.Merged Spec.Files Spec.Layout
  Spec.Regions Spec.View Spec.Engine Proof.OrderL Proof.RbtreeL Proof.MemtableL Proof.MemtableL2 Proof.MergeL
  Proof.PartIterL
  Proof.MappingL Proof.MappingP Proof.MappingX Proof.ScanL Proof.EngineL Proof.EngineW Proof.EngineR Proof.EngineP Proof.CrashW
  Proof.CrashH Proof.DirL Proof.CrashD Proof.CrashP Proof.CrashT Proof.Cells Proof.DropsL Proof.DropsR Proof.DropsP Proof.DropsT
  Proof.OrdersL Proof.OrdersP.
From Verif Require Import Model.Crash Model.Orders Spec.Crash Spec.Drops Spec.Orders.
Local Arguments N.pow : simpl never.
Local Arguments N.add : simpl never.
Implicit Types (s t : slice part) (m : mapping part) (H : hist) (d : dir) (r : range) (R : list range).

Lemma with_part_at lo R b H s id ie k : dinv lo R b H -> In s (slices b) -> in_range id (range_of s) ->
  with_part b id ie k = if locked_dec b s then nothing b Waits else k s.
Proof.
  intros D Hs Hr. unfold with_part. rewrite (slice_at _ _ _ _ _ _ D Hs Hr). destruct (locked_dec b s) as [L|L].
  - destruct (existsb _ _) eqn:E; auto. exfalso. destruct L as (j & A & B).
    assert (X : existsb (fun j => (jb_ref j =? s_min s)%N) (db_jobs b) = true); [|congruence]. apply existsb_exists. exists j. split; auto. apply N.eqb_eq; auto.
  - destruct (existsb _ _) eqn:E; auto. exfalso. apply L. apply existsb_exists in E as (j & A & B). exists j. split; auto. apply N.eqb_eq; auto.
Qed.
Lemma perform_run P b l b' : path P b l b' -> perform b l = Ok (mk_report l b' Done).
Proof. intros X. unfold perform. rewrite (path_run _ _ _ _ X). auto. Qed.

(* --- one partition --- *)
Section ONE.
Variables (lo : N) (R : list range) (H : hist) (b0 : db).
Variable names : list byte -> option N.
Definition waits s (o : outcome) : Prop := o = Waits /\ locked b0 s.
Notation Mid := (mid lo R H b0).

Lemma waits_fine one post (halt : slice part -> outcome -> Prop) b s id : Mid b -> calls b0 b -> locked b0 s -> (forall o, waits s o -> halt s o) ->
  one b id true = nothing b Waits -> one_fine lo R H b0 one post halt b s id.
Proof.
  intros M C L W E. exists (mk_report [] b Waits). split; auto. cbn [rp_acts rp_db rp_end]. split; [constructor; auto|]. split; auto.
  right. split; [congruence|]. split; auto. apply W. split; auto.
Qed.
Lemma nothing_fine one (post : slice part -> db -> Prop) halt b s id : Mid b -> calls b0 b -> post s b ->
  one b id true = nothing b Done -> one_fine lo R H b0 one post halt b s id.
Proof.
  intros M C L E. exists (mk_report [] b Done). split; auto. cbn [rp_acts rp_db rp_end]. split; [constructor; auto|]. split; auto.
  left. split; [auto|]. split; [apply frame_refl|]. split; auto. apply incl_refl.
Qed.
Lemma fail_fine one post (halt : slice part -> outcome -> Prop) b s id : Mid b -> calls b0 b -> halt s Failed ->
  one b id true = nothing b Failed -> one_fine lo R H b0 one post halt b s id.
Proof.
  intros M C L E. exists (mk_report [] b Failed). split; auto. cbn [rp_acts rp_db rp_end]. split; [constructor; auto|]. split; auto.
  right. split; [congruence|]. split; auto.
Qed.
Lemma locked0 b s : calls b0 b -> locked b s <-> locked b0 s.
Proof. intros (E & _). apply locked_eq; auto. Qed.

Definition drop_post s (b : db) : Prop := ~ In (range_of s) (places b).
Lemma drop_fine b s id : Mid b -> calls b0 b -> kept b0 s b -> locked b0 s \/ ~ leftover b0 (s_min s) -> (en_lsn (db_en b) < u64_max)%N ->
  in_range id (range_of s) -> one_fine lo R H b0 (order_drop 9) drop_post waits b s id.
Proof.
  intros M C K NF HL Hr. destruct (mid_map _ _ _ _ b M) as (R1 & H1 & D1). pose proof K as (Hs & _).
  pose proof (with_part_at lo R1 b H1 s id true (fun s => if (9 =? N.lor ID ID_CLOUD)%N then perform b [Do (CDrop id)]
    else if has 9 ID then perform b [Offload id] else nothing b Done) D1 Hs Hr) as E. fold (order_drop 9 b id true) in E.
  destruct (locked_dec b s) as [L|L].
  - apply (locked0 b s C) in L. apply waits_fine; auto.
  - rewrite (locked0 b s C) in L. destruct NF as [NF|NF]; [contradiction|]. destruct (drop_one_run lo R H b0 b s id M C K L NF HL Hr) as (b' & EC & M' & C' & F & N1 & N2).
    change (9 =? N.lor ID ID_CLOUD)%N with true in E. cbv iota in E.
    assert (PA : path Mid b [Do (CDrop id)] b') by (econstructor; [auto|exact EC|constructor; auto]).
    rewrite (perform_run _ _ _ _ PA) in E. eexists. split; [exact E|]. cbn [rp_acts rp_db rp_end]. 
    split; [exact PA|]. split; [exact C'|]. left. split; [auto|]. split; [auto|]. split; auto.
Qed.
Lemma offline_fine b s id : Mid b -> calls b0 b -> kept b0 s b -> in_range id (range_of s) ->
  one_fine lo R H b0 (order_drop 8) (fun _ _ => True) waits b s id.
Proof.
  intros M C K Hr. destruct (mid_map _ _ _ _ b M) as (R1 & H1 & D1). pose proof K as (Hs & _).
  pose proof (with_part_at lo R1 b H1 s id true (fun s => if (8 =? N.lor ID ID_CLOUD)%N then perform b [Do (CDrop id)]
    else if has 8 ID then perform b [Offload id] else nothing b Done) D1 Hs Hr) as E. fold (order_drop 8 b id true) in E.
  destruct (locked_dec b s) as [L|L].
  - apply (locked0 b s C) in L. apply waits_fine; auto.
  - apply nothing_fine; auto.
Qed.

(* the storage that a refresh or a move writes to; None: no such storage *)
Definition target (to : option (list byte)) s : option N :=
  match to with None => Some (db_home b0 (s_min s)) | Some name => names name end.
Definition skipped (to : option (list byte)) s : bool :=
  match to with
  | None => false
  | Some name => match names name with Some st => (db_home b0 (s_min s) =? st)%N | None => true end
  end.
Definition refresh_post to s (b : db) : Prop :=
  match target to s with
  | None => False
  | Some st => if skipped to s then kept b0 s b else filed b (range_of s) st
  end.
Definition refresh_halt to s (o : outcome) : Prop :=
  waits s o \/ o = Failed /\ target to s = None.
Lemma refresh_fine to b s id : Mid b -> calls b0 b -> kept b0 s b -> locked b0 s \/ ready b0 s ->
  (match to with Some name => known names b0 name | None => True end) ->
  in_range id (range_of s) -> one_fine lo R H b0 (order_refresh names to) (refresh_post to) (refresh_halt to) b s id.
Proof.
  intros M C K RD KN Hr. destruct M as (H1 & D1 & EH & INC). pose proof K as (Hs & Kh & _).
  assert (M : Mid b) by (exists H1; auto).
  pose proof (fun k => with_part_at lo _ b H1 s id true k D1 Hs Hr) as E.
  destruct (locked_dec b s) as [L|L].
  - apply (locked0 b s C) in L. apply waits_fine; auto; [left; auto|]. unfold order_refresh. apply E.
  - pose proof L as L'. rewrite (locked0 b s C) in L'. destruct RD as [RD|RD]; [contradiction|].
    pose proof (ready_kept _ _ _ K RD) as RD1. pose proof (job_free b s L) as HJ. pose proof C as (C1 & C2 & C3).
    assert (RUN : forall st to', (match to' with Some x => In x (db_storages b) /\ x <> db_home b (s_min s) | None => True end) ->
      st = match to' with Some x => x | None => db_home b (s_min s) end ->
      skipped to s = false -> target to s = Some st ->
      order_refresh names to b id true = perform b (Do (CBegin id to') :: repeat (Do (CStep (s_min s))) 6) ->
      one_fine lo R H b0 (order_refresh names to) (refresh_post to) (refresh_halt to) b s id).
    { intros st to' T1 T2 SK TG EO.
      destruct (refresh_run lo _ b H1 id to' s st D1 Hs Hr HJ RD1 T1 T2) as (b' & PA & JA & FA & XA).
      rewrite (perform_run _ _ _ _ PA) in EO. eexists. split; [exact EO|]. cbn [rp_acts rp_db rp_end].
      pose proof (path_end _ _ _ _ PA) as (DA & PLA & LA).
      split; [eapply path_impl; [|exact PA]; intros x Hx; eapply mid_calm; eauto|].
      split.
      { split; [congruence|]. split; [rewrite (fr_sto _ _ _ FA); auto|]. rewrite LA.
        assert (EL : length (slices b') = length (slices b)).
        { unfold places, ranges in PLA. unfold slices. rewrite <- (map_length (@range_of part) (mapping_list (en_map (db_en b')))), PLA, map_length. auto. }
        rewrite EL. auto. }
      left. split; auto. split; auto. split; [rewrite PLA; apply incl_refl|]. unfold refresh_post. rewrite TG, SK. exact XA. }
    unfold order_refresh in RUN |- *. destruct to as [name|].
    + cbn [target skipped] in *. destruct (names name) as [st|] eqn:En.
      * destruct (N.eqb_spec (db_home b0 (s_min s)) st) as [Eh|Eh].
        -- apply nothing_fine; auto.
           ++ unfold refresh_post. cbn [target skipped]. rewrite En. rewrite (proj2 (N.eqb_eq _ _) Eh). auto.
           ++ rewrite E. rewrite (proj2 (N.eqb_eq st (db_home b (s_min s)))) by congruence. auto.
        -- apply (RUN st (Some st)); auto.
           ++ split; [rewrite C2; apply KN; auto|congruence].
           ++ rewrite E. destruct (N.eqb_spec st (db_home b (s_min s))); [congruence|auto].
      * apply fail_fine; auto; [right; auto|]. rewrite E. auto.
    + apply (RUN (db_home b (s_min s)) None); auto; [cbn [target]; congruence|rewrite E; auto].
Qed.

Definition copy_halt (ic : bool) s (o : outcome) : Prop := waits s o \/ o = Failed /\ ic = false.
Lemma copy_fine ic b s id : Mid b -> calls b0 b -> kept b0 s b -> in_range id (range_of s) ->
  one_fine lo R H b0 (order_copy ic) (fun _ _ => ic = true) (copy_halt ic) b s id.
Proof.
  intros M C K Hr. destruct (mid_map _ _ _ _ b M) as (R1 & H1 & D1). pose proof K as (Hs & _).
  pose proof (fun k => with_part_at lo _ b H1 s id true k D1 Hs Hr) as E. unfold order_copy.
  destruct (locked_dec b s) as [L|L].
  - apply (locked0 b s C) in L. apply waits_fine; auto; first [rewrite E; auto; fail|intros; left; auto].
  - destruct ic.
    + apply nothing_fine; auto; rewrite E; auto.
    + apply fail_fine; auto; first [rewrite E; auto; fail|right; auto].
Qed.

(* --- the partitions a statement comes to --- *)
Definition ran (post : slice part -> db -> Prop) (halt : slice part -> outcome -> Prop) (l : list (slice part)) (p : report) : Prop :=
  exists l1 l2, path Mid b0 (rp_acts p) (rp_db p) /\ calls b0 (rp_db p) /\ l = l1 ++ l2 /\
    (forall s, In s l1 -> post s (rp_db p)) /\
    (forall s, In s (slices b0) -> ~ In s l1 -> kept b0 s (rp_db p)) /\
    (l2 = [] /\ rp_end p = Done \/ exists s l3, l2 = s :: l3 /\ rp_end p <> Done /\ halt s (rp_end p)).
Lemma ran_one one post halt s id ie : dinv lo R b0 H -> In s (slices b0) ->
  one_fine lo R H b0 one post halt b0 s id -> one b0 id ie = one b0 id true ->
  exists p, one b0 id ie = Ok p /\ ran post halt [s] p.
Proof.
  intros D Hs (p & E & PA & CA & Q) Ei. exists p. split; [congruence|]. destruct Q as [(Q1 & Q2 & Q3 & Q4)|(Q1 & Q2 & Q3)].
  - exists [s], []. split; auto. split; auto. split; auto. split; [intros t [<-|[]]; auto|]. split; auto.
    intros t Ht Hn. eapply kept_frame; [apply kept_refl; auto|exact Q2|]. intros Em. apply Hn. left.
    apply (min_unique lo (en_map (db_en b0))); auto. exact (mi_map _ _ (dinv_map _ _ _ _ D)).
  - exists [], [s]. split; auto. split; auto. split; auto. split; [intros t []|]. split; [intros; rewrite Q2; apply kept_refl; auto|].
    right. exists s, []. auto.
Qed.
End ONE.

(* --- the effect --- *)
Lemma layout_same (l l' : list range) : layout l -> layout l' -> (forall r, In r l <-> In r l') -> l = l'.
Proof.
  intros [A FL] [B FL'] E. revert l' B FL' E. induction A as [|a l A IH Fa]; intros l' B FL' E.
  - destruct l' as [|x l']; auto. exfalso. apply (E x). left; auto.
  - destruct B as [|x l' B Fx]; [exfalso; apply (E a); left; auto|].
    inversion FL as [|a0 l0 LA FL0]; subst. inversion FL' as [|a1 l1 LX FL1]; subst.
    rewrite Forall_forall in Fa, Fx.
    assert (a = x).
    { destruct (proj1 (E a) (or_introl eq_refl)) as [X|X]; auto. destruct (proj2 (E x) (or_introl eq_refl)) as [Y|Y]; auto.
      apply Fx in X. apply Fa in Y. lia. }
    subst x. f_equal. apply IH; auto. intros t. split; intros Ht.
    + destruct (proj1 (E t) (or_intror Ht)) as [X|X]; auto. subst t. apply Fa in Ht. lia.
    + destruct (proj2 (E t) (or_intror Ht)) as [X|X]; auto. subst t. apply Fx in Ht. lia.
Qed.
Lemma dinv_layout lo R b H : dinv lo R b H -> layout (places b).
Proof. intros D. exact (gm_layout _ _ (mi_map _ _ (dinv_map _ _ _ _ D))). Qed.

Definition midx lo R H (b0 b : db) : Prop := exists H',
  dinv lo (vanished b0 b ++ R) b H' /\
  map snd H' = filter (fun e => negb (gone (vanished b0 b) (ev_id e))) (map snd H).
Lemma mid_midx lo R H b0 b : mid lo R H b0 b -> midx lo R H b0 b.
Proof. intros (H' & A & B & _). exists H'. auto. Qed.
Lemma mid_sees lo R H b0 b : dinv lo R b0 H -> midx lo R H b0 b ->
  forall e, sees b e <-> sees b0 e /\ gone (vanished b0 b) (ev_id e) = false.
Proof.
  intros D (H' & D' & EH) e. rewrite (dsees lo _ b H' e D'), (dsees lo R b0 H e D), EH.
  rewrite (current_filter (fun x => negb (gone (vanished b0 b) x))), negb_true_iff. tauto.
Qed.

Section EFFECT.
Variables (lo : N) (R : list range) (H : hist) (b0 : db).
Variable names : list byte -> option N.
Hypothesis D0 : dinv lo R b0 H.
Notation Ran := (ran lo R H b0).

Lemma not_locked s : db_jobs b0 = [] -> ~ locked b0 s.
Proof. intros E (j & A & _). rewrite E in A. exact A. Qed.
Lemma ran_done post (halt : slice part -> outcome -> Prop) l p : (forall s o, In s l -> ~ halt s o) -> Ran post halt l p ->
  rp_end p = Done /\ (forall s, In s l -> post s (rp_db p)) /\ mid lo R H b0 (rp_db p) /\
  (forall s, In s (slices b0) -> ~ In s l -> kept b0 s (rp_db p)).
Proof.
  intros NH (l1 & l2 & PA & CA & -> & PO & KE & [(-> & E)|(s & l3 & -> & _ & Q)]).
  - rewrite app_nil_r in *. split; auto. split; auto. split; auto. eapply path_end; eauto.
  - exfalso. eapply NH; [|exact Q]. apply in_app_iff. right. left. auto.
Qed.

Lemma drop_does l p : db_jobs b0 = [] -> incl l (slices b0) -> Ran drop_post (waits b0) l p ->
  does_drop b0 (rp_db p) l 9 (rp_end p).
Proof.
  intros J I X. apply ran_done in X as (E & PO & M & KE).
  2:{ intros s o _ (_ & L). eapply not_locked; eauto. }
  split; auto. split; [intros _|discriminate].
  assert (PL : forall r, In r (places (rp_db p)) <-> In r (places b0) /\ ~ In r (map range_of l)).
  { intros r. split.
    - intros Hr. split; [destruct M as (_ & _ & _ & INC); auto|]. intros Y. apply in_map_iff in Y as (s & <- & Hs). apply (PO s Hs Hr).
    - intros [Hr Hn]. unfold places, ranges in Hr. apply in_map_iff in Hr as (s & <- & Hs). unfold places, ranges. apply in_map.
      apply KE; auto. intros Y. apply Hn. apply in_map; auto. }
  split; auto. intros e. rewrite (mid_sees lo R H b0 _ D0 (mid_midx _ _ _ _ _ M)). rewrite (gone_same _ (map range_of l)); [tauto|].
  intros r. rewrite vanished_in, PL. split; [|intros Y; split; [|tauto]].
  - intros [A B]. destruct (in_dec (fun x y => match bool_dec (range_eqb x y) true with
        | left e => left (proj1 (range_eqb_eq x y) e) | right n => right (fun e => n (proj2 (range_eqb_eq x y) e)) end) r (map range_of l)); tauto.
  - apply in_map_iff in Y as (s & <- & Hs). unfold places, ranges. apply in_map. apply I; auto.
Qed.

Lemma slice_dec l s : incl l (slices b0) -> In s (slices b0) -> {In s l} + {~ In s l}.
Proof.
  intros I Hs. destruct (existsb (fun t => (s_min t =? s_min s)%N) l) eqn:E.
  - left. apply existsb_exists in E as (t & Ht & E). apply N.eqb_eq in E.
    assert (t = s) by (apply (min_unique lo (en_map (db_en b0))); auto; first [exact (mi_map _ _ (dinv_map _ _ _ _ D0))|apply I; auto]). subst t; auto.
  - right. intros X. assert (Y : existsb (fun t => (s_min t =? s_min s)%N) l = true); [|congruence].
    apply existsb_exists. exists s. split; auto. apply N.eqb_refl.
Qed.
Lemma refiled_ran l l' to (st : slice part -> N) p : incl l (slices b0) -> mid lo R H b0 (rp_db p) ->
  (forall s, In s l -> refresh_post b0 names to s (rp_db p)) -> (forall s, In s (slices b0) -> ~ In s l -> kept b0 s (rp_db p)) ->
  l' = filter (fun s => negb (skipped b0 names to s)) l -> (forall s, In s l -> target b0 names to s = Some (st s)) ->
  refiled b0 (rp_db p) l' st.
Proof.
  intros I M PO KE -> TG. set (l' := filter _ _).
  assert (F1 : forall s, In s l' -> filed (rp_db p) (range_of s) (st s)).
  { intros s Hs. apply filter_In in Hs as [Hs Hk]. specialize (PO s Hs). unfold refresh_post in PO. rewrite (TG s Hs) in PO.
    apply negb_true_iff in Hk. rewrite Hk in PO. auto. }
  assert (F2 : forall s, In s (slices b0) -> ~ In s l' -> kept b0 s (rp_db p)).
  { intros s Hs Hn. destruct (slice_dec l s I Hs) as [Hl|Hl]; [|auto].
    specialize (PO s Hl). unfold refresh_post in PO. rewrite (TG s Hl) in PO. destruct (skipped b0 names to s) eqn:Hk; auto.
    exfalso. apply Hn. apply filter_In. split; auto. rewrite Hk. auto. }
  assert (I' : incl l' (slices b0)) by (intros s Hs; apply filter_In in Hs; apply I; tauto).
  assert (PL : places (rp_db p) = places b0).
  { destruct M as (H' & D' & _ & INC). apply layout_same; [eapply dinv_layout; eauto|eapply dinv_layout; eauto|].
    intros r. split; auto. intros Hr. unfold places, ranges in Hr. apply in_map_iff in Hr as (s & <- & Hs).
    destruct (slice_dec l' s I' Hs) as [Hl|Hl].
    - destruct (F1 s Hl) as (u & f & Hu & Eu & _). rewrite <- Eu. unfold places, ranges. apply in_map. exact Hu.
    - destruct (F2 s Hs Hl) as (Hu & _). unfold places, ranges. apply in_map. exact Hu. }
  split; auto. split; [|split; auto].
  intros e. rewrite (mid_sees lo R H b0 _ D0 (mid_midx _ _ _ _ _ M)). rewrite (vanished_same b0 _ b0 PL), vanished_none. cbn. tauto.
Qed.
Lemma refresh_does l p : db_jobs b0 = [] -> incl l (slices b0) -> Ran (refresh_post b0 names None) (refresh_halt b0 names None) l p ->
  does_refresh b0 (rp_db p) l (rp_end p).
Proof.
  intros J I X. apply ran_done in X as (E & PO & M & KE).
  2:{ intros s o _ [(_ & L)|(_ & L)]; [eapply not_locked; eauto|discriminate]. }
  split; auto. eapply refiled_ran; eauto. clear. induction l as [|a l IH]; cbn [filter skipped negb] in *; congruence.
Qed.
Lemma move_does l name st p : db_jobs b0 = [] -> incl l (slices b0) -> names name = Some st ->
  Ran (refresh_post b0 names (Some name)) (refresh_halt b0 names (Some name)) l p ->
  does_move names b0 (rp_db p) l name (rp_end p).
Proof.
  intros J I En X. unfold does_move. rewrite En. apply ran_done in X as (E & PO & M & KE).
  2:{ intros s o _ [(_ & L)|(_ & L)]; [eapply not_locked; eauto|cbn [target] in L; congruence]. }
  split; auto. eapply refiled_ran; eauto. apply filter_ext. intros a. cbn [skipped]. rewrite En. auto.
Qed.
(* statements that do nothing *)
Definition idle (one : db -> N -> bool -> res report) : Prop :=
  forall b id ie p, one b id ie = Ok p -> rp_acts p = [] /\ rp_db p = b.
Lemma idle_loop one mx : idle one -> forall fuel b mn p, order_loop fuel one b mn mx = Ok p -> rp_acts p = [] /\ rp_db p = b.
Proof.
  intros I. induction fuel as [|fuel IH]; intros b mn p E; cbn [order_loop] in E.
  - unfold nothing in E. injection E as <-. auto.
  - destruct (engine_foreach _ _ _ _) as [[[id next]|]| |]; cbn [bind] in E; try discriminate; [|injection E as <-; auto].
    destruct (one b id true) as [q| |] eqn:Eo; cbn [bind] in E; try discriminate. apply I in Eo as [A B].
    destruct (rp_end q); try (injection E as <-; auto; fail).
    destruct (order_loop fuel one (rp_db q) next mx) as [q'| |] eqn:El; cbn [bind] in E; try discriminate.
    injection E as <-. cbn [rp_acts rp_db]. apply IH in El as [C D]. rewrite A, C. split; [reflexivity|congruence].
Qed.
Lemma idle_part b id ie o : forall p, with_part b id ie (fun _ => nothing b o) = Ok p -> rp_acts p = [] /\ rp_db p = b.
Proof.
  intros p. unfold with_part, nothing. destruct (part_slice _ _); [destruct (existsb _ _)|]; intros E; injection E as <-; auto.
Qed.
Lemma idle_copy ic : idle (order_copy ic).
Proof. intros b id ie p E. unfold order_copy in E. apply idle_part in E. auto. Qed.
Lemma idle_off : idle (order_drop 8).
Proof. intros b id ie p E. unfold order_drop in E. cbn -[with_part nothing] in E. apply idle_part in E. auto. Qed.
Lemma idle_unknown name : names name = None -> idle (order_refresh names (Some name)).
Proof. intros En b id ie p E. unfold order_refresh in E. rewrite En in E. apply idle_part in E. auto. Qed.
(* where they stop *)
Lemma copy_does l ic p : db_jobs b0 = [] -> rp_db p = b0 -> Ran (fun _ _ => ic = true) (copy_halt b0 ic) l p ->
  does_copy b0 (rp_db p) l ic (rp_end p).
Proof.
  intros J E (l1 & l2 & _ & _ & -> & PO & _ & [(-> & Q)|(s & l3 & -> & _ & [(_ & L)|(Q & ->)])]).
  - split; auto. rewrite Q. destruct l1 as [|a l1]; auto. cbn [app]. rewrite (PO a) by (left; auto). auto.
  - exfalso. eapply not_locked; eauto.
  - split; auto. rewrite Q. destruct l1; auto.
Qed.
Lemma unknown_does l name p : db_jobs b0 = [] -> names name = None -> rp_db p = b0 ->
  Ran (refresh_post b0 names (Some name)) (refresh_halt b0 names (Some name)) l p ->
  does_move names b0 (rp_db p) l name (rp_end p).
Proof.
  intros J En E (l1 & l2 & _ & _ & -> & PO & _ & Q). unfold does_move. rewrite En. split; auto.
  destruct l1 as [|a l1].
  - destruct Q as [(-> & Q)|(s & l3 & -> & _ & [(_ & L)|(Q & _)])]; auto. exfalso. eapply not_locked; eauto.
  - exfalso. specialize (PO a (or_introl eq_refl)). unfold refresh_post in PO. cbn [target] in PO. rewrite En in PO. exact PO.
Qed.
Lemma off_does l p : db_jobs b0 = [] -> rp_db p = b0 -> Ran (fun _ _ => True) (waits b0) l p ->
  does_drop b0 (rp_db p) l 8 (rp_end p).
Proof.
  intros J E X. apply ran_done in X as (Q & _).
  2:{ intros s o _ (_ & L). eapply not_locked; eauto. }
  split; auto. split; [discriminate|]. auto.
Qed.
End EFFECT.
