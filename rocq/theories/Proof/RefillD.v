(* What is on disk, and starting from it; as in CrashD.v, with tables of any number of pages. *)
From Coq Require Import NArith ZArith List Bool Sorted Lia Arith Permutation.
Import ListNotations.
From Verif Require Import Model.Base Model.Event Model.Rbtree Model.Memtable Model.Mapping Model.Merge
  Model.PartIter Model.Scan Model.Writer Model.Codec Model.Engine Model.Crash Spec.Order Spec.Merged Spec.Files Spec.Layout
  Spec.Regions Spec.View Spec.Engine Proof.OrderL Proof.RbtreeL Proof.MemtableL Proof.MemtableL2 Proof.MergeL
  Proof.MappingL Proof.MappingP Proof.ScanL Proof.EngineL Proof.EngineW Proof.EngineR Proof.RefillW Proof.RefillH Proof.DirL.
From Verif Require Import Spec.Grow Proof.GrowL Proof.RefillB Proof.RefillW Proof.RefillH.
From Verif Require Import Model.Crash Spec.Crash Spec.Refill.
Local Arguments N.pow : simpl never.
Local Arguments N.add : simpl never.
Local Arguments N.sub : simpl never.
From Verif Require Import Model.Crash Spec.Crash Spec.Refill.
Implicit Types (s t : slice part) (m : mapping part) (H : hist) (d : dir).

Definition frange (f : dfile) : range := (df_min f, df_max f).
Record fgood (lo : N) H (top : N) (f : dfile) : Prop := {
  fg_file : file_fine lo (Some (df_regions f));
  fg_ids : ids_in (frange f) (concat (df_regions f));
  fg_top : (df_lsn f <= top)%N;
  fg_look : forall k, in_range (ev_id k) (frange f) ->
    lookup (concat (df_regions f)) k = liveo (lw (fun l => l <=? df_lsn f)%N H k)
}.
Definition stored (d : dir) (x : N * event) : Prop :=
  exists f, surv d (df_min f) (Some f) /\ in_range (ev_id (snd x)) (frange f) /\ (fst x <= df_lsn f)%N.

Fixpoint flat (l : list lrec) : hist :=
  match l with
  | [] => []
  | LWrite n evs :: t => map (pair n) evs ++ flat t
  | LDrop _ _ :: t => flat t
  end.
Lemma flat_app a b : flat (a ++ b) = flat a ++ flat b.
Proof. induction a as [|[n e|n i] a IH]; simpl; auto. rewrite IH, app_assoc. auto. Qed.
Definition writes (l : list lrec) : Prop :=
  Forall (fun r => match r with LWrite n _ => (1 <= n)%N | LDrop _ _ => False end) l.

Record disk (lo : N) (storages : list N) H (d : dir) (log : list lrec) : Prop := {
  dk_dir : good_dir storages d;
  dk_sort : hsorted H;
  dk_pos : Forall (fun x => (1 <= fst x)%N) H;
  dk_surv : forall mn c, surv d mn c -> exists f top, c = Some f /\ df_min f = mn /\ near lo (frange f) /\
    (df_min f <= df_max f)%N /\ fgood lo H top f;
  dk_apart : forall f f' x, surv d (df_min f) (Some f) -> surv d (df_min f') (Some f') ->
    in_range x (frange f) -> in_range x (frange f') -> f = f';
  dk_log : writes log /\ exists H0, H = H0 ++ flat log /\ forall x, In x H0 -> stored d x
}.

(* --- opening --- *)
Definition file_slice (f : dfile) : slice part :=
  mk_slice (df_min f) (df_max f) (mk_part memtable_new memtable_new (Some (df_regions f)) (df_lsn f)).

Lemma open_spec lo d : forall l m lsn, good_map lo m -> NoDup l ->
  (forall k, In k l -> exists f, sl_id (dget d k) = Some (Some f) /\ near lo (frange f) /\ (df_min f <= df_max f)%N /\
     fresh m (frange f)) ->
  (forall k k' f f' x, In k l -> In k' l -> sl_id (dget d k) = Some (Some f) -> sl_id (dget d k') = Some (Some f') ->
     in_range x (frange f) -> in_range x (frange f') -> k = k') ->
  exists m' lsn', open_all m lsn d l = Ok (m', lsn') /\ good_map lo m' /\ (lsn <= lsn')%N /\
    (forall k f, In k l -> sl_id (dget d k) = Some (Some f) -> (df_lsn f <= lsn')%N) /\
    (forall t, In t (mapping_list m') <-> In t (mapping_list m) \/
       exists k f, In k l /\ sl_id (dget d k) = Some (Some f) /\ t = file_slice f).
Proof.
  induction l as [|k l IH]; intros m lsn G Hn Hf Hd; cbn [open_all].
  - exists m, lsn. split; auto. split; auto. split; [lia|]. split; [intros k f []|].
    intros t. split; auto. intros [|(k & f & [] & _)]; auto.
  - inversion Hn as [|? ? Hnk Hnl]; subst. destruct (Hf k (or_introl eq_refl)) as (f & Ef & F1 & F2 & F3). rewrite Ef.
    destruct (add_spec lo m (file_slice f) G F1 F2 F3) as (m1 & l1 & l2 & A1 & A2 & A3 & A4).
    unfold file_slice in A1 at 1. rewrite A1. cbn [bind].
    assert (L1 : forall t, In t (mapping_list m1) <-> In t (mapping_list m) \/ t = file_slice f).
    { intros t. rewrite A3, A4, !in_app_iff. simpl. intuition. }
    destruct (IH m1 (N.max lsn (df_lsn f)) A2 Hnl) as (m' & lsn' & E & G' & L & HL & HT).
    + intros k' Hk'. destruct (Hf k' (or_intror Hk')) as (f' & Ef' & F1' & F2' & F3'). exists f'. do 3 (split; auto).
      intros x Hx Hc. apply covered_slice in Hc as (t & Ht & Hr). apply L1 in Ht as [Ht| ->].
      * apply (F3' x Hx). apply covered_slice. eauto.
      * assert (k = k') by (eapply Hd; eauto; simpl; auto). subst. contradiction.
    + intros k1 k2 f1 f2 x K1 K2. apply Hd; simpl; auto.
    + exists m', lsn'. split; auto. split; auto. split; [lia|]. split.
      * intros k' f' [<-|Hk'] Ef'; [assert (f' = f) by congruence; subst; lia|eauto].
      * intros t. rewrite HT, L1. split.
        -- intros [[| ->]|(k' & f' & X1 & X2 & X3)]; auto.
           ++ right. exists k, f. simpl; auto.
           ++ right. exists k', f'. simpl; auto.
        -- intros [|(k' & f' & [<-|X1] & X2 & X3)]; auto.
           ++ left. right. congruence.
           ++ right. eauto.
Qed.

Lemma tab_new_events : mt_events memtable_new = [].
Proof. reflexivity. Qed.

Lemma file_sfine lo H top f : fgood lo H top f -> sfine lo (file_slice f).
Proof.
  intros [F1 F2 _ _].
  constructor; cbn [file_slice s_data s_min s_max pt_mem pt_prev pt_file]; auto using tab_new.
  unfold ids_in, contents. cbn [concat pt_mem pt_prev pt_file]. rewrite tab_new_events, app_nil_r. exact F2.
Qed.

Lemma file_srel lo H H0 top f : fgood lo H top f ->
  (forall x, In x H0 -> in_range (ev_id (snd x)) (frange f) -> (1 <= fst x <= df_lsn f)%N) ->
  forall top', (df_lsn f <= top')%N -> srel H0 H top' (file_slice f).
Proof.
  intros [F1 F2 _ F4] HC top' Ht.
  assert (B : base (s_data (file_slice f)) = (df_lsn f + 1)%N) by reflexivity.
  assert (C : cut (s_data (file_slice f)) = (df_lsn f + 1)%N).
  { unfold cut. rewrite B. change (mt_lsn_max (pt_prev (s_data (file_slice f)))) with 0%N. lia. }
  constructor; change (range_of (file_slice f)) with (frange f).
  - intros k Hk. change (mt_events (pt_mem (s_data (file_slice f)))) with (@nil event). symmetry. apply lw_none.
    intros x Hx E Eid. unfold pmem in E. rewrite C in E. apply N.leb_le in E.
    assert (fst x <= df_lsn f)%N by (apply HC; auto; rewrite Eid; auto). lia.
  - intros k Hk. change (mt_events (pt_prev (s_data (file_slice f)))) with (@nil event). symmetry. apply lw_none.
    intros x Hx E Eid. unfold pprev in E. rewrite B, C in E. apply andb_true_iff in E as [E1 E2].
    apply N.leb_le in E1. apply N.ltb_lt in E2. lia.
  - intros k Hk. change (fevents (s_data (file_slice f))) with (concat (df_regions f)). rewrite F4 by auto. f_equal.
    apply lw_ext. intros x _. unfold pfile. rewrite B. destruct (N.leb_spec (fst x) (df_lsn f)), (N.ltb_spec (fst x) (df_lsn f + 1)); auto; lia.
  - intros x Hx Hr Hc. rewrite C in Hc. assert (fst x <= df_lsn f)%N by (apply HC; auto). lia.
  - intros x Hx Hr Hc. unfold pprev in Hc. rewrite B, C in Hc. apply andb_true_iff in Hc as [E1 E2].
    apply N.leb_le in E1. apply N.ltb_lt in E2. lia.
  - change (mt_lsn_max (pt_mem (s_data (file_slice f)))) with 0%N.
    change (mt_lsn_max (pt_prev (s_data (file_slice f)))) with 0%N. rewrite B. lia.
Qed.

(* partitions with the same file and previous table, and fresh ones *)
Definition dlike (p q : part) : Prop := pt_prev q = pt_prev p /\ pt_file q = pt_file p /\ pt_lsn q = pt_lsn p.
Record mlike m m' : Prop := {
  ml_old : forall s, In s (mapping_list m) -> exists q, In (mk_slice (s_min s) (s_max s) q) (mapping_list m') /\
    dlike (s_data s) q;
  ml_new : forall t, In t (mapping_list m') ->
     (exists p, In (mk_slice (s_min t) (s_max t) p) (mapping_list m) /\ dlike p (s_data t)) \/
     (fresh m (range_of t) /\ dlike (part_new 0 0) (s_data t))
}.
Lemma dlike_refl p : dlike p p.
Proof. repeat split. Qed.
Lemma dlike_trans p q r : dlike p q -> dlike q r -> dlike p r.
Proof. unfold dlike. intuition congruence. Qed.
Lemma mlike_refl m : mlike m m.
Proof.
  constructor; intros s Hs; [|left]; exists (s_data s); rewrite slice_eta; split; auto using dlike_refl.
Qed.
Lemma mlike_ranges m m' : mlike m m' -> incl (ranges m) (ranges m').
Proof.
  intros G r Hr. apply in_map_iff in Hr as (s & <- & Hs). destruct (ml_old _ _ G s Hs) as (q & Hq & _).
  apply in_map_iff. eexists; split; [|exact Hq]. auto.
Qed.
Lemma mlike_trans a b c : mlike a b -> mlike b c -> mlike a c.
Proof.
  intros AB BC. pose proof AB as [A1 A2]. pose proof BC as [B1 B2]. constructor.
  - intros s Hs. destruct (A1 s Hs) as (q & Hq & L). destruct (B1 _ Hq) as (r & Hr & L'). simpl in *.
    exists r. split; auto. eapply dlike_trans; eauto.
  - intros t Ht. destruct (B2 t Ht) as [(q & Hq & L)|[Fr L]].
    + destruct (A2 _ Hq) as [(r & Hr & L')|[Fr L']]; simpl in *.
      * left. exists r. split; auto. eapply dlike_trans; eauto.
      * right. split; auto. eapply dlike_trans; eauto.
    + right. split; auto. eapply fresh_mono; eauto. apply mlike_ranges; auto.
Qed.
Lemma grown_mlike skip lsn evs m m' : grown skip lsn evs m m' -> mlike m m'.
Proof.
  intros [G1 G2 G3]. constructor.
  - intros s Hs. destruct (G1 s Hs) as (q & Hq & []). exists q. split; auto. repeat split; auto.
  - intros t Ht. destruct (G2 t Ht) as [(p & Hp & [])|[Fr []]]; [left; exists p|right]; split; auto; repeat split; auto.
Qed.
Lemma ext_mlike lo m m' : minv lo m -> minv lo m' -> ext m m' -> mlike m m'.
Proof.
  intros I I' E. constructor.
  - intros s Hs. destruct (proj1 E s Hs) as (q & Hq & L). exists q. split; auto.
    destruct L as (_ & _ & _ & L1 & L2 & L3). repeat split; auto.
  - intros t Ht. destruct (ext_new lo m m' t I I' E Ht) as [(q & Hq & L)|[L Fr]].
    + left. exists q. split; auto. destruct L as (_ & _ & _ & L1 & L2 & L3). repeat split; auto.
    + right. split; auto. destruct L as (_ & _ & _ & L1 & L2 & L3). repeat split; auto.
Qed.

(* --- replay --- *)
Record rinv (lo : N) Hf m1 (en : engine) (Hm : hist) : Prop := {
  ri_map : minv lo (en_map en);
  ri_iv : (0 < en_interval en <= u64_max)%N;
  ri_cov : hcov (en_map en) Hm;
  ri_srel : forall s, In s (mapping_list (en_map en)) -> srel Hm Hf (en_lsn en) s;
  ri_prev : forall s, In s (mapping_list (en_map en)) -> pt_prev (s_data s) = memtable_new;
  ri_like : mlike m1 (en_map en);
  ri_top : Forall (fun x => (fst x <= en_lsn en)%N) Hm
}.

Lemma replay_spec lo Hf m1 : forall l b Hm, rinv lo Hf m1 (db_en b) Hm -> writes l ->
  refill_fine lo (db_en b) l ->
  exists en', replay_log b l = Ok (with_en b en') /\ rinv lo Hf m1 en' (Hm ++ flat l) /\
    en_interval en' = en_interval (db_en b) /\ en_serial en' = en_serial (db_en b) /\
    en_page en' = en_page (db_en b) /\ en_region en' = en_region (db_en b).
Proof.
  induction l as [|r l IH]; intros b Hm R W Hf'.
  - exists (db_en b). cbn [replay_log flat]. rewrite app_nil_r. split; [destruct b; reflexivity|]. auto.
  - inversion W as [|? ? Wr Wl]; subst. destruct r as [n evs|]; [|contradiction]. cbn [replay_log refill_fine flat] in *.
    destruct Hf' as (F1 & F2 & F3). pose proof R as [I Hiv HC HS HP HL HT].
    destruct (replay_grown lo (db_en b) n evs I ltac:(lia) F1 F2) as (m & E & I' & G).
    rewrite E in *. cbn [bind].
    set (en := with_lsn (with_map (db_en b) m) (N.max (en_lsn (db_en b)) n)) in *.
    destruct (srel_grown (skipped n) lo Hm Hf (en_lsn (db_en b)) n evs (en_map (db_en b)) m I HC HS G) as [S' C']; auto.
    { intros s Hs. split; auto. intros _. rewrite (HP s Hs). change (mt_lsn_max memtable_new) with 0%N. lia. }
    destruct (IH (with_en b en) (Hm ++ map (pair n) evs)) as (en' & E' & R' & Z).
    + constructor; auto.
      * intros t Ht. destruct (gw_new _ _ _ _ _ G t Ht) as [(p & Hp & C)|[Fr C]].
        -- rewrite (cp_prev _ _ _ _ _ _ C). apply (HP _ Hp).
        -- rewrite (cp_prev _ _ _ _ _ _ C). reflexivity.
      * eapply mlike_trans; [exact HL|]. eapply grown_mlike; eauto.
      * apply Forall_app. split.
        -- eapply Forall_impl; [|exact HT]. intros x Hx. unfold en. cbn [db_en with_en with_lsn en_lsn].
           cbn beta in Hx. lia.
        -- rewrite Forall_forall. intros x Hx. apply in_map_iff in Hx as (e & <- & _). unfold en. cbn [db_en with_en with_lsn en_lsn fst]. lia.
    + auto.
    + exact F3.
    + exists en'. rewrite app_assoc. split; auto.
Qed.

(* --- a database and its history --- *)
Definition at_ {A} (st x : N) (o : option A) : option A := if (st =? x)%N then o else None.
Definition fo s : option content :=
  match pt_file (s_data s) with
  | Some f => Some (Some (mk_dfile (s_min s) (s_max s) (pt_lsn (s_data s)) f))
  | None => None
  end.
Definition jdesc (region : N) (d : dir) (home : N -> N) s (j : job) : Prop :=
  let mn := s_min s in
  let p := s_data s in
  match jb_stage j with
  | 0 => home mn = jb_from j /\ forall st, dget d (st, mn) = mk_slot (at_ st (jb_from j) (fo s)) None None
  | 1 => home mn = jb_from j /\
         forall st, dget d (st, mn) = mk_slot (at_ st (jb_from j) (fo s)) (at_ st (jb_to j) (Some None)) None
  | 2 => home mn = jb_from j /\ exists l, merger_events p = Ok l /\
         forall st, dget d (st, mn) = mk_slot (at_ st (jb_from j) (fo s))
           (at_ st (jb_to j) (Some (Some (mk_dfile mn (s_max s) (merger_lsn p) (cut_regions region l))))) None
  | 3 => home mn = jb_to j /\ pt_file p <> None /\ exists old, (forall f, old = Some (Some f) -> (df_lsn f <= pt_lsn p)%N) /\
         forall st, dget d (st, mn) = mk_slot (at_ st (jb_from j) old) (at_ st (jb_to j) (fo s)) None
  | 4 => home mn = jb_to j /\ pt_file p <> None /\ exists old, (forall f, old = Some (Some f) -> (df_lsn f <= pt_lsn p)%N) /\
         forall st, dget d (st, mn) = mk_slot (at_ st (jb_from j) old) None (at_ st (jb_to j) (fo s))
  | 5 => home mn = jb_to j /\ pt_file p <> None /\
         forall st, dget d (st, mn) = mk_slot None None (at_ st (jb_to j) (fo s))
  | _ => False
  end.
Definition desc (region : N) (d : dir) (home : N -> N) s (o : option job) : Prop :=
  match o with
  | None => forall st, sl_id (dget d (st, s_min s)) = at_ st (home (s_min s)) (fo s) /\ sl_comp (dget d (st, s_min s)) = None
  | Some j => jdesc region d home s j
  end.
Definition job_of (jobs : list job) (mn : N) : option job := find (fun j => (jb_ref j =? mn)%N) jobs.

Record binv (lo : N) (b : db) H : Prop := {
  bi_map : minv lo (en_map (db_en b));
  bi_iv : (0 < en_interval (db_en b) <= u64_max)%N;
  bi_sort : hsorted H;
  bi_top : Forall (fun x => (1 <= fst x <= en_lsn (db_en b))%N) H;
  bi_cov : hcov (en_map (db_en b)) H;
  bi_srel : forall s, In s (mapping_list (en_map (db_en b))) -> srel H H (en_lsn (db_en b)) s;
  bi_sto : storages_ok (db_storages b);
  bi_home : forall mn, In (db_home b mn) (db_storages b);
  bi_wf : wfd (db_dir b);
  bi_in : forall k, dget (db_dir b) k <> no_files -> In (fst k) (db_storages b);
  bi_keys : forall st mn, (forall s, In s (mapping_list (en_map (db_en b))) -> s_min s <> mn) ->
    dget (db_dir b) (st, mn) = no_files;
  bi_desc : forall s, In s (mapping_list (en_map (db_en b))) ->
    desc (en_region (db_en b)) (db_dir b) (db_home b) s (job_of (db_jobs b) (s_min s));
  bi_jobs : NoDup (map jb_ref (db_jobs b)) /\ forall j, In j (db_jobs b) ->
    In (jb_to j) (db_storages b) /\ exists s, In s (mapping_list (en_map (db_en b))) /\ s_min s = jb_ref j;
  bi_surv : forall mn c, surv (db_dir b) mn c -> exists f, c = Some f /\ df_min f = mn /\
    In (frange f) (ranges (en_map (db_en b))) /\ fgood lo H (en_lsn (db_en b)) f;
  bi_log : writes (db_log b) /\ exists H0, H = H0 ++ flat (db_log b) /\ forall x, In x H0 -> stored (db_dir b) x
}.

Lemma at_same {A} x (o : option A) : at_ x x o = o.
Proof. unfold at_. rewrite N.eqb_refl. auto. Qed.
Lemma at_some {A} st x (o : option A) c : at_ st x o = Some c -> st = x /\ o = Some c.
Proof. unfold at_. destruct (N.eqb_spec st x); [auto|discriminate]. Qed.
Lemma at_none {A} st x : at_ st x (@None A) = None.
Proof. unfold at_. destruct (st =? x)%N; auto. Qed.
Lemma at_not {A} st x (o : option A) : at_ st x o <> None -> st = x /\ o <> None.
Proof. unfold at_. destruct (N.eqb_spec st x); [auto|congruence]. Qed.

Lemma surv_at d mn a b o o' :
  (forall st, sl_id (dget d (st, mn)) = at_ st a o) -> (forall st, sl_comp (dget d (st, mn)) = at_ st b o') ->
  forall c, surv d mn c <-> match o with Some x => c = x | None => o' = Some c end.
Proof.
  intros H1 H2 c. unfold surv. destruct o as [x|].
  - split.
    + intros [(st & E)|[E _]].
      * rewrite H1 in E. apply at_some in E. destruct E. congruence.
      * specialize (E a). rewrite H1, at_same in E. discriminate.
    + intros ->. left. exists a. rewrite H1, at_same. auto.
  - split.
    + intros [(st & E)|[_ (st & E)]].
      * rewrite H1, at_none in E. discriminate.
      * rewrite H2 in E. apply at_some in E. tauto.
    + intros E. right. split.
      * intros st. rewrite H1. apply at_none.
      * exists b. rewrite H2, at_same. auto.
Qed.

(* the file in use is on disk unless it replaces another one at this moment *)
Lemma desc_surv region d home s o c : desc region d home s o ->
  match o with Some j => jb_stage j <= 2 \/ jb_stage j = 5 | None => True end ->
  (surv d (s_min s) c <-> fo s = Some c).
Proof.
  intros D Hst. destruct o as [j|]; cbn [desc] in D.
  - unfold jdesc in D. destruct (jb_stage j) as [|[|[|[|[|[|n]]]]]]; try lia.
    + destruct D as [_ D]. rewrite (surv_at d (s_min s) (jb_from j) 0 (fo s) None); [destruct (fo s); split; congruence|..];
        intros st; rewrite D; simpl; rewrite ?at_none; auto.
    + destruct D as [_ D]. rewrite (surv_at d (s_min s) (jb_from j) 0 (fo s) None); [destruct (fo s); split; congruence|..];
        intros st; rewrite D; simpl; rewrite ?at_none; auto.
    + destruct D as [_ (l & _ & D)]. rewrite (surv_at d (s_min s) (jb_from j) 0 (fo s) None); [destruct (fo s); split; congruence|..];
        intros st; rewrite D; simpl; rewrite ?at_none; auto.
    + destruct D as (_ & _ & D). rewrite (surv_at d (s_min s) 0 (jb_to j) None (fo s)); [destruct (fo s); split; congruence|..];
        intros st; rewrite D; simpl; rewrite ?at_none; auto.
  - rewrite (surv_at d (s_min s) (home (s_min s)) 0 (fo s) None); [destruct (fo s); split; congruence|..];
      intros st; destruct (D st) as [D1 D2]; rewrite ?at_none; auto.
Qed.

Lemma fo_good lo H top s f : sfine lo s -> srel H H top s -> fo s = Some (Some f) -> fgood lo H top f.
Proof.
  intros [F1 F2 F3 F4] [S1 S2 S3 S4 S5 S6] E. unfold fo in E. destruct (pt_file (s_data s)) as [g|] eqn:Ef; [|discriminate].
  inversion E; subst. constructor; cbn [df_regions df_lsn frange df_min df_max]; auto.
  - unfold ids_in, contents, frange in *. cbn [concat df_min df_max] in *. rewrite Ef, !Forall_app in F4. tauto.
  - destruct S6 as (_ & _ & T). unfold base in T. rewrite Ef in T. lia.
  - intros k Hk. unfold fevents in S3. rewrite Ef in S3. rewrite S3 by auto. f_equal. apply lw_ext.
    intros x _. unfold pfile, base. rewrite Ef.
    destruct (N.leb_spec (fst x) (pt_lsn (s_data s))), (N.ltb_spec (fst x) (pt_lsn (s_data s) + 1)); auto; lia.
Qed.

Lemma binv_good lo b H : binv lo b H -> good_dir (db_storages b) (db_dir b).
Proof.
  intros B. pose proof B as [I _ _ _ _ _ _ _ W In_ K D _ _ _].
  set (d := db_dir b) in *. set (m := en_map (db_en b)) in *.
  (* what is at a start of a range *)
  assert (V : forall mn, (forall st, dget d (st, mn) = no_files) \/
     exists a o b' o', (forall st, sl_id (dget d (st, mn)) = at_ st a o) /\
       (forall st, sl_comp (dget d (st, mn)) = at_ st b' o') /\
       (forall st, shape (dget d (st, mn))) /\
       (o' = None \/ (forall st, sl_inc (dget d (st, mn)) = None))).
  { intros mn. destruct (find (fun s => (s_min s =? mn)%N) (mapping_list m)) as [s|] eqn:Ef.
    - apply find_some in Ef as [Hs Es]. apply N.eqb_eq in Es. subst mn. right. specialize (D s Hs).
      destruct (job_of (db_jobs b) (s_min s)) as [j|]; cbn [desc] in D.
      + unfold jdesc in D. destruct (jb_stage j) as [|[|[|[|[|[|n]]]]]]; try contradiction.
        * destruct D as [_ D]. exists (jb_from j), (fo s), 0%N, None.
          repeat split; intros; try rewrite D; simpl; rewrite ?at_none; auto. left; reflexivity.
        * destruct D as [_ D]. exists (jb_from j), (fo s), 0%N, None.
          repeat split; intros; try rewrite D; simpl; rewrite ?at_none; auto. left; reflexivity.
        * destruct D as [_ (l & _ & D)]. exists (jb_from j), (fo s), 0%N, None.
          repeat split; intros; try rewrite D; simpl; rewrite ?at_none; auto. left; reflexivity.
        * destruct D as (_ & _ & old & _ & D). exists (jb_from j), old, 0%N, None.
          repeat split; intros; try rewrite D; simpl; rewrite ?at_none; auto. left; reflexivity.
        * destruct D as (_ & _ & old & _ & D). exists (jb_from j), old, (jb_to j), (fo s).
          repeat split; intros; try rewrite D; simpl; auto. right; reflexivity.
          right. intros st. rewrite D. auto.
        * destruct D as (_ & _ & D). exists 0%N, None, (jb_to j), (fo s).
          repeat split; intros; try rewrite D; simpl; rewrite ?at_none; auto. right; reflexivity.
          right. intros st. rewrite D. auto.
      + exists (db_home b (s_min s)), (fo s), 0%N, None.
        repeat split; intros; try apply D; rewrite ?at_none; try apply D; auto. left. apply D.
    - left. intros st. apply K. intros s Hs E. eapply find_none in Ef; eauto. simpl in Ef. apply N.eqb_neq in Ef. auto. }
  constructor; auto.
  - intros [st mn]. destruct (V mn) as [V0|(a & o & b' & o' & V1 & V2 & V3 & V4)]; auto. rewrite V0. left; reflexivity.
  - intros st st' mn. destruct (V mn) as [V0|(a & o & b' & o' & V1 & V2 & V3 & V4)].
    + rewrite V0. simpl. congruence.
    + rewrite !V1. intros E1 E2. apply at_not in E1. apply at_not in E2. destruct E1, E2. congruence.
  - intros st st' mn. destruct (V mn) as [V0|(a & o & b' & o' & V1 & V2 & V3 & V4)].
    + rewrite V0. simpl. congruence.
    + rewrite !V2. intros E1 E2. apply at_not in E1. apply at_not in E2. destruct E1, E2. congruence.
  - intros st st' mn (O1 & O2 & O3) Hne Hx. destruct (V mn) as [V0|(a & o & b' & o' & V1 & V2 & V3 & V4)].
    + rewrite V0 in Hx. congruence.
    + destruct V4 as [->|V4]; [rewrite V2, at_none in O3; congruence|].
      intros E. apply Hx. rewrite V2 in O3. apply at_not in O3 as [-> _].
      pose proof (V2 st') as E2. pose proof (V4 st') as E3. unfold at_ in E2.
      destruct (N.eqb_spec st' b'); [congruence|].
      destruct (dget d (st', mn)); simpl in *; subst; auto.
Qed.

(* survivors are apart *)
Lemma range_in_near lo m r : good_map lo m -> In r (ranges m) -> near lo r /\ (fst r <= snd r)%N.
Proof.
  intros G Hr. pose proof (gm_near _ _ G) as X. rewrite Forall_forall in X. split; auto.
  destruct (proj1 (layout_slices _) (gm_layout _ _ G)) as [_ Y]. rewrite Forall_forall in Y.
  apply in_map_iff in Hr as (s & <- & Hs). apply Y; auto.
Qed.

Lemma binv_disk lo b H X : binv lo b H -> Forall (fun x => (en_lsn (db_en b) < fst x)%N) X -> hsorted X ->
  forall r, flat r = X -> writes r -> disk lo (db_storages b) (H ++ X) (db_dir b) (db_log b ++ r).
Proof.
  intros B HX HSX r Er Wr. pose proof (binv_good lo b H B) as GD.
  pose proof B as [I _ HS HT _ _ _ _ W In_ K D _ SV (LW & H0 & EH & ST)].
  rewrite Forall_forall in HX, HT.
  constructor; auto.
  - unfold hsorted. clear -HS HSX HX HT. induction HS as [|x H HS IH HF]; auto. simpl. constructor.
    + apply IH. intros; apply HT; simpl; auto.
    + apply Forall_app. split; auto. rewrite Forall_forall. intros y Hy. specialize (HX y Hy).
      specialize (HT x (or_introl eq_refl)). lia.
  - apply Forall_app. split; rewrite Forall_forall; intros x Hx; [apply HT in Hx; lia|specialize (HX x Hx); lia].
  - intros mn c Hs. destruct (SV mn c Hs) as (f & -> & E & Hr & [F1 F2 F3 F4]). exists f, (en_lsn (db_en b)).
    destruct (range_in_near lo _ _ (mi_map _ _ I) Hr) as [N1 N2]. do 4 (split; auto). constructor; auto.
    intros k Hk. rewrite F4 by auto. f_equal. rewrite lw_app. symmetry. apply over_out. intros e He. exfalso.
    apply in_sel in He as (l & Hl & HP). specialize (HX _ Hl). apply N.leb_le in HP. simpl in HX. lia.
  - intros f f' x S1 S2 R1 R2.
    destruct (SV _ _ S1) as (g & Eg & _ & Hr & _). inversion Eg; subst g.
    destruct (SV _ _ S2) as (g & Eg' & _ & Hr' & _). inversion Eg'; subst g.
    apply in_map_iff in Hr as (s & Es & Hs). apply in_map_iff in Hr' as (s' & Es' & Hs').
    assert (s = s').
    { apply (layout_unique (mapping_list (en_map (db_en b))) s s' x); auto; [exact (gm_layout _ _ (mi_map _ _ I))|rewrite Es; auto|rewrite Es'; auto]. }
    subst s'. assert (E : frange f = frange f') by congruence. unfold frange in E. inversion E as [[E1 E2]].
    rewrite E1 in S1. assert (Some f = Some f') by (eapply surv_unique; eauto). congruence.
  - split; [apply Forall_app; auto|]. exists H0. rewrite flat_app, Er, EH, app_assoc. auto.
Qed.

Lemma hsorted_nil : hsorted [].
Proof. constructor. Qed.

Lemma set_serial_fields en : let en' := engine_set_serial en in
  en_map en' = en_map en /\ en_interval en' = en_interval en /\ en_serial en' = en_serial en /\
  en_lsn en' = en_lsn en /\ en_page en' = en_page en /\ en_region en' = en_region en.
Proof.
  unfold engine_set_serial. destruct (mapping_max (en_map en)) as [z|]; [|tauto].
  destruct (zelem z); [|tauto].
  destruct (memtable_max _) as [e|]; [destruct (_ <=? _)%N; [simpl; tauto|]|];
    destruct (match pt_file _ with Some _ => _ | None => _ end); simpl; tauto.
Qed.

(* a start: what is recovered, and what any replay of the log then gives *)
Lemma start_gen lo en storages H d log : disk lo storages H d log -> storages_ok storages ->
  (lo + 2^31 <= u64_max)%N -> (0 < en_interval en <= u64_max)%N ->
  exists en1 d' m1 H0, engine_recover en storages d = Ok (en1, d') /\ H = H0 ++ flat log /\ rinv lo H m1 en1 H0 /\
    en_map en1 = m1 /\ en_interval en1 = en_interval en /\ en_serial en1 = en_serial en /\
    en_page en1 = en_page en /\ en_region en1 = en_region en /\ wfd d' /\ tidy d' /\
    (forall t, In t (mapping_list m1) <-> exists f, surv d (df_min f) (Some f) /\ t = file_slice f) /\
    (forall st mn, dget d' (st, mn) <> no_files -> exists t, In t (mapping_list m1) /\ s_min t = mn) /\
    forall en2 en3 log', rinv lo H m1 en2 H -> en_map en3 = en_map en2 -> en_interval en3 = en_interval en2 ->
      en_lsn en3 = en_lsn en2 -> writes log' -> flat log' = flat log ->
      binv lo (mk_db en3 storages (home_of (worklist storages d') (hd 0%N storages)) d' log' []) H.
Proof.
  intros [GD HS HP SV AP (LW & H0 & EH & ST)] SO Hlo Hiv.
  destruct (validated storages d (proj1 SO) GD) as (d' & EV & GD' & SE & SS).
  assert (IDS : forall k, In k (worklist storages d') -> exists f, sl_id (dget d' k) = Some (Some f) /\
     surv d (snd k) (Some f) /\ df_min f = snd k).
  { intros [st mn] Hk. apply worklist_good in Hk; auto. destruct (SE (st, mn)) as [|(X & _)]; [contradiction|].
    destruct (sl_id (dget d' (st, mn))) as [c|] eqn:Ei; [|congruence].
    assert (Sc : surv d mn c) by (apply SS; left; eauto).
    destruct (SV mn c Sc) as (f & top & -> & E & _). exists f. auto. }
  destruct (open_spec lo d' (worklist storages d') mapping_init 0 (good_init lo Hlo)) as (m1 & lsn1 & EO & G1 & _ & HL & HM).
  { apply worklist_nodup; [apply SO|apply GD']. }
  { intros k Hk. destruct (IDS k Hk) as (f & Ei & Sf & Em). exists f. split; auto.
    destruct (SV _ _ Sf) as (g & top & Eg & _ & N1 & N2 & _). inversion Eg; subst g. split; auto. split; auto.
    intros x _ (r & [] & _). }
  { intros [a mn] [a' mn'] f f' x K1 K2 E1 E2 R1 R2.
    destruct (IDS _ K1) as (g & Eg & Sg & Mg). destruct (IDS _ K2) as (g' & Eg' & Sg' & Mg').
    assert (f = g) by congruence. assert (f' = g') by congruence. subst g g'. cbn [snd] in *.
    assert (f = f').
    { apply (AP f f' x); auto; [rewrite Mg|rewrite Mg']; auto. }
    subst f'. clear Eg Eg'. assert (Em : mn' = mn) by congruence. rewrite Em in *. clear Em.
    assert (Ea : a = a') by (apply (gd_id _ _ GD' a a' mn); congruence). congruence. }
  assert (HM' : forall t, In t (mapping_list m1) <-> exists f, surv d (df_min f) (Some f) /\ t = file_slice f).
  { intros t. rewrite HM. split.
    - intros [[]|(k & f & Hk & Ei & ->)]. destruct (IDS k Hk) as (g & Eg & Sg & Mg).
      assert (f = g) by congruence. subst g. exists f. rewrite Mg. auto.
    - intros (f & Sf & ->). right. apply SS in Sf. apply settled_surv in Sf; auto. destruct Sf as (st & Ei).
      exists (st, df_min f), f. split; auto. apply worklist_good; auto. intros X. rewrite X in Ei. discriminate. }
  assert (LS : forall f, surv d (df_min f) (Some f) -> (df_lsn f <= lsn1)%N).
  { intros f Sf. apply SS in Sf. apply settled_surv in Sf; auto. destruct Sf as (st & Ei).
    apply (HL (st, df_min f)); auto. apply worklist_good; auto. intros X. rewrite X in Ei. discriminate. }
  assert (I1 : minv lo m1).
  { constructor; auto. rewrite Forall_forall. intros t Ht. apply HM' in Ht as (f & Sf & ->).
    destruct (SV _ _ Sf) as (g & top & Eg & _ & _ & _ & F). inversion Eg; subst g. eapply file_sfine; eauto. }
  set (en1 := mk_engine m1 (en_interval en) (en_serial en) 0 lsn1 (en_page en) (en_region en)).
  assert (ER : engine_recover en storages d = Ok (en1, d')).
  { unfold engine_recover. rewrite EV. cbn [bind]. rewrite EO. cbn [bind]. reflexivity. }
  set (home := home_of (worklist storages d') (hd 0%N storages)).
  assert (R1 : rinv lo H m1 en1 H0).
  { constructor; auto.
    - intros x Hx. destruct (ST x Hx) as (f & Sf & Hr & _). apply covered_slice. exists (file_slice f).
      split; [apply HM'; eauto|]. auto.
    - intros t Ht. apply HM' in Ht as (f & Sf & ->).
      destruct (SV _ _ Sf) as (g & top & Eg & _ & _ & _ & F). inversion Eg; subst g.
      apply (file_srel lo H H0 top f F).
      + intros x Hx Hr. split.
        * rewrite Forall_forall in HP. apply HP. rewrite EH. apply in_app_iff; auto.
        * destruct (ST x Hx) as (f' & Sf' & Hr' & Hle). assert (f = f') by (apply (AP f f' (ev_id (snd x))); auto).
          subst f'. auto.
      + apply LS; auto.
    - intros t Ht. apply HM' in Ht as (f & _ & ->). reflexivity.
    - apply mlike_refl.
    - rewrite Forall_forall. intros x Hx. destruct (ST x Hx) as (f & Sf & _ & Hle).
      specialize (LS f Sf). unfold en1. cbn [en_lsn]. lia. }
  assert (TD : tidy d').
  { split.
    - intros k. destruct (SE k) as [->|(_ & X1 & X2)]; auto.
    - intros st st' mn X1 X2. destruct (SE (st, mn)) as [|(Y1 & _)]; [contradiction|].
      destruct (SE (st', mn)) as [|(Y2 & _)]; [contradiction|]. apply (gd_id _ _ GD' st st' mn); auto. }
  exists en1, d', m1, H0. split; [exact ER|]. split; [exact EH|]. split; [exact R1|]. do 5 (split; [reflexivity|]).
  split; [apply GD'|]. split; [exact TD|]. split; [exact HM'|]. split.
  { intros st mn X. destruct (SE (st, mn)) as [|(Y & _)]; [contradiction|].
    destruct (sl_id (dget d' (st, mn))) as [c|] eqn:Ei; [|congruence].
    assert (Sc : surv d mn c) by (apply SS; left; eauto). destruct (SV mn c Sc) as (f & top & -> & E & _).
    exists (file_slice f). split; [apply HM'; exists f; rewrite E; auto|exact E]. }
  intros en2 en3 log' [I2 Hiv2 HC2 HS2 HP2 HL2 HT2] M3 V3 L3 LW' EF. fold home.
  constructor; cbn [db_en db_storages db_home db_dir db_log db_jobs]; rewrite ?M3, ?V3, ?L3; auto.
  - rewrite Forall_forall in *. intros x Hx. split; auto.
  - intros mn. unfold home, home_of. destruct (find _ _) as [k|] eqn:Ef.
    + apply find_some in Ef as [Ef _]. apply worklist_in in Ef. tauto.
    + destruct storages; [destruct SO; congruence|simpl; auto].
  - apply GD'.
  - apply (gd_st _ _ GD').
  - intros st mn Hno. destruct (SE (st, mn)) as [|(X & _)]; auto. exfalso.
    destruct (sl_id (dget d' (st, mn))) as [c|] eqn:Ei; [|congruence].
    assert (Sc : surv d mn c) by (apply SS; left; eauto).
    destruct (SV mn c Sc) as (f & top & -> & E & _).
    assert (Hf : In (file_slice f) (mapping_list m1)) by (apply HM'; exists f; rewrite E; auto).
    destruct (ml_old _ _ HL2 _ Hf) as (q & Hq & _). apply (Hno _ Hq). simpl. auto.
  - intros s Hs. cbn [job_of find desc]. intros st.
    assert (Comp : sl_comp (dget d' (st, s_min s)) = None).
    { destruct (SE (st, s_min s)) as [->|(_ & _ & ->)]; auto. }
    split; auto.
    destruct (ml_new _ _ HL2 s Hs) as [(p & Hp & (D1 & D2 & D3))|[Fr (D1 & D2 & D3)]].
    + apply HM' in Hp as (f & Sf & E). assert (Em : s_min s = df_min f) by (inversion E; auto).
      assert (Efo : fo s = Some (Some f)).
      { unfold fo. rewrite D2, D3. inversion E as [[E1 E2 E3]]. cbn [pt_file pt_lsn]. rewrite E1, E2. destruct f; reflexivity. }
      rewrite Efo, Em. apply SS in Sf. apply settled_surv in Sf; auto. destruct Sf as (st0 & Ei).
      assert (Hh : home (df_min f) = st0).
      { unfold home, home_of. destruct (find _ _) as [[a mn]|] eqn:Ef.
        - apply find_some in Ef as [Ef En]. apply N.eqb_eq in En. cbn [fst snd] in *. subst mn.
          destruct (IDS _ Ef) as (g & Eg & _). apply (gd_id _ _ GD' a st0 (df_min f)); congruence.
        - eapply find_none with (x := (st0, df_min f)) in Ef.
          + simpl in Ef. rewrite N.eqb_refl in Ef. discriminate.
          + apply worklist_good; auto. intros X. rewrite X in Ei. discriminate. }
      rewrite Hh. unfold at_. destruct (N.eqb_spec st st0) as [->|Hne]; auto.
      destruct (none_or (sl_id (dget d' (st, df_min f)))) as [|X]; auto. exfalso. apply Hne.
      apply (gd_id _ _ GD' st st0 (df_min f)); congruence.
    + assert (Efo : fo s = None) by (unfold fo; rewrite D2; reflexivity). rewrite Efo, at_none.
      destruct (SE (st, s_min s)) as [->|(X & _)]; auto. exfalso.
      destruct (sl_id (dget d' (st, s_min s))) as [c|] eqn:Ei; [|congruence].
      assert (Sc : surv d (s_min s) c) by (apply SS; left; eauto).
      destruct (SV _ c Sc) as (f & top & -> & E & _ & N2 & _).
      destruct (range_in_near lo _ (range_of s) (mi_map _ _ I2)) as [_ Ls]; [apply in_map; auto|].
      apply (Fr (s_min s)); [split; simpl in *; lia|]. apply covered_slice. exists (file_slice f).
      split; [apply HM'; exists f; rewrite E; auto|]. split; simpl; lia.
  - split; [constructor|]. intros j [].
  - intros mn c Sc. apply SS in Sc. destruct (SV mn c Sc) as (f & top & -> & E & _ & _ & [F1 F2 F3 F4]).
    exists f. split; auto. split; auto.
    assert (Hf : In (file_slice f) (mapping_list m1)) by (apply HM'; exists f; rewrite E; auto).
    split.
    + apply (mlike_ranges _ _ HL2). apply in_map_iff. exists (file_slice f). auto.
    + constructor; auto. destruct (ml_old _ _ HL2 _ Hf) as (q & Hq & (Q1 & Q2 & Q3)).
      pose proof (sr_top _ _ _ _ (HS2 _ Hq)) as (_ & _ & T). unfold base in T. cbn [s_data] in T.
      rewrite Q2, Q3 in T. simpl in T. lia.
  - split; auto. exists H0. split; [congruence|]. intros x Hx. destruct (ST x Hx) as (f & Sf & Hr & Hle).
    exists f. split; auto. apply SS; auto.
Qed.

Lemma start_spec lo en storages H d log : disk lo storages H d log -> storages_ok storages ->
  (lo + 2^31 <= u64_max)%N -> (0 < en_interval en <= u64_max)%N ->
  match engine_recover en storages d with Ok (en1, _) => refill_fine lo en1 log | _ => True end ->
  exists b, main_start en storages d log = Ok b /\ binv lo b H /\ tidy (db_dir b).
Proof.
  intros D SO Hlo Hiv RF.
  destruct (start_gen lo en storages H d log D SO Hlo Hiv) as (en1 & d' & m1 & H0 & ER & EH & R1 & _ & _ & _ & _ & _ & _ & TD & _ & _ & K).
  rewrite ER in RF. unfold main_start. rewrite ER. cbn [bind].
  destruct (replay_spec lo H m1 log (mk_db en1 storages (home_of (worklist storages d') (hd 0%N storages)) d' log []) H0 R1)
    as (en2 & -> & R2 & _); [apply D|exact RF|].
  cbn [bind]. eexists. split; [reflexivity|]. split; [|exact TD]. rewrite <- EH in R2.
  unfold with_en. cbn [db_en db_storages db_home db_dir db_log db_jobs].
  apply (K en2); auto; [| | |apply D]; destruct (en_serial en1); auto; apply (set_serial_fields en2).
Qed.
