(* Replaying a log with DROP records. *)
From Coq Require Import NArith ZArith List Bool Sorted Lia Arith Permutation.
Import ListNotations.
From Verif Require Import Model.Base Model.Event Model.Rbtree Model.Memtable Model.Mapping Model.Merge
  Model.PartIter Model.Scan Model.Writer Model.Codec Model.Engine Spec.Order Spec.Merged Spec.Files Spec.Layout
  Spec.Regions Spec.View Spec.Engine Proof.OrderL Proof.RbtreeL Proof.MemtableL Proof.MemtableL2 Proof.MergeL
  Proof.MappingL Proof.MappingP Proof.MappingX Proof.ScanL Proof.EngineL Proof.EngineW Proof.EngineR Proof.CrashW
  Proof.CrashH Proof.DirL Proof.CrashD Proof.CrashP Proof.Cells Proof.DropsL.
From Verif Require Import Model.Crash Spec.Crash Spec.Drops.
Local Arguments N.pow : simpl never.
Local Arguments N.add : simpl never.
Local Arguments N.sub : simpl never.
Implicit Types (s t : slice part) (m : mapping part) (H : hist) (d : dir) (r : range) (R : list range) (l : list lrec).

Definition notgone R (x : N) : bool := negb (gone R x).
Lemma gone_in R x : gone R x = true <-> exists r, In r R /\ in_range x r.
Proof. unfold gone. rewrite existsb_exists. split; intros (r & A & B); exists r; split; auto; apply inb_in; auto. Qed.

(* the records that count: writes without the dropped events *)
Fixpoint live R l : list lrec :=
  match l with
  | [] => []
  | LWrite n evs :: t => LWrite n (filter (fun e => notgone R (ev_id e)) evs) :: live R t
  | LDrop _ _ :: t => live R t
  end.
Lemma live_app R l l' : live R (l ++ l') = live R l ++ live R l'.
Proof. induction l as [|[n e|n i] l IH]; cbn [app live]; auto. rewrite IH. auto. Qed.
Lemma live_flat R l : flat (live R l) = hout (notgone R) (flat l).
Proof.
  induction l as [|[n e|n i] l IH]; cbn [live flat]; auto. rewrite hout_app, hout_map, IH. auto.
Qed.

(* a DROP of the interval of this id follows *)
Definition later R l (x : N) : Prop :=
  exists r n id, In r R /\ in_range x r /\ In (LDrop n id) l /\ in_range id r.
Fixpoint closed (lo : N) R l : Prop :=
  match l with
  | [] => True
  | LWrite _ evs :: t => (forall e, In e evs -> gone R (ev_id e) = true -> later R t (ev_id e)) /\ closed lo R t
  | LDrop _ id :: t => (lo <= id < lo + 2^31)%N /\ gone R id = true /\ closed lo R t
  end.
Lemma later_app R l l' x : later R l x \/ later R l' x -> later R (l ++ l') x.
Proof.
  intros [(r & n & id & A & B & C & D)|(r & n & id & A & B & C & D)]; exists r, n, id; rewrite in_app_iff; auto.
Qed.
Lemma closed_app lo R l l' : closed lo R l -> closed lo R l' -> closed lo R (l ++ l').
Proof.
  intros C C'. induction l as [|[n e|n i] l IH]; cbn [app closed] in *; auto.
  - destruct C as [C1 C2]. split; auto. intros x Hx Hg. apply later_app. auto.
  - destruct C as (C1 & C2 & C3). auto.
Qed.
Lemma closed_skipn lo R : forall k l, closed lo R l -> closed lo R (skipn k l).
Proof.
  induction k as [|k IH]; intros l C; auto. destruct l as [|[n e|n i] l]; auto; cbn [skipn closed] in *; apply IH; tauto.
Qed.
Lemma closed_drop lo R l r n id : closed lo R l -> in_range id r -> (lo <= id < lo + 2^31)%N ->
  closed lo (r :: R) (l ++ [LDrop n id]).
Proof.
  intros C Hr Hw. induction l as [|[k e|k i] l IH]; cbn [app closed] in *.
  - split; auto. split; auto. apply gone_in. exists r. simpl; auto.
  - destruct C as [C1 C2]. split; auto. intros x Hx Hg. apply gone_in in Hg as (r' & [<-|Hr'] & Hin).
    + exists r, n, id. rewrite in_app_iff. simpl. auto 8.
    + apply later_app. left. destruct (C1 x Hx) as (q & n' & id' & A & B & D & E); [apply gone_in; eauto|].
      exists q, n', id'. simpl; auto.
  - destruct C as (C1 & C2 & C3). split; auto. split; auto. apply gone_in in C2 as (r' & Hr' & Hin).
    apply gone_in. exists r'. simpl; auto.
Qed.
Definition drops_only (lo : N) R l : Prop :=
  Forall (fun x => match x with LWrite _ _ => False | LDrop _ id => (lo <= id < lo + 2^31)%N /\ gone R id = true end) l.
Lemma drops_closed lo R l : drops_only lo R l -> closed lo R l.
Proof. induction 1 as [|[n e|n i] l X F IH]; cbn [closed]; tauto. Qed.
Lemma drops_live lo R l : drops_only lo R l -> live R l = [].
Proof. induction 1 as [|[n e|n i] l X F IH]; cbn [live]; tauto. Qed.

(* a log read from a history *)
Fixpoint play (iv : N) H l : hist :=
  match l with
  | [] => H
  | LWrite n evs :: t => play iv (H ++ map (pair n) evs) t
  | LDrop _ id :: t => play iv (hout (offr (cell iv id)) H) t
  end.
Lemma gone_cell iv R id : (0 < iv)%N -> cells iv R -> gone R id = true -> In (cell iv id) R.
Proof.
  intros Hiv C Hg. apply gone_in in Hg as (r & Hr & Hin). unfold cells in C. rewrite Forall_forall in C.
  rewrite <- (cell_in iv r id); auto.
Qed.
Lemma play_live lo iv R : (0 < iv)%N -> cells iv R -> forall l H, closed lo R l ->
  (forall x, In x H -> gone R (ev_id (snd x)) = true -> later R l (ev_id (snd x))) ->
  play iv H l = hout (notgone R) H ++ flat (live R l).
Proof.
  intros Hiv C. induction l as [|[n evs|n id] l IH]; intros H CL HX; cbn [play live flat closed] in *.
  - rewrite app_nil_r, hout_same; auto. intros x Hx. unfold notgone. rewrite negb_true_iff.
    destruct (gone R (ev_id (snd x))) eqn:E; auto. destruct (HX x Hx E) as (_ & _ & _ & _ & _ & [] & _).
  - destruct CL as [C1 C2]. rewrite IH; auto.
    + rewrite hout_app, hout_map, app_assoc. auto.
    + intros x Hx Hg. apply in_app_iff in Hx as [Hx|Hx].
      * destruct (HX x Hx Hg) as (r & k & id & A & B & [D|D] & E); [discriminate|]. exists r, k, id. auto.
      * apply in_map_iff in Hx as (e & <- & He). auto.
  - destruct CL as (C0 & C1 & C2). pose proof (gone_cell iv R id Hiv C C1) as HR. rewrite IH; auto.
    + f_equal. apply hout_hout. intros x Hx. apply offr_in. intros Hin. unfold notgone in Hx.
      rewrite (proj2 (gone_in R x)) in Hx; [discriminate|]. eauto.
    + intros x Hx Hg. apply hout_in in Hx as [Hx Ho]. apply offr_in in Ho.
      destruct (HX x Hx Hg) as (r & k & id' & A & B & [D|D] & E).
      * inversion D; subst. exfalso. apply Ho. unfold cells in C. rewrite Forall_forall in C.
        rewrite <- (cell_in iv r id'); auto.
      * exists r, k, id'. auto.
Qed.

(* --- the engine during a replay --- *)
Lemma drop_rinv lo Hf m1 en Hm m s : rinv lo Hf m1 en Hm -> In s (mapping_list (en_map en)) -> minv lo m ->
  (forall t, In t (mapping_list m) <-> In t (mapping_list (en_map en)) /\ t <> s) ->
  (forall t, In t (mapping_list m1) -> range_of t <> range_of s) ->
  rinv lo Hf m1 (with_lsn (with_map en m) (en_lsn en + 1)) (hout (offr (range_of s)) Hm).
Proof.
  intros [I Hiv HC HS HP HL HT] Hs I' HM HN. pose proof (mi_map _ _ I) as G.
  constructor; cbn [with_lsn with_map en_map en_interval en_lsn]; auto.
  - intros x Hx. apply hout_in in Hx as [Hx Hf']. pose proof (HC x Hx) as Hc. apply covered_slice in Hc as (t & Ht & Hr).
    apply covered_slice. exists t. split; auto. apply HM. split; auto. intros ->. apply offr_in in Hf'. auto.
  - intros t Ht. apply HM in Ht as [Ht Hn]. apply (srel_up _ _ (en_lsn en)); [|lia].
    apply srel_hout; auto. intros; eapply off_other; eauto.
  - intros t Ht. apply HM in Ht as [Ht _]. auto.
  - constructor.
    + intros u Hu. destruct (ml_old _ _ HL u Hu) as (q & Hq & D). exists q. split; auto. apply HM. split; auto.
      intros E. apply (HN u Hu). rewrite <- E. reflexivity.
    + intros t Ht. apply HM in Ht as [Ht _]. apply (ml_new _ _ HL); auto.
  - rewrite Forall_forall in *. intros x Hx. apply hout_in in Hx as [Hx _]. specialize (HT x Hx). lia.
Qed.

Lemma drop_absent d k : wfd d -> dget d k = no_files -> drop_key d k = d.
Proof.
  intros W E. unfold drop_key.
  assert (X : forall x, In x d -> fst x <> k).
  { intros x Hx Ex. apply (proj1 (in_keys d k W)); auto. rewrite <- Ex. apply in_map; auto. }
  clear W E. induction d as [|x d IH]; auto. cbn [filter].
  rewrite (dkey_eqb_false (fst x) k) by (apply X; simpl; auto). cbn [negb]. f_equal. apply IH. intros; apply X; simpl; auto.
Qed.
Lemma dropped_same b m s : wfd (db_dir b) -> dget (db_dir b) (db_home b (s_min s), s_min s) = no_files ->
  dropped_db b m s = with_en b (with_lsn (with_map (db_en b) m) (en_lsn (db_en b) + 1)).
Proof.
  intros W E. unfold dropped_db, dropped_at. rewrite E. unfold dset. cbn. rewrite drop_absent; auto.
Qed.

Lemma dreplay_spec lo R Hf m1 d iv : (0 < iv)%N -> wfd d ->
  (forall st mn, dget d (st, mn) <> no_files -> exists t, In t (mapping_list m1) /\ s_min t = mn) ->
  cells iv R -> (forall t, In t (mapping_list m1) -> ~ In (range_of t) R) ->
  forall l b Hm, rinv lo Hf m1 (db_en b) Hm -> db_dir b = d -> en_interval (db_en b) = iv ->
  cells iv (ranges (en_map (db_en b))) -> closed lo R l -> Forall (fun x => 1 <= rec_lsn x)%N (live R l) ->
  (forall r, In r (ranges (en_map (db_en b))) -> In r R -> exists n id, In (LDrop n id) l /\ in_range id r) ->
  dreplay_fine lo b l ->
  exists en' X, replay_log b l = Ok (with_log (with_en b en') (db_log b ++ X)) /\ drops_only lo R X /\
    rinv lo Hf m1 en' (play iv Hm l) /\ en_interval en' = iv /\ en_serial en' = en_serial (db_en b) /\
    en_page en' = en_page (db_en b) /\ en_region en' = en_region (db_en b) /\
    cells iv (ranges (en_map en')) /\ forall r, In r (ranges (en_map en')) -> ~ In r R.
Proof.
  intros Hiv W DF CR NG. induction l as [|[n evs|n id] l IH]; intros b Hm RI ED Ei C CL WL PD RF;
    cbn [replay_log dreplay_fine play closed live] in *.
  - exists (db_en b), []. rewrite app_nil_r. split; [destruct b; reflexivity|]. split; [constructor|].
    do 6 (split; auto). intros r Hr HR. destruct (PD r Hr HR) as (_ & _ & [] & _).
  - destruct CL as [C1 C2]. destruct RF as (F1 & F2 & F3). inversion WL as [|? ? W1 W2]; subst. cbn [rec_lsn] in W1.
    pose proof RI as [I Hiv' HC HS HP HL HT].
    destruct (replay_grown lo (db_en b) n evs I Hiv F1 F2) as (m & E & I' & G).
    rewrite E in *. cbn [bind].
    set (en := with_lsn (with_map (db_en b) m) (N.max (en_lsn (db_en b)) n)) in *.
    destruct (srel_grown (skipped n) lo Hm Hf (en_lsn (db_en b)) n evs (en_map (db_en b)) m I HC HS G) as [S' C']; auto.
    { intros s Hs. split; auto. intros _. rewrite (HP s Hs). change (mt_lsn_max memtable_new) with 0%N. lia. }
    pose proof (replay_rgrow lo (db_en b) n evs en I Hiv F1 F2 C E) as RG.
    destruct (IH (with_en b en) (Hm ++ map (pair n) evs)) as (en' & X & E' & Z); auto.
    + constructor; auto.
      * intros t Ht. destruct (gw_new _ _ _ _ _ G t Ht) as [(p & Hp & K)|[Fr K]].
        -- rewrite (cp_prev _ _ _ _ _ _ K). apply (HP _ Hp).
        -- rewrite (cp_prev _ _ _ _ _ _ K). reflexivity.
      * eapply mlike_trans; [exact HL|]. eapply grown_mlike; eauto.
      * apply Forall_app. split.
        -- eapply Forall_impl; [|exact HT]. intros x Hx. unfold en. cbn [db_en with_en with_lsn en_lsn].
           cbn beta in Hx. lia.
        -- rewrite Forall_forall. intros x Hx. apply in_map_iff in Hx as (e & <- & _). unfold en. cbn [db_en with_en with_lsn en_lsn fst]. lia.
    + eapply rgrow_cells; eauto.
    + intros r Hr HR. destruct (RG r Hr) as [Hr'|(i & Hi & ->)].
      * destruct (PD r Hr' HR) as (k & id & [D|D] & Hin); [discriminate|eauto].
      * apply in_map_iff in Hi as (e & <- & He).
        destruct (C1 e He) as (q & k & id & A & B & D & F).
        { apply gone_in. exists (cell (en_interval (db_en b)) (ev_id e)). split; auto. apply cell_self; auto. }
        exists k, id. split; auto. unfold cells in CR. rewrite Forall_forall in CR.
        rewrite <- (cell_in (en_interval (db_en b)) q (ev_id e)); auto.
    + exists en', X. split; auto.
  - destruct CL as (C0 & C1 & C2). destruct RF as (F1 & F2).
    pose proof (gone_cell iv R id Hiv CR C1) as HR.
    pose proof RI as [I Hiv' HC HS HP HL HT]. pose proof (mi_map _ _ I) as G.
    pose proof (part_slice_spec lo (en_map (db_en b)) id G) as PS.
    destruct (part_slice (en_map (db_en b)) id) as [s|] eqn:Es.
    + destruct PS as [Hs Hr]. destruct (drop_run lo b id s I C0 F1 Es) as (m & E & I' & HM).
      assert (Rs : range_of s = cell iv id).
      { apply cell_in; auto. unfold cells in C. rewrite Forall_forall in C. apply C. apply in_map; auto. }
      rewrite dropped_same in E.
      * rewrite E in F2. rewrite E. cbn [bind].
        set (en := with_lsn (with_map (db_en b) m) (en_lsn (db_en b) + 1)) in *.
        destruct (IH (with_log (with_en b en) (db_log b ++ [LDrop (en_lsn (db_en b) + 1) id])) (hout (offr (cell iv id)) Hm))
          as (en' & X & E' & DX & Z); auto.
        -- rewrite <- Rs. apply (drop_rinv lo Hf m1 (db_en b) Hm m s); auto.
           intros t Ht X. apply (NG t Ht). rewrite X, Rs. auto.
        -- cbn [with_log with_en db_en en with_lsn with_map en_map]. unfold cells in *. rewrite Forall_forall in *.
           intros r Hr'. apply in_map_iff in Hr' as (t & <- & Ht). apply HM in Ht as [Ht _]. apply C. apply in_map; auto.
        -- intros r Hr' HR'. apply in_map_iff in Hr' as (t & <- & Ht). apply HM in Ht as [Ht Hn].
           destruct (PD (range_of t)) as (k & id' & [D|D] & Hin); auto; [apply in_map; auto| |eauto].
           inversion D; subst. exfalso. apply Hn.
           apply (layout_unique (mapping_list (en_map (db_en b))) t s id'); auto. exact (gm_layout _ _ G).
        -- exists en', (LDrop (en_lsn (db_en b) + 1) id :: X). split; [|split; [constructor; auto|exact Z]].
           rewrite E'. unfold with_log, with_en. cbn. rewrite <- app_assoc. reflexivity.
      * rewrite ED; auto.
      * rewrite ED. destruct (dget d (db_home b (s_min s), s_min s)) as [a1 a2 a3] eqn:Eg.
        destruct a1, a2, a3; try reflexivity; exfalso;
          (destruct (DF (db_home b (s_min s)) (s_min s)) as (t & Ht & Em); [rewrite Eg; discriminate|]);
          destruct (ml_old _ _ HL t Ht) as (q & Hq & _);
          assert (X : mk_slice (s_min t) (s_max t) q = s) by (apply (min_unique lo (en_map (db_en b))); auto);
          apply (NG t Ht); replace (range_of t) with (range_of s) by (rewrite <- X; reflexivity); rewrite Rs; auto.
    + unfold db_drop in *. rewrite Es in *. cbn [bind].
      rewrite hout_same.
      2:{ intros x Hx. apply offr_in. intros Hin. apply PS. pose proof (HC x Hx) as Hc.
          apply covered_slice in Hc as (t & Ht & Hr).
          assert (Rt : range_of t = cell iv (ev_id (snd x))).
          { apply cell_in; auto. unfold cells in C. rewrite Forall_forall in C. apply C. apply in_map; auto. }
          apply covered_slice. exists t. split; auto. rewrite Rt, (cell_eq iv _ id Hiv Hin). apply cell_self; auto. }
      apply IH; auto. intros r Hr HR'. destruct (PD r Hr HR') as (k & id' & [D|D] & Hin); [|eauto].
      inversion D; subst. exfalso. apply PS. exists r. auto.
Qed.
