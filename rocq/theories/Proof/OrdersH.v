(* Every statement, texts, and histories of them. *)
From Coq Require Import NArith ZArith List Bool Sorted Lia Arith Permutation.
Import ListNotations.
From Verif Require Import Model.Base Model.Show Model.Lex Model.Parse Spec.Units Spec.Command Proof.ParseT Proof.ParseL Proof.ParseX.
From Verif Require Import Model.Event Model.Rbtree Model.Memtable Model.Mapping Model.Merge
  Model.PartIter Model.Scan Model.Writer Model.Codec Model.Engine Spec.Order Spec.Merged Spec.Files Spec.Layout
  Spec.Regions Spec.View Spec.Engine Proof.OrderL Proof.RbtreeL Proof.MemtableL Proof.MemtableL2 Proof.MergeL
  Proof.PartIterL
  Proof.MappingL Proof.MappingP Proof.MappingX Proof.ScanL Proof.EngineL Proof.EngineW Proof.EngineR Proof.EngineP Proof.CrashW
  Proof.CrashH Proof.DirL Proof.CrashD Proof.CrashP Proof.CrashT Proof.Cells Proof.DropsL Proof.DropsR Proof.DropsP Proof.DropsT
  Proof.OrdersL Proof.OrdersP Proof.OrdersT.
From Verif Require Import Model.Crash Model.Orders Spec.Crash Spec.Drops Spec.Orders.
Local Arguments N.pow : simpl never.
Local Arguments N.add : simpl never.
Implicit Types (s t : slice part) (m : mapping part) (H : hist) (d : dir) (r : range) (R : list range).

Section ORDER.
Variables (lo : N) (R : list range) (H : hist) (b : db).
Variable names : list byte -> option N.
Hypothesis D0 : dinv lo R b H.
Notation Ran := (ran lo R H b).
Definition ends (p : report) : Prop :=
  rp_end p <> Endless /\ (rp_end p = Waits -> exists s, In s (slices b) /\ locked b s).
Definition sound_halt (halt : slice part -> outcome -> Prop) : Prop :=
  forall s o, halt s o -> o <> Endless /\ (o = Waits -> locked b s).
Lemma ran_ends post halt l p : sound_halt halt -> incl l (slices b) -> Ran post halt l p -> ends p.
Proof.
  intros SH I (l1 & l2 & _ & _ & -> & _ & _ & [(_ & E)|(s & l3 & -> & _ & Q)]).
  - unfold ends. rewrite E. split; congruence.
  - destruct (SH _ _ Q) as [A B]. split; auto. intros X. exists s. split; auto. apply I. apply in_app_iff. right. left. auto.
Qed.
Lemma waits_sound : sound_halt (waits b).
Proof. intros s o (-> & L). split; [discriminate|auto]. Qed.
Lemma refresh_sound to : sound_halt (refresh_halt b names to).
Proof. intros s o [W|(-> & _)]; [apply waits_sound; auto|split; discriminate]. Qed.
Lemma copy_sound ic : sound_halt (copy_halt b ic).
Proof. intros s o [W|(-> & _)]; [apply waits_sound; auto|split; discriminate]. Qed.
Lemma ran_path post halt l p : Ran post halt l p -> path (midx lo R H b) b (rp_acts p) (rp_db p).
Proof. intros (l1 & l2 & PA & _). eapply path_impl; [|exact PA]. apply mid_midx. Qed.
Lemma midx_start : midx lo R H b b.
Proof. apply mid_midx. apply mid_start. exact D0. Qed.

Lemma holds_at id s : holds b id s -> part_slice (en_map (db_en b)) id = Some s.
Proof. intros [A B]. eapply slice_at; eauto. Qed.
Lemma holds_one id s t : holds b id s -> holds b id t -> s = t.
Proof. intros A B. apply holds_at in A, B. congruence. Qed.
Lemma single one post halt k id ie : (forall e, one b id e = with_part b id e k) -> sound_halt halt ->
  (forall s, holds b id s -> one_fine lo R H b one post halt b s id) ->
  exists p, one b id ie = Ok p /\ path (midx lo R H b) b (rp_acts p) (rp_db p) /\ ends p /\
    ((exists s, holds b id s /\ Ran post halt [s] p) \/
     (forall s, ~ holds b id s) /\ missing b (rp_db p) ie (rp_end p)).
Proof.
  intros EO SH OF. pose proof (part_slice_spec lo _ id (mi_map _ _ (dinv_map _ _ _ _ D0))) as PS.
  destruct (part_slice (en_map (db_en b)) id) as [s|] eqn:Es.
  - assert (Hh : holds b id s) by exact PS.
    destruct (ran_one lo R H b one post halt s id ie D0 (proj1 PS) (OF s Hh)) as (p & E & RA).
    { rewrite !EO. unfold with_part. rewrite Es. auto. }
    exists p. split; auto. split; [eapply ran_path; eauto|]. split; [|left; eauto].
    eapply ran_ends; eauto. intros t [<-|[]]. apply PS.
  - exists (mk_report [] b (if ie then Done else Failed)). split; [rewrite EO; unfold with_part; rewrite Es; auto|]. cbn [rp_acts rp_db rp_end].
    split; [constructor; apply midx_start|]. split.
    + unfold ends. cbn [rp_end]. destruct ie; split; discriminate.
    + right. split; [|split; auto]. intros s Hs. apply holds_at in Hs. congruence.
Qed.
Lemma single_does id ie p (post : slice part -> db -> Prop) halt (X : slice part -> Prop) :
  ((exists s, holds b id s /\ Ran post halt [s] p) \/ (forall s, ~ holds b id s) /\ missing b (rp_db p) ie (rp_end p)) ->
  (forall s, holds b id s -> Ran post halt [s] p -> X s) -> at_one b (rp_db p) id ie (rp_end p) X.
Proof.
  intros [(s & Hs & RA)|(N & M)] F; split.
  - intros t Ht. rewrite <- (holds_one id s t Hs Ht). auto.
  - intros N. elim (N s Hs).
  - intros s Hs. elim (N s Hs).
  - auto.
Qed.
Lemma visited_incl mn mx : incl (visited b mn mx) (slices b).
Proof. intros s Hs. unfold visited in Hs. destruct (existsb _ _); [destruct Hs|]. apply filter_In in Hs. tauto. Qed.
Lemma several one (fits : slice part -> Prop) post halt mn mx : window lo mn -> sound_halt halt ->
  (forall b' s id, mid lo R H b b' -> calls b b' -> kept b s b' -> fits s -> in_range id (range_of s) -> one_fine lo R H b one post halt b' s id) ->
  (forall s b1 b2 n, post s b1 -> frame b1 b2 n -> s_min s <> n -> incl (places b2) (places b1) -> post s b2) ->
  (forall s, In s (visited b mn mx) -> fits s) ->
  exists p, order_range one b mn mx = Ok p /\ path (midx lo R H b) b (rp_acts p) (rp_db p) /\ ends p /\ Ran post halt (visited b mn mx) p.
Proof.
  intros W SH OF PF FI.
  destruct (range_run lo R H b one fits post halt OF PF b mn mx eq_refl D0 W FI) as (p & l1 & l2 & E & PA & CA & EV & PO & KE & Q).
  assert (RA : Ran post halt (visited b mn mx) p) by (exists l1, l2; auto 10).
  exists p. split; auto. split; [eapply ran_path; eauto|]. split; auto. eapply ran_ends; eauto. apply visited_incl.
Qed.

Lemma create_run mn mx : dop_fine lo R b (CCreate mn mx) ->
  exists p, order names b (CmdCreate mn mx) = Ok p /\ path (midx lo R H b) b (rp_acts p) (rp_db p) /\ ends p /\
    does names b (CmdCreate mn mx) (rp_db p) (rp_end p).
Proof.
  intros Hf. cbn [order does]. pose proof (dstep_spec lo R b H (CCreate mn mx) D0 Hf) as X.
  pose proof (mi_map _ _ (dinv_map _ _ _ _ D0)) as G.
  destruct (N.ltb_spec mx mn) as [L|L].
  - assert (E : cstep b (CCreate mn mx) = Err). { cbn [cstep]. unfold engine_fill. rewrite (proj2 (N.ltb_lt mx mn) L). auto. }
    rewrite E. exists (mk_report [] b Failed). split; auto. cbn [rp_acts rp_db rp_end]. split; [constructor; apply midx_start|].
    split; [split; discriminate|]. split; [auto|lia].
  - destruct (Hf L) as (N1 & N2 & N3). pose proof (bi_iv _ _ _ (dv_b _ _ _ _ D0)) as Hiv. cbn [quiet with_log db_en] in Hiv.
    destruct (fill_spec_more part_new lo (en_map (db_en b)) mn mx G N1 L) as (m & new & F1 & F2 & F3 & F4 & F5 & F6).
    cbn [cstep] in *. rewrite F1 in *. cbn [bind] in *. destruct X as (H' & D' & EH). cbn [dropped app] in D'.
    set (b' := with_en b (with_map (db_en b) m)) in *.
    assert (PL : forall r, In r (places b') <-> In r (places b) \/ r = (mn, mx)).
    { assert (KEEP : forall r, In r (places b) -> In r (places b')).
      { intros r Hr. unfold places, ranges in *. apply in_map_iff in Hr as (s & <- & Hs). apply in_map. cbn [b' with_en with_map db_en en_map].
        eapply Permutation_in; [symmetry; exact F3|]. apply in_app_iff. auto. }
      intros r. split.
      - intros Hr. pose proof N1 as N1'. rewrite N2 in N1'.
        destruct (fill_rgrow lo (en_map (db_en b)) _ mn G (proj1 Hiv) N1' (dv_cells _ _ _ _ D0) m) with (r := r) as [|(id & [<-|[]] & ->)]; auto.
        { rewrite <- N2. exact F1. }
      - intros [Hr| ->]; auto. destruct (F5 mn) as (r & Hr & Hin); [lia|].
        assert (r = (mn, mx)); [|subst; exact Hr]. rewrite N2.
        apply (cell_in (en_interval (db_en b)) r mn); auto; [lia|]. pose proof (dv_cells _ _ _ _ D') as C.
        unfold cells in C. rewrite Forall_forall in C. apply C. exact Hr. }
    assert (VN : vanished b b' = []).
    { destruct (vanished b b') as [|r l] eqn:E; auto. exfalso. assert (Y : In r (vanished b b')) by (rewrite E; left; auto).
      apply vanished_in in Y as [Y1 Y2]. apply Y2. apply PL. auto. }
    assert (M : midx lo R H b b').
    { exists H'. rewrite VN. split; auto. }
    eexists. split; [reflexivity|]. cbn [rp_acts rp_db rp_end]. split.
    { econstructor; [apply midx_start| |constructor; exact M]. cbn [astep cstep]. rewrite F1. auto. }
    split; [split; discriminate|]. split; [lia|]. intros _. split; auto. split; auto.
    intros e. rewrite (mid_sees lo R H b b' D0 M), VN. cbn. tauto.
Qed.

Lemma order_run c : order_fine names lo R b c ->
  exists p, order names b c = Ok p /\ path (midx lo R H b) b (rp_acts p) (rp_db p) /\ ends p /\
    (db_jobs b = [] -> does names b c (rp_db p) (rp_end p)).
Proof.
  assert (NO : forall c', does names b c' b Done = (b = b /\ Done = Done) -> order names b c' = nothing b Done ->
    exists p, order names b c' = Ok p /\ path (midx lo R H b) b (rp_acts p) (rp_db p) /\ ends p /\
      (db_jobs b = [] -> does names b c' (rp_db p) (rp_end p))).
  { intros c' E1 E2. exists (mk_report [] b Done). split; auto. cbn [rp_acts rp_db rp_end]. split; [constructor; apply midx_start|].
    split; [split; discriminate|]. rewrite E1. auto. }
  pose proof (mid_start _ _ _ _ D0) as M0. pose proof (calls_start b) as C0.
  assert (K0 : forall id s, holds b id s -> kept b s b) by (intros id s [A _]; apply kept_refl; auto).
  assert (PF : forall to s b1 b2 n, refresh_post b names to s b1 -> frame b1 b2 n -> s_min s <> n -> incl (places b2) (places b1) -> refresh_post b names to s b2).
  { intros to s b1 b2 n P F Hn _. unfold refresh_post in *. destruct (target b names to s); auto. destruct (skipped b names to s).
    - eapply kept_frame; eauto.
    - eapply filed_frame; eauto. }
  assert (S1 : forall to id ie, (match to with Some nm => known names b nm | None => True end) ->
      (forall s, holds b id s -> locked b s \/ ready b s) ->
      exists p, order_refresh names to b id ie = Ok p /\ path (midx lo R H b) b (rp_acts p) (rp_db p) /\ ends p /\
       ((exists s, holds b id s /\ Ran (refresh_post b names to) (refresh_halt b names to) [s] p) \/
        (forall s, ~ holds b id s) /\ missing b (rp_db p) ie (rp_end p))).
  { intros to id ie KN RD. eapply single; [intros e; reflexivity|apply refresh_sound|].
    intros s Hs. apply refresh_fine; auto; [eapply K0; eauto|apply Hs]. }
  assert (S2 : forall to mn mx, window lo mn -> (match to with Some nm => known names b nm | None => True end) ->
      (forall s, In s (visited b mn mx) -> locked b s \/ ready b s) ->
      exists p, order_range (order_refresh names to) b mn mx = Ok p /\ path (midx lo R H b) b (rp_acts p) (rp_db p) /\ ends p /\
        Ran (refresh_post b names to) (refresh_halt b names to) (visited b mn mx) p).
  { intros to mn mx W KN RD. apply (several _ (fun s => locked b s \/ ready b s)); auto; [apply refresh_sound| |apply PF].
    intros b' s id M C K F Hr. apply refresh_fine; auto. }
  assert (S3 : forall ic id ie, exists p, order_copy ic b id ie = Ok p /\ path (midx lo R H b) b (rp_acts p) (rp_db p) /\ ends p /\
       (db_jobs b = [] -> at_one b (rp_db p) id ie (rp_end p) (fun s => does_copy b (rp_db p) [s] ic (rp_end p)))).
  { intros ic id ie. destruct (single (order_copy ic) (fun _ _ => ic = true) (copy_halt b ic) (fun _ => nothing b (if ic then Done else Failed)) id ie)
      as (p & E & PA & EN & Q); [intros e; reflexivity|apply copy_sound| |].
    - intros s Hs. apply copy_fine; auto; [eapply K0; eauto|apply Hs].
    - exists p. split; auto. split; auto. split; auto. intros J. eapply single_does; [exact Q|]. intros s Hs RA.
      eapply copy_does; eauto. apply (idle_copy ic b id ie p E). }
  assert (S4 : forall ic mn mx, window lo mn -> exists p, order_range (order_copy ic) b mn mx = Ok p /\
       path (midx lo R H b) b (rp_acts p) (rp_db p) /\ ends p /\
       (db_jobs b = [] -> does_copy b (rp_db p) (visited b mn mx) ic (rp_end p))).
  { intros ic mn mx W. destruct (several (order_copy ic) (fun _ => True) (fun _ _ => ic = true) (copy_halt b ic) mn mx W (copy_sound ic))
      as (p & E & PA & EN & Q); auto.
    - intros b' s id M C K _ Hr. apply copy_fine; auto.
    - exists p. split; auto. split; auto. split; auto. intros J. eapply copy_does; eauto.
      eapply idle_loop; [apply idle_copy|exact E]. }
  destruct c as [| | | | | | |mn mx|id ie mask|mn mx mask|id ie nm|mn mx nm|id ie|mn mx|id ie ic|mn mx ic|id ie ic|mn mx ic]; cbn [order_fine]; try (intros _; apply NO; reflexivity).
  - intros Hf. destruct (create_run mn mx Hf) as (p & E & PA & EN & DO). exists p. auto.
  - intros (W & Hm & HL & NF). cbn [order does]. destruct Hm as [-> | ->].
    + destruct (single (order_drop 9) drop_post (waits b) (fun s => if (9 =? N.lor ID ID_CLOUD)%N then perform b [Do (CDrop id)]
        else if has 9 ID then perform b [Offload id] else nothing b Done) id ie)
        as (p & E & PA & EN & Q); [intros e; reflexivity|apply waits_sound| |].
      * intros s Hs. apply drop_fine; auto; [eapply K0; eauto|apply Hs].
      * exists p. split; auto. split; auto. split; auto. intros J. eapply single_does; [exact Q|]. intros s Hs RA.
        eapply drop_does; eauto. intros t [<-|[]]. apply Hs.
    + destruct (single (order_drop 8) (fun _ _ => True) (waits b) (fun s => if (8 =? N.lor ID ID_CLOUD)%N then perform b [Do (CDrop id)]
        else if has 8 ID then perform b [Offload id] else nothing b Done) id ie)
        as (p & E & PA & EN & Q); [intros e; reflexivity|apply waits_sound| |].
      * intros s Hs. apply offline_fine; auto; [eapply K0; eauto|apply Hs].
      * exists p. split; auto. split; auto. split; auto. intros J. eapply single_does; [exact Q|]. intros s Hs RA.
        eapply off_does; eauto. apply (idle_off b id ie p E).
  - intros (W & Hm & HL & NF). cbn [order does]. destruct Hm as [-> | ->].
    + destruct (several (order_drop 9) (fun s => locked b s \/ ~ leftover b (s_min s)) drop_post (waits b) mn mx W waits_sound)
        as (p & E & PA & EN & Q); auto.
      * intros b' s id M C K NF' Hr. apply drop_fine; auto. destruct C as (_ & _ & C). destruct K as (K & _).
        destruct (slices b') as [|x l]; [destruct K|]. cbn [length] in C. lia.
      * intros s b1 b2 n P _ _ I X. apply P. apply I. exact X.
      * exists p. split; auto. split; auto. split; auto. intros J. eapply drop_does; eauto. apply visited_incl.
    + destruct (several (order_drop 8) (fun s => True) (fun _ _ => True) (waits b) mn mx W waits_sound)
        as (p & E & PA & EN & Q); auto.
      * intros b' s id M C K _ Hr. apply offline_fine; auto.
      * exists p. split; auto. split; auto. split; auto. intros J. eapply off_does; eauto.
        eapply idle_loop; [apply idle_off|exact E].
  - intros (W & KN & RD). cbn [order does]. destruct (S1 (Some nm) id ie KN RD) as (p & E & PA & EN & Q).
    exists p. split; auto. split; auto. split; auto. intros J. eapply single_does; [exact Q|]. intros s Hs RA.
    assert (I : incl [s] (slices b)) by (intros t [<-|[]]; apply Hs).
    destruct (names nm) as [st|] eqn:En; [eapply move_does; eauto|]. eapply unknown_does; eauto.
    apply (idle_unknown names nm En b id ie p E).
  - intros (W & KN & RD). cbn [order does]. destruct (S2 (Some nm) mn mx W KN RD) as (p & E & PA & EN & Q).
    exists p. split; auto. split; auto. split; auto. intros J. pose proof (visited_incl mn mx) as I.
    destruct (names nm) as [st|] eqn:En; [eapply move_does; eauto|]. eapply unknown_does; eauto.
    eapply idle_loop; [apply (idle_unknown names nm En)|exact E].
  - intros (W & RD). cbn [order does]. destruct (S1 None id ie Logic.I RD) as (p & E & PA & EN & Q).
    exists p. split; auto. split; auto. split; auto. intros J. eapply single_does; [exact Q|]. intros s Hs RA.
    eapply refresh_does; eauto. intros t [<-|[]]; apply Hs.
  - intros (W & RD). cbn [order does]. destruct (S2 None mn mx W Logic.I RD) as (p & E & PA & EN & Q).
    exists p. split; auto. split; auto. split; auto. intros J. eapply refresh_does; eauto. apply visited_incl.
  - intros W. cbn [order does]. apply S3.
  - intros W. cbn [order does]. apply S4; auto.
  - intros W. cbn [order does]. apply S3.
  - intros W. cbn [order does]. apply S4; auto.
Qed.
End ORDER.

(* --- texts --- *)
Section TEXT.
Variable names : list byte -> option N.
Variable strtod : list byte -> option (N * nat).
Variable e : env.
Lemma tokens_same x ts us : tokens strtod x ts -> tokens strtod x us -> ts = us.
Proof. intros A B. apply tokens_rawl in A, B. apply (rawl_fun strtod x); assumption. Qed.
Lemma tell_run lo R H b text : dinv lo R b H -> text_fine names strtod e lo R b text ->
  exists p, tell names strtod e b text = Ok p /\ path (midx lo R H b) b (rp_acts p) (rp_db p) /\ ends b p /\
    forall ts, tokens strtod text ts ->
      (forall c, sentence (env_at e b) (with_units ts) (Some c) -> db_jobs b = [] -> does names b c (rp_db p) (rp_end p)) /\
      (sentence (env_at e b) (with_units ts) None -> rp_db p = b /\ rp_end p = Done) /\
      ((forall c, ~ sentence (env_at e b) (with_units ts) c) -> rp_db p = b /\ rp_end p = Failed).
Proof.
  intros D (ts & T & NC & HF). unfold tell.
  assert (NU : parse strtod (env_at e b) text <> UB).
  { destruct NC as [[c S]|[NC ND]]; [|apply (safe_text strtod (env_at e b) text ts T NC ND)].
    assert (Y : parse strtod (env_at e b) text = Ok c) by (apply accepts; eauto). congruence. }
  destruct (parse strtod (env_at e b) text) as [o| |] eqn:E; [| |congruence].
  - apply accepts in E as E'. destruct E' as (us & T1 & S1).
    assert (ts = us /\ o = o) as [<- _].
    { split; auto. pose proof T as T'. apply (tokens_same text); auto. }
    destruct o as [c|].
    + destruct (order_run lo R H b names D c (HF c S1)) as (p & EO & PA & EN & DO). exists p. split; auto. split; auto. split; auto.
      intros us T2. rewrite (tokens_same text us ts T2 T). split; [|split].
      * intros c' S2. destruct (one_meaning strtod (env_at e b) text _ _ _ _ T S1 T S2) as [_ X]. injection X as <-. auto.
      * intros S2. destruct (one_meaning strtod (env_at e b) text _ _ _ _ T S1 T S2) as [_ X]. discriminate.
      * intros NS. elim (NS _ S1).
    + exists (mk_report [] b Done). split; auto. cbn [rp_acts rp_db rp_end]. split; [constructor; apply midx_start; auto|].
      split; [split; discriminate|]. intros us T2. rewrite (tokens_same text us ts T2 T). split; [|split; auto].
      * intros c' S2. destruct (one_meaning strtod (env_at e b) text _ _ _ _ T S1 T S2) as [_ X]. discriminate.
      * intros NS. elim (NS _ S1).
  - assert (NS : forall us c, tokens strtod text us -> ~ sentence (env_at e b) (with_units us) c).
    { intros us c T2 S2. assert (Y : parse strtod (env_at e b) text = Ok c) by (apply accepts; eauto). congruence. }
    exists (mk_report [] b Failed). split; auto. cbn [rp_acts rp_db rp_end]. split; [constructor; apply midx_start; auto|].
    split; [split; discriminate|]. intros us T2. split; [|split; auto].
    + intros c S2. elim (NS us _ T2 S2).
    + intros S2. elim (NS us _ T2 S2).
Qed.

(* --- histories --- *)
Lemma hstep_run lo R H b x : dinv lo R b H -> hop_fine names strtod e lo R b x ->
  exists b' H', hstep names strtod e b x = Ok b' /\ dinv lo (lost names strtod e b x ++ R) b' H' /\
    map snd H' = filter (fun x' => negb (gone (lost names strtod e b x) (ev_id x'))) (ack b x (map snd H)).
Proof.
  intros D Hf. destruct x as [text|text n cuts|o]; cbn [hop_fine ack] in *.
  - destruct (tell_run lo R H b text D Hf) as (p & E & PA & _). destruct (path_end _ _ _ _ PA) as (H' & D' & EH).
    exists (rp_db p), H'. assert (EE : hstep names strtod e b (Say text) = Ok (rp_db p)) by (cbn [hstep]; rewrite E; auto).
    split; auto. unfold lost. rewrite EE. split; auto.
  - destruct Hf as [Hf HC]. destruct (tell_run lo R H b text D Hf) as (p & E & PA & _).
    destruct (path_prefix _ _ _ _ PA n) as (b1 & E1 & (H1 & D1 & EH1)).
    assert (ES : stopped names strtod e b text n = Ok b1) by (unfold stopped; rewrite E; auto). rewrite ES in HC.
    destruct (dcrash_same lo _ b1 H1 cuts D1 HC) as (b' & EC & D' & _).
    exists b', H1. unfold lost. rewrite ES. split; auto. cbn [hstep]. rewrite E. cbn [bind]. rewrite E1. cbn [bind]. exact EC.
  - pose proof (dstep_spec lo R b H o D Hf) as X. unfold lost. cbn [hstep]. destruct (cstep b o) as [b'| |] eqn:E; [| |contradiction].
    + destruct X as (H' & D' & EH). exists b', H'. auto.
    + destruct X as [X1 X2]. rewrite X1. exists b, H. split; auto. split; auto. rewrite X2. symmetry. apply filter_none.
Qed.
Lemma told_run lo : forall l R b H, dinv lo R b H -> told_fine names strtod e lo R b l ->
  exists b' H', hrun names strtod e b l = Ok b' /\ dinv lo (all_lost names strtod e R b l) b' H' /\
    map snd H' = told_acked names strtod e b l (map snd H).
Proof.
  induction l as [|x l IH]; intros R b H D Hf; cbn [hrun all_lost told_acked told_fine] in *; [exists b, H; auto|].
  destruct Hf as [F1 F2]. destruct (hstep_run lo R H b x D F1) as (b' & H' & E & D' & EH). rewrite E in *. cbn [bind].
  destruct (IH _ b' H' D' F2) as (b2 & H2 & E2 & D2 & EH2). exists b2, H2. rewrite <- EH. auto.
Qed.
Lemma treach_inv lo R b h : treachable names strtod e lo R b h -> exists H, dinv lo R b H /\ map snd H = h.
Proof.
  intros (sts & iv & serial & page & region & ops & [L1 L2] & SO & CF & E & -> & ->).
  destruct (told_run lo ops [] (db_new sts iv serial page region) [] (dinv_new lo sts iv serial page region L1 L2 SO) CF)
    as (b' & H' & E' & B & EH).
  assert (b' = b) by congruence. subst. eauto.
Qed.
End TEXT.

Lemma told_history : forall names strtod e lo storages iv serial page region ops, limits lo iv -> storages_ok storages ->
  told_fine names strtod e lo [] (db_new storages iv serial page region) ops ->
  exists b, hrun names strtod e (db_new storages iv serial page region) ops = Ok b /\
    (forall x, sees b x <-> current (told_acked names strtod e (db_new storages iv serial page region) ops []) x) /\
    forall key, start_fine lo key ->
    exists out n, (forall fuel, n < fuel -> monotone_scan fuel (en_map (db_en b)) key = Ok (Some out)) /\
      ascending out /\
      forall x, In x out <-> current (told_acked names strtod e (db_new storages iv serial page region) ops []) x /\ from key x.
Proof.
  intros names strtod e lo sts iv serial page region ops [L1 L2] SO CF.
  destruct (told_run names strtod e lo ops [] (db_new sts iv serial page region) [] (dinv_new lo sts iv serial page region L1 L2 SO) CF)
    as (b & H & E & B & EH). cbn [map] in EH. exists b. split; auto.
  assert (V : forall x, sees b x <-> current (told_acked names strtod e (db_new sts iv serial page region) ops []) x).
  { intros x. rewrite <- EH. eapply dsees; eauto. }
  split; auto. intros key Hk. destruct (scan_engine lo (en_map (db_en b)) key) as (out & n & H1 & H2 & H3).
  - exact (bi_map _ _ _ (dv_b _ _ _ _ B)).
  - destruct key as [k|]; auto. destruct Hk as (A1 & A2 & A3). split; [split; auto|].
    intros s _. apply past_keys_keyless; auto.
  - exists out, n. split; auto. split; auto. intros x. rewrite H3.
    fold (parts (db_en b)). fold (sees b x). rewrite V. tauto.
Qed.

Lemma told_means : forall names strtod e lo R b h text ts, treachable names strtod e lo R b h -> text_fine names strtod e lo R b text ->
  tokens strtod text ts ->
  exists p, tell names strtod e b text = Ok p /\ rp_end p <> Endless /\
    (rp_end p = Waits -> exists s, In s (slices b) /\ locked b s) /\
    (forall c, sentence (env_at e b) (with_units ts) (Some c) -> db_jobs b = [] -> does names b c (rp_db p) (rp_end p)) /\
    (sentence (env_at e b) (with_units ts) None -> rp_db p = b /\ rp_end p = Done) /\
    ((forall c, ~ sentence (env_at e b) (with_units ts) c) -> rp_db p = b /\ rp_end p = Failed).
Proof.
  intros names strtod e lo R b h text ts TR TF T. destruct (treach_inv _ _ _ _ _ _ _ TR) as (H & D & _).
  destruct (tell_run names strtod e lo R H b text D TF) as (p & E & _ & [EN1 EN2] & Q). exists p. split; [exact E|]. split; [exact EN1|]. split; [exact EN2|]. exact (Q ts T).
Qed.

Lemma told_stop : forall names strtod e lo R b h text n cuts, treachable names strtod e lo R b h ->
  hop_fine names strtod e lo R b (SayStop text n cuts) ->
  exists b1 b2, stopped names strtod e b text n = Ok b1 /\ hstep names strtod e b (SayStop text n cuts) = Ok b2 /\
    tidy (db_dir b2) /\
    (forall x, sees b1 x <-> sees b x /\ gone (vanished b b1) (ev_id x) = false) /\
    (forall x, sees b2 x <-> sees b1 x).
Proof.
  intros names strtod e lo R b h text n cuts TR [TF HC]. destruct (treach_inv _ _ _ _ _ _ _ TR) as (H & D & _).
  destruct (tell_run names strtod e lo R H b text D TF) as (p & E & PA & _).
  destruct (path_prefix _ _ _ _ PA n) as (b1 & E1 & M1). pose proof M1 as (H1 & D1 & EH1).
  assert (ES : stopped names strtod e b text n = Ok b1) by (unfold stopped; rewrite E; auto). rewrite ES in HC.
  destruct (dcrash_same lo _ b1 H1 cuts D1 HC) as (b' & EC & D' & TD).
  exists b1, b'. split; auto. split; [cbn [hstep]; rewrite E; cbn [bind]; rewrite E1; exact EC|]. split; auto.
  split; [apply (mid_sees lo R H); auto|]. intros x. rewrite (dsees lo _ b' H1 x D'), (dsees lo _ b1 H1 x D1). tauto.
Qed.
