(* Refused batches over memory tables of any number of pages. *)
From Coq Require Import NArith ZArith List Bool Sorted Lia Arith Permutation.
Import ListNotations.
From Verif Require Import Model.Base Model.Event Model.Rbtree Model.Memtable Model.Mapping Model.Merge
  Model.PartIter Model.Scan Model.Engine Spec.Order Spec.Merged Spec.Files
  Spec.Layout Spec.Regions Spec.View Spec.Engine Spec.Grow Proof.OrderL Proof.RbtreeL
  Proof.MemtableL Proof.MemtableL2 Proof.MappingL Proof.EngineL Proof.EngineW Proof.EngineR
  Proof.EngineP Proof.MemtableX Proof.EngineX Proof.GrowL Proof.GrowS Proof.GrowX.
Local Arguments N.pow : simpl never.
Local Arguments N.add : simpl never.
Local Arguments engine_write : simpl never.
Implicit Types (s : slice part) (m : mapping part).

Lemma try_scan : forall lo iv serial page region ops, limits lo iv -> (lo + 2^31 < 2^63)%N ->
  try_hist lo (engine_new iv serial page region) ops ->
  exists en, erun (engine_new iv serial page region) ops = Ok en /\
    exists out n, (forall fuel, n < fuel -> monotone_scan fuel (en_map en) None = Ok (Some out)) /\
      ascending out /\
      forall e, In e out <-> current (acked (engine_new iv serial page region) ops []) e.
Proof. intros. apply (g_scan_all false lo); auto using try_g. Qed.

Lemma one_small lo t : g_tab false lo t -> (mt_count_pages t <= 1)%N -> length (mt_events t) <= MEMTABLE_PAGE.
Proof.
  intros [T0 _ _ _ T4 _] H. pose proof (ap_count_pages _ _ T0) as Hc.
  pose proof (ap_pages _ _ T0) as Hp. unfold pages_ok in Hp. unfold mt_events.
  destruct (elements (mt_tree t)) as [|pg [|pg2 l]]; cbn [length] in Hc; [simpl; lia| |lia].
  inversion Hp as [|? ? [_ P] _]; subst. cbn [flat_map]. rewrite app_nil_r. lia.
Qed.

Lemma try_keyed : forall lo iv serial page region ops, limits lo iv ->
  try_hist lo (engine_new iv serial page region) ops ->
  exists en, erun (engine_new iv serial page region) ops = Ok en /\
    forall key, start_fine lo key -> one_page en ->
    exists out n, (forall fuel, n < fuel -> monotone_scan fuel (en_map en) key = Ok (Some out)) /\
      ascending out /\
      forall e, In e out <-> current (acked (engine_new iv serial page region) ops []) e /\ from key e.
Proof.
  intros lo iv serial page region ops Hl Hf.
  destruct (g_scan_keyed false lo iv serial page region ops Hl (try_g _ _ _ Hf)) as (en & E & K).
  destruct (g_reached false lo iv serial page region ops Hl (try_g _ _ _ Hf)) as (en2 & E2 & I).
  rewrite E in E2. inversion E2; subst en2.
  exists en. split; auto. intros key Hk Ho.
  assert (Hp : forall p, In p (parts en) -> g_tab false lo (pt_mem p) /\ g_tab false lo (pt_prev p)).
  { intros p Hp. unfold parts in Hp. apply in_map_iff in Hp as (s & <- & Hs).
    pose proof (g_mi_parts _ _ _ (g_ei_map _ _ _ _ I)) as F. rewrite Forall_forall in F.
    destruct (F s Hs) as [F1 F2 _ _]. auto. }
  apply K; auto.
  - intros p Hin. destruct (Ho p Hin), (Hp p Hin). split; eapply one_small; eauto.
  - intros p Hin. destruct (Ho p Hin). split; intros _; auto.
Qed.

Lemma g_hist_app b lo : forall l1 l2 en, g_hist b lo en (l1 ++ l2) -> g_hist b lo en l1 /\
  forall en', erun en l1 = Ok en' -> g_hist b lo en' l2.
Proof.
  induction l1 as [|o l1 IH]; intros l2 en H; cbn [app g_hist erun] in *.
  - split; auto. intros en' E. inversion E; subst. auto.
  - destruct H as [H1 H2]. destruct (estep en o) as [e1| |]; destruct (IH _ _ H2) as [A B]; split; auto.
    intros en' E. discriminate.
Qed.

Lemma refused_kept : forall lo iv serial page region ops l logged, limits lo iv -> (lo + 2^31 < 2^63)%N ->
  try_hist lo (engine_new iv serial page region) (ops ++ [EWrite l logged]) ->
  exists en, erun (engine_new iv serial page region) ops = Ok en /\
    (exists en' r, engine_write en l logged = Ok (en', r)) /\
    forall en', engine_write en l logged = Ok (en', None) ->
      same_data en en' /\
      exists out n, forall fuel, n < fuel ->
        monotone_scan fuel (en_map en) None = Ok (Some out) /\
        monotone_scan fuel (en_map en') None = Ok (Some out).
Proof.
  intros lo iv serial page region ops l logged Hl H63 Hf. apply try_g in Hf.
  destruct (g_hist_app _ _ _ _ _ Hf) as [Hf1 Hf2].
  destruct (g_reached false lo iv serial page region ops Hl Hf1) as (en & E & I). exists en. split; auto.
  destruct (Hf2 en E) as [(Hm & Hk & He & Hr) _]. pose proof I as [GI GV GL].
  destruct (g_write_spec false lo en l logged GI GV Hm He (gfits_of false _ _ Hr)) as [(m & W & _)|(_ & m & ssn & W & I' & HE)]; auto.
  { discriminate. }
  { split; [eauto|]. intros en' X. congruence. }
  split; [eauto|]. intros en' X. rewrite W in X. inversion X; subst en'.
  split; [eapply ext_same; eauto|].
  destruct (g_scan_engine false lo (en_map en) None GI H63) as (out & n & H1 & H2 & H3).
  destruct (g_scan_engine false lo m None I' H63) as (out' & n' & H1' & H2' & H3').
  assert (out' = out).
  { apply ascending_same; auto. intros e. rewrite H3, H3', !(g_visible_look false lo) by auto.
    rewrite (g_ext_look false lo (en_map en) m e) by auto. tauto. }
  subst out'. exists out, (n + n'). intros fuel Hfu. cbn [en_map]. split; [apply H1|apply H1']; lia.
Qed.

(* --- a checker --- *)
Definition fits_pagesb m (l : list event) : bool :=
  (((length l <=? MEMTABLE_PAGE)%nat || ascb l) &&
   forallb (fun s => ((mt_count_pages (pt_mem (s_data s)) <=? 1)%N &&
                      (length (mt_events (pt_mem (s_data s))) + length l <=? MEMTABLE_PAGE)%nat) ||
     (ascb l && forallb (fun e => negb (slice_in s (ev_id e)) ||
        forallb (fun x => match ev_cmp x e with Lt => true | _ => false end) (mt_events (pt_mem (s_data s)))) l))
     (mapping_list m))%bool.
Lemma fits_pagesb_ok m l : fits_pagesb m l = true -> fits_pages m l.
Proof.
  unfold fits_pagesb, fits_pages. intros H. bools. split.
  - apply orb_true_iff in H as [H|H]; [left; apply Nat.leb_le; auto|right; apply ascb_ok; auto].
  - rewrite forallb_forall in H0. intros s Hs. specialize (H0 s Hs).
    apply orb_true_iff in H0 as [H0|H0]; [left|right].
    + apply andb_true_iff in H0 as [A B]. split; [apply N.leb_le; auto|apply Nat.leb_le; auto].
    + bools. split; [apply ascb_ok; auto|]. intros e He Hr. rewrite forallb_forall in H1. specialize (H1 e He).
      apply in_slice in Hr. rewrite Hr in H1. cbn [negb orb] in H1. rewrite forallb_forall in H1.
      apply Forall_forall. intros x Hx. specialize (H1 x Hx). unfold ev_lt. destruct (ev_cmp x e); auto; discriminate.
Qed.
Definition try_opb (lo : N) (en : engine) (o : eop) : bool :=
  match o with
  | EWrite l _ =>
      (forallb (fun a => match wa_mem a with MemOk => true | _ => false end) l &&
       match l with a :: _ => (length (ev_key (wa_event a)) <=? 255)%nat | [] => false end &&
       forallb (event_fineb lo en) (assigned (en_serial en) (en_ssn en) l) &&
       fits_pagesb (en_map en) (assigned (en_serial en) (en_ssn en) l))%bool
  | _ => op_fineb lo en o
  end.
Lemma try_opb_ok lo en o : try_opb lo en o = true -> try_op lo en o.
Proof.
  destruct o as [l logged| | | | | |]; try exact (op_fineb_ok lo en _). cbn [try_opb try_op]. intros H.
  bools. split; [|split; [|split]].
  - rewrite forallb_forall in H. apply Forall_forall. intros a Ha. specialize (H a Ha). destruct (wa_mem a); auto; discriminate.
  - destruct l as [|a t]; [discriminate|]. exists a, t. split; auto. apply Nat.leb_le; auto.
  - rewrite forallb_forall in H1. apply Forall_forall. intros a Ha. apply event_fineb_ok; auto.
  - apply fits_pagesb_ok; auto.
Qed.
Fixpoint try_histb (lo : N) (en : engine) (l : list eop) : bool :=
  match l with
  | [] => true
  | o :: t => (try_opb lo en o && match estep en o with
                                  | Ok en' => try_histb lo en' t
                                  | _ => try_histb lo en t
                                  end)%bool
  end.
Lemma try_histb_ok lo : forall l en, try_histb lo en l = true -> try_hist lo en l.
Proof.
  induction l as [|o l IH]; intros en H; cbn [try_histb try_hist] in *; auto. bools.
  split; [apply try_opb_ok; auto|]. destruct (estep en o); auto.
Qed.

(* 514 events in order, 310 that the log refuses, in two partitions, some of these again, a batch with a
   key that is too long, a refresh and a late event *)
Definition long_key : event := mk_event 9000 0 (repeat 1%N 256) [].
Definition try_ops : list eop :=
  [put (ids 1000 514); refused (ids 4700 310); put (ids 4700 20);
   put (ids 4900 20 ++ [long_key]); put (ids 4900 3)].
Definition try_last : list warg := map (fun e => mk_warg e MemOk) (ids 4990 30).
Lemma try_ops_fine : limits 0 5000 /\ (0 + 2^31 < 2^63)%N /\
  try_hist 0 en1 (try_ops ++ [EWrite try_last false]).
Proof.
  split; [split; [vm_compute; discriminate|split; vm_compute; [reflexivity|discriminate]]|].
  split; [vm_compute; reflexivity|]. apply try_histb_ok. vm_compute. reflexivity.
Qed.
Lemma try_ops_refused : length (acked en1 (try_ops ++ [EWrite try_last false]) []) = N.to_nat 537.
Proof. vm_compute. reflexivity. Qed.
Definition try_fresh : list eop := try_ops ++ [ERefresh 1000 false].
Lemma try_fresh_hist : try_hist 0 en1 try_fresh.
Proof. apply try_histb_ok. vm_compute. reflexivity. Qed.
Lemma try_fresh_one : match erun en1 try_fresh with
  | Ok en => forallb (fun p => ((mt_count_pages (pt_mem p) <=? 1)%N &&
                (mt_count_pages (pt_prev p) <=? 1)%N)%bool) (parts en)
  | _ => false
  end = true.
Proof. vm_compute. reflexivity. Qed.
Lemma try_ops_one : exists ops en, try_hist 0 en1 ops /\ erun en1 ops = Ok en /\ one_page en.
Proof.
  pose proof try_fresh_hist as Hf. pose proof try_fresh_one as H. revert Hf H. generalize try_fresh.
  intros ops Hf H. destruct (erun en1 ops) as [en| |] eqn:E; [|discriminate|discriminate].
  exists ops, en. split; [exact Hf|]. split; [exact E|].
  rewrite forallb_forall in H. intros p Hp. specialize (H p Hp).
  apply andb_true_iff in H as [A B]. split; apply N.leb_le; auto.
Qed.
