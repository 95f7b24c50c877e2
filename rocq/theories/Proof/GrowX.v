(* Examples and counterexamples for memory tables of more than one page. *)
From Coq Require Import NArith ZArith List Bool Sorted Lia Arith.
Import ListNotations.
From Verif Require Import Model.Base Model.Event Model.Rbtree Model.Memtable Model.Mapping Model.Merge
  Model.PartIter Model.Scan Model.Writer Model.Codec Model.Engine Spec.Order Spec.Merged Spec.Files
  Spec.Layout Spec.Regions Spec.View Spec.Engine Spec.Grow Proof.OrderL Proof.MemtableL
  Proof.MemtableX Proof.MemtableM Proof.EngineL Proof.EngineX.
Local Arguments N.pow : simpl never.
Implicit Types (s : slice part) (m : mapping part).

Definition en1 : engine := engine_new 5000 false 4096 1000.
Definition put (l : list event) : eop := EWrite (map (fun e => mk_warg e MemOk) l) true.
Definition refused (l : list event) : eop := EWrite (map (fun e => mk_warg e MemOk) l) false.

(* --- a checker of the limits --- *)
Fixpoint ascb (l : list event) : bool :=
  match l with
  | a :: ((b :: _) as t) => (match ev_cmp a b with Lt => true | _ => false end && ascb t)%bool
  | _ => true
  end.
Lemma ascb_ok l : ascb l = true -> ascending l.
Proof.
  induction l as [|a l IH]; intros H; [constructor|]. destruct l as [|b l]; [repeat constructor|].
  cbn [ascb] in H. apply andb_true_iff in H as [H1 H2]. specialize (IH H2).
  apply ascending_cons. split; auto.
  assert (L : ev_lt a b) by (unfold ev_lt; destruct (ev_cmp a b); auto; discriminate).
  constructor; auto. apply ascending_cons in IH as [F _]. eapply Forall_impl; [|exact F].
  intros c Hc. eapply ev_lt_trans; eauto.
Qed.
Definition event_nearb (lo : N) (en : engine) (e : event) : bool :=
  (ev_okb e && winb lo e && (N.of_nat (14 + length (ev_key e) + length (ev_val e)) <=? en_page en)%N &&
   nearb lo (cell (en_interval en) (ev_id e)))%bool.
Lemma event_nearb_ok lo en e : event_nearb lo en e = true -> event_near lo en e.
Proof.
  unfold event_nearb, event_near. intros H. bools.
  split; [apply ev_okb_ok; auto|]. split; [unfold winb in *; bools; split; auto|]. split; auto.
  unfold nearb in *. bools. split; auto.
Qed.
Definition fitsb m (l : list event) : bool :=
  (((length l <=? MEMTABLE_PAGE)%nat || ascb l) &&
   forallb (fun s => (length (mt_events (pt_mem (s_data s))) + length l <=? MEMTABLE_PAGE)%nat ||
     (ascb l && forallb (fun e => negb (slice_in s (ev_id e)) ||
        forallb (fun x => match ev_cmp x e with Lt => true | _ => false end) (mt_events (pt_mem (s_data s)))) l))
     (mapping_list m))%bool.
Lemma fitsb_ok m l : fitsb m l = true -> fits m l.
Proof.
  unfold fitsb, fits. intros H. bools. split.
  - apply orb_true_iff in H as [H|H]; [left; apply Nat.leb_le; auto|right; apply ascb_ok; auto].
  - rewrite forallb_forall in H0. intros s Hs. specialize (H0 s Hs).
    apply orb_true_iff in H0 as [H0|H0]; [left; apply Nat.leb_le; auto|right]. bools.
    split; [apply ascb_ok; auto|]. intros e He Hr. rewrite forallb_forall in H1. specialize (H1 e He).
    apply in_slice in Hr. rewrite Hr in H1. cbn [negb orb] in H1. rewrite forallb_forall in H1.
    apply Forall_forall. intros x Hx. specialize (H1 x Hx). unfold ev_lt. destruct (ev_cmp x e); auto; discriminate.
Qed.
Definition load_opb (lo : N) (en : engine) (o : eop) : bool :=
  match o with
  | EWrite l logged =>
      (logged && forallb (fun a => match wa_mem a with MemOk => true | _ => false end) l &&
       forallb (fun a => (length (ev_key (wa_event a)) <=? 255)%nat) l &&
       forallb (event_nearb lo en) (assigned (en_serial en) (en_ssn en) l) &&
       fitsb (en_map en) (assigned (en_serial en) (en_ssn en) l))%bool
  | _ => op_fineb lo en o
  end.
Lemma load_opb_ok lo en o : load_opb lo en o = true -> load_op lo en o.
Proof.
  destruct o as [l logged| | | | | |]; try exact (op_fineb_ok lo en _). cbn [load_opb load_op]. intros H.
  bools. split; auto. split; [|split; [|split]].
  - rewrite forallb_forall in H3. apply Forall_forall. intros a Ha. specialize (H3 a Ha). destruct (wa_mem a); auto; discriminate.
  - rewrite forallb_forall in H2. apply Forall_forall. intros a Ha. apply Nat.leb_le; auto.
  - rewrite forallb_forall in H1. apply Forall_forall. intros a Ha. apply event_nearb_ok; auto.
  - apply fitsb_ok; auto.
Qed.
Fixpoint load_histb (lo : N) (en : engine) (l : list eop) : bool :=
  match l with
  | [] => true
  | o :: t => (load_opb lo en o && match estep en o with
                                   | Ok en' => load_histb lo en' t
                                   | _ => load_histb lo en t
                                   end)%bool
  end.
Lemma load_histb_ok lo : forall l en, load_histb lo en l = true -> load_hist lo en l.
Proof.
  induction l as [|o l IH]; intros en H; cbn [load_histb load_hist] in *; auto. bools.
  split; [apply load_opb_ok; auto|]. destruct (estep en o); auto.
Qed.

(* --- 700 events in order, a refresh that goes on while 600 more come, late ones afterwards --- *)
Definition load_ops : list eop :=
  [put (ids 1000 700); EBegin 1000; put (ids 2000 600); EApply 0; ERefresh 1000 false;
   put [vev 1100 7; vev 900 8]; put (ids 6000 300); put (ids 5500 200)].
Lemma load_ops_fine : limits 0 5000 /\ (0 + 2^31 < 2^63)%N /\ load_hist 0 en1 load_ops.
Proof.
  split; [split; [vm_compute; discriminate|split; vm_compute; [reflexivity|discriminate]]|].
  split; [vm_compute; reflexivity|]. apply load_histb_ok. vm_compute. reflexivity.
Qed.
Lemma load_ops_smallb : match erun en1 load_ops with
  | Ok en => forallb (fun p => ((length (mt_events (pt_mem p)) <=? MEMTABLE_PAGE)%nat &&
      (length (mt_events (pt_prev p)) <=? MEMTABLE_PAGE)%nat)%bool) (parts en)
  | _ => false
  end = true.
Proof. vm_compute. reflexivity. Qed.
Lemma load_ops_small : exists en, erun en1 load_ops = Ok en /\ small_tables en.
Proof.
  pose proof load_ops_smallb as H. revert H. generalize load_ops. intros ops H.
  destruct (erun en1 ops) as [en| |] eqn:E; [|discriminate|discriminate].
  exists en. split; [reflexivity|].
  rewrite forallb_forall in H. intros p Hp. specialize (H p Hp).
  apply andb_true_iff in H as [A B]. split; apply Nat.leb_le; auto.
Qed.

(* --- an ingestion in order --- *)
Definition stream_ops : list load :=
  [Batch (ids 1000 700); Batch [mk_event 1700 1 [] []]; Fresh 1000; Batch (ids 2000 600); Batch (ids 4800 700); Fresh 4900].
Lemma stream_ops_fine : limits 0 5000 /\ (0 + 2^31 < 2^63)%N /\ ascending (loaded stream_ops) /\
  Forall (event_near 0 en1) (loaded stream_ops) /\ (region_weight (loaded stream_ops) < 2^32)%N /\
  (forall id, In (Fresh id) stream_ops -> (0 <= id < 0 + 2^31)%N).
Proof.
  split; [split; [vm_compute; discriminate|split; vm_compute; [reflexivity|discriminate]]|].
  split; [vm_compute; reflexivity|]. split; [apply ascb_ok; vm_compute; reflexivity|].
  split; [|split; [vm_compute; reflexivity|]].
  - assert (H : forallb (event_nearb 0 en1) (loaded stream_ops) = true) by (vm_compute; reflexivity).
    rewrite forallb_forall in H. apply Forall_forall. intros e He. apply event_nearb_ok; auto.
  - intros id [H|[H|[H|[H|[H|[H|[]]]]]]]; inversion H; subst; split; vm_compute; congruence.
Qed.

(* --- what is lost otherwise --- *)
Definition scan_run (ops : list eop) (key : option event) : res (option (list event)) :=
  bind (erun en1 ops) (fun en => monotone_scan (N.to_nat 2000) (en_map en) key).
Definition scan_of (ops : list eop) (key : option event) : list event :=
  match scan_run ops key with Ok (Some l) => l | _ => [] end.
Definition has (e : event) (l : list event) : bool := existsb (fun x => (ev_id x =? ev_id e)%N) l.
Lemma has_not e l : has e l = false -> ~ In e l.
Proof.
  intros H Hin. unfold has in H. assert (X : existsb (fun x => (ev_id x =? ev_id e)%N) l = true).
  { apply existsb_exists. exists e. split; auto. apply N.eqb_refl. }
  congruence.
Qed.
Definition is_scan (ops : list eop) (key : option event) : bool :=
  match scan_run ops key with Ok (Some _) => true | _ => false end.
Lemma is_scan_ok ops key : is_scan ops key = true -> scan_run ops key = Ok (Some (scan_of ops key)).
Proof. unfold is_scan, scan_of. destruct (scan_run ops key) as [[l|]| |]; auto; discriminate. Qed.
Definition currentb (h : list event) (e : event) : bool :=
  match last_write h e with Some x => (negb (event_is_delete e) && (ev_id x =? ev_id e)%N)%bool | None => false end.

(* five late events: one of the 513 in order is gone *)
Definition late_ops : list eop :=
  [put (ids 1000 513); put [ev_of 5]; put [ev_of 4]; put [ev_of 3]; put [ev_of 2]; put [ev_of 1]].
Lemma late_lost : exists ops e out, acked en1 ops [] = flat_map
    (fun o => match o with EWrite l true => map wa_event l | _ => [] end) ops /\
  Forall (event_near 0 en1) (acked en1 ops []) /\
  current (acked en1 ops []) e /\ scan_run ops None = Ok (Some out) /\ ~ In e out.
Proof.
  exists late_ops, (ev_of 1510), (scan_of late_ops None).
  assert (E : acked en1 late_ops [] = flat_map
    (fun o => match o with EWrite l true => map wa_event l | _ => [] end) late_ops) by (vm_compute; reflexivity).
  split; [exact E|]. rewrite E. split; [|split].
  - assert (H : forallb (event_nearb 0 en1) (flat_map
      (fun o => match o with EWrite l true => map wa_event l | _ => [] end) late_ops) = true) by (vm_compute; reflexivity).
    rewrite forallb_forall in H. apply Forall_forall. intros e He. apply event_nearb_ok; auto.
  - split; vm_compute; reflexivity.
  - split; [apply is_scan_ok; vm_compute; reflexivity|]. apply has_not. vm_compute. reflexivity.
Qed.

(* in order, but a start in the middle *)
Definition far_ops : list eop := [put (ids 1000 520)].
Lemma start_lost : exists ops k out, load_hist 0 en1 ops /\ start_fine 0 (Some k) /\
  current (acked en1 ops []) k /\ scan_run ops (Some k) = Ok (Some out) /\ ~ In k out.
Proof.
  exists far_ops, (ev_of 1100), (scan_of far_ops (Some (ev_of 1100))).
  split; [apply load_histb_ok; vm_compute; reflexivity|].
  split; [split; [apply ev_okb_ok; vm_compute; reflexivity|split; [split; vm_compute; [discriminate|reflexivity]|reflexivity]]|].
  split; [split; vm_compute; reflexivity|].
  split; [apply is_scan_ok; vm_compute; reflexivity|]. apply has_not. vm_compute. reflexivity.
Qed.

(* a batch that was refused, over the edge of a page *)
Definition full_ops : list eop := [put (ids 1000 511)].
Definition undone_ops : list eop := full_ops ++ [refused [ev_of 1600; ev_of 1601]].
Lemma refused_seen : exists ops l k out1 out2, load_hist 0 en1 ops /\ start_fine 0 (Some k) /\
  acked en1 (ops ++ [refused l]) [] = acked en1 ops [] /\
  current (acked en1 ops []) k /\
  scan_run ops (Some k) = Ok (Some out1) /\ In k out1 /\
  scan_run (ops ++ [refused l]) (Some k) = Ok (Some out2) /\ ~ In k out2.
Proof.
  exists full_ops, [ev_of 1600; ev_of 1601], (ev_of 1100), (scan_of full_ops (Some (ev_of 1100))), (scan_of undone_ops (Some (ev_of 1100))).
  fold undone_ops.
  split; [apply load_histb_ok; vm_compute; reflexivity|].
  split; [split; [apply ev_okb_ok; vm_compute; reflexivity|split; [split; vm_compute; [discriminate|reflexivity]|reflexivity]]|].
  split; [vm_compute; reflexivity|]. split; [split; vm_compute; reflexivity|].
  split; [apply is_scan_ok; vm_compute; reflexivity|].
  split.
  { assert (H : hd_error (scan_of full_ops (Some (ev_of 1100))) = Some (ev_of 1100)) by (vm_compute; reflexivity).
    destruct (scan_of full_ops (Some (ev_of 1100))) as [|x l]; inversion H. simpl; auto. }
  split; [apply is_scan_ok; vm_compute; reflexivity|]. apply has_not. vm_compute. reflexivity.
Qed.
(* and a rewrite after it is stored a second time *)
Lemma refused_twice : exists ops l e out, load_hist 0 en1 (ops ++ [put [e]]) /\
  scan_run (ops ++ [refused l; put [e]]) None = Ok (Some out) /\
  length (filter (fun x => (ev_id x =? ev_id e)%N) out) = 2.
Proof.
  exists (put (ids 1000 510) :: []), [ev_of 1600; ev_of 1601; ev_of 1602], (vev 1100 7),
    (scan_of [put (ids 1000 510); refused [ev_of 1600; ev_of 1601; ev_of 1602]; put [vev 1100 7]] None).
  split; [apply load_histb_ok; vm_compute; reflexivity|].
  split; [apply is_scan_ok; vm_compute; reflexivity|]. vm_compute. reflexivity.
Qed.
