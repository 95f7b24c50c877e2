(* A checker for the limits of histories; examples and counterexamples for the engine. *)
From Coq Require Import NArith ZArith List Bool Sorted Lia Arith.
Import ListNotations.
From Verif Require Import Model.Base Model.Event Model.Rbtree Model.Memtable Model.Mapping Model.Merge
  Model.PartIter Model.Scan Model.Writer Model.Codec Model.Engine Spec.Order Spec.Merged Spec.Files
  Spec.Layout Spec.Regions Spec.View Spec.Engine Proof.OrderL Proof.MemtableL Proof.EngineL.
Local Arguments N.pow : simpl never.
Local Arguments N.add : simpl never.
Local Arguments N.sub : simpl never.
Implicit Types (s : slice part) (m : mapping part).

Definition ev_okb (e : event) : bool :=
  ((ev_id e <? 2^64)%N && (length (ev_key e) <=? 255)%nat && forallb (fun b => (b <? 256)%N) (ev_key e) &&
   forallb (fun b => (b <? 256)%N) (ev_val e) && (ev_flags e <? 256)%N)%bool.
Definition winb (lo : N) (e : event) : bool := ((lo <=? ev_id e) && (ev_id e <? lo + 2^31))%N.
Definition nearb (lo : N) (r : range) : bool := ((lo <=? fst r) && (snd r <? lo + 2^31))%N.
Definition event_fineb (lo : N) (en : engine) (e : event) : bool :=
  (ev_okb e && winb lo e && (N.of_nat (14 + length (ev_key e) + length (ev_val e)) <=? en_page en)%N &&
   (nearb lo (cell (en_interval en) (ev_id e)) ||
    (u64_max + 1 <? fst (cell (en_interval en) (ev_id e)) + en_interval en)%N))%bool.
Definition roomb m (n : nat) : bool :=
  ((n <=? MEMTABLE_PAGE)%nat &&
   forallb (fun s => (length (mt_events (pt_mem (s_data s))) + n <=? MEMTABLE_PAGE)%nat) (mapping_list m))%bool.
Definition batch_fineb (lo : N) (en : engine) (l : list warg) : bool :=
  (forallb (fun a => match wa_mem a with MemOk => true | _ => false end) l &&
   match l with a :: _ => (length (ev_key (wa_event a)) <=? 255)%nat | [] => false end &&
   forallb (event_fineb lo en) (assigned (en_serial en) (en_ssn en) l) &&
   roomb (en_map en) (length l))%bool.
Definition tables_apartb (p : part) : bool :=
  forallb (fun e => match lookup (mt_events (pt_prev p)) e with None => true | _ => false end) (mt_events (pt_mem p)).
Definition op_fineb (lo : N) (en : engine) (o : eop) : bool :=
  match o with
  | EWrite l _ => batch_fineb lo en l
  | ERefresh id _ => (((lo <=? id) && (id <? lo + 2^31))%N &&
      forallb (fun s => negb (slice_in s id) ||
        (tables_apartb (s_data s) && (region_weight (concat (contents (s_data s))) <? 2^32)%N))
        (mapping_list (en_map en)))%bool
  | EBegin id => (((lo <=? id) && (id <? lo + 2^31))%N &&
      forallb (fun s => negb (slice_in s id) || tables_apartb (s_data s)) (mapping_list (en_map en)))%bool
  | EApply ref => existsb (fun s => (s_min s =? ref)%N &&
      (region_weight (concat (contents (s_data s))) <? 2^32)%N)%bool (mapping_list (en_map en))
  | EDrop id => ((lo <=? id) && (id <? lo + 2^31))%N
  | ECreate mn mx => (negb (mn <=? mx)%N || nearb lo (mn, mx))%bool
  | EInterval n => ((0 <? n) && (n <=? u64_max))%N
  end.
Fixpoint hist_fineb (lo : N) (en : engine) (l : list eop) : bool :=
  match l with
  | [] => true
  | o :: t =>
      (op_fineb lo en o && match estep en o with
                         | Ok en' => hist_fineb lo en' t
                         | _ => hist_fineb lo en t
                         end)%bool
  end.

Ltac bools := repeat match goal with
  | H : (_ && _)%bool = true |- _ => apply andb_true_iff in H as [? ?]
  | H : (_ <=? _)%N = true |- _ => apply N.leb_le in H
  | H : (_ <? _)%N = true |- _ => apply N.ltb_lt in H
  | H : (_ =? _)%N = true |- _ => apply N.eqb_eq in H
  | H : (_ <=? _)%nat = true |- _ => apply Nat.leb_le in H
  end.

Lemma forallb_bytes l : forallb (fun b => (b <? 256)%N) l = true -> Forall (fun b => (b < 256)%N) l.
Proof. rewrite forallb_forall, Forall_forall. intros H x Hx. apply N.ltb_lt; auto. Qed.

Lemma ev_okb_ok e : ev_okb e = true -> ev_ok e.
Proof. unfold ev_okb, ev_ok. intros H. bools. repeat split; auto using forallb_bytes. Qed.

Lemma event_fineb_ok lo en e : event_fineb lo en e = true -> event_fine lo en e.
Proof.
  unfold event_fineb, event_fine. intros H. bools.
  split; [apply ev_okb_ok; auto|]. split; [unfold winb in *; bools; split; auto|]. split; auto.
  apply orb_true_iff in H0 as [H0|H0]; [left|right; bools; auto].
  unfold nearb in H0. bools. split; auto.
Qed.

Lemma batch_fineb_ok lo en l : batch_fineb lo en l = true -> batch_fine lo en l.
Proof.
  unfold batch_fineb, batch_fine. intros H. bools. split; [|split; [|split]].
  - rewrite forallb_forall in H. rewrite Forall_forall. intros a Ha. specialize (H a Ha). destruct (wa_mem a); auto; discriminate.
  - destruct l as [|a t]; [discriminate|]. bools. eauto.
  - rewrite forallb_forall in H1. rewrite Forall_forall. intros a Ha. apply event_fineb_ok; auto.
  - unfold roomb in H0. bools. split; auto. rewrite forallb_forall in H3. intros s Hs.
    specialize (H3 s Hs). bools. auto.
Qed.

Lemma tables_apartb_ok p : tables_apartb p = true -> tables_apart p.
Proof.
  unfold tables_apartb, tables_apart. rewrite forallb_forall. intros H k.
  destruct (lookup (mt_events (pt_mem p)) k) as [e|] eqn:E; auto. right.
  apply lookup_in in E as [Hin Hk]. specialize (H e Hin).
  rewrite (lookup_same _ _ _ Hk). destruct (lookup (mt_events (pt_prev p)) e); auto; discriminate.
Qed.

Lemma op_fineb_ok lo en o : op_fineb lo en o = true -> op_fine lo en o.
Proof.
  destruct o as [l logged|id fails|id|ref|id|mn mx|n]; cbn [op_fineb op_fine]; intros H.
  - apply batch_fineb_ok; auto.
  - bools. split; auto. rewrite forallb_forall in H0. intros s Hs Hr. specialize (H0 s Hs).
    apply in_slice in Hr. rewrite Hr in H0. cbn [negb orb] in H0. bools. split; auto using tables_apartb_ok.
  - bools. split; auto. rewrite forallb_forall in H0. intros s Hs Hr. specialize (H0 s Hs).
    apply in_slice in Hr. rewrite Hr in H0. cbn [negb orb] in H0. auto using tables_apartb_ok.
  - apply existsb_exists in H as (s & Hs & H). bools. eauto.
  - bools. auto.
  - intros Hle. apply N.leb_le in Hle. rewrite Hle in H. simpl in H. unfold nearb in H. bools. split; auto.
  - bools. auto.
Qed.

Lemma hist_fineb_ok lo : forall l en, hist_fineb lo en l = true -> hist_fine lo en l.
Proof.
  induction l as [|o l IH]; intros en H; cbn [hist_fineb hist_fine] in *; auto. bools.
  split; [apply op_fineb_ok; auto|]. destruct (estep en o); auto.
Qed.

(* --- samples --- *)
Local Open Scope N_scope.
Definition put_ev (i v : N) : warg := mk_warg (mk_event i 0 [] [v]) MemOk.
Definition put_key (i k v : N) : warg := mk_warg (mk_event i 0 [k] [v]) MemOk.
Definition del_ev (i : N) : warg := mk_warg (mk_event i 1 [] []) MemOk.
Definition en0 : engine := engine_new 10 false 1000 40.
Definition en_s : engine := engine_new 10 true 1000 40.
(* partitions, overwrites, deletes, refresh with writes in between, a failed batch, DROP *)
Definition sample_ops : list eop :=
  [EWrite [put_ev 3 1; put_ev 14 2; put_key 3 9 3] true; EBegin 3; EWrite [put_ev 3 4; del_ev 14] true;
   EApply 0; EWrite [put_ev 5 5; mk_warg (mk_event 6 0 (repeat 1 256) []) MemOk] true;
   ERefresh 14 false; EWrite [put_ev 5 6; put_ev 5 7; put_ev 27 8] true; ERefresh 5 true;
   ECreate 100 120; EWrite [put_ev 101 1] false; EDrop 27; EWrite [put_ev 29 9] true].
Definition sample_now : list event :=
  [mk_event 3 0 [] [4]; mk_event 3 0 [9] [3]; mk_event 5 0 [] [7]; mk_event 29 0 [] [9]].

Lemma sample_fine : limits 0 10 /\ hist_fine 0 en0 sample_ops.
Proof.
  split; [split; [vm_compute; discriminate|split; vm_compute; [reflexivity|discriminate]]|].
  apply hist_fineb_ok. vm_compute. reflexivity.
Qed.

Definition scan_all (en : engine) (ops : list eop) (key : option event) : res (option (list event)) :=
  bind (erun en ops) (fun en => monotone_scan 50 (en_map en) key).

Lemma sample_scan : scan_all en0 sample_ops None = Ok (Some sample_now) /\
  scan_all en0 sample_ops (Some (mk_event 4 0 [] [])) = Ok (Some (skipn 2 sample_now)).
Proof. split; vm_compute; reflexivity. Qed.

Lemma sample_start : start_fine 0 None /\ start_fine 0 (Some (mk_event 4 0 [] [])).
Proof.
  split; [vm_compute; reflexivity|]. split; [|split; [split; vm_compute; [discriminate|reflexivity]|reflexivity]].
  apply ev_okb_ok. vm_compute. reflexivity.
Qed.

Definition sample_en : engine := Eval vm_compute in
  match erun en0 sample_ops with Ok en => en | _ => en0 end.
Lemma sample_run : erun en0 sample_ops = Ok sample_en.
Proof. vm_compute. reflexivity. Qed.
Lemma sample_keyed : ev_ok (mk_event 3 0 [5] []) /\ win 0 (mk_event 3 0 [5] []) /\
  forall p, In p (parts sample_en) -> ~ past_keys (file_events p) (mk_event 3 0 [5] []).
Proof.
  split; [apply ev_okb_ok; vm_compute; reflexivity|]. split; [split; vm_compute; [discriminate|reflexivity]|].
  intros p Hp [H1 H].
  assert (E : forallb (fun p => match file_events p with
      | [] => true
      | _ => existsb (fun e => (ev_id e =? 3) && negb (match ev_cmp e (mk_event 3 0 [5] []) with Lt => true | _ => false end))%bool (file_events p) end)
      (parts sample_en) = true) by (vm_compute; reflexivity).
  rewrite forallb_forall in E. specialize (E p Hp). destruct (file_events p) as [|x l] eqn:Ef.
  - destruct H1 as (e & [] & _).
  - apply existsb_exists in E as (e & He & E). bools. specialize (H e He H0). unfold ev_lt in H.
    rewrite H in *. discriminate.
Qed.

(* a batch that fails at its third event, a good one *)
Definition bad_batch : list warg := [put_ev 3 50; put_ev 3 51; mk_warg (mk_event 6 0 (repeat 1 256) []) MemOk; put_ev 7 7].
Definition good_batch : list warg := [put_ev 3 50; put_ev 3 51; put_ev 33 7; del_ev 33].
Lemma sample_batch : batch_fine 0 sample_en bad_batch /\ batch_fine 0 sample_en good_batch /\
  exists en' evs, engine_write sample_en good_batch true = Ok (en', Some evs).
Proof.
  split; [apply batch_fineb_ok; vm_compute; reflexivity|]. split; [apply batch_fineb_ok; vm_compute; reflexivity|].
  eexists _, _. vm_compute. reflexivity.
Qed.
(* a batch refused because no partition can be created *)
Definition en_top : engine := engine_new 3000000 false 1000 40.
Lemma top_batch : limits (u64_max - 2^31) 3000000 /\ hist_fine (u64_max - 2^31) en_top [] /\
  batch_fine (u64_max - 2^31) en_top [put_ev (u64_max - 10000000) 1; put_ev (u64_max - 1) 2].
Proof.
  split; [split; [vm_compute; discriminate|split; vm_compute; [reflexivity|discriminate]]|]. split; [exact I|].
  apply batch_fineb_ok. vm_compute. reflexivity.
Qed.

Lemma sample_refresh : op_fine 0 sample_en (ERefresh 14 false) /\ op_fine 0 sample_en (ERefresh 29 true).
Proof. split; apply op_fineb_ok; vm_compute; reflexivity. Qed.
Lemma sample_slice : exists s, In s (mapping_list (en_map sample_en)) /\
  mt_events (pt_prev (s_data s)) <> [] /\ file_events (s_data s) <> [] /\
  (region_weight (concat (contents (s_data s))) < 2^32).
Proof. eexists. split; [left; reflexivity|]. vm_compute. split; [discriminate|split; [discriminate|reflexivity]]. Qed.

(* --- counterexamples --- *)
Lemma far_start_lost : exists ops e k, limits (2^31) 10 /\ hist_fine (2^31) en0 ops /\
  current (acked en0 ops []) e /\ ev_ok k /\ ev_key k = [] /\ ev_le k e /\
  scan_all en0 ops (Some k) = Ok (Some []).
Proof.
  exists [EWrite [put_ev (2^31 + 3) 1] true], (mk_event (2^31 + 3) 0 [] [1]), (mk_event 0 0 [] []).
  split; [split; [vm_compute; discriminate|split; vm_compute; [reflexivity|discriminate]]|].
  split; [apply hist_fineb_ok; vm_compute; reflexivity|].
  split; [split; vm_compute; reflexivity|]. split; [apply ev_okb_ok; vm_compute; reflexivity|].
  split; [reflexivity|]. split; [vm_compute; discriminate|]. vm_compute. reflexivity.
Qed.

Lemma retry_shadows : exists ops e e',
  acked en0 ops [] = [e; e'] /\ same_key e e' /\ e <> e' /\ event_is_delete e = false /\
  ops = [EWrite [put_ev 1 1] true; ERefresh 1 true; EWrite [put_ev 1 2] true; ERefresh 1 false] /\
  scan_all en0 ops None = Ok (Some [e]).
Proof.
  exists [EWrite [put_ev 1 1] true; ERefresh 1 true; EWrite [put_ev 1 2] true; ERefresh 1 false],
    (mk_event 1 0 [] [1]), (mk_event 1 0 [] [2]).
  split; [vm_compute; reflexivity|]. split; [split; reflexivity|]. split; [discriminate|].
  split; [reflexivity|]. split; [reflexivity|]. vm_compute. reflexivity.
Qed.

Lemma first_key_crash : exists en a, length (ev_key (wa_event a)) = 256%nat /\ wa_mem a = MemOk /\
  engine_write en [a] true = UB.
Proof.
  exists en0, (mk_warg (mk_event 1 0 (repeat 1 256) []) MemOk). split; [reflexivity|]. split; [reflexivity|].
  vm_compute. reflexivity.
Qed.
(* also after a write error of an empty batch *)
Lemma empty_batch_crash : engine_write en0 [] false = UB.
Proof. reflexivity. Qed.

Lemma memory_crash : exists en e, ev_ok e /\
  engine_write en [mk_warg e MemEvent] true = UB /\ engine_write en [mk_warg e MemTable] true = UB.
Proof.
  exists en0, (mk_event 1 0 [] [1]). split; [apply ev_okb_ok; vm_compute; reflexivity|]. split; vm_compute; reflexivity.
Qed.
Lemma oversize_crash : exists en e, ev_ok e /\ engine_write en [mk_warg e MemOk] true = UB.
Proof.
  exists (engine_new 10 false 20 40), (mk_event 1 0 [] [1;2;3;4;5;6;7;8;9]).
  split; [apply ev_okb_ok; vm_compute; reflexivity|]. vm_compute; reflexivity.
Qed.

(* accepted, but replay takes the size with the key counted twice *)
Lemma replay_crash : exists en e en', limits 0 10 /\ batch_fine 0 en [mk_warg e MemOk] /\
  engine_write en [mk_warg e MemOk] true = Ok (en', Some [e]) /\
  engine_write_replay en 1 [e] = UB.
Proof.
  exists (engine_new 10 false 20 40), (mk_event 1 0 [1;2;3;4] [1;2]). eexists.
  split; [split; [vm_compute; discriminate|split; vm_compute; [reflexivity|discriminate]]|].
  split; [apply batch_fineb_ok; vm_compute; reflexivity|].
  split; vm_compute; reflexivity.
Qed.

(* serial ids *)
Definition auto (v : N) : warg := mk_warg (mk_event u64_max 0 [] [v]) MemOk.
Definition serial_ops : list eop :=
  [EWrite [auto 1; put_ev 50 2; auto 3] true; EWrite [auto 4] false; EWrite [auto 5; auto 6] true; ERefresh 50 false].
Lemma serial_fine : limits 0 10 /\ hist_fine 0 en_s serial_ops /\ handed_out en_s serial_ops = [0; 1; 3; 4].
Proof.
  split; [split; [vm_compute; discriminate|split; vm_compute; [reflexivity|discriminate]]|].
  split; [apply hist_fineb_ok; vm_compute; reflexivity|]. vm_compute. reflexivity.
Qed.
Definition serial_en : engine := Eval vm_compute in
  match erun en_s serial_ops with Ok en => en | _ => en_s end.
Lemma serial_last : exists l s, erun en_s serial_ops = Ok serial_en /\
  mapping_list (en_map serial_en) = l ++ [s] /\ mt_events (pt_prev (s_data s)) = [] /\
  (mt_events (pt_mem (s_data s)) <> [] \/ file_events (s_data s) <> []) /\
  en_ssn (engine_set_serial serial_en) = 51.
Proof.
  exists (removelast (mapping_list (en_map serial_en))), (last (mapping_list (en_map serial_en)) (mk_slice 0 0 (part_new 0 0))).
  split; [vm_compute; reflexivity|]. split; [vm_compute; reflexivity|]. split; [vm_compute; reflexivity|].
  split; [right; vm_compute; discriminate|]. vm_compute. reflexivity.
Qed.
Lemma serial_reused : exists ops en p e, limits 0 10 /\ hist_fine 0 en_s ops /\ erun en_s ops = Ok en /\
  In p (parts en) /\ In e (concat (contents p)) /\ event_is_delete e = false /\
  (forall q, In q (parts en) -> mt_events (pt_mem q) = [] /\ mt_events (pt_prev q) = []) /\
  en_ssn (engine_set_serial en) = 0.
Proof.
  exists [EWrite [auto 1; put_ev 11 2] true; EWrite [del_ev 11] true; ERefresh 11 false; ERefresh 1 false].
  eexists. eexists (mk_part memtable_new memtable_new (Some [[mk_event 0 0 [] [1]]]) 1), (mk_event 0 0 [] [1]).
  split; [split; [vm_compute; discriminate|split; vm_compute; [reflexivity|discriminate]]|].
  split; [apply hist_fineb_ok; vm_compute; reflexivity|]. split; [vm_compute; reflexivity|].
  split; [vm_compute; auto|]. split; [vm_compute; auto|]. split; [reflexivity|].
  split; [|vm_compute; reflexivity].
  apply Forall_forall. vm_compute. repeat constructor.
Qed.
Lemma bad_batch_long : Exists (fun a => (255 < length (ev_key (wa_event a)))%nat) bad_batch.
Proof. apply Exists_cons_tl, Exists_cons_tl, Exists_cons_hd. apply Nat.ltb_lt. vm_compute. reflexivity. Qed.
Lemma refused_sample : exists en' evs, engine_write sample_en (good_batch ++ [put_ev 40 1]) true = Ok (en', Some evs).
Proof. eexists _, _. vm_compute. reflexivity. Qed.
