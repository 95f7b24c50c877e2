(* The stacks of pointers do what blocks mean. *)
From Coq Require Import Arith List Bool Lia.
Import ListNotations.
From Verif Require Import Model.Except Spec.Except.

Lemma set_nth_length {A} n (x : A) l : n < length l -> length (set_nth n x l) = length l.
Proof. intro H. unfold set_nth. rewrite app_length, firstn_length. cbn [length]. rewrite skipn_length. lia. Qed.
Lemma nth_error_skipn' {A} (l : list A) : forall n i, nth_error (skipn n l) i = nth_error l (n + i).
Proof. induction l as [|a l IH]; intros [|n] i; cbn; auto. now destruct i. Qed.
Lemma set_nth_get {A} n (x : A) l i : n < length l -> nth_error (set_nth n x l) i = if i =? n then Some x else nth_error l i.
Proof.
  intro H. unfold set_nth. destruct (Nat.eqb_spec i n) as [->|D].
  - rewrite nth_error_app2; rewrite firstn_length, Nat.min_l by lia; [|lia]. now rewrite Nat.sub_diag.
  - destruct (Nat.lt_ge_cases i n) as [L|L].
    + rewrite nth_error_app1 by (rewrite firstn_length; lia). revert n l H D L. induction i as [|i IH]; intros [|n] [|a l] H D L; cbn in *; try lia; auto. apply IH; lia.
    + rewrite nth_error_app2; rewrite firstn_length, Nat.min_l by lia; [|lia]. destruct (i - n) as [|k] eqn:E; [lia|]. cbn [nth_error]. rewrite nth_error_skipn'. f_equal. lia.
Qed.
Lemma some_lt {A} (l : list A) i x : nth_error l i = Some x -> i < length l.
Proof. intro H. apply nth_error_Some. congruence. Qed.

Fixpoint linked (gs : list gcell) (at_ : option nat) (l fs : list nat) : Prop :=
  match l, fs with
  | [], [] => at_ = None
  | i :: l, f :: fs => at_ = Some i /\ exists prev, nth_error gs i = Some (mk_gcell f true 0 prev true) /\ linked gs prev l fs
  | _, _ => False
  end.
Definition active (gs : list gcell) (i : nat) : bool := match nth_error gs i with Some g => g_function g | None => false end.
Definition own_list (gs : list gcell) (d : list nat) : list nat := filter (active gs) d.
Definition alive (gs : list gcell) (i : nat) : Prop := exists g, nth_error gs i = Some g /\ g_alive g = true.

Record ctx (m : machine) (e : nat) (prev : option nat) (trg : bool) (base : nat) (ds : list (list nat)) (frames : list (list nat)) : Prop := {
  c_last : m_last m = Some e;
  c_stack : exists stack, nth_error (m_excs m) e = Some (mk_ecell prev trg stack true) /\
    linked (m_guards m) stack (concat (map (own_list (m_guards m)) ds)) (concat frames);
  c_frames : Forall2 (fun d f => length (own_list (m_guards m) d) = length f) ds frames;
  c_range : Forall (fun i => base <= i < length (m_guards m) /\ alive (m_guards m) i) (concat ds);
  c_nodup : NoDup (concat ds)
}.
Record kept (base e : nat) (m m' : machine) : Prop := {
  k_guards : forall i, i < base -> nth_error (m_guards m') i = nth_error (m_guards m) i;
  k_glen : length (m_guards m) <= length (m_guards m');
  k_excs : forall j, j <> e -> j < length (m_excs m) -> nth_error (m_excs m') j = nth_error (m_excs m) j;
  k_elen : length (m_excs m) <= length (m_excs m')
}.
Lemma kept_refl base e m : kept base e m m.
Proof. split; auto. Qed.
Lemma kept_trans base e m1 m2 m3 : kept base e m1 m2 -> kept base e m2 m3 -> kept base e m1 m3.
Proof.
  intros [A1 A2 A3 A4] [B1 B2 B3 B4]. split; try lia.
  - intros i H. rewrite B1, A1; auto.
  - intros j D H. rewrite B3, A3; auto. lia.
Qed.

(* cells that are not in the list do not matter *)
Lemma linked_other gs gs' : forall l fs at_, (forall i, In i l -> nth_error gs' i = nth_error gs i) -> linked gs at_ l fs -> linked gs' at_ l fs.
Proof.
  induction l as [|i l IH]; intros [|f fs] at_ H L; cbn in *; auto. destruct L as (E & prev & N & L). split; [exact E|]. exists prev.
  rewrite H by auto. split; [exact N|]. apply IH; auto.
Qed.
Lemma own_other gs gs' d : (forall i, In i d -> nth_error gs' i = nth_error gs i) -> own_list gs' d = own_list gs d.
Proof.
  intro H. unfold own_list. apply filter_ext_in. intros i Hi. unfold active. now rewrite H.
Qed.
Lemma owns_other gs gs' ds : (forall i, In i (concat ds) -> nth_error gs' i = nth_error gs i) -> map (own_list gs') ds = map (own_list gs) ds.
Proof.
  intro H. apply map_ext_in. intros d Hd. apply own_other. intros i Hi. apply H. apply in_concat. eauto.
Qed.
Lemma own_in gs d i : In i (own_list gs d) -> In i d.
Proof. unfold own_list. intro H. now apply filter_In in H. Qed.
Lemma owns_in gs ds i : In i (concat (map (own_list gs) ds)) -> In i (concat ds).
Proof.
  intro H. apply in_concat in H as (l & Hl & Hi). apply in_map_iff in Hl as (d & <- & Hd). apply in_concat. exists d. split; [exact Hd|]. eapply own_in, Hi.
Qed.
Lemma owns_nodup gs ds : NoDup (concat ds) -> NoDup (concat (map (own_list gs) ds)).
Proof.
  induction ds as [|d ds IH]; cbn; intro H; [constructor|].
  assert (A : NoDup d /\ NoDup (concat ds) /\ forall i, In i d -> ~ In i (concat ds)).
  { clear -H. induction d as [|i d IH]; cbn in *; [repeat split; auto; constructor|]. inversion H as [|? ? N Q]; subst. destruct (IH Q) as (A & B & C).
    rewrite in_app_iff in N. split; [constructor; tauto|]. split; [exact B|]. intros j [->|Hj]; [tauto|auto]. }
  destruct A as (A & B & C). specialize (IH B).
  assert (N : NoDup (own_list gs d)) by (apply NoDup_filter, A). revert N C. generalize (own_list gs d), (own_in gs d). intros l I N C.
  assert (C' : forall i, In i l -> ~ In i (concat (map (own_list gs) ds))) by (intros i Hi Hj; apply (C i (I i Hi)), (owns_in gs _ _ Hj)). clear I C.
  induction l as [|i l IHl]; cbn; [exact IH|]. inversion N; subst. constructor; [|apply IHl; auto; intros; apply C'; now right]. rewrite in_app_iff. intros [X|X]; [auto|]. apply (C' i); [now left|exact X].
Qed.
(* a context where nothing of it changed *)
Lemma ctx_other m m' e prev trg base ds frames : ctx m e prev trg base ds frames -> m_last m' = Some e -> nth_error (m_excs m') e = nth_error (m_excs m) e ->
  (forall i, In i (concat ds) -> nth_error (m_guards m') i = nth_error (m_guards m) i) -> length (m_guards m) <= length (m_guards m') ->
  ctx m' e prev trg base ds frames.
Proof.
  intros [A (stack & B & L) C D E] HL HE HG HN. split; auto.
  - exists stack. split; [now rewrite HE|]. rewrite (owns_other _ _ _ HG). eapply linked_other; [|exact L]. intros i Hi. apply HG. eapply owns_in, Hi.
  - clear -C HG. assert (X : forall d, In d ds -> own_list (m_guards m') d = own_list (m_guards m) d).
    { intros d Hd. apply own_other. intros i Hi. apply HG. apply in_concat. eauto. }
    clear HG. induction C as [|d f ds fs H C IH]; [constructor|]. constructor; [rewrite X by (left; reflexivity); exact H|]. apply IH. intros; apply X; now right.
  - eapply Forall_forall. intros i Hi. pose proof (proj1 (Forall_forall _ _) D i Hi) as ((H1 & H2) & (g & H3 & H4)). split; [lia|]. exists g. now rewrite HG.
Qed.

Lemma execute_all top : forall l fs at_ fuel m, linked (m_guards m) at_ l fs -> NoDup l -> length l <= fuel ->
  exists m', execute_guards fuel top at_ m = Some m' /\ m_seen m' = m_seen m ++ ran fs /\ m_excs m' = m_excs m /\ m_last m' = m_last m /\
    length (m_guards m') = length (m_guards m) /\ (forall i, ~ In i l -> nth_error (m_guards m') i = nth_error (m_guards m) i).
Proof.
  induction l as [|i l IH]; intros [|f fs] at_ fuel m L N F; cbn [linked] in L; try contradiction.
  - subst at_. exists m. destruct fuel; cbn; rewrite app_nil_r; auto 8.
  - destruct L as (-> & prev & Hi & L). destruct fuel as [|fuel]; [cbn in F; lia|]. cbn [execute_guards]. unfold live_guard. rewrite Hi. cbn [g_alive g_function negb g_fails g_name g_prev].
    inversion N as [|? ? Ni Nl]; subst. assert (Li := some_lt _ _ _ Hi).
    set (m1 := put_guard i _ _). assert (G1 : forall j, nth_error (m_guards m1) j = if j =? i then Some (mk_gcell f false 0 prev true) else nth_error (m_guards m) j).
    { intro j. subst m1. cbn. now rewrite set_nth_get. }
    destruct (IH fs prev fuel m1) as (m' & E & S & X & Y & Z & W); [|exact Nl|cbn in F; lia|].
    + eapply linked_other; [|exact L]. intros j Hj. rewrite G1. destruct (Nat.eqb_spec j i) as [->|]; [contradiction|reflexivity].
    + exists m'. split; [exact E|]. split; [rewrite S; cbn; rewrite <- app_assoc; reflexivity|]. split; [exact X|]. split; [exact Y|].
      split; [rewrite Z; subst m1; cbn; now rewrite set_nth_length|]. intros j Hj. cbn in Hj. rewrite W by tauto. rewrite G1. destruct (Nat.eqb_spec j i); [subst; tauto|reflexivity].
Qed.
Lemma nodup_bound : forall (l : list nat) n, NoDup l -> (forall i, In i l -> i < n) -> length l <= n.
Proof.
  intros l n N H. rewrite <- (seq_length n 0). apply NoDup_incl_length; [exact N|]. intros i Hi. apply in_seq. specialize (H i Hi). lia.
Qed.
Lemma throw_all m e prev trg base ds frames : ctx m e prev trg base ds frames ->
  exists m', exception_mgr_throw m = (Jump e, m') /\ kept base e m m' /\ m_last m' = Some e /\
    nth_error (m_excs m') e = Some (mk_ecell prev true None true) /\ m_seen m' = m_seen m ++ ran (concat frames) /\
    length (m_guards m') = length (m_guards m).
Proof.
  intros [A (stack & B & L) C D E]. unfold exception_mgr_throw, current, live_exc. rewrite A, B. cbn [e_alive e_stack e_prev].
  destruct (execute_all stack _ _ stack (guards_fuel m) m L (owns_nodup _ _ E)) as (m1 & X & S & Y & Z & W & V).
  { unfold guards_fuel. etransitivity; [apply (nodup_bound _ (length (m_guards m))); [apply owns_nodup, E|]|nia].
    intros i Hi. apply owns_in in Hi. apply (proj1 (Forall_forall _ _) D i Hi). }
  rewrite X. eexists. split; [reflexivity|]. assert (Le := some_lt _ _ _ B).
  assert (LN : length (m_excs m1) = length (m_excs m)) by now rewrite Y.
  split; [split; cbn|].
  - intros i Hi. apply V. intro H. apply owns_in in H. apply (proj1 (Forall_forall _ _) D i) in H. lia.
  - lia.
  - intros j Hj Hl. rewrite set_nth_get by lia. destruct (Nat.eqb_spec j e); [contradiction|]. now rewrite Y.
  - rewrite set_nth_length by lia. lia.
  - cbn. rewrite Z, A. split; [reflexivity|]. split; [rewrite set_nth_get by lia; now rewrite Nat.eqb_refl|]. auto.
Qed.

(* the end of a block *)
Lemma cleanup_all : forall own m e prev trg base ds f frames, ctx m e prev trg base (own :: ds) (f :: frames) ->
  exists m', cleanup own m = (Norm, m') /\ ctx m' e prev trg base ds frames /\ kept base e m m' /\ m_seen m' = m_seen m ++ ran f /\
    length (m_guards m') = length (m_guards m).
Proof.
  induction own as [|i own IH]; intros m e prev trg base ds f frames K.
  - exists m. split; [reflexivity|]. destruct K as [A B C D E]. inversion C as [|? ? ? ? C1 C2]; subst. destruct f; [|discriminate C1]. cbn in *. rewrite app_nil_r.
    split; [split; auto|]. split; [apply kept_refl|]. auto.
  - pose proof K as [A (stack & B & L) C D E]. cbn [cleanup]. unfold guard_runner.
    cbn [concat app] in D, E. inversion D as [|? ? ((Hb & Hl) & (g & Hg & Ha)) D']; subst. inversion E as [|? ? Ni E']; subst.
    inversion C as [|? ? ? ? C1 C2]; subst.
    unfold live_guard. rewrite Hg, Ha. destruct (g_function g) eqn:Fg; cbn [negb].
    + assert (Act : active (m_guards m) i = true) by (unfold active; rewrite Hg; exact Fg).
      cbn [map concat own_list filter] in L, C1. fold (own_list (m_guards m) own) in L, C1. unfold own_list at 1 in L. unfold own_list in C1. cbn [filter] in L, C1. rewrite Act in L, C1.
      destruct f as [|f0 f]; [discriminate C1|]. cbn [concat app linked] in L. destruct L as (-> & pr & Hg' & L). rewrite Hg in Hg'. injection Hg' as ->. cbn [g_name g_fails g_prev g_function g_alive] in *.
      unfold guard_pop, current, live_exc. rewrite A, B. cbn [e_alive e_stack]. unfold live_guard. rewrite Hg. cbn [g_alive g_prev e_prev e_triggered].
      assert (Le := some_lt _ _ _ B).
      set (m1 := put_guard i _ _).
      assert (G1 : forall j, nth_error (m_guards m1) j = if j =? i then Some (mk_gcell f0 false 0 pr true) else nth_error (m_guards m) j) by (intro j; subst m1; cbn; now rewrite set_nth_get).
      assert (N1 : length (m_guards m1) = length (m_guards m)) by (subst m1; cbn; now rewrite set_nth_length).
      assert (O1 : forall j, In j (own ++ concat ds) -> nth_error (m_guards m1) j = nth_error (m_guards m) j).
      { intros j Hj. rewrite G1. destruct (Nat.eqb_spec j i) as [->|]; [contradiction|reflexivity]. }
      destruct (IH m1 e prev trg base ds f frames) as (m' & X & K' & Kp & S & W).
      { split.
        - exact A.
        - exists pr. split; [subst m1; cbn; rewrite set_nth_get by exact Le; now rewrite Nat.eqb_refl|]. cbn [map concat].
          rewrite (own_other (m_guards m) (m_guards m1) own), (owns_other (m_guards m) (m_guards m1) ds) by (intros; apply O1, in_app_iff; auto).
          eapply linked_other; [|exact L]. intros j Hj. apply O1. apply in_app_iff in Hj. apply in_app_iff. destruct Hj as [Hj|Hj]; [left; eapply own_in, Hj|right; eapply owns_in, Hj].
        - constructor.
          + rewrite (own_other (m_guards m) (m_guards m1) own) by (intros; apply O1, in_app_iff; auto). cbn in C1. unfold own_list. lia.
          + clear -C2 O1. assert (Q : forall d, In d ds -> own_list (m_guards m1) d = own_list (m_guards m) d).
            { intros d Hd. apply own_other. intros j Hj. apply O1, in_app_iff. right. apply in_concat. eauto. }
            clear O1. induction C2 as [|d fr ds frs H C2 IH]; [constructor|]. constructor; [rewrite Q by (left; reflexivity); exact H|]. apply IH. intros; apply Q; now right.
        - cbn [concat]. eapply Forall_forall. intros j Hj. pose proof (proj1 (Forall_forall _ _) D' j Hj) as ((P1 & P2) & (gj & P3 & P4)). split; [lia|]. exists gj. now rewrite O1.
        - exact E'. }
      exists m'. split; [exact X|]. split; [exact K'|]. split; [|split; [rewrite S; subst m1; cbn; now rewrite <- app_assoc|lia]].
      eapply kept_trans; [|exact Kp]. split.
      * intros j Hj. rewrite G1. destruct (Nat.eqb_spec j i); [lia|reflexivity].
      * lia.
      * intros j Hj Hlt. subst m1. cbn. rewrite set_nth_get by exact Le. destruct (Nat.eqb_spec j e); [contradiction|reflexivity].
      * subst m1. cbn. rewrite set_nth_length by exact Le. lia.
    + assert (Act : active (m_guards m) i = false) by (unfold active; rewrite Hg; exact Fg).
      apply IH. split; auto.
      * exists stack. split; [exact B|]. cbn [map concat own_list filter] in L. unfold own_list at 1 in L. cbn [filter] in L. rewrite Act in L. exact L.
      * constructor; [|exact C2]. unfold own_list in C1 |- *. cbn [filter] in C1. rewrite Act in C1. exact C1.
Qed.
Lemma kill_all : forall own m, (forall i, In i own -> i < length (m_guards m)) ->
  m_excs (kill_guards own m) = m_excs m /\ m_last (kill_guards own m) = m_last m /\ m_seen (kill_guards own m) = m_seen m /\
  length (m_guards (kill_guards own m)) = length (m_guards m) /\
  (forall j, ~ In j own -> nth_error (m_guards (kill_guards own m)) j = nth_error (m_guards m) j).
Proof.
  induction own as [|i own IH]; intros m H; [cbn; auto 8|]. unfold kill_guards. cbn [fold_left].
  assert (Li : i < length (m_guards m)) by (apply H; now left). destruct (nth_error (m_guards m) i) as [g|] eqn:E; [|apply nth_error_None in E; lia].
  set (m1 := put_guard i _ m). assert (N1 : length (m_guards m1) = length (m_guards m)) by (subst m1; cbn; now rewrite set_nth_length).
  fold (kill_guards own m1). destruct (IH m1) as (A & B & C & D & F); [intros j Hj; rewrite N1; apply H; now right|].
  rewrite A, B, C, D. repeat split; auto. intros j Hj. cbn in Hj. rewrite F by tauto. subst m1. cbn. rewrite set_nth_get by exact Li. destruct (Nat.eqb_spec j i); [subst; tauto|reflexivity].
Qed.

Definition out_of (e : nat) (o : ends) : out := match o with Done => Norm | Returned => Ret | Thrown => Jump e end.
(* what is there after an end *)
Definition post (m m' : machine) (e : nat) (prev : option nat) (trg : bool) (base : nat) (ds : list (list nat)) (o : ends) (frames : list (list nat)) (t : list seen) : Prop :=
  kept base e m m' /\
  match o with
  | Thrown => m_last m' = Some e /\ nth_error (m_excs m') e = Some (mk_ecell prev true None true) /\ m_seen m' = m_seen m ++ t ++ ran (concat frames)
  | _ => ctx m' e prev trg base ds frames /\ m_seen m' = m_seen m ++ t
  end.
Lemma block_all own m0 m e prev trg base ds o f frames t :
  post m0 m e prev trg base (own :: ds) o (f :: frames) t -> Forall (fun i => base <= i < length (m_guards m)) own -> 
  exists m', block_end (out_of e o) own m = (out_of e o, m') /\ post m0 m' e prev trg base ds o frames (t ++ ran f).
Proof.
  intros (K & P) R.
  assert (T : forall m1, kept base e m0 m1 -> length (m_guards m) <= length (m_guards m1) -> kept base e m0 (kill_guards own m1) /\ forall j, ~ In j own -> nth_error (m_guards (kill_guards own m1)) j = nth_error (m_guards m1) j).
  { intros m1 K1 H1. destruct (kill_all own m1) as (A & B & C & D & F); [intros i Hi; pose proof (proj1 (Forall_forall _ _) R i Hi); cbn in *; lia|]. split; [|exact F].
    eapply kept_trans; [exact K1|]. split; rewrite ?A, ?D; auto. intros i Hi. apply F. intro Q. apply (proj1 (Forall_forall _ _) R) in Q. lia. }
  assert (Tn : forall m1, length (m_guards m) <= length (m_guards m1) -> m_excs (kill_guards own m1) = m_excs m1 /\ m_last (kill_guards own m1) = m_last m1 /\ m_seen (kill_guards own m1) = m_seen m1 /\ length (m_guards (kill_guards own m1)) = length (m_guards m1)).
  { intros m1 H1. destruct (kill_all own m1) as (A & B & C & D & F); [intros i Hi; pose proof (proj1 (Forall_forall _ _) R i Hi); cbn in *; lia|]. auto. }
  assert (Q : o <> Thrown -> exists m', (let (o', m1) := cleanup own m in (match o' with Norm => out_of e o | _ => o' end, kill_guards own m1)) = (out_of e o, m') /\
    kept base e m0 m' /\ ctx m' e prev trg base ds frames /\ m_seen m' = m_seen m0 ++ t ++ ran f).
  { intro No. assert (P' : ctx m e prev trg base (own :: ds) (f :: frames) /\ m_seen m = m_seen m0 ++ t) by (destruct o; [exact P|exact P|contradiction]). destruct P' as (X & S).
    destruct (cleanup_all _ _ _ _ _ _ _ _ _ X) as (m1 & E1 & X1 & K1 & S1 & W1). rewrite E1. destruct (T m1 (kept_trans _ _ _ _ _ K K1) ltac:(lia)) as (K2 & F2). destruct (Tn m1 ltac:(lia)) as (A & B & C & D).
    eexists. split; [reflexivity|]. split; [exact K2|]. split; [|rewrite C, S1, S, app_assoc; reflexivity].
    apply (ctx_other m1); auto; rewrite ?A, ?B, ?D; auto; [apply X1|]. intros i Hi. apply F2. intro Ho. pose proof (c_nodup _ _ _ _ _ _ _ X) as N. cbn [concat] in N.
    clear -N Hi Ho. induction own as [|a own IH]; [contradiction|]. inversion N; subst. destruct Ho as [->|Ho]; [|auto]. apply H1, in_app_iff. now right. }
  destruct o.
  - destruct (Q ltac:(discriminate)) as (m' & E & K' & X & S). exists m'. split; [exact E|]. split; auto.
  - destruct (Q ltac:(discriminate)) as (m' & E & K' & X & S). exists m'. split; [exact E|]. split; auto.
  - cbn [block_end out_of]. destruct P as (A & B & C). destruct (T m K (Nat.le_refl _)) as (K2 & F2). destruct (Tn m (Nat.le_refl _)) as (A' & B' & C' & D').
    eexists. split; [reflexivity|]. split; [exact K2|]. rewrite A', B', C'. split; [exact A|]. split; [exact B|]. rewrite C. cbn [concat]. unfold ran. rewrite map_app. now rewrite <- !app_assoc.
Qed.
