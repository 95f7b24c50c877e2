(* What each call does to the descriptors, the handles and the directories. *)
From Coq Require Import List NArith Bool Lia.
From Verif Require Import Model.Base Model.Wal Model.Opening Spec.Opening.
Import ListNotations.
Local Open Scope N_scope.

Section Assoc.
Context {A : Type}.
Lemma get_put : forall k j (x : A) l, get j (put k x l) = if N.eq_dec j k then Some x else get j l.
Proof.
  intros k j x l. unfold put. cbn [get]. destruct (N.eq_dec j k) as [->|n].
  - now rewrite N.eqb_refl.
  - replace (k =? j) with false by (symmetry; apply N.eqb_neq; congruence).
    unfold del. induction l as [|[i y] l IH]; cbn; [reflexivity|].
    destruct (N.eqb_spec i k); cbn.
    + destruct (N.eqb_spec i j); [congruence|exact IH].
    + destruct (N.eqb_spec i j); [reflexivity|exact IH].
Qed.
Lemma get_put_same : forall k (x : A) l, get k (put k x l) = Some x.
Proof. intros. rewrite get_put. destruct (N.eq_dec k k); [reflexivity|congruence]. Qed.
Lemma get_put_other : forall k j (x : A) l, j <> k -> get j (put k x l) = get j l.
Proof. intros k j x l n. rewrite get_put. destruct (N.eq_dec j k); [congruence|reflexivity]. Qed.
Lemma get_del : forall k j (l : list (N * A)), get j (del k l) = if N.eq_dec j k then None else get j l.
Proof.
  intros k j l. unfold del. induction l as [|[i y] l IH]; cbn; [now destruct (N.eq_dec j k)|].
  destruct (N.eqb_spec i k); cbn.
  - rewrite IH. destruct (N.eq_dec j k); [reflexivity|]. destruct (N.eqb_spec i j); [congruence|reflexivity].
  - destruct (N.eqb_spec i j).
    + destruct (N.eq_dec j k); [congruence|reflexivity].
    + exact IH.
Qed.
End Assoc.

(* directories: what is there stays, only d changes *)
Definition only (d : N) (a b : list (N * folder)) : Prop :=
  (forall k, k <> d -> get k b = get k a) /\ (get d a <> None -> get d b <> None).
Lemma only_refl : forall d a, only d a a.
Proof. intros d a. split; auto. Qed.
Lemma only_trans : forall d a b c, only d a b -> only d b c -> only d a c.
Proof. intros d a b c [H1 H2] [H3 H4]. split; [intros k n; rewrite H3, H1; auto|auto]. Qed.
Lemma only_put : forall d x a, only d a (put d x a).
Proof. intros d x a. split; [intros k n; now apply get_put_other|intros _; rewrite get_put_same; discriminate]. Qed.

(* the parts of a handle that only an opening changes *)
Definition place (e : env) := (e_proc e, e_online e, e_dir e, e_lock e, e_uuid e).
Definition lists (e : env) := (e_vclouds e, e_vstorages e, e_clouds e, e_storages e).
Definition same_ofds (w w' : world) : Prop :=
  w_ofds w' = w_ofds w /\ w_next w' = w_next w /\ w_envs w' = w_envs w.

Lemma rotate_shape : forall w e w' e' r, rotate w e = (w', e', r) ->
  same_ofds w w' /\ place e' = place e /\ lists e' = lists e /\ r <> Refused /\
  (w_dirs w' = w_dirs w /\ e_cur e' = e_cur e /\ (r = Failed \/ e_cur e <> None) \/
   exists d c files files', e_dir e = Some d /\ get d (w_dirs w) = Some (mk_folder c (Some files)) /\
     w_dirs w' = put d (mk_folder c (Some files')) (w_dirs w) /\ exists i n, e_cur e' = Some (d, i, n)).
Proof.
  intros w e w' e' r H. unfold rotate in H.
  destruct (rotate_ready e) eqn:R.
  2:{ injection H as <- <- <-. repeat split; try discriminate. left. repeat split; auto. right.
      unfold rotate_ready in R. destruct (e_cur e); [discriminate|discriminate R]. }
  destruct (e_dir e) as [d|] eqn:D.
  2:{ injection H as <- <- <-. repeat split; try discriminate. left. auto. }
  destruct (get d (w_dirs w)) as [[c [files|]]|] eqn:G;
    try (injection H as <- <- <-; repeat split; try discriminate; left; auto; fail).
  injection H as <- <- <-. cbn. repeat split; try discriminate.
  right. exists d, c, files. eexists. split; [reflexivity|]. split; [exact G|]. split; [reflexivity|].
  do 2 eexists; reflexivity.
Qed.

Lemma start_wal_shape : forall w e d w' e' r, start_wal w e d = (w', e', r) -> e_dir e = Some d ->
  same_ofds w w' /\ place e' = place e /\ lists e' = lists e /\ r <> Refused /\ only d (w_dirs w) (w_dirs w') /\
  (forall f, get d (w_dirs w) = Some f -> exists f', get d (w_dirs w') = Some f' /\ f_conf f' = f_conf f) /\
  (r = Done -> (forall k i n, e_cur e = Some (k, i, n) -> k = d) -> exists i n, e_cur e' = Some (d, i, n)).
Proof.
  intros w e d w' e' r H D. unfold start_wal in H.
  destruct (get d (w_dirs w)) as [[c o]|] eqn:G.
  2:{ injection H as <- <- <-. repeat split; try discriminate; auto. }
  set (files := match o with Some l => l | None => [] end) in *.
  set (w1 := with_dirs w (put d (mk_folder c (Some files)) (w_dirs w))) in *.
  set (ids := fold_left _ files (e_ids e)) in *.
  set (e1 := set_wal e (e_lsn e) ids (e_cur e)) in *.
  assert (X : forall w2 e2 r2,
      (match ids with
       | [] => rotate w1 e1
       | _ =>
         match file_of (wal_id_max ids) files with
         | None => (w1, e1, Failed)
         | Some b => (w1, set_wal e1 (e_lsn e1) ids (Some (d, wal_id_max ids, List.length b)), Done)
         end
       end) = (w2, e2, r2) ->
      same_ofds w w2 /\ place e2 = place e /\ lists e2 = lists e /\ r2 <> Refused /\
      (exists o2, w_dirs w2 = w_dirs w1 \/ w_dirs w2 = put d (mk_folder c o2) (w_dirs w1)) /\
      (r2 = Done -> (forall k i n, e_cur e = Some (k, i, n) -> k = d) -> exists i n, e_cur e2 = Some (d, i, n))).
  { intros w2 e2 r2 E. destruct ids as [|i l].
    - destruct (rotate_shape _ _ _ _ _ E) as (S & P & L & N & C).
      split; [exact S|]. split; [exact P|]. split; [exact L|]. split; [exact N|].
      destruct C as [(Cd & Cc & Cr)|(d0 & c0 & f0 & f1 & D0 & G0 & W0 & i & n & C0)].
      + split; [exists None; left; exact Cd|]. intros Q K. destruct Cr as [Cr|Cr]; [congruence|].
        cbn in Cr. destruct (e_cur e) as [[[k i] n]|] eqn:U; [|congruence].
        exists i, n. rewrite Cc. cbn. try rewrite U. now rewrite (K k i n eq_refl).
      + cbn in D0. rewrite D in D0. injection D0 as <-.
        unfold w1, with_dirs in G0. cbn [w_dirs] in G0. rewrite get_put_same in G0. injection G0 as <- <-.
        split; [exists (Some f1); right; exact W0|]. intros _ _. eauto.
    - destruct (file_of _ files) as [b|] eqn:F; injection E as <- <- <-.
      + repeat split; try discriminate. { exists None. now left. } intros _ _. cbn. eauto.
      + repeat split; try discriminate. exists None. now left. }
  destruct (match ids with [] => _ | _ => _ end) as [[w2 e2] r2] eqn:E.
  destruct (X w2 e2 r2 eq_refl) as (S & P & L & N & (o2 & O) & K).
  assert (O' : only d (w_dirs w) (w_dirs w2)).
  { apply only_trans with (w_dirs w1). { apply only_put. }
    destruct O as [-> | ->]; [apply only_refl|apply only_put]. }
  assert (Q : forall f, Some (mk_folder c o) = Some f ->
      exists f', get d (w_dirs w2) = Some f' /\ f_conf f' = f_conf f).
  { intros f Ef. injection Ef as <-. destruct O as [-> | ->].
    - unfold w1, with_dirs; cbn [w_dirs]. rewrite get_put_same. eexists; split; reflexivity.
    - rewrite get_put_same. eexists; split; reflexivity. }
  destruct r2; injection H as <- <- <-; try congruence;
    repeat (split; [first [exact S | exact P | exact L | exact O' | exact Q | discriminate]|]); auto; discriminate.
Qed.

(* an opening: no descriptor, one without the lock, or one with it *)
Inductive opened (w : world) (e : env) (d : N) (w' : world) (e' : env) (r : ret) : Prop :=
| O_none : w_ofds w' = w_ofds w -> w_next w' = w_next w -> r = Failed ->
    (e_lock e' = e_lock e \/ e_lock e' = None) ->
    (w_dirs w' = w_dirs w \/ (get d (w_dirs w) = None /\ w_dirs w' = put d (mk_folder None None) (w_dirs w))) ->
    opened w e d w' e' r
| O_free : w_ofds w' = mk_ofd (w_next w) (e_proc e) d false :: w_ofds w -> w_next w' = w_next w + 1 ->
    e_lock e' = Some (w_next w) -> r <> Done ->
    (w_dirs w' = w_dirs w \/ (get d (w_dirs w) = None /\ w_dirs w' = put d (mk_folder None None) (w_dirs w))) ->
    get d (w_dirs w') <> None ->
    opened w e d w' e' r
| O_held : w_ofds w' = mk_ofd (w_next w) (e_proc e) d true :: w_ofds w -> w_next w' = w_next w + 1 ->
    e_lock e' = Some (w_next w) -> r <> Refused -> locked w d = false -> get d (w_dirs w') <> None ->
    opened w e d w' e' r.

Lemma locked_dirs : forall a o n v b d, locked (mk_world a o n v) d = locked (mk_world b o n v) d.
Proof. reflexivity. Qed.

Lemma open_shape : forall w e d u f w' e' r, open_start w e d u f = (w', e', r) ->
  w_envs w' = w_envs w /\ e_proc e' = e_proc e /\ e_dir e' = Some d /\ only d (w_dirs w) (w_dirs w') /\
  opened w e d w' e' r /\ (r = Done -> e_online e' = true).
Proof.
  intros w e d u f w' e' r H. unfold open_start in H.
  set (e1 := set_place e d u) in *.
  set (there := match get d (w_dirs w) with Some _ => true | None => false end) in *.
  destruct (negb there && hits f F_mkdir) eqn:B.
  { injection H as <- <- <-. repeat split; auto; try discriminate. apply O_none; auto. }
  set (w1 := if there then w else with_dirs w (put d (mk_folder None None) (w_dirs w))) in *.
  assert (W1 : w_ofds w1 = w_ofds w /\ w_next w1 = w_next w /\ w_envs w1 = w_envs w /\
    (w_dirs w1 = w_dirs w \/ (get d (w_dirs w) = None /\ w_dirs w1 = put d (mk_folder None None) (w_dirs w))) /\
    get d (w_dirs w1) <> None).
  { unfold w1, there. destruct (get d (w_dirs w)) eqn:G.
    - repeat split; auto. rewrite G. discriminate.
    - repeat split; auto. cbn [w_dirs with_dirs]. rewrite get_put_same. discriminate. }
  destruct W1 as (Wo & Wn & We & Wd & Wt). clearbody w1.
  assert (O1 : only d (w_dirs w) (w_dirs w1)).
  { destruct Wd as [-> | [_ ->]]; [apply only_refl|apply only_put]. }
  assert (Lk : locked w1 d = locked w d) by (unfold locked; now rewrite Wo).
  destruct (hits f F_stat).
  { injection H as <- <- <-. repeat (split; [assumption || reflexivity|]). split; [|discriminate].
    apply O_none; auto. }
  destruct (hits f F_open).
  { injection H as <- <- <-. repeat (split; [assumption || reflexivity|]). split; [|discriminate].
    apply O_none; auto. }
  destruct (locked w1 d) eqn:L1.
  { injection H as <- <- <-. repeat (split; [assumption || reflexivity|]). split; [|discriminate].
    apply O_free; cbn; rewrite ?Wo, ?Wn; auto. discriminate. }
  destruct (hits f F_flock).
  { injection H as <- <- <-. repeat (split; [assumption || reflexivity|]). split; [|discriminate].
    apply O_free; cbn; rewrite ?Wo, ?Wn; auto. discriminate. }
  set (e2 := set_lock e1 (Some (w_next w1))) in *.
  set (w2 := mk_world (w_dirs w1) _ _ _) in *.
  assert (HELD : forall w5 e5 r5, w_ofds w5 = w_ofds w2 -> w_next w5 = w_next w2 -> w_envs w5 = w_envs w2 ->
     e_proc e5 = e_proc e -> e_dir e5 = Some d -> e_lock e5 = e_lock e2 -> only d (w_dirs w2) (w_dirs w5) -> r5 <> Refused ->
     (r5 = Done -> e_online e5 = true) ->
     w_envs w5 = w_envs w /\ e_proc e5 = e_proc e /\ e_dir e5 = Some d /\ only d (w_dirs w) (w_dirs w5) /\
     opened w e d w5 e5 r5 /\ (r5 = Done -> e_online e5 = true)).
  { intros w5 e5 r5 A1 A2 A3 A4 A5 A6 A7 A8 A9.
    split; [rewrite A3; exact We|]. split; [exact A4|]. split; [exact A5|].
    split. { apply only_trans with (w_dirs w1); [exact O1|exact A7]. }
    split; [|exact A9]. apply O_held; [|  |  |exact A8|congruence|].
    - rewrite A1. unfold w2; cbn. now rewrite Wo, Wn.
    - rewrite A2. unfold w2; cbn. now rewrite Wn.
    - rewrite A6. unfold e2; cbn. now rewrite Wn.
    - destruct A7 as [_ A7]. apply A7. exact Wt. }
  destruct (hits f F_conf).
  { injection H as <- <- <-. apply HELD; auto; try discriminate. apply only_refl. }
  destruct (match get d (w_dirs w2) with Some _ => _ | None => _ end) as [w3 e3] eqn:C.
  assert (C3 : w_ofds w3 = w_ofds w2 /\ w_next w3 = w_next w2 /\ w_envs w3 = w_envs w2 /\
     only d (w_dirs w2) (w_dirs w3) /\ e_proc e3 = e_proc e /\ e_dir e3 = Some d /\ e_lock e3 = e_lock e2).
  { destruct (get d (w_dirs w2)) as [[[c|] l]|]; injection C as <- <-;
      repeat split; auto; try apply only_refl; try apply only_put. }
  destruct C3 as (C1 & C2 & C3 & C4 & C5 & C6 & C7).
  destruct (hits f F_recover).
  { injection H as <- <- <-. apply HELD; auto; discriminate. }
  destruct (hits f F_wal).
  { injection H as <- <- <-. apply HELD; auto; discriminate. }
  destruct (start_wal w3 (set_catalog e3) d) as [[w5 e5] r5] eqn:S.
  destruct (start_wal_shape _ _ _ _ _ _ S) as ((S1 & S2 & S3) & S4 & _ & S5 & S6 & _); [exact C6|].
  unfold place in S4. cbn in S4. injection S4 as P1 P2 P3 P4 P5.
  assert (K : forall rr ee, e_proc ee = e_proc e5 -> e_dir ee = e_dir e5 -> e_lock ee = e_lock e5 -> rr <> Refused ->
     (rr = Done -> e_online ee = true) ->
     w_envs w5 = w_envs w /\ e_proc ee = e_proc e /\ e_dir ee = Some d /\ only d (w_dirs w) (w_dirs w5) /\
     opened w e d w5 ee rr /\ (rr = Done -> e_online ee = true)).
  { intros rr ee K1 K2 K3 K4 K5. apply HELD; try congruence.
    now apply only_trans with (w_dirs w3). exact K5. }
  destruct r5; [|congruence|].
  - destruct (hits f F_late); injection H as <- <- <-; apply K; auto; discriminate.
  - injection H as <- <- <-; apply K; auto; discriminate.
Qed.

Lemma save_shape : forall w e w' r, save_config w e = (w', r) ->
  same_ofds w w' /\ r <> Refused /\
  (w_dirs w' = w_dirs w /\ r = Failed \/
   exists d c l, e_dir e = Some d /\ get d (w_dirs w) = Some (mk_folder (Some c) l) /\ r = Done /\
     w_dirs w' = put d (mk_folder (Some (conf_of e)) l) (w_dirs w)).
Proof.
  intros w e w' r H. unfold save_config in H.
  destruct (e_dir e) as [d|] eqn:D.
  2:{ injection H as <- <-. repeat split; try discriminate. left; auto. }
  destruct (get d (w_dirs w)) as [[[c|] l]|] eqn:G; injection H as <- <-; repeat split; try discriminate; auto.
  right. exists d, c, l. auto.
Qed.

(* every other call through a handle *)
Definition act (w : world) (e : env) (c : call) : res (world * env * ret) :=
  match c with
  | Cloud _ n => Ok (create_cloud w e n)
  | Storage _ n => Ok (create_storage w e n)
  | Write _ => write w e
  | Rotate _ => Ok (rotate w e)
  | Gc _ min => Ok (gc w e min)
  | _ => Err
  end.

Definition near (e : env) (d : N) : Prop :=
  e_dir e = Some d \/ exists i n, e_cur e = Some (d, i, n).

Lemma act_shape : forall w e c w' e' r, act w e c = Ok (w', e', r) ->
  same_ofds w w' /\ place e' = place e /\ r <> Refused /\
  (w_dirs w' = w_dirs w \/ exists d x, near e d /\ get d (w_dirs w) <> None /\ w_dirs w' = put d x (w_dirs w)).
Proof.
  intros w e c w' e' r H. destruct c; cbn in H; try discriminate.
  - (* Cloud *) injection H as H. unfold create_cloud in H.
    destruct (existsb _ _). { injection H as <- <- <-. repeat split; try discriminate; auto. }
    destruct (save_config w _) as [w1 r1] eqn:S. injection H as <- <- <-.
    destruct (save_shape _ _ _ _ S) as (S1 & S2 & S3).
    split; [exact S1|]. split; [reflexivity|]. split; [exact S2|].
    destruct S3 as [[S3 _]|(d & c & l & D & G & _ & P)]; [now left|].
    right. exists d. eexists. split; [left; exact D|]. split; [congruence|exact P].
  - (* Storage *) injection H as H. unfold create_storage in H.
    destruct (existsb _ _). { injection H as <- <- <-. repeat split; try discriminate; auto. }
    destruct (e_dir e) as [d0|] eqn:D0.
    2:{ injection H as <- <- <-. repeat split; try discriminate; auto. }
    destruct (get d0 (w_dirs w)) as [f0|] eqn:G0.
    2:{ injection H as <- <- <-. repeat split; try discriminate; auto. }
    destruct (save_config w _) as [w1 r1] eqn:S. injection H as <- <- <-.
    destruct (save_shape _ _ _ _ S) as (S1 & S2 & S3).
    split; [exact S1|]. split; [unfold place; cbn; now rewrite D0|]. split; [exact S2|].
    destruct S3 as [[S3 _]|(d & c & l & D & G & _ & P)]; [now left|].
    cbn in D. right. exists d. eexists. split; [left; congruence|]. split; [congruence|exact P].
  - (* Write *) unfold write in H. destruct (e_storages e); [discriminate|].
    destruct (e_cur e) as [[[d i] n0]|] eqn:U; [|discriminate]. injection H as <- <- <-.
    split; [repeat split|]. split; [reflexivity|]. split; [discriminate|].
    cbn [w_dirs with_dirs].
    destruct (get d (w_dirs w)) as [[c [files|]]|] eqn:G; [|now left|now left].
    destruct (file_of i files); [|now left]. right. exists d. eexists.
    split; [right; eauto|]. split; [congruence|reflexivity].
  - (* Rotate *) injection H as H. destruct (rotate_shape _ _ _ _ _ H) as (S & P & _ & N & C).
    split; [exact S|]. split; [exact P|]. split; [exact N|].
    destruct C as [(C & _)|(d & c & f1 & f2 & D & G & W & _)]; [now left|].
    right. exists d. eexists. split; [now left|]. split; [congruence|exact W].
  - (* Gc *) injection H as H. unfold gc in H.
    destruct (wal_id_gc_between min (e_ids e)) as [gone ids].
    destruct gone as [|g gone]. { injection H as <- <- <-. repeat split; try discriminate; auto. }
    destruct (e_dir e) as [d|] eqn:D.
    2:{ injection H as <- <- <-. repeat split; try discriminate; auto. }
    destruct (get d (w_dirs w)) as [[c [files|]]|] eqn:G;
      try (injection H as <- <- <-; repeat split; try discriminate; auto; fail).
    destruct (unlink (g :: gone) files) as [f' r'] eqn:U. injection H as <- <- <-.
    split; [repeat split|]. split; [reflexivity|]. split.
    { clear - U. revert files f' U. generalize (g :: gone). clear g gone.
      induction l as [|i l IH]; cbn; intros files f' U; [injection U as <- <-; discriminate|].
      destruct (file_of i files); [eauto|injection U as <- <-; discriminate]. }
    right. exists d. eexists. split; [now left|]. split; [congruence|reflexivity].
Qed.
