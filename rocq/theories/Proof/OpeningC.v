(* Programs with care, and descriptors that are lost. *)
From Coq Require Import List NArith Bool Lia.
From Verif Require Import Model.Base Model.Wal Model.Opening Spec.Opening Proof.OpeningL Proof.OpeningI.
Import ListNotations.
Local Open Scope N_scope.

Definition settled (w : world) (e : env) (d : N) : Prop :=
  (exists i n, e_cur e = Some (d, i, n)) /\ e_vclouds e = e_clouds e /\ e_vstorages e = e_storages e /\
  exists f c, get d (w_dirs w) = Some f /\ f_conf f = Some c /\ agrees e c /\ In 0 (e_storages e).

Lemma main_in : forall l, existsb (N.eqb MAIN) l = true <-> In 0 l.
Proof.
  intro l. rewrite existsb_exists. split.
  - intros (x & I & E). apply N.eqb_eq in E. subst. exact I.
  - intro I. exists 0. split; [exact I|reflexivity].
Qed.

(* the first opening through a handle *)
Lemma open_fresh : forall w p d u f w' e' r, open_start w (env_init p) d u f = (w', e', r) ->
  (forall f0 c, get d (w_dirs w) = Some f0 -> f_conf f0 = Some c ->
     exists f1, get d (w_dirs w') = Some f1 /\ f_conf f1 = Some c) /\
  (forall c f1, (forall f0, get d (w_dirs w) = Some f0 -> f_conf f0 = None) ->
     get d (w_dirs w') = Some f1 -> f_conf f1 = Some c -> c = mk_conf u [] []) /\
  (r = Done -> settled w' e' d).
Proof.
  intros w p d u f w' e' r H. unfold open_start in H.
  set (e1 := set_place (env_init p) d u) in *.
  set (there := match get d (w_dirs w) with Some _ => true | None => false end) in *.
  destruct (negb there && hits f F_mkdir) eqn:B.
  { injection H as <- <- <-. split; [eauto|]. split; [|discriminate]. intros c f1 K G C.
    rewrite (K _ G) in C. discriminate. }
  set (w1 := if there then w else with_dirs w (put d (mk_folder None None) (w_dirs w))) in *.
  assert (W1 : exists f1, get d (w_dirs w1) = Some f1 /\
     (forall f0, get d (w_dirs w) = Some f0 -> f1 = f0) /\ (get d (w_dirs w) = None -> f_conf f1 = None)).
  { unfold w1, there. destruct (get d (w_dirs w)) as [x|] eqn:G.
    - exists x. split; [exact G|]. split; [intros f0 E; congruence|discriminate].
    - exists (mk_folder None None). cbn [w_dirs with_dirs]. rewrite get_put_same.
      split; [reflexivity|]. split; [discriminate|reflexivity]. }
  clearbody w1. destruct W1 as (f1 & G1 & A1 & A2).
  assert (STAY : forall wx, w_dirs wx = w_dirs w1 ->
    (forall f0 c, get d (w_dirs w) = Some f0 -> f_conf f0 = Some c ->
       exists f1, get d (w_dirs wx) = Some f1 /\ f_conf f1 = Some c) /\
    (forall c f1, (forall f0, get d (w_dirs w) = Some f0 -> f_conf f0 = None) ->
       get d (w_dirs wx) = Some f1 -> f_conf f1 = Some c -> c = mk_conf u [] [])).
  { intros wx E. rewrite E. split.
    - intros f0 c K C. exists f1. split; [exact G1|]. now rewrite (A1 _ K).
    - intros c f2 K G C. rewrite G1 in G. injection G as <-. exfalso.
      destruct (get d (w_dirs w)) as [x|] eqn:Gw.
      + rewrite (A1 _ eq_refl), (K _ eq_refl) in C. discriminate.
      + rewrite (A2 eq_refl) in C. discriminate. }
  destruct (hits f F_stat).
  { injection H as <- <- <-. destruct (STAY w1 eq_refl) as [X Y]. split; [exact X|]. split; [exact Y|discriminate]. }
  destruct (hits f F_open).
  { injection H as <- <- <-. destruct (STAY w1 eq_refl) as [X Y]. split; [exact X|]. split; [exact Y|discriminate]. }
  destruct (locked w1 d).
  { injection H as <- <- <-. destruct (STAY w1 eq_refl) as [X Y]. split; [exact X|]. split; [exact Y|discriminate]. }
  destruct (hits f F_flock).
  { injection H as <- <- <-. destruct (STAY w1 eq_refl) as [X Y]. split; [exact X|]. split; [exact Y|discriminate]. }
  set (e2 := set_lock e1 (Some (w_next w1))) in *.
  set (w2 := mk_world (w_dirs w1) _ _ _) in *.
  destruct (hits f F_conf).
  { injection H as <- <- <-. destruct (STAY w2 eq_refl) as [X Y]. split; [exact X|]. split; [exact Y|discriminate]. }
  assert (D2 : get d (w_dirs w2) = Some f1) by exact G1.
  rewrite D2 in H.
  assert (C3 : exists w3 e3 c3 f3,
     (match f1 with
      | mk_folder (Some c) _ => (w2, set_conf e2 c)
      | mk_folder None l => (with_dirs w2 (put d (mk_folder (Some (conf_of e2)) l) (w_dirs w2)), e2)
      end) = (w3, e3) /\ get d (w_dirs w3) = Some f3 /\ f_conf f3 = Some c3 /\
      e_uuid e3 = Some (c_uuid c3) /\ e_vclouds e3 = c_clouds c3 /\ e_vstorages e3 = c_storages c3 /\
      e_clouds e3 = [] /\ e_storages e3 = [] /\ e_dir e3 = Some d /\ e_cur e3 = None /\
      (f_conf f1 = Some c3 \/ (f_conf f1 = None /\ c3 = mk_conf u [] []))).
  { destruct f1 as [[c|] l].
    - do 4 eexists. split; [reflexivity|]. split; [exact D2|]. split; [reflexivity|]. repeat split. now left.
    - do 4 eexists. split; [reflexivity|]. cbn [with_dirs w_dirs]. split; [apply get_put_same|].
      split; [reflexivity|]. repeat split. now right. }
  destruct C3 as (w3 & e3 & c3 & f3 & Q & G3 & F3 & U1 & U2 & U3 & U4 & U5 & U6 & U7 & U8).
  assert (H' : (let e4 := set_catalog e3 in
          if hits f F_recover then (w3, e4, Failed)
          else if hits f F_wal then (w3, e4, Failed)
          else
            let '(w5, e5, r) := start_wal w3 e4 d in
            match r with
            | Done => if hits f F_late then (w5, e5, Failed) else (w5, set_online e5, Done)
            | _ => (w5, e5, r)
            end) = (w', e', r)).
  { destruct f1 as [[c|] l]; injection Q as <- <-; exact H. }
  clear H. cbv zeta in H'.
  assert (KEEP : forall wx, (exists fx, get d (w_dirs wx) = Some fx /\ f_conf fx = Some c3) ->
    (forall f0 c, get d (w_dirs w) = Some f0 -> f_conf f0 = Some c ->
       exists f1, get d (w_dirs wx) = Some f1 /\ f_conf f1 = Some c) /\
    (forall c f1, (forall f0, get d (w_dirs w) = Some f0 -> f_conf f0 = None) ->
       get d (w_dirs wx) = Some f1 -> f_conf f1 = Some c -> c = mk_conf u [] [])).
  { intros wx (fx & Gx & Cx). split.
    - intros f0 c K C. exists fx. split; [exact Gx|]. rewrite Cx. rewrite <- (A1 _ K) in C. destruct U8 as [U8|[U8 _]]; congruence.
    - intros c f2 K G C. rewrite Gx in G. injection G as <-. rewrite Cx in C. injection C as <-.
      destruct U8 as [U8|[_ U8]]; [|exact U8]. exfalso. destruct (get d (w_dirs w)) as [x|] eqn:Gw.
      + rewrite (A1 _ eq_refl), (K _ eq_refl) in U8. discriminate.
      + rewrite (A2 eq_refl) in U8. discriminate. }
  destruct (hits f F_recover).
  { injection H' as <- <- <-. destruct (KEEP w3) as [X Y]; [eauto|]. split; [exact X|]. split; [exact Y|discriminate]. }
  destruct (hits f F_wal).
  { injection H' as <- <- <-. destruct (KEEP w3) as [X Y]; [eauto|]. split; [exact X|]. split; [exact Y|discriminate]. }
  destruct (start_wal w3 (set_catalog e3) d) as [[w5 e5] r5] eqn:S.
  destruct (start_wal_shape _ _ _ _ _ _ S) as (_ & S4 & SL & S5 & _ & S6 & S7); [exact U6|].
  destruct (S6 _ G3) as (f5 & G5 & F5).
  destruct (KEEP w5) as [X Y]; [exists f5; split; congruence|].
  assert (R : w' = w5 /\ (r = Done -> r5 = Done /\ e' = set_online e5)).
  { destruct r5; [destruct (hits f F_late)| |]; injection H' as <- <- <-; split; auto; discriminate. }
  destruct R as [-> R]. split; [exact X|]. split; [exact Y|].
  intro Hr. destruct (R Hr) as [R5 ->].
  unfold place in S4. unfold lists in SL. cbn in S4, SL.
  injection S4 as P1 P2 P3 P4 P5. injection SL as L1 L2 L3 L4.
  destruct (S7 R5) as (i & n & Cur). { cbn. rewrite U7. discriminate. }
  rewrite U4 in L3. rewrite U5 in L2, L4. cbn [app] in L2, L3, L4.
  split; [exists i, n; exact Cur|]. split; [cbn; congruence|].
  assert (MI := main_in (e_vstorages e3)).
  split. { cbn. destruct (existsb (N.eqb MAIN) (e_vstorages e3)) eqn:Z; congruence. }
  exists f5, c3. split; [exact G5|]. split; [congruence|]. unfold agrees. cbn. rewrite L4, <- U3.
  assert (X5 : e_uuid e5 = Some (c_uuid c3) /\ e_clouds e5 = c_clouds c3) by (split; congruence).
  destruct X5 as [X5 X6]. destruct (existsb (N.eqb MAIN) (e_vstorages e3)) eqn:Z.
  - split; [auto|]. now apply MI.
  - split; [|apply in_or_app; right; now left]. split; [exact X5|]. split; [exact X6|].
    right. split; [|reflexivity]. intro In0. apply MI in In0. congruence.
Qed.

Definition conf_at (w : world) (d : N) : option conf :=
  match get d (w_dirs w) with Some f => f_conf f | None => None end.

(* a call through a handle that is settled *)
Lemma act_settled : forall w e c w' e' r d, act w e c = Ok (w', e', r) -> e_dir e = Some d -> settled w e d ->
  settled w' e' d /\
  (exists a b, conf_at w d = Some a /\ conf_at w' d = Some b /\ c_uuid b = c_uuid a /\
    (NoDup (e_clouds e) -> NoDup (e_storages e) -> NoDup (e_clouds e') /\ NoDup (e_storages e')) /\
    (b = a \/ c_clouds b = e_clouds e' /\ c_storages b = e_storages e')) /\
  (forall k, k <> d -> get k (w_dirs w') = get k (w_dirs w)).
Proof.
  intros w e c w' e' r d H D S.
  destruct (act_shape _ _ _ _ _ _ H) as (_ & P & _ & DD).
  assert (OTH : forall k, k <> d -> get k (w_dirs w') = get k (w_dirs w)).
  { intros k n. destruct DD as [-> | (d0 & x & Nr & _ & ->)]; [reflexivity|]. apply get_put_other.
    destruct S as ((i & m & C) & _). destruct Nr as [Nr|(j & n0 & Nr)]; congruence. }
  destruct S as ((i & n & Cur) & V1 & V2 & f & c0 & G & F & A & M0).
  assert (CA : conf_at w d = Some c0) by (unfold conf_at; rewrite G; exact F).
  assert (NC : forall l m, existsb (N.eqb m) l = false -> NoDup l -> NoDup (l ++ [m])).
  { intros l m E Nd. induction l as [|x l IH]; cbn; [constructor; [auto|constructor]|]. cbn in E. apply orb_false_iff in E as [E1 E2].
    apply NoDup_cons_iff in Nd as [N1 N2]. constructor; [|auto]. rewrite in_app_iff. cbn.
    intros [X|[X|[]]]; [auto|]. subst. rewrite N.eqb_refl in E1. discriminate. }
  destruct c; cbn in H; try discriminate.
  - (* Cloud *) injection H as H. unfold create_cloud in H.
    destruct (existsb _ _) eqn:X.
    { injection H as <- <- <-. split; [repeat split; eauto 8|]. split; [|exact OTH]. exists c0, c0. auto 8. }
    destruct (save_config w _) as [w1 r1] eqn:S. injection H as <- <- <-.
    unfold save_config in S. cbn [e_dir] in S. rewrite D, G in S. destruct f as [fc fl]. cbn in F. subst fc.
    injection S as <- <-. destruct A as (A1 & A2 & A3).
    assert (GP : get d (put d (mk_folder (Some (mk_conf (c_uuid c0) (e_clouds e ++ [n0]) (e_vstorages e))) fl) (w_dirs w))
                 = Some (mk_folder (Some (mk_conf (c_uuid c0) (e_clouds e ++ [n0]) (e_vstorages e))) fl))
      by apply get_put_same.
    unfold conf_of, settled, conf_at. cbn [with_dirs w_dirs e_uuid e_vclouds e_vstorages e_clouds e_storages e_cur].
    rewrite A1. rewrite GP, G. split.
    + split; [eauto|]. split; [reflexivity|]. split; [exact V2|]. do 2 eexists. split; [reflexivity|]. split; [reflexivity|].
      split; [split; [reflexivity|]; split; [reflexivity|]; left; cbn; congruence|exact M0].
    + split; [|intros k Hk; now apply get_put_other]. do 2 eexists. split; [reflexivity|]. split; [reflexivity|]. split; [reflexivity|].
      split; [auto|]. right. cbn. auto.
  - (* Storage *) injection H as H. unfold create_storage in H.
    destruct (existsb _ _) eqn:X.
    { injection H as <- <- <-. split; [repeat split; eauto 8|]. split; [|exact OTH]. exists c0, c0. auto 8. }
    rewrite D, G in H.
    destruct (save_config w _) as [w1 r1] eqn:S. injection H as <- <- <-.
    unfold save_config in S. cbn [e_dir] in S. rewrite G in S. destruct f as [fc fl]. cbn in F. subst fc.
    injection S as <- <-. destruct A as (A1 & A2 & A3).
    assert (GP : get d (put d (mk_folder (Some (mk_conf (c_uuid c0) (e_vclouds e) (e_storages e ++ [n0]))) fl) (w_dirs w))
                 = Some (mk_folder (Some (mk_conf (c_uuid c0) (e_vclouds e) (e_storages e ++ [n0]))) fl))
      by apply get_put_same.
    unfold conf_of, settled, conf_at. cbn [with_dirs w_dirs e_uuid e_vclouds e_vstorages e_clouds e_storages e_cur].
    rewrite A1. rewrite GP, G. split.
    + split; [eauto|]. split; [exact V1|]. split; [reflexivity|]. do 2 eexists. split; [reflexivity|]. split; [reflexivity|].
      split; [split; [reflexivity|]; split; [cbn; congruence|]; left; cbn; congruence|apply in_or_app; now left].
    + split; [|intros k Hk; now apply get_put_other]. do 2 eexists. split; [reflexivity|]. split; [reflexivity|]. split; [reflexivity|].
      split; [auto|]. right. cbn. auto.
  - (* Write *) unfold write in H. destruct (e_storages e) eqn:St; [discriminate|]. rewrite Cur in H.
    rewrite G in H. destruct f as [fc fl]. cbn in F. subst fc. injection H as <- <- <-.
    match goal with |- context [with_dirs w ?q] => set (dirs := q) in * end.
    assert (CF : exists l', get d dirs = Some (mk_folder (Some c0) l')).
    { unfold dirs. destruct fl as [files|]; [destruct (file_of i files)|]; eauto. rewrite get_put_same. eauto. }
    clearbody dirs. destruct CF as (l' & CF). split.
    + split; [cbn; eauto|]. split; [exact V1|]. split; [cbn; congruence|]. exists (mk_folder (Some c0) l'), c0. cbn [set_wal e_storages]. rewrite St. auto.
    + split; [|exact OTH]. exists c0, c0. unfold conf_at. cbn [with_dirs w_dirs]. rewrite G, CF. cbn. rewrite St. auto 8.
  - (* Rotate *) injection H as H. destruct (rotate_shape _ _ _ _ _ H) as (_ & _ & L & _ & C).
    unfold place in P. unfold lists in L. injection P as P1 P2 P3 P4 P5. injection L as L1 L2 L3 L4.
    assert (CF : exists f', get d (w_dirs w') = Some f' /\ f_conf f' = Some c0).
    { destruct C as [(-> & _)|(d0 & c1 & f1 & f2 & D0 & G0 & -> & _)]; [eauto|].
      assert (d0 = d) by congruence. subst d0. rewrite get_put_same. eexists. split; [reflexivity|]. cbn. rewrite G in G0. injection G0 as G0. rewrite G0 in F. exact F. }
    assert (CU : exists i n, e_cur e' = Some (d, i, n)).
    { destruct C as [(_ & -> & _)|(d0 & c1 & f1 & f2 & D0 & _ & _ & C)]; [eauto|]. assert (d0 = d) by congruence. subst; exact C. }
    destruct CF as (f' & G' & F'). split.
    + split; [exact CU|]. split; [congruence|]. split; [congruence|]. exists f', c0. split; [exact G'|]. split; [exact F'|].
      destruct A as (A1 & A2 & A3). unfold agrees. rewrite P5, L3, L4. auto 6.
    + split; [|exact OTH]. exists c0, c0. unfold conf_at. rewrite G, G'. rewrite L3, L4. auto 8.
  - (* Gc *) injection H as H. unfold gc in H.
    destruct (wal_id_gc_between min (e_ids e)) as [gone ids].
    assert (ST : forall wx, get d (w_dirs wx) = get d (w_dirs w) \/ (exists l', get d (w_dirs wx) = Some (mk_folder (Some c0) l')) ->
       w' = wx -> e' = set_wal e (e_lsn e) ids (e_cur e) ->
       settled w' e' d /\
       (exists a b, conf_at w d = Some a /\ conf_at w' d = Some b /\ c_uuid b = c_uuid a /\
         (NoDup (e_clouds e) -> NoDup (e_storages e) -> NoDup (e_clouds e') /\ NoDup (e_storages e')) /\
         (b = a \/ c_clouds b = e_clouds e' /\ c_storages b = e_storages e')) /\
       (forall k, k <> d -> get k (w_dirs w') = get k (w_dirs w))).
    { intros wx K -> ->. assert (K' : exists f', get d (w_dirs wx) = Some f' /\ f_conf f' = Some c0).
      { destruct K as [K|[l' K]]; rewrite K; [exists f; auto|eexists; split; reflexivity]. }
      destruct K' as (f' & G' & F'). split.
      - split; [cbn; eauto|]. split; [exact V1|]. split; [exact V2|]. exists f', c0. auto.
      - split; [|exact OTH]. exists c0, c0. unfold conf_at. rewrite G, G'. cbn. auto 8. }
    destruct gone as [|g gone]. { injection H as <- <- <-. apply (ST w); auto. }
    rewrite D, G in H. destruct f as [fc [files|]].
    + destruct (unlink (g :: gone) files) as [f' r'] eqn:U. injection H as <- <- <-.
      eapply ST; [|reflexivity|reflexivity]. right. cbn [with_dirs w_dirs]. rewrite get_put_same. cbn in F. rewrite F. eauto.
    + injection H as <- <- <-. apply (ST w); auto.
Qed.
