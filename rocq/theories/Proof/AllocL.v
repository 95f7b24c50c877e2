(* Lemmas on memory pages and blocks. *)
From Coq Require Import NArith ZArith List Bool Lia Permutation.
Import ListNotations.
From Verif Require Import Model.Base Model.Alloc Spec.Alloc.

Definition hp (hs : list heap) : list N := flat_map (map fst) hs.

Lemma nth_set_same {A} (a : A) : forall l k b, nth_error l k = Some b -> nth_error (set_nth k a l) k = Some a.
Proof. induction l as [|x l IH]; intros [|k] b H; cbn in *; try discriminate; [reflexivity|]. eapply IH, H. Qed.
Lemma nth_set_other {A} (a : A) : forall l k j, j <> k -> nth_error (set_nth k a l) j = nth_error l j.
Proof. induction l as [|x l IH]; intros [|k] [|j] H; cbn; try reflexivity; [congruence|]. apply IH. congruence. Qed.
Lemma set_length {A} (a : A) : forall l k, length (set_nth k a l) = length l.
Proof. induction l as [|x l IH]; intros [|k]; cbn; auto. Qed.
Lemma set_same {A} : forall (l : list A) k b, nth_error l k = Some b -> set_nth k b l = l.
Proof. induction l as [|x l IH]; intros [|k] b H; cbn in *; try discriminate; [congruence|]. rewrite (IH _ _ H). reflexivity. Qed.

Lemma hp_set h' : forall hs k h, nth_error hs k = Some h ->
  Permutation (map fst h ++ hp (set_nth k h' hs)) (map fst h' ++ hp hs).
Proof.
  induction hs as [|x hs IH]; intros [|k] h H; cbn in *; try discriminate.
  - injection H as ->. rewrite !app_assoc. apply Permutation_app_tail, Permutation_app_comm.
  - rewrite !app_assoc. rewrite (Permutation_app_comm (map fst h) (map fst x)), (Permutation_app_comm (map fst h') (map fst x)).
    rewrite <- !app_assoc. apply Permutation_app_head. apply IH, H.
Qed.

Lemma hp_in p : forall hs, In p (hp hs) <-> exists k h u, nth_error hs k = Some h /\ In (p, u) h.
Proof.
  intro hs. unfold hp. rewrite in_flat_map. split.
  - intros (h & Hh & Hp). apply In_nth_error in Hh. destruct Hh as [k Hk]. apply in_map_iff in Hp. destruct Hp as ([q u] & <- & Hq).
    exists k, h, u. auto.
  - intros (k & h & u & Hk & Hu). exists h. split; [eapply nth_error_In, Hk|]. apply in_map_iff. exists (p, u). auto.
Qed.

Lemma nodup_app {A} (a b : list A) : NoDup (a ++ b) <-> NoDup a /\ NoDup b /\ forall x, In x a -> ~ In x b.
Proof.
  induction a as [|x a IH]; cbn.
  - split; [intro H; repeat split; [constructor|exact H|tauto]|tauto].
  - split.
    + intro H. inversion H as [|y z Hn Hd]; subst. apply IH in Hd. destruct Hd as (H1 & H2 & H3). rewrite in_app_iff in Hn.
      repeat split; [constructor; tauto|exact H2|]. intros y [<-|Hy]; [tauto|apply H3, Hy].
    + intros (H1 & H2 & H3). inversion H1 as [|y z Hn Hd]; subst. constructor.
      * rewrite in_app_iff. intros [Hx|Hx]; [tauto|]. exact (H3 x (or_introl eq_refl) Hx).
      * apply IH. repeat split; auto.
Qed.

Lemma in_heap_unique (h : heap) p u v : NoDup (map fst h) -> In (p, u) h -> In (p, v) h -> u = v.
Proof.
  induction h as [|[q w] h IH]; cbn; [tauto|]. intros Hd Hu Hv. inversion Hd as [|y z Hn Hd2]; subst.
  destruct Hu as [Eu|Hu], Hv as [Ev|Hv].
  - congruence.
  - injection Eu as -> ->. elim Hn. apply in_map_iff. exists (p, v). auto.
  - injection Ev as -> ->. elim Hn. apply in_map_iff. exists (p, u). auto.
  - apply IH; assumption.
Qed.
Lemma page_unique : forall hs i j a b p u v, NoDup (hp hs) -> nth_error hs i = Some a -> In (p, u) a ->
  nth_error hs j = Some b -> In (p, v) b -> i = j /\ u = v.
Proof.
  induction hs as [|x hs IH]; intros i j a b p u v Hd Hi Ha Hj Hb; [destruct i; discriminate|].
  cbn in Hd. apply nodup_app in Hd. destruct Hd as (D1 & D2 & D3).
  destruct i as [|i], j as [|j]; cbn in Hi, Hj.
  - injection Hi as ->. injection Hj as ->. split; [reflexivity|]. eapply in_heap_unique; eauto.
  - injection Hi as ->. elim (D3 p); [apply in_map_iff; exists (p, u); auto|]. apply hp_in. eauto.
  - injection Hj as ->. elim (D3 p); [apply in_map_iff; exists (p, v); auto|]. apply hp_in. eauto.
  - destruct (IH i j a b p u v) as [-> ->]; auto.
Qed.

Record sinv (s : sys) : Prop := mk_sinv {
  iv_psize : (0 < mm_psize (sy_mgr s) < 2 ^ 31)%Z;
  iv_nodup : NoDup (all_pages s);
  iv_used : forall k h p u, nth_error (sy_heaps s) k = Some h -> In (p, u) h -> (0 <= u <= mm_psize (sy_mgr s))%Z;
  iv_blocks : forall b, In b (sy_blocks s) -> exists h u, nth_error (sy_heaps s) (bk_heap b) = Some h /\
                 In (bk_page b, u) h /\ (0 <= bk_off b /\ 0 <= bk_size b /\ bk_off b + bk_size b <= u)%Z;
  iv_sep : ForallOrdPairs separate (sy_blocks s);
  iv_fcount : mm_fcount (sy_mgr s) = Z.of_nat (length (mm_free (sy_mgr s)));
  iv_count : mm_count (sy_mgr s) = (Z.of_nat (length (all_pages s)) + sy_failed s)%Z;
  iv_failed : (0 <= sy_failed s)%Z;
  iv_limit : mm_limit (sy_mgr s) = true -> (mm_count (sy_mgr s) * mm_psize (sy_mgr s) < mm_wm (sy_mgr s) + mm_psize (sy_mgr s))%Z;
  iv_wait : forall k size, In (k, size) (sy_wait s) -> (0 <= size <= mm_psize (sy_mgr s))%Z }.

(* the settings never change *)
Definition same_settings (a b : mgr) : Prop :=
  mm_psize a = mm_psize b /\ mm_cache a = mm_cache b /\ mm_limit a = mm_limit b /\ mm_lerr a = mm_lerr b /\ mm_wm a = mm_wm b.

(* a page popped for a heap that is not at its end: the heap gets a new page *)
Lemma all_pages_eq s : all_pages s = hp (sy_heaps s) ++ mm_free (sy_mgr s).
Proof. reflexivity. Qed.

(* adding a block at the end of what is used of its page keeps the blocks apart *)
Lemma block_sep s k h p u size : sinv s -> nth_error (sy_heaps s) k = Some h -> In (p, u) h -> 
  Forall (separate (mk_block k p u size)) (sy_blocks s).
Proof.
  intros I Hk Hp. apply Forall_forall. intros b Hb. destruct (iv_blocks s I b Hb) as (h2 & u2 & H1 & H2 & H3).
  destruct (N.eq_dec p (bk_page b)) as [E|E]; [|left; exact E]. subst p.
  pose proof (iv_nodup s I) as D. rewrite all_pages_eq in D. apply nodup_app in D. destruct D as (D & _ & _).
  destruct (page_unique _ _ _ _ _ _ _ _ D Hk Hp H1 H2) as [_ ->]. right. right. cbn. lia.
Qed.
Lemma fresh_sep s k p size : sinv s -> ~ In p (hp (sy_heaps s)) -> Forall (separate (mk_block k p 0 size)) (sy_blocks s).
Proof.
  intros I Hp. apply Forall_forall. intros b Hb. destruct (iv_blocks s I b Hb) as (h2 & u2 & H1 & H2 & _).
  left. cbn. intros ->. apply Hp. apply hp_in. eauto.
Qed.

(* a step that puts page [p] in front of heap [k] *)
Lemma inv_new_page s k h p size m wait :
  sinv s -> nth_error (sy_heaps s) k = Some h -> (0 <= size <= mm_psize (sy_mgr s))%Z ->
  same_settings m (sy_mgr s) ->
  (~ In p (hp (sy_heaps s))) ->
  Permutation (p :: hp (sy_heaps s) ++ mm_free m) (hp (sy_heaps s) ++ mm_free (sy_mgr s)) /\ mm_count m = mm_count (sy_mgr s)
  \/ (~ In p (all_pages s) /\ mm_free m = mm_free (sy_mgr s) /\ mm_count m = (mm_count (sy_mgr s) + 1)%Z /\
      (mm_limit m = true -> (mm_count (sy_mgr s) * mm_psize m < mm_wm m)%Z)) ->
  mm_fcount m = Z.of_nat (length (mm_free m)) ->
  (forall w, In w wait -> In w (sy_wait s)) ->
  sinv (mk_sys m (set_nth k ((p, size) :: h) (sy_heaps s)) wait (mk_block k p 0 size :: sy_blocks s) (sy_failed s)).
Proof.
  intros I Hk Hs (E1 & E2 & E3 & E4 & E5) Hp Hm Hf Hw.
  assert (P : Permutation (hp (set_nth k ((p, size) :: h) (sy_heaps s))) (p :: hp (sy_heaps s))).
  { pose proof (hp_set ((p, size) :: h) _ _ _ Hk) as Q. cbn [map fst app] in Q.
    apply (Permutation_app_inv_l (map fst h)). etransitivity; [exact Q|]. apply Permutation_middle. }
  constructor; cbn [sy_mgr sy_heaps sy_wait sy_blocks sy_failed].
  - rewrite E1. apply I.
  - rewrite all_pages_eq. cbn [sy_mgr sy_heaps]. eapply Permutation_NoDup; [symmetry; apply Permutation_app_tail, P|].
    destruct Hm as [[Hm _]|(Hn & Hm & _)].
    + eapply Permutation_NoDup; [symmetry; exact Hm|]. apply (iv_nodup s I).
    + cbn [app]. constructor; [rewrite Hm; exact Hn|]. rewrite Hm. apply (iv_nodup s I).
  - intros k2 h2 q u Hq Hu. rewrite E1. destruct (Nat.eq_dec k2 k) as [->|Hne].
    + rewrite (nth_set_same _ _ _ _ Hk) in Hq. injection Hq as <-. destruct Hu as [Hu|Hu]; [injection Hu as <- <-; lia|].
      eapply (iv_used s I); eauto.
    + rewrite nth_set_other in Hq by exact Hne. eapply (iv_used s I); eauto.
  - intros b [<-|Hb].
    + cbn. exists ((p, size) :: h), size. rewrite (nth_set_same _ _ _ _ Hk). repeat split; try lia. left. reflexivity.
    + destruct (iv_blocks s I b Hb) as (h2 & u2 & H1 & H2 & H3). destruct (Nat.eq_dec (bk_heap b) k) as [Ek|Hne].
      * rewrite Ek in *. rewrite Hk in H1. injection H1 as <-. exists ((p, size) :: h), u2. rewrite (nth_set_same _ _ _ _ Hk). split; [reflexivity|]. split; [right; exact H2|exact H3].
      * exists h2, u2. rewrite nth_set_other by exact Hne. auto.
  - constructor; [|apply I]. apply fresh_sep; assumption.
  - exact Hf.
  - rewrite all_pages_eq. cbn [sy_mgr sy_heaps]. rewrite app_length, (Permutation_length P). cbn [length].
    pose proof (iv_count s I) as C. rewrite all_pages_eq in C.
    destruct Hm as [[Hm Hc]|(_ & Hm & Hc & _)].
    + apply Permutation_length in Hm. cbn [length] in Hm. rewrite app_length in Hm. rewrite Hc, C, <- Hm. lia.
    + rewrite Hm, Hc, C, app_length. lia.
  - apply I.
  - intro L. destruct Hm as [[_ Hc]|(_ & _ & Hc & Hl)].
    + rewrite Hc, E1, E5. apply I. congruence.
    + specialize (Hl L). rewrite Hc. rewrite E1 in *. lia.
  - intros k2 z Hz. rewrite E1. eapply (iv_wait s I). apply Hw, Hz.
Qed.

(* nothing but the pool changes *)
Lemma inv_pool s m wait failed :
  sinv s -> same_settings m (sy_mgr s) -> mm_free m = mm_free (sy_mgr s) -> mm_fcount m = mm_fcount (sy_mgr s) ->
  (mm_count m - failed = mm_count (sy_mgr s) - sy_failed s)%Z -> (sy_failed s <= failed)%Z ->
  (mm_limit m = true -> (mm_count m * mm_psize m < mm_wm m + mm_psize m)%Z) ->
  (forall k z, In (k, z) wait -> In (k, z) (sy_wait s) \/ (0 <= z <= mm_psize (sy_mgr s))%Z) ->
  sinv (mk_sys m (sy_heaps s) wait (sy_blocks s) failed).
Proof.
  intros I (E1 & E2 & E3 & E4 & E5) Ef Ec Hc Hle Hl Hw. destruct I as [I1 I2 I3 I4 I5 I6 I7 I8 I9 I10].
  constructor; cbn [sy_mgr sy_heaps sy_wait sy_blocks sy_failed]; auto.
  - rewrite E1. exact I1.
  - rewrite all_pages_eq in *. cbn [sy_mgr sy_heaps]. rewrite Ef. exact I2.
  - intros. rewrite E1. eauto.
  - rewrite Ef, Ec. exact I6.
  - rewrite all_pages_eq in *. cbn [sy_mgr sy_heaps]. rewrite Ef. lia.
  - lia.
  - intros k z Hz. rewrite E1. destruct (Hw k z Hz) as [Q|Q]; [eapply I10, Q|exact Q].
Qed.

(* a block from the last page *)
Lemma inv_bump s k p u t size wait :
  sinv s -> nth_error (sy_heaps s) k = Some ((p, u) :: t) -> (0 <= size)%Z -> (u + size <= mm_psize (sy_mgr s))%Z ->
  (forall w, In w wait -> In w (sy_wait s)) ->
  sinv (mk_sys (sy_mgr s) (set_nth k ((p, (u + size)%Z) :: t) (sy_heaps s)) wait (mk_block k p u size :: sy_blocks s) (sy_failed s)).
Proof.
  intros I Hk Hs Hu Hw.
  assert (B := block_sep s k _ p u size I Hk (or_introl eq_refl)).
  assert (U := iv_used s I k _ p u Hk (or_introl eq_refl)).
  assert (P : Permutation (hp (set_nth k ((p, (u + size)%Z) :: t) (sy_heaps s))) (hp (sy_heaps s))).
  { pose proof (hp_set ((p, (u + size)%Z) :: t) _ _ _ Hk) as Q. cbn [map fst] in Q. eapply Permutation_app_inv_l. exact Q. }
  destruct I as [I1 I2 I3 I4 I5 I6 I7 I8 I9 I10].
  constructor; cbn [sy_mgr sy_heaps sy_wait sy_blocks sy_failed]; auto.
  - rewrite all_pages_eq in *. cbn [sy_mgr sy_heaps]. eapply Permutation_NoDup; [symmetry; apply Permutation_app_tail, P|exact I2].
  - intros k2 h2 q v Hq Hv. destruct (Nat.eq_dec k2 k) as [->|Hne].
    + rewrite (nth_set_same _ _ _ _ Hk) in Hq. injection Hq as <-. destruct Hv as [Hv|Hv]; [injection Hv as <- <-; lia|].
      eapply I3; [exact Hk|right; exact Hv].
    + rewrite nth_set_other in Hq by exact Hne. eapply I3; eauto.
  - intros b [<-|Hb].
    + cbn. exists ((p, (u + size)%Z) :: t), (u + size)%Z. rewrite (nth_set_same _ _ _ _ Hk). repeat split; try lia. left. reflexivity.
    + destruct (I4 b Hb) as (h2 & u2 & H1 & H2 & H3). destruct (Nat.eq_dec (bk_heap b) k) as [Ek|Hne].
      * rewrite Ek in *. rewrite Hk in H1. injection H1 as <-. rewrite (nth_set_same _ _ _ _ Hk).
        destruct H2 as [H2|H2].
        -- injection H2 as <- <-. eexists; exists (u + size)%Z. split; [reflexivity|]. split; [left; reflexivity|lia].
        -- eexists; exists u2. split; [reflexivity|]. split; [right; exact H2|lia].
      * exists h2, u2. rewrite nth_set_other by exact Hne. auto.
  - constructor; assumption.
  - rewrite all_pages_eq in *. cbn [sy_mgr sy_heaps]. rewrite app_length, (Permutation_length P), <- app_length. exact I7.
  - intros k2 z Hz. eapply I10, Hw, Hz.
Qed.

Lemma in_remove {A} (w : A) j l : In w (firstn j l ++ skipn (S j) l) -> In w l.
Proof.
  rewrite in_app_iff. intros [H|H].
  - rewrite <- (firstn_skipn j l). apply in_or_app. left. exact H.
  - rewrite <- (firstn_skipn (S j) l). apply in_or_app. right. exact H.
Qed.

Lemma settings_refl m : same_settings m m.
Proof. repeat split. Qed.

(* a page from the pool *)
Lemma inv_pop s k h size mmap wait failed a h' m' :
  sinv s -> nth_error (sy_heaps s) k = Some h -> (0 <= size <= mm_psize (sy_mgr s))%Z ->
  (forall p, mmap = Some p -> ~ In p (all_pages s)) ->
  (forall w, In w wait -> In w (sy_wait s)) ->
  add_page h size (memory_mgr_pop mmap (sy_mgr s)) = (a, h', m') ->
  failed = (sy_failed s + Z.max 0 (mm_count m' - mm_count (sy_mgr s) - (match mmap with Some _ => 1 | None => 0 end)))%Z ->
  sinv (alloc_done s k size wait failed (a, h', m')).
Proof.
  intros I Hk Hs Hfresh Hw E Ef. subst failed. unfold memory_mgr_pop, memory_mgr_pop_cache in E.
  pose proof (iv_fcount s I) as F. pose proof (iv_nodup s I) as D. rewrite all_pages_eq in D.
  destruct (mm_free (sy_mgr s)) as [|p t] eqn:Efree.
  - destruct (mm_limit (sy_mgr s) && (mm_wm (sy_mgr s) <=? mm_count (sy_mgr s) * mm_psize (sy_mgr s))%Z) eqn:L.
    + assert (X : a = (if mm_lerr (sy_mgr s) then AError else AWait) /\ h' = h /\ m' = mgr_hit (sy_mgr s)).
      { unfold add_page in E. cbn [fst snd] in E. destruct (mm_lerr (sy_mgr s)); injection E as <- <- <-; auto. }
      destruct X as (-> & -> & ->). cbn [alloc_done mgr_hit mm_count].
      replace (sy_failed s + Z.max 0 (mm_count (sy_mgr s) - mm_count (sy_mgr s) - match mmap with Some _ => 1 | None => 0 end))%Z with (sy_failed s) by (destruct mmap; lia).
      rewrite (set_same _ _ _ Hk).
      assert (R : forall wait', (forall k z, In (k, z) wait' -> In (k, z) (sy_wait s) \/ (0 <= z <= mm_psize (sy_mgr s))%Z) ->
        sinv (mk_sys (mgr_hit (sy_mgr s)) (sy_heaps s) wait' (sy_blocks s) (sy_failed s))).
      { intros wait' Hw'. apply inv_pool; auto; try reflexivity; [repeat split|]. cbn. apply I. }
      destruct (mm_lerr (sy_mgr s)); apply R.
      * intros. left. auto.
      * intros k2 z [Q|Q]; [injection Q as <- <-; right; exact Hs|left; auto].
    + destruct mmap as [p|].
      * unfold add_page in E. cbn [fst snd] in E. injection E as <- <- <-. cbn [alloc_done mgr_pages mm_count].
        replace (sy_failed s + Z.max 0 (mm_count (sy_mgr s) + 1 - mm_count (sy_mgr s) - 1))%Z with (sy_failed s) by lia.
        assert (Hn := Hfresh p eq_refl).
        apply inv_new_page; auto; try (repeat split; fail).
        -- intro Q. apply Hn. rewrite all_pages_eq. apply in_or_app. left. exact Q.
        -- right. split; [exact Hn|]. split; [symmetry; exact Efree|]. split; [reflexivity|]. cbn. intro L2. rewrite L2 in L. cbn in L. apply Z.leb_gt in L. exact L.
      * unfold add_page in E. cbn [fst snd] in E. injection E as <- <- <-. cbn [alloc_done mgr_pages mm_count].
        rewrite (set_same _ _ _ Hk).
        apply inv_pool; auto; try (repeat split; fail); cbn; try lia.
        intro L2. rewrite L2 in L. cbn in L. apply Z.leb_gt in L. lia.
  - unfold add_page in E. cbn [fst snd] in E. injection E as <- <- <-. cbn [alloc_done mgr_pages mm_count].
    replace (sy_failed s + Z.max 0 (mm_count (sy_mgr s) - mm_count (sy_mgr s) - match mmap with Some _ => 1 | None => 0 end))%Z with (sy_failed s) by (destruct mmap; lia).
    apply nodup_app in D. destruct D as (D1 & D2 & D3).
    apply inv_new_page; auto; try (repeat split; fail).
    + intro Q. apply (D3 p Q). left. reflexivity.
    + left. cbn. split; [|reflexivity]. rewrite Efree. apply Permutation_middle.
    + cbn [mm_fcount mm_free mgr_pages]. rewrite F. cbn [length]. lia.
Qed.

Lemma inv_wake s k h size wait a h' m' :
  sinv s -> nth_error (sy_heaps s) k = Some h -> (0 <= size <= mm_psize (sy_mgr s))%Z ->
  (forall w, In w wait -> In w (sy_wait s)) ->
  heap_allocate_wake h size (sy_mgr s) = (a, h', m') ->
  sinv (alloc_done s k size wait (sy_failed s) (a, h', m')).
Proof.
  intros I Hk Hs Hw E. unfold heap_allocate_wake, memory_mgr_wake, memory_mgr_pop_cache in E.
  pose proof (iv_fcount s I) as F. pose proof (iv_nodup s I) as D. rewrite all_pages_eq in D.
  destruct (mm_free (sy_mgr s)) as [|p t] eqn:Efree; unfold add_page in E; cbn [fst snd] in E; injection E as <- <- <-; cbn [alloc_done].
  - rewrite (set_same _ _ _ Hk). apply inv_pool; auto; try reflexivity; try (repeat split; fail); [apply I|].
    intros k2 z [Q|Q]; [injection Q as <- <-; right; exact Hs|left; auto].
  - apply nodup_app in D. destruct D as (D1 & D2 & D3).
    apply inv_new_page; auto; try (repeat split; fail).
    + intro Q. apply (D3 p Q). left. reflexivity.
    + left. cbn. split; [|reflexivity]. rewrite Efree. apply Permutation_middle.
    + cbn [mm_fcount mm_free mgr_pages]. rewrite F. cbn [length]. lia.
Qed.

Lemma forall_filter {A} (P : A -> Prop) f l : Forall P l -> Forall P (filter f l).
Proof. intro H. apply Forall_forall. intros x Hx. apply filter_In in Hx. exact (proj1 (Forall_forall _ _) H x (proj1 Hx)). Qed.
Lemma pairs_filter {A} (R : A -> A -> Prop) f l : ForallOrdPairs R l -> ForallOrdPairs R (filter f l).
Proof.
  induction 1 as [|a l Ha H IH]; cbn; [constructor|]. destruct (f a); [constructor; [apply forall_filter, Ha|exact IH]|exact IH].
Qed.

Lemma inv_reset s k h : sinv s -> nth_error (sy_heaps s) k = Some h ->
  sinv (mk_sys (fst (heap_reset h (sy_mgr s))) (set_nth k [] (sy_heaps s)) (sy_wait s)
               (filter (fun b => negb (Nat.eqb (bk_heap b) k)) (sy_blocks s)) (sy_failed s)).
Proof.
  intros I Hk.
  pose proof (hp_set [] _ _ _ Hk) as P. cbn [map app] in P.
  assert (Len : length (map fst h) = length h) by apply map_length.
  assert (M : same_settings (fst (heap_reset h (sy_mgr s))) (sy_mgr s) /\
    ((mm_free (fst (heap_reset h (sy_mgr s))) = rev (map fst h) ++ mm_free (sy_mgr s) /\
      mm_fcount (fst (heap_reset h (sy_mgr s))) = (mm_fcount (sy_mgr s) + Z.of_nat (length h))%Z /\
      mm_count (fst (heap_reset h (sy_mgr s))) = mm_count (sy_mgr s)) \/
     (mm_free (fst (heap_reset h (sy_mgr s))) = mm_free (sy_mgr s) /\ mm_fcount (fst (heap_reset h (sy_mgr s))) = mm_fcount (sy_mgr s) /\
      mm_count (fst (heap_reset h (sy_mgr s))) = (mm_count (sy_mgr s) - Z.of_nat (length h))%Z))).
  { destruct h as [|x h]; [split; [repeat split|left]; cbn; repeat split; lia|].
    unfold heap_reset, memory_mgr_push. destruct (_ <? _)%Z; cbn [fst mgr_pages]; (split; [repeat split|]); [left|right]; repeat split. }
  destruct M as [(E1 & E2 & E3 & E4 & E5) M]. set (m := fst (heap_reset h (sy_mgr s))) in *. clearbody m.
  destruct I as [I1 I2 I3 I4 I5 I6 I7 I8 I9 I10]. rewrite all_pages_eq in *.
  constructor; cbn [sy_mgr sy_heaps sy_wait sy_blocks sy_failed]; auto.
  - rewrite E1. exact I1.
  - rewrite all_pages_eq. cbn [sy_mgr sy_heaps]. destruct M as [(F1 & _)|(F1 & _)]; rewrite F1.
    + eapply Permutation_NoDup; [|exact I2]. rewrite <- P. rewrite app_assoc. apply Permutation_app_tail.
      rewrite <- (Permutation_rev (map fst h)). apply Permutation_app_comm.
    + assert (Q : NoDup ((map fst h ++ hp (set_nth k [] (sy_heaps s))) ++ mm_free (sy_mgr s))).
      { eapply Permutation_NoDup; [|exact I2]. apply Permutation_app_tail. symmetry. exact P. }
      rewrite <- app_assoc in Q. apply nodup_app in Q. apply Q.
  - intros k2 h2 q v Hq Hv. rewrite E1. destruct (Nat.eq_dec k2 k) as [->|Hne].
    + rewrite (nth_set_same _ _ _ _ Hk) in Hq. injection Hq as <-. destruct Hv.
    + rewrite nth_set_other in Hq by exact Hne. eapply I3; eauto.
  - intros b Hb. apply filter_In in Hb. destruct Hb as [Hb Hne]. apply negb_true_iff, Nat.eqb_neq in Hne.
    destruct (I4 b Hb) as (h2 & u2 & H1 & H2 & H3). exists h2, u2. rewrite nth_set_other by exact Hne. auto.
  - apply pairs_filter, I5.
  - destruct M as [(F1 & F2 & _)|(F1 & F2 & _)]; rewrite F1, F2, I6; [rewrite app_length, rev_length, Len; lia|reflexivity].
  - rewrite all_pages_eq. cbn [sy_mgr sy_heaps]. apply Permutation_length in P. rewrite app_length, Len in P. rewrite app_length in *.
    destruct M as [(F1 & _ & F3)|(F1 & _ & F3)]; rewrite F1, F3, I7; [rewrite app_length, rev_length, Len; lia|lia].
  - intro L. rewrite E1, E5. rewrite E3 in L. specialize (I9 L). destruct M as [(_ & _ & F3)|(_ & _ & F3)]; rewrite F3; [exact I9|].
    assert (0 <= Z.of_nat (length h))%Z by lia. nia.
  - intros k2 z Hz. rewrite E1. eapply I10, Hz.
Qed.

Lemma inv_gc s : sinv s ->
  sinv (mk_sys (fst (memory_mgr_reset (sy_mgr s))) (sy_heaps s) (sy_wait s) (sy_blocks s) (sy_failed s)).
Proof.
  intros [I1 I2 I3 I4 I5 I6 I7 I8 I9 I10]. rewrite all_pages_eq in *.
  constructor; cbn [sy_mgr sy_heaps sy_wait sy_blocks sy_failed memory_mgr_reset fst mgr_pages mm_psize mm_limit mm_count mm_wm mm_fcount mm_free]; auto.
  - rewrite all_pages_eq. cbn. rewrite app_nil_r. apply nodup_app in I2. apply I2.
  - rewrite all_pages_eq. cbn [sy_mgr sy_heaps mgr_pages mm_free]. rewrite app_nil_r. rewrite app_length in I7. lia.
  - intro L. specialize (I9 L). assert (0 <= mm_fcount (sy_mgr s) * mm_psize (sy_mgr s))%Z by (apply Z.mul_nonneg_nonneg; lia). rewrite Z.mul_sub_distr_r. lia.
Qed.

Lemma sstep_inv s o s' : sinv s -> sop_fine s o -> sstep s o = Some s' -> sinv s'.
Proof.
  intros I Hf E. destruct o as [k size mmap|j|k|]; cbn [sstep] in E.
  - destruct (nth_error (sy_heaps s) k) as [h|] eqn:Hk; [|discriminate]. destruct (waits s k); [discriminate|].
    injection E as <-. destruct Hf as [Hz Hfresh]. unfold heap_allocate.
    destruct (mm_psize (sy_mgr s) <? size)%Z eqn:L.
    { cbn [alloc_done snd]. rewrite (set_same _ _ _ Hk).
      replace (mm_count (sy_mgr s) - mm_count (sy_mgr s))%Z with 0%Z by lia.
      replace (sy_failed s + Z.max 0 (0 - match mmap with Some _ => 1 | None => 0 end))%Z with (sy_failed s) by (destruct mmap; lia).
      apply inv_pool; auto; try reflexivity; try (repeat split; fail); apply I. }
    apply Z.ltb_ge in L.
    destruct h as [|[p u] t].
    + destruct (add_page [] size (memory_mgr_pop mmap (sy_mgr s))) as [[a h'] m'] eqn:E.
      eapply inv_pop; [exact I|exact Hk|lia|exact Hfresh|auto|exact E|reflexivity].
    + destruct (mm_psize (sy_mgr s) - u <? size)%Z eqn:L2.
      * destruct (add_page ((p, u) :: t) size (memory_mgr_pop mmap (sy_mgr s))) as [[a h'] m'] eqn:E.
        eapply inv_pop; [exact I|exact Hk|lia|exact Hfresh|auto|exact E|reflexivity].
      * apply Z.ltb_ge in L2. cbn [alloc_done snd].
        replace (mm_count (sy_mgr s) - mm_count (sy_mgr s))%Z with 0%Z by lia.
        replace (sy_failed s + Z.max 0 (0 - match mmap with Some _ => 1 | None => 0 end))%Z with (sy_failed s) by (destruct mmap; lia).
        apply inv_bump; auto; lia.
  - destruct (nth_error (sy_wait s) j) as [[k size]|] eqn:Hj; [|discriminate].
    destruct (nth_error (sy_heaps s) k) as [h|] eqn:Hk; [|discriminate]. injection E as <-.
    destruct (heap_allocate_wake h size (sy_mgr s)) as [[a h'] m'] eqn:E.
    eapply inv_wake; eauto; [eapply (iv_wait s I), nth_error_In, Hj|]. intros w. apply in_remove.
  - destruct (nth_error (sy_heaps s) k) as [h|] eqn:Hk; [|discriminate]. destruct (waits s k); [discriminate|].
    injection E as <-. apply inv_reset; assumption.
  - injection E as <-. apply inv_gc, I.
Qed.

Lemma hp_empty n : hp (repeat [] n) = [].
Proof. induction n as [|n IH]; cbn; auto. Qed.
Lemma sys_new_inv n psize cache limit lerr wm : (0 < psize < 2 ^ 31)%Z -> (0 <= wm)%Z ->
  sinv (sys_new n (mgr_new psize cache limit lerr wm)).
Proof.
  intros Hp Hw. assert (E : all_pages (sys_new n (mgr_new psize cache limit lerr wm)) = []).
  { rewrite all_pages_eq. cbn. rewrite hp_empty. reflexivity. }
  constructor; try rewrite E; cbn; try lia; try tauto.
  - constructor.
  - intros k h p u Hk Hu. apply nth_error_In, repeat_spec in Hk. subst. destruct Hu.
  - constructor.
Qed.

Lemma srun_inv : forall l s s', sinv s -> hist_fine s l -> srun s l = Some s' -> sinv s'.
Proof.
  induction l as [|o l IH]; cbn [srun hist_fine]; intros s s' I Hf E; [congruence|].
  destruct Hf as [Ho Hf]. destruct (sstep s o) as [s1|] eqn:E1; [|discriminate].
  eapply IH; [|exact Hf|exact E]. eapply sstep_inv; eauto.
Qed.

(* the settings stay *)
Lemma sstep_settings s o s' : sstep s o = Some s' -> same_settings (sy_mgr s') (sy_mgr s).
Proof.
  assert (POP : forall mmap m, same_settings (snd (memory_mgr_pop mmap m)) m).
  { intros mmap m. unfold memory_mgr_pop, memory_mgr_pop_cache. destruct (mm_free m); [|repeat split].
    destruct (_ && _); [repeat split|]. destruct mmap; repeat split. }
  assert (ADD : forall h size r m, same_settings (snd r) m -> same_settings (snd (add_page h size r)) m).
  { intros h size [[p| |] m'] m H; exact H. }
  destruct o as [k size mmap|j|k|]; cbn [sstep].
  - destruct (nth_error (sy_heaps s) k) as [h|]; [|discriminate]. destruct (waits s k); [discriminate|].
    intro E. injection E as <-.
    destruct (heap_allocate h size mmap (sy_mgr s)) as [[a h'] m'] eqn:E. cbn.
    replace m' with (snd (heap_allocate h size mmap (sy_mgr s))) by (rewrite E; reflexivity). clear E.
    unfold heap_allocate. destruct (_ <? _)%Z; [repeat split|]. destruct h as [|[p u] t]; [apply ADD, POP|].
    destruct (_ <? _)%Z; [apply ADD, POP|repeat split].
  - destruct (nth_error (sy_wait s) j) as [[k size]|]; [|discriminate]. destruct (nth_error (sy_heaps s) k) as [h|]; [|discriminate].
    intro E. injection E as <-. destruct (heap_allocate_wake h size (sy_mgr s)) as [[a h'] m'] eqn:E. cbn.
    replace m' with (snd (heap_allocate_wake h size (sy_mgr s))) by (rewrite E; reflexivity). clear E.
    apply ADD. unfold memory_mgr_wake, memory_mgr_pop_cache. destruct (mm_free (sy_mgr s)); repeat split.
  - destruct (nth_error (sy_heaps s) k) as [h|]; [|discriminate]. destruct (waits s k); [discriminate|].
    intro E. injection E as <-. cbn. destruct h; [repeat split|]. unfold heap_reset, memory_mgr_push. destruct (_ <? _)%Z; repeat split.
  - intro E. injection E as <-. repeat split.
Qed.
Lemma srun_settings : forall l s s', srun s l = Some s' -> same_settings (sy_mgr s') (sy_mgr s).
Proof.
  induction l as [|o l IH]; cbn [srun]; intros s s' E; [injection E as ->; repeat split|].
  destruct (sstep s o) as [s1|] eqn:E1; [|discriminate]. apply IH in E. apply sstep_settings in E1.
  destruct E as (? & ? & ? & ? & ?), E1 as (? & ? & ? & ? & ?). repeat split; congruence.
Qed.
