(* Counters of storages. *)
From Coq Require Import NArith ZArith Arith List Bool Lia.
Import ListNotations.
From Verif Require Import Model.Base Model.Show Model.Tiering Spec.Tiering.
Local Arguments N.land : simpl never.
Local Arguments N.ldiff : simpl never.
Local Arguments N.lor : simpl never.
Local Arguments Z.pow : simpl never.
Local Arguments Z.modulo : simpl never.
Local Arguments N.leb : simpl never.
Local Arguments N.eqb : simpl never.
Local Arguments Nat.eqb : simpl never.

Lemma i64_add a b : i64 (i64 a + b) = i64 (a + b).
Proof.
  unfold i64. f_equal. replace (((a + 2 ^ 63) mod 2 ^ 64 - 2 ^ 63 + b + 2 ^ 63))%Z with ((a + 2 ^ 63) mod 2 ^ 64 + b)%Z by lia.
  rewrite Zplus_mod_idemp_l. f_equal. lia.
Qed.
Lemma i64_small z : (- 2 ^ 63 <= z < 2 ^ 63)%Z -> i64 z = z.
Proof. intro H. unfold i64. rewrite Z.mod_small; lia. Qed.

(* sums over a list where one element changes *)
Section SUMS.
Variable f : tpart -> Z.
Lemma sum_app a b : sum f (a ++ b) = (sum f a + sum f b)%Z.
Proof. induction a as [|x a IH]; cbn [app sum fold_right]; [reflexivity|]. fold (sum f (a ++ b)). fold (sum f a). rewrite IH. lia. Qed.
Lemma sum_skip n (l : list tpart) : ~ In n (map tp_min l) -> filter (fun q => negb (tp_min q =? n)%N) l = l.
Proof.
  induction l as [|x l IH]; cbn [filter map]; intro H; [reflexivity|]. destruct (N.eqb_spec (tp_min x) n) as [E|E]; cbn [negb].
  - exfalso. apply H. left. exact E.
  - rewrite IH; [reflexivity|]. intro I. apply H. right. exact I.
Qed.
Lemma map_skip p (l : list tpart) : ~ In (tp_min p) (map tp_min l) -> map (fun q => if (tp_min q =? tp_min p)%N then p else q) l = l.
Proof.
  induction l as [|x l IH]; cbn [map]; intro H; [reflexivity|]. destruct (N.eqb_spec (tp_min x) (tp_min p)) as [E|E].
  - exfalso. apply H. left. exact E.
  - rewrite IH; [reflexivity|]. intro I. apply H. right. exact I.
Qed.
Lemma sum_remove p l : NoDup (map tp_min l) -> In p l -> sum f (filter (fun q => negb (tp_min q =? tp_min p)%N) l) = (sum f l - f p)%Z.
Proof.
  induction l as [|x l IH]; cbn [filter map In]; intros N H; [contradiction|]. inversion N as [|a b N1 N2]; subst. destruct (N.eqb_spec (tp_min x) (tp_min p)) as [E|E]; cbn [negb].
  - assert (x = p). { destruct H as [H|H]; [exact H|]. exfalso. apply N1. rewrite E. apply in_map, H. } subst x. rewrite sum_skip by exact N1. cbn [sum fold_right]. unfold sum. lia.
  - destruct H as [H|H]; [congruence|]. cbn [sum fold_right]. fold (sum f l). fold (sum f (filter (fun q => negb (tp_min q =? tp_min p)%N) l)). rewrite IH by assumption. lia.
Qed.
Lemma sum_put p p' l : NoDup (map tp_min l) -> In p l -> tp_min p' = tp_min p ->
  sum f (map (fun q => if (tp_min q =? tp_min p')%N then p' else q) l) = (sum f l - f p + f p')%Z.
Proof.
  intros N H E'. rewrite E'. induction l as [|x l IH]; cbn [map In] in *; [contradiction|]. inversion N as [|a b N1 N2]; subst. destruct (N.eqb_spec (tp_min x) (tp_min p)) as [E|E].
  - assert (x = p). { destruct H as [H|H]; [exact H|]. exfalso. apply N1. rewrite E. apply in_map, H. } subst x.
    assert (M := map_skip p' l). rewrite E' in M. rewrite M by exact N1. cbn [sum fold_right]. unfold sum. lia.
  - destruct H as [H|H]; [congruence|]. cbn [sum fold_right]. unfold sum in IH |- *. rewrite IH by assumption. lia.
Qed.
End SUMS.
Lemma sum_filter (f : tpart -> Z) g l : sum f (filter g l) = sum (fun p => if g p then f p else 0%Z) l.
Proof. induction l as [|x l IH]; cbn [filter]; [reflexivity|]. unfold sum in *. cbn [fold_right]. destruct (g x); cbn [fold_right]; rewrite IH; lia. Qed.
Lemma sum_length (l : list tpart) : Z.of_nat (length l) = sum (fun _ => 1%Z) l.
Proof. induction l as [|x l IH]; unfold sum in *; cbn [length fold_right]; lia. Qed.
Lemma sum_nonneg (f : tpart -> Z) l : (forall p, 0 <= f p)%Z -> (0 <= sum f l)%Z.
Proof. intro H. induction l as [|x l IH]; unfold sum in *; cbn [fold_right]; [lia|]. specialize (H x). lia. Qed.

(* what one partition adds to the sums of a storage *)
Definition adds_count (s : nat) (p : tpart) : Z := if tp_storage p =? s then 1%Z else 0%Z.
Definition adds_size (s : nat) (p : tpart) : Z := if tp_storage p =? s then (if filed p then Z.of_N (tp_size p) else 0%Z) else 0%Z.
Definition adds_events (s : nat) (p : tpart) : Z := if tp_storage p =? s then (if filed p then Z.of_N (tp_events p) else 0%Z) else 0%Z.
Lemma count_sum d s : count_on d s = sum (adds_count s) (d_parts d).
Proof. unfold count_on, on. rewrite sum_length, sum_filter. reflexivity. Qed.
Lemma size_sum d s : size_on d s = sum (adds_size s) (d_parts d).
Proof. unfold size_on, on. rewrite sum_filter. reflexivity. Qed.
Lemma events_sum d s : events_on d s = sum (adds_events s) (d_parts d).
Proof. unfold events_on, on. rewrite sum_filter. reflexivity. Qed.
Lemma size_nonneg d s : (0 <= size_on d s)%Z.
Proof. apply sum_nonneg. intro p. destruct (filed p); lia. Qed.
Lemma events_nonneg d s : (0 <= events_on d s)%Z.
Proof. apply sum_nonneg. intro p. destruct (filed p); lia. Qed.

(* intervals *)
Lemma apart_mins (l : list tpart) : Forall (fun p => tp_min p <= tp_max p)%N l -> ForallOrdPairs apart l -> NoDup (map tp_min l).
Proof.
  intros F O. induction O as [|x l H O IH]; cbn [map]; [constructor|]. inversion F as [|a b F1 F2]; subst. constructor; [|apply IH, F2].
  intro I. apply in_map_iff in I. destruct I as (q & E & I). rewrite Forall_forall in H, F2. specialize (H q I). specialize (F2 q I). unfold apart in H. lia.
Qed.
Lemma ok_mins d l : Forall (part_ok d) l -> Forall (fun p => tp_min p <= tp_max p)%N l.
Proof. intro H. eapply Forall_impl; [|exact H]. intros p (A & _). exact A. Qed.
Lemma wf_mins d : wf d -> NoDup (map tp_min (d_parts d)).
Proof. intros (F & O & _). apply apart_mins; [apply (ok_mins d), F|exact O]. Qed.
Lemma apart_same (l : list tpart) p q id : Forall (fun p => tp_min p <= tp_max p)%N l -> ForallOrdPairs apart l -> In p l -> In q l ->
  (tp_min p <= id <= tp_max p)%N -> (tp_min q <= id <= tp_max q)%N -> p = q.
Proof.
  intros F O. induction O as [|x l H O IH]; intros Ip Iq Hp Hq; [destruct Ip|]. inversion F as [|a b F1 F2]; subst. rewrite Forall_forall in H.
  destruct Ip as [->|Ip], Iq as [->|Iq]; [reflexivity| | |apply IH; assumption].
  - specialize (H q Iq). unfold apart in H. lia.
  - specialize (H p Ip). unfold apart in H. lia.
Qed.
Lemma part_at_in d id p : part_at d id = Some p -> In p (d_parts d) /\ (tp_min p <= id <= tp_max p)%N.
Proof. intro H. apply find_some in H. destruct H as [H E]. apply andb_true_iff in E. rewrite !N.leb_le in E. tauto. Qed.
Lemma part_at_min d p : wf d -> In p (d_parts d) -> part_at d (tp_min p) = Some p.
Proof.
  intros (F & O & _) H. pose proof (ok_mins d _ F) as M. unfold part_at. destruct (find _ (d_parts d)) as [q|] eqn:E.
  - apply find_some in E. destruct E as [Iq E]. apply andb_true_iff in E. rewrite !N.leb_le in E. f_equal. apply (apart_same (d_parts d) q p (tp_min p) M O Iq H); [lia|].
    rewrite Forall_forall in M. specialize (M p H). cbn beta in M. lia.
  - exfalso. apply (find_none _ _ E) in H as H'. rewrite Forall_forall in M. specialize (M p H). cbn beta in *. rewrite N.leb_refl in H'. cbn [andb] in H'. apply N.leb_gt in H'. lia.
Qed.
Lemma storage_at_in d x : NoDup (map ts_id (d_storages d)) -> In x (d_storages d) -> storage_at d (ts_id x) = Some x.
Proof.
  unfold storage_at. induction (d_storages d) as [|y l IH]; intros N H; [destruct H|]. cbn [map] in N. inversion N as [|a b N1 N2]; subst. cbn [find].
  destruct (Nat.eqb_spec (ts_id y) (ts_id x)) as [E|E].
  - destruct H as [->|H]; [reflexivity|]. exfalso. apply N1. rewrite E. apply in_map, H.
  - destruct H as [->|H]; [congruence|]. apply IH; assumption.
Qed.
Lemma storage_at_some d s x : storage_at d s = Some x -> In x (d_storages d) /\ ts_id x = s.
Proof. intro H. apply find_some in H. destruct H as [H E]. apply Nat.eqb_eq in E. tauto. Qed.

(* storages keep their numbers and clouds *)
Definition frame (x : tstorage) := (ts_id x, ts_cloud x, ts_drop_local x).
Lemma part_ok_frame d d' p : map frame (d_storages d') = map frame (d_storages d) -> part_ok d p -> part_ok d' p.
Proof.
  intros E (A & B & x & I & J & K). split; [exact A|]. split; [exact B|]. apply (in_map frame) in I. rewrite <- E in I. apply in_map_iff in I. destruct I as (y & Ey & Iy).
  exists y. split; [exact Iy|]. unfold frame in Ey. injection Ey as E1 E2 _. split; [congruence|]. intro H. rewrite E2. apply K, H.
Qed.
Lemma frame_ids d d' : map frame (d_storages d') = map frame (d_storages d) -> map ts_id (d_storages d') = map ts_id (d_storages d).
Proof.
  intro E. assert (M : forall l, map ts_id l = map (fun f => fst (fst f)) (map frame l)) by (intro l; rewrite map_map; reflexivity). rewrite !M, E. reflexivity.
Qed.
Lemma wf_frame d d' : map frame (d_storages d') = map frame (d_storages d) -> d_tiers d' = d_tiers d -> d_parts d' = d_parts d -> wf d -> wf d'.
Proof.
  intros E T P (A & B & C & D & F). pose proof (frame_ids d d' E) as I. split; [|split; [|split; [|split]]].
  - rewrite P. eapply Forall_impl; [|exact A]. intros p. apply part_ok_frame, E.
  - rewrite P. exact B.
  - rewrite I. exact C.
  - intro H. rewrite H in I. destruct (d_storages d); [congruence|discriminate].
  - rewrite T, I. exact F.
Qed.
Lemma on_storage_frame d s f : (forall x, frame (f x) = frame x) -> map frame (d_storages (on_storage d s f)) = map frame (d_storages d).
Proof. intro H. cbn [on_storage d_storages]. rewrite map_map. apply map_ext. intro x. destruct (ts_id x =? s); [apply H|reflexivity]. Qed.
Lemma frame_add p x : frame (storage_add_metrics p x) = frame x.
Proof. unfold storage_add_metrics. destruct (tp_state p =? 0)%N; reflexivity. Qed.
Lemma frame_remove p x : frame (storage_remove_metrics p x) = frame x.
Proof. unfold storage_remove_metrics. destruct (tp_state p =? 0)%N; reflexivity. Qed.

(* a partition is replaced *)
Definition same_place (p p' : tpart) : Prop := tp_min p' = tp_min p /\ tp_max p' = tp_max p /\ tp_storage p' = tp_storage p.
Lemma put_ord p p' l : NoDup (map tp_min l) -> In p l -> same_place p p' -> ForallOrdPairs apart l ->
  ForallOrdPairs apart (map (fun q => if (tp_min q =? tp_min p')%N then p' else q) l).
Proof.
  intros N I (E1 & E2 & _) O.
  assert (A : forall q, In q l -> let r := if (tp_min q =? tp_min p')%N then p' else q in tp_min r = tp_min q /\ tp_max r = tp_max q).
  { intros q Iq. cbn zeta. destruct (N.eqb_spec (tp_min q) (tp_min p')) as [E|E]; [|tauto]. assert (q = p); [|subst q; tauto].
    clear - N I Iq E E1. rewrite E1 in E. induction l as [|x l IH]; [destruct I|]. cbn [map] in N. inversion N as [|a b N1 N2]; subst. destruct I as [->|I], Iq as [->|Iq]; [reflexivity| | |apply IH; assumption].
    - exfalso. apply N1. rewrite <- E. apply in_map, Iq.
    - exfalso. apply N1. rewrite E. apply in_map, I. }
  clear N I. induction O as [|x l H O IH]; cbn [map]; [constructor|]. constructor.
  - apply Forall_forall. intros y Iy. apply in_map_iff in Iy. destruct Iy as (q & <- & Iq). rewrite Forall_forall in H. specialize (H q Iq).
    destruct (A x (or_introl eq_refl)) as [A1 A2]. destruct (A q (or_intror Iq)) as [B1 B2]. cbn zeta in *. unfold apart in *. rewrite A1, A2, B1, B2. exact H.
  - apply IH. intros q Iq. apply A. right. exact Iq.
Qed.
Lemma put_wf d p p' : wf d -> In p (d_parts d) -> same_place p p' -> part_ok d p' -> wf (put_part d p').
Proof.
  intros W I S K. pose proof (wf_mins d W) as N. destruct W as (A & B & C & D & F). split; [|split; [|split; [|split]]]; try assumption.
  - cbn [put_part d_parts]. apply Forall_forall. intros y Iy. apply in_map_iff in Iy. destruct Iy as (q & <- & Iq). destruct (tp_min q =? tp_min p')%N; [exact K|].
    rewrite Forall_forall in A. apply A, Iq.
  - apply (put_ord p); assumption.
Qed.
Definition with_lost (lost : nat -> Z * Z) (s : nat) (a b : Z) : nat -> Z * Z :=
  fun i => if i =? s then ((fst (lost i) + a)%Z, (snd (lost i) + b)%Z) else lost i.
Lemma put_counted lost d p p' : wf d -> In p (d_parts d) -> same_place p p' -> counted lost d ->
  filed p' = filed p -> (filed p = true -> tp_size p' = tp_size p /\ tp_events p' = tp_events p) -> counted lost (put_part d p').
Proof.
  intros W I (E1 & E2 & E3) C F G x Ix. destruct (C x Ix) as (C1 & C2 & C3). pose proof (wf_mins d W) as N.
  rewrite count_sum, size_sum, events_sum in *. cbn [put_part d_parts]. rewrite !(sum_put _ p p') by assumption.
  assert (H : adds_count (ts_id x) p' = adds_count (ts_id x) p /\ adds_size (ts_id x) p' = adds_size (ts_id x) p /\ adds_events (ts_id x) p' = adds_events (ts_id x) p).
  { unfold adds_count, adds_size, adds_events. rewrite E3, F. destruct (tp_storage p =? ts_id x); [|tauto]. destruct (filed p); [|tauto]. destruct (G eq_refl) as [-> ->]. tauto. }
  destruct H as (H1 & H2 & H3). rewrite H1, H2, H3. repeat split; [lia|rewrite C2; f_equal; lia|rewrite C3; f_equal; lia].
Qed.
Lemma empty_counted lost d p p' : wf d -> In p (d_parts d) -> same_place p p' -> counted lost d -> filed p = true -> filed p' = false ->
  counted (with_lost lost (tp_storage p) (Z.of_N (tp_size p)) (Z.of_N (tp_events p))) (put_part d p').
Proof.
  intros W I (E1 & E2 & E3) C F G x Ix. destruct (C x Ix) as (C1 & C2 & C3). pose proof (wf_mins d W) as N.
  rewrite count_sum, size_sum, events_sum in *. cbn [put_part d_parts]. rewrite !(sum_put _ p p') by assumption. unfold with_lost, adds_count, adds_size, adds_events.
  rewrite E3, F, G. rewrite (Nat.eqb_sym (ts_id x)). destruct (tp_storage p =? ts_id x); cbn [fst snd]; repeat split; try lia; rewrite ?C2, ?C3; f_equal; unfold sum, adds_size, adds_events, adds_count in *; lia.
Qed.
(* a partition is added *)
Lemma add_wf d p : wf d -> part_ok d p -> Forall (fun q => apart q p) (d_parts d) -> wf (storage_add d p).
Proof.
  intros W K A. unfold storage_add. set (d1 := mk_tdb _ _ _). assert (W1 : wf d1).
  { destruct W as (B & C & D & E & F). split; [|split; [|split; [|split]]]; try assumption.
    - cbn [d1 d_parts]. apply Forall_app. split; [exact B|]. constructor; [exact K|constructor].
    - cbn [d1 d_parts]. clear - C A. induction C as [|x l H C IH]; cbn [app]; [constructor; constructor|]. inversion A as [|a b A1 A2]; subst. constructor; [|apply IH, A2].
      apply Forall_app. split; [exact H|]. constructor; [exact A1|constructor]. }
  eapply wf_frame; [| | |exact W1]; try reflexivity. apply on_storage_frame. intro x. rewrite frame_add. reflexivity.
Qed.
Lemma add_counted lost d p : counted lost d -> counted lost (storage_add d p).
Proof.
  intros C x Ix. unfold storage_add in Ix. cbn [on_storage d_storages] in Ix. apply in_map_iff in Ix. destruct Ix as (y & Ey & Iy). destruct (C y Iy) as (C1 & C2 & C3).
  assert (Ei : ts_id x = ts_id y) by (rewrite <- Ey; destruct (ts_id y =? tp_storage p); [unfold storage_add_metrics; destruct (tp_state p =? 0)%N|]; reflexivity). rewrite Ei.
  rewrite count_sum, size_sum, events_sum in *. cbn [storage_add on_storage d_parts]. rewrite !sum_app. unfold sum at 2 4 6. cbn [fold_right]. rewrite <- Ey.
  rewrite (Nat.eqb_sym (ts_id y)). destruct (tp_storage p =? ts_id y) eqn:Es.
  - unfold storage_add_metrics, adds_count at 2, adds_size at 2, adds_events at 2, filed. rewrite Es. destruct (tp_state p =? 0)%N; cbn [negb ts_count ts_size ts_events count_by].
    + repeat split; [lia|rewrite C2; f_equal; lia|rewrite C3; f_equal; lia].
    + rewrite C2, C3, !i64_add. repeat split; [lia|f_equal; lia|f_equal; lia].
  - unfold adds_count at 2, adds_size at 2, adds_events at 2. rewrite Es. repeat split; [lia|rewrite C2; f_equal; lia|rewrite C3; f_equal; lia].
Qed.
(* a partition is removed *)
Lemma filter_ord {A} (R : A -> A -> Prop) f l : ForallOrdPairs R l -> ForallOrdPairs R (filter f l).
Proof.
  intro O. induction O as [|x l H O IH]; cbn [filter]; [constructor|]. destruct (f x); [|exact IH]. constructor; [|exact IH].
  apply Forall_forall. intros y Iy. apply filter_In in Iy. rewrite Forall_forall in H. apply H. tauto.
Qed.
Lemma remove_wf d p : wf d -> wf (storage_remove d p).
Proof.
  intro W. unfold storage_remove. set (d1 := mk_tdb _ _ _). assert (W1 : wf d1).
  { destruct W as (B & C & D & E & F). split; [|split; [|split; [|split]]]; try assumption.
    - cbn [d1 d_parts]. apply Forall_forall. intros y Iy. apply filter_In in Iy. rewrite Forall_forall in B. apply B. tauto.
    - cbn [d1 d_parts]. apply filter_ord, C. }
  eapply wf_frame; [| | |exact W1]; try reflexivity. apply on_storage_frame. intro x. rewrite frame_remove. reflexivity.
Qed.
Lemma remove_counted lost d p : wf d -> In p (d_parts d) -> counted lost d -> counted lost (storage_remove d p).
Proof.
  intros W I C x Ix. pose proof (wf_mins d W) as N. unfold storage_remove in Ix. cbn [on_storage d_storages] in Ix. apply in_map_iff in Ix. destruct Ix as (y & Ey & Iy). destruct (C y Iy) as (C1 & C2 & C3).
  assert (Ei : ts_id x = ts_id y) by (rewrite <- Ey; destruct (ts_id y =? tp_storage p); [unfold storage_remove_metrics; destruct (tp_state p =? 0)%N|]; reflexivity). rewrite Ei.
  rewrite count_sum, size_sum, events_sum in *. cbn [storage_remove on_storage d_parts]. rewrite !sum_remove by assumption. rewrite <- Ey.
  rewrite (Nat.eqb_sym (ts_id y)). destruct (tp_storage p =? ts_id y) eqn:Es.
  - unfold storage_remove_metrics, adds_count at 2, adds_size at 2, adds_events at 2, filed. rewrite Es. destruct (tp_state p =? 0)%N; cbn [negb ts_count ts_size ts_events count_by].
    + repeat split; [lia|rewrite C2; f_equal; lia|rewrite C3; f_equal; lia].
    + unfold Z.sub at 2 5. rewrite C2, C3. unfold Z.sub at 1 3. rewrite !i64_add. repeat split; [lia|f_equal; lia|f_equal; lia].
  - unfold adds_count at 2, adds_size at 2, adds_events at 2. rewrite Es. repeat split; [lia|rewrite C2; f_equal; lia|rewrite C3; f_equal; lia].
Qed.
